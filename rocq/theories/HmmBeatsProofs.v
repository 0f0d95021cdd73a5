(** The beats reported by Hmm.v. *)
From Coq Require Import ZArith Reals Lra Lia Psatz Sorted.
From Flocq Require Import Core.
From Verif Require Import Rust F32 F32Facts F32More ListFacts Sorting PeakPicking PeakPickingProofs CombFilterProofs
  TimeSignatureProofs TempoVariationProofs Hmm HmmProofs.

(** What is assumed of libm's exponential: values in [0,1] on non-positive arguments, 0 at minus infinity. *)
Definition exp_ok (exp : f32 -> f32) : Prop := (forall x, fle x f0 = true -> in01 (exp x)) /\ exp fninf = f0.

(** The beat of frame [t], if any, stated without the state path. *)
Definition frame_beat (exp : f32 -> f32) (bpm : f32) (onsets : list f32) (t : nat) : list beat :=
  let time := frame_time (nth 0 onsets f0) (beat_interval bpm) t in
  let e := exp (exponent onsets time) in
  if fgt e (lit 13421773 (-27)) then [{| b_time := time; b_conf := beat_conf onsets e time |}] else [].

Definition beats_upto (exp : f32 -> f32) (bpm : f32) (onsets : list f32) (n : Z) : list beat :=
  flat_map (frame_beat exp bpm onsets) (seq 0 (Z.to_nat n)).

Lemma oseq_map_Ok : forall A B (f : A -> B) l, oseq (map (fun x => Ok (f x)) l) = Ok (map f l).
Proof. intros A B f l. induction l as [|x l IH]; [reflexivity|]. cbn [map oseq]. rewrite IH. reflexivity. Qed.

Lemma num_frames_spec : forall bpm onsets, num_frames bpm onsets = Panic \/
  exists n, num_frames bpm onsets = Ok n /\ (1 <= n <= usize_max)%Z.
Proof.
  intros bpm onsets. unfold num_frames. set (q := f2usize _). pose proof (f2usize_bounds (fceil
    (fdiv (fsub (last onsets f0) (nth 0 onsets f0)) (beat_interval bpm)))) as B. fold q in B. clearbody q.
  destruct (q + 1 >? usize_max)%Z eqn:E; [now left|right]. rewrite Z.gtb_ltb, Z.ltb_ge in E.
  destruct (q + 1 =? 0)%Z eqn:E2; [apply Z.eqb_eq in E2; lia|]. exists (q + 1)%Z. split; [reflexivity|lia].
Qed.

Definition frame_row (exp : f32 -> f32) (bpm : f32) (onsets : list f32) (t : nat) : list f32 :=
  repeat (exp (exponent onsets (frame_time (nth 0 onsets f0) (beat_interval bpm) t))) 5.

Lemma emissions_ok : forall exp bpm onsets n, onsets <> [] -> num_frames bpm onsets = Ok n ->
  compute_emissions exp bpm onsets (build_state_space bpm) = Ok (map (frame_row exp bpm onsets) (seq 0 (Z.to_nat n))).
Proof.
  intros exp bpm onsets n NE H. unfold compute_emissions. destruct onsets as [|start os]; [congruence|]. rewrite H.
  cbn [obind]. rewrite <- (oseq_map_Ok _ _ (frame_row exp bpm (start :: os))). apply f_equal. apply map_ext. intros t.
  unfold build_state_space. cbn [map]. rewrite emission_ok. reflexivity.
Qed.

Lemma rows_ok : forall exp bpm onsets l, exp_ok exp -> prob_table (map (frame_row exp bpm onsets) l) /\
  Forall flat (map (frame_row exp bpm onsets) l).
Proof.
  intros exp bpm onsets l (H & _). split.
  - apply Forall_forall. intros r Hr. apply in_map_iff in Hr. destruct Hr as (t & <- & _). split; [apply repeat_length|].
    apply Forall_forall. intros x Hx. apply repeat_spec in Hx. subst x. apply H, exponent_le.
  - apply Forall_forall. intros r Hr. apply in_map_iff in Hr. destruct Hr as (t & <- & _). intros s S. unfold frame_row.
    do 5 (destruct s as [|s]; [reflexivity|]). lia.
Qed.

Lemma path_ok : forall exp bpm onsets n, exp_ok exp -> 1 <= n ->
  viterbi build_transition_matrix (map (frame_row exp bpm onsets) (seq 0 n)) = Ok (repeat 0 n).
Proof.
  intros exp bpm onsets n He H. destruct n as [|n]; [lia|]. cbn [seq map]. rewrite viterbi_cons.
  destruct (rows_ok exp bpm onsets (seq 1 n) He) as (T & F). destruct (rows_ok exp bpm onsets [0] He) as (T0 & F0).
  cbn [map] in T0, F0. apply Forall_inv in T0, F0.
  set (e0 := frame_row exp bpm onsets 0) in *. clearbody e0.
  set (ems := map _ _) in *.
  assert (L : length ems = n) by (unfold ems; rewrite map_length, seq_length; reflexivity). clearbody ems.
  pose proof (start_in01 e0 (proj2 T0)) as V.
  assert (Ld : led (start_row e0)).
  { intros s S. rewrite !start_nth by lia. rewrite (F0 s S). apply fle_refl, in01_nn, in01_mul; [apply in01_fifth|].
    apply row_in01, T0. }
  destruct (led_path ems _ T F V Ld) as (P1 & P2). rewrite led_final; auto.
  - now rewrite P2, L.
  - apply forward_in01; auto. apply matrix_table.
Qed.

(** A kept frame is finite and close to a finite onset. *)
Lemma nearest_inf : forall exp onsets t, exp_ok exp -> nearest onsets t = finf ->
  fgt (exp (exponent onsets t)) (lit 13421773 (-27)) = false.
Proof.
  intros exp onsets t (_ & H) E. unfold exponent. rewrite E.
  replace (fdiv _ _) with fninf by (apply B2SF_inj; vm_compute; reflexivity). rewrite H. vm_compute. reflexivity.
Qed.

Lemma sub_fin_inv : forall a b, fin (fsub a b) -> fin a /\ fin b.
Proof.
  intros a b H. destruct a as [sa|sa| |sa ma ea ba]; destruct b as [sb|sb| |sb mb eb bb]; try discriminate H;
    try (split; reflexivity); destruct sa, sb; discriminate H.
Qed.

Lemma kept_near : forall exp onsets t, exp_ok exp -> fgt (exp (exponent onsets t)) (lit 13421773 (-27)) = true ->
  fin t /\ exists o, In o onsets /\ fin o /\ nearest onsets t = fabs (fsub o t).
Proof.
  intros exp onsets t He H.
  destruct (nearest_spec onsets t finf eq_refl) as (_ & L & C & _). cbv zeta in *. fold (nearest onsets t) in *.
  destruct C as [E|(o & Ho & E)]; [rewrite nearest_inf in H by auto; discriminate|].
  destruct (is_finite (fsub o t)) eqn:F.
  - destruct (sub_fin_inv _ _ F) as (Fo & Ft). split; [exact Ft|]. exists o. auto.
  - exfalso. assert (K : nearest onsets t = finf).
    { rewrite E. pose proof (fle_nn _ _ L) as (N & _). rewrite E in N. destruct (fsub o t); try discriminate F;
        try reflexivity. discriminate N. }
    rewrite nearest_inf in H by auto. discriminate.
Qed.

Lemma interval_ok : forall bpm, fle bpm eps10 = false -> fgt bpm (z2f 300) = false -> nn bpm ->
  fin (beat_interval bpm) /\ fle (lit 13421773 (-26)) (beat_interval bpm) = true.
Proof.
  intros bpm H1 H2 N. apply fle_false_flt in H1; auto. unfold fgt in H2. fold (flt (z2f 300) bpm) in H2.
  apply flt_false_fle in H2; auto.
  assert (P : pos bpm) by (refine (fle_flt_trans f0 eps10 _ _ H1); reflexivity).
  assert (F : fin bpm) by (refine (fin_between eps10 _ (z2f 300) _ _ (flt_fle _ _ H1) H2); reflexivity).
  assert (Nd : nn (beat_interval bpm)) by (apply fdiv_nn_fin; auto; reflexivity).
  assert (L : fle (lit 13421773 (-26)) (beat_interval bpm) = true).
  { replace (lit 13421773 (-26)) with (fdiv (z2f 60) (z2f 300)) by (apply B2SF_inj; vm_compute; reflexivity).
    apply fdiv_mono_r; auto. }
  split; [|exact L]. refine (fin_between (lit 13421773 (-26)) _ (fdiv (z2f 60) eps10) _ _ L _); [reflexivity|reflexivity|].
  apply fdiv_mono_r; auto; try reflexivity. now apply flt_fle.
Qed.

Lemma n2f_fin64 : forall t, (Z.of_nat t <= usize_max)%Z -> fin (n2f t).
Proof. intros t H. apply z2f_fin. unfold usize_max in H. lia. Qed.

Lemma frame_mono : forall start iv a b, fin iv -> nneg iv -> a <= b -> (Z.of_nat b <= usize_max)%Z ->
  nn (frame_time start iv a) -> nn (frame_time start iv b) -> fle (frame_time start iv a) (frame_time start iv b) = true.
Proof.
  intros start iv a b F P L B Na Nb. unfold frame_time in *. destruct (fadd_nan_l _ _ Na) as (Ns & _).
  assert (Fa : fin (n2f a)) by (apply n2f_fin64; lia). assert (Fb : fin (n2f b)) by (apply n2f_fin64; lia).
  apply fadd_mono; auto; [now apply fle_refl|]. apply fmul_mono; auto.
  - apply z2f_nneg. lia.
  - apply z2f_mono. lia.
  - now apply fle_refl, fin_nn.
  - now destruct (fmul_fx _ _ Fa F).
  - now destruct (fmul_fx _ _ Fb F).
Qed.

Lemma frame_ge : forall start iv a, fin iv -> nneg iv -> (Z.of_nat a <= usize_max)%Z -> nn (frame_time start iv a) ->
  fle start (frame_time start iv a) = true.
Proof.
  intros start iv a F P B N. unfold frame_time in *. destruct (fadd_nan_l _ _ N) as (Ns & _).
  assert (Fa : fin (n2f a)) by (now apply n2f_fin64).
  apply fadd_ge_l; auto. apply fmul_nneg_fin; auto. apply z2f_nneg. lia.
Qed.

(** A NaN tempo passes the validation but yields no beats. *)
Lemma nan_tempo : forall exp bpm onsets t, exp_ok exp -> is_nan bpm = true -> frame_beat exp bpm onsets t = [].
Proof.
  intros exp bpm onsets t He H. unfold frame_beat. cbv zeta.
  destruct (fgt _ _) eqn:G; [|reflexivity]. exfalso. apply kept_near in G; auto. destruct G as (F & _).
  apply fin_nn in F. unfold frame_time in F. apply fadd_nan_l in F. destruct F as (_ & F). apply fmul_nan_inv in F.
  destruct F as (_ & F). unfold beat_interval in F. apply div_nan_inv in F. destruct F as (_ & F). congruence.
Qed.

Lemma in_beats : forall exp bpm onsets n b, In b (beats_upto exp bpm onsets n) <->
  exists t, t < Z.to_nat n /\ In b (frame_beat exp bpm onsets t).
Proof.
  intros. unfold beats_upto. rewrite in_flat_map. split; intros (t & A & B); exists t; (split; [|exact B]);
    apply in_seq in A || apply in_seq; lia.
Qed.

Lemma frame_beat_in : forall exp bpm onsets t b, exp_ok exp -> In b (frame_beat exp bpm onsets t) ->
  b_time b = frame_time (nth 0 onsets f0) (beat_interval bpm) t /\ fin (b_time b) /\ nn bpm /\
  b_conf b = beat_conf onsets (exp (exponent onsets (b_time b))) (b_time b) /\
  fgt (exp (exponent onsets (b_time b))) (lit 13421773 (-27)) = true.
Proof.
  intros exp bpm onsets t b He H. destruct (is_nan bpm) eqn:N; [rewrite nan_tempo in H by auto; contradiction|].
  unfold frame_beat in H. cbv zeta in H. destruct (fgt _ _) eqn:G; [|contradiction].
  destruct H as [<-|[]]. cbn [b_time b_conf]. split; [reflexivity|]. split; [now apply kept_near in G|]. auto.
Qed.

Lemma beats_sorted : forall exp bpm onsets n, exp_ok exp -> fle bpm eps10 = false -> fgt bpm (z2f 300) = false ->
  (n <= usize_max)%Z -> StronglySorted (fun a b => fle (b_time a) (b_time b) = true) (beats_upto exp bpm onsets n).
Proof.
  intros exp bpm onsets n He V1 V2 Hn. unfold beats_upto.
  assert (K : forall k m, (Z.of_nat (k + m) <= usize_max)%Z ->
     StronglySorted (fun a b => fle (b_time a) (b_time b) = true) (flat_map (frame_beat exp bpm onsets) (seq k m))).
  { intros k m. revert k. induction m as [|m IH]; intros k Hk; [constructor|]. cbn [seq flat_map].
    assert (I := IH (S k) ltac:(lia)). destruct (frame_beat exp bpm onsets k) as [|b [|b' l]] eqn:E; cbn [app]; auto.
    - constructor; auto. apply Forall_forall. intros c Hc. apply in_flat_map in Hc. destruct Hc as (t & Ht & Hc).
      apply in_seq in Ht. assert (Hb : In b (frame_beat exp bpm onsets k)) by (rewrite E; now left).
      apply frame_beat_in in Hb; auto. apply frame_beat_in in Hc; auto.
      destruct Hb as (B1 & B2 & B3 & _). destruct Hc as (C1 & C2 & _).
      destruct (interval_ok bpm V1 V2 B3) as (F & L). rewrite B1 in *. rewrite C1 in *.
      apply frame_mono; auto; try (now apply fin_nn); try lia.
      refine (fle_trans f0 _ _ _ L). reflexivity.
    - exfalso. unfold frame_beat in E. cbv zeta in E.
      match type of E with (if ?c then _ else _) = _ => destruct c end; discriminate. }
  apply K. destruct (Z.le_gt_cases 0 n); [rewrite Nat2Z.inj_add, Z2Nat.id by lia; lia|].
  replace (Z.to_nat n) with 0 by lia. unfold usize_max. lia.
Qed.

(** The complete behaviour of the tracker. *)
Lemma track_cases : forall exp bpm onsets, exp_ok exp -> track_beats exp bpm onsets =
  if fle bpm eps10 || fgt bpm (z2f 300) then Err InvalidInput
  else if length onsets =? 0 then Err InvalidInput
  else match num_frames bpm onsets with Ok n => Ok (beats_upto exp bpm onsets n) | Err e => Err e | Panic => Panic end.
Proof.
  intros exp bpm onsets He. unfold track_beats. destruct (fle bpm eps10) eqn:V1; [reflexivity|].
  destruct (fgt bpm (z2f 300)) eqn:V2; [reflexivity|]. cbn [orb].
  destruct (length onsets =? 0) eqn:L0; [reflexivity|]. apply Nat.eqb_neq in L0. cbv zeta.
  assert (NE : onsets <> []) by (intros ->; cbn in L0; lia).
  destruct (num_frames_spec bpm onsets) as [E|(n & E & B)].
  - unfold compute_emissions. rewrite E. destruct onsets; [congruence|]. reflexivity.
  - rewrite (emissions_ok _ _ _ _ NE E), E. cbn [obind].
    rewrite path_ok by (auto; lia). cbn [obind]. unfold extract_beats. rewrite map_length, seq_length, repeat_length.
    replace (Z.to_nat n =? 0) with false by (symmetry; apply Nat.eqb_neq; lia). cbn [orb]. cbv zeta.
    replace (flat_map _ (seq 0 (Z.to_nat n))) with (beats_upto exp bpm onsets n).
    2:{ unfold beats_upto. rewrite !flat_map_concat_map. f_equal. apply map_ext_in. intros t Ht. apply in_seq in Ht.
        unfold frame_beat. cbv zeta. rewrite nth_repeat.
        rewrite (nth_indep _ [] (frame_row exp bpm onsets 0)) by (rewrite map_length, seq_length; lia).
        rewrite map_nth, seq_nth by lia. cbn [Nat.add]. unfold frame_row. cbn [repeat nth]. reflexivity. }
    unfold sort_times.
    assert (NN : existsb (fun x => fisnan (b_time x)) (beats_upto exp bpm onsets n) = false).
    { destruct (existsb _ _) eqn:X; [|reflexivity]. apply existsb_exists in X. destruct X as (b & Hb & X).
      apply in_beats in Hb. destruct Hb as (t & _ & Hb). apply frame_beat_in in Hb; auto. destruct Hb as (_ & F & _).
      apply fin_nn in F. unfold fisnan in X. congruence. }
    rewrite NN, andb_false_r. f_equal. apply sort_by_id. apply beats_sorted; auto. lia.
Qed.

(** Confidence of a beat. *)
Lemma beat_conf_in01 : forall onsets e t, in01 e -> in01 (beat_conf onsets e t).
Proof.
  intros onsets e t He. unfold beat_conf. cbv zeta. pose proof (nearest_nneg onsets t) as D.
  set (d := nearest onsets t) in *. clearbody d.
  assert (P : pos timing_tolerance) by (vm_compute; reflexivity).
  assert (Ft : fin timing_tolerance) by (vm_compute; reflexivity).
  assert (A : in01 (if flt d timing_tolerance then fsub f1 (fdiv d timing_tolerance) else f0)).
  { destruct (flt d timing_tolerance) eqn:L; [|apply in01_0]. apply flt_fle in L.
    assert (Fd : fin d) by (refine (fin_between f0 _ timing_tolerance _ Ft D L); reflexivity).
    assert (Q : in01 (fdiv d timing_tolerance)).
    { split; [apply fdiv_nneg; auto; now apply fdiv_nn_fin|now apply fdiv_le_1]. }
    set (q := fdiv d timing_tolerance) in *. clearbody q. pose proof (in01_fin _ Q) as Fq.
    assert (N : nn (fsub f1 q)) by (apply fsub_nn_fin; auto; reflexivity). split.
    - apply fsub_nneg; auto. apply Q.
    - apply fsub_le_l; auto. apply Q. }
  set (a := if flt d timing_tolerance then _ else _) in *. clearbody a.
  assert (I7 : in01 (lit 11744051 (-24))) by (split; vm_compute; reflexivity).
  assert (I3 : in01 (lit 5033165 (-24))) by (split; vm_compute; reflexivity).
  pose proof (in01_mul _ _ He I7) as M1. pose proof (in01_mul _ _ A I3) as M2.
  apply conf_cap. intros _. apply fadd_nneg; [apply M1|apply M2].
Qed.

(** ** Distance of kept frames *)
Lemma exponent_nn : forall onsets t, nn (exponent onsets t).
Proof. intros. exact (proj1 (fle_nn _ _ (exponent_le onsets t))). Qed.

Definition exponent_at (d : f32) : f32 := fdiv (fneg (fmul d d)) two_sigma_sq.
Lemma exponent_at_nn : forall d, nneg d -> nn (exponent_at d).
Proof.
  intros d H. apply fdiv_nn_pos; [|apply two_sigma_fin|apply two_sigma_pos]. rewrite fneg_nn. apply nneg_nn. now apply sq_nneg.
Qed.
Lemma exponent_anti : forall a b, nneg a -> fle a b = true -> fle (exponent_at b) (exponent_at a) = true.
Proof.
  intros a b A H. assert (B : nneg b) by exact (fle_trans _ _ _ A H).
  unfold exponent_at. apply fdiv_mono_l; [|apply two_sigma_pos|now apply exponent_at_nn|now apply exponent_at_nn].
  apply fneg_mono. apply fmul_mono; auto; apply nneg_nn; now apply sq_nneg.
Qed.

Lemma kept_close : forall exp onsets t,
  (forall x, fle x (lit (-37) (-4)) = true -> fle (exp x) (lit 13421773 (-27)) = true) ->
  flt (lit 13421773 (-27)) (exp (exponent onsets t)) = true -> flt (nearest onsets t) (lit 14495515 (-28)) = true.
Proof.
  intros exp onsets t H K. destruct (flt (nearest onsets t) _) eqn:L; [reflexivity|exfalso].
  pose proof (nearest_nneg onsets t) as D. apply flt_false_fle in L; [|now apply nneg_nn|reflexivity].
  assert (A : nneg (lit 14495515 (-28))) by (vm_compute; reflexivity).
  pose proof (exponent_anti _ _ A L) as E. change (exponent_at (nearest onsets t)) with (exponent onsets t) in E.
  assert (C : fle (exponent_at (lit 14495515 (-28))) (lit (-37) (-4)) = true) by (vm_compute; reflexivity).
  pose proof (H _ (fle_trans _ _ _ E C)) as Q. apply fle_flt_false in Q. congruence.
Qed.

Lemma close_kept : forall exp onsets t,
  (forall x, fle (lit (-9) (-2)) x = true -> fle x f0 = true -> flt (lit 13421773 (-27)) (exp x) = true) ->
  fle (nearest onsets t) (lit 14227079 (-28)) = true -> flt (lit 13421773 (-27)) (exp (exponent onsets t)) = true.
Proof.
  intros exp onsets t H K. apply H; [|apply exponent_le].
  pose proof (exponent_anti _ _ (nearest_nneg onsets t) K) as E.
  change (exponent_at (nearest onsets t)) with (exponent onsets t) in E. refine (fle_trans _ _ _ _ E).
  vm_compute. reflexivity.
Qed.

(** ** The first frame *)
Lemma zero_of_fx : forall x : f32, nn x -> fx x = 0%R -> exists s, x = B754_zero s.
Proof.
  intros x N H. assert (F : fin x) by (apply fin_iff; auto; rewrite H; pose proof big_pos; lra).
  rewrite fx_fin in H by auto. destruct x as [s| | |s m e b]; try discriminate F; [eauto|].
  exfalso. cbn in H. apply eq_0_F2R in H. destruct s; discriminate.
Qed.

Lemma frame_zero : forall start iv, fin start -> fin iv -> nneg iv ->
  fin (frame_time start iv 0) /\ fx (frame_time start iv 0) = fx start.
Proof.
  intros start iv Fs Fi P. unfold frame_time. change (n2f 0) with (z2f 0).
  destruct (z2f_exact 0 ltac:(lia)) as (F0 & E0).
  assert (Bg : (0 < big)%R) by apply big_pos.
  destruct (fmul_fx _ _ F0 Fi) as (N & E). rewrite E0, Rmult_0_l, rnd_0, sat_0 in E.
  assert (F1 : fin (fmul (z2f 0) iv)) by (apply fin_iff; auto; rewrite E; lra).
  rewrite (fx_fin _ F1) in E. destruct (fadd_fx _ _ Fs F1) as (N2 & E2). rewrite E, Rplus_0_r, rnd_B2R in E2.
  pose proof (fx_bound start) as B. rewrite (fx_fin _ Fs) in B. rewrite sat_id in E2 by exact B.
  split; [|now rewrite (fx_fin _ Fs)]. apply fin_iff; auto. rewrite E2. pose proof (B2R_lt start). lra.
Qed.

Lemma nearest_zero : forall onsets t, nth 0 onsets f0 = t \/ fx (nth 0 onsets f0) = fx t -> onsets <> [] ->
  fin (nth 0 onsets f0) -> fin t -> exists s, nearest onsets t = B754_zero s.
Proof.
  intros onsets t E NE Fo Ft. destruct onsets as [|o os]; [congruence|]. cbn [nth] in *.
  assert (Ex : fx o = fx t) by (destruct E as [->|E]; auto). rewrite !fx_fin in Ex by auto.
  destruct (nearest_spec (o :: os) t finf eq_refl) as (A & _ & _ & D). cbv zeta in *. fold (nearest (o :: os) t) in *.
  destruct (fsub_fx o t Fo Ft) as (N & Es). rewrite Ex, Rminus_eq_0, rnd_0, sat_0 in Es.
  specialize (D o (or_introl eq_refl) N). apply zero_of_fx; [now apply nneg_nn|].
  apply fle_fx in D. rewrite fabs_fx, Es, Rabs_R0 in D by auto. apply nneg_fx in A. lra.
Qed.

Lemma conf_zero : forall onsets t s, nearest onsets t = B754_zero s -> beat_conf onsets f1 t = f1.
Proof. intros onsets t s H. unfold beat_conf. rewrite H. apply B2SF_inj. destruct s; vm_compute; reflexivity. Qed.

Lemma exponent_zero : forall onsets t s, nearest onsets t = B754_zero s -> exists s', exponent onsets t = B754_zero s'.
Proof. intros onsets t s H. unfold exponent. rewrite H. eexists. apply B2SF_inj. destruct s; vm_compute; reflexivity. Qed.
