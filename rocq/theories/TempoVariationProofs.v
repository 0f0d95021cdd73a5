(** Lemmas for TempoVariation.v. *)
From Coq Require Import ZArith Reals Lra Lia Psatz Sorted.
From Flocq Require Import Core.
From Verif Require Import Rust F32 F32Facts F32More ListFacts NoveltyProofs Bounds PeakPicking PeakPickingProofs Onsets
  TimeSignature TimeSignatureProofs TempoVariation.

(** ** Non-negative or NaN *)
Definition nnan (x : f32) : Prop := nn x -> nneg x.

Lemma sq_nnan : forall d, nnan (fmul d d).
Proof.
  intros d N. destruct (fmul_nan_inv _ _ N) as (Nd & _). destruct (nn_cases d Nd) as [F|[->| ->]]; try reflexivity.
  destruct (fmul_fx d d F F) as (_ & E). apply nneg_iff; auto. rewrite E, <- sat_0. apply sat_mono, rnd_nonneg. nra.
Qed.

Lemma add_nnan : forall a b, nnan a -> nnan b -> nnan (fadd a b).
Proof. intros a b A B N. destruct (fadd_nan_l _ _ N) as (Na & Nb). apply fadd_nneg; [exact (A Na)|exact (B Nb)]. Qed.

Lemma sum_nnan : forall l acc, nnan acc -> Forall nnan l -> nnan (fold_left fadd l acc).
Proof.
  intros l. induction l as [|x l IH]; intros acc A H; cbn [fold_left]; auto.
  apply IH; [apply add_nnan; auto; now apply Forall_inv in H|now apply Forall_inv_tail in H].
Qed.

Lemma div_nan_inv : forall a b, nn (fdiv a b) -> nn a /\ nn b.
Proof.
  intros a b H. split.
  - destruct a; try reflexivity. destruct b; discriminate H.
  - destruct b; try reflexivity. destruct a; discriminate H.
Qed.

Lemma div_nnan : forall a b, nnan a -> (nn b -> pos b) -> nnan (fdiv a b).
Proof. intros a b A B N. destruct (div_nan_inv _ _ N) as (Na & Nb). apply fdiv_nneg; auto. Qed.

Lemma n2f_pos : forall n, 1 <= n -> pos (n2f n).
Proof.
  intros n H. refine (flt_fle_trans f0 (z2f 1) _ _ _); [reflexivity|]. unfold n2f. apply z2f_mono. lia.
Qed.

Lemma sqrt_nnan : forall x, nnan x -> nnan (fsqrt x).
Proof.
  intros x X N. destruct (is_nan x) eqn:E; [|now apply fsqrt_nneg, X].
  destruct x; try discriminate E. discriminate N.
Qed.

Lemma variance_nnan : forall l m, l <> [] -> nnan (variance l m).
Proof.
  intros l m H. unfold variance. apply div_nnan.
  - apply sum_nnan; [intros _; reflexivity|]. apply Forall_forall. intros y Hy. apply in_map_iff in Hy.
    destruct Hy as (x & <- & _). cbv zeta. apply sq_nnan.
  - intros _. apply n2f_pos. destruct l; [congruence|cbn [length]; lia].
Qed.

(** ** One window *)
Lemma conf_cap : forall q, nnan q -> in01 (fmin q f1).
Proof.
  intros q Q. split.
  - destruct (fmin_case q f1) as [E|E]; rewrite E; [|reflexivity].
    destruct (is_nan q) eqn:Nq; [|now apply Q]. unfold fmin, fisnan in E. rewrite Nq in E. now rewrite <- E.
  - apply fmin_le_r. reflexivity.
Qed.

Lemma one_minus : forall x, in01 x -> in01 (fmax (fsub f1 x) f0).
Proof.
  intros x (X0 & X1). assert (F : fin x) by (apply in01_fin; now split).
  assert (N : nn (fsub f1 x)) by (apply fsub_nn_fin; auto; reflexivity).
  split; [apply fmax_ge_r; reflexivity|]. apply fmax_lub; auto; try reflexivity. intros _.
  apply fsub_le_l; auto.
Qed.

(** What holds of every window's segment. *)
Definition seg_ok (nominal : f32) (s : tempo_segment) : Prop :=
  in01 (ts_conf s) /\ (ts_variable s = true -> fle (ts_conf s) fhalf = true) /\
  (ts_bpm s = nominal \/ nneg (ts_bpm s) \/ is_nan (ts_bpm s) = true).

Lemma segment_of_spec : forall beats nominal start stop s, In s (segment_of beats nominal start stop) ->
  ts_start s = start /\ ts_end s = stop /\ seg_ok nominal s.
Proof.
  intros beats nominal start stop s H. unfold segment_of in H.
  destruct (3 <=? _); [|destruct H]. cbv zeta in H.
  destruct (length (intervals _) =? 0) eqn:L; [destruct H|]. apply Nat.eqb_neq in L.
  set (iv := intervals _) in *. assert (Niv : iv <> []) by (intros E; rewrite E in L; cbn in L; lia). clearbody iv.
  destruct H as [<-|[]]. cbn [ts_start ts_end]. split; [reflexivity|]. split; [reflexivity|].
  unfold seg_ok. cbn [ts_conf ts_variable ts_bpm].
  set (m := mean iv) in *. clearbody m. pose proof (variance_nnan iv m Niv) as V. apply sqrt_nnan in V.
  set (sd := fsqrt (variance iv m)) in *. clearbody sd.
  assert (Pm : fgt m eps10 = true -> pos m).
  { intros G. unfold fgt in G. refine (fle_flt_trans f0 eps10 m _ G). reflexivity. }
  set (cv := if fgt m eps10 then fdiv sd m else f0).
  assert (C : nnan cv).
  { unfold cv. destruct (fgt m eps10) eqn:G; [|intros _; reflexivity]. apply div_nnan; auto. }
  assert (P3 : pos (lit 5033165 (-24))) by (vm_compute; reflexivity).
  assert (Q : nnan (fdiv cv (lit 5033165 (-24)))) by (apply div_nnan; auto).
  pose proof (conf_cap _ Q) as I. split; [now apply one_minus|]. split.
  - intros G. unfold fgt in G. fold (flt (lit 5033165 (-25)) cv) in G. clearbody cv.
    pose proof (flt_nn _ _ G) as (_ & Nc).
    assert (Nq : nn (fdiv cv (lit 5033165 (-24)))).
    { destruct (nneg_cases cv (C Nc)) as [(F & _)| ->]; [now apply fdiv_nn_fin|reflexivity]. }
    assert (Hq : fle fhalf (fmin (fdiv cv (lit 5033165 (-24))) f1) = true).
    { apply fmin_glb; auto. intros _.
      replace fhalf with (fdiv (lit 5033165 (-25)) (lit 5033165 (-24))) by (apply B2SF_inj; vm_compute; reflexivity).
      apply fdiv_mono_l; auto. now apply flt_fle. }
    set (q := fmin _ f1) in *. clearbody q. assert (Fq : fin q) by now apply in01_fin.
    apply fmax_lub; auto; try reflexivity. intros _.
    replace fhalf with (fsub f1 fhalf) by (apply B2SF_inj; vm_compute; reflexivity).
    apply fsub_mono; auto. apply fsub_nn_fin; auto; reflexivity.
  - destruct (fgt m eps10) eqn:G; [|now left]. right.
    destruct (is_nan (fdiv (z2f 60) m)) eqn:N; [now right|left]. apply fdiv_nneg; auto.
Qed.

(** ** The loop *)
Section Loop.
  Context (beats : list f32) (nominal final dur step : f32).
  Hypotheses (Fstep : fin step) (Pstep : pos step) (Sd : fle step dur = true) (Fdur : fin dur).
  Notation loop fuel cur := (segments_loop fuel beats nominal final dur step cur).

  Lemma next_nn : forall cur, nn cur -> nn (fadd cur step).
  Proof. intros. now apply fadd_nn_fin_r. Qed.
  Lemma next_ge : forall cur, nn cur -> fle cur (fadd cur step) = true.
  Proof. intros cur N. apply fadd_ge_l; auto. now apply pos_nneg. now apply next_nn. Qed.

  Lemma seg_stuck : forall fuel cur, nn cur -> flt cur final = true -> fle (fadd cur step) cur = true -> loop fuel cur = None.
  Proof.
    intros fuel. induction fuel as [|fuel IH]; intros cur N L S; [reflexivity|]. cbn [segments_loop]. rewrite L.
    rewrite IH; auto.
    - now apply next_nn.
    - exact (fle_flt_trans _ _ _ S L).
    - apply fadd_mono; auto; [now apply fle_refl, fin_nn| |now apply next_nn]. now apply next_nn, next_nn.
  Qed.

  Definition window_ok (cur : f32) (s : tempo_segment) : Prop :=
    fle cur (ts_start s) = true /\ flt (ts_start s) final = true /\ flt (ts_start s) (ts_end s) = true /\
    fle (ts_end s) final = true /\ seg_ok nominal s.

  Lemma loop_windows : forall fuel cur r, nn cur -> nn final -> loop fuel cur = Some r ->
    Forall (window_ok cur) r /\ StronglySorted (fun a b => flt (ts_start a) (ts_start b) = true) r.
  Proof.
    intros fuel. induction fuel as [|fuel IH]; intros cur r N Nf H; [discriminate|]. cbn [segments_loop] in H.
    destruct (flt cur final) eqn:L; [|injection H as <-; split; constructor].
    destruct (loop fuel (fadd cur step)) as [r'|] eqn:E; [|discriminate].
    assert (Er : r = segment_of beats nominal cur (fmin (fadd cur dur) final) ++ r') by congruence. subst r. clear H.
    assert (G : flt cur (fadd cur step) = true).
    { destruct (flt cur (fadd cur step)) eqn:G; auto. exfalso.
      apply flt_false_fle in G; auto; [|now apply next_nn].
      assert (Fi : flt (fadd cur step) final = true) by exact (fle_flt_trans _ _ _ G L).
      rewrite seg_stuck in E; [discriminate|now apply next_nn|exact Fi|].
      apply fadd_mono; auto; [now apply fle_refl, fin_nn| |now apply next_nn]. now apply next_nn, next_nn. }
    destruct (IH _ _ (next_nn _ N) Nf E) as (W & S).
    assert (Nd : nn (fadd cur dur)) by now apply fadd_nn_fin_r.
    assert (Gd : flt cur (fadd cur dur) = true).
    { refine (flt_fle_trans _ _ _ G _). apply fadd_mono; auto; [now apply fle_refl|now apply next_nn]. }
    assert (W' : Forall (window_ok cur) r').
    { eapply Forall_impl; [|exact W]. intros s (A & B). split; auto. apply flt_fle in G. exact (fle_trans _ _ _ G A). }
    assert (Wc : Forall (window_ok cur) (segment_of beats nominal cur (fmin (fadd cur dur) final))).
    { apply Forall_forall. intros s Hs. apply segment_of_spec in Hs. destruct Hs as (E1 & E2 & K).
      unfold window_ok. rewrite E1, E2. split; [now apply fle_refl|]. split; [exact L|]. split; [|split; [|exact K]].
      - destruct (fmin_case (fadd cur dur) final) as [-> | ->]; auto.
      - now apply fmin_le_r. }
    split; [apply Forall_app; now split|].
    assert (Hd : forall s, In s (segment_of beats nominal cur (fmin (fadd cur dur) final)) ->
              Forall (fun b => flt (ts_start s) (ts_start b) = true) r').
    { intros s Hs. apply segment_of_spec in Hs. destruct Hs as (-> & _).
      eapply Forall_impl; [|exact W]. intros b (A & _). exact (flt_fle_trans _ _ _ G A). }
    assert (Ls : length (segment_of beats nominal cur (fmin (fadd cur dur) final)) <= 1).
    { unfold segment_of. destruct (3 <=? _); [|cbn; lia]. cbv zeta. destruct (length (intervals _) =? 0); cbn; lia. }
    destruct (segment_of _ _ _ _) as [|s [|s' l]]; cbn [app]; auto.
    - constructor; auto. apply Hd. now left.
    - cbn [length] in Ls. lia.
  Qed.

  Lemma loop_mono_fuel : forall n cur r, loop n cur = Some r -> forall k, n <= k -> loop k cur = Some r.
  Proof.
    intros n. induction n as [|n IH]; intros cur r H k K; [discriminate|]. destruct k as [|k]; [lia|].
    cbn [segments_loop] in *. destruct (flt cur final); auto.
    destruct (loop n (fadd cur step)) as [r'|] eqn:E; [|discriminate]. now rewrite (IH _ _ E k ltac:(lia)).
  Qed.

  (** Progress by at least 1/4 below 2^23. *)
  Hypotheses (S1 : (1 <= B2R step)%R) (S8 : (B2R step <= 8)%R).
  Lemma progress : forall cur, fin cur -> (Rabs (B2R cur) <= 8388608)%R ->
    fin (fadd cur step) /\ (B2R cur + / 4 <= B2R (fadd cur step))%R.
  Proof.
    intros cur F B. destruct (fadd_fx cur step F Fstep) as (N & E). apply Rabs_le_inv in B.
    destruct (rnd_err (B2R cur + B2R step)) as (e & h & H1 & H2 & _ & R).
    apply Rabs_le_inv in H1, H2.
    assert (T : (bpow radix2 (-150) <= / 1048576)%R).
    { apply Rle_trans with (bpow radix2 (-20)); [apply bpow_le; lia|cbn; lra]. }
    assert (T2 : (bpow radix2 (-24) = / 16777216)%R) by (cbn; lra). rewrite T2 in H1.
    assert (M : (Rabs ((B2R cur + B2R step) * e) <= 8388616 * / 16777216)%R).
    { rewrite Rabs_mult. apply Rmult_le_compat; try apply Rabs_pos; apply Rabs_le; lra. }
    apply Rabs_le_inv in M.
    assert (RB : (-10000000 <= rnd (B2R cur + B2R step) <= 10000000)%R) by (rewrite R; split; lra).
    assert (Bg : (10000000 < big)%R) by (rewrite big_val; apply IZR_lt; lia).
    rewrite sat_id in E by lra.
    assert (Fi : fin (fadd cur step)) by (apply fin_iff; auto; lra).
    split; auto. rewrite <- (fx_fin _ Fi), E, R. lra.
  Qed.

  Lemma seg_ends : forall k cur, fin cur -> fin final -> (-8388608 <= B2R cur)%R -> (B2R final <= 8388608)%R ->
    (B2R final - B2R cur <= INR k * / 4)%R -> exists r, loop (S k) cur = Some r.
  Proof.
    intros k. induction k as [|k IH]; intros cur F Ff L U D; cbn [segments_loop].
    - destruct (flt cur final) eqn:E; eauto. apply flt_fx in E. rewrite !fx_fin in E by auto. cbn in D. lra.
    - destruct (flt cur final) eqn:E; eauto. apply flt_fx in E. rewrite !fx_fin in E by auto.
      destruct (progress cur F) as (Fn & P). { apply Rabs_le. lra. }
      destruct (IH (fadd cur step) Fn Ff) as (r & Hr); [lra|auto|rewrite S_INR in D; lra|].
      cbn [segments_loop] in Hr. rewrite Hr. eauto.
  Qed.
End Loop.

(** The window step. *)
Lemma step_spec : forall total, nn total -> let dur := fclamp_val (fdiv total (z2f 4)) (z2f 4) (z2f 8) in
  let step := fsub dur (fmul dur fhalf) in
  fin dur /\ fin step /\ pos step /\ fle step dur = true /\ (1 <= B2R step <= 8)%R.
Proof.
  intros total N dur step.
  assert (Nq : nn (fdiv total (z2f 4))).
  { destruct (nn_cases total N) as [F|[-> | ->]]; try reflexivity. apply fdiv_nn_fin; auto; reflexivity. }
  assert (D1 : fle (z2f 4) dur = true) by (apply fclamp_val_ge; auto).
  assert (D2 : fle dur (z2f 8) = true) by (apply fclamp_val_le; auto).
  assert (Fd : fin dur) by (refine (fin_between (z2f 4) _ (z2f 8) _ _ D1 D2); reflexivity).
  clearbody dur. assert (V : forall z, (Z.abs z <= 16777216)%Z -> fx (z2f z) = IZR z).
  { intros z H. destruct (z2f_exact z H) as (F & E). now rewrite fx_fin. }
  apply fle_fx in D1, D2. rewrite (fx_fin _ Fd), V in D1 by lia. rewrite (fx_fin _ Fd), V in D2 by lia.
  assert (Bg : (1000 < big)%R) by (rewrite big_val; apply IZR_lt; lia).
  assert (Fh : fin fhalf) by reflexivity.
  destruct (fmul_fx dur fhalf Fd Fh) as (Nh & Eh). rewrite B2R_fhalf in Eh.
  assert (Rh : (2 <= rnd (B2R dur * / 2) <= 4)%R).
  { split; [rewrite <- (rnd_Z 2) at 1 by lia|rewrite <- (rnd_Z 4) by lia]; apply rnd_mono; lra. }
  assert (Rl : (rnd (B2R dur * / 2) <= B2R dur * / 2 + / 1024)%R).
  { destruct (rnd_err (B2R dur * / 2)) as (e & h & H1 & H2 & _ & ->). apply Rabs_le_inv in H1, H2.
    assert (T : (bpow radix2 (-150) <= / 1048576)%R).
    { apply Rle_trans with (bpow radix2 (-20)); [apply bpow_le; lia|cbn; lra]. }
    assert (T2 : (bpow radix2 (-24) = / 16777216)%R) by (cbn; lra). rewrite T2 in H1.
    assert (M : (Rabs (B2R dur * / 2 * e) <= 4 * / 16777216)%R).
    { rewrite Rabs_mult. apply Rmult_le_compat; try apply Rabs_pos; apply Rabs_le; lra. }
    apply Rabs_le_inv in M. lra. }
  rewrite sat_id in Eh by lra.
  assert (Fo : fin (fmul dur fhalf)) by (apply fin_iff; auto; lra). rewrite (fx_fin _ Fo) in Eh.
  unfold step. destruct (fsub_fx dur (fmul dur fhalf) Fd Fo) as (Ns & Es). rewrite Eh in Es.
  assert (Rs : (1 <= rnd (B2R dur - rnd (B2R dur * / 2)) <= 8)%R).
  { split; [rewrite <- (rnd_Z 1) at 1 by lia|rewrite <- (rnd_Z 8) by lia]; apply rnd_mono; lra. }
  rewrite sat_id in Es by lra.
  assert (Fs : fin (fsub dur (fmul dur fhalf))) by (apply fin_iff; auto; lra).
  rewrite (fx_fin _ Fs) in Es. split; [exact Fd|]. split; [exact Fs|]. split; [|split].
  - apply flt_intro; [reflexivity|exact Ns|]. rewrite (fx_fin _ Fs), Es. cbn. lra.
  - apply fsub_le_l; auto; [|now apply fin_nn]. apply nneg_iff; auto. rewrite (fx_fin _ Fo), Eh. lra.
  - rewrite Es. lra.
Qed.

Lemma total_nn : forall a b, flt a b = true -> nn (fsub b a).
Proof.
  intros a b H. destruct (flt_nn _ _ H) as (Na & Nb).
  destruct (is_finite a) eqn:Fa; destruct (is_finite b) eqn:Fb; [now apply fsub_nn_fin|..];
    destruct a as [sa|sa| |sa ma ea ba]; try discriminate Fa; try discriminate Na; destruct b as [sb|sb| |sb mb eb bb];
    try discriminate Fb; try discriminate Nb; try reflexivity.
  destruct sa, sb; try discriminate H; reflexivity.
Qed.
