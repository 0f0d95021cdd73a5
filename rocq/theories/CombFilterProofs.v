From Coq Require Import ZArith Bool List Arith Lia Sorted Reals Lra Psatz.
From Flocq Require Import Core IEEE754.BinarySingleNaN.
From Verif Require Import Rust F32 F32Facts F32More ListFacts Sorting SortingFacts PeakPicking PeakPickingProofs Candidate BpmLoop BpmLoopProofs
  Autocorrelation CombFilter.
Import ListNotations.

Lemma n2f_nneg : forall n, nneg (n2f n).
Proof. intros n. apply z2f_nneg. lia. Qed.
Lemma n2f_pos : forall n, 0 < n -> pos (n2f n).
Proof.
  intros n H. apply flt_fle_trans with (y := z2f 1); [reflexivity|]. apply z2f_mono. lia.
Qed.

(** A quotient of two counts. *)
Lemma count_ratio : forall a b, a <= b -> 0 < b -> (Z.of_nat b <= 2 ^ 64)%Z -> in01 (fdiv (n2f a) (n2f b)).
Proof.
  intros a b A B Z.
  assert (Fb : fin (n2f b)) by (apply z2f_fin; lia).
  assert (Fa : fin (n2f a)) by (apply z2f_fin; lia).
  assert (N : nn (fdiv (n2f a) (n2f b))) by (apply fdiv_nn_fin; auto using n2f_pos).
  split.
  - apply fdiv_nneg; auto using n2f_nneg, n2f_pos.
  - apply fdiv_le_1; auto using n2f_nneg, n2f_pos. apply z2f_mono. lia.
Qed.

Lemma filter_len : forall A (f : A -> bool) l, length (filter f l) <= length l.
Proof. intros A f l. induction l as [|x l IH]; simpl; auto. destruct (f x); simpl; lia. Qed.

Lemma score_01 : forall onsets rate bpm tol s, score_bpm onsets rate bpm tol = Ok s -> in01 s.
Proof.
  intros onsets rate bpm tol s H. unfold score_bpm in H. destruct onsets as [|o os]; [injection H as <-; apply in01_0|].
  match type of H with (if ?b then _ else _) = _ => destruct b end; [discriminate|].
  set (b := f2usize _) in H. pose proof (f2usize_bounds (fceil (fdiv (n2f (last os o)) (fdiv (sixty_rate rate) bpm)))) as B.
  fold b in B. destruct (Z.leb_spec usize_max b); [discriminate|].
  match type of H with Ok (if ?c then _ else _) = _ => destruct c eqn:C end; injection H as <-; [|apply in01_0].
  apply Nat.ltb_lt in C. apply count_ratio; auto.
  - eapply Nat.le_trans; [apply filter_len|]. now rewrite seq_length.
  - unfold usize_max in *. lia.
Qed.
Lemma body_01 : forall onsets rate bpm s, comb_body onsets rate bpm = Ok s -> in01 s.
Proof.
  intros onsets rate bpm s H. unfold comb_body in H. destruct (adaptive_tolerance bpm); try discriminate.
  now apply score_01 in H.
Qed.

(** The running maximum. *)
Lemma best_score_spec : forall l a, in01 a -> Forall (fun p : f32 * f32 => in01 (snd p)) l ->
  let m := fold_left (fun m p => if fgt (snd p) m then snd p else m) l a in
  in01 m /\ fle a m = true /\ (forall p, In p l -> fle (snd p) m = true) /\ (m = a \/ exists p, In p l /\ m = snd p).
Proof.
  induction l as [|p l IH]; intros a Ha H; cbn [fold_left].
  - split; auto. split; [apply fle_refl, fin_nn, in01_fin, Ha|]. split; [intros ? []|auto].
  - inversion H as [|? ? Hp Hl]; subst.
    assert (Ha' : in01 (if fgt (snd p) a then snd p else a)) by (destruct (fgt _ _); auto).
    destruct (IH _ Ha' Hl) as (A & B & C & D). cbv zeta.
    assert (fle a (if fgt (snd p) a then snd p else a) = true /\ fle (snd p) (if fgt (snd p) a then snd p else a) = true) as (E1 & E2).
    { assert (nn a) by (apply fin_nn, in01_fin, Ha). assert (nn (snd p)) by (apply fin_nn, in01_fin, Hp).
      destruct (fgt (snd p) a) eqn:G; unfold fgt in G; change (flt a (snd p) = true) in G || change (flt a (snd p) = false) in G.
      - split; [now apply flt_fle|now apply fle_refl].
      - split; [now apply fle_refl|]. now apply flt_false_fle. }
    split; auto. split; [eapply fle_trans; eauto|]. split.
    + intros q [<-|Q]; auto. eapply fle_trans; eauto.
    + destruct D as [->|(q & Q & ->)]; [|right; exists q; simpl; auto].
      destruct (fgt (snd p) a); auto. right. exists p. simpl; auto.
Qed.


Lemma fdiv_self : forall m, fin m -> pos m -> fdiv m m = f1.
Proof.
  intros m F P. pose proof (B2R_pos _ F P) as Pm.
  destruct (fdiv_fx m m F F ltac:(lra)) as (N & E).
  replace (B2R m / B2R m)%R with (B2R f1) in E by (rewrite B2R_f1; field; lra).
  rewrite rnd_B2R, B2R_f1 in E. rewrite sat_id in E by (pose proof (B2R_lt f1); rewrite B2R_f1 in *; lra).
  symmetry. apply fle_antisym_pos; [| |reflexivity]; apply fle_intro; auto; rewrite E, fx_f1; lra.
Qed.

Definition conf_of (m s : f32) : f32 := if fgt m eps10 then fdiv s m else f0.

Lemma finish_spec : forall l, Forall (fun p : f32 * f32 => in01 (snd p)) l ->
  let cs := comb_finish l in
  (forall c, In c cs <-> exists p, In p l /\ c = mkCand (fst p) (conf_of (best_score l) (snd p)) /\
      fle (lit 13421773 (-27)) (c_conf c) = true) /\
  (forall c, In c cs -> fle (lit 13421773 (-27)) (c_conf c) = true /\ fle (c_conf c) f1 = true) /\
  StronglySorted (fun a b => fle (c_conf b) (c_conf a) = true) cs /\
  (forall c r, cs = c :: r -> c_conf c = f1).
Proof.
  intros l H. unfold comb_finish. set (m := best_score l).
  destruct (best_score_spec l f0 in01_0 H) as (M01 & _ & Mge & Min). fold (best_score l) in M01, Mge, Min. fold m in M01, Mge, Min.
  set (norm := map _ l).
  assert (In_norm : forall c, In c norm <-> exists p, In p l /\ c = mkCand (fst p) (conf_of m (snd p))).
  { intros c. unfold norm. rewrite in_map_iff. split; intros (p & A & B); exists p; auto. }
  assert (C01 : forall p, In p l -> in01 (conf_of m (snd p))).
  { intros p P. unfold conf_of. destruct (fgt m eps10) eqn:G; [|apply in01_0].
    assert (Pm : pos m) by (eapply flt_fle_trans with (y := eps10); [reflexivity|]; now apply flt_fle).
    rewrite Forall_forall in H. pose proof (H p P) as Hp.
    assert (N : nn (fdiv (snd p) m)) by (apply fdiv_nn_fin; auto using in01_fin).
    split; [apply fdiv_nneg|apply fdiv_le_1]; auto using in01_fin; try apply Hp. }
  assert (Srt : StronglySorted (fun a b => fle (c_conf b) (c_conf a) = true) (sort_desc c_conf norm)).
  { apply sort_desc_sorted. apply Forall_forall. intros c C. apply In_norm in C as (p & P & ->).
    apply nneg_nn, (C01 p P). }
  set (cs := filter _ _).
  assert (In_cs : forall c, In c cs <-> exists p, In p l /\ c = mkCand (fst p) (conf_of m (snd p)) /\
      fle (lit 13421773 (-27)) (c_conf c) = true).
  { intros c. unfold cs. rewrite filter_In, sort_desc_in, In_norm. split.
    - intros ((p & P & E) & G). exists p. auto.
    - intros (p & P & E & G). split; eauto. }
  assert (Bd : forall c, In c cs -> fle (lit 13421773 (-27)) (c_conf c) = true /\ fle (c_conf c) f1 = true).
  { intros c C. apply In_cs in C as (p & P & -> & G). split; auto. apply (C01 p P). }
  assert (Sc : StronglySorted (fun a b => fle (c_conf b) (c_conf a) = true) cs) by now apply StronglySorted_filter.
  split; auto. split; auto. split; auto.
  intros c r E. assert (Hc : In c cs) by (rewrite E; left; auto).
  destruct (proj1 (In_cs c) Hc) as (p & P & Ec & G).
  assert (Gm : fgt m eps10 = true).
  { destruct (fgt m eps10) eqn:G'; auto. rewrite Ec in G. unfold conf_of in G. rewrite G' in G. discriminate. }
  destruct Min as [Em|(q & Q & Em)]; [rewrite Em in Gm; discriminate|].
  assert (Pm : pos m) by (eapply flt_fle_trans with (y := eps10); [reflexivity|]; now apply flt_fle).
  assert (Ct : In (mkCand (fst q) f1) cs).
  { apply In_cs. exists q. split; auto. split; [|reflexivity]. f_equal. unfold conf_of. rewrite Gm, <- Em.
    symmetry. apply fdiv_self; auto using in01_fin. }
  assert (L : fle f1 (c_conf c) = true).
  { rewrite E in Ct. destruct Ct as [Ct|Ct]; [rewrite Ct; reflexivity|].
    rewrite E in Sc. inversion Sc as [|? ? _ F]. rewrite Forall_forall in F. apply (F _ Ct). }
  symmetry. apply fle_antisym_pos; auto. apply (Bd c Hc).
Qed.

(** The accepted case of estimate_comb. *)
Definition cb_valid (onsets : list nat) (rate : nat) (mn mx res : f32) : Prop :=
  onsets <> [] /\ rate <> 0 /\ fle mn f0 = false /\ fle mx f0 = false /\ fle mx mn = false /\ fle res f0 = false.

Lemma comb_ok : forall fuel onsets rate mn mx res cs, estimate_comb fuel onsets rate mn mx res = Some (Ok cs) ->
  (cs = [] /\ length onsets = 1) \/
  (cb_valid onsets rate mn mx res /\ 2 <= length onsets /\
   exists l, bpm_loop (comb_body (sort_by Nat.leb onsets) rate) (fadd mx eps10) res fuel mn = Some (Ok l) /\
     cs = comb_finish l).
Proof.
  intros fuel onsets rate mn mx res cs H. unfold estimate_comb in H.
  destruct (Nat.eqb_spec (length onsets) 0); [discriminate|].
  destruct (Nat.eqb_spec rate 0); [discriminate|].
  destruct (fle mn f0) eqn:E1; [discriminate|]. destruct (fle mx f0) eqn:E2; [discriminate|].
  cbn [orb] in H. unfold fge in H. change (Bleb mx mn) with (fle mx mn) in H.
  destruct (fle mx mn) eqn:E3; [discriminate|]. destruct (fle res f0) eqn:E4; [discriminate|].
  destruct (Nat.ltb_spec (length onsets) 2); [injection H as <-; left; split; auto; lia|].
  destruct (_ || _); [discriminate|].
  destruct (bpm_loop _ _ _ _ _) as [[l| |]|] eqn:L; try discriminate. cbn [omap] in H. injection H as <-.
  right. split; [|split; eauto]. repeat split; auto. destruct onsets; simpl in *; congruence.
Qed.

Lemma loop_scores : forall onsets rate stop res fuel mn l,
  bpm_loop (comb_body onsets rate) stop res fuel mn = Some (Ok l) ->
  Forall (fun p : f32 * f32 => in01 (snd p)) l.
Proof.
  intros onsets rate stop res fuel mn l H. apply loop_ok in H as (H & _).
  apply Forall_forall. intros (b & s) I. apply In_nth_error in I as (k & K). apply H in K as (_ & _ & K).
  now apply body_01 in K.
Qed.

(** Adding 1e-10 does not change a tempo of at least 1 BPM. *)
Lemma add_eps : forall x, fle f1 x = true -> fin x -> fadd x eps10 = x.
Proof.
  intros x H F. pose proof (fle_fx _ _ H) as L. rewrite fx_f1, fx_fin in L by auto.
  assert (Pos : pos x) by (eapply flt_fle_trans with (y := f1); auto).
  assert (R : rnd (B2R x + B2R eps10) = B2R x).
  { apply Rle_antisym.
    - unfold rnd. apply round_N_le_midp; [apply valid_fexp32|apply (generic_format_B2R fprec femax)|].
      rewrite succ_eq_pos by lra.
      assert (U : (ulp radix2 fexp32 1 <= ulp radix2 fexp32 (B2R x))%R).
      { apply ulp_le_pos; [apply valid_fexp32|apply monotone_fexp32|lra|lra]. }
      change 1%R with (bpow radix2 0) in U at 1. rewrite ulp_bpow in U.
      replace (fexp32 (0 + 1)) with (-23)%Z in U by reflexivity.
      assert (B2R eps10 < bpow radix2 (-25))%R.
      { replace (bpow radix2 (-25)) with (B2R (lit 1 (-25))) by (simpl; unfold F2R; simpl; lra).
        rewrite <- !fx_fin by reflexivity. now apply flt_fx. }
      assert (bpow radix2 (-23) = 4 * bpow radix2 (-25))%R by (simpl; lra). 
      pose proof (bpow_gt_0 radix2 (-25)). lra.
    - rewrite <- (rnd_B2R x) at 1. apply rnd_mono. pose proof (B2R_pos eps10 eq_refl eq_refl). lra. }
  destruct (fadd_fx x eps10 F eq_refl) as (N & E). rewrite R in E.
  rewrite sat_id in E by (pose proof (B2R_lt x); lra).
  symmetry. apply fle_antisym_pos; auto; apply fle_intro; auto using fin_nn; rewrite E, fx_fin by auto; lra.
Qed.

Lemma not_le0_pos : forall x, fle x f0 = false -> nn x -> pos x.
Proof. intros x H N. now apply fle_false_flt. Qed.

(** Visited tempos are at least the start tempo. *)
Lemma visited_ge : forall res b k, fle res f0 = false -> nn (nth_tempo res b k) -> fle b (nth_tempo res b k) = true.
Proof.
  intros res b k R. induction k as [|k IH]; intros N; [now apply fle_refl|].
  rewrite nth_tempo_S in *. destruct (fadd_nan_l _ _ N) as (N1 & N2).
  eapply fle_trans; [now apply IH|]. apply fadd_ge_l; auto. apply pos_nneg. now apply not_le0_pos.
Qed.

(** Walk facts for any accepted call. *)
Lemma loop_range : forall A (body : f32 -> outcome A) stop res fuel mn l x a, fle res f0 = false ->
  bpm_loop body stop res fuel mn = Some (Ok l) -> In (x, a) l ->
  fle mn x = true /\ fle x stop = true /\ body x = Ok a.
Proof.
  intros A body stop res fuel mn l x a R H I. apply loop_ok in H as (H & _).
  apply In_nth_error in I as (k & K). apply H in K as (-> & S & B). split; auto. apply visited_ge; auto.
  now apply fle_nn in S.
Qed.

Lemma loop_count : forall A (body : f32 -> outcome A) stop res fuel mn l, pos res -> fin res -> pos mn -> fin stop ->
  bpm_loop body stop res fuel mn = Some (Ok l) -> l <> [] ->
  ((INR (length l) - 1) * (B2R res - B2R stop / 8388608) <= B2R stop - B2R mn)%R.
Proof.
  intros A body stop res fuel mn l Hr Fr Hm Fs H N. apply loop_ok in H as (H & _).
  destruct (length l) as [|k] eqn:L; [destruct l; simpl in *; congruence|].
  destruct (nth_error l k) as [(x & a)|] eqn:K; [|apply nth_error_None in K; lia].
  apply H in K as (-> & S & _). rewrite S_INR. replace (INR k + 1 - 1)%R with (INR k) by lra.
  now apply walk_count.
Qed.

Lemma last_in : forall A (l : list A) d, l <> [] -> In (last l d) l.
Proof.
  intros A l d. induction l as [|x l IH]; intros H; [congruence|]. destruct l as [|y l]; [left; auto|].
  right. apply IH. discriminate.
Qed.

(** The number of expected beats fits when the last onset does. *)
Lemma score_no_panic : forall onsets rate bpm tol,
  Forall (fun o => (Z.of_nat o < 2 ^ 63)%Z) onsets -> score_bpm onsets rate bpm tol <> Panic.
Proof.
  intros onsets rate bpm tol H. unfold score_bpm. destruct onsets as [|o os]; [discriminate|].
  set (p := fdiv (sixty_rate rate) bpm). destruct (flt p f1) eqn:E; [discriminate|].
  set (q := n2f (last os o)).
  assert (Q : fle q (lit 1 63) = true).
  { unfold q, n2f. replace (lit 1 63) with (z2f (2 ^ 63)).
    - apply z2f_mono. assert (In (last os o) (o :: os)).
      { destruct os as [|x os]; [left; auto|]. right. apply last_in. discriminate. }
      rewrite Forall_forall in H. specialize (H _ H0). lia.
    - apply B2SF_inj. vm_compute. reflexivity. }
  assert (Qf : fin q) by (apply (fin_between f0 _ (lit 1 63)); auto; apply n2f_nneg).
  assert (U : (f2usize (fceil (fdiv q p)) <= 2 ^ 63)%Z).
  { destruct (is_nan (fdiv q p)) eqn:N.
    { destruct (fdiv q p); discriminate. }
    assert (Np : nn p). { destruct p; auto. destruct q; discriminate. }
    assert (P1 : fle f1 p = true) by now apply flt_false_fle.
    assert (L : fle (fdiv q p) (lit 1 63) = true).
    { destruct (nn_cases _ Np) as [Fp|[->| ->]]; [|destruct q; try discriminate; reflexivity|discriminate].
      assert (M : fle (fdiv q p) (fdiv q f1) = true).
      { apply fdiv_mono_r; auto; [apply n2f_nneg|]. now apply fdiv_nn_fin. }
      eapply fle_trans; [exact M|]. 
      destruct (fdiv_fx q f1 Qf eq_refl) as (N1 & E1); [rewrite B2R_f1; lra|].
      apply fle_intro; auto. rewrite E1, B2R_f1. replace (B2R q / 1)%R with (B2R q) by lra. rewrite rnd_B2R.
      rewrite sat_id by (pose proof (B2R_lt q); lra). rewrite <- fx_fin by auto. now apply fle_fx. }
    destruct (nneg_cases (fdiv q p)) as [(Fq & Pq)|Iq].
    - apply fdiv_nneg; auto; [apply n2f_nneg|]. eapply flt_fle_trans with (y := f1); auto.
    - destruct (fceil_spec _ Fq) as (Fc & Ec). unfold f2usize. rewrite f2int_fin, Ec, Ztrunc_IZR by auto.
      pose proof (fle_fx _ _ L) as L'. rewrite !fx_fin in L' by auto.
      assert (Zceil (B2R (fdiv q p)) <= 2 ^ 63)%Z.
      { apply Zceil_glb. eapply Rle_trans; [exact L'|]. simpl. unfold F2R. simpl. lra. }
      unfold usize_max. lia.
    - rewrite Iq in L. discriminate. }
  destruct (Z.leb_spec usize_max (f2usize (fceil (fdiv q p)))); [unfold usize_max in *; lia|]. discriminate.
Qed.

Lemma body_no_panic : forall onsets rate bpm, Forall (fun o => (Z.of_nat o < 2 ^ 63)%Z) onsets ->
  comb_body onsets rate bpm <> Panic.
Proof.
  intros onsets rate bpm H. unfold comb_body, adaptive_tolerance, fclamp.
  replace (fle (lit 13421773 (-28)) (lit 5033165 (-25))) with true by reflexivity. cbn [obind].
  now apply score_no_panic.
Qed.

Lemma sorted_in : forall P (l : list nat), Forall P l -> Forall P (sort_by Nat.leb l).
Proof.
  intros P l H. rewrite Forall_forall in *. intros x X. apply H. now apply sort_by_in in X.
Qed.

(** No capacity overflow for a sensible resolution. *)
Lemma capacity_ok : forall mn mx res, fin mn -> fin mx -> fin res -> pos mn -> fle mn mx = true -> pos res ->
  (B2R mx / 8388608 < B2R res)%R ->
  (f2usize (fceil (fdiv (fsub mx mn) res)) <= 2 ^ 23)%Z.
Proof.
  intros mn mx res Fn Fx Fr Pn Le Pr H.
  pose proof (B2R_pos _ Fr Pr) as Rr.
  assert (N : nn (fsub mx mn)) by now apply fsub_nn_fin.
  assert (S0 : nneg (fsub mx mn)) by now apply fsub_nneg.
  assert (S1 : fle (fsub mx mn) mx = true) by (apply fsub_le_l; auto using fin_nn, pos_nneg).
  assert (Fs : fin (fsub mx mn)) by (apply (fin_between f0 _ mx); auto).
  pose proof (fle_fx _ _ S1) as S1'. rewrite !fx_fin in S1' by auto.
  pose proof (nneg_fx _ S0) as S0'. rewrite !fx_fin in S0' by auto.
  destruct (fdiv_fx (fsub mx mn) res Fs Fr ltac:(lra)) as (Nd & Ed).
  assert (Q : (0 <= B2R (fsub mx mn) / B2R res <= B2R (lit 1 23))%R).
  { replace (B2R (lit 1 23)) with 8388608%R by (simpl; unfold F2R; simpl; lra). split.
    - apply Rdiv_nn; auto.
    - apply Rmult_le_reg_r with (B2R res); auto. unfold Rdiv. rewrite Rmult_assoc, Rinv_l by lra. lra. }
  assert (R0 : (0 <= rnd (B2R (fsub mx mn) / B2R res) <= B2R (lit 1 23))%R).
  { split; [now apply rnd_nonneg|]. rewrite <- (rnd_B2R (lit 1 23)). now apply rnd_mono. }
  rewrite sat_id in Ed by (pose proof (B2R_lt (lit 1 23)); lra).
  assert (Fd : fin (fdiv (fsub mx mn) res)).
  { apply fin_iff; auto. rewrite Ed. pose proof (B2R_lt (lit 1 23)). lra. }
  rewrite fx_fin in Ed by auto.
  destruct (fceil_spec _ Fd) as (Fc & Ec). unfold f2usize. rewrite f2int_fin, Ec, Ztrunc_IZR by auto.
  assert (Zceil (B2R (fdiv (fsub mx mn) res)) <= 2 ^ 23)%Z.
  { apply Zceil_glb. rewrite Ed. eapply Rle_trans; [apply R0|]. simpl. unfold F2R. simpl. lra. }
  unfold usize_max. lia.
Qed.

Lemma filter_all_true : forall A (f : A -> bool) l, (forall x, In x l -> f x = true) -> filter f l = l.
Proof.
  intros A f l H. induction l as [|x l IH]; auto. cbn [filter]. rewrite H by (left; auto). f_equal.
  apply IH. intros y Y. apply H. now right.
Qed.

(** An exact pulse train: onsets 0, P, 2P, ..., nP. *)
Definition pulses (P n : nat) : list nat := map (fun k => k * P) (seq 0 (n + 1)).

Lemma n2f_exact : forall n, (Z.of_nat n <= 16777216)%Z -> fin (n2f n) /\ B2R (n2f n) = IZR (Z.of_nat n).
Proof. intros n H. apply z2f_exact. lia. Qed.
Lemma sat_Z : forall z, (Z.abs z <= 16777216)%Z -> sat (rnd (IZR z)) = IZR z.
Proof.
  intros z H. rewrite rnd_Z by auto. apply sat_id. destruct (IZR_lt_big z); [lia|lra].
Qed.
Lemma fx_Z_fin : forall x z, nn x -> fx x = IZR z -> (Z.abs z <= 16777216)%Z -> fin x /\ B2R x = IZR z.
Proof.
  intros x z N E H. assert (F : fin x) by (apply fin_iff; auto; rewrite E; apply IZR_lt_big; lia).
  split; auto. now rewrite fx_fin in E by auto.
Qed.
Lemma fmul_exact : forall a b, (Z.of_nat (a * b) <= 16777216)%Z -> (Z.of_nat a <= 16777216)%Z -> (Z.of_nat b <= 16777216)%Z ->
  fin (fmul (n2f a) (n2f b)) /\ B2R (fmul (n2f a) (n2f b)) = IZR (Z.of_nat (a * b)).
Proof.
  intros a b H Ha Hb. destruct (n2f_exact a Ha) as (Fa & Ea), (n2f_exact b Hb) as (Fb & Eb).
  destruct (fmul_fx (n2f a) (n2f b) Fa Fb) as (N & E). rewrite Ea, Eb, <- mult_IZR, <- Nat2Z.inj_mul in E.
  rewrite sat_Z in E by lia. apply fx_Z_fin; auto. lia.
Qed.

Lemma nearest_spec : forall e os o,
  In (nearest e o os) (o :: os) /\ forall x, In x (o :: os) -> (onset_key e (nearest e o os) <= onset_key e x)%Z.
Proof.
  intros e os. unfold nearest. induction os as [|y os IH]; intros o; cbn [fold_left].
  - split; [left; auto|]. intros x [->|[]]. lia.
  - destruct (IH (if (onset_key e y <? onset_key e o)%Z then y else o)) as (A & B). split.
    + destruct (_ <? _)%Z; destruct A as [<-|A]; simpl; auto.
    + intros x X. specialize (B (if (onset_key e y <? onset_key e o)%Z then y else o) (or_introl eq_refl)) as B0.
      destruct (Z.ltb_spec (onset_key e y) (onset_key e o)); destruct X as [<-|[<-|X]]; try lia; apply B; simpl; auto.
Qed.

(** Distance between an exact beat position and an onset, both below 2^24. *)
Lemma exact_dist : forall e z x, fin e -> B2R e = IZR (Z.of_nat z) -> (Z.of_nat z <= 16777216)%Z -> (Z.of_nat x <= 16777216)%Z ->
  let d := fabs (fsub (n2f x) e) in
  fin d /\ B2R d = IZR (Z.abs (Z.of_nat x - Z.of_nat z)).
Proof.
  intros e z x Fe Ee Hz Hx d. destruct (n2f_exact x Hx) as (Fx & Ex).
  destruct (fsub_fx (n2f x) e Fx Fe) as (N & E). rewrite Ee, Ex, <- minus_IZR in E. rewrite sat_Z in E by lia.
  destruct (fx_Z_fin _ _ N E ltac:(lia)) as (Fs & _).
  unfold d. apply fx_Z_fin; [now rewrite fabs_nn| |lia]. rewrite fabs_fx by auto. rewrite E. symmetry. apply abs_IZR.
Qed.

Lemma aligned_pulse : forall P n k tol, 0 < P -> (Z.of_nat (n * P) <= 16777216)%Z -> k <= n -> nneg tol ->
  (Z.of_nat P <= 16777216)%Z ->
  aligned (n2f P) tol 0 (map (fun k => k * P) (seq 1 n)) k = true.
Proof.
  intros P n k tol HP B K T HP'. unfold aligned. set (e := fmul (n2f k) (n2f P)).
  assert (Bk : forall j, j <= n -> (Z.of_nat (j * P) <= 16777216)%Z) by (intros j J; nia).
  assert (k <= k * P) by nia.
  destruct (fmul_exact k P) as (Fe & Ee); [auto|specialize (Bk k K); lia|auto|]. fold e in Fe, Ee.
  set (os := map _ _).
  assert (Mem : forall x, In x (0 :: os) <-> exists j, j <= n /\ x = j * P).
  { intros x. unfold os. cbn [In]. rewrite in_map_iff. split.
    - intros [<-|(j & <- & J)]; [exists 0; lia|]. apply in_seq in J. exists j. lia.
    - intros (j & J & ->). destruct j; [left; lia|]. right. exists (S j). split; auto. apply in_seq. lia. }
  destruct (nearest_spec e os 0) as (A & M). set (x := nearest e 0 os) in *.
  apply Mem in A as (j & J & Ej).
  assert (Key : forall i, i <= n -> onset_key e (i * P) = Z.abs (Z.of_nat (i * P) - Z.of_nat (k * P))).
  { intros i I. destruct (exact_dist e (k * P) (i * P) Fe Ee) as (F & E); auto.
    unfold onset_key, f2usize. rewrite f2int_fin, E, Ztrunc_IZR by auto. unfold usize_max.
    pose proof (Bk i I). pose proof (Bk k K). lia. }
  assert (Z0 : Z.abs (Z.of_nat (j * P) - Z.of_nat (k * P)) = 0%Z).
  { specialize (M (k * P) (proj2 (Mem (k * P)) (ex_intro _ k (conj K eq_refl)))).
    rewrite Ej, !Key in M by auto. lia. }
  rewrite Ej. destruct (exact_dist e (k * P) (j * P) Fe Ee) as (F & E); auto.
  apply fle_intro; auto using fin_nn, nneg_nn. rewrite fx_fin, E, Z0 by auto. now apply nneg_fx.
Qed.

Lemma pulses_cons : forall P n, pulses P n = 0 :: map (fun k => k * P) (seq 1 n).
Proof. intros. unfold pulses. rewrite Nat.add_1_r. reflexivity. Qed.
Lemma last_map_seq : forall P n, last (map (fun k => k * P) (seq 1 n)) 0 = n * P.
Proof. intros P [|n]; auto. rewrite seq_S, map_app. cbn [map]. now rewrite last_last. Qed.

Lemma pulse_score : forall P n rate bpm tol, 0 < P -> 0 < n -> (Z.of_nat (n * P) <= 16777216)%Z ->
  fdiv (sixty_rate rate) bpm = n2f P -> nneg (fmul (n2f P) tol) ->
  score_bpm (pulses P n) rate bpm tol = Ok f1.
Proof.
  intros P n rate bpm tol HP Hn B Per T. rewrite pulses_cons. unfold score_bpm. rewrite Per.
  assert (HP' : (Z.of_nat P <= 16777216)%Z) by nia. assert (Hn' : (Z.of_nat n <= 16777216)%Z) by nia.
  destruct (n2f_exact P HP') as (Fp & Ep). destruct (n2f_exact (n * P) B) as (Fl & El).
  assert (RP : (0 < IZR (Z.of_nat P))%R) by (apply IZR_lt; lia).
  assert (flt (n2f P) f1 = false) as ->.
  { apply fle_flt_false. apply fle_intro; auto using fin_nn. rewrite fx_f1, fx_fin, Ep by auto. apply IZR_le. lia. }
  rewrite last_map_seq.
  destruct (fdiv_fx (n2f (n * P)) (n2f P) Fl Fp ltac:(lra)) as (N & E).
  replace (B2R (n2f (n * P)) / B2R (n2f P))%R with (IZR (Z.of_nat n)) in E
    by (rewrite El, Ep, Nat2Z.inj_mul, mult_IZR; field; lra).
  rewrite sat_Z in E by lia. destruct (fx_Z_fin _ _ N E ltac:(lia)) as (Fd & Ed).
  destruct (fceil_spec _ Fd) as (Fc & Ec). rewrite Ed, Zceil_IZR in Ec.
  assert (f2usize (fceil (fdiv (n2f (n * P)) (n2f P))) = Z.of_nat n) as ->.
  { unfold f2usize. rewrite f2int_fin, Ec, Ztrunc_IZR by auto. unfold usize_max. lia. }
  destruct (Z.leb_spec usize_max (Z.of_nat n)); [unfold usize_max in *; lia|].
  replace (Z.to_nat (Z.of_nat n + 1)) with (S n) by lia. cbn [Nat.ltb Nat.leb].
  f_equal. rewrite (filter_all_true _ (aligned (n2f P) (fmul (n2f P) tol) 0 (map (fun k => k * P) (seq 1 n)))).
  - rewrite seq_length. apply fdiv_self; [apply z2f_fin; lia|apply n2f_pos; lia].
  - intros k K. apply in_seq in K. apply aligned_pulse; auto. lia.
Qed.

Lemma nth_tempo_add : forall res i j b, nth_tempo res b (i + j) = nth_tempo res (nth_tempo res b i) j.
Proof. intros res i. induction i as [|i IH]; intros j b; auto. cbn [Nat.add nth_tempo]. apply IH. Qed.

(** Every tempo of the walk that is within the limit has been visited. *)
Lemma visited_in : forall A (body : f32 -> outcome A) stop res fuel mn l k, fle res f0 = false ->
  bpm_loop body stop res fuel mn = Some (Ok l) -> fle (nth_tempo res mn k) stop = true ->
  exists a, In (nth_tempo res mn k, a) l.
Proof.
  intros A body stop res fuel mn l k R H S. apply loop_ok in H as (H & E).
  destruct (Nat.lt_ge_cases k (length l)) as [K|K].
  - destruct (nth_error l k) as [(x & a)|] eqn:N; [|apply nth_error_None in N; lia].
    pose proof (H _ _ _ N) as (-> & _). exists a. eapply nth_error_In; eauto.
  - exfalso. replace k with (length l + (k - length l)) in S by lia. rewrite nth_tempo_add in S.
    assert (N := proj1 (fle_nn _ _ S)). pose proof (visited_ge _ _ _ R N) as G.
    rewrite (fle_trans _ _ _ G S) in E. discriminate.
Qed.

Lemma insert_id : forall A (leb : A -> A -> bool) x l, Forall (fun y => leb x y = true) l -> insert_by leb x l = x :: l.
Proof. intros A leb x l H. destruct l as [|y l]; auto. cbn. now rewrite (Forall_inv H). Qed.
Lemma sort_by_id : forall A (leb : A -> A -> bool) l, StronglySorted (fun a b => leb a b = true) l -> sort_by leb l = l.
Proof.
  intros A leb l. induction l as [|x l IH]; intros S; auto. inversion S as [|? ? S' F]; subst. cbn [sort_by].
  rewrite IH by auto. now apply insert_id.
Qed.
Lemma pulses_sorted : forall P n, sort_by Nat.leb (pulses P n) = pulses P n.
Proof.
  intros P n. apply sort_by_id. unfold pulses. generalize (n + 1) as m. intros m. generalize 0 as a.
  induction m as [|m IH]; intros a; [constructor|].
  cbn [seq map]. constructor; auto. rewrite Forall_map. apply Forall_forall. intros k K. apply in_seq in K.
  apply Nat.leb_le. nia.
Qed.
