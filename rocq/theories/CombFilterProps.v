(** C19, C20, C52: tempo candidates from the comb filter bank. *)
From Coq Require Import ZArith Bool List Arith Lia Sorted Reals Lra.
From Flocq Require Import Core IEEE754.BinarySingleNaN.
From Verif Require Import Rust F32 F32Facts F32More ListFacts Sorting SortingFacts PeakPicking PeakPickingProofs Candidate BpmLoop BpmLoopProofs
  Autocorrelation CombFilter CombFilterProofs.
Import ListNotations.

(** Whenever the search returns, all candidates are in range ... *)
Theorem C19_range : forall fuel onsets rate mn mx res cs,
  estimate_comb fuel onsets rate mn mx res = Some (Ok cs) -> forall c, In c cs ->
  fle mn (c_bpm c) = true /\ fle (c_bpm c) (fadd mx eps10) = true /\
  (fle f1 mx = true -> fisfin mx = true -> fle (c_bpm c) mx = true) /\
  fle (lit 13421773 (-27)) (c_conf c) = true /\ fle (c_conf c) f1 = true.
Proof.
  intros fuel onsets rate mn mx res cs H c Hc.
  destruct (comb_ok _ _ _ _ _ _ _ H) as [(-> & _)|((_ & _ & _ & _ & _ & R) & _ & l & L & ->)]; [destruct Hc|].
  destruct (finish_spec l (loop_scores _ _ _ _ _ _ _ L)) as (I & B & _).
  destruct (proj1 (I c) Hc) as ((b & s) & P & E & _).
  destruct (loop_range _ _ _ _ _ _ _ _ _ R L P) as (A1 & A2 & _).
  assert (c_bpm c = b) as -> by (now rewrite E).
  split; auto. split; auto. split; [|now apply B].
  intros M F. now rewrite add_eps in A2.
Qed.
Print Assumptions C19_range.

(** ... sorted by confidence, and the best one has confidence exactly 1. *)
Theorem C19_best : forall fuel onsets rate mn mx res cs,
  estimate_comb fuel onsets rate mn mx res = Some (Ok cs) ->
  StronglySorted (fun a b => fle (c_conf b) (c_conf a) = true) cs /\
  (forall c r, cs = c :: r -> c_conf c = f1).
Proof.
  intros fuel onsets rate mn mx res cs H.
  destruct (comb_ok _ _ _ _ _ _ _ H) as [(-> & _)|(_ & _ & l & L & ->)].
  - split; [constructor|discriminate].
  - destruct (finish_spec l (loop_scores _ _ _ _ _ _ _ L)) as (_ & _ & S & B). auto.
Qed.
Print Assumptions C19_best.

(** A returned tempo is one of min, min+res, (min+res)+res, ... and its confidence compares
    like its score: the candidates are exactly the visited tempos whose score is at least a
    tenth of the best score. *)
Theorem C19_exact : forall fuel onsets rate mn mx res cs,
  estimate_comb fuel onsets rate mn mx res = Some (Ok cs) -> 2 <= length onsets ->
  exists l best, (forall k x s, nth_error l k = Some (x, s) ->
      x = nth_tempo res mn k /\ fle x (fadd mx eps10) = true /\
      comb_body (sort_by Nat.leb onsets) rate x = Ok s /\ fle s best = true) /\
    fle (nth_tempo res mn (length l)) (fadd mx eps10) = false /\
    (best = f0 \/ exists x, In (x, best) l) /\
    forall c, In c cs <-> exists x s, In (x, s) l /\ flt eps10 best = true /\
       c_bpm c = x /\ c_conf c = fdiv s best /\ fle (lit 13421773 (-27)) (fdiv s best) = true.
Proof.
  intros fuel onsets rate mn mx res cs H Len.
  destruct (comb_ok _ _ _ _ _ _ _ H) as [(_ & L1)|(_ & _ & l & L & ->)]; [lia|].
  pose proof (loop_scores _ _ _ _ _ _ _ L) as S01. pose proof (loop_ok _ _ _ _ _ _ L) as (W & Wend).
  destruct (finish_spec l S01) as (I & _).
  destruct (best_score_spec l f0 in01_0 S01) as (_ & _ & Mge & Min). fold (best_score l) in Mge, Min.
  exists l, (best_score l). split; [|split; [auto|split]].
  - intros k x s K. destruct (W k x s K) as (A & B & C). split; auto. split; auto. split; auto.
    apply (Mge (x, s)). eapply nth_error_In; eauto.
  - destruct Min as [->|((x & s) & P & ->)]; auto. right. exists x. auto.
  - intros c. rewrite I. unfold conf_of. split.
    + intros ((x & s) & P & E & G). exists x, s. cbn [fst snd] in E. rewrite E in G |- *. cbn [c_bpm c_conf] in *.
      destruct (fgt (best_score l) eps10) eqn:Gt; [|discriminate]. auto.
    + intros (x & s & P & G & E1 & E2 & E3). exists (x, s). split; auto. cbn [fst snd]. unfold fgt.
      change (Bltb eps10 (best_score l)) with (flt eps10 (best_score l)). rewrite G. split.
      * destruct c as [cb cc]. cbn [c_bpm c_conf] in *. congruence.
      * now rewrite E2.
Qed.
Print Assumptions C19_exact.

(** Two-stage search: same guarantees, every tempo inside the caller's range. *)
Theorem C19_coarse_fine : forall fuel onsets rate mn mx range cs,
  coarse_to_fine fuel onsets rate mn mx range = Some (Ok cs) -> fle f1 mx = true -> fisfin mx = true ->
  (forall c, In c cs -> fle mn (c_bpm c) = true /\ fle (c_bpm c) (fadd mx eps10) = true /\
     fle (lit 13421773 (-27)) (c_conf c) = true /\ fle (c_conf c) f1 = true) /\
  StronglySorted (fun a b => fle (c_conf b) (c_conf a) = true) cs /\
  (forall c r, cs = c :: r -> c_conf c = f1).
Proof.
  intros fuel onsets rate mn mx range cs H M1 Mf. unfold coarse_to_fine in H.
  destruct (estimate_comb fuel onsets rate mn mx f2) as [[[|best coarse]| |]|] eqn:C; try discriminate.
  { injection H as <-. split; [intros ? []|]. split; [constructor|discriminate]. }
  set (fmn := fmax _ _) in H. set (fmx := fmin _ _) in H.
  destruct (estimate_comb fuel onsets rate fmn fmx fhalf) as [[fine| |]|] eqn:F; try discriminate.
  assert (H' := f_equal (fun o => match o with Some (Ok l) => l | _ => [] end) H). cbn beta iota in H'.
  clear H. subst cs.
  set (base := match fine with [] => best :: coarse | _ => fine end).
  assert (Mn : nn mn).
  { destruct (C19_range _ _ _ _ _ _ _ C best (or_introl eq_refl)) as (A & _). now apply fle_nn in A. }
  assert (Mx : nn mx) by (now apply fin_nn).
  assert (Hin : forall c, In c base -> fle mn (c_bpm c) = true /\ fle (c_bpm c) (fadd mx eps10) = true /\
     fle (lit 13421773 (-27)) (c_conf c) = true /\ fle (c_conf c) f1 = true).
  { intros c Hc. unfold base in Hc. destruct fine as [|f0' fine'].
    - destruct (C19_range _ _ _ _ _ _ _ C c Hc) as (A & B & _ & D). auto.
    - destruct (C19_range _ _ _ _ _ _ _ F c Hc) as (A & B & _ & D).
      split; [eapply fle_trans; [|exact A]; now apply fmax_ge_r|]. split; auto.
      eapply fle_trans; [exact B|]. apply fadd_mono; try reflexivity.
      + now apply fmin_le_r.
      + apply fle_nn in B. apply B.
      + apply fadd_nn_fin_l; auto. }
  assert (Sb : StronglySorted (fun a b => fle (c_conf b) (c_conf a) = true) base /\
               (forall c r, base = c :: r -> c_conf c = f1)).
  { unfold base. destruct fine; [apply (C19_best _ _ _ _ _ _ _ C)|apply (C19_best _ _ _ _ _ _ _ F)]. }
  assert (Nb : Forall (fun a => nn (c_conf a)) base).
  { apply Forall_forall. intros c Hc. apply Hin in Hc. destruct Hc as (_ & _ & D & _). now apply fle_nn in D. }
  split; [intros c Hc; apply Hin; now apply sort_desc_in in Hc|].
  split; [now apply sort_desc_sorted|].
  intros c r E. destruct Sb as (_ & Sb).
  assert (Nn : exists b rb, base = b :: rb) by (unfold base; destruct fine; eauto). destruct Nn as (b & rb & Eb).
  specialize (Sb _ _ Eb). assert (Ib : In b (sort_desc c_conf base)) by (apply sort_desc_in; rewrite Eb; left; auto).
  assert (Ic : In c base) by (apply (sort_desc_in c_conf); rewrite E; left; auto).
  assert (L : fle f1 (c_conf c) = true).
  { rewrite <- Sb. pose proof (sort_desc_sorted c_conf base Nb) as S. rewrite E in S, Ib. destruct Ib as [->|Ib].
    - apply fle_refl. rewrite Sb. reflexivity.
    - inversion S as [|? ? _ FF]. rewrite Forall_forall in FF. now apply FF. }
  symmetry. apply fle_antisym_pos; auto. apply Hin in Ic. apply Ic.
Qed.
Print Assumptions C19_coarse_fine.

(** C20: the search ends whenever the resolution is more than 2^-23 of the largest tempo; the
    number of tempos is then bounded as expected and nothing panics. *)
Theorem C20_comb_terminates : forall onsets rate mn mx res,
  fisfin res = true -> fisfin (fadd mx eps10) = true ->
  (B2R (fadd mx eps10) / 2 ^ 23 < B2R res)%R -> fisnan mn = false ->
  Forall (fun o => (Z.of_nat o < 2 ^ 63)%Z) onsets ->
  exists N r, r <> Panic /\ forall fuel, N <= fuel -> estimate_comb fuel onsets rate mn mx res = Some r.
Proof.
  intros onsets rate mn mx res Fr Fs H Nm Ho. unfold estimate_comb.
  destruct (length onsets =? 0); [exists 0, (Err InvalidInput); split; [discriminate|auto]|].
  destruct (rate =? 0); [exists 0, (Err InvalidInput); split; [discriminate|auto]|].
  unfold fge. change (Bleb mx mn) with (fle mx mn).
  destruct (fle mn f0) eqn:E1; [exists 0, (Err InvalidInput); split; [discriminate|auto]|].
  destruct (fle mx f0) eqn:E2; [exists 0, (Err InvalidInput); split; [discriminate|auto]|].
  destruct (fle mx mn) eqn:E3; [exists 0, (Err InvalidInput); split; [discriminate|auto]|].
  destruct (fle res f0) eqn:E4; [exists 0, (Err InvalidInput); split; [discriminate|auto]|].
  cbn [orb]. destruct (length onsets <? 2); [exists 0, (Ok []); split; [discriminate|auto]|].
  assert (Fx : fin mx). { clear -Fs. destruct mx as [|[]| |]; try discriminate; reflexivity. }
  assert (Pn : pos mn) by (now apply not_le0_pos). assert (Pr : pos res) by (apply not_le0_pos; auto using fin_nn).
  assert (Px : pos mx) by (apply not_le0_pos; auto using fin_nn).
  assert (Le : fle mn mx = true) by (apply flt_fle, fle_false_flt; auto using fin_nn).
  assert (Fn : fin mn) by (apply (fin_between f0 _ mx); auto using pos_nneg).
  replace (2 ^ 23)%R with 8388608%R in H by (simpl; lra).
  assert (Cap : (f2usize (fceil (fdiv (fsub mx mn) res)) <= 2 ^ 23)%Z).
  { apply capacity_ok; auto. eapply Rle_lt_trans; [|exact H].
    assert (B2R mx <= B2R (fadd mx eps10))%R; [|lra].
    rewrite <- !fx_fin by auto. apply fle_fx. apply fadd_ge_l; auto using fin_nn. }
  destruct (_ || _) eqn:G.
  { exfalso. rewrite orb_true_iff, !Z.ltb_lt in G. unfold usize_max, isize_max in G. lia. }
  destruct (walk_ends res mn (fadd mx eps10)) as (k & K); auto.
  destruct (loop_ends (comb_body (sort_by Nat.leb onsets) rate) _ _ _ _ K) as (r & L).
  exists (S k), (omap comb_finish r). split.
  - destruct r; try discriminate. intros _. apply loop_panic in L as (j & _ & P).
    revert P. apply body_no_panic. now apply sorted_in.
  - intros fuel Hf. now rewrite (loop_mono _ _ _ _ _ _ L fuel Hf).
Qed.
Print Assumptions C20_comb_terminates.

Theorem C20_comb_count : forall fuel onsets rate mn mx res cs,
  estimate_comb fuel onsets rate mn mx res = Some (Ok cs) ->
  fisfin res = true -> fisfin (fadd mx eps10) = true -> cs <> [] ->
  (B2R (fadd mx eps10) / 2 ^ 23 < B2R res)%R ->
  ((INR (length cs) - 1) * (B2R res - B2R (fadd mx eps10) / 2 ^ 23) <= B2R (fadd mx eps10) - B2R mn)%R.
Proof.
  intros fuel onsets rate mn mx res cs H Fr Fs Ne Hres.
  destruct (comb_ok _ _ _ _ _ _ _ H) as [(-> & _)|((_ & _ & Vn & _ & _ & Vr) & _ & l & L & E)]; [congruence|].
  destruct l as [|(b & s) l']; [rewrite E in Ne; now destruct Ne|].
  assert (Hin : In (b, s) ((b, s) :: l')) by (left; auto).
  destruct (loop_range _ _ _ _ _ _ _ _ _ Vr L Hin) as (A1 & _). apply fle_nn in A1.
  replace (2 ^ 23)%R with 8388608%R in * by (simpl; lra).
  pose proof (loop_count _ _ _ _ _ _ _ (not_le0_pos _ Vr (fin_nn _ Fr)) Fr (not_le0_pos _ Vn (proj1 A1)) Fs L ltac:(discriminate)) as C.
  eapply Rle_trans; [|exact C]. apply Rmult_le_compat_r; [lra|].
  assert (Lc : length cs <= length ((b, s) :: l')).
  { rewrite E. unfold comb_finish. eapply Nat.le_trans; [apply filter_len|]. now rewrite sort_desc_length, map_length. }
  apply le_INR in Lc. lra.
Qed.
Print Assumptions C20_comb_count.

(** With the accepted resolution 1e-6 and the range 60..180 BPM the loop never ends
    (60 + 1e-6 rounds to 60). *)
Theorem C20_comb_refuted : exists onsets rate mn mx res,
  (forall fuel, estimate_comb fuel onsets rate mn mx res = None) /\
  fle mn f0 = false /\ flt mn mx = true /\ flt f0 res = true.
Proof.
  exists [0; 50], 100, (z2f 60), (z2f 180), (lit 8796093 (-43)).
  split; [|repeat split]. intros fuel. unfold estimate_comb.
  replace (length [0; 50] =? 0) with false by reflexivity. replace (100 =? 0) with false by reflexivity.
  destruct (_ || _ || _) eqn:E; [vm_compute in E; discriminate|]. clear E.
  destruct (fle _ f0) eqn:E; [vm_compute in E; discriminate|]. clear E.
  replace (length [0; 50] <? 2) with false by reflexivity.
  destruct (_ || _) eqn:E; [vm_compute in E; discriminate|]. clear E.
  destruct (comb_body (sort_by Nat.leb [0; 50]) 100 (z2f 60)) as [a| |] eqn:B.
  - rewrite (loop_stuck _ _ _ _ a); auto. apply B2SF_inj. vm_compute. reflexivity.
  - assert (X : omap (fun _ => tt) (comb_body (sort_by Nat.leb [0; 50]) 100 (z2f 60)) = Ok tt) by (vm_compute; reflexivity).
    rewrite B in X. discriminate.
  - assert (X : omap (fun _ => tt) (comb_body (sort_by Nat.leb [0; 50]) 100 (z2f 60)) = Ok tt) by (vm_compute; reflexivity).
    rewrite B in X. discriminate.
Qed.
Print Assumptions C20_comb_refuted.

(** An accepted but huge range makes the pre-allocation panic. *)
Theorem C20_capacity_refuted : exists onsets rate mn mx res,
  (forall fuel, estimate_comb fuel onsets rate mn mx res = Some Panic) /\
  fle mn f0 = false /\ flt mn mx = true /\ flt f0 res = true /\ fisfin mx = true.
Proof.
  exists [0; 50], 100, (z2f 60), (lit 6617445 77), f1. split; [|repeat split].
  intros fuel. vm_compute. reflexivity.
Qed.
Print Assumptions C20_capacity_refuted.

(** C52: a perfectly regular onset train whose period corresponds exactly to a visited tempo
    gets that tempo with full confidence. *)
Theorem C52_pulse_train : forall fuel P n rate mn mx res k cs,
  0 < P -> 0 < n -> (Z.of_nat (n * P) <= 2 ^ 24)%Z ->
  fdiv (fmul (z2f 60) (n2f rate)) (nth_tempo res mn k) = n2f P ->
  fle (nth_tempo res mn k) (fadd mx eps10) = true ->
  estimate_comb fuel (pulses P n) rate mn mx res = Some (Ok cs) ->
  In (mkCand (nth_tempo res mn k) f1) cs.
Proof.
  intros fuel P n rate mn mx res k cs HP Hn B Per St H.
  assert (Ln : length (pulses P n) = n + 1) by (unfold pulses; now rewrite map_length, seq_length).
  destruct (comb_ok _ _ _ _ _ _ _ H) as [(_ & L1)|((_ & _ & Vn & _ & _ & Vr) & _ & l & L & ->)]; [lia|].
  rewrite pulses_sorted in L. set (b := nth_tempo res mn k) in *.
  assert (Nb : nn b) by (now apply fle_nn in St).
  assert (Gb : fle mn b = true) by (apply visited_ge; auto).
  assert (Pn : pos mn) by (apply not_le0_pos; auto; now apply fle_nn in Gb).
  assert (Pb : pos b) by (eapply flt_fle_trans; eauto).
  destruct (visited_in _ _ _ _ _ _ _ _ Vr L St) as (s & Hs). fold b in Hs.
  destruct (loop_range _ _ _ _ _ _ _ _ _ Vr L Hs) as (_ & _ & Bd).
  assert (s = f1) as ->.
  { unfold comb_body, adaptive_tolerance, fclamp in Bd.
    replace (fle (lit 13421773 (-28)) (lit 5033165 (-25))) with true in Bd by reflexivity. cbn [obind] in Bd.
    rewrite pulse_score with (P := P) in Bd; auto; [now injection Bd|].
    set (t := fmul (lit 13421773 (-27)) (fdiv (z2f 120) b)).
    assert (Fb : fin b \/ b = finf) by (destruct (nneg_cases b (pos_nneg _ Pb)) as [(? & _)|?]; auto).
    assert (Nt : nn t).
    { unfold t. destruct Fb as [Fb|Eb].
      - destruct (nneg_cases (fdiv (z2f 120) b)) as [(Fq & _)|Eq].
        + apply fdiv_nneg; auto. apply fdiv_nn_fin; auto.
        + apply nneg_nn, fmul_nneg_fin; auto. apply fdiv_nneg; auto; try reflexivity. now apply fdiv_nn_fin.
        + rewrite Eq. reflexivity.
      - rewrite Eb. reflexivity. }
    assert (HP' : (Z.of_nat P <= 16777216)%Z) by nia.
    apply fmul_nneg_fin.
    - apply (proj1 (n2f_exact P HP')).
    - apply (fin_between (lit 13421773 (-28)) _ (lit 5033165 (-25))); auto;
        [apply fclamp_val_ge|apply fclamp_val_le]; auto.
    - apply n2f_nneg.
    - eapply fle_trans with (y := lit 13421773 (-28)); [reflexivity|]. apply fclamp_val_ge; auto. }
  pose proof (loop_scores _ _ _ _ _ _ _ L) as S01. destruct (finish_spec l S01) as (I & _). apply I.
  destruct (best_score_spec l f0 in01_0 S01) as (M01 & _ & Mge & _). fold (best_score l) in M01, Mge.
  assert (best_score l = f1) as M1.
  { symmetry. apply fle_antisym_pos; [apply (Mge (b, f1) Hs)|apply M01|reflexivity]. }
  exists (b, f1). split; auto. cbn [fst snd c_conf]. split; [|reflexivity]. f_equal. unfold conf_of. rewrite M1.
  apply B2SF_inj. vm_compute. reflexivity.
Qed.
Print Assumptions C52_pulse_train.

(** Onsets every 50 samples at 100 Hz (120 BPM), searched from 110 to 130 BPM in steps of 5. *)
Example C19_case : option_map (omap (fun cs => (hd_error (map (fun c => f2i32 (c_bpm c)) cs))))
  (estimate_comb 20 [0; 50; 100; 150; 200] 100 (z2f 110) (z2f 130) (z2f 5)) = Some (Ok (Some 120%Z)).
Proof. vm_compute. reflexivity. Qed.
