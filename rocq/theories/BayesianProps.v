(** C31: the Bayesian tempo tracker (src/features/beat_tracking/bayesian.rs). *)
From Coq Require Import ZArith Reals Lra Lia.
From Flocq Require Import Core.
From Verif Require Import Rust F32 F32Facts F32More ListFacts PeakPicking PeakPickingProofs BpmLoop BpmLoopProofs Bayesian
  BayesianProofs TimeSignatureProofs.

(** One update of any tracker (NaN tempo included) with any onsets and any exponential function: it ends after at most
    242 loop tests, never panics, fails exactly on missing onsets or a tempo outside (1e-10, 300], a failure leaves the
    tracker as it was, and a success appends the new tempo to the history, reports a confidence in [0,1] and keeps the
    tempo or moves it into [60,180]. *)
Theorem C31_update : forall exp st onsets,
  exists st' r, (forall fuel, 242 <= fuel -> update fuel exp st onsets = Some (st', r)) /\
  (r = Err InvalidInput /\ st' = st /\
   (onsets = [] \/ fle (bt_bpm st) (lit 14411519 (-57)) = true \/ flt (z2f 300) (bt_bpm st) = true) \/
   exists b c, r = Ok (b, c) /\ onsets <> [] /\
   fle (bt_bpm st) (lit 14411519 (-57)) = false /\ flt (z2f 300) (bt_bpm st) = false /\
   bt_bpm st' = b /\ bt_conf st' = c /\ bt_history st' = bt_history st ++ [b] /\ in01 c /\
   (b = bt_bpm st \/ fle (z2f 60) b = true /\ fle b (z2f 180) = true)).
Proof.
  intros exp st onsets. destruct (update_cases exp st onsets) as (st' & r & H & C). exists st', r. split; [exact H|].
  destruct r as [(b & c)|e|].
  - right. exists b, c. destruct C as (C1 & C2 & C3 & C4 & C5 & C6 & C7 & C8). split; [reflexivity|].
    split; [exact C1|]. split; [exact C2|]. split; [exact C3|]. split; [exact C4|]. split; [exact C5|].
    split; [exact C6|]. split; [exact C7|]. destruct C8 as [C8|(A & B & _)]; auto.
  - left. destruct C as (-> & C). auto.
  - contradiction.
Qed.
Print Assumptions C31_update.

(** A successful update moves a (non-NaN) tempo by at most 5 BPM, up to the rounding of one addition. *)
Theorem C31_step_size : forall fuel exp st onsets st' b c, 242 <= fuel -> fin (bt_bpm st) ->
  update fuel exp st onsets = Some (st', Ok (b, c)) -> (Rabs (B2R b - B2R (bt_bpm st)) <= 5 + / 32768)%R.
Proof.
  intros fuel exp st onsets st' b c F Fb H.
  destruct (update_cases exp st onsets) as (st2 & r & H2 & C). rewrite (H2 fuel F) in H.
  assert (Er : r = Ok (b, c)) by congruence. rewrite Er in C.
  destruct C as (_ & E1 & E2 & _ & _ & _ & _ & [->|(A & B & D)]).
  - rewrite Rminus_eq_0, Rabs_R0. lra.
  - destruct (D (fin_nn _ Fb)) as (D1 & D2). apply near_real; auto.
    + apply fle_false_flt in E1; [|now apply fin_nn|reflexivity].
      assert (E0 : flt f0 (bt_bpm st) = true) by (refine (fle_flt_trans f0 eps10 _ _ E1); reflexivity).
      apply flt_fx in E0. rewrite (fx_fin _ Fb) in E0. cbn in E0.
      unfold fgt in E2. fold (flt (z2f 300) (bt_bpm st)) in E2. apply flt_false_fle in E2; [|reflexivity|now apply fin_nn].
      apply fle_fx in E2. rewrite (fx_fin _ Fb), lit_val in E2 by lia. lra.
    + refine (fin_between (z2f 60) _ (z2f 180) _ _ A B); reflexivity.
Qed.
Print Assumptions C31_step_size.

(** The invariant over any sequence of updates. *)
Definition successes (rs : list (outcome (f32 * f32))) : list (f32 * f32) :=
  flat_map (fun r => match r with Ok x => [x] | _ => [] end) rs.

Theorem C31_run : forall exp bpm conf evs, exists st rs,
  (forall fuel, 242 <= fuel -> run fuel exp (new_tracker bpm conf) evs = Some (st, rs)) /\
  length rs = length evs /\ ~ In Panic rs /\
  bt_history st = bpm :: map fst (successes rs) /\
  bt_bpm st = last (bt_history st) f0 /\
  bt_conf st = last (map snd (successes rs)) (fclamp_val conf f0 f1) /\
  (is_nan conf = false \/ successes rs <> [] -> in01 (bt_conf st)) /\
  (bt_bpm st = bpm \/ fle (z2f 60) (bt_bpm st) = true /\ fle (bt_bpm st) (z2f 180) = true).
Proof.
  intros exp bpm conf evs.
  enough (G : forall st0, exists st rs, (forall fuel, 242 <= fuel -> run fuel exp st0 evs = Some (st, rs)) /\
    length rs = length evs /\ ~ In Panic rs /\
    bt_history st = bt_history st0 ++ map fst (successes rs) /\
    bt_bpm st = last (map fst (successes rs)) (bt_bpm st0) /\
    bt_conf st = last (map snd (successes rs)) (bt_conf st0) /\
    Forall (fun x => in01 (snd x)) (successes rs) /\
    (bt_bpm st = bt_bpm st0 \/ fle (z2f 60) (bt_bpm st) = true /\ fle (bt_bpm st) (z2f 180) = true)).
  { destruct (G (new_tracker bpm conf)) as (st & rs & H1 & H2 & H3 & H4 & H5 & H6 & H7 & H8). exists st, rs.
    cbn [new_tracker bt_history bt_bpm bt_conf app] in *. split; [exact H1|]. split; [exact H2|]. split; [exact H3|].
    split; [exact H4|]. split; [|split; [exact H6|split; [|exact H8]]].
    - rewrite H4, H5. clear. revert bpm. induction (map fst (successes rs)) as [|x l IH]; intros b; [reflexivity|].
      cbn [last]. destruct l as [|y l]; [reflexivity|]. rewrite (IH b). cbn [last]. reflexivity.
    - intros H. rewrite H6. destruct (successes rs) as [|x l] eqn:S.
      + cbn [map last]. destruct H as [H|H]; [|congruence]. now apply in01_clamp.
      + assert (I : In (last (map snd (x :: l)) (fclamp_val conf f0 f1)) (map snd (x :: l))).
        { clear. generalize (fclamp_val conf f0 f1). intros d. revert x. induction l as [|y l IH]; intros x; [now left|].
          right. apply IH. }
        apply in_map_iff in I. destruct I as (p & <- & Hp). exact (proj1 (Forall_forall _ _) H7 p Hp). }
  induction evs as [|o evs IH]; intros st0.
  - exists st0, []. cbn [run length successes flat_map map last]. rewrite app_nil_r. repeat split; auto.
  - destruct (update_cases exp st0 o) as (st1 & r & U & C).
    destruct (IH st1) as (st & rs & H1 & H2 & H3 & H4 & H5 & H6 & H7 & H8).
    exists st, (r :: rs). split; [|split; [|split; [|split; [|split; [|split; [|split]]]]]].
    + intros fuel F. cbn [run]. now rewrite (U fuel F), (H1 fuel F).
    + cbn [length]. now rewrite H2.
    + intros [E|E]; [|contradiction]. rewrite E in C. exact C.
    + destruct r as [(b & c)|e|]; cbn [successes flat_map app map fst] in *; [|destruct C as (_ & -> & _); auto|contradiction].
      destruct C as (_ & _ & _ & _ & _ & E & _). rewrite H4, E, <- app_assoc. reflexivity.
    + destruct r as [(b & c)|e|]; cbn [successes flat_map app map fst] in *; [|destruct C as (_ & -> & _); auto|contradiction].
      destruct C as (_ & _ & _ & E & _). rewrite H5, E. cbn [last].
      fold (successes rs). destruct (map fst (successes rs)) as [|y l]; [reflexivity|]. clear. revert y. induction l as [|z l IH]; intros y; [reflexivity|]. apply IH.
    + destruct r as [(b & c)|e|]; cbn [successes flat_map app map fst] in *; [|destruct C as (_ & -> & _); auto|contradiction].
      destruct C as (_ & _ & _ & _ & E & _). rewrite H6, E. cbn [last snd].
      fold (successes rs). destruct (map snd (successes rs)) as [|y l]; [reflexivity|]. clear. revert y. induction l as [|z l IH]; intros y; [reflexivity|]. apply IH.
    + destruct r as [(b & c)|e|]; cbn [successes flat_map app] in *; auto. constructor; auto. now destruct C as (_ & _ & _ & _ & _ & _ & I & _).
    + destruct r as [(b & c)|e|].
      * destruct C as (_ & _ & _ & E & _ & _ & _ & D). destruct H8 as [H8|H8]; [|now right]. rewrite H8, E.
        destruct D as [->|(A & B & _)]; [now left|]. right. auto.
      * destruct C as (_ & -> & _). exact H8.
      * contradiction.
Qed.
Print Assumptions C31_run.

(** The chosen tempo has the largest likelihood: a candidate that beats it has likelihood NaN or at most 0. *)
Theorem C31_best : forall fuel exp st onsets st' b c cands, 242 <= fuel ->
  update fuel exp st onsets = Some (st', Ok (b, c)) -> bpm_candidates fuel (bt_bpm st) = Some cands ->
  forall x v, In x cands -> likelihood exp onsets x = Ok v -> flt f0 v = true ->
  exists vb, likelihood exp onsets b = Ok vb /\ fle v vb = true /\ In b cands.
Proof.
  intros fuel exp st onsets st' b c cands F H Hc x v I V P. unfold update in H.
  destruct (length onsets =? 0) eqn:L0; [congruence|].
  assert (No : onsets <> []) by (intros ->; discriminate).
  destruct (_ || _)%bool; [congruence|]. rewrite Hc in H.
  destruct (candidates_spec (bt_bpm st)) as (l & Hl & C & _). assert (l = cands) by (rewrite (Hl fuel F) in Hc; congruence). subst l.
  destruct (best_candidate_spec exp onsets (bt_bpm st) cands (bt_bpm st, f0) No C eq_refl) as (b' & v' & E & Nv & D & Le & M).
  rewrite E in H. cbn [fst snd] in *. assert (b = b') by congruence. subst b'.
  pose proof (M x v I V) as G. unfold fgt in G. fold (flt v' v) in G.
  assert (Nnv : nn v) by (now apply flt_nn in P). apply flt_false_fle in G; auto; [|now apply nneg_nn].
  destruct D as [(-> & ->)|(Ib & Vb & _)].
  - exfalso. apply flt_fle_false in P. congruence.
  - exists v'. auto.
Qed.
Print Assumptions C31_best.

(** ** Simultaneous onsets drag the tempo down *)
Lemma log_prob_zero : forall t i, fin t -> fin i -> pos i -> fadd f0 (log_prob t i t) = f0.
Proof.
  intros t i Ft Fi Pi. unfold log_prob.
  assert (Z : fabs (fsub t t) = f0) by now apply sub_self.
  assert (R : f2i32 (fround (fdiv (fsub t t) i)) = 0%Z).
  { destruct (fsub t t) as [s| | |s m e bd]; try discriminate Z.
    destruct i as [[]| | |[]]; try discriminate Pi; try discriminate Fi; destruct s; reflexivity. }
  rewrite R. assert (E : fmul (z2f 0) i = f0) by (destruct i as [[]| | |[]]; try discriminate Pi; try discriminate Fi; reflexivity).
  rewrite E. assert (D : fabs (fsub t (fadd t f0)) = f0).
  { destruct t as [[]| | |s m e bd] eqn:Et; try discriminate Ft; try reflexivity.
    replace (fadd (B754_finite s m e bd) f0) with (B754_finite s m e bd : f32); [now apply sub_self|].
    reflexivity. }
  rewrite D. apply B2SF_inj. vm_compute. reflexivity.
Qed.

Lemma all_zero : forall t i n, fin t -> fin i -> pos i ->
  fold_left (fun acc o => fadd acc (log_prob t i o)) (repeat t n) f0 = f0.
Proof.
  intros t i n Ft Fi Pi. induction n as [|n IH]; [reflexivity|]. cbn [repeat fold_left]. now rewrite log_prob_zero.
Qed.

Lemma likelihood_one : forall exp t n b, fin t -> exp f0 = f1 -> fle (z2f 60) b = true -> fle b (z2f 180) = true ->
  1 <= n -> (Z.of_nat n <= 16777216)%Z -> likelihood exp (repeat t n) b = Ok f1.
Proof.
  intros exp t n b Ft Ex B1 B2 N1 N2. unfold likelihood.
  rewrite (cand_not_eps fnan b). 2:{ split; [exact B1|]. split; [exact B2|]. intros D. discriminate D. }
  destruct n as [|n]; [lia|]. change (repeat t (S n)) with (t :: repeat t n) at 1. cbv iota.
  replace (fle (fmul likelihood_sigma likelihood_sigma) eps10) with false by (vm_compute; reflexivity). cbv zeta.
  assert (Fb : fin b) by (refine (fin_between (z2f 60) _ (z2f 180) _ _ B1 B2); reflexivity).
  assert (Pb : pos b) by (refine (flt_fle_trans f0 (z2f 60) b _ B1); reflexivity).
  assert (Ni : nn (fdiv (z2f 60) b)) by now apply fdiv_nn_fin.
  assert (I1 : fle (fdiv (z2f 60) b) f1 = true) by (apply fdiv_le_1; auto).
  assert (I0 : pos (fdiv (z2f 60) b)).
  { refine (flt_fle_trans f0 (fdiv (z2f 60) (z2f 180)) _ _ _); [vm_compute; reflexivity|].
    apply fdiv_mono_r; auto; vm_compute; reflexivity. }
  rewrite all_zero; auto.
  - replace (fdiv f0 (n2f (length (repeat t (S n))))) with f0; [now rewrite Ex|].
    rewrite repeat_length. symmetry. unfold n2f. destruct (z2f_exact (Z.of_nat (S n)) ltac:(lia)) as (Fn & En).
    apply zero_div; auto. apply flt_intro; [reflexivity|now apply fin_nn|]. rewrite (fx_fin _ Fn), En. cbn. apply IZR_lt. lia.
  - refine (fin_between f0 _ f1 _ _ (pos_nneg _ I0) I1); reflexivity.
Qed.

Lemma best_keeps : forall exp onsets cands b, (forall x, In x cands -> likelihood exp onsets x = Ok f1) ->
  best_candidate exp onsets (b, f1) cands = Ok (b, f1).
Proof.
  intros exp onsets cands. induction cands as [|x r IH]; intros b H; cbn [best_candidate]; [reflexivity|].
  rewrite (H x) by now left. cbn [obind snd]. replace (fgt f1 f1) with false by reflexivity. apply IH. intros y Hy. apply H. now right.
Qed.

(** If every onset of the evidence has the same time (one onset, for instance), all tempi fit equally well and the
    tracker always picks the slowest: the tempo falls to max(tempo - 5, 60).  Only exp(0) = 1 is assumed. *)
Theorem C31_single_onset_slows_down : forall fuel exp st t n, 242 <= fuel -> exp f0 = f1 -> fin t -> 1 <= n ->
  (Z.of_nat n <= 2 ^ 24)%Z -> fle (z2f 55) (bt_bpm st) = true -> fle (bt_bpm st) (z2f 185) = true ->
  exists st' c, update fuel exp st (repeat t n) = Some (st', Ok (fmax (fsub (bt_bpm st) (z2f 5)) (z2f 60), c)) /\
  bt_bpm st' = fmax (fsub (bt_bpm st) (z2f 5)) (z2f 60) /\
  (fle (z2f 65) (bt_bpm st) = true -> c = fhalf).
Proof.
  intros fuel exp st t n F Ex Ft N1 N2 B1 B2. unfold update. rewrite repeat_length.
  destruct (n =? 0) eqn:E0; [apply Nat.eqb_eq in E0; lia|].
  set (cur := bt_bpm st) in *. clearbody cur.
  assert (Fc : fin cur) by (refine (fin_between (z2f 55) _ (z2f 185) _ _ B1 B2); reflexivity).
  assert (E1 : fle cur eps10 = false).
  { apply flt_fle_false. refine (flt_fle_trans eps10 (z2f 55) cur _ B1). vm_compute. reflexivity. }
  assert (E2 : fgt cur (z2f 300) = false).
  { unfold fgt. apply fle_flt_false. refine (fle_trans _ (z2f 185) _ B2 _). reflexivity. }
  rewrite E1, E2. cbn [orb].
  destruct (candidates_spec cur) as (l & Hl & C & Hd). rewrite (Hl fuel F).
  assert (Ns : nn (fsub cur (z2f 5))) by (apply fsub_nn_fin; auto; reflexivity).
  assert (Na : nn (fadd cur (z2f 5))) by (apply fadd_nn_fin_r; [now apply fin_nn|reflexivity]).
  assert (LH : fle (fmax (fsub cur (z2f 5)) (z2f 60)) (fmin (fadd cur (z2f 5)) (z2f 180)) = true).
  { assert (Q : fadd (z2f 55) (z2f 5) = z2f 60) by (apply B2SF_inj; vm_compute; reflexivity).
    assert (Q2 : fsub (z2f 185) (z2f 5) = z2f 180) by (apply B2SF_inj; vm_compute; reflexivity).
    assert (A1 : fle (z2f 60) (fadd cur (z2f 5)) = true).
    { rewrite <- Q. apply fadd_mono; auto; reflexivity. }
    assert (A2 : fle (fsub cur (z2f 5)) (z2f 180) = true).
    { rewrite <- Q2. apply fsub_mono; auto; reflexivity. }
    assert (A3 : fle (fsub cur (z2f 5)) (fadd cur (z2f 5)) = true).
    { refine (fle_trans _ cur _ _ _).
      - apply fsub_le_l; auto. now apply fin_nn.
      - apply fadd_ge_l; auto. now apply fin_nn. }
    apply fmin_glb; try (intros _; apply fmax_lub; auto; reflexivity). right. reflexivity. }
  destruct (Hd LH) as (r & ->). cbn [best_candidate].
  assert (Lk : forall x, In x (fmax (fsub cur (z2f 5)) (z2f 60) :: r) -> likelihood exp (repeat t n) x = Ok f1).
  { intros x Hx. destruct (proj1 (Forall_forall _ _) C x Hx) as (X1 & X2 & _). apply likelihood_one; auto. }
  rewrite (Lk _ (or_introl eq_refl)). cbn [obind snd]. replace (fgt f1 f0) with true by reflexivity.
  rewrite best_keeps by (intros x Hx; apply Lk; now right). cbn [fst snd].
  eexists _, _. split; [reflexivity|]. cbn [bt_bpm]. split; [reflexivity|]. intros B65.
  assert (Em : fmax (fsub cur (z2f 5)) (z2f 60) = fsub cur (z2f 5)).
  { unfold fmax. unfold fisnan. rewrite Ns. replace (is_nan (z2f 60)) with false by reflexivity.
    assert (G : fle (z2f 60) (fsub cur (z2f 5)) = true).
    { replace (z2f 60) with (fsub (z2f 65) (z2f 5)) by (apply B2SF_inj; vm_compute; reflexivity). apply fsub_mono; auto; reflexivity. }
    now rewrite (fle_flt_false _ _ G). }
  rewrite Em.
  assert (P : change_penalty (fabs (fsub (fsub cur (z2f 5)) cur)) = fhalf).
  { assert (A2 : fle (fsub cur (z2f 5)) (z2f 180) = true).
    { replace (z2f 180) with (fsub (z2f 185) (z2f 5)) by (apply B2SF_inj; vm_compute; reflexivity). apply fsub_mono; auto; reflexivity. }
    assert (A1 : fle (z2f 60) (fsub cur (z2f 5)) = true).
    { replace (z2f 60) with (fsub (z2f 65) (z2f 5)) by (apply B2SF_inj; vm_compute; reflexivity). apply fsub_mono; auto; reflexivity. }
    set (d := fsub cur (z2f 5)) in *.
    assert (Fd : fin d) by (refine (fin_between (z2f 60) _ (z2f 180) _ _ A1 A2); reflexivity).
    assert (Rd : (B2R d <= B2R cur - 5 + / 32768)%R).
    { destruct (z2f_exact 5 ltac:(lia)) as (F5 & E5).
      assert (Ed : B2R d = rnd (B2R cur - 5)) by (unfold d in *; rewrite B2R_fsub, E5 by auto; reflexivity).
      rewrite Ed. destruct (rnd_err (B2R cur - 5)) as (e & h & H1 & H2 & _ & ->).
      apply Rabs_le_inv in H1, H2. apply fle_fx in B2, B65. rewrite (fx_fin _ Fc), lit_val in * by lia.
      assert (T : (bpow radix2 (-150) <= / 1048576)%R).
      { apply Rle_trans with (bpow radix2 (-20)); [apply bpow_le; lia|cbn; lra]. }
      assert (T2 : (bpow radix2 (-24) = / 16777216)%R) by (cbn; lra). rewrite T2 in H1.
      assert (((B2R cur - 5) * e <= 185 * / 16777216)%R).
      { apply Rle_trans with (Rabs ((B2R cur - 5) * e)); [apply Rle_abs|]. rewrite Rabs_mult.
        apply Rmult_le_compat; try apply Rabs_pos; apply Rabs_le; lra. }
      lra. }
    destruct (fsub_fx d cur Fd Fc) as (Nd & Ed).
    assert (V : (fx (fsub d cur) <= -4)%R).
    { rewrite Ed. rewrite <- (sat_id (-4)). 2:{ assert (1000 < big)%R by (rewrite big_val; apply IZR_lt; lia). lra. }
      apply sat_mono. rewrite <- (rnd_Z (-4)) by lia. apply rnd_mono. lra. }
    assert (W : fle (z2f 4) (fabs (fsub d cur)) = true).
    { apply fle_intro; [reflexivity|now rewrite fabs_nn|]. rewrite fabs_fx, lit_val by (auto; lia).
      rewrite Rabs_left1 by lra. lra. }
    unfold change_penalty. rewrite (fle_flt_false f1), (fle_flt_false (z2f 3)); [reflexivity| |].
    - refine (fle_trans _ (z2f 4) _ _ W). reflexivity.
    - refine (fle_trans _ (z2f 4) _ _ W). reflexivity. }
  rewrite P. apply B2SF_inj. vm_compute. reflexivity.
Qed.
Print Assumptions C31_single_onset_slows_down.

(** A concrete update: 120 BPM, three onsets at 0.5 s spacing, a fake exponential that is 1 at 0 and 1/2 elsewhere. *)
Definition toy_exp (x : f32) : f32 := if feq x f0 then f1 else fhalf.
Example C31_example :
  match update 242 toy_exp (new_tracker (z2f 120) fhalf) [f0; fhalf; f1] with
  | Some (st, Ok (b, c)) => (feq b (z2f 120), feq c f1, length (bt_history st)) = (true, true, 2)
  | _ => False
  end.
Proof. vm_compute. reflexivity. Qed.
Example C31_example_empty :
  match update 242 toy_exp (new_tracker (z2f 120) fhalf) [] with
  | Some (st, Err InvalidInput) => length (bt_history st) = 1
  | _ => False
  end.
Proof. vm_compute. reflexivity. Qed.
