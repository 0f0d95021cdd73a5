(** Lemmas for Bayesian.v. *)
From Coq Require Import ZArith Reals Lra Lia Psatz.
From Flocq Require Import Core.
From Verif Require Import Rust F32 F32Facts F32More ListFacts PeakPicking PeakPickingProofs BpmLoop BpmLoopProofs Bayesian.

Lemma z5_fin : fin (z2f 5). Proof. reflexivity. Qed.

Lemma lo_nn : forall cur, nn (fmax (fsub cur (z2f 5)) (z2f 60)).
Proof. intros. apply fmax_nn. right. reflexivity. Qed.
Lemma lo_ge60 : forall cur, fle (z2f 60) (fmax (fsub cur (z2f 5)) (z2f 60)) = true.
Proof. intros. apply fmax_ge_r. reflexivity. Qed.
Lemma hi_le180 : forall cur, fle (fmin (fadd cur (z2f 5)) (z2f 180)) (z2f 180) = true.
Proof. intros. apply fmin_le_r. reflexivity. Qed.

Lemma lit_val : forall z, (Z.abs z <= 16777216)%Z -> fx (z2f z) = IZR z.
Proof. intros z H. destruct (z2f_exact z H) as (F & E). now rewrite fx_fin. Qed.

(** The candidate walk passes its limit within 242 tests. *)
Lemma walk_241 : forall lo hi, fle (z2f 60) lo = true -> fle hi (z2f 180) = true ->
  fle (nth_tempo fhalf lo 241) hi = false.
Proof.
  intros lo hi L H. destruct (fle (nth_tempo fhalf lo 241) hi) eqn:E; auto. exfalso.
  assert (P : pos lo) by (refine (flt_fle_trans f0 (z2f 60) lo _ L); reflexivity).
  assert (Ph : pos fhalf) by reflexivity. assert (Fh : fin fhalf) by reflexivity.
  pose proof (nth_tempo_ge fhalf lo 241 Ph P) as G.
  pose proof (fle_trans _ _ _ L (fle_trans _ _ _ G E)) as H60.
  assert (Fhi : fin hi) by (refine (fin_between (z2f 60) _ (z2f 180) _ _ H60 H); reflexivity).
  pose proof (fle_trans _ _ _ G E) as Glh.
  assert (Flo : fin lo) by (refine (fin_between (z2f 60) _ hi _ Fhi L Glh); reflexivity).
  pose proof (walk_count fhalf lo hi 241 Ph Fh P Fhi E) as C.
  apply fle_fx in L, H. rewrite (fx_fin _ Flo), lit_val in L by lia. rewrite (fx_fin _ Fhi), lit_val in H by lia.
  rewrite B2R_fhalf in C. change (INR 241) with (INR (Z.to_nat 241)) in C. rewrite INR_IZR_INZ in C.
  rewrite Z2Nat.id in C by lia. nra.
Qed.

(** All tempi of one update. *)
Definition candidate_of (cur c : f32) : Prop :=
  fle (z2f 60) c = true /\ fle c (z2f 180) = true /\
  (nn cur -> fle (fsub cur (z2f 5)) c = true /\ fle c (fadd cur (z2f 5)) = true).

Lemma candidates_spec : forall cur, exists l, (forall fuel, 242 <= fuel -> bpm_candidates fuel cur = Some l) /\
  Forall (candidate_of cur) l /\
  (fle (fmax (fsub cur (z2f 5)) (z2f 60)) (fmin (fadd cur (z2f 5)) (z2f 180)) = true ->
   exists r, l = fmax (fsub cur (z2f 5)) (z2f 60) :: r).
Proof.
  intros cur. set (lo := fmax (fsub cur (z2f 5)) (z2f 60)). set (hi := fmin (fadd cur (z2f 5)) (z2f 180)).
  destruct (loop_ends (fun _ => Ok tt) hi fhalf 241 lo (walk_241 lo hi (lo_ge60 cur) (hi_le180 cur))) as (r & E).
  assert (Ok' : exists l, r = Ok l).
  { destruct r as [l|e|]; [eauto| |].
    - exfalso. revert E. generalize 242 lo. induction n as [|n IH]; intros b E; [discriminate|]. cbn [bpm_loop] in E.
      destruct (fle b hi); [|discriminate]. destruct (bpm_loop (fun _ => Ok tt) hi fhalf n (fadd b fhalf)) as [[l| |]|] eqn:E'; try discriminate.
      eapply IH. rewrite E'. congruence.
    - exfalso. apply loop_panic in E. destruct E as (k & _ & E). discriminate. }
  destruct Ok' as (l & ->). exists (map fst l). split; [|split].
  - intros fuel F. unfold bpm_candidates. fold lo hi. now rewrite (loop_mono _ _ _ _ _ _ E fuel F).
  - apply loop_ok in E. destruct E as (E & _). apply Forall_forall. intros c Hc. apply in_map_iff in Hc.
    destruct Hc as ((x & u) & <- & Hx). cbn [fst]. apply In_nth_error in Hx. destruct Hx as (k & Hx).
    apply E in Hx. destruct Hx as (-> & Hs & _).
    assert (P : pos lo) by (refine (flt_fle_trans f0 (z2f 60) lo _ (lo_ge60 cur)); reflexivity).
    pose proof (nth_tempo_ge fhalf lo k eq_refl P) as G.
    split; [exact (fle_trans _ _ _ (lo_ge60 cur) G)|]. split; [exact (fle_trans _ _ _ Hs (hi_le180 cur))|].
    intros N. split.
    + refine (fle_trans _ _ _ (fmax_ge_l _ _ _) G). rewrite fsub_eq. now apply fadd_nn_fin_r.
    + refine (fle_trans _ _ _ Hs (fmin_le_l _ _ _)). now apply fadd_nn_fin_r.
  - intros H. fold lo hi in H. remember 241 as n. cbn [bpm_loop] in E. rewrite H in E.
    destruct (bpm_loop (fun _ => Ok tt) hi fhalf n (fadd lo fhalf)) as [[l'| |]|]; try discriminate.
    injection E as <-. eexists. reflexivity.
Qed.

(** ** The likelihood search *)
Lemma likelihood_ok : forall exp onsets b, onsets <> [] -> fle b eps10 = false -> exists v, likelihood exp onsets b = Ok v.
Proof.
  intros exp onsets b N H. unfold likelihood. rewrite H. destruct onsets as [|o r]; [congruence|].
  replace (fle (fmul likelihood_sigma likelihood_sigma) eps10) with false by (vm_compute; reflexivity). eauto.
Qed.

Lemma cand_not_eps : forall cur c, candidate_of cur c -> fle c eps10 = false.
Proof.
  intros cur c (H & _). apply flt_fle_false. refine (flt_fle_trans eps10 (z2f 60) c _ H). vm_compute. reflexivity.
Qed.

Lemma best_candidate_spec : forall exp onsets cur cands best, onsets <> [] -> Forall (candidate_of cur) cands ->
  nneg (snd best) -> exists b l, best_candidate exp onsets best cands = Ok (b, l) /\ nneg l /\
  (b = fst best /\ l = snd best \/ In b cands /\ likelihood exp onsets b = Ok l /\ pos l) /\
  fle (snd best) l = true /\
  (forall c v, In c cands -> likelihood exp onsets c = Ok v -> fgt v l = false).
Proof.
  intros exp onsets cur cands. induction cands as [|c cands IH]; intros best No H N; cbn [best_candidate].
  - exists (fst best), (snd best). split; [now rewrite <- surjective_pairing|]. split; [exact N|]. split; [now left|].
    split; [now apply fle_refl, nneg_nn|]. intros c v [].
  - pose proof (Forall_inv H) as C. apply Forall_inv_tail in H.
    destruct (likelihood_ok exp onsets c No (cand_not_eps _ _ C)) as (v & V). rewrite V. cbn [obind].
    destruct (fgt v (snd best)) eqn:G.
    + assert (Gv : pos v) by (unfold fgt in G; exact (fle_flt_trans f0 (snd best) v N G)).
      destruct (IH (c, v) No H (pos_nneg _ Gv)) as (b & l & E & Nl & D & Le & M). cbn [fst snd] in *.
      exists b, l. split; [exact E|]. split; [exact Nl|]. split; [|split].
      * destruct D as [(-> & ->)|(I & L & P)]; right; [split; [now left|auto]|split; [now right|auto]].
      * unfold fgt in G. fold (flt (snd best) v) in G. apply flt_fle in G. exact (fle_trans _ _ _ G Le).
      * intros c' v' [<-|I] V'; [|now apply (M c')]. assert (v' = v) by congruence. subst v'.
        unfold fgt. now apply fle_flt_false.
    + destruct (IH best No H N) as (b & l & E & Nl & D & Le & M).
      exists b, l. split; [exact E|]. split; [exact Nl|]. split; [|split].
      * destruct D as [(-> & ->)|(I & L & P)]; [now left|right; split; [now right|auto]].
      * exact Le.
      * intros c' v' [<-|I] V'; [|now apply (M c')]. assert (v' = v) by congruence. subst v'.
        destruct (fgt v l) eqn:G'; auto. exfalso. unfold fgt in G, G'.
        pose proof (fle_flt_trans _ _ _ Le G') as G2. unfold flt in G2. congruence.
Qed.

Lemma penalty_cases : forall x, change_penalty x = f1 \/ change_penalty x = lit 13421773 (-24) \/ change_penalty x = fhalf.
Proof. intros x. unfold change_penalty. destruct (flt x f1); auto. destruct (flt x (z2f 3)); auto. Qed.

Lemma conf_in01 : forall l p, nneg l -> (p = f1 \/ p = lit 13421773 (-24) \/ p = fhalf) -> in01 (fmin (fmul l p) f1).
Proof.
  intros l p N P. assert (F : fin p /\ pos p) by (destruct P as [->|[->| ->]]; split; vm_compute; reflexivity).
  destruct F as (Fp & Pp).
  assert (Nm : nneg (fmul l p)).
  { destruct (nneg_cases l N) as [(Fl & _)| ->].
    - apply fmul_nneg_fin; auto. now apply pos_nneg.
    - rewrite fmul_inf_l by auto. reflexivity. }
  split.
  - apply fmin_glb; auto.
  - apply fmin_le_r. reflexivity.
Qed.

(** Five beats per minute, up to rounding. *)
Lemma near_real : forall cur c, fin cur -> (0 <= B2R cur <= 300)%R -> fle (fsub cur (z2f 5)) c = true ->
  fle c (fadd cur (z2f 5)) = true -> fin c -> (Rabs (B2R c - B2R cur) <= 5 + / 32768)%R.
Proof.
  intros cur c F B L U Fc. destruct (z2f_exact 5 ltac:(lia)) as (F5 & E5).
  destruct (fsub_fx cur (z2f 5) F F5) as (Ns & Es). destruct (fadd_fx cur (z2f 5) F F5) as (Na & Ea).
  apply fle_fx in L, U. rewrite Es, (fx_fin _ Fc), E5 in L. rewrite Ea, (fx_fin _ Fc), E5 in U.
  destruct (rnd_err (B2R cur - 5)) as (e1 & h1 & A1 & A2 & A3). destruct (rnd_err (B2R cur + 5)) as (e2 & h2 & C1 & C2 & C3).
  assert (T : (bpow radix2 (-150) <= / 1048576)%R).
  { apply Rle_trans with (bpow radix2 (-20)); [apply bpow_le; lia|cbn; lra]. }
  assert (T2 : (bpow radix2 (-24) = / 16777216)%R) by (cbn; lra).
  assert (Bs : forall r, (-1000 <= r <= 1000)%R -> sat r = r).
  { intros r R. apply sat_id. assert (1000 < big)%R by (rewrite big_val; apply IZR_lt; lia). lra. }
  apply Rabs_le_inv in A1, A2, C1, C2. rewrite T2 in *.
  assert (M : forall a e, (-305 <= a <= 305)%R -> (- / 16777216 <= e <= / 16777216)%R ->
            (- (305 / 16777216) <= a * e <= 305 / 16777216)%R).
  { intros a e Ha He. assert (Q : (Rabs (a * e) <= 305 * / 16777216)%R).
    { rewrite Rabs_mult. apply Rmult_le_compat; try apply Rabs_pos; apply Rabs_le; lra. }
    apply Rabs_le_inv in Q. lra. }
  pose proof (M (B2R cur - 5)%R e1 ltac:(lra) A1) as M1. pose proof (M (B2R cur + 5)%R e2 ltac:(lra) C1) as M2.
  assert (R1 : (B2R cur - 5 - / 32768 <= rnd (B2R cur - 5) <= 1000)%R) by (destruct A3 as (_ & ->); split; lra).
  assert (R2 : (-1000 <= rnd (B2R cur + 5) <= B2R cur + 5 + / 32768)%R) by (destruct C3 as (_ & ->); split; lra).
  rewrite Bs in L by lra. rewrite Bs in U by lra.
  apply Rabs_le. lra.
Qed.

(** One update, whatever [exp] does. *)
Lemma update_cases : forall exp st onsets,
  exists st' r, (forall fuel, 242 <= fuel -> update fuel exp st onsets = Some (st', r)) /\
  match r with
  | Panic => False
  | Err e => e = InvalidInput /\ st' = st /\
      (onsets = [] \/ fle (bt_bpm st) eps10 = true \/ fgt (bt_bpm st) (z2f 300) = true)
  | Ok (b, c) => onsets <> [] /\ fle (bt_bpm st) eps10 = false /\ fgt (bt_bpm st) (z2f 300) = false /\
      bt_bpm st' = b /\ bt_conf st' = c /\ bt_history st' = bt_history st ++ [b] /\ in01 c /\
      (b = bt_bpm st \/ candidate_of (bt_bpm st) b)
  end.
Proof.
  intros exp st onsets. unfold update.
  destruct (length onsets =? 0) eqn:L0.
  { exists st, (Err InvalidInput). split; [reflexivity|]. apply Nat.eqb_eq, length_zero_iff_nil in L0. auto. }
  assert (No : onsets <> []) by (intros ->; discriminate).
  destruct (fle (bt_bpm st) eps10) eqn:E1; cbn [orb].
  { exists st, (Err InvalidInput). split; [reflexivity|]. auto. }
  destruct (fgt (bt_bpm st) (z2f 300)) eqn:E2.
  { exists st, (Err InvalidInput). split; [reflexivity|]. auto. }
  destruct (candidates_spec (bt_bpm st)) as (l & Hl & C & _).
  destruct (best_candidate_spec exp onsets (bt_bpm st) l (bt_bpm st, f0) No C eq_refl) as (b & v & E & Nv & D & _).
  eexists _, (Ok (b, _)). split.
  - intros fuel F. rewrite (Hl fuel F), E. cbn [fst snd]. reflexivity.
  - cbn [bt_bpm bt_conf bt_history]. split; [exact No|]. split; [reflexivity|]. split; [reflexivity|].
    split; [reflexivity|]. split; [reflexivity|]. split; [reflexivity|]. split.
    + apply conf_in01; auto. apply penalty_cases.
    + destruct D as [(-> & _)|(I & _)]; [now left|]. right. exact (proj1 (Forall_forall _ _) C b I).
Qed.
