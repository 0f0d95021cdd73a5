(** C85: what the likelihood of the Bayesian tempo tracker measures (src/features/beat_tracking/bayesian.rs). *)
From Coq Require Import ZArith Bool List Arith Lia Reals Lra Psatz.
From Flocq Require Import Core Sterbenz IEEE754.BinarySingleNaN.
From Verif Require Import Rust F32 F32Facts F32More ListFacts FloatSums Bounds PeakPicking PeakPickingProofs BpmLoop BpmLoopProofs Bayesian BayesianProofs NoveltyProofs
  FourierFacts AutocorrelationValueProofs SpectrumFacts TempoSpectrumFacts OnsetStrengthFacts TempoLagProps KeyVariantsProps Libm ExactPlatform BeatDistanceFacts.
Import ListNotations.
Local Open Scope R_scope.

(** The distance of onset number i from the nearest beat of the grid that has a beat at the first onset. *)
Definition distance (onsets : list f32) (bpm : f32) (i : nat) : R :=
  off_beat (B2R (nth i onsets f0) - B2R (nth 0 onsets f0)) (60 / B2R bpm).
Definition mean_distance (onsets : list f32) (bpm : f32) : R := sumn (distance onsets bpm) (length onsets) / INR (length onsets).
(** The mean squared distance in units of 2 sigma^2, sigma = 50 ms. *)
Definition misfit (onsets : list f32) (bpm : f32) : R :=
  sumn (fun i => distance onsets bpm i * distance onsets bpm i / (2 * (5 / 100) * (5 / 100))) (length onsets) / INR (length onsets).
Definition fit (onsets : list f32) (bpm : f32) : R := exp (- misfit onsets bpm).
(** The rounding errors for onsets before time T, with an exponential that is off by at most e. *)
Definition tolerance (e T : R) (onsets : list f32) (bpm : f32) : R :=
  e + T / 1000 * mean_distance onsets bpm + T * T / 500000000 + (INR (length onsets) + 1) / 5000000 * misfit onsets bpm.

Definition exp_accurate (ex : f32 -> f32) (e : R) : Prop :=
  forall x, fin x -> B2R x <= 0 -> fin (ex x) /\ 0 <= B2R (ex x) /\ Rabs (B2R (ex x) - exp (B2R x)) <= e.
Definition times_upto (T : R) (onsets : list f32) : Prop := Forall (fun o => fin o /\ 0 <= B2R o <= T) onsets.

Lemma exact_exp : exp_accurate (m_exp exact_libm) (/ 8388608).
Proof.
  intros x Fx Hx. cbn [exact_libm m_exp]. pose proof (exp_pos (B2R x)) as P0. assert (P1 : exp (B2R x) <= 1). { rewrite <- exp_0. destruct Hx as [H|H]; [left; now apply exp_increasing|rewrite H; lra]. }
  destruct (nearest_f32_near (exp (B2R x))) as (F & E).
  - rewrite Rabs_pos_eq by lra. eapply Rle_trans; [exact P1|]. apply (bpow_le radix2 0 120). lia.
  - split; [exact F|]. destruct (nearest_f32_fx (exp (B2R x))) as (_ & X). rewrite fx_fin in X by exact F. rewrite (Rabs_pos_eq (exp (B2R x))) in E by lra.
    assert (tiny <= / 16777216) by (apply Rle_trans with (bpow radix2 (-24)); [apply bpow_le; lia|change (bpow radix2 (-24)) with (/ 16777216); lra]).
    split; [|unfold u24 in E; lra]. rewrite X. pose proof (rnd_nonneg _ (Rlt_le _ _ P0)) as R0. unfold sat. pose proof big_pos. apply Rle_trans with (Rmin big (rnd (exp (B2R x)))); [apply Rmin_glb; lra|apply Rmax_r].
Qed.

Lemma exp_lipschitz : forall a b, 0 <= a -> 0 <= b -> Rabs (exp (- a) - exp (- b)) <= Rabs (a - b).
Proof.
  assert (H : forall a b, 0 <= a <= b -> 0 <= exp (- a) - exp (- b) <= b - a).
  { intros a b H. replace (- b) with (- a + - (b - a)) by ring. rewrite exp_plus. pose proof (exp_pos (- a)) as P. assert (P1 : exp (- a) <= 1). { rewrite <- exp_0. destruct (Req_dec a 0) as [->|N]; [rewrite Ropp_0; lra|left; apply exp_increasing; lra]. }
    set (h := b - a). assert (0 <= h) by (unfold h; lra). assert (L : 1 - h <= exp (- h)). { destruct (Req_dec h 0) as [->|N]; [rewrite Ropp_0, exp_0; lra|]. pose proof (exp_ineq1 (- h) ltac:(lra)). lra. }
    assert (U : exp (- h) <= 1). { rewrite <- exp_0. destruct (Req_dec h 0) as [->|N]; [rewrite Ropp_0; lra|left; apply exp_increasing; lra]. }
    set (x := exp (- a)) in *. set (y := exp (- h)) in *. nra. }
  intros a b Ha Hb. destruct (Rle_or_lt a b) as [L|L].
  - pose proof (H a b ltac:(lra)). rewrite Rabs_pos_eq by lra. rewrite Rabs_minus_sym, Rabs_pos_eq; lra.
  - pose proof (H b a ltac:(lra)). rewrite Rabs_minus_sym, Rabs_pos_eq by lra. rewrite Rabs_pos_eq; lra.
Qed.

Lemma fadd_fin_l : forall a x, fin (fadd a x) -> fin a.
Proof. intros [[]|[]| |[]] [[]|[]| |[]] H; try reflexivity; discriminate H. Qed.
Lemma fold_fin_acc : forall l a, fin (fold_left fadd l a) -> fin a.
Proof. induction l as [|x l IH]; intros a H; [exact H|]. cbn [fold_left] in H. apply IH in H. now apply fadd_fin_l in H. Qed.
(** Adding up the negated terms gives the negated sum. *)
Lemma fold_opp : forall l a b, Forall (fun x => fin x) l -> fin a -> fin b -> B2R a = - B2R b -> fin (fold_left fadd (map fneg l) b) ->
  fin (fold_left fadd l a) /\ B2R (fold_left fadd l a) = - B2R (fold_left fadd (map fneg l) b).
Proof.
  induction l as [|x l IH]; intros a b Fl Fa Fb E F; cbn [map fold_left] in *; [auto|]. pose proof (Forall_inv Fl) as Fx. apply Forall_inv_tail in Fl. cbv beta in Fx.
  pose proof (fold_fin_acc _ _ F) as F1. assert (Fn : fin (fneg x)) by (unfold fneg; now rewrite is_finite_Bopp). assert (Vn : B2R (fneg x) = - B2R x) by (unfold fneg; apply B2R_Bopp).
  destruct (fadd_fx b (fneg x) Fb Fn) as (_ & E1). rewrite (fx_fin _ F1), Vn in E1. destruct (fadd_fx a x Fa Fx) as (N2 & E2). rewrite E in E2. replace (- B2R b + B2R x) with (- (B2R b + - B2R x)) in E2 by ring. rewrite rnd_opp in E2.
  set (r := rnd (B2R b + - B2R x)) in *. pose proof (proj1 (fin_iff _ (fin_nn _ F1)) F1) as B1. rewrite (fx_fin _ F1) in B1.
  assert (Sr : sat r = r). { destruct (Rle_or_lt big r) as [H|H]; [exfalso; revert E1 B1; unfold sat; rewrite Rmin_left by lra; intros; rewrite Rmax_right in E1 by (pose proof big_pos; lra); lra|].
    destruct (Rle_or_lt r (- big)) as [H'|H']; [exfalso; revert E1 B1; unfold sat; rewrite Rmin_right by lra; intros; rewrite Rmax_left in E1 by lra; lra|]. apply sat_id. lra. }
  rewrite Sr in E1. rewrite sat_id in E2 by lra. assert (F2 : fin (fadd a x)) by (apply fin_iff; auto; rewrite E2; lra). rewrite (fx_fin _ F2) in E2. apply IH; auto. lra.
Qed.

Lemma misfit_200 : forall onsets bpm, misfit onsets bpm = sumn (fun i => 200 * (distance onsets bpm i * distance onsets bpm i)) (length onsets) / INR (length onsets).
Proof. intros. unfold misfit. f_equal. apply sumn_ext. intros i Hi. lra. Qed.
Lemma misfit_nonneg : forall onsets bpm, onsets <> [] -> 0 <= misfit onsets bpm.
Proof.
  intros onsets bpm N. rewrite misfit_200. assert (0 < INR (length onsets)) by (apply lt_0_INR; destruct onsets; [congruence|cbn; lia]). apply Rmult_le_pos; [|left; now apply Rinv_0_lt_compat]. apply sumn_nonneg. intros i Hi. nra.
Qed.
Lemma mean_distance_nonneg : forall onsets bpm, onsets <> [] -> 0 <= mean_distance onsets bpm.
Proof.
  intros onsets bpm N. unfold mean_distance. assert (0 < INR (length onsets)) by (apply lt_0_INR; destruct onsets; [congruence|cbn; lia]). apply Rmult_le_pos; [|left; now apply Rinv_0_lt_compat]. apply sumn_nonneg. intros i Hi. apply off_beat_nonneg.
Qed.

(** The mean log-probability is minus the misfit. *)
Lemma mean_val : forall onsets bpm T, onsets <> [] -> (Z.of_nat (length onsets) <= 1048576)%Z -> 1 <= T <= 4096 -> times_upto T onsets -> fin bpm -> 60 <= B2R bpm <= 180 ->
  let m := fdiv (fold_left (fun acc o => fadd acc (log_prob (nth 0 onsets f0) (fdiv (z2f 60) bpm) o)) onsets f0) (n2f (length onsets)) in
  fin m /\ B2R m <= 0 /\ Rabs (B2R m + misfit onsets bpm) <= tolerance 0 T onsets bpm.
Proof.
  intros onsets bpm T No Hn HT Ht Fb Bb m. set (n := length onsets) in *. set (s := nth 0 onsets f0) in *. set (p := fdiv (z2f 60) bpm) in *.
  assert (n0 : (0 < n)%nat) by (unfold n; destruct onsets; [congruence|cbn; lia]). assert (N1 : 1 <= INR n) by (apply (le_INR 1); lia). assert (N2 : INR n <= 1048576) by (rewrite INR_IZR_INZ; now apply IZR_le).
  assert (At : forall i, (i < n)%nat -> fin (nth i onsets f0) /\ 0 <= B2R (nth i onsets f0) <= T). { intros i Hi. unfold times_upto in Ht. rewrite Forall_forall in Ht. apply Ht, nth_In. exact Hi. }
  destruct (At 0%nat n0) as (Fs & Bs). fold s in Fs, Bs.
  set (lp := log_prob s p). set (g := fun o => fneg (lp o)). set (l := map lp onsets). set (q := map g onsets).
  assert (Eq : map fneg l = q) by (unfold l, q, g; rewrite map_map; reflexivity).
  assert (Gi : forall o, In o onsets -> fin (g o) /\ 0 <= B2R (g o) <= 128).
  { intros o I. unfold times_upto in Ht. rewrite Forall_forall in Ht. destruct (Ht o I) as (Fo & Bo). destruct (log_prob_val s bpm o T Fs Fo Fb HT Bs Bo Bb) as (A1 & A2 & _). fold p in A1, A2. auto. }
  assert (Uq : Forall (upto 7) q). { apply Forall_forall. intros y Y. apply in_map_iff in Y as (o & <- & I). destruct (Gi o I) as (A1 & A2). split; [exact A1|]. change (bpow radix2 7) with 128. exact A2. }
  pose proof (upto_sum 7 q ltac:(lia) Uq) as Us. pose proof (upto_fin _ _ Us) as Fsum.
  assert (Fl : Forall (fun x => fin x) l). { apply Forall_forall. intros y Y. apply in_map_iff in Y as (o & <- & I). destruct (Gi o I) as (A1 & _). unfold g, fneg in A1. now rewrite is_finite_Bopp in A1. }
  destruct (fold_opp l f0 f0 Fl eq_refl eq_refl ltac:(cbn; lra)) as (Ft & Et). { rewrite Eq. exact Fsum. } rewrite Eq in Et. fold (fsum q) in Et.
  unfold m. clear m. rewrite (fold_map_add _ (log_prob s p)). fold lp l. set (total := fold_left fadd l f0) in *. clearbody total.
  destruct (n2f_INR n ltac:(lia)) as (Fn & En). destruct (fdiv_fx total (n2f n) Ft Fn ltac:(rewrite En; lra)) as (Nm & Em). rewrite En, Et in Em.
  (* the terms *)
  set (d := distance onsets bpm). set (x := fun i => B2R (nth i q f0)). assert (Lq : length q = n) by (unfold q; now rewrite map_length).
  assert (Xi : forall i, (i < n)%nat -> 0 <= x i /\ Rabs (x i - 200 * (d i * d i)) <= T / 2000 * d i + T * T / 1000000000).
  { intros i Hi. unfold x, q. rewrite (nth_indep _ f0 (g f0)) by (now rewrite map_length). rewrite map_nth. destruct (At i Hi) as (Fo & Bo). destruct (log_prob_val s bpm (nth i onsets f0) T Fs Fo Fb HT Bs Bo Bb) as (A1 & A2 & A3). fold p in A1, A2, A3. split; [apply A2|exact A3]. }
  pose proof (sum_near q x 0 0) as SN. cbv zeta in SN. rewrite Lq in SN. specialize (SN ltac:(eapply Forall_impl; [|exact Uq]; intros y; apply upto_nneg) Fsum Hn ltac:(lra) ltac:(lra)).
  assert (SN' : Rabs (B2R (fsum q) - sumn x n) <= INR n / 6000000 * sumn x n). { eapply Rle_trans; [apply SN|]. { intros i Hi. split; [apply Xi, Hi|]. unfold x. rewrite Rminus_eq_0, Rabs_R0. lra. } lra. } clear SN.
  set (SX := sumn x n) in *. set (SD := sumn d n). set (SQ := sumn (fun i => 200 * (d i * d i)) n).
  assert (X0 : 0 <= SX) by (apply sumn_nonneg; intros i Hi; apply Xi, Hi). assert (D0 : 0 <= SD) by (apply sumn_nonneg; intros i Hi; apply off_beat_nonneg). assert (Q0 : 0 <= SQ) by (apply sumn_nonneg; intros i Hi; nra).
  assert (XQ : Rabs (SX - SQ) <= T / 2000 * SD + INR n * (T * T / 1000000000)).
  { unfold SX, SQ, SD. rewrite sumn_minus. eapply Rle_trans; [apply sumn_abs|]. rewrite <- sumn_scal, <- sumn_const, <- sumn_plus. apply sumn_le. intros i Hi. apply Xi, Hi. }
  assert (EM : misfit onsets bpm = SQ / INR n) by apply misfit_200. assert (ED : mean_distance onsets bpm = SD / INR n) by reflexivity.
  unfold tolerance. rewrite EM, ED. fold n. clear EM ED. set (F := B2R (fsum q)) in *. assert (F0 : 0 <= F) by (destruct Us as (_ & A & _); exact A).
  assert (FU : F <= 4294967296). { destruct Us as (_ & _ & A). change (bpow radix2 (7 + 25)) with 4294967296 in A. exact A. }
  set (y := F / INR n). replace (- F / INR n) with (- y) in Em by (unfold y, Rdiv; ring). assert (IN : 0 < / INR n <= 1) by (split; [apply Rinv_0_lt_compat; lra|rewrite <- Rinv_1; apply Rinv_le_contravar; lra]).
  assert (Y0 : 0 <= y <= 4294967296) by (unfold y, Rdiv; nra). rewrite rnd_opp in Em. pose proof (rnd_near y) as NY. rewrite (Rabs_pos_eq y) in NY by lra. apply Rabs_le_inv in NY. pose proof (rnd_nonneg y ltac:(lra)) as RY.
  assert (TT : 0 < tiny <= / 1000000000000). { split; [apply tiny_pos|]. eapply Rle_trans; [apply (bpow_le radix2 _ (-40)); lia|]. simpl. lra. }
  assert (B40 : 1000000000000 < big) by (apply Rlt_le_trans with (bpow radix2 40); [simpl; lra|apply bpow_le; lia]). unfold u24 in NY.
  rewrite sat_id in Em by lra. assert (Fm : fin (fdiv total (n2f n))) by (apply fin_iff; auto; rewrite Em; lra). rewrite (fx_fin _ Fm) in Em. rewrite Em. split; [exact Fm|]. split; [lra|]. set (r := rnd y) in *. clearbody r.
  (* everything divided by n *)
  apply Rabs_le_inv in SN'. apply Rabs_le_inv in XQ. set (k := / INR n) in *. assert (NK : INR n * k = 1) by (unfold k; apply Rinv_r; lra).
  set (M := SQ / INR n). set (D := SD / INR n). set (z := SX * k). assert (M0 : 0 <= M) by (unfold M, Rdiv; fold k; apply Rmult_le_pos; lra). assert (D0' : 0 <= D) by (unfold D, Rdiv; fold k; apply Rmult_le_pos; lra). assert (z0 : 0 <= z) by (unfold z; apply Rmult_le_pos; lra).
  assert (A1 : y - z <= INR n / 6000000 * z /\ - (INR n / 6000000 * z) <= y - z). { unfold y, z, Rdiv. fold k. split; nra. }
  set (V := T / 2000 * D + T * T / 1000000000). assert (TT0 : 0 <= T * T / 1000000000) by nra. assert (V0 : 0 <= V) by (unfold V; nra).
  assert (KV : k * (T / 2000 * SD + INR n * (T * T / 1000000000)) = V). { unfold V, D, Rdiv. fold k. rewrite Rmult_plus_distr_l. rewrite <- (Rmult_assoc k (INR n)), (Rmult_comm k (INR n)), NK. ring. }
  assert (A2 : z - M <= V /\ - V <= z - M). { rewrite <- KV. unfold z, M, Rdiv. fold k. split; nra. }
  replace (0 + T / 1000 * D + T * T / 500000000) with (2 * V) by (unfold V; field).
  clearbody M D z V y. set (h := INR n / 6000000) in *. replace ((INR n + 1) / 5000000) with (6 / 5 * h + / 5000000) by (unfold h; field). assert (H0 : 0 <= h <= 18 / 100) by (unfold h; lra).
  assert (V1 : / 1000000000 <= V). { rewrite <- KV. assert (1 <= T * T) by nra. assert (0 <= k * (T / 2000 * SD)) by (apply Rmult_le_pos; [lra|apply Rmult_le_pos; lra]). assert (k * (INR n * (T * T / 1000000000)) = T * T / 1000000000) by (rewrite <- Rmult_assoc, (Rmult_comm k), NK; ring). lra. }
  assert (hz : h * z <= h * M + h * V) by nra. assert (hM : 0 <= h * M) by nra. assert (hV : h * V <= 18 / 100 * V) by nra. clear - A1 A2 hz hM hV NY V1 M0 TT Y0 z0. apply Rabs_le. replace ((6 / 5 * h + / 5000000) * M) with (6 / 5 * (h * M) + / 5000000 * M) by ring. set (hm := h * M) in *. set (hv := h * V) in *. set (hzz := h * z) in *. clearbody hm hv hzz. lra.
Qed.

(** The likelihood of a tempo between 60 and 180 BPM for onsets before time T. *)
Theorem C85_likelihood : forall ex e onsets bpm T, exp_accurate ex e -> onsets <> [] -> (Z.of_nat (length onsets) <= 1048576)%Z ->
  1 <= T <= 4096 -> times_upto T onsets -> fin bpm -> 60 <= B2R bpm <= 180 ->
  exists v, likelihood ex onsets bpm = Ok v /\ fin v /\ 0 <= B2R v /\ Rabs (B2R v - fit onsets bpm) <= tolerance e T onsets bpm.
Proof.
  intros ex e onsets bpm T He No Hn HT Ht Fb Bb. destruct (mean_val onsets bpm T No Hn HT Ht Fb Bb) as (Fm & M0 & Em). pose proof (misfit_nonneg onsets bpm No) as MF.
  set (m := fdiv (fold_left (fun acc o => fadd acc (log_prob (nth 0 onsets f0) (fdiv (z2f 60) bpm) o)) onsets f0) (n2f (length onsets))) in *.
  exists (ex m). split.
  - unfold likelihood. replace (fle bpm eps10) with false.
    2:{ symmetry. apply flt_fle_false. apply flt_intro; [reflexivity|now apply fin_nn|]. rewrite (fx_fin _ Fb). eapply Rlt_le_trans; [|apply Bb]. apply Rlt_trans with (fx f1); [apply flt_fx; vm_compute; reflexivity|]. rewrite fx_fin by reflexivity. rewrite B2R_f1. lra. }
    unfold m. clear m Fm M0 Em. destruct onsets as [|o r]; [congruence|]. replace (fle (fmul likelihood_sigma likelihood_sigma) eps10) with false by (vm_compute; reflexivity). reflexivity.
  - clearbody m. destruct (He m Fm M0) as (Fv & V0 & Ev). split; [exact Fv|]. split; [exact V0|]. unfold fit. pose proof (exp_lipschitz (- B2R m) (misfit onsets bpm) ltac:(lra) MF) as L. rewrite Ropp_involutive in L.
    replace (- B2R m - misfit onsets bpm) with (- (B2R m + misfit onsets bpm)) in L by ring. rewrite Rabs_Ropp in L.
    replace (B2R (ex m) - exp (- misfit onsets bpm)) with ((B2R (ex m) - exp (B2R m)) + (exp (B2R m) - exp (- misfit onsets bpm))) by ring. eapply Rle_trans; [apply Rabs_triang|]. unfold tolerance in *. lra.
Qed.
Print Assumptions C85_likelihood.

(** ** The reported tempo *)
Lemma update_result : forall fuel ex st onsets st' b c, (242 <= fuel)%nat -> update fuel ex st onsets = Some (st', Ok (b, c)) ->
  exists cands v, bpm_candidates fuel (bt_bpm st) = Some cands /\ Forall (candidate_of (bt_bpm st)) cands /\ onsets <> [] /\ fle (bt_bpm st) eps10 = false /\ fgt (bt_bpm st) (z2f 300) = false /\ nneg v /\
  (b = bt_bpm st /\ v = f0 \/ In b cands /\ likelihood ex onsets b = Ok v) /\
  (forall x y, In x cands -> likelihood ex onsets x = Ok y -> fgt y v = false) /\
  c = fmin (fmul v (change_penalty (fabs (fsub b (bt_bpm st))))) f1.
Proof.
  intros fuel ex st onsets st' b c F H. unfold update in H. destruct (length onsets =? 0) eqn:L0; [congruence|]. assert (No : onsets <> []) by (intros ->; discriminate).
  destruct (fle (bt_bpm st) eps10) eqn:E1; [cbn [orb] in H; congruence|]. destruct (fgt (bt_bpm st) (z2f 300)) eqn:E2; [cbn [orb] in H; congruence|]. cbn [orb] in H.
  destruct (candidates_spec (bt_bpm st)) as (l & Hl & C & _). rewrite (Hl fuel F) in H.
  destruct (best_candidate_spec ex onsets (bt_bpm st) l (bt_bpm st, f0) No C eq_refl) as (b' & v & E & Nv & D & Le & M). rewrite E in H. cbn [fst snd] in *.
  pose proof (f_equal (fun o => match o with Some (_, Ok (y, _)) => y | _ => b end) H) as Eb. pose proof (f_equal (fun o => match o with Some (_, Ok (_, y)) => y | _ => c end) H) as Ec. cbv iota beta in Eb, Ec. subst b'.
  exists l, v. split; [now apply Hl|]. split; [exact C|]. split; [exact No|]. split; [reflexivity|]. split; [reflexivity|]. split; [exact Nv|]. split; [|split; [exact M|now symmetry]].
  destruct D as [(-> & ->)|(I & L & _)]; auto.
Qed.

Lemma candidate_bounds : forall cur x, candidate_of cur x -> fin x /\ 60 <= B2R x <= 180.
Proof.
  intros cur x (A & B & _). assert (F : fin x) by (refine (fin_between (z2f 60) _ (z2f 180) _ _ A B); reflexivity). split; [exact F|]. apply fle_fx in A, B. rewrite (fx_fin _ F), BayesianProofs.lit_val in A, B by lia. lra.
Qed.

Lemma zero_conf : forall x, B2R (fmin (fmul f0 (change_penalty x)) f1) = 0.
Proof. intros x. destruct (penalty_cases x) as [E | [E | E]]; rewrite E; (replace (fmin _ _) with f0 by (apply B2SF_inj; vm_compute; reflexivity); reflexivity). Qed.

(** No candidate fits the onsets better than the reported tempo, up to rounding; the tempo is kept if nothing fits at all. *)
Theorem C85_reported : forall fuel ex e st onsets st' b c cands T, (242 <= fuel)%nat -> exp_accurate ex e -> (Z.of_nat (length onsets) <= 1048576)%Z ->
  1 <= T <= 4096 -> times_upto T onsets -> update fuel ex st onsets = Some (st', Ok (b, c)) -> bpm_candidates fuel (bt_bpm st) = Some cands ->
  In b cands /\ (forall x, In x cands -> fit onsets x <= fit onsets b + tolerance e T onsets b + tolerance e T onsets x) \/
  b = bt_bpm st /\ B2R c = 0 /\ (forall x, In x cands -> fit onsets x <= tolerance e T onsets x).
Proof.
  intros fuel ex e st onsets st' b c cands T F He Hn HT Ht H Hc. destruct (update_result _ _ _ _ _ _ _ F H) as (l & v & El & C & No & _ & _ & Nv & D & M & Ec). assert (l = cands) by congruence. subst l.
  assert (L : forall x, In x cands -> exists y, likelihood ex onsets x = Ok y /\ fin y /\ 0 <= B2R y /\ Rabs (B2R y - fit onsets x) <= tolerance e T onsets x).
  { intros x I. rewrite Forall_forall in C. destruct (candidate_bounds _ _ (C x I)) as (Fx & Bx). now apply C85_likelihood. }
  assert (G : forall x y, In x cands -> likelihood ex onsets x = Ok y -> fin y -> fin v -> B2R y <= B2R v).
  { intros x y I E Fy Fv. pose proof (M x y I E) as G. unfold fgt in G. fold (flt v y) in G. apply flt_false_fle in G; [|now apply fin_nn|now apply fin_nn]. apply fle_fx in G. rewrite !fx_fin in G by auto. exact G. }
  destruct D as [(-> & ->)|(I & E)].
  - right. split; [reflexivity|]. split.
    + rewrite Ec. apply zero_conf.
    + intros x I. destruct (L x I) as (y & Ey & Fy & Y0 & Vy). pose proof (G x y I Ey Fy eq_refl) as G1. cbn in G1. apply Rabs_le_inv in Vy. lra.
  - left. split; [exact I|]. intros x Ix. destruct (L x Ix) as (y & Ey & Fy & Y0 & Vy). destruct (L b I) as (w & Ew & Fw & W0 & Vw). assert (w = v) by congruence. subst w.
    pose proof (G x y Ix Ey Fy Fw) as G1. apply Rabs_le_inv in Vy. apply Rabs_le_inv in Vw. lra.
Qed.
Print Assumptions C85_reported.

Lemma change_val : forall cur b, fin cur -> 0 <= B2R cur <= 300 -> candidate_of cur b -> fin (fsub b cur) /\ B2R (fsub b cur) = B2R b - B2R cur.
Proof.
  intros cur b Fc Bc Cb. destruct (candidate_bounds _ _ Cb) as (Fb & Bb). destruct Cb as (_ & _ & D). destruct (D (fin_nn _ Fc)) as (D1 & D2). pose proof (near_real cur b Fc Bc D1 D2 Fb) as N. apply Rabs_le_inv in N.
  destruct (fsub_fx b cur Fb Fc) as (Nn & E). assert (S : rnd (B2R b - B2R cur) = B2R b - B2R cur). { apply round_generic; [typeclasses eauto|]. apply sterbenz; [typeclasses eauto|typeclasses eauto|apply generic_format_B2R|apply generic_format_B2R|lra]. }
  rewrite S in E. assert (B8 : 256 < big) by (change 256 with (bpow radix2 8); apply bpow_lt; lia). rewrite sat_id in E by lra. assert (F : fin (fsub b cur)) by (apply fin_iff; auto; rewrite E; lra). rewrite fx_fin in E by exact F. auto.
Qed.

(** The confidence is the fit, reduced for jumps of 1 BPM and more. *)
Theorem C85_confidence : forall fuel ex e st onsets st' b c cands T, (242 <= fuel)%nat -> exp_accurate ex e -> (Z.of_nat (length onsets) <= 1048576)%Z ->
  1 <= T <= 4096 -> times_upto T onsets -> update fuel ex st onsets = Some (st', Ok (b, c)) -> bpm_candidates fuel (bt_bpm st) = Some cands -> In b cands -> fin (bt_bpm st) ->
  let change := Rabs (B2R b - B2R (bt_bpm st)) in
  (change < 1 -> Rabs (B2R c - fit onsets b) <= tolerance e T onsets b + / 5000000) /\
  (1 <= change < 3 -> Rabs (B2R c - 8 / 10 * fit onsets b) <= tolerance e T onsets b + / 5000000) /\
  (3 <= change -> Rabs (B2R c - / 2 * fit onsets b) <= tolerance e T onsets b + / 5000000).
Proof.
  intros fuel ex e st onsets st' b c cands T F He Hn HT Ht H Hc Ib Fcur change. destruct (update_result _ _ _ _ _ _ _ F H) as (l & v & El & C & No & E1 & E2 & Nv & D & M & Ec). assert (l = cands) by congruence. subst l.
  rewrite Forall_forall in C. pose proof (C b Ib) as Cb. destruct (candidate_bounds _ _ Cb) as (Fb & Bb). set (cur := bt_bpm st) in *.
  assert (Bc : 0 <= B2R cur <= 300).
  { apply fle_false_flt in E1; [|now apply fin_nn|reflexivity]. assert (E0 : flt f0 cur = true) by (refine (fle_flt_trans f0 eps10 _ _ E1); reflexivity). apply flt_fx in E0. rewrite (fx_fin _ Fcur) in E0. cbn in E0.
    unfold fgt in E2. fold (flt (z2f 300) cur) in E2. apply flt_false_fle in E2; [|reflexivity|now apply fin_nn]. apply fle_fx in E2. rewrite (fx_fin _ Fcur), BayesianProofs.lit_val in E2 by lia. lra. }
  destruct (change_val cur b Fcur Bc Cb) as (Fd & Vd). destruct (fabs_fin _ Fd) as (Fa & Va). rewrite Vd in Va. fold change in Va. set (ch := fabs (fsub b cur)) in *.
  assert (T1 : flt ch f1 = true <-> change < 1). { unfold flt. rewrite Bltb_correct by auto. rewrite Va, B2R_f1. split; intros Q; [destruct (Rlt_bool_spec change 1); [auto|discriminate]|now apply Rlt_bool_true]. }
  assert (T3 : flt ch (z2f 3) = true <-> change < 3). { destruct (z2f_exact 3 ltac:(lia)) as (F3 & V3). unfold flt. rewrite Bltb_correct by auto. rewrite Va, V3. split; intros Q; [destruct (Rlt_bool_spec change 3); [auto|discriminate]|now apply Rlt_bool_true]. }
  assert (Lv : fin v /\ 0 <= B2R v /\ Rabs (B2R v - fit onsets b) <= tolerance e T onsets b).
  { destruct (C85_likelihood ex e onsets b T He No Hn HT Ht Fb Bb) as (w & Ew & Fw & W0 & Vw). destruct D as [(_ & ->)|(_ & E)].
    - pose proof (M b w Ib Ew) as G. unfold fgt in G. fold (flt f0 w) in G. apply flt_false_fle in G; [|reflexivity|now apply fin_nn]. apply fle_fx in G. rewrite !fx_fin in G by auto. cbn in G. assert (Z : B2R w = 0) by lra. rewrite Z in Vw. split; [reflexivity|]. split; [cbn; lra|exact Vw].
    - assert (w = v) by congruence. subst w. auto. }
  destruct Lv as (Fv & V0 & Vv). apply Rabs_le_inv in Vv.
  assert (FI : 0 < fit onsets b <= 1). { unfold fit. pose proof (misfit_nonneg onsets b No) as MF. split; [apply exp_pos|]. rewrite <- exp_0. destruct (Req_dec (misfit onsets b) 0) as [->|N]; [rewrite Ropp_0; lra|left; apply exp_increasing; lra]. }
  assert (G : forall p w, fin p -> 0 <= w <= 1 -> 0 <= B2R p <= 1 -> Rabs (B2R p - w) <= / 40000000 -> c = fmin (fmul v p) f1 -> Rabs (B2R c - w * fit onsets b) <= tolerance e T onsets b + / 5000000).
  { clear Ec. intros p w Fp Bw Bp Ep Ec. destruct (fmul_fx v p Fv Fp) as (Nm & Em). set (f := fit onsets b) in *. set (tl := tolerance e T onsets b) in *. apply Rabs_le_inv in Ep.
    pose proof (rnd_near (B2R v * B2R p)) as NR. assert (TT : tiny <= / 1000000000000). { eapply Rle_trans; [apply (bpow_le radix2 _ (-40)); lia|]. simpl. lra. }
    assert (P0 : 0 <= B2R v * B2R p) by nra. rewrite (Rabs_pos_eq (B2R v * B2R p)) in NR by lra. set (y := rnd (B2R v * B2R p)) in *. assert (Y0 : 0 <= y) by (apply rnd_nonneg; lra). apply Rabs_le_inv in NR. unfold u24 in NR.
    assert (tl0 : 0 <= tl) by lra. set (vp := B2R v * B2R p) in *. assert (Lo : w * f - tl - / 40000000 <= vp). { assert ((f - tl) * B2R p <= vp) by (unfold vp; nra). nra. }
    assert (Hi : vp <= w * f + tl + / 40000000). { assert (vp <= (f + tl) * B2R p) by (unfold vp; nra). nra. } assert (wf : 0 <= w * f <= 1) by nra. clearbody vp.
    rewrite Ec. unfold fmin, fisnan. rewrite Nm. replace (is_nan f1) with false by reflexivity. cbv iota. destruct (flt f1 (fmul v p)) eqn:Q.
    - apply flt_fx in Q. rewrite fx_fin in Q by reflexivity. rewrite B2R_f1, Em in Q. rewrite B2R_f1. assert (1 < y). { unfold sat in Q. destruct (Rle_or_lt y 1) as [K|K]; [|exact K]. exfalso. revert Q. pose proof big_pos. pose proof (Rmin_r big y). assert (Rmax (- big) (Rmin big y) <= 1) by (apply Rmax_lub; lra). lra. }
      apply Rabs_le. lra.
    - apply flt_false_fle in Q; [|reflexivity|exact Nm]. pose proof big_pos. assert (B1 : 1 < big) by (apply Rlt_le_trans with (bpow radix2 2); [simpl; lra|apply bpow_le; lia]). apply fle_fx in Q. rewrite (fx_fin f1), B2R_f1, Em in Q by reflexivity.
      assert (Y : y <= 1). { destruct (Rle_or_lt y 1) as [K|K]; [exact K|]. exfalso. revert Q. unfold sat. pose proof (Rmax_r (- big) (Rmin big y)). assert (1 < Rmin big y) by (apply Rmin_glb_lt; lra). lra. }
      rewrite sat_id in Em by lra. assert (Fm : fin (fmul v p)) by (apply fin_iff; auto; rewrite Em; lra). rewrite (fx_fin _ Fm) in Em. rewrite Em. apply Rabs_le. lra. }
  assert (P8 : fin (lit 13421773 (-24)) /\ B2R (lit 13421773 (-24)) = 13421773 / 16777216).
  { split; [reflexivity|]. rewrite <- SF2R_B2SF. replace (B2SF (lit 13421773 (-24))) with (SpecFloat.S754_finite false 13421773 (-24)) by (vm_compute; reflexivity). cbn [SF2R cond_Zopp]. unfold F2R. cbn [Fnum Fexp]. change (bpow radix2 (-24)) with (/ 16777216). lra. }
  unfold change_penalty in Ec. split; [|split]; intros Q.
  - rewrite (proj2 T1 Q) in Ec. specialize (G f1 1 eq_refl ltac:(lra) ltac:(rewrite B2R_f1; lra) ltac:(rewrite B2R_f1, Rminus_eq_0, Rabs_R0; lra) Ec). now rewrite Rmult_1_l in G.
  - replace (flt ch f1) with false in Ec by (symmetry; apply not_true_is_false; intros W; apply T1 in W; lra). rewrite (proj2 T3) in Ec by lra. destruct P8 as (F8 & V8). exact (G (lit 13421773 (-24)) (8 / 10) F8 ltac:(lra) ltac:(rewrite V8; lra) ltac:(rewrite V8; apply Rabs_le; lra) Ec).
  - replace (flt ch f1) with false in Ec by (symmetry; apply not_true_is_false; intros W; apply T1 in W; lra). replace (flt ch (z2f 3)) with false in Ec by (symmetry; apply not_true_is_false; intros W; apply T3 in W; lra). exact (G fhalf (/ 2) eq_refl ltac:(lra) ltac:(rewrite B2R_fhalf; lra) ltac:(rewrite B2R_fhalf, Rminus_eq_0, Rabs_R0; lra) Ec).
Qed.
Print Assumptions C85_confidence.

(** ** The candidates: the half-BPM grid through the current tempo *)
Lemma half_exact : forall k, (Z.abs k <= 16777216)%Z -> rnd (IZR k / 2) = IZR k / 2.
Proof.
  intros k H. apply round_generic; [typeclasses eauto|]. replace (IZR k / 2) with (F2R (Float radix2 k (-1))) by (unfold F2R; cbn [Fnum Fexp]; change (bpow radix2 (-1)) with (/ 2); lra).
  destruct (Z.eq_dec (Z.abs k) 16777216) as [E|N].
  - assert (D : k = 16777216%Z \/ k = (-16777216)%Z) by lia. replace (F2R (Float radix2 k (-1))) with (F2R (Float radix2 (k / 2) 0)) by (destruct D as [-> | ->]; unfold F2R; cbn; lra). apply generic_format_FLT. apply (FLT_spec _ _ _ _ (Float radix2 (k / 2) 0)); [reflexivity| |]; cbn [Fnum Fexp]; destruct D as [-> | ->]; cbn; lia.
  - apply generic_format_FLT. apply (FLT_spec _ _ _ _ (Float radix2 k (-1))); [reflexivity| |]; cbn [Fnum Fexp]; cbn; lia.
Qed.
Lemma half_sum : forall x y i j, fin x -> fin y -> B2R x = IZR i / 2 -> B2R y = IZR j / 2 -> (Z.abs (i + j) <= 100000)%Z -> fin (fadd x y) /\ B2R (fadd x y) = IZR (i + j) / 2.
Proof.
  intros x y i j Fx Fy Ex Ey H. destruct (fadd_fx x y Fx Fy) as (N & E). rewrite Ex, Ey in E. replace (IZR i / 2 + IZR j / 2) with (IZR (i + j) / 2) in E by (rewrite plus_IZR; lra).
  assert (B : Rabs (IZR (i + j) / 2) <= 100000). { apply Z.abs_le in H. destruct H as (H1 & H2). apply IZR_le in H1, H2. rewrite opp_IZR in H1. apply Rabs_le. lra. }
  destruct (fin_of_rnd _ _ N E B) as (F & V). rewrite half_exact in V by lia. auto.
Qed.

Lemma half_walk : forall n k b stop l, bpm_loop (fun _ => Ok tt) stop fhalf n b = Some (Ok l) -> fin b -> B2R b = IZR k / 2 -> (0 <= k <= 360)%Z -> fin stop -> B2R stop <= 180 ->
  (forall m, (k <= m)%Z -> IZR m / 2 <= B2R stop -> exists x, In x (map fst l) /\ fin x /\ B2R x = IZR m / 2) /\
  (forall x, In x (map fst l) -> fin x /\ exists m, (k <= m)%Z /\ B2R x = IZR m / 2 /\ IZR m / 2 <= B2R stop).
Proof.
  induction n as [|n IH]; intros k b stop l H Fb Eb Hk Fs Bs; [discriminate|]. cbn [bpm_loop] in H. destruct (fle b stop) eqn:Q.
  - destruct (bpm_loop _ stop fhalf n (fadd b fhalf)) as [[r| |]|] eqn:E; try discriminate. assert (l = (b, tt) :: r) by congruence. subst l. clear H.
    apply fle_fx in Q. rewrite !fx_fin, Eb in Q by auto. destruct (half_sum b fhalf k 1 Fb eq_refl Eb ltac:(rewrite B2R_fhalf; lra) ltac:(lia)) as (F1 & V1).
    destruct (Z.eq_dec k 360) as [E360|N360].
    + (* the next tempo is above 180 *)
      assert (r = []). { destruct n as [|n]; [discriminate|]. cbn [bpm_loop] in E. replace (fle (fadd b fhalf) stop) with false in E; [congruence|]. symmetry. apply flt_fle_false. apply flt_intro; [now apply fin_nn|now apply fin_nn|]. rewrite !fx_fin by auto. rewrite V1, E360. cbn. lra. }
      subst r. cbn [map fst]. split.
      * intros m Hm Em. assert (m = k). { apply Z.le_antisymm; [|exact Hm]. apply le_IZR. rewrite E360. lra. } subst m. exists b. split; [now left|auto].
      * intros x [<-|[]]. split; [exact Fb|]. exists k. split; [lia|]. auto.
    + destruct (IH (k + 1)%Z (fadd b fhalf) stop r E F1 V1 ltac:(lia) Fs Bs) as (A & B). cbn [map fst]. split.
      * intros m Hm Em. destruct (Z.eq_dec m k) as [->|Nm]; [exists b; split; [now left|auto]|]. destruct (A m ltac:(lia) Em) as (x & I & X). exists x. split; [now right|exact X].
      * intros x [<-|I]; [split; [exact Fb|]; exists k; split; [lia|auto]|]. destruct (B x I) as (Fx & m & M1 & M2). split; [exact Fx|]. exists m. split; [lia|exact M2].
  - assert (l = []) by congruence. subst l. cbn [map]. split; [|intros x []]. intros m Hm Em. exfalso. apply fle_false_flt in Q; [|now apply fin_nn|now apply fin_nn]. apply flt_fx in Q. rewrite !fx_fin, Eb in Q by auto. apply IZR_le in Hm. lra.
Qed.

Lemma fmin_B2R : forall a b, fin a -> fin b -> fin (fmin a b) /\ B2R (fmin a b) = Rmin (B2R a) (B2R b).
Proof.
  intros a b Fa Fb. unfold fmin, fisnan. rewrite (fin_nn a Fa), (fin_nn b Fb). cbv iota. unfold flt. rewrite Bltb_correct by auto.
  destruct (Rlt_bool_spec (B2R b) (B2R a)); [rewrite Rmin_right by lra|rewrite Rmin_left by lra]; auto.
Qed.

(** From a tempo of k/2 BPM the tracker tries exactly the multiples of 1/2 BPM within 5 BPM, between 60 and 180. *)
Theorem C85_candidates : forall fuel cur cands k, (242 <= fuel)%nat -> bpm_candidates fuel cur = Some cands -> fin cur -> B2R cur = IZR k / 2 -> (110 <= k <= 370)%Z ->
  (forall m, (k - 10 <= m <= k + 10)%Z -> (120 <= m <= 360)%Z -> exists x, In x cands /\ fin x /\ B2R x = IZR m / 2) /\
  (forall x, In x cands -> fin x /\ exists m, (k - 10 <= m <= k + 10)%Z /\ (120 <= m <= 360)%Z /\ B2R x = IZR m / 2).
Proof.
  intros fuel cur cands k Hf H Fc Ec Hk. unfold bpm_candidates in H.
  destruct (z2f_exact 5 ltac:(lia)) as (F5 & V5). destruct (z2f_exact 60 ltac:(lia)) as (F60 & V60). destruct (z2f_exact 180 ltac:(lia)) as (F180 & V180).
  assert (Lo : fin (fsub cur (z2f 5)) /\ B2R (fsub cur (z2f 5)) = IZR (k - 10) / 2).
  { destruct (fsub_fx cur (z2f 5) Fc F5) as (N & E). rewrite Ec, V5 in E. replace (IZR k / 2 - 5) with (IZR (k - 10) / 2) in E by (rewrite minus_IZR; lra). destruct (fin_of_rnd _ _ N E) as (F & V). { destruct Hk as (K1 & K2). apply IZR_le in K1, K2. rewrite minus_IZR. apply Rabs_le. lra. } rewrite half_exact in V by lia. auto. }
  destruct (half_sum cur (z2f 5) k 10 Fc F5 Ec ltac:(rewrite V5; lra) ltac:(lia)) as (Fh & Vh). destruct Lo as (Fl & Vl).
  destruct (fmax_B2R _ _ Fl F60) as (FL & VL). destruct (fmin_B2R _ _ Fh F180) as (FH & VH). rewrite Vl, V60 in VL. rewrite Vh, V180 in VH.
  set (lo := fmax (fsub cur (z2f 5)) (z2f 60)) in *. set (hi := fmin (fadd cur (z2f 5)) (z2f 180)) in *.
  assert (VL' : B2R lo = IZR (Z.max (k - 10) 120) / 2). { rewrite VL. destruct (Z.max_spec (k - 10) 120) as [(M & ->)|(M & ->)]; [apply IZR_lt in M; rewrite Rmax_right; lra|apply IZR_le in M; rewrite Rmax_left; lra]. }
  assert (VH' : B2R hi = IZR (Z.min (k + 10) 360) / 2). { rewrite VH. destruct (Z.min_spec (k + 10) 360) as [(M & ->)|(M & ->)]; [apply IZR_lt in M; rewrite Rmin_left; lra|apply IZR_le in M; rewrite Rmin_right; lra]. }
  destruct (bpm_loop (fun _ => Ok tt) hi fhalf fuel lo) as [[l| |]|] eqn:E; try discriminate. assert (cands = map fst l) by congruence. subst cands.
  destruct (half_walk fuel (Z.max (k - 10) 120) lo hi l E FL VL' ltac:(lia) FH) as (A & B). { rewrite VH'. assert (Z.min (k + 10) 360 <= 360)%Z by lia. apply IZR_le in H0. lra. }
  split.
  - intros m M1 M2. apply A; [lia|]. rewrite VH'. assert (Hm : (m <= Z.min (k + 10) 360)%Z) by lia. apply IZR_le in Hm. lra.
  - intros x I. destruct (B x I) as (Fx & m & M1 & M2 & M3). split; [exact Fx|]. exists m. rewrite VH' in M3. assert (Hm : (m <= Z.min (k + 10) 360)%Z) by (apply le_IZR; lra). split; [lia|]. split; [lia|exact M2].
Qed.
Print Assumptions C85_candidates.

(** Onsets within d of the beats of some candidate tempo m/2: the reported tempo fits them as well, up to rounding. *)
Theorem C85_pulse : forall fuel ex e st onsets st' b c T k m d, (242 <= fuel)%nat -> exp_accurate ex e -> (Z.of_nat (length onsets) <= 1048576)%Z ->
  1 <= T <= 4096 -> times_upto T onsets -> update fuel ex st onsets = Some (st', Ok (b, c)) ->
  fin (bt_bpm st) -> B2R (bt_bpm st) = IZR k / 2 -> (110 <= k <= 370)%Z -> (k - 10 <= m <= k + 10)%Z -> (120 <= m <= 360)%Z ->
  (forall o, In o onsets -> exists z, Rabs (B2R o - B2R (nth 0 onsets f0) - IZR z * (60 / (IZR m / 2))) <= d) ->
  let slack := e + T / 1000 * d + T * T / 500000000 + (INR (length onsets) + 1) / 5000000 * (200 * (d * d)) in
  slack < exp (- (200 * (d * d))) ->
  exp (- (200 * (d * d))) - slack <= fit onsets b + tolerance e T onsets b.
Proof.
  intros fuel ex e st onsets st' b c T k m d F He Hn HT Ht H Fc Ec Hk Hm1 Hm2 Hd slack Hs. destruct (update_result _ _ _ _ _ _ _ F H) as (cands & v & Hc & _ & No & _).
  destruct (C85_candidates fuel (bt_bpm st) cands k F Hc Fc Ec Hk) as (A & _). destruct (A m Hm1 Hm2) as (x & Ix & Fx & Vx).
  assert (n0 : (0 < length onsets)%nat) by (destruct onsets; [congruence|cbn; lia]). assert (N1 : 1 <= INR (length onsets)) by (apply (le_INR 1); lia). set (n := length onsets) in *.
  assert (Hmr : 120 <= IZR m <= 360) by (destruct Hm2 as (Q1 & Q2); apply IZR_le in Q1, Q2; lra).
  assert (Di : forall i, (i < n)%nat -> 0 <= distance onsets x i <= d). { intros i Hi. split; [apply off_beat_nonneg|]. destruct (Hd (nth i onsets f0)) as (z & Hz); [apply nth_In; exact Hi|]. eapply Rle_trans; [|exact Hz]. unfold distance. rewrite Vx. apply off_beat_min. apply Rmult_lt_0_compat; [lra|]. apply Rinv_0_lt_compat. lra. }
  assert (d0 : 0 <= d) by (destruct (Di 0%nat n0); lra).
  assert (DD : mean_distance onsets x <= d). { unfold mean_distance. fold n. apply Rmult_le_reg_r with (INR n); [lra|]. unfold Rdiv. rewrite Rmult_assoc, Rinv_l, Rmult_1_r by lra. rewrite (Rmult_comm d), <- sumn_const. apply sumn_le. intros i Hi. now apply Di. }
  assert (MM : misfit onsets x <= 200 * (d * d)). { rewrite misfit_200. fold n. apply Rmult_le_reg_r with (INR n); [lra|]. unfold Rdiv. rewrite Rmult_assoc, Rinv_l, Rmult_1_r by lra. rewrite (Rmult_comm (200 * (d * d))), <- sumn_const. apply sumn_le. intros i Hi. destruct (Di i Hi). nra. }
  assert (TL : tolerance e T onsets x <= slack). { unfold tolerance, slack. fold n. assert (T / 1000 * mean_distance onsets x <= T / 1000 * d) by (apply Rmult_le_compat_l; lra). assert ((INR n + 1) / 5000000 * misfit onsets x <= (INR n + 1) / 5000000 * (200 * (d * d))) by (apply Rmult_le_compat_l; lra). lra. }
  assert (FF : exp (- (200 * (d * d))) <= fit onsets x). { unfold fit. destruct (Req_dec (misfit onsets x) (200 * (d * d))) as [->|N]; [lra|]. left. apply exp_increasing. lra. }
  destruct (C85_reported fuel ex e st onsets st' b c cands T F He Hn HT Ht H Hc) as [(Ib & G)|(_ & _ & G)]; specialize (G x Ix); lra.
Qed.
Print Assumptions C85_pulse.

(** Three clicks half a second apart, tracked from 118 BPM: the tracker reports 120 BPM with confidence 0.8. *)
Lemma near_one : forall x P, P / 2 < x < 3 / 2 * P -> 0 < P -> off_beat x P = Rabs (x - P).
Proof.
  intros x P H HP. unfold off_beat. replace (Zfloor (x / P + / 2)) with 1%Z; [f_equal; ring|]. symmetry. apply Zfloor_imp. assert (E : x = x / P * P) by (field; lra). set (q := x / P) in *. clearbody q. subst x. cbn. split; nra.
Qed.
Lemma near_two : forall x P, 3 / 2 * P < x < 5 / 2 * P -> 0 < P -> off_beat x P = Rabs (x - 2 * P).
Proof.
  intros x P H HP. unfold off_beat. replace (Zfloor (x / P + / 2)) with 2%Z; [f_equal; ring|]. symmetry. apply Zfloor_imp. assert (E : x = x / P * P) by (field; lra). set (q := x / P) in *. clearbody q. subst x. cbn. split; nra.
Qed.
Example C85_case : exists st' b c, update 242 (m_exp exact_libm) (new_tracker (z2f 118) f1) [f0; fhalf; f1] = Some (st', Ok (b, c)) /\
  B2R b = 120 /\ Rabs (B2R c - 8 / 10) <= / 1000000.
Proof.
  set (st := new_tracker (z2f 118) f1). set (on := [f0; fhalf; f1]). destruct (z2f_exact 118 ltac:(lia)) as (F118 & V118). assert (Vc : B2R (bt_bpm st) = IZR 236 / 2) by (cbn [st new_tracker bt_bpm]; rewrite V118; lra).
  destruct (update_cases (m_exp exact_libm) st on) as (st' & r & H & Q). specialize (H 242%nat (le_n _)).
  assert (R : exists b c, r = Ok (b, c)).
  { destruct r as [(b & c)|e|]; [eauto| |contradiction]. exfalso. destruct Q as (_ & _ & [Q|[Q|Q]]); [discriminate| |]; vm_compute in Q; discriminate. }
  destruct R as (b & c & ->). clear Q. exists st', b, c. split; [exact H|].
  assert (Tm : times_upto 1 on). { unfold times_upto, on. constructor; [split; [reflexivity|cbn; lra]|]. constructor; [split; [reflexivity|rewrite B2R_fhalf; lra]|]. constructor; [split; [reflexivity|rewrite B2R_f1; lra]|]. constructor. }
  assert (DM : forall x m, B2R x = IZR m / 2 -> (226 <= m <= 246)%Z -> let h := Rabs (/ 2 - 120 / IZR m) in mean_distance on x = h /\ misfit on x = 1000 / 3 * (h * h)).
  { intros x m E Hm h. assert (Hr : 226 <= IZR m <= 246) by (destruct Hm as (Q1 & Q2); apply IZR_le in Q1, Q2; lra). assert (EP : 60 / B2R x = 120 / IZR m) by (rewrite E; field; lra).
    assert (BP : 48 / 100 < 120 / IZR m < 54 / 100). { split; apply Rmult_lt_reg_r with (IZR m); try lra; unfold Rdiv; rewrite ?Rmult_assoc; rewrite ?(Rinv_l (IZR m)) by lra; lra. }
    assert (D0 : distance on x 0 = 0). { unfold distance. cbn [nth on]. rewrite EP, Rminus_eq_0. unfold off_beat. replace (Zfloor _) with 0%Z; [rewrite Rmult_0_l, Rminus_0_r; apply Rabs_R0|]. symmetry. apply Zfloor_imp. unfold Rdiv. rewrite Rmult_0_l. cbn. lra. }
    assert (D1 : distance on x 1 = h). { unfold distance. cbn [nth on]. rewrite EP, B2R_fhalf. cbn [B2R f0]. rewrite near_one by lra. unfold h. f_equal. lra. }
    assert (D2 : distance on x 2 = 2 * h). { unfold distance. cbn [nth on]. rewrite EP, B2R_f1. cbn [B2R f0]. rewrite near_two by lra. unfold h. rewrite <- (Rabs_pos_eq 2) at 2 by lra. rewrite <- Rabs_mult. f_equal. lra. }
    unfold mean_distance, misfit. cbn [length on sumn]. rewrite D0, D1, D2. cbn [INR]. split; field. }
  assert (Acc := exact_exp). destruct (update_result 242 _ _ _ _ _ _ (le_n _) H) as (cands & v & Hc & _ & No & _).
  destruct (C85_candidates 242 (bt_bpm st) cands 236 (le_n _) Hc F118 Vc ltac:(lia)) as (A & B). destruct (A 240%Z ltac:(lia) ltac:(lia)) as (x & Ix & Fx & Vx).
  destruct (DM x 240%Z Vx ltac:(lia)) as (Dx & Mx). replace (Rabs (/ 2 - 120 / 240)) with 0 in Dx, Mx by (replace (/ 2 - 120 / 240) with 0 by lra; now rewrite Rabs_R0).
  assert (Fit1 : fit on x = 1). { unfold fit. rewrite Mx. replace (- (1000 / 3 * (0 * 0))) with 0 by lra. apply exp_0. }
  assert (TLx : tolerance (/ 8388608) 1 on x <= / 8000000). { unfold tolerance. rewrite Dx, Mx. cbn [length on INR]. lra. }
  destruct (C85_reported 242 _ _ st on st' b c cands 1 (le_n _) Acc ltac:(cbn; lia) ltac:(lra) Tm H Hc) as [(Ib & G)|(_ & _ & G)]; specialize (G x Ix); rewrite Fit1 in G; [|lra].
  destruct (B b Ib) as (Fb & m & M1 & M2 & Vb). destruct (DM b m Vb ltac:(lia)) as (Db & Mb). set (h := Rabs (/ 2 - 120 / IZR m)) in *.
  assert (Em : m = 240%Z).
  { destruct (Z.eq_dec m 240) as [E|N]; [exact E|]. exfalso. assert (Hr : 226 <= IZR m <= 246) by (split; apply IZR_le; lia).
    assert (Hh : 2 / 1000 <= h <= 4 / 100).
    { unfold h. replace (/ 2 - 120 / IZR m) with ((IZR m - 240) * / (2 * IZR m)) by (field; lra). rewrite Rabs_mult, (Rabs_pos_eq (/ _)) by (left; apply Rinv_0_lt_compat; lra).
      assert (1 <= Rabs (IZR m - 240) <= 14). { split; [|apply Rabs_le; lra]. rewrite <- minus_IZR, <- abs_IZR. apply IZR_le. lia. }
      assert (/ 492 <= / (2 * IZR m) <= / 452) by (split; apply Rinv_le_contravar; lra). nra. }
    assert (FB : fit on b <= / (1 + misfit on b)). { unfold fit. rewrite exp_Ropp. apply Rinv_le_contravar; [rewrite Mb; nra|apply exp_ineq1_le]. }
    unfold tolerance in G at 1. rewrite Db, Mb in G. rewrite Mb in FB. cbn [length on INR] in G. set (M := 1000 / 3 * (h * h)) in *. assert (HM : 0 <= M <= 6 / 10) by (unfold M; nra). assert (ML : 66 / 100 * h <= M) by (unfold M; nra).
    assert (FB' : fit on b <= 1 - M / (16 / 10)). { eapply Rle_trans; [exact FB|]. apply Rmult_le_reg_r with (1 + M); [lra|]. rewrite Rinv_l by lra. nra. } lra. }
  subst m. split; [rewrite Vb; lra|].
  assert (Fitb : fit on b = 1 /\ tolerance (/ 8388608) 1 on b <= / 8000000). { replace h with 0 in Db, Mb by (unfold h; replace (/ 2 - 120 / 240) with 0 by lra; now rewrite Rabs_R0). split; [unfold fit; rewrite Mb; replace (- (1000 / 3 * (0 * 0))) with 0 by lra; apply exp_0|]. unfold tolerance. rewrite Db, Mb. cbn [length on INR]. lra. }
  destruct Fitb as (Fitb & TLb).
  destruct (C85_confidence 242 _ _ st on st' b c cands 1 (le_n _) Acc ltac:(cbn; lia) ltac:(lra) Tm H Hc Ib F118) as (_ & K & _). rewrite Vb, Vc, Fitb in K.
  replace (Rabs (IZR 240 / 2 - IZR 236 / 2)) with 2 in K by (rewrite Rabs_pos_eq; lra). specialize (K ltac:(lra)). apply Rabs_le_inv in K. apply Rabs_le. lra.
Qed.
