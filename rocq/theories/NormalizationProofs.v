(** Facts about normalization.rs: the peak, the RMS level and the gains. *)
From Coq Require Import ZArith Bool List Reals Lra Lia.
From Flocq Require Import Core IEEE754.BinarySingleNaN.
From Verif Require Import Rust F32 F32Facts F32More ListFacts Libm Normalization.
Import ListNotations.
Local Open Scope R_scope.

(** p is the largest magnitude occurring in s (0 for a signal without numbers). *)
Definition is_peak (s : list f32) (p : f32) : Prop :=
  (forall x, In x s -> nn x -> fle (fabs x) p = true) /\
  (p = f0 \/ exists x, In x s /\ nn x /\ p = fabs x).

Lemma fold_fmax_spec : forall l a, nneg a -> Forall (fun x => nn x -> nneg x) l ->
  let r := fold_left fmax l a in
  nneg r /\ fle a r = true /\ (forall x, In x l -> nn x -> fle x r = true) /\
  (r = a \/ exists x, In x l /\ nn x /\ r = x).
Proof.
  induction l as [|y l IH]; intros a Ha Hl; cbn [fold_left].
  - cbv zeta. repeat split; auto. apply fle_refl, nneg_nn, Ha.
  - pose proof (nneg_nn _ Ha) as Na.
    assert (Hm : nneg (fmax a y)) by (eapply fle_trans; [exact Ha|now apply fmax_ge_l]).
    pose proof (Forall_inv Hl) as Hy. apply Forall_inv_tail in Hl.
    destruct (IH _ Hm Hl) as (A & B & C & D). cbv zeta. repeat split; auto.
    + eapply fle_trans; [|exact B]. now apply fmax_ge_l.
    + intros x [-> | Hx] Nx; auto. eapply fle_trans; [|exact B]. now apply fmax_ge_r.
    + destruct D as [D|(x & X1 & X2 & X3)].
      * destruct (is_nan y) eqn:Ny.
        { left. rewrite D. unfold fmax. unfold fisnan. rewrite Na, Ny. reflexivity. }
        rewrite D. destruct (fmax_case a y) as [E|E]; rewrite E; auto.
        right. exists y. repeat split; auto. now left.
      * right. exists x. repeat split; auto. now right.
Qed.

Lemma peak_of_spec : forall s, is_peak s (peak_of s) /\ nneg (peak_of s).
Proof.
  intros s. unfold peak_of.
  destruct (fold_fmax_spec (map fabs s) f0 eq_refl) as (A & _ & C & D).
  { apply Forall_forall. intros x Hx Nx. apply in_map_iff in Hx. destruct Hx as (y & <- & Hy).
    apply fabs_nneg. now rewrite fabs_nn in Nx. }
  split; auto. split.
  - intros x Hx Nx. apply C. now apply in_map. now rewrite fabs_nn.
  - destruct D as [D|(x & X1 & X2 & X3)]; auto. right.
    apply in_map_iff in X1. destruct X1 as (y & <- & Hy). exists y. repeat split; auto.
    now rewrite fabs_nn in X2.
Qed.

(** Every number in s is at most b in magnitude. *)
Definition mag_le (b : R) (s : list f32) : Prop :=
  Forall (fun x => nn x -> fin x /\ Rabs (B2R x) <= b) s.

Lemma peak_fin : forall s b, 0 <= b -> mag_le b s -> fin (peak_of s) /\ B2R (peak_of s) <= b.
Proof.
  intros s b Hb H. destruct (peak_of_spec s) as ((_ & [-> | (x & X1 & X2 & ->)]) & _).
  - split; [reflexivity|]. exact Hb.
  - unfold mag_le in H. rewrite Forall_forall in H. destruct (H x X1 X2) as (F & B).
    split. now rewrite fabs_fin. rewrite <- fx_fin by now rewrite fabs_fin.
    rewrite fabs_fx by auto. now rewrite fx_fin by auto.
Qed.

(** Peak limiting: any gain at most 1/peak keeps peak * gain <= 1. *)
Lemma inv_fin : forall p, fin p -> bpow radix2 (-127) <= B2R p -> fin (fdiv f1 p).
Proof.
  intros p Fp H. pose proof (bpow_gt_0 radix2 (-127)) as P.
  destruct (fdiv_fx f1 p eq_refl Fp) as (N & V); [lra|].
  apply fin_iff; auto. rewrite V. pose proof big_pos as B0.
  assert (A : rnd (B2R f1 / B2R p) <= bpow radix2 127).
  { replace (bpow radix2 127) with (rnd (bpow radix2 127)).
    2:{ apply round_generic; [apply valid_rnd_N|]. apply generic_format_bpow.
        unfold SpecFloat.fexp, SpecFloat.emin. lia. }
    apply rnd_mono. rewrite B2R_f1.
    replace (bpow radix2 127) with (1 / bpow radix2 (-127)).
    2:{ change (-127)%Z with (- (127))%Z. rewrite bpow_opp. field.
        pose proof (bpow_gt_0 radix2 127). lra. }
    unfold Rdiv. apply Rmult_le_compat_l. lra. apply Rinv_le_contravar; lra. }
  assert (B : 0 <= rnd (B2R f1 / B2R p)).
  { apply rnd_nonneg. rewrite B2R_f1. apply Rdiv_nn; lra. }
  assert (bpow radix2 127 < big) by (apply bpow_lt; lia).
  rewrite sat_id; lra.
Qed.

Lemma fmul_pos_le : forall p g h, fin p -> nneg p -> nneg g -> fle g h = true -> fin h ->
  fin (fmul p h) -> fle (fmul p g) (fmul p h) = true.
Proof.
  intros p g h Fp Np Ng L Fh Fm.
  assert (Fg : fin g) by (apply (fin_between f0 g h); auto).
  destruct (fmul_fx p g Fp Fg) as (N & _).
  apply fmul_mono; auto. apply fle_refl. now apply fin_nn. now apply fin_nn.
Qed.

Lemma limited_le1 : forall p g, fin p -> bpow radix2 (-126) <= B2R p <= bpow radix2 126 ->
  nneg g -> fle g (fdiv f1 p) = true -> fle (fmul p g) f1 = true.
Proof.
  intros p g Fp Hp Ng L.
  assert (B : bpow radix2 (-127) < bpow radix2 (-126)) by (apply bpow_lt; lia).
  pose proof (bpow_gt_0 radix2 (-127)) as P.
  assert (Fq : fin (fdiv f1 p)) by (apply inv_fin; auto; lra).
  assert (Pp : pos p). { apply flt_intro; auto. now apply fin_nn. rewrite fx_f0, fx_fin by auto; lra. }
  destruct (quot_mul_le1 f1 p eq_refl eq_refl eq_refl Fp Pp) as (A & C); auto; [lra|].
  eapply fle_trans.
  - apply fmul_pos_le; [| | |exact L| |]; auto. now apply pos_nneg.
  - apply fle_intro; [now apply fin_nn|reflexivity|]. rewrite fx_f1, fx_fin; auto.
Qed.

(** Squares, their sum and the RMS level. *)
Definition squares (s : list f32) : list f32 := map (fun x => fmul x x) s.

Lemma square_nneg : forall x, nn x -> nneg (fmul x x).
Proof.
  intros x N. destruct (nn_cases x N) as [F|[-> | ->]]; try reflexivity.
  destruct (fmul_fx x x F F) as (A & B). apply nneg_iff; auto. rewrite B.
  rewrite <- sat_0. apply sat_mono, rnd_nonneg. apply Rle_0_sqr.
Qed.

Lemma square_bound : forall x k, (-149 <= k)%Z -> fin x -> Rabs (B2R x) <= bpow radix2 k ->
  (-149 <= 2 * k <= 127)%Z -> fin (fmul x x) /\ 0 <= B2R (fmul x x) <= bpow radix2 (2 * k).
Proof.
  intros x k Hk F H K2. destruct (fmul_fx x x F F) as (N & V).
  assert (Q : 0 <= B2R x * B2R x <= bpow radix2 (2 * k)).
  { split. apply Rle_0_sqr. replace (2 * k)%Z with (k + k)%Z by lia. rewrite bpow_plus.
    apply Rabs_le_inv in H. pose proof (bpow_gt_0 radix2 k). nra. }
  assert (G : rnd (bpow radix2 (2 * k)) = bpow radix2 (2 * k)).
  { apply round_generic; [apply valid_rnd_N|]. apply generic_format_bpow.
    unfold SpecFloat.fexp, SpecFloat.emin. lia. }
  assert (R1 : rnd (B2R x * B2R x) <= bpow radix2 (2 * k)) by (rewrite <- G; apply rnd_mono; lra).
  assert (R0 : 0 <= rnd (B2R x * B2R x)) by (apply rnd_nonneg; lra).
  assert (bpow radix2 (2 * k) < big) by (apply bpow_lt; lia).
  pose proof big_pos. rewrite sat_id in V by lra.
  assert (FF : fin (fmul x x)) by (apply fin_iff; auto; rewrite V; lra).
  split; auto. rewrite <- fx_fin by auto. lra.
Qed.

Lemma n2f_pos : forall n, (0 < n)%nat -> fle f1 (n2f n) = true.
Proof. intros n H. change f1 with (z2f 1). apply z2f_mono. lia. Qed.

(** A quiet signal has a tiny RMS level. *)
Lemma rms_bound : forall s k, (-74 <= k <= 51)%Z -> s <> [] ->
  Forall (fun x => fin x /\ Rabs (B2R x) <= bpow radix2 k) s ->
  nneg (rms_of s) /\ fin (rms_of s) /\ B2R (rms_of s) <= rnd (sqrt (bpow radix2 (2 * k + 25))).
Proof.
  intros s k Hk Hs H. unfold rms_of.
  destruct (fold_stagnate (2 * k) (squares s) f0) as (F & B); try lia; auto.
  { apply Forall_map. eapply Forall_impl; [|exact H]. intros x (A & C).
    apply square_bound; auto; lia. }
  { split. apply Rle_refl. apply bpow_ge_0. }
  fold (fsum (squares s)) in *.
  set (S := fsum (squares s)) in *. fold (squares s). fold S.
  assert (N1 : fle f1 (n2f (length s)) = true).
  { apply n2f_pos. destruct s; [easy|simpl; lia]. }
  assert (SN : nneg S). { apply nneg_iff. now apply fin_nn. rewrite fx_fin; tauto. }
  assert (M : nneg (fdiv S (n2f (length s))) /\ fle (fdiv S (n2f (length s))) S = true).
  { assert (NP : pos (n2f (length s))) by (eapply flt_fle_trans; [|exact N1]; reflexivity).
    assert (NNaN : nn (fdiv S (n2f (length s)))).
    { destruct (nneg_cases _ (pos_nneg _ NP)) as [(G & _)|G].
      now apply fdiv_nn_fin. rewrite G. destruct S; try discriminate; reflexivity. }
    split. now apply fdiv_nneg.
    assert (D1 : nn (fdiv S f1)) by (apply fdiv_nn_fin; auto; reflexivity).
    eapply fle_trans. apply (fdiv_mono_r S f1 (n2f (length s))); auto; reflexivity.
    destruct (fdiv_fx S f1 F eq_refl) as (N2 & V). { rewrite B2R_f1; lra. }
    apply fle_intro; auto. now apply fin_nn. rewrite V, B2R_f1.
    replace (B2R S / 1) with (B2R S) by field. rewrite rnd_B2R.
    rewrite sat_id, fx_fin by (auto; pose proof (B2R_lt S); lra). lra. }
  destruct M as (M0 & M1).
  assert (R0 := fsqrt_nneg _ M0). assert (R1 := fsqrt_mono _ _ M0 M1).
  destruct (fsqrt_val S F SN) as (FS & VS).
  split; auto.
  assert (FR : fin (fsqrt (fdiv S (n2f (length s))))) by (apply (fin_between f0 _ (fsqrt S)); auto).
  split; auto.
  - apply fle_fx in R1. rewrite !fx_fin in R1; auto.
    rewrite VS in R1. eapply Rle_trans; [exact R1|]. apply rnd_mono. apply sqrt_le_1_alt. lra.
Qed.

Lemma sqrt_bpow_even : forall k, sqrt (bpow radix2 (2 * k)) = bpow radix2 k.
Proof.
  intros k. replace (2 * k)%Z with (k + k)%Z by lia. rewrite bpow_plus.
  apply sqrt_square, bpow_ge_0.
Qed.

Lemma eps10_gt : bpow radix2 (-34) < B2R eps10.
Proof.
  assert (H : flt (lit 1 (-34)) eps10 = true) by (vm_compute; reflexivity).
  apply flt_fx in H. destruct (lit_fx 1 (-34)) as (_ & V). rewrite V in H.
  rewrite (fx_fin eps10) in H by reflexivity.
  replace (F2R (Float radix2 1 (-34))) with (bpow radix2 (-34)) in H by (unfold F2R; simpl; lra).
  replace (rnd (bpow radix2 (-34))) with (bpow radix2 (-34)) in H.
  2:{ symmetry. apply round_generic; [apply valid_rnd_N|]. apply generic_format_bpow.
      unfold SpecFloat.fexp, SpecFloat.emin. lia. }
  rewrite sat_id in H; auto. pose proof (bpow_gt_0 radix2 (-34)). pose proof big_pos.
  assert (bpow radix2 (-34) < big) by (apply bpow_lt; lia). lra.
Qed.

Lemma rnd_bpow : forall k, (-149 <= k)%Z -> rnd (bpow radix2 k) = bpow radix2 k.
Proof.
  intros k H. apply round_generic; [apply valid_rnd_N|]. apply generic_format_bpow.
  unfold SpecFloat.fexp, SpecFloat.emin. lia.
Qed.

(** If the RMS level is above 1e-10 then the peak is above 2^-64. *)
Lemma rms_loud_peak : forall s, s <> [] -> Forall (fun x => fin x) s ->
  fle (rms_of s) eps10 = false -> bpow radix2 (-64) <= B2R (peak_of s).
Proof.
  intros s Hs Hf H. destruct (Rle_dec (bpow radix2 (-64)) (B2R (peak_of s))) as [L|L]; auto.
  exfalso. destruct (peak_of_spec s) as ((P1 & P2) & Pn).
  assert (Fp : fin (peak_of s)).
  { destruct P2 as [-> | (x & X1 & X2 & ->)]; [reflexivity|].
    rewrite fabs_fin. rewrite Forall_forall in Hf. auto. }
  destruct (rms_bound s (-64)) as (A & B & C); try lia; auto.
  { apply Forall_forall. rewrite Forall_forall in Hf. intros x Hx. split; auto.
    assert (N : nn x) by (apply fin_nn; auto). specialize (P1 x Hx N). apply fle_fx in P1.
    rewrite fabs_fx in P1 by auto. rewrite !fx_fin in P1 by auto. lra. }
  assert (E : fle (rms_of s) eps10 = true).
  { apply fle_intro; try reflexivity. now apply fin_nn. rewrite !fx_fin by (auto; reflexivity).
    eapply Rle_trans; [exact C|]. pose proof eps10_gt.
    assert (rnd (sqrt (bpow radix2 (2 * -64 + 25))) <= rnd (bpow radix2 (-34))).
    { apply rnd_mono. rewrite <- (sqrt_bpow_even (-34)). apply sqrt_le_1_alt. apply bpow_le. lia. }
    rewrite rnd_bpow in H1 by lia. lra. }
  rewrite E in H. discriminate.
Qed.

(** A NaN sample makes the RMS level NaN. *)
Lemma fold_nan : forall l a, is_nan a = true -> is_nan (fold_left fadd l a) = true.
Proof.
  induction l as [|y l IH]; intros a H; auto. cbn [fold_left]. apply IH.
  destruct (is_nan (fadd a y)) eqn:E; auto. apply fadd_nan_l in E. destruct E. congruence.
Qed.
Lemma fold_nan_in : forall l a x, In x l -> is_nan x = true -> is_nan (fold_left fadd l a) = true.
Proof.
  induction l as [|y l IH]; intros a x Hx H; [destruct Hx|].
  destruct Hx as [Hx|Hx]; cbn [fold_left].
  - subst. apply fold_nan. destruct (is_nan (fadd a x)) eqn:E; auto.
    apply fadd_nan_l in E. destruct E. congruence.
  - eapply IH; eauto.
Qed.
Lemma fsqrt_nan_inv : forall x, nn (fsqrt x) -> nn x.
Proof. intros [| | |] H; auto. Qed.
Lemma fdiv_nan_inv : forall x y, nn (fdiv x y) -> nn x /\ nn y.
Proof. intros [| | |] [| | |] H; auto; discriminate H. Qed.
Lemma rms_nn_all : forall s, nn (rms_of s) -> Forall (fun x => nn x) s.
Proof.
  intros s H. apply fsqrt_nan_inv in H. apply fdiv_nan_inv in H. destruct H as (H & _).
  apply Forall_forall. intros x Hx. destruct (is_nan x) eqn:N; auto.
  unfold fsum in H. rewrite <- H. symmetry. apply (fold_nan_in _ f0 (fmul x x)); auto.
  now apply (in_map (fun x => fmul x x)).
  destruct (is_nan (fmul x x)) eqn:E; auto. apply fmul_nan_inv in E. destruct E. congruence.
Qed.

(** A quiet RMS level bounds every sample by 1 (a Rust slice has at most 2^61 f32s). *)
Lemma rms_quiet_le1 : forall s x, (Z.of_nat (length s) <= 2 ^ 63)%Z ->
  fle (rms_of s) eps10 = true -> In x s -> fle (fabs x) f1 = true.
Proof.
  intros s x Hlen H Hx. assert (NR := proj1 (fle_nn _ _ H)).
  pose proof (rms_nn_all s NR) as Hnn.
  assert (Nx : nn x) by (rewrite Forall_forall in Hnn; auto).
  destruct (fle (fabs x) f1) eqn:E; auto. exfalso.
  apply fle_false_flt in E; [|now rewrite fabs_nn|reflexivity].
  assert (X1 : fle f1 (fmul x x) = true).
  { destruct (nn_cases x Nx) as [F|[-> | ->]]; try reflexivity.
    destruct (fmul_fx x x F F) as (N & V). apply fle_intro; auto. rewrite V, fx_f1.
    apply flt_fx in E. rewrite fabs_fx, fx_f1, fx_fin in E by auto.
    assert (1 <= B2R x * B2R x).
    { replace (B2R x * B2R x) with (Rabs (B2R x) * Rabs (B2R x)).
      nra. rewrite <- Rabs_mult. apply Rabs_pos_eq. apply Rle_0_sqr. }
    apply rnd_mono in H0. change 1 with (IZR 1) in H0 at 1. rewrite rnd_Z in H0 by (simpl; lia).
    apply sat_mono in H0. rewrite sat_id in H0; auto.
    rewrite big_val. split; [apply Rle_trans with 0; [|lra]|apply IZR_le; lia].
    rewrite <- opp_IZR. apply IZR_le. lia. }
  assert (SQ : Forall (fun y => nneg y) (squares s)).
  { apply Forall_map. eapply Forall_impl; [|exact Hnn]. intros y. apply square_nneg. }
  assert (S1 : fle f1 (fsum (squares s)) = true).
  { eapply fle_trans; [exact X1|]. apply fsum_ge_elem; auto.
    now apply (in_map (fun x => fmul x x)). }
  assert (L1 : (0 < length s)%nat) by (destruct s; [destruct Hx|simpl; lia]).
  assert (NP : pos (n2f (length s))) by (eapply flt_fle_trans; [|apply n2f_pos; auto]; reflexivity).
  assert (M : fle (fdiv f1 (z2f (2 ^ 63))) (fdiv (fsum (squares s)) (n2f (length s))) = true).
  { pose proof (fsqrt_nan_inv _ NR) as NM.
    assert (ZM : fle (n2f (length s)) (z2f (2 ^ 63)) = true) by (apply z2f_mono; lia).
    assert (Fn : fin (n2f (length s))).
    { apply (fin_between f0 _ (z2f (2 ^ 63))); auto. now apply pos_nneg. }
    assert (ND : nn (fdiv f1 (n2f (length s)))) by (apply fdiv_nn_fin; auto).
    eapply fle_trans; [apply (fdiv_mono_r f1 (n2f (length s)) (z2f (2 ^ 63))); auto|].
    apply fdiv_mono_l; auto. }
  apply fsqrt_mono in M; [|reflexivity].
  assert (flt eps10 (rms_of s) = true).
  { eapply flt_fle_trans; [|exact M]. vm_compute. reflexivity. }
  apply flt_fle_false in H0. unfold squares in *. congruence.
Qed.
