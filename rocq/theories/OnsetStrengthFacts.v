(** What the onset strengths measure: float sums against real sums. *)
From Coq Require Import ZArith Bool List Arith Lia Reals Lra.
From Flocq Require Import Core IEEE754.BinarySingleNaN.
From Verif Require Import Rust F32 F32Facts F32More ListFacts FloatSums Bounds NoveltyProofs NormalizationProofs Onsets CombFilterProofs
  FourierFacts AutocorrelationProofs AutocorrelationValueProofs SpectrumFacts TempoSpectrumFacts.
Import ListNotations.
Local Open Scope R_scope.

(** A float sum of approximate non-negative terms. *)
Lemma sum_near : forall l (r : nat -> R) a t, let n := length l in
  Forall (fun x => nneg x) l -> fin (fsum l) -> (Z.of_nat n <= 1048576)%Z -> 0 <= a <= / 1024 -> 0 <= t ->
  (forall i, (i < n)%nat -> 0 <= r i /\ Rabs (B2R (nth i l f0) - r i) <= a * r i + t) ->
  Rabs (B2R (fsum l) - sumn r n) <= (a + INR n / 6000000) * sumn r n + 2 * (INR n * t).
Proof.
  intros l r a t n Nn Fs Hn Ha Ht H. pose proof (fsum_bounds l Nn Fs) as B. rewrite Rsum_sumn in B. fold n in B.
  set (x := fun i => B2R (nth i l f0)) in *. change (fun i : nat => B2R (nth i l f0)) with x in B.
  assert (PN : 0 <= INR n) by apply pos_INR. assert (Bn : INR n <= 1048576) by (rewrite INR_IZR_INZ; now apply IZR_le).
  assert (S0 : 0 <= sumn r n) by (apply sumn_nonneg; intros; now apply H).
  assert (X0 : 0 <= sumn x n).
  { apply sumn_nonneg. intros i Hi. unfold x. apply nneg_B2R. rewrite Forall_forall in Nn. apply Nn, nth_In. exact Hi. }
  assert (D : Rabs (sumn x n - sumn r n) <= a * sumn r n + INR n * t).
  { rewrite sumn_minus. eapply Rle_trans; [apply sumn_abs|]. rewrite <- sumn_scal, <- sumn_const, <- sumn_plus. apply sumn_le. intros i Hi. now apply H. }
  pose proof u_val as U. pose proof (pow_le_1p n ltac:(rewrite U; lra)) as P1. pose proof (pow_ge_1m n) as P2.
  set (X := sumn x n) in *. set (Y := sumn r n) in *. clearbody X Y.
  assert (B1 : X * (1 - INR n * u) <= B2R (fsum l)) by (eapply Rle_trans; [|apply B]; now apply Rmult_le_compat_l).
  assert (B2 : B2R (fsum l) <= X * (1 + 2 * INR n * u)) by (eapply Rle_trans; [apply B|]; now apply Rmult_le_compat_l).
  apply Rabs_le_inv in D. rewrite U in B1, B2.
  assert (XY : X <= (1 + / 1024) * Y + INR n * t) by nra.
  set (N := INR n) in *. set (v := B2R (fsum l)) in *. clearbody N v.
  assert (K : X * (2 * N * / 16777216) <= N / 6000000 * Y + N * t * / 2).
  { assert (K1 : 2 * N * / 16777216 <= / 8) by lra. assert (K0 : 0 <= 2 * N * / 16777216) by lra.
    assert (NT : 0 <= N * t) by nra.
    assert (X * (2 * N * / 16777216) <= ((1 + / 1024) * Y + N * t) * (2 * N * / 16777216)) by (apply Rmult_le_compat_r; lra).
    assert (N * t * (2 * N * / 16777216) <= N * t * / 8) by (apply Rmult_le_compat_l; lra).
    assert ((1 + / 1024) * Y * (2 * N * / 16777216) <= N / 6000000 * Y).
    { replace ((1 + / 1024) * Y * (2 * N * / 16777216)) with (N * Y * ((1 + / 1024) * 2 * / 16777216)) by ring.
      replace (N / 6000000 * Y) with (N * Y * / 6000000) by (unfold Rdiv; ring). apply Rmult_le_compat_l; [nra|lra]. }
    lra. }
  assert (NT : 0 <= N * t) by nra.
  apply Rabs_le. split; [|].
  - assert (X * (N * / 16777216) <= X * (2 * N * / 16777216)) by (apply Rmult_le_compat_l; lra). nra.
  - nra.
Qed.

(** Squares. *)
Lemma sq_near : forall k x, (-74 <= k <= 60)%Z -> upto k x -> Rabs (B2R (fmul x x) - B2R x * B2R x) <= u24 * (B2R x * B2R x) + tiny.
Proof.
  intros k x K U. pose proof (upto_mul k k x x ltac:(lia) U U) as M. rewrite B2R_fmul by (eapply upto_fin; eauto).
  pose proof (rnd_near (B2R x * B2R x)) as R. rewrite (Rabs_pos_eq (B2R x * B2R x)) in R by apply Rle_0_sqr. exact R.
Qed.

Definition mag_ok (m : f32) : Prop := fin m /\ 0 <= B2R m <= bpow radix2 30.
Lemma mag_upto : forall m, mag_ok m <-> upto 30 m.
Proof. intros m. reflexivity. Qed.

Definition content (frame : list f32) : R := sumn (fun k => INR k * (B2R (nth k frame f0) * B2R (nth k frame f0))) (length frame).
Definition content_from (k0 : nat) (frame : list f32) : R := sumn (fun k => INR (k0 + k) * (B2R (nth k frame f0) * B2R (nth k frame f0))) (length frame).
Definition energy (frame : list f32) : R := sumn (fun k => B2R (nth k frame f0) * B2R (nth k frame f0)) (length frame).

Lemma hfc_fold : forall frame k acc, hfc_from k acc frame =
  fold_left fadd (map (fun km => fmul (fmul (n2f (fst km)) (snd km)) (snd km)) (combine (seq k (length frame)) frame)) acc.
Proof. induction frame as [|m r IH]; intros k acc; [reflexivity|]. cbn. apply IH. Qed.

Lemma nth_map_combine_seq : forall (A : Type) (f : nat * f32 -> A) d k0 frame i, (i < length frame)%nat ->
  nth i (map f (combine (seq k0 (length frame)) frame)) d = f ((k0 + i)%nat, nth i frame f0).
Proof.
  intros A f d k0 frame i Hi. rewrite (nth_indep _ d (f (0%nat, f0))) by (rewrite map_length, combine_length, seq_length; lia).
  rewrite map_nth, combine_nth by (now rewrite seq_length). now rewrite seq_nth by lia.
Qed.
Lemma nth_ok : forall frame i, Forall mag_ok frame -> upto 30 (nth i frame f0).
Proof.
  intros frame i H. destruct (Nat.lt_ge_cases i (length frame)) as [L|L]; [|rewrite nth_overflow by lia; apply upto_0].
  rewrite Forall_forall in H. apply H, nth_In, L.
Qed.
Lemma tiny_bpow : forall k, (0 <= k <= 100)%Z -> tiny * bpow radix2 k = bpow radix2 (k - 150).
Proof. intros k K. unfold tiny. rewrite <- bpow_plus. f_equal. lia. Qed.

Lemma hfc_from_val : forall k0 frame, Forall mag_ok frame -> (Z.of_nat (k0 + length frame) <= 1048576)%Z ->
  upto 105 (hfc_from k0 f0 frame) /\ Rabs (B2R (hfc_from k0 f0 frame) - content_from k0 frame) <= (INR (length frame) + 1) / 5000000 * content_from k0 frame + bpow radix2 (-80).
Proof.
  intros k0 frame H Hn. assert (Hn' : (Z.of_nat (length frame) <= 1048576)%Z) by lia. rewrite hfc_fold. set (l := map _ _). change (fold_left fadd l f0) with (fsum l).
  assert (Ll : length l = length frame) by (unfold l; rewrite map_length, combine_length, seq_length; lia).
  assert (Ni : forall i, (i < length frame)%nat -> nth i l f0 = fmul (fmul (n2f (k0 + i)) (nth i frame f0)) (nth i frame f0)).
  { intros i Hi. unfold l. now rewrite nth_map_combine_seq. }
  assert (Uk : forall i, (i < length frame)%nat -> upto 20 (n2f (k0 + i))).
  { intros i Hi. destruct (n2f_INR (k0 + i) ltac:(lia)) as (Fi & Ei). split; [exact Fi|]. rewrite Ei. split; [apply pos_INR|].
    rewrite INR_IZR_INZ. change (bpow radix2 20) with 1048576. apply IZR_le. lia. }
  assert (Ul : Forall (upto 80) l).
  { apply Forall_forall. intros x I. destruct (In_nth _ _ f0 I) as (i & Hi & <-). rewrite Ll in Hi. rewrite Ni by auto.
    apply (upto_mul 50 30); [lia| |now apply nth_ok]. apply (upto_mul 20 30); [lia|auto|now apply nth_ok]. }
  pose proof (upto_sum 80 l ltac:(lia) Ul) as Us. split; [exact Us|].
  assert (T80 : tiny * bpow radix2 31 = bpow radix2 (-119)) by (apply tiny_bpow; lia).
  pose proof (sum_near l (fun k => INR (k0 + k) * (B2R (nth k frame f0) * B2R (nth k frame f0))) (3 * u24) (bpow radix2 (-119))) as S.
  cbv zeta in S. rewrite Ll in S. fold (content_from k0 frame) in S.
  assert (Q : Rabs (B2R (fsum l) - content_from k0 frame) <= (3 * u24 + INR (length frame) / 6000000) * content_from k0 frame + 2 * (INR (length frame) * bpow radix2 (-119))).
  { apply S; auto.
    - eapply Forall_impl; [|exact Ul]. intros x. apply upto_nneg.
    - eapply upto_fin; eauto.
    - unfold u24. lra.
    - apply bpow_ge_0.
    - intros i Hi. pose proof (nth_ok frame i H) as Um. rewrite Ni by auto. set (m := nth i frame f0) in *.
      destruct (n2f_INR (k0 + i) ltac:(lia)) as (Fi & Ei). pose proof (pos_INR (k0 + i)) as Pi.
      pose proof (upto_mul 20 30 _ _ ltac:(lia) (Uk i Hi) Um) as U1. pose proof (upto_mul 50 30 _ _ ltac:(lia) U1 Um) as U2.
      destruct Um as (Fm & M0 & M1). split; [apply Rmult_le_pos; [exact Pi|apply Rle_0_sqr]|].
      rewrite B2R_fmul by (eapply upto_fin; eauto). assert (E1 : B2R (fmul (n2f (k0 + i)) m) = rnd (INR (k0 + i) * B2R m)) by (rewrite B2R_fmul, Ei by (eapply upto_fin; eauto); reflexivity).
      pose proof (rnd_near (INR (k0 + i) * B2R m)) as R1. rewrite <- E1 in R1. set (a := B2R (fmul (n2f (k0 + i)) m)) in *.
      pose proof (rnd_near (a * B2R m)) as R2. destruct U1 as (_ & A0 & _). fold a in A0.
      set (b := B2R m) in *. set (w := INR (k0 + i) * b) in *. assert (W0 : 0 <= w) by (unfold w; nra).
      rewrite (Rabs_pos_eq w) in R1 by lra. rewrite (Rabs_pos_eq (a * b)) in R2 by nra.
      replace (INR (k0 + i) * (b * b)) with (w * b) by (unfold w; ring). set (z := rnd (a * b)) in *. clearbody z w a b.
      change (bpow radix2 30) with 1073741824 in M1. change (bpow radix2 31) with 2147483648 in T80. pose proof tiny_pos as TP.
      apply Rabs_le_inv in R1. apply Rabs_le_inv in R2. unfold u24 in *.
      assert (WB : 0 <= w * b) by nra.
      assert (AB : (a - w) * b <= (/ 16777216 * w + tiny) * b) by (apply Rmult_le_compat_r; lra).
      assert (AB' : - (/ 16777216 * w + tiny) * b <= (a - w) * b) by (apply Rmult_le_compat_r; lra).
      assert (TB : tiny * b <= tiny * 1073741824) by (apply Rmult_le_compat_l; lra). assert (0 <= tiny * b) by nra.
      apply Rabs_le. split; lra. }
  eapply Rle_trans; [exact Q|]. set (n := length frame) in *.
  assert (Bn : INR n <= 1048576) by (rewrite INR_IZR_INZ; now apply IZR_le). pose proof (pos_INR n).
  assert (C0 : 0 <= content_from k0 frame) by (apply sumn_nonneg; intros; apply Rmult_le_pos; [apply pos_INR|apply Rle_0_sqr]).
  assert (E80 : bpow radix2 (-80) = bpow radix2 (-119) * 549755813888) by (change 549755813888 with (bpow radix2 39); rewrite <- bpow_plus; reflexivity).
  rewrite E80. pose proof (bpow_gt_0 radix2 (-119)) as PT. set (t := bpow radix2 (-119)) in *. clearbody t.
  apply Rplus_le_compat; [|nra]. apply Rmult_le_compat_r; [exact C0|]. unfold u24. lra.
Qed.

Lemma hfc_val : forall frame, Forall mag_ok frame -> (Z.of_nat (length frame) <= 1048576)%Z ->
  upto 105 (hfc frame) /\ Rabs (B2R (hfc frame) - content frame) <= (INR (length frame) + 1) / 5000000 * content frame + bpow radix2 (-80).
Proof. intros frame H Hn. exact (hfc_from_val 0 frame H Hn). Qed.

Lemma energy_val : forall frame, Forall mag_ok frame -> (Z.of_nat (length frame) <= 1048576)%Z ->
  upto 85 (frame_energy frame) /\ Rabs (B2R (frame_energy frame) - energy frame) <= (INR (length frame) + 1) / 5000000 * energy frame + bpow radix2 (-80).
Proof.
  intros frame H Hn. unfold frame_energy. set (l := map _ _).
  assert (Ll : length l = length frame) by (unfold l; now rewrite map_length).
  assert (Ni : forall i, nth i l f0 = fmul (nth i frame f0) (nth i frame f0)).
  { intros i. unfold l. destruct (Nat.lt_ge_cases i (length frame)) as [Hi|Hi].
    - rewrite (nth_indep _ f0 (fmul f0 f0)) by (now rewrite map_length). now rewrite (map_nth (fun x => fmul x x)).
    - rewrite !nth_overflow by (try rewrite map_length; lia). reflexivity. }
  assert (Ul : Forall (upto 60) l).
  { apply Forall_forall. intros x I. destruct (In_nth _ _ f0 I) as (i & Hi & <-). rewrite Ni. apply (upto_mul 30 30); [lia| |]; now apply nth_ok. }
  pose proof (upto_sum 60 l ltac:(lia) Ul) as Us. split; [exact Us|].
  pose proof (sum_near l (fun k => B2R (nth k frame f0) * B2R (nth k frame f0)) u24 tiny) as S. cbv zeta in S. rewrite Ll in S. fold (energy frame) in S.
  eapply Rle_trans; [apply S; auto|].
  - eapply Forall_impl; [|exact Ul]. intros x. apply upto_nneg.
  - eapply upto_fin; eauto.
  - unfold u24. lra.
  - pose proof tiny_pos. lra.
  - intros i Hi. split; [apply Rle_0_sqr|]. rewrite Ni. apply (sq_near 30); [lia|now apply nth_ok].
  - set (n := length frame) in *. assert (Bn : INR n <= 1048576) by (rewrite INR_IZR_INZ; now apply IZR_le). pose proof (pos_INR n).
    assert (C0 : 0 <= energy frame) by (apply sumn_nonneg; intros; apply Rle_0_sqr).
    assert (E80 : bpow radix2 (-80) = tiny * bpow radix2 70) by (rewrite tiny_bpow by lia; reflexivity).
    assert (B70 : 4194304 <= bpow radix2 70) by (change 4194304 with (bpow radix2 22); apply bpow_le; lia).
    rewrite E80. pose proof tiny_pos as PT. set (B := bpow radix2 70) in *. clearbody B.
    apply Rplus_le_compat; [apply Rmult_le_compat_r; [exact C0|]; unfold u24; lra|nra].
Qed.

(** The rectified difference of two such values. *)
Lemma rise_val : forall k x y X Y a t, (-140 <= k <= 110)%Z -> upto k x -> upto k y -> 0 <= X -> 0 <= Y -> 0 <= a <= / 2 -> tiny <= t ->
  Rabs (B2R x - X) <= a * X + t -> Rabs (B2R y - Y) <= a * Y + t ->
  fin (rise x y) /\ Rabs (B2R (rise x y) - Rmax 0 (Y - X)) <= (a + / 8388608) * (X + Y) + 4 * t.
Proof.
  intros k x y X Y a t K Ux Uy X0 Y0 Ha Ht Ex Ey. pose proof (upto_rise k x y Uy (upto_nneg _ _ Ux)) as Ur. fold (rise x y) in Ur.
  split; [eapply upto_fin; eauto|].
  pose proof (within_sub k y x ltac:(lia) (upto_within _ _ Uy) (upto_within _ _ Ux)) as Wd.
  assert (Ed : B2R (fsub y x) = rnd (B2R y - B2R x)) by (apply B2R_fsub; eapply within_fin; eauto using upto_within).
  assert (Er : B2R (rise x y) = Rmax 0 (B2R (fsub y x))).
  { unfold rise. pose proof (within_fin _ _ Wd) as Fd. unfold fmax, fisnan. assert (Nd : is_nan (fsub y x) = false) by (apply fin_nn; exact Fd). rewrite Nd.
    change (is_nan f0) with false. cbv iota. unfold flt. rewrite Bltb_correct by auto. change (B2R f0) with 0.
    destruct (Rlt_bool_spec (B2R (fsub y x)) 0); [rewrite Rmax_left by lra; reflexivity|rewrite Rmax_right by lra; reflexivity]. }
  rewrite Er, Ed. pose proof (rnd_near (B2R y - B2R x)) as R. destruct Ux as (_ & x0 & _). destruct Uy as (_ & y0 & _).
  set (v := rnd (B2R y - B2R x)) in *. set (p := B2R x) in *. set (q := B2R y) in *. clearbody v p q. pose proof tiny_pos as TP.
  assert (A : Rabs (q - p) <= (1 + a) * (X + Y) + 2 * t).
  { apply Rabs_le_inv in Ex. apply Rabs_le_inv in Ey. apply Rabs_le. split; nra. }
  apply Rabs_le_inv in Ex. apply Rabs_le_inv in Ey. apply Rabs_le_inv in R. unfold u24 in R.
  assert (D : Rabs (v - (Y - X)) <= (a + / 8388608) * (X + Y) + 4 * t) by (apply Rabs_le; split; nra).
  apply Rabs_le_inv in D. apply Rabs_le. unfold Rmax. destruct (Rle_dec 0 v), (Rle_dec 0 (Y - X)); lra.
Qed.

(** Square roots of approximate values. *)
Lemma sqrt_close : forall q Q a s, 0 <= q -> 0 <= Q -> 0 <= a -> 0 <= s -> Rabs (q - Q) <= a * Q + s * s ->
  Rabs (sqrt q - sqrt Q) <= a * sqrt Q + s.
Proof.
  intros q Q a s q0 Q0 a0 s0 H. set (r := sqrt q). set (R := sqrt Q).
  assert (Er : r * r = q) by now apply sqrt_sqrt. assert (ER : R * R = Q) by now apply sqrt_sqrt.
  assert (r0 : 0 <= r) by apply sqrt_pos. assert (R0 : 0 <= R) by apply sqrt_pos. rewrite <- Er, <- ER in H. clearbody r R. clear q Q q0 Q0 Er ER.
  apply Rabs_le_inv in H. apply Rabs_le. split; apply Rnot_lt_le; intros C.
  - assert (C1 : r < R * (1 - a) - s) by lra.
    destruct (Rle_lt_dec (1 - a) 0) as [L|L]; [nra|]. assert (r * r < (R * (1 - a) - s) * (R * (1 - a) - s)) by nra.
    assert (a < 1) by lra. assert (s <= R * (1 - a)) by lra. nra.
  - assert (C1 : R * (1 + a) + s < r) by lra. assert (RA : 0 <= R * a) by nra.
    set (w := R * (1 + a) + s) in *. assert (w0 : 0 <= w) by (unfold w; lra). assert (W : w * w < r * r) by nra.
    assert (E : w * w = R * R + 2 * a * (R * R) + (R * a) * (R * a) + s * s + 2 * R * (1 + a) * s) by (unfold w; ring).
    assert (0 <= 2 * R * (1 + a) * s) by (apply Rmult_le_pos; [nra|exact s0]). assert (0 <= a * (R * R)) by (apply Rmult_le_pos; [exact a0|nra]). nra.
Qed.
(** Changing the coordinates changes the length by at most as much. *)
Lemma norm_lip : forall f g n, Rabs (sqrt (sumn (fun i => Rsqr (f i)) n) - sqrt (sumn (fun i => Rsqr (g i)) n)) <= sumn (fun i => Rabs (f i - g i)) n.
Proof.
  intros f g n. induction n as [|n IH]; [cbn; rewrite Rminus_eq_0, Rabs_R0; lra|]. cbn [sumn].
  set (A := sumn (fun i => Rsqr (f i)) n) in *. set (B := sumn (fun i => Rsqr (g i)) n) in *.
  assert (A0 : 0 <= A) by (apply sumn_nonneg; intros; apply Rle_0_sqr). assert (B0 : 0 <= B) by (apply sumn_nonneg; intros; apply Rle_0_sqr).
  rewrite <- (Rsqr_sqrt A) at 1 by auto. rewrite <- (Rsqr_sqrt B) at 1 by auto. eapply Rle_trans; [apply hypot_lip|]. lra.
Qed.

Lemma quot_nonneg : forall x y, 0 <= x -> 0 < y -> 0 <= x / y.
Proof. intros x y X Y. apply Rmult_le_pos; [exact X|]. left. now apply Rinv_0_lt_compat. Qed.
Lemma quot_le_1 : forall x y, x <= y -> 0 < y -> x / y <= 1.
Proof. intros x y X Y. apply (Rmult_le_reg_r y); [exact Y|]. unfold Rdiv. rewrite Rmult_assoc, Rinv_l by lra. lra. Qed.

(** The peak of a frame. *)
Definition peak (frame : list f32) : R := fold_right Rmax 0 (map B2R frame).
Lemma peak_0 : forall frame, 0 <= peak frame.
Proof. induction frame as [|x r IH]; [apply Rle_refl|]. cbn. eapply Rle_trans; [exact IH|apply Rmax_r]. Qed.
Lemma peak_ge : forall frame i, B2R (nth i frame f0) <= peak frame.
Proof.
  induction frame as [|x r IH]; intros i; [destruct i; apply Rle_refl|]. destruct i as [|i]; cbn; [apply Rmax_l|].
  eapply Rle_trans; [apply IH|apply Rmax_r].
Qed.
Lemma fmax_B2R : forall a b, fin a -> fin b -> fin (fmax a b) /\ B2R (fmax a b) = Rmax (B2R a) (B2R b).
Proof.
  intros a b Fa Fb. unfold fmax, fisnan. rewrite (fin_nn a Fa), (fin_nn b Fb). cbv iota. unfold flt. rewrite Bltb_correct by auto.
  destruct (Rlt_bool_spec (B2R a) (B2R b)); [rewrite Rmax_right by lra|rewrite Rmax_left by lra]; auto.
Qed.
Lemma fold_peak : forall l a, fin a -> Forall (fun x => fin x) l ->
  fin (fold_left fmax l a) /\ B2R (fold_left fmax l a) = fold_right Rmax (B2R a) (map B2R l).
Proof.
  induction l as [|x r IH]; intros a Fa F; cbn; [auto|]. inversion F; subst.
  destruct (fmax_B2R a x Fa H1) as (Fm & Em). destruct (IH _ Fm H2) as (Fr & Er). split; [exact Fr|]. rewrite Er, Em.
  assert (G : forall l a b, fold_right Rmax (Rmax a b) l = Rmax b (fold_right Rmax a l)).
  { clear. induction l as [|y l IH]; intros a b; cbn; [apply Rmax_comm|]. rewrite IH, !Rmax_assoc, (Rmax_comm y b). reflexivity. }
  apply G.
Qed.
Lemma frame_peak : forall frame, Forall mag_ok frame -> upto 30 (fold_left fmax frame f0) /\ B2R (fold_left fmax frame f0) = peak frame.
Proof.
  intros frame H. destruct (fold_peak frame f0 eq_refl) as (F & E). { eapply Forall_impl; [|exact H]. now intros x (Fx & _). }
  assert (E' : B2R (fold_left fmax frame f0) = peak frame).
  { exact E. }
  split; [|exact E']. split; [exact F|]. rewrite E'. split; [apply peak_0|]. clear - H. induction H as [|x r (_ & Hx) H IH]; cbn; [lra|].
  apply Rmax_lub; [apply Hx|exact IH].
Qed.

(** 1e-10 as the f32 literal of spectral_flux.rs:25 and energy_flux.rs:25. *)
Definition floor10 : R := 14411519 / 144115188075855872.
Lemma on_eps_val : fin on_eps /\ B2R on_eps = floor10.
Proof.
  split; [reflexivity|]. unfold on_eps. destruct (lit_fx 14411519 (-57)) as (_ & E).
  assert (F : fin (lit 14411519 (-57))) by reflexivity. rewrite fx_fin in E by exact F. rewrite <- SF2R_B2SF.
  assert (S : B2SF (lit 14411519 (-57)) = SpecFloat.S754_finite false 14411519 (-57)) by (vm_compute; reflexivity). rewrite S.
  unfold SF2R, F2R, floor10. cbn [cond_Zopp Fnum Fexp]. change (bpow radix2 (-57)) with (/ 144115188075855872). reflexivity.
Qed.

(** A bin relative to the frame's peak; frames peaking at 1e-10 or less count as silent. *)
Definition level (frame : list f32) (k : nat) : R := if Rle_dec (peak frame) floor10 then 0 else B2R (nth k frame f0) / peak frame.

Lemma level_01 : forall frame k, Forall mag_ok frame -> 0 <= level frame k <= 1.
Proof.
  intros frame k H. unfold level. destruct (Rle_dec _ _) as [L|L]; [lra|]. assert (P : 0 < peak frame) by (unfold floor10 in L; lra).
  pose proof (peak_ge frame k). pose proof (nth_ok frame k H) as (_ & M & _). split; [apply quot_nonneg; lra|]. apply quot_le_1; lra.
Qed.
Lemma norm_val : forall frame k, Forall mag_ok frame -> length (norm_frame frame) = length frame /\
  upto 0 (nth k (norm_frame frame) f0) /\ Rabs (B2R (nth k (norm_frame frame) f0) - level frame k) <= u24 + tiny.
Proof.
  intros frame k H. destruct (frame_peak frame H) as ((Fm & _) & Em). pose proof (level_01 frame k H) as L01. unfold norm_frame. set (m := fold_left fmax frame f0) in *.
  destruct on_eps_val as (Fe & Ee). unfold fgt. rewrite Bltb_correct by auto. rewrite Ee, Em. pose proof tiny_pos as TP.
  unfold level in *. destruct (Rlt_bool_spec floor10 (peak frame)) as [L|L].
  - destruct (Rle_dec (peak frame) floor10) as [C|_]; [lra|]. split; [apply map_length|]. assert (P : 0 < peak frame) by (unfold floor10 in L; lra).
    destruct (Nat.lt_ge_cases k (length frame)) as [Hk|Hk].
    + rewrite (nth_indep _ f0 (fdiv f0 m)) by (now rewrite map_length). rewrite (map_nth (fun x => fdiv x m)).
      pose proof (nth_ok frame k H) as (Fx & X0 & _). set (x := nth k frame f0) in *.
      destruct (fdiv_fx x m Fx Fm) as (N & E); [rewrite Em; lra|]. rewrite Em in E.
      assert (R01 : 0 <= rnd (B2R x / peak frame) <= 1) by (split; [apply rnd_nonneg; lra|eapply Rle_trans; [apply (rnd_mono _ (IZR 1)); lra|rewrite (rnd_Z 1) by lia; lra]]).
      rewrite sat_id in E by (unfold big; change (bpow radix2 128) with 340282366920938463463374607431768211456; lra).
      assert (F : fin (fdiv x m)) by (apply fin_iff; auto; rewrite E; unfold big; change (bpow radix2 128) with 340282366920938463463374607431768211456; lra).
      rewrite fx_fin in E by exact F. split; [split; [exact F|]; rewrite E; exact R01|]. rewrite E.
      eapply Rle_trans; [apply rnd_near|]. rewrite Rabs_pos_eq by lra. unfold u24. lra.
    + rewrite nth_overflow by (rewrite map_length; lia). split; [apply upto_0|]. rewrite nth_overflow by lia. change (B2R f0) with 0. unfold Rdiv.
      rewrite Rmult_0_l, Rminus_0_r, Rabs_R0. unfold u24. lra.
  - destruct (Rle_dec (peak frame) floor10) as [_|C]; [|lra]. split; [apply map_length|].
    assert (Z : nth k (map (fun _ : f32 => f0) frame) f0 = f0).
    { destruct (Nat.lt_ge_cases k (length frame)) as [Hk|Hk]; [|rewrite nth_overflow by (rewrite map_length; lia); reflexivity].
      exact (map_nth (fun _ : f32 => f0) frame f0 k). }
    rewrite Z. split; [apply upto_0|]. change (B2R f0) with 0. rewrite Rminus_0_r, Rabs_R0. unfold u24. lra.
Qed.

(** The rectified distance of two normalized frames. *)
Definition flux (prev cur : list f32) : R := sqrt (sumn (fun k => Rsqr (Rmax 0 (level cur k - level prev k))) (length cur)).

Lemma flux_val : forall prev cur, Forall mag_ok prev -> Forall mag_ok cur -> length prev = length cur -> (Z.of_nat (length cur) <= 1048576)%Z ->
  fin (l2_rise (norm_frame prev) (norm_frame cur)) /\
  Rabs (B2R (l2_rise (norm_frame prev) (norm_frame cur)) - flux prev cur) <= (INR (length cur) + 2) / 5000000 * flux prev cur + (INR (length cur) + 1) / 2000000.
Proof.
  intros prev cur Hp Hc Ln Hn. set (n := length cur) in *. unfold l2_rise. set (l := map _ _).
  assert (Lp : length (norm_frame prev) = n) by (rewrite (proj1 (norm_val prev 0 Hp)); exact Ln).
  assert (Lc : length (norm_frame cur) = n) by (apply (norm_val cur 0 Hc)).
  set (d := fun k => B2R (fmax (fsub (nth k (norm_frame cur) f0) (nth k (norm_frame prev) f0)) f0)).
  assert (Ll : length l = n) by (unfold l; rewrite map_length, combine_length; lia).
  assert (Ni : forall i, (i < n)%nat -> nth i l f0 = let e := rise (nth i (norm_frame prev) f0) (nth i (norm_frame cur) f0) in fmul e e).
  { intros i Hi. unfold l. set (g := fun pc : f32 * f32 => _). rewrite (nth_indep _ f0 (g (f0, f0))) by (rewrite map_length, combine_length; lia).
    rewrite map_nth, combine_nth by lia. reflexivity. }
  assert (Ud : forall i, upto 0 (rise (nth i (norm_frame prev) f0) (nth i (norm_frame cur) f0))).
  { intros i. apply upto_rise; [apply (norm_val cur i Hc)|]. eapply upto_nneg. apply (norm_val prev i Hp). }
  assert (Ul : Forall (upto 0) l).
  { apply Forall_forall. intros x I. destruct (In_nth _ _ f0 I) as (i & Hi & <-). rewrite Ni by lia. apply (upto_mul 0 0); [lia| |]; apply Ud. }
  pose proof (upto_sum 0 l ltac:(lia) Ul) as Us. destruct (fsqrt_val (fsum l) (upto_fin _ _ Us) (upto_nneg _ _ Us)) as (Fq & Eq). split; [exact Fq|].
  pose proof tiny_pos as TP. assert (PN : 0 <= INR n) by apply pos_INR. assert (Bn : INR n <= 1048576) by (rewrite INR_IZR_INZ; now apply IZR_le).
  (* the sum of the squared float rises *)
  assert (A : Rabs (B2R (fsum l) - sumn (fun i => Rsqr (d i)) n) <= (u24 + INR n / 6000000) * sumn (fun i => Rsqr (d i)) n + 2 * (INR n * tiny)).
  { pose proof (sum_near l (fun i => Rsqr (d i)) u24 tiny) as S. cbv zeta in S. rewrite Ll in S. apply S; auto.
    - eapply Forall_impl; [|exact Ul]. intros x. apply upto_nneg.
    - eapply upto_fin; eauto.
    - unfold u24. lra.
    - lra.
    - intros i Hi. split; [apply Rle_0_sqr|]. rewrite Ni by exact Hi. cbv zeta. apply (sq_near 0); [lia|apply Ud]. }
  (* each float rise against the real one *)
  assert (Dd : forall i, Rabs (d i - Rmax 0 (level cur i - level prev i)) <= 4 * u24).
  { intros i. destruct (norm_val prev i Hp) as (_ & Up & Ep). destruct (norm_val cur i Hc) as (_ & Uc & Ec).
    pose proof (level_01 prev i Hp) as L1. pose proof (level_01 cur i Hc) as L2.
    set (x := nth i (norm_frame prev) f0) in *. set (y := nth i (norm_frame cur) f0) in *.
    change (d i) with (B2R (fmax (fsub y x) f0)).
    pose proof (within_sub 0 y x ltac:(lia) (upto_within _ _ Uc) (upto_within _ _ Up)) as Wd. pose proof (within_fin _ _ Wd) as Fd.
    rewrite (proj2 (fmax_B2R (fsub y x) f0 Fd eq_refl)). rewrite B2R_fsub by (first [exact Fd | apply Uc | apply Up]). pose proof (rnd_near (B2R y - B2R x)) as R.
    destruct Up as (_ & X). destruct Uc as (_ & Y). change (bpow radix2 0) with 1 in X, Y.
    assert (Rabs (B2R y - B2R x) <= 1) by (apply Rabs_le; lra).
    set (v := rnd (B2R y - B2R x)) in *. clearbody v. apply Rabs_le_inv in Ep. apply Rabs_le_inv in Ec. apply Rabs_le_inv in R.
    assert (T : tiny <= u24 / 100) by (unfold tiny, u24; eapply Rle_trans; [apply (bpow_le radix2 _ (-40)); lia|]; change (bpow radix2 (-40)) with (/ 1099511627776); lra).
    unfold u24 in *. change (B2R f0) with 0.
    assert (D : Rabs (v - (level cur i - level prev i)) <= 4 * / 16777216) by (apply Rabs_le; split; lra). apply Rabs_le_inv in D.
    apply Rabs_le. unfold Rmax. destruct (Rle_dec v 0), (Rle_dec 0 (level cur i - level prev i)); lra. }
  pose proof (norm_lip d (fun i => Rmax 0 (level cur i - level prev i)) n) as NL. cbv beta in NL.
  change (sqrt (sumn (fun i => Rsqr (Rmax 0 (level cur i - level prev i))) n)) with (flux prev cur) in NL.
  assert (NL' : sumn (fun i => Rabs (d i - Rmax 0 (level cur i - level prev i))) n <= INR n * (4 * u24)).
  { rewrite <- sumn_const. apply sumn_le. intros i _. apply Dd. }
  set (Q := sumn (fun i => Rsqr (d i)) n) in *. assert (Q0 : 0 <= Q) by (apply sumn_nonneg; intros; apply Rle_0_sqr).
  assert (q0 : 0 <= B2R (fsum l)) by apply Us.
  pose proof (sqrt_close (B2R (fsum l)) Q (u24 + INR n / 6000000) (bpow radix2 (-60)) q0 Q0 ltac:(unfold u24; lra) (bpow_ge_0 _ _)) as SC.
  assert (TT : 2 * (INR n * tiny) <= bpow radix2 (-60) * bpow radix2 (-60)).
  { rewrite <- bpow_plus. change (-60 + -60)%Z with (-120)%Z. assert (E : bpow radix2 (-120) = tiny * 1073741824) by (change 1073741824 with (bpow radix2 30); now rewrite tiny_bpow by lia).
    rewrite E. nra. }
  specialize (SC ltac:(lra)). rewrite Eq. pose proof (rnd_near (sqrt (B2R (fsum l)))) as R. rewrite (Rabs_pos_eq (sqrt (B2R (fsum l)))) in R by apply sqrt_pos.
  set (s := sqrt (B2R (fsum l))) in *. set (v := rnd s) in *. set (sQ := sqrt Q) in *. set (F := flux prev cur) in *.
  assert (F0 : 0 <= F) by apply sqrt_pos. assert (SQ0 : 0 <= sQ) by apply sqrt_pos. assert (s0 : 0 <= s) by apply sqrt_pos.
  assert (T60 : bpow radix2 (-60) <= / 1000000000000) by (eapply Rle_trans; [apply (bpow_le radix2 _ (-40)); lia|]; change (bpow radix2 (-40)) with (/ 1099511627776); lra).
  assert (T150 : tiny <= / 1000000000000) by (unfold tiny; eapply Rle_trans; [apply (bpow_le radix2 _ (-40)); lia|]; change (bpow radix2 (-40)) with (/ 1099511627776); lra).
  set (N := INR n) in *. clearbody s v sQ F N Q. set (t := bpow radix2 (-60)) in *. assert (t0 : 0 <= t) by apply bpow_ge_0. clearbody t.
  apply Rabs_le_inv in SC. apply Rabs_le_inv in R. unfold u24 in *.
  assert (NL2 : Rabs (sQ - F) <= N * (4 * / 16777216)) by lra. apply Rabs_le_inv in NL2.
  assert (a0 : 0 <= / 16777216 + N / 6000000 <= / 5) by lra.
  assert (G1 : (/ 16777216 + N / 6000000) * sQ <= (/ 16777216 + N / 6000000) * F + / 5 * (N * (4 * / 16777216))).
  { assert (sQ <= F + N * (4 * / 16777216)) by lra. assert (0 <= N * (4 * / 16777216)) by lra.
    assert ((/ 16777216 + N / 6000000) * sQ <= (/ 16777216 + N / 6000000) * (F + N * (4 * / 16777216))) by (apply Rmult_le_compat_l; lra).
    assert ((/ 16777216 + N / 6000000) * (N * (4 * / 16777216)) <= / 5 * (N * (4 * / 16777216))) by (apply Rmult_le_compat_r; lra). lra. }
  assert (G2 : s <= 2 * F + 2 * N / 4194304 + t).
  { assert ((/ 16777216 + N / 6000000) * F <= / 5 * F) by (apply Rmult_le_compat_r; lra). lra. }
  assert (NF : 0 <= N * F) by nra. apply Rabs_le.
  replace ((N + 2) / 5000000 * F) with (N * F / 5000000 + 2 * F / 5000000) by (unfold Rdiv; ring).
  replace ((/ 16777216 + N / 6000000) * F) with (F / 16777216 + N * F / 6000000) in G1 by (unfold Rdiv; ring). split; lra.
Qed.

(** Frame RMS. *)
Definition rms (samples : list f32) (frame hop i : nat) : R :=
  sqrt (sumn (fun k => Rsqr (B2R (nth (i * hop + k) samples f0))) frame / INR frame).

Lemma rms_val : forall samples frame hop i, Forall (within 30) samples -> (1 <= frame)%nat -> (Z.of_nat frame <= 1048576)%Z -> (i * hop + frame <= length samples)%nat ->
  upto 85 (frame_rms samples frame hop i) /\
  Rabs (B2R (frame_rms samples frame hop i) - rms samples frame hop i) <= (INR frame + 2) / 5000000 * rms samples frame hop i + bpow radix2 (-60).
Proof.
  intros samples frame hop i H F1 Fn L. unfold frame_rms. cbv zeta. rewrite Nat.min_l by lia. replace (i * hop + frame - i * hop)%nat with frame by lia.
  set (sl := slice samples (i * hop) (i * hop + frame)). set (l := map _ sl).
  assert (Ls : length sl = frame) by (unfold sl; rewrite slice_length by lia; lia). assert (Ll : length l = frame) by (unfold l; now rewrite map_length).
  assert (Nk : forall k, (k < frame)%nat -> nth k sl f0 = nth (i * hop + k) samples f0).
  { intros k Hk. symmetry. apply nth_error_nth. unfold sl. apply nth_slice; lia. }
  assert (Wk : forall k, (k < frame)%nat -> within 30 (nth (i * hop + k) samples f0)) by (intros k Hk; rewrite Forall_forall in H; apply H, nth_In; lia).
  assert (Ni : forall k, (k < frame)%nat -> nth k l f0 = fmul (nth (i * hop + k) samples f0) (nth (i * hop + k) samples f0)).
  { intros k Hk. unfold l. rewrite (nth_indep _ f0 (fmul f0 f0)) by (rewrite map_length; lia). rewrite (map_nth (fun x => fmul x x)), Nk by exact Hk. reflexivity. }
  assert (Vi : forall k, (k < frame)%nat -> upto 60 (nth k l f0) /\ Rabs (B2R (nth k l f0) - Rsqr (B2R (nth (i * hop + k) samples f0))) <= u24 * Rsqr (B2R (nth (i * hop + k) samples f0)) + tiny).
  { intros k Hk. rewrite Ni by exact Hk. set (x := nth (i * hop + k) samples f0). pose proof (Wk k Hk) as W. fold x in W.
    pose proof (within_mul 30 30 x x ltac:(lia) W W) as W2. pose proof (within_fin _ _ W2) as F2.
    assert (E : B2R (fmul x x) = rnd (Rsqr (B2R x))) by (rewrite B2R_fmul by exact F2; reflexivity).
    split; [split; [exact F2|]; rewrite E; split; [apply rnd_nonneg, Rle_0_sqr|]; destruct W2 as (_ & W2); rewrite E in W2; apply Rabs_le_inv in W2; apply W2|].
    rewrite E. pose proof (rnd_near (Rsqr (B2R x))) as R. rewrite (Rabs_pos_eq (Rsqr _)) in R by apply Rle_0_sqr. exact R. }
  assert (Ul : Forall (upto 60) l).
  { apply Forall_forall. intros x I. destruct (In_nth _ _ f0 I) as (k & Hk & <-). apply Vi. lia. }
  pose proof (upto_sum 60 l ltac:(lia) Ul) as Us. pose proof (upto_div_count 85 _ frame ltac:(lia) Us F1) as Uq.
  pose proof (upto_sqrt' 85 _ ltac:(lia) Uq) as Ur. split; [exact Ur|]. destruct (fsqrt_val _ (upto_fin _ _ Uq) (upto_nneg _ _ Uq)) as (_ & Er).
  destruct (n2f_INR frame ltac:(lia)) as (Fc & Ec). assert (NP : 1 <= INR frame) by (change 1 with (INR 1); now apply le_INR).
  assert (Bn : INR frame <= 1048576) by (rewrite INR_IZR_INZ; now apply IZR_le).
  assert (Eq : B2R (fdiv (fsum l) (n2f frame)) = rnd (B2R (fsum l) / INR frame)) by (rewrite B2R_fdiv, Ec; [reflexivity|eapply upto_fin; eauto|rewrite Ec; lra]).
  pose proof (sum_near l (fun k => Rsqr (B2R (nth (i * hop + k) samples f0))) u24 tiny) as S. cbv zeta in S. rewrite Ll in S.
  pose proof tiny_pos as TP.
  set (T := sumn (fun k => Rsqr (B2R (nth (i * hop + k) samples f0))) frame) in *. assert (T0 : 0 <= T) by (apply sumn_nonneg; intros; apply Rle_0_sqr).
  assert (A : Rabs (B2R (fsum l) - T) <= (u24 + INR frame / 6000000) * T + 2 * (INR frame * tiny)).
  { apply S; auto.
    - eapply Forall_impl; [|exact Ul]. intros x. apply upto_nneg.
    - eapply upto_fin; eauto.
    - unfold u24. lra.
    - lra.
    - intros k Hk. split; [apply Rle_0_sqr|]. now apply Vi. }
  clear S. unfold rms. fold T. set (N := INR frame) in *. set (q := B2R (fsum l)) in *. assert (q0 : 0 <= q) by apply Us.
  assert (A2 : Rabs (q / N - T / N) <= (u24 + N / 6000000) * (T / N) + 2 * tiny).
  { replace (q / N - T / N) with ((q - T) * / N) by (unfold Rdiv; ring). rewrite Rabs_mult, (Rabs_pos_eq (/ N)) by (left; apply Rinv_0_lt_compat; lra).
    replace ((u24 + N / 6000000) * (T / N) + 2 * tiny) with (((u24 + N / 6000000) * T + 2 * (N * tiny)) * / N) by (field; lra).
    apply Rmult_le_compat_r; [left; apply Rinv_0_lt_compat; lra|exact A]. }
  pose proof (rnd_near (q / N)) as R. rewrite <- Eq in R. assert (qN0 : 0 <= q / N) by (apply quot_nonneg; lra). rewrite (Rabs_pos_eq (q / N)) in R by exact qN0.
  assert (w0 : 0 <= B2R (fdiv (fsum l) (n2f frame))) by apply Uq. set (w := B2R (fdiv (fsum l) (n2f frame))) in *.
  set (M := T / N) in *. assert (M0 : 0 <= M) by (apply quot_nonneg; lra). set (z := q / N) in *.
  assert (A3 : Rabs (w - M) <= ((N + 1) / 5000000) * M + bpow radix2 (-70) * bpow radix2 (-70)).
  { rewrite <- bpow_plus. change (-70 + -70)%Z with (-140)%Z. assert (E : bpow radix2 (-140) = tiny * 1024) by (change 1024 with (bpow radix2 10); now rewrite tiny_bpow by lia).
    rewrite E. apply Rabs_le_inv in R. apply Rabs_le_inv in A2. unfold u24 in *. clearbody w z M N T. clear - R A2 NP Bn M0 TP.
    assert (NM : 0 <= N * M) by nra. assert (N * M <= 1048576 * M) by (apply Rmult_le_compat_r; lra). replace ((N + 1) / 5000000 * M) with (N * M / 5000000 + M / 5000000) by (unfold Rdiv; ring).
    replace ((/ 16777216 + N / 6000000) * M) with (M / 16777216 + N * M / 6000000) in A2 by (unfold Rdiv; ring).
    assert (z <= M + M / 16777216 + 1048576 * M / 6000000 + 2 * tiny) by lra. apply Rabs_le. split; lra. }
  assert (aN : 0 <= (N + 1) / 5000000 <= / 4) by (unfold Rdiv; lra).
  pose proof (sqrt_close w M ((N + 1) / 5000000) (bpow radix2 (-70)) w0 M0 ltac:(lra) (bpow_ge_0 _ _) A3) as SC.
  rewrite Er. pose proof (rnd_near (sqrt w)) as R2. rewrite (Rabs_pos_eq (sqrt w)) in R2 by apply sqrt_pos.
  set (s := sqrt w) in *. set (G := sqrt M) in *. assert (G0 : 0 <= G) by apply sqrt_pos. assert (s0 : 0 <= s) by apply sqrt_pos. set (v := rnd s) in *.
  assert (E60 : bpow radix2 (-60) = bpow radix2 (-70) * 1024) by (change 1024 with (bpow radix2 10); rewrite <- bpow_plus; reflexivity).
  assert (E150 : tiny <= bpow radix2 (-70)) by (apply bpow_le; lia). rewrite E60. set (t := bpow radix2 (-70)) in *. assert (t0 : 0 <= t) by apply bpow_ge_0.
  clearbody s G v t N M. clear - SC R2 G0 s0 E150 t0 aN TP NP Bn. apply Rabs_le_inv in SC. apply Rabs_le_inv in R2. unfold u24 in *.
  assert ((N + 1) / 5000000 * G <= / 4 * G) by (apply Rmult_le_compat_r; lra).
  replace ((N + 2) / 5000000 * G) with ((N + 1) / 5000000 * G + G / 5000000) by (unfold Rdiv; ring). apply Rabs_le. split; lra.
Qed.
