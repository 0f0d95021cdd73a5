(** Finite sums and the discrete Fourier transform over the reals: the inverse transform of a power spectrum is the
    autocorrelation. *)
From Coq Require Import Reals Lra Lia Arith.
Local Open Scope R_scope.

Fixpoint sumn (f : nat -> R) (n : nat) : R := match n with O => 0 | S k => sumn f k + f k end.

Lemma sumn_ext : forall f g n, (forall i, (i < n)%nat -> f i = g i) -> sumn f n = sumn g n.
Proof.
  intros f g n. induction n as [|n IH]; intros H; cbn; [reflexivity|]. rewrite IH, H; auto.
Qed.
Lemma sumn_plus : forall f g n, sumn (fun i => f i + g i) n = sumn f n + sumn g n.
Proof. intros f g n. induction n as [|n IH]; cbn; [lra|]. rewrite IH. lra. Qed.
Lemma sumn_scal : forall c f n, sumn (fun i => c * f i) n = c * sumn f n.
Proof. intros c f n. induction n as [|n IH]; cbn; [lra|]. rewrite IH. lra. Qed.
Lemma sumn_0 : forall n, sumn (fun _ => 0) n = 0.
Proof. induction n as [|n IH]; cbn; [lra|]. rewrite IH. lra. Qed.
Lemma sumn_const : forall c n, sumn (fun _ => c) n = INR n * c.
Proof. intros c n. induction n as [|n IH]; [cbn; lra|]. rewrite S_INR. cbn [sumn]. rewrite IH. lra. Qed.
Lemma sumn_swap : forall f n m, sumn (fun i => sumn (fun j => f i j) m) n = sumn (fun j => sumn (fun i => f i j) n) m.
Proof.
  intros f n m. induction n as [|n IH]; cbn.
  - now rewrite sumn_0.
  - now rewrite IH, <- sumn_plus.
Qed.
Lemma sumn_le : forall f g n, (forall i, (i < n)%nat -> f i <= g i) -> sumn f n <= sumn g n.
Proof.
  intros f g n. induction n as [|n IH]; intros H; cbn; [lra|]. specialize (IH ltac:(auto)). specialize (H n ltac:(lia)). lra.
Qed.
Lemma sumn_nonneg : forall f n, (forall i, (i < n)%nat -> 0 <= f i) -> 0 <= sumn f n.
Proof. intros f n H. rewrite <- (sumn_0 n). now apply sumn_le. Qed.
Lemma sumn_abs : forall f n, Rabs (sumn f n) <= sumn (fun i => Rabs (f i)) n.
Proof.
  intros f n. induction n as [|n IH]; cbn; [rewrite Rabs_R0; lra|]. pose proof (Rabs_triang (sumn f n) (f n)). lra.
Qed.
Lemma sumn_mult : forall f g n m, sumn f n * sumn g m = sumn (fun i => sumn (fun j => f i * g j) m) n.
Proof.
  intros f g n m. induction n as [|n IH]; cbn; [lra|]. rewrite <- IH, sumn_scal. lra.
Qed.
(** A sum with at most one term. *)
Lemma sumn_pick : forall f k n, sumn (fun i => if i =? k then f i else 0) n = if k <? n then f k else 0.
Proof.
  intros f k n. induction n as [|n IH]; cbn [sumn]; [reflexivity|]. rewrite IH.
  destruct (Nat.ltb_spec k n), (Nat.eqb_spec n k), (Nat.ltb_spec k (S n)); try lia; subst; lra.
Qed.
Lemma sumn_extend : forall f n m, (n <= m)%nat -> (forall i, (n <= i < m)%nat -> f i = 0) -> sumn f m = sumn f n.
Proof.
  intros f n m H. induction m as [|m IH]; intros Z.
  - now replace n with 0%nat by lia.
  - destruct (Nat.eq_dec n (S m)) as [->|]; [reflexivity|]. cbn [sumn]. rewrite IH, (Z m) by (try lia; intros; apply Z; lia). lra.
Qed.

(** The angle of bin j at time t. *)
Definition angle (N : nat) (j t : R) : R := 2 * PI * j * t / INR N.

Lemma cos_telescope : forall a n, 2 * sin (a / 2) * sumn (fun j => cos (INR j * a)) n = sin ((INR n - / 2) * a) + sin (a / 2).
Proof.
  intros a n. induction n as [|n IH].
  - cbn. replace ((0 - / 2) * a) with (- (a / 2)) by lra. rewrite sin_neg. lra.
  - cbn [sumn]. rewrite Rmult_plus_distr_l, IH, S_INR.
    assert (E : 2 * sin (a / 2) * cos (INR n * a) = sin (INR n * a + a / 2) - sin (INR n * a - a / 2)).
    { rewrite sin_plus, sin_minus. lra. }
    rewrite E. replace ((INR n - / 2) * a) with (INR n * a - a / 2) by lra.
    replace ((INR n + 1 - / 2) * a) with (INR n * a + a / 2) by lra. lra.
Qed.

(** The sum of the cosines of all bins at an integer time is N at 0 and vanishes elsewhere within (-N, N). *)
Lemma cos_sum : forall N (m : Z), (0 < N)%nat -> (- Z.of_nat N < m < Z.of_nat N)%Z ->
  sumn (fun j => cos (angle N (INR j) (IZR m))) N = if (m =? 0)%Z then INR N else 0.
Proof.
  intros N m HN Hm. assert (PN : 0 < INR N) by now apply lt_0_INR.
  destruct (Z.eqb_spec m 0) as [->|NZ].
  - rewrite (sumn_ext _ (fun _ => 1)); [rewrite sumn_const; lra|].
    intros i _. unfold angle. replace (2 * PI * INR i * 0 / INR N) with 0 by (field; lra). apply cos_0.
  - set (a := 2 * PI * IZR m / INR N).
    rewrite (sumn_ext _ (fun j => cos (INR j * a))) by (intros; f_equal; unfold angle, a; field; lra).
    assert (T := cos_telescope a N).
    assert (E : sin ((INR N - / 2) * a) = - sin (a / 2)).
    { replace ((INR N - / 2) * a) with (- (a / 2) + 2 * IZR m * PI) by (unfold a; field; lra).
      destruct m as [|p|p]; [contradiction| |].
      - change (Z.pos p) with (Z.of_nat 0 + Z.pos p)%Z. cbn [Z.of_nat Z.add].
        rewrite <- (positive_nat_Z p), <- INR_IZR_INZ, sin_period. apply sin_neg.
      - rewrite <- (sin_period (- (a / 2) + 2 * IZR (Z.neg p) * PI) (Pos.to_nat p)).
        rewrite INR_IZR_INZ, positive_nat_Z. replace (IZR (Z.neg p)) with (- IZR (Z.pos p)) by (rewrite <- opp_IZR; reflexivity).
        rewrite <- sin_neg. f_equal. lra. }
    rewrite E in T. assert (T' : sin (a / 2) * sumn (fun j => cos (INR j * a)) N = 0) by lra.
    apply Rmult_integral in T' as [S|]; [|assumption]. exfalso. revert S.
    assert (B : 0 < Rabs (a / 2) < PI).
    { unfold a. replace (2 * PI * IZR m / INR N / 2) with (PI * (IZR m / INR N)) by (field; lra).
      pose proof PI_RGT_0 as P. rewrite Rabs_mult, (Rabs_pos_eq PI) by lra.
      assert (Q : 0 < Rabs (IZR m / INR N) < 1).
      { unfold Rdiv. rewrite Rabs_mult, (Rabs_pos_eq (/ INR N)) by (left; now apply Rinv_0_lt_compat).
        rewrite <- abs_IZR. assert (0 < IZR (Z.abs m) < INR N)
          by (rewrite INR_IZR_INZ; split; apply IZR_lt; lia).
        split; [apply Rmult_lt_0_compat; [lra|now apply Rinv_0_lt_compat]|].
        apply Rmult_lt_reg_r with (INR N); [lra|]. rewrite Rmult_assoc, Rinv_l by lra. lra. }
      split; [apply Rmult_lt_0_compat; lra|]. rewrite <- (Rmult_1_r PI) at 2. apply Rmult_lt_compat_l; lra. }
    destruct (Rcase_abs (a / 2)) as [L|L].
    + rewrite Rabs_left in B by lra. intros S. assert (0 < sin (- (a / 2))) by (apply sin_gt_0; lra).
      rewrite sin_neg in H. lra.
    + rewrite Rabs_right in B by lra. intros S. assert (0 < sin (a / 2)) by (apply sin_gt_0; lra). lra.
Qed.

(** Real and imaginary part of bin j of the forward transform of x + iy (kernel exp(-i angle)) and of the inverse
    transform (kernel exp(+i angle), no scaling). *)
Definition fwd_re (N : nat) (x y : nat -> R) (j : nat) : R :=
  sumn (fun t => x t * cos (angle N (INR j) (INR t)) + y t * sin (angle N (INR j) (INR t))) N.
Definition fwd_im (N : nat) (x y : nat -> R) (j : nat) : R :=
  sumn (fun t => y t * cos (angle N (INR j) (INR t)) - x t * sin (angle N (INR j) (INR t))) N.
Definition inv_re (N : nat) (x y : nat -> R) (j : nat) : R :=
  sumn (fun t => x t * cos (angle N (INR j) (INR t)) - y t * sin (angle N (INR j) (INR t))) N.
Definition inv_im (N : nat) (x y : nat -> R) (j : nat) : R :=
  sumn (fun t => y t * cos (angle N (INR j) (INR t)) + x t * sin (angle N (INR j) (INR t))) N.

Definition power (N : nat) (x : nat -> R) (j : nat) : R :=
  fwd_re N x (fun _ => 0) j * fwd_re N x (fun _ => 0) j + fwd_im N x (fun _ => 0) j * fwd_im N x (fun _ => 0) j.

Lemma power_pairs : forall N x j, power N x j =
  sumn (fun s => sumn (fun t => x s * x t * cos (angle N (INR j) (INR s - INR t))) N) N.
Proof.
  intros N x j. unfold power, fwd_re, fwd_im. rewrite !sumn_mult, <- sumn_plus.
  apply sumn_ext. intros s _. rewrite <- sumn_plus. apply sumn_ext. intros t _.
  replace (angle N (INR j) (INR s - INR t)) with (angle N (INR j) (INR s) - angle N (INR j) (INR t))
    by (unfold angle, Rdiv; ring).
  rewrite cos_minus. ring.
Qed.

Theorem wiener_khinchin : forall N n x k, (2 * n <= N)%nat -> (k < n)%nat -> (forall t, (n <= t)%nat -> x t = 0) ->
  inv_re N (power N x) (fun _ => 0) k = INR N * sumn (fun t => x t * x (t + k)%nat) n.
Proof.
  intros N n x k HN Hk Hx. unfold inv_re. assert (PN : 0 < INR N) by (apply lt_0_INR; lia).
  rewrite (sumn_ext _ (fun j => sumn (fun s => sumn (fun t => x s * x t *
    (cos (angle N (INR j) (INR s - INR t)) * cos (angle N (INR k) (INR j)))) N) N)).
  2:{ intros j _. rewrite power_pairs, Rmult_0_l, Rminus_0_r, Rmult_comm, <- sumn_scal. apply sumn_ext. intros s _.
      rewrite <- sumn_scal. apply sumn_ext. intros t _. ring. }
  rewrite sumn_swap.
  rewrite (sumn_ext _ (fun s => sumn (fun t => x s * x t * (INR N / 2 *
     ((if t =? s + k then 1 else 0) + (if s =? t + k then 1 else 0)))) N)).
  2:{ intros s _. rewrite sumn_swap. apply sumn_ext. intros t _. rewrite sumn_scal.
      destruct (Nat.le_gt_cases n s) as [Z|Ls]; [rewrite (Hx s Z); ring|].
      destruct (Nat.le_gt_cases n t) as [Z|Lt]; [rewrite (Hx t Z); ring|]. f_equal.
      rewrite (sumn_ext _ (fun j => / 2 * (cos (angle N (INR j) (IZR (Z.of_nat s - Z.of_nat t + Z.of_nat k)))
                                       + cos (angle N (INR j) (IZR (Z.of_nat s - Z.of_nat t - Z.of_nat k)))))).
      2:{ intros j _. rewrite plus_IZR, !minus_IZR, <- !INR_IZR_INZ.
          replace (angle N (INR j) (INR s - INR t + INR k)) with (angle N (INR j) (INR s - INR t) + angle N (INR k) (INR j))
            by (unfold angle; field; lra).
          replace (angle N (INR j) (INR s - INR t - INR k)) with (angle N (INR j) (INR s - INR t) - angle N (INR k) (INR j))
            by (unfold angle; field; lra).
          rewrite cos_plus, cos_minus. lra. }
      rewrite sumn_scal, sumn_plus, !cos_sum by lia.
      destruct (Z.eqb_spec (Z.of_nat s - Z.of_nat t + Z.of_nat k) 0), (Z.eqb_spec (Z.of_nat s - Z.of_nat t - Z.of_nat k) 0),
        (Nat.eqb_spec t (s + k)), (Nat.eqb_spec s (t + k)); try lia; lra. }
  set (A := fun s t => INR N / 2 * (x s * x t)).
  rewrite (sumn_ext _ (fun s => sumn (fun t => if t =? s + k then A s t else 0) N
                                + sumn (fun t => if s =? t + k then A s t else 0) N)).
  2:{ intros s _. rewrite <- sumn_plus. apply sumn_ext. intros t _. unfold A.
      destruct (t =? s + k), (s =? t + k); ring. }
  rewrite sumn_plus. rewrite (sumn_swap (fun s t => if s =? t + k then A s t else 0)).
  assert (G : sumn (fun s => sumn (fun t => if t =? s + k then A s t else 0) N) N
              = INR N / 2 * sumn (fun t => x t * x (t + k)%nat) n).
  { rewrite (sumn_ext _ (fun s => INR N / 2 * (x s * x (s + k)%nat))).
    - rewrite sumn_scal. f_equal. apply sumn_extend; [lia|]. intros i Hi. rewrite (Hx i) by lia. ring.
    - intros s Hs. rewrite (sumn_pick (fun t => A s t)). unfold A. destruct (Nat.ltb_spec (s + k) N); [reflexivity|].
      rewrite (Hx (s + k)%nat) by lia. ring. }
  rewrite G. rewrite (sumn_ext (fun j => sumn (fun i => if i =? j + k then A i j else 0) N)
                        (fun s => sumn (fun t => if t =? s + k then A s t else 0) N)).
  - rewrite G. lra.
  - intros s _. apply sumn_ext. intros t _. destruct (t =? s + k); [unfold A; ring|reflexivity].
Qed.
