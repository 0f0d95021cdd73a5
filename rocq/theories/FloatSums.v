(** Rounding-error bounds for f32 sums and means of non-negative values. *)
From Coq Require Import Reals Lra Lia.
From Flocq Require Import Core Plus_error Relative.
From Verif Require Import Rust F32 F32Facts F32More.
Local Open Scope R_scope.

(** Unit roundoff 2^-24 and half the smallest positive f32, 2^-150. *)
Definition u : R := bpow radix2 (-24).
Definition eta : R := bpow radix2 (-150).
Lemma u_val : u = / 16777216. Proof. unfold u. simpl. lra. Qed.
Lemma eta_pos : 0 < eta. Proof. apply bpow_gt_0. Qed.
Lemma eta_small : eta <= / 1329227995784915872903807060280344576.
Proof.
  unfold eta. replace (/ _) with (bpow radix2 (-120)) by (simpl; lra). apply bpow_le. lia.
Qed.

Lemma add_err : forall x y, fin x -> fin y -> exists e, Rabs e <= u /\ rnd (B2R x + B2R y) = (B2R x + B2R y) * (1 + e).
Proof.
  intros x y Fx Fy.
  destruct (FLT_plus_error_N_ex radix2 (-149) 24 (fun x => negb (Z.even x)) (B2R x) (B2R y)) as (e & E & H).
  - apply generic_format_B2R.
  - apply generic_format_B2R.
  - exists e. split; [|exact H]. apply (Rle_trans _ _ _ E). unfold u_ro.
    replace (/ 2 * bpow radix2 (- (24) + 1)) with u by (rewrite u_val; simpl; lra).
    rewrite u_val. lra.
Qed.

(** Exact sum of a list. *)
Definition Rsum (l : list f32) : R := fold_right (fun x s => B2R x + s) 0 l.
Lemma nneg_B2R : forall x, nneg x -> 0 <= B2R x.
Proof.
  intros x H. destruct (nneg_cases x H) as [(F & _)| ->]; [|simpl; lra]. rewrite <- fx_fin by auto. now apply nneg_fx.
Qed.
Lemma Rsum_nonneg : forall l, Forall (fun x => nneg x) l -> 0 <= Rsum l.
Proof.
  induction l as [|x l IH]; intros H; simpl; [lra|]. pose proof (nneg_B2R x (Forall_inv H)).
  specialize (IH (Forall_inv_tail H)). fold (Rsum l). lra.
Qed.

Lemma pow_le_1p : forall k, INR k * u <= / 2 -> (1 + u) ^ k <= 1 + 2 * INR k * u.
Proof.
  pose proof u_val as U. induction k as [|k IH]; intros H; [simpl; lra|]. rewrite S_INR in *. cbn [pow].
  pose proof (pos_INR k). specialize (IH ltac:(rewrite U in *; lra)).
  assert (A : (1 + u) * (1 + u) ^ k <= (1 + u) * (1 + 2 * INR k * u)) by (apply Rmult_le_compat_l; [rewrite U|]; lra).
  apply (Rle_trans _ _ _ A).
  assert (B : INR k * u * u <= / 2 * u) by (apply Rmult_le_compat_r; [rewrite U; lra|]; rewrite U in *; lra).
  replace ((1 + u) * (1 + 2 * INR k * u)) with (1 + 2 * INR k * u + u + 2 * (INR k * u * u)) by ring. lra.
Qed.
Lemma pow_ge_1m : forall k, 1 - INR k * u <= (1 - u) ^ k.
Proof.
  pose proof u_val as U. induction k as [|k IH]; [simpl; lra|]. rewrite S_INR. cbn [pow].
  assert (P : 0 <= (1 - u) ^ k) by (apply pow_le; rewrite U; lra).
  assert (P1 : (1 - u) ^ k <= 1).
  { rewrite <- (pow1 k) at 2. apply pow_incr. rewrite U. lra. }
  assert (u * (1 - u) ^ k <= u * 1) by (apply Rmult_le_compat_l; [rewrite U|]; lra). lra.
Qed.

(** A sum of non-negative values that does not overflow. *)
Lemma fold_bounds : forall l acc, Forall (fun x => nneg x) l -> nneg acc -> fin (fold_left fadd l acc) ->
  (B2R acc + Rsum l) * (1 - u) ^ length l <= B2R (fold_left fadd l acc) <= (B2R acc + Rsum l) * (1 + u) ^ length l.
Proof.
  pose proof u_val as U.
  induction l as [|x l IH]; intros acc H N F; cbn [fold_left length Rsum fold_right pow] in *.
  - rewrite !Rplus_0_r, !Rmult_1_r. lra.
  - fold (Rsum l). pose proof (Forall_inv H) as Hx. cbn beta in Hx. apply Forall_inv_tail in H.
    assert (Na : nneg (fadd acc x)) by (now apply fadd_nneg).
    assert (Fa : fin (fadd acc x)).
    { apply (fin_between f0 _ (fold_left fadd l (fadd acc x))); auto. apply fsum_ge_acc; auto. }
    assert (Fx : fin x).
    { apply (fin_between f0 _ (fadd acc x)); auto. rewrite fadd_comm.
      apply fadd_ge_l; auto using nneg_nn. apply nneg_nn. now rewrite fadd_comm. }
    assert (Fc : fin acc).
    { apply (fin_between f0 _ (fadd acc x)); auto. apply fadd_ge_l; auto using nneg_nn. }
    destruct (add_err acc x Fc Fx) as (e & E & Eq).
    assert (V : B2R (fadd acc x) = rnd (B2R acc + B2R x)) by (now apply B2R_fadd).
    destruct (IH (fadd acc x) H Na F) as (A & B). rewrite V, Eq in A, B.
    pose proof (nneg_B2R _ N). pose proof (nneg_B2R _ Hx). pose proof (Rsum_nonneg l H).
    apply Rabs_le_inv in E.
    assert (P : 0 <= (1 - u) ^ length l) by (apply pow_le; rewrite U; lra).
    assert (Q : 0 <= (1 + u) ^ length l) by (apply pow_le; rewrite U; lra).
    split.
    + eapply Rle_trans; [|exact A].
      replace ((B2R acc + (B2R x + Rsum l)) * ((1 - u) * (1 - u) ^ length l))
        with (((B2R acc + B2R x) * (1 - u) + Rsum l * (1 - u)) * (1 - u) ^ length l) by ring.
      apply Rmult_le_compat_r; auto.
      assert ((B2R acc + B2R x) * (1 - u) <= (B2R acc + B2R x) * (1 + e)) by (apply Rmult_le_compat_l; lra).
      assert (Rsum l * (1 - u) <= Rsum l * 1) by (apply Rmult_le_compat_l; rewrite ?U; lra). lra.
    + eapply Rle_trans; [exact B|].
      replace ((B2R acc + (B2R x + Rsum l)) * ((1 + u) * (1 + u) ^ length l))
        with (((B2R acc + B2R x) * (1 + u) + Rsum l * (1 + u)) * (1 + u) ^ length l) by ring.
      apply Rmult_le_compat_r; auto.
      assert ((B2R acc + B2R x) * (1 + e) <= (B2R acc + B2R x) * (1 + u)) by (apply Rmult_le_compat_l; lra).
      assert (Rsum l * 1 <= Rsum l * (1 + u)) by (apply Rmult_le_compat_l; rewrite ?U; lra). lra.
Qed.
Lemma fsum_bounds : forall l, Forall (fun x => nneg x) l -> fin (fsum l) ->
  Rsum l * (1 - u) ^ length l <= B2R (fsum l) <= Rsum l * (1 + u) ^ length l.
Proof.
  intros l H F. pose proof (fold_bounds l f0 H eq_refl F) as B. simpl (B2R f0) in B. now rewrite !Rplus_0_l in B.
Qed.

Lemma rnd_bounds : forall x, 0 <= x -> x * (1 - u) - eta <= rnd x <= x * (1 + u) + eta.
Proof.
  intros x Hx. destruct (rnd_err x) as (e & n & E & N & _ & ->). fold u in E. fold eta in N.
  apply Rabs_le_inv in E, N.
  assert (x * (- u) <= x * e) by (apply Rmult_le_compat_l; lra).
  assert (x * e <= x * u) by (apply Rmult_le_compat_l; lra). lra.
Qed.
