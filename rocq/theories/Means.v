(** Means of values in [0,1]. *)
From Coq Require Import ZArith Reals Lra Lia.
From Flocq Require Import Core.
From Verif Require Import Rust F32 F32Facts F32More ListFacts Bounds.

Definition cap (z : Z) : Z := Z.min z 16777216.

Lemma cap_step : forall z, (0 <= z)%Z -> fle (fadd (z2f (cap z)) f1) (z2f (cap (z + 1))) = true.
Proof.
  intros z Z0. unfold cap. destruct (Z.leb_spec 16777216 z).
  - rewrite !Z.min_r by lia. vm_compute. reflexivity.
  - rewrite !Z.min_l by lia.
    destruct (z2f_exact z ltac:(lia)) as (F & E). destruct (z2f_exact (z + 1) ltac:(lia)) as (F' & E').
    destruct (fadd_fx (z2f z) f1 F fin_f1) as (N & V).
    apply (proj2 (fle_iff _ _ N (fin_nn _ F'))). rewrite V, E, B2R_f1, <- plus_IZR, rnd_Z by lia.
    rewrite (fx_fin _ F'), E'. unfold sat. pose proof big_val as BV.
    assert (IZR (z + 1) < big)%R by (rewrite BV; apply IZR_lt; lia).
    assert (0 <= IZR (z + 1))%R by (apply IZR_le; lia).
    rewrite Rmin_right, Rmax_right by lra. lra.
Qed.

Lemma sum_cap : forall l acc z, (0 <= z)%Z -> Forall in01 l -> nneg acc -> fle acc (z2f (cap z)) = true ->
  nneg (fold_left fadd l acc) /\ fle (fold_left fadd l acc) (z2f (cap (z + Z.of_nat (length l)))) = true.
Proof.
  intros l. induction l as [|x l IH]; intros acc z Z0 H N L; cbn [fold_left length].
  - rewrite Z.add_0_r. now split.
  - pose proof (Forall_inv H) as (X0 & X1). apply Forall_inv_tail in H.
    replace (z + Z.of_nat (S (length l)))%Z with ((z + 1) + Z.of_nat (length l))%Z by lia.
    assert (N' : nneg (fadd acc x)) by now apply fadd_nneg.
    apply IH; auto; [lia|].
    refine (fle_trans _ _ _ _ (cap_step z Z0)). apply fadd_mono; auto; [now apply nneg_nn|].
    pose proof (cap_step z Z0) as C. now apply fle_nn in C.
Qed.

(** The float mean of values in [0,1] is in [0,1], however many there are. *)
Lemma mean_in01 : forall l, l <> [] -> (Z.of_nat (length l) <= 2 ^ 64)%Z -> Forall in01 l ->
  in01 (fdiv (fold_left fadd l f0) (z2f (Z.of_nat (length l)))).
Proof.
  intros l Nl Ll H. destruct (sum_cap l f0 0 ltac:(lia) H eq_refl eq_refl) as (N & U). rewrite Z.add_0_l in U.
  assert (L1 : (1 <= Z.of_nat (length l))%Z) by (destruct l; [congruence|cbn [length]; lia]).
  assert (P : pos (z2f (Z.of_nat (length l)))).
  { refine (flt_fle_trans f0 (z2f 1) _ _ _); [reflexivity|]. now apply z2f_mono. }
  assert (U2 : fle (fold_left fadd l f0) (z2f (Z.of_nat (length l))) = true).
  { refine (fle_trans _ _ _ U _). apply z2f_mono. unfold cap. lia. }
  apply fdiv_le_1; auto. apply z2f_fin. lia.
Qed.
