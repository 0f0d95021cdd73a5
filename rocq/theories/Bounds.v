(** Signed magnitude bounds on f32 computations. *)
From Coq Require Import ZArith Reals Lra Lia.
From Flocq Require Import Core.
From Verif Require Import Rust F32 F32Facts F32More ListFacts NoveltyProofs.

(** A finite value of magnitude at most 2^k. *)
Definition within (k : Z) (x : f32) : Prop := fin x /\ (Rabs (B2R x) <= bpow radix2 k)%R.

Lemma within_fin : forall k x, within k x -> fin x. Proof. now intros k x (F & _). Qed.
Lemma within_nn : forall k x, within k x -> nn x. Proof. intros k x (F & _). now apply fin_nn. Qed.
Lemma within_mono : forall j k x, (j <= k)%Z -> within j x -> within k x.
Proof. intros j k x H (F & U). split; auto. pose proof (bpow_le radix2 _ _ H). lra. Qed.
Lemma within_0 : forall k, within k f0.
Proof. intros k. split; [reflexivity|]. cbn [B2R f0]. rewrite Rabs_R0. apply bpow_ge_0. Qed.
Lemma upto_within : forall k x, upto k x -> within k x.
Proof. intros k x (F & L & U). split; auto. rewrite Rabs_right; lra. Qed.
Lemma within_upto : forall k x, within k x -> nneg x -> upto k x.
Proof.
  intros k x (F & U) N. split; auto. apply nneg_fx in N. rewrite fx_fin in N by auto.
  rewrite Rabs_right in U by lra. lra.
Qed.

Lemma within_of : forall k x r, (k < 128)%Z -> nn x -> fx x = sat r -> (Rabs r <= bpow radix2 k)%R -> within k x.
Proof.
  intros k x r K N E U. pose proof (bpow_lt radix2 _ _ K) as B. fold big in B.
  apply Rabs_le_inv in U. rewrite sat_id in E by lra.
  assert (F : fin x) by (apply fin_iff; auto; lra). split; auto.
  rewrite fx_fin in E by auto. rewrite E. apply Rabs_le. lra.
Qed.

Lemma rnd_within : forall k r, (-149 <= k)%Z -> (Rabs r <= bpow radix2 k)%R -> (Rabs (rnd r) <= bpow radix2 k)%R.
Proof.
  intros k r K H. apply Rabs_le_inv in H. apply Rabs_le. rewrite <- (rnd_bpow k K) at 1 2.
  rewrite <- rnd_opp. split; apply rnd_mono; lra.
Qed.

Lemma within_neg : forall k x, within k x -> within k (fneg x).
Proof.
  intros k x (F & U).
  assert (F' : fin (fneg x)) by (destruct x; auto; discriminate F).
  split; auto. rewrite <- fx_fin by auto. rewrite fneg_fx, fx_fin by auto. now rewrite Rabs_Ropp.
Qed.
Lemma within_add : forall k x y, (-150 <= k < 127)%Z -> within k x -> within k y -> within (k + 1) (fadd x y).
Proof.
  intros k x y K (Fx & X) (Fy & Y). destruct (fadd_fx x y Fx Fy) as (N & E).
  apply (within_of (k + 1) _ _ ltac:(lia) N E). apply rnd_within; [lia|].
  eapply Rle_trans; [apply Rabs_triang|]. rewrite bpow_plus. simpl (bpow radix2 1). lra.
Qed.
Lemma within_sub : forall k x y, (-150 <= k < 127)%Z -> within k x -> within k y -> within (k + 1) (fsub x y).
Proof. intros k x y K X Y. rewrite fsub_eq. apply within_add; auto. now apply within_neg. Qed.
Lemma within_mul : forall j k x y, (-149 <= j + k < 128)%Z -> within j x -> within k y -> within (j + k) (fmul x y).
Proof.
  intros j k x y K (Fx & X) (Fy & Y). destruct (fmul_fx x y Fx Fy) as (N & E).
  apply (within_of (j + k) _ _ ltac:(lia) N E). apply rnd_within; [lia|].
  rewrite Rabs_mult, bpow_plus. apply Rmult_le_compat; auto using Rabs_pos.
Qed.
(** Division by a finite value of magnitude at least 2^j. *)
Lemma within_div : forall j k x y, (-149 <= k - j < 128)%Z -> within k x -> fin y ->
  (bpow radix2 j <= Rabs (B2R y))%R -> within (k - j) (fdiv x y).
Proof.
  intros j k x y K (Fx & X) Fy Y. pose proof (bpow_gt_0 radix2 j) as P.
  assert (Ny : B2R y <> 0%R) by (intros Z; rewrite Z, Rabs_R0 in Y; lra).
  destruct (fdiv_fx x y Fx Fy Ny) as (N & E).
  apply (within_of (k - j) _ _ ltac:(lia) N E). apply rnd_within; [lia|].
  unfold Rdiv. rewrite Rabs_mult, Rabs_inv.
  unfold Z.sub. rewrite bpow_plus, bpow_opp.
  apply Rmult_le_compat; auto using Rabs_pos.
  - left. apply Rinv_0_lt_compat. lra.
  - apply Rinv_le; lra.
Qed.

Lemma rnd_stagnate_abs : forall k r, (-149 <= k)%Z ->
  (Rabs r <= bpow radix2 (k + 25) + bpow radix2 k)%R -> (Rabs (rnd r) <= bpow radix2 (k + 25))%R.
Proof.
  intros k r K H. apply Rabs_le_inv in H. apply Rabs_le. split.
  - assert (rnd (- r) <= bpow radix2 (k + 25))%R by (apply rnd_stagnate; auto; lra).
    rewrite rnd_opp in H0. lra.
  - apply rnd_stagnate; auto; lra.
Qed.
Lemma within_fold : forall k l acc, (-149 <= k <= 102)%Z -> Forall (within k) l -> within (k + 25) acc ->
  within (k + 25) (fold_left fadd l acc).
Proof.
  intros k l. induction l as [|x l IH]; intros acc K H A; auto. cbn [fold_left]. apply IH; auto.
  - now apply Forall_inv_tail in H.
  - apply Forall_inv in H. destruct A as (Fa & A), H as (Fx & X). destruct (fadd_fx acc x Fa Fx) as (N & E).
    apply (within_of (k + 25) _ _ ltac:(lia) N E). apply rnd_stagnate_abs; [lia|].
    eapply Rle_trans; [apply Rabs_triang|]. lra.
Qed.
Lemma within_sum : forall k l, (-149 <= k <= 102)%Z -> Forall (within k) l -> within (k + 25) (fsum l).
Proof. intros k l K H. apply within_fold; auto. apply within_0. Qed.
Lemma within_step : forall k acc x, (-149 <= k <= 102)%Z -> within k x -> within (k + 25) acc ->
  within (k + 25) (fadd acc x).
Proof. intros k acc x K X A. apply (within_fold k [x] acc); auto. Qed.

Lemma within_le : forall k a b x, fle a x = true -> fle x b = true -> within k a -> within k b -> within k x.
Proof.
  intros k a b x L U (Fa & A) (Fb & B). assert (F : fin x) by (eapply (fin_between a x b); eauto).
  split; auto. apply fle_fx in L, U. rewrite !fx_fin in * by auto.
  apply Rabs_le_inv in A, B. apply Rabs_le. lra.
Qed.
