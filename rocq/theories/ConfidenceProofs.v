(** Proofs about Confidence.v. *)
From Coq Require Import String.
From Flocq Require Import IEEE754.BinarySingleNaN.
From Verif Require Import Rust F32 F32Facts Confidence.

Lemma bpm_conf_in01 : forall r, fisnan (ar_bpm_confidence r) = false ->
  in01 (compute_bpm_confidence r).
Proof.
  intros r N. unfold compute_bpm_confidence. destruct (fle (ar_bpm r) f0). apply in01_0.
  pose proof (in01_clamp _ N) as C. destruct (existsb _ _); auto.
  apply in01_mul; auto. now split.
Qed.

Lemma key_conf_in01 : forall r, fisnan (ar_key_confidence r) = false ->
  in01 (compute_key_confidence r).
Proof.
  intros r N. unfold compute_key_confidence. destruct (fle (ar_key_confidence r) f0). apply in01_0.
  pose proof (in01_clamp _ N) as C.
  apply in01_mul; [apply in01_mul; auto|].
  - destruct (flt _ k02); [now split|]. destruct (flt _ fhalf); now split.
  - destruct (existsb _ _); now split.
Qed.

Lemma wsum_nn : forall a b c, in01 a -> in01 b -> in01 c ->
  nneg (fadd (fadd (fmul a k04) (fmul b k03)) (fmul c k03)).
Proof.
  intros a b c Ha Hb Hc.
  assert (H : forall x k, in01 x -> in01 k -> nneg (fmul x k)) by (intros; now apply in01_mul).
  repeat apply fadd_nneg; apply H; auto; now split.
Qed.

Lemma overall_in01 : forall r,
  fisnan (ar_bpm_confidence r) = false -> fisnan (ar_key_confidence r) = false ->
  fisnan (ar_grid_stability r) = false -> in01 (ac_overall (compute_confidence r)).
Proof.
  intros r Nb Nk Ng. pose proof (bpm_conf_in01 r Nb) as B. pose proof (key_conf_in01 r Nk) as K.
  pose proof (in01_clamp _ Ng) as G. unfold compute_confidence; simpl.
  destruct (_ && _). apply in01_clamp. now apply nneg_nn, wsum_nn.
  destruct (fgt (compute_bpm_confidence r) f0). apply in01_mul; auto; now split.
  destruct (fgt (compute_key_confidence r) f0). apply in01_mul; auto; now split.
  apply in01_0.
Qed.

(** With all three components the weighted sum needs no clamping from above
    beyond 1, and is monotone in each component. *)
Lemma wsum_mono : forall a b c a' b' c', in01 a -> in01 b -> in01 c ->
  in01 a' -> in01 b' -> in01 c' ->
  fle a a' = true -> fle b b' = true -> fle c c' = true ->
  fle (fadd (fadd (fmul a k04) (fmul b k03)) (fmul c k03))
      (fadd (fadd (fmul a' k04) (fmul b' k03)) (fmul c' k03)) = true.
Proof.
  intros a b c a' b' c' Ha Hb Hc Ha' Hb' Hc' H1 H2 H3.
  assert (M : forall x k, in01 x -> in01 k -> in01 (fmul x k)) by (intros; now apply in01_mul).
  assert (K4 : in01 k04) by now split. assert (K3 : in01 k03) by now split.
  assert (MM : forall x y k, in01 x -> in01 y -> in01 k -> fle x y = true ->
            fle (fmul x k) (fmul y k) = true).
  { intros x y k X Y K L. apply fmul_mono; auto; try apply X; try apply K;
      try (apply nneg_nn; apply M; auto). apply fle_refl, nneg_nn, K. }
  assert (N : forall x y z, in01 x -> in01 y -> in01 z ->
     nneg (fadd (fmul x k04) (fmul y k03)) /\ nneg (fadd (fadd (fmul x k04) (fmul y k03)) (fmul z k03))).
  { intros; split; repeat apply fadd_nneg; apply M; auto. }
  apply fadd_mono; auto; try (apply nneg_nn, N; auto).
  apply fadd_mono; auto; try (apply nneg_nn, (N _ _ f0); auto; now split).
Qed.

Lemma clamp01_mono : forall x y, fle x y = true -> fle (clamp01 x) (clamp01 y) = true.
Proof.
  intros x y H. destruct (fle_nn _ _ H) as [Nx Ny]. unfold clamp01.
  unfold fclamp_val at 1. destruct (flt x f0) eqn:E1.
  - now apply fclamp_val_ge.
  - destruct (flt f1 x) eqn:E2.
    + unfold fclamp_val. assert (flt f1 y = true) by (eapply flt_fle_trans; eauto).
      assert (flt y f0 = false). { apply fle_flt_false. apply fle_trans with f1; auto. now apply flt_fle. }
      rewrite H1, H0. reflexivity.
    + unfold fclamp_val. destruct (flt y f0) eqn:E3.
      * exfalso. assert (flt x f0 = true) by (eapply fle_flt_trans; eauto). congruence.
      * destruct (flt f1 y); auto. apply flt_false_fle; auto.
Qed.

Lemma level_classes : forall c, fisnan (ac_overall c) = false ->
  (is_high c = true /\ is_medium c = false /\ is_low c = false) \/
  (is_high c = false /\ is_medium c = true /\ is_low c = false) \/
  (is_high c = false /\ is_medium c = false /\ is_low c = true).
Proof.
  intros c N. unfold fisnan in N. unfold is_high, is_medium, is_low, fge. set (x := ac_overall c) in *.
  change (Bleb k07 x) with (fle k07 x). change (Bleb fhalf x) with (fle fhalf x).
  assert (L : fle fhalf k07 = true) by reflexivity.
  rewrite !flt_negb_fle by auto.
  destruct (fle k07 x) eqn:E1, (fle fhalf x) eqn:E2; simpl; auto.
  assert (fle fhalf x = true) by (eapply fle_trans; eauto). congruence.
Qed.
