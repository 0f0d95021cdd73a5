From Coq Require Import Sorted.
From Flocq Require Import IEEE754.BinarySingleNaN.
From Verif Require Import Rust F32 F32Facts ListFacts Sorting.

Lemma asc_leb_iff : forall x y, nn x -> nn y -> (asc_leb x y = true <-> fle x y = true).
Proof.
  intros x y Nx Ny. unfold asc_leb. rewrite flt_negb_fle by auto. rewrite negb_involutive. tauto.
Qed.

Lemma sort_asc_perm : forall l, Permutation l (sort_asc l).
Proof. intros; apply sort_by_perm. Qed.
Lemma sort_asc_length : forall l, length (sort_asc l) = length l.
Proof. intros; apply sort_by_length. Qed.
Lemma sort_asc_sorted : forall l, Forall (fun x => nn x) l ->
  StronglySorted (fun a b => fle a b = true) (sort_asc l).
Proof.
  intros l H. apply StronglySorted_weaken with (R := fun a b => asc_leb a b = true).
  - intros x y Hx Hy. rewrite Forall_forall in H.
    assert (nn x) by (apply H; eapply sort_by_in; eauto).
    assert (nn y) by (apply H; eapply sort_by_in; eauto).
    now apply asc_leb_iff.
  - apply sort_by_sorted with (P := fun x => nn x); auto.
    + intros x y Nx Ny. rewrite !asc_leb_iff by auto. now apply fle_total.
    + intros x y z Nx Ny Nz. rewrite !asc_leb_iff by auto. apply fle_trans.
Qed.

Section Desc.
  Context {A : Type} (key : A -> f32).
  Lemma desc_leb_iff : forall a b, nn (key a) -> nn (key b) ->
    (desc_leb key a b = true <-> fle (key b) (key a) = true).
  Proof.
    intros a b Na Nb. unfold desc_leb. rewrite flt_negb_fle by auto. rewrite negb_involutive. tauto.
  Qed.
  Lemma sort_desc_perm : forall l, Permutation l (sort_desc key l).
  Proof. intros; apply sort_by_perm. Qed.
  Lemma sort_desc_in : forall l x, In x (sort_desc key l) <-> In x l.
  Proof. intros; apply sort_by_in. Qed.
  Lemma sort_desc_length : forall l, length (sort_desc key l) = length l.
  Proof. intros; apply sort_by_length. Qed.
  Lemma sort_desc_sorted : forall l, Forall (fun a => nn (key a)) l ->
    StronglySorted (fun a b => fle (key b) (key a) = true) (sort_desc key l).
  Proof.
    intros l H. apply StronglySorted_weaken with (R := fun a b => desc_leb key a b = true).
    - intros x y Hx Hy. rewrite Forall_forall in H.
      assert (nn (key x)) by (apply H; now apply sort_desc_in).
      assert (nn (key y)) by (apply H; now apply sort_desc_in).
      now apply desc_leb_iff.
    - apply sort_by_sorted with (P := fun x => nn (key x)); auto.
      + intros x y Nx Ny. rewrite !desc_leb_iff by auto. now apply fle_total.
      + intros x y z Nx Ny Nz. rewrite !desc_leb_iff by auto. intros; eapply fle_trans; eauto.
  Qed.
End Desc.

(** Strict comparisons already exclude NaN on both sides. *)
Lemma flt_nn_r : forall x y, flt x y = true -> nn y.
Proof. intros x y H. now apply flt_nn in H. Qed.
Lemma flt_nn_l : forall x y, flt x y = true -> nn x.
Proof. intros x y H. now apply flt_nn in H. Qed.
