(** Facts about the list utilities of Rust.v: sorting, lookup, slices. *)
From Coq Require Import List Arith Lia Bool Permutation Sorted.
From Verif Require Import Rust.
Import ListNotations.

Section SortFacts.
  Context {A : Type} (leb : A -> A -> bool).

  Lemma insert_by_perm : forall x l, Permutation (x :: l) (insert_by leb x l).
  Proof.
    intros x l; induction l as [|y r IH]; simpl; auto.
    destruct (leb x y); auto.
    eapply perm_trans; [apply perm_swap|]. now constructor.
  Qed.
  Lemma sort_by_perm : forall l, Permutation l (sort_by leb l).
  Proof.
    induction l as [|x r IH]; simpl; auto.
    eapply perm_trans; [|apply insert_by_perm]. now constructor.
  Qed.
  Lemma sort_by_length : forall l, length (sort_by leb l) = length l.
  Proof. intros l. symmetry. apply Permutation_length, sort_by_perm. Qed.
  Lemma sort_by_in : forall l x, In x (sort_by leb l) <-> In x l.
  Proof.
    intros l x; split; intros H.
    - eapply Permutation_in; [apply Permutation_sym, sort_by_perm|auto].
    - eapply Permutation_in; [apply sort_by_perm|auto].
  Qed.
  Lemma sort_by_Forall : forall P l, Forall P l -> Forall P (sort_by leb l).
  Proof. intros P l H. eapply Permutation_Forall; [apply sort_by_perm|auto]. Qed.

  (** Sorted output for a comparator that is total and transitive on [P]. *)
  Variable P : A -> Prop.
  Hypothesis total : forall x y, P x -> P y -> leb x y = true \/ leb y x = true.
  Hypothesis trans : forall x y z, P x -> P y -> P z ->
    leb x y = true -> leb y z = true -> leb x z = true.

  Lemma insert_by_sorted : forall x l, P x -> Forall P l ->
    StronglySorted (fun a b => leb a b = true) l ->
    StronglySorted (fun a b => leb a b = true) (insert_by leb x l).
  Proof.
    intros x l Px; induction l as [|y r IH]; simpl; intros Pl S.
    - repeat constructor.
    - inversion Pl as [|? ? Py Pr]; subst. inversion S as [|? ? Sr Hy]; subst.
      destruct (leb x y) eqn:E.
      + constructor; auto. constructor; auto.
        rewrite Forall_forall in *. intros z Hz. eapply (trans x y z); auto.
      + assert (L : leb y x = true) by (destruct (total x y Px Py); congruence).
        constructor; auto.
        apply Permutation_Forall with (x :: r). apply insert_by_perm. constructor; auto.
  Qed.
  Lemma sort_by_sorted : forall l, Forall P l ->
    StronglySorted (fun a b => leb a b = true) (sort_by leb l).
  Proof.
    induction l as [|x r IH]; simpl; intros H. constructor.
    inversion H; subst. apply insert_by_sorted; auto. now apply sort_by_Forall.
  Qed.
End SortFacts.

Lemma StronglySorted_nth : forall A (R : A -> A -> Prop) l, StronglySorted R l ->
  forall i j x y, i < j -> nth_error l i = Some x -> nth_error l j = Some y -> R x y.
Proof.
  induction 1 as [|a l S IH H]; intros i j x y Hij Hx Hy.
  - destruct i; discriminate.
  - destruct j; [lia|]. destruct i; simpl in *.
    + inversion Hx; subst. rewrite Forall_forall in H. apply H. eapply nth_error_In; eauto.
    + apply (IH i j); auto; lia.
Qed.

Lemma nth_error_StronglySorted : forall A (R : A -> A -> Prop) l,
  (forall i j x y, i < j -> nth_error l i = Some x -> nth_error l j = Some y -> R x y) ->
  StronglySorted R l.
Proof.
  induction l as [|a l IH]; intros H; constructor.
  - apply IH. intros i j x y Hij Hx Hy. apply (H (S i) (S j)); auto. lia.
  - rewrite Forall_forall. intros y Hy. apply In_nth_error in Hy. destruct Hy as [j Hj].
    apply (H 0 (S j)); auto. lia.
Qed.

Lemma StronglySorted_weaken : forall A (R Q : A -> A -> Prop) l,
  (forall x y, In x l -> In y l -> R x y -> Q x y) -> StronglySorted R l -> StronglySorted Q l.
Proof.
  intros A R Q l H S. induction S as [|a l S IH F]; constructor.
  - apply IH. intros; apply H; simpl; auto.
  - rewrite Forall_forall in *. intros; apply H; simpl; auto.
Qed.

Lemma StronglySorted_filter : forall A (R : A -> A -> Prop) f l,
  StronglySorted R l -> StronglySorted R (filter f l).
Proof.
  induction 1 as [|a l S IH F]; simpl; [constructor|].
  destruct (f a); auto. constructor; auto.
  rewrite Forall_forall in *. intros x Hx. apply filter_In in Hx. apply F. tauto.
Qed.

Lemma StronglySorted_app : forall A (R : A -> A -> Prop) l1 l2,
  StronglySorted R l1 -> StronglySorted R l2 ->
  (forall x y, In x l1 -> In y l2 -> R x y) -> StronglySorted R (l1 ++ l2).
Proof.
  induction 1 as [|a l S IH F]; simpl; auto. intros S2 H. constructor.
  - apply IH; auto.
  - rewrite Forall_forall in *. intros x Hx. apply in_app_or in Hx.
    destruct Hx; auto.
Qed.

Lemma StronglySorted_app_inv : forall A (R : A -> A -> Prop) l1 l2,
  StronglySorted R (l1 ++ l2) ->
  StronglySorted R l1 /\ StronglySorted R l2 /\ (forall x y, In x l1 -> In y l2 -> R x y).
Proof.
  induction l1 as [|a l1 IH]; simpl; intros l2 H.
  - split; [constructor|split]; auto. intros x y [].
  - inversion H as [|? ? S F]; subst. destruct (IH _ S) as (S1 & S2 & C).
    rewrite Forall_forall in F. split; [|split]; auto.
    + constructor; auto. rewrite Forall_forall. intros; apply F, in_or_app; auto.
    + intros x y [->|Hx] Hy; auto. apply F, in_or_app; auto.
Qed.

Lemma StronglySorted_firstn : forall A (R : A -> A -> Prop) n l,
  StronglySorted R l -> StronglySorted R (firstn n l).
Proof.
  intros A R n l H. rewrite <- (firstn_skipn n l) in H.
  now apply StronglySorted_app_inv in H.
Qed.

Lemma StronglySorted_map : forall A B (R : A -> A -> Prop) (Q : B -> B -> Prop) (f : A -> B) l,
  (forall x y, R x y -> Q (f x) (f y)) -> StronglySorted R l -> StronglySorted Q (map f l).
Proof.
  intros A B R Q f l H S. induction S as [|a l S IH F]; simpl; constructor; auto.
  rewrite Forall_forall in *. intros y Hy. apply in_map_iff in Hy. destruct Hy as (x & <- & Hx). auto.
Qed.

Lemma get_Ok : forall A (l : list A) i a, get l i = Ok a <-> nth_error l i = Some a.
Proof. intros. unfold get. destruct (nth_error l i); split; congruence. Qed.
Lemma get_panic : forall A (l : list A) i, get l i = Panic <-> length l <= i.
Proof.
  intros. unfold get. destruct (nth_error l i) eqn:E; split; try congruence; intros H; auto.
  - assert (nth_error l i <> None) by congruence. apply nth_error_Some in H0. lia.
  - now apply nth_error_None.
Qed.
Lemma get_lt : forall A (l : list A) i, i < length l -> exists a, get l i = Ok a.
Proof.
  intros A l i H. unfold get. destruct (nth_error l i) eqn:E; eauto.
  apply nth_error_None in E. lia.
Qed.

Lemma nth_error_firstn : forall A n (l : list A) i,
  nth_error (firstn n l) i = if i <? n then nth_error l i else None.
Proof.
  induction n as [|n IH]; intros l i; simpl.
  - destruct i; reflexivity.
  - destruct l as [|a l]; destruct i as [|i]; simpl; auto.
    + destruct (S i <? S n); reflexivity.
    + rewrite IH. reflexivity.
Qed.
Lemma nth_error_skipn : forall A n (l : list A) i,
  nth_error (skipn n l) i = nth_error l (n + i).
Proof.
  induction n as [|n IH]; intros l i; simpl; auto.
  destruct l as [|a l]; auto. destruct i; reflexivity.
Qed.
Lemma nth_error_slice : forall A (l : list A) a b i, i < b - a ->
  nth_error (slice l a b) i = nth_error l (a + i).
Proof.
  intros. unfold slice. rewrite nth_error_firstn.
  destruct (Nat.ltb_spec i (b - a)); [|lia]. apply nth_error_skipn.
Qed.
Lemma slice_length : forall A (l : list A) a b, b <= length l ->
  length (slice l a b) = b - a.
Proof. intros. unfold slice. rewrite firstn_length, skipn_length. lia. Qed.
Lemma slice_split : forall A (l : list A) a b, a <= b -> b <= length l ->
  l = firstn a l ++ slice l a b ++ skipn b l.
Proof.
  intros A l a b H1 H2. unfold slice.
  rewrite <- (firstn_skipn a l) at 1. f_equal.
  rewrite <- (firstn_skipn (b - a) (skipn a l)) at 1. f_equal.
  replace b with (a + (b - a)) at 2 by lia.
  clear H1 H2. revert l. generalize (b - a) as k. induction a; intros k l; simpl; auto.
  destruct l; auto. now rewrite skipn_nil.
Qed.

Lemma oseq_Ok : forall A (l : list (outcome A)) r, oseq l = Ok r <-> l = map Ok r.
Proof.
  induction l as [|x l IH]; intros r; simpl.
  - split; intros H. inversion H; auto. destruct r; auto; discriminate.
  - destruct x; simpl; try (split; [discriminate|]; destruct r; discriminate).
    destruct (oseq l) eqn:E; simpl.
    + split; intros H.
      * inversion H; subst. simpl. f_equal. now apply IH.
      * destruct r as [|b r]; simpl in H; inversion H; subst.
        assert (Ok a0 = Ok r) by now apply IH. congruence.
    + split; intros H; [discriminate|]. destruct r as [|b r]; simpl in H; inversion H; subst.
      assert (@Err (list A) e = Ok r) by now apply IH. discriminate.
    + split; intros H; [discriminate|]. destruct r as [|b r]; simpl in H; inversion H; subst.
      assert (@Panic (list A) = Ok r) by now apply IH. discriminate.
Qed.

Lemma Forall_nth_error : forall A (P : A -> Prop) l,
  Forall P l <-> (forall i x, nth_error l i = Some x -> P x).
Proof.
  intros A P l. rewrite Forall_forall. split; intros H.
  - intros i x Hx. apply H. eapply nth_error_In; eauto.
  - intros x Hx. apply In_nth_error in Hx. destruct Hx as [i Hi]. eauto.
Qed.

Lemma oseq_map_total : forall A B (f : A -> outcome B) l,
  (forall a, In a l -> exists b, f a = Ok b) -> exists r, oseq (map f l) = Ok r.
Proof.
  induction l as [|a l IH]; intros H; cbn [map oseq]. eauto.
  destruct (H a ltac:(simpl; auto)) as [b ->].
  destruct IH as [r ->]. intros; apply H; simpl; auto. simpl. eauto.
Qed.

Lemma Forall2_of_oseq : forall A B C (f : A -> outcome B) (R : B -> C -> Prop) (g : A -> C) l r,
  (forall a b, In a l -> f a = Ok b -> R b (g a)) -> oseq (map f l) = Ok r ->
  Forall2 R r (map g l).
Proof.
  intros A B C f R g l r H E. apply oseq_Ok in E. revert r E.
  induction l as [|a l IH]; intros [|b r] E; simpl in *; try discriminate; constructor.
  - inversion E. apply H; auto.
  - inversion E. apply IH; auto.
Qed.

Lemma oseq_in : forall A B (f : A -> outcome B) l r b, oseq (map f l) = Ok r -> In b r ->
  exists a, In a l /\ f a = Ok b.
Proof.
  intros A B f l r b H Hb. apply oseq_Ok in H.
  assert (I : In (Ok b) (map f l)) by (rewrite H; now apply in_map).
  apply in_map_iff in I. destruct I as (a & E & Ha). eauto.
Qed.

Lemma Forall2_len : forall A B (R : A -> B -> Prop) l m, Forall2 R l m -> length l = length m.
Proof. induction 1; simpl; auto. Qed.

Lemma list_eq_dec_nil : forall A (l : list A), {l = []} + {l <> []}.
Proof. intros A [|a l]; [left|right]; congruence. Qed.

Lemma nth_error_combine_iff : forall A B (l : list A) (m : list B) i a b,
  nth_error (combine l m) i = Some (a, b) <-> nth_error l i = Some a /\ nth_error m i = Some b.
Proof.
  intros A B. induction l as [|x l IH]; intros [|y m] i a b; destruct i as [|i]; cbn [combine nth_error];
    try (split; [discriminate|intros []; congruence]).
  - split; [intros [= <- <-]; auto|intros [[= <-] [= <-]]; auto].
  - apply IH.
Qed.
Lemma nth_error_seq_iff : forall n s i x, nth_error (seq s n) i = Some x <-> i < n /\ x = s + i.
Proof.
  induction n as [|n IH]; intros s i x; destruct i as [|i]; cbn [seq nth_error].
  - split; [discriminate|lia].
  - split; [discriminate|lia].
  - split; [intros [= <-]; lia|intros (_ & ->); f_equal; lia].
  - rewrite IH. split; intros (? & ->); split; lia.
Qed.
