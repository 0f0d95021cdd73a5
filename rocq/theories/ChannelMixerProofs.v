(** Proofs about ChannelMixer.v. *)
From Flocq Require Import IEEE754.BinarySingleNaN.
From Verif Require Import Rust F32 F32Facts ListFacts ChannelMixer.

Lemma zip_map_length : forall A B C (f : A -> B -> C) l r, length l = length r ->
  length (zip_map f l r) = length l.
Proof. induction l; destruct r; simpl; intros; try discriminate; auto. Qed.

Lemma zip_map_nth : forall A B C (f : A -> B -> C) l r i a b,
  nth_error l i = Some a -> nth_error r i = Some b ->
  nth_error (zip_map f l r) i = Some (f a b).
Proof.
  induction l; destruct r; destruct i; simpl; intros; try discriminate; try congruence; auto.
Qed.

Lemma stereo_mismatch : forall l r m,
  stereo_to_mono l r m = Err InvalidInput <-> length l <> length r.
Proof.
  intros. unfold stereo_to_mono. destruct (Nat.eqb_spec (length l) (length r)) as [E|E]; simpl.
  - destruct l; split; intros; congruence.
  - split; auto.
Qed.

Lemma stereo_ok : forall l r m, length l = length r ->
  stereo_to_mono l r m = Ok (zip_map (mix_sample m) l r).
Proof.
  intros l r m H. unfold stereo_to_mono. rewrite H, Nat.eqb_refl. simpl. now destruct l.
Qed.

Lemma stereo_total : forall l r m, length l = length r ->
  exists out, stereo_to_mono l r m = Ok out /\ length out = length l.
Proof.
  intros. eexists. split. now apply stereo_ok. now apply zip_map_length.
Qed.

Lemma stereo_nth : forall l r m out i a b, stereo_to_mono l r m = Ok out ->
  nth_error l i = Some a -> nth_error r i = Some b ->
  nth_error out i = Some (mix_sample m a b).
Proof.
  intros l r m out i a b H Ha Hb.
  assert (E : length l = length r).
  { destruct (Nat.eq_dec (length l) (length r)); auto. apply (stereo_mismatch l r m) in n. congruence. }
  rewrite stereo_ok in H by auto. inversion H. now apply zip_map_nth.
Qed.

Lemma mix_avg : forall m a b, m <> Dominant -> mix_sample m a b = fmul (fadd a b) fhalf.
Proof. intros [] a b H; try reflexivity. now elim H. Qed.

Lemma mix_dominant : forall a b,
  mix_sample Dominant a b = a \/ mix_sample Dominant a b = b.
Proof. intros. simpl. destruct (fge _ _); auto. Qed.

Lemma mix_dominant_loud : forall a b, fisnan a = false -> fisnan b = false ->
  let o := mix_sample Dominant a b in
  fle (fabs a) (fabs o) = true /\ fle (fabs b) (fabs o) = true /\
  (fle (fabs b) (fabs a) = true -> o = a).
Proof.
  intros a b Na Nb o. unfold fisnan in *. subst o. simpl. unfold fge. fold (fle (fabs b) (fabs a)).
  destruct (fle (fabs b) (fabs a)) eqn:E.
  - repeat split; auto. apply fle_refl. now rewrite fabs_nn.
  - repeat split; auto; try discriminate.
    + apply flt_fle. apply fle_false_flt; auto; now rewrite fabs_nn.
    + apply fle_refl. now rewrite fabs_nn.
Qed.

Lemma mix_between : forall m a b lo hi,
  fisfin a = true -> fisfin b = true -> fisfin lo = true -> fisfin hi = true ->
  fisfin (fadd a b) = true ->
  fle lo a = true -> fle lo b = true -> fle a hi = true -> fle b hi = true ->
  fle lo (mix_sample m a b) = true /\ fle (mix_sample m a b) hi = true.
Proof.
  intros m a b lo hi Fa Fb Fl Fh Fs H1 H2 H3 H4. unfold fisfin in *.
  destruct m; try (now apply midpoint_between).
  destruct (mix_dominant a b) as [-> | ->]; auto.
Qed.

Definition fm1 : f32 := lit (-1) 0.

Lemma unit_sum_fin : forall a b, fle fm1 a = true -> fle a f1 = true ->
  fle fm1 b = true -> fle b f1 = true ->
  fisfin a = true /\ fisfin b = true /\ fisfin (fadd a b) = true.
Proof.
  intros a b H1 H2 H3 H4. unfold fisfin.
  assert (Fa : fin a) by (apply fin_between with fm1 f1; auto).
  assert (Fb : fin b) by (apply fin_between with fm1 f1; auto).
  repeat split; auto.
  apply fin_between with (fadd fm1 fm1) (fadd f1 f1); try reflexivity;
    apply fadd_mono; auto; apply fadd_nn_fin_l; auto using fin_nn.
Qed.

Lemma mix_unit : forall m a b,
  fle fm1 a = true -> fle a f1 = true -> fle fm1 b = true -> fle b f1 = true ->
  fle fm1 (mix_sample m a b) = true /\ fle (mix_sample m a b) f1 = true.
Proof.
  intros m a b H1 H2 H3 H4. destruct (unit_sum_fin a b) as (A & B & C); auto.
  now apply mix_between.
Qed.

Lemma zip_map_sym : forall A C (f : A -> A -> C), (forall a b, f a b = f b a) ->
  forall l r, zip_map f l r = zip_map f r l.
Proof.
  intros A C f H. induction l; destruct r; simpl; auto. now rewrite H, IHl.
Qed.

Lemma stereo_sym : forall l r m, m <> Dominant -> stereo_to_mono l r m = stereo_to_mono r l m.
Proof.
  intros l r m Hm. unfold stereo_to_mono. rewrite Nat.eqb_sym.
  destruct (Nat.eqb_spec (length r) (length l)) as [E|E]; simpl; auto.
  rewrite (zip_map_sym _ _ (mix_sample m)) by (intros; rewrite !mix_avg by auto; now rewrite fadd_comm).
  destruct l, r; simpl in *; auto; discriminate.
Qed.
