(** Proofs about the key templates: evaluation of the 48 templates as scaled integers. *)
From Coq Require Import ZArith Reals Lra.
From Flocq Require Import Core BinarySingleNaN.
From Verif Require Import Rust F32 F32Facts KeyNotation KeyTemplates.

Definition sf (x : f32) : SpecFloat.spec_float := B2SF x.

(** Value times 2^40; [None] when that is not an integer. *)
Definition scaled (x : f32) : option Z :=
  match B2SF x with
  | SpecFloat.S754_zero _ => Some 0%Z
  | SpecFloat.S754_finite s m e =>
      if (-40 <=? e)%Z then Some ((if s then Zneg m else Zpos m) * 2 ^ (e + 40))%Z else None
  | _ => None
  end.
Lemma scaled_val : forall x z, scaled x = Some z -> B2R x = (IZR z * bpow radix2 (-40))%R.
Proof.
  intros x z H. unfold scaled in H. destruct x as [s|s| |s m e Hb]; cbn [B2SF] in H; try discriminate.
  - assert (z = 0%Z) by congruence. subst. cbn [B2R]. ring.
  - destruct (-40 <=? e)%Z eqn:E; [|discriminate]. apply Z.leb_le in E.
    assert (Z1 : z = ((if s then Zneg m else Zpos m) * 2 ^ (e + 40))%Z) by congruence. subst z.
    cbn [B2R]. unfold F2R; cbn [Fnum Fexp].
    rewrite mult_IZR. change 2%Z with (radix_val radix2) at 1.
    rewrite IZR_Zpower by lia.
    rewrite Rmult_assoc, <- bpow_plus. replace (e + 40 + -40)%Z with e by lia.
    destruct s; reflexivity.
Qed.

Lemma templates_scaled_len : forall s,
  length (t_major (new_templates s)) = 12 /\ length (t_minor (new_templates s)) = 12.
Proof. intros []; split; reflexivity. Qed.

Lemma l2_normalize_len : forall v, length (l2_normalize v) = length v.
Proof. intros v; unfold l2_normalize; destruct (fgt _ _); [apply map_length | reflexivity]. Qed.
Lemma template_len : forall s k, length (template_of (new_templates s) k) = 12.
Proof.
  assert (G : forall base i, length (nth (Z.to_nat (i mod 12))
      (map (fun k => l2_normalize (rotated base k)) (seq 0 12)) []) = 12).
  { intros base i. pose proof (Z.mod_pos_bound i 12 eq_refl).
    assert (L : Z.to_nat (i mod 12) < 12) by lia.
    rewrite nth_indep with (d' := l2_normalize (rotated base 0)) by (rewrite map_length, seq_length; exact L).
    rewrite map_nth with (f := fun k => l2_normalize (rotated base k)).
    rewrite l2_normalize_len. unfold rotated. rewrite map_length, seq_length; reflexivity. }
  intros [] [i|i]; apply G.
Qed.

(** Scaled integers of a whole template. *)
Definition zt (t : list f32) : list (option Z) := map scaled t.
Definition zt0 (t : list f32) (b : nat) : option Z := scaled (nth b t f0).

Definition indices : list nat := seq 0 12.
Lemma in_indices : forall n, n < 12 -> In n indices.
Proof. intros; apply in_seq; lia. Qed.

(** Checks over all sets, modes, tonics and bins, evaluated once. *)
Definition tonic_of (k : key) : Z := match k with Major i => i | Minor i => i end.
Definition mk (maj : bool) (k : nat) : key :=
  if maj then Major (Z.of_nat k) else Minor (Z.of_nat k).
Definition exempt (s : template_set) (maj : bool) (k : nat) : bool :=
  match s with KrumhanslKessler => maj && (k =? 11) | Temperley => false end.
Definition sf_eqb (a b : SpecFloat.spec_float) : bool :=
  match a, b with
  | SpecFloat.S754_finite s m e, SpecFloat.S754_finite s' m' e' =>
      Bool.eqb s s' && Pos.eqb m m' && Z.eqb e e'
  | _, _ => false
  end.
Lemma sf_eqb_eq : forall a b, sf_eqb a b = true -> a = b.
Proof.
  intros [] []; cbn [sf_eqb]; try discriminate. intros H.
  apply andb_prop in H as [H H3]; apply andb_prop in H as [H1 H2].
  apply Bool.eqb_prop in H1; apply Pos.eqb_eq in H2; apply Z.eqb_eq in H3. now subst.
Qed.
Definition rot_check (s : template_set) (maj : bool) : bool :=
  let t := new_templates s in
  let t0 := map sf (template_of t (mk maj 0)) in
  forallb (fun k => let tk := map sf (template_of t (mk maj k)) in
     exempt s maj k ||
     forallb (fun b => sf_eqb (nth ((b + k) mod 12) tk (sf f0)) (nth b t0 (sf f0))) indices) indices.
Definition near_check (s : template_set) (maj : bool) : bool :=
  let t := new_templates s in
  let t0 := zt (template_of t (mk maj 0)) in
  forallb (fun k => let tk := zt (template_of t (mk maj k)) in
     forallb (fun b => match nth ((b + k) mod 12) tk None, nth b t0 None with
                       | Some x, Some y => (Z.abs (x - y) <=? 2 ^ 15)%Z && (2 ^ 36 <=? x)%Z && (x <=? 2 ^ 39 + 2 ^ 38)%Z
                       | _, _ => false end) indices) indices.
Fixpoint zsq (l : list (option Z)) : option Z :=
  match l with
  | [] => Some 0%Z
  | o :: r => match o, zsq r with Some x, Some a => Some (x * x + a)%Z | _, _ => None end
  end.
Definition norm_check (s : template_set) (maj : bool) : bool :=
  let t := new_templates s in
  forallb (fun k => match zsq (zt (template_of t (mk maj k))) with
                    | Some z => (Z.abs (z - 2 ^ 80) <=? 2 ^ 58)%Z
                    | None => false end) indices.

Lemma checks : forall s maj, rot_check s maj = true /\ near_check s maj = true /\ norm_check s maj = true.
Proof. intros [] []; (split; [|split]); vm_cast_no_check (@eq_refl bool true). Qed.

Lemma nth_sf : forall t n, nth n (map sf t) (sf f0) = sf (nth n t f0).
Proof. intros; apply (map_nth sf). Qed.
Lemma nth_zt : forall t n x, nth n (zt t) None = Some x -> scaled (nth n t f0) = Some x.
Proof.
  intros t n x H. destruct (Nat.lt_ge_cases n (length t)).
  - unfold zt in H. rewrite nth_indep with (d' := scaled f0) in H by (rewrite map_length; exact H0).
    rewrite map_nth in H. exact H.
  - rewrite nth_overflow in H by (unfold zt; rewrite map_length; exact H0). discriminate.
Qed.

Lemma rotation_exact : forall s maj k b, k < 12 -> b < 12 -> exempt s maj k = false ->
  nth ((b + k) mod 12) (template_of (new_templates s) (mk maj k)) f0
  = nth b (template_of (new_templates s) (mk maj 0)) f0.
Proof.
  intros s maj k b Hk Hb E. destruct (checks s maj) as [H _]. unfold rot_check in H. cbv zeta in H.
  rewrite forallb_forall in H. specialize (H k (in_indices _ Hk)). cbv beta in H. rewrite E in H.
  cbn [orb] in H. rewrite forallb_forall in H. specialize (H b (in_indices _ Hb)). cbv beta in H.
  apply sf_eqb_eq in H. rewrite !nth_sf in H. apply B2SF_inj. exact H.
Qed.

Lemma rotation_near : forall s maj k b, k < 12 -> b < 12 ->
  let x := nth ((b + k) mod 12) (template_of (new_templates s) (mk maj k)) f0 in
  let y := nth b (template_of (new_templates s) (mk maj 0)) f0 in
  (Rabs (B2R x - B2R y) <= bpow radix2 (-25) /\ / 16 <= B2R x <= 3 / 4)%R.
Proof.
  intros s maj k b Hk Hb. destruct (checks s maj) as [_ [H _]]. unfold near_check in H. cbv zeta in H.
  rewrite forallb_forall in H. specialize (H k (in_indices _ Hk)). cbv beta in H.
  rewrite forallb_forall in H. specialize (H b (in_indices _ Hb)). cbv beta in H.
  destruct (nth ((b + k) mod 12) _ None) as [x|] eqn:X; [|discriminate H].
  destruct (nth b _ None) as [y|] eqn:Y; [|discriminate H].
  apply nth_zt in X, Y. apply scaled_val in X, Y. cbv zeta. rewrite X, Y.
  apply andb_prop in H as [H H3]; apply andb_prop in H as [H1 H2].
  apply Z.leb_le in H1, H2, H3.
  rewrite <- Rmult_minus_distr_r, <- minus_IZR, Rabs_mult, <- abs_IZR.
  rewrite (Rabs_right (bpow radix2 (-40))) by (apply Rle_ge, bpow_ge_0).
  apply IZR_le in H1, H2, H3.
  assert (B : (0 < bpow radix2 (-40))%R) by apply bpow_gt_0.
  split.
  - replace (bpow radix2 (-25)) with (IZR (2 ^ 15) * bpow radix2 (-40))%R
      by (change (IZR (2 ^ 15)) with (bpow radix2 15); rewrite <- bpow_plus; reflexivity).
    apply Rmult_le_compat_r; [lra | exact H1].
  - assert (E : (bpow radix2 (-40) * IZR (2 ^ 40) = 1)%R)
      by (change (IZR (2 ^ 40)) with (bpow radix2 40); rewrite <- bpow_plus; reflexivity).
    change (2 ^ 40)%Z with 1099511627776%Z in E. change (2 ^ 36)%Z with 68719476736%Z in H2.
    change (2 ^ 39 + 2 ^ 38)%Z with 824633720832%Z in H3.
    split.
    + apply Rle_trans with (IZR 68719476736 * bpow radix2 (-40))%R; [lra | apply Rmult_le_compat_r; lra].
    + apply Rle_trans with (IZR 824633720832 * bpow radix2 (-40))%R; [apply Rmult_le_compat_r; lra | lra].
Qed.

Lemma key_mod : forall t i, template_of t (Major i) = template_of t (mk true (Z.to_nat (i mod 12)))
  /\ template_of t (Minor i) = template_of t (mk false (Z.to_nat (i mod 12))).
Proof.
  intros t i. pose proof (Z.mod_pos_bound i 12 eq_refl).
  unfold template_of, mk. rewrite Z2Nat.id by lia. rewrite Z.mod_mod by lia. now split.
Qed.

(** Every template entry is finite and in [1/16, 3/4]. *)
Lemma template_range : forall s k x, In x (template_of (new_templates s) k) ->
  (is_finite x = true /\ / 16 <= B2R x <= 3 / 4)%R.
Proof.
  intros s k x I.
  assert (G : forall maj n, n < 12 -> In x (template_of (new_templates s) (mk maj n)) ->
              (is_finite x = true /\ / 16 <= B2R x <= 3 / 4)%R).
  { intros maj n Hn J. apply (In_nth _ _ f0) in J as [b [Hb Eb]].
    rewrite template_len in Hb.
    assert (Hb' : (b + 12 - n) mod 12 < 12) by (apply Nat.mod_upper_bound; lia).
    pose proof (rotation_near s maj n _ Hn Hb') as R. cbv zeta in R.
    replace (((b + 12 - n) mod 12 + n) mod 12) with b in R.
    - rewrite Eb in R. destruct R as [_ R]. split; [|exact R].
      destruct x; cbn [B2R] in R; try reflexivity; lra.
    - rewrite Nat.add_mod_idemp_l by lia. replace (b + 12 - n + n) with (b + 1 * 12) by lia.
      rewrite Nat.mod_add by lia. symmetry; apply Nat.mod_small; exact Hb. }
  pose proof (Z.mod_pos_bound (tonic_of k) 12 eq_refl).
  destruct k as [i|i]; cbn [tonic_of] in *.
  - rewrite (proj1 (key_mod _ i)) in I. apply G in I; [exact I | lia].
  - rewrite (proj2 (key_mod _ i)) in I. apply G in I; [exact I | lia].
Qed.

Lemma zsq_val : forall t z, zsq (zt t) = Some z ->
  (fold_right (fun x a => B2R x * B2R x + a) 0 t = IZR z * bpow radix2 (-80))%R.
Proof.
  induction t as [|x t IH]; intros z H; cbn [zt map zsq fold_right] in *.
  - assert (z = 0%Z) by congruence. subst; ring.
  - destruct (scaled x) as [a|] eqn:A; [|discriminate]. fold (zt t) in H.
    destruct (zsq (zt t)) as [c|] eqn:C; [|discriminate].
    assert (z = (a * a + c)%Z) by congruence. subst z.
    rewrite (IH c eq_refl), (scaled_val x a A), plus_IZR, mult_IZR.
    replace (-80)%Z with (-40 + -40)%Z by reflexivity. rewrite bpow_plus. ring.
Qed.
Lemma unit_norm : forall s k,
  (Rabs (fold_right (fun x a => B2R x * B2R x + a) 0 (template_of (new_templates s) k) - 1)
   <= bpow radix2 (-22))%R.
Proof.
  intros s k.
  assert (G : forall maj n, n < 12 ->
    (Rabs (fold_right (fun x a => B2R x * B2R x + a) 0 (template_of (new_templates s) (mk maj n)) - 1)
     <= bpow radix2 (-22))%R).
  { intros maj n Hn. destruct (checks s maj) as [_ [_ H]]. unfold norm_check in H. cbv zeta in H.
    rewrite forallb_forall in H. specialize (H n (in_indices _ Hn)). cbv beta in H.
    destruct (zsq _) as [z|] eqn:Z1; [|discriminate H]. apply Z.leb_le, IZR_le in H.
    rewrite (zsq_val _ _ Z1).
    replace 1%R with (IZR (2 ^ 80) * bpow radix2 (-80))%R
      by (change (IZR (2 ^ 80)) with (bpow radix2 80); rewrite <- bpow_plus; reflexivity).
    rewrite <- Rmult_minus_distr_r, <- minus_IZR, Rabs_mult, <- abs_IZR.
    rewrite (Rabs_right (bpow radix2 (-80))) by (apply Rle_ge, bpow_ge_0).
    replace (bpow radix2 (-22)) with (IZR (2 ^ 58) * bpow radix2 (-80))%R
      by (change (IZR (2 ^ 58)) with (bpow radix2 58); rewrite <- bpow_plus; reflexivity).
    apply Rmult_le_compat_r; [apply bpow_ge_0 | exact H]. }
  pose proof (Z.mod_pos_bound (tonic_of k) 12 eq_refl).
  destruct k as [i|i]; cbn [tonic_of] in *.
  - rewrite (proj1 (key_mod _ i)). apply G; lia.
  - rewrite (proj2 (key_mod _ i)). apply G; lia.
Qed.
