(** Facts about the f32 layer: order, monotonicity of rounding, range closure. *)
From Coq Require Import ZArith Bool List Reals Lra Lia Psatz.
From Flocq Require Import Core IEEE754.BinarySingleNaN.
From Verif Require Import Rust F32.
Local Open Scope R_scope.

Notation fexp32 := (SpecFloat.fexp fprec femax).
Definition rnd (r : R) : R := round radix2 fexp32 ZnearestE r.
Definition big : R := bpow radix2 femax.

(** Finite values as reals, infinities as +-2^128: an order embedding of all
    non-NaN values. *)
Definition fx (x : f32) : R :=
  match x with
  | B754_infinity s => if s then - big else big
  | _ => B2R x
  end.

Definition sat (r : R) : R := Rmax (- big) (Rmin big r).

Notation nn x := (is_nan (x : f32) = false).
Notation fin x := (is_finite (x : f32) = true).

#[global] Instance valid_fexp32 : Valid_exp fexp32 :=
  fexp_correct fprec femax prec_gt_0_32.
#[global] Instance monotone_fexp32 : Monotone_exp fexp32 :=
  fexp_monotone fprec femax.

Lemma big_pos : 0 < big. Proof. apply bpow_gt_0. Qed.

Lemma fin_nn : forall x : f32, fin x -> nn x.
Proof. intros [| | |]; simpl; auto; discriminate. Qed.

Lemma B2R_abs_lt : forall x : f32, Rabs (B2R x) < big.
Proof. intros x. apply abs_B2R_lt_emax. Qed.
Lemma B2R_lt : forall x : f32, - big < B2R x < big.
Proof. intros x. pose proof (B2R_abs_lt x). apply Rabs_lt_inv in H. lra. Qed.

Lemma fx_fin : forall x : f32, fin x -> fx x = B2R x.
Proof. intros [| | |]; simpl; auto; discriminate. Qed.

Lemma fx_bound : forall x : f32, - big <= fx x <= big.
Proof.
  intros x. pose proof big_pos. pose proof (B2R_lt x).
  destruct x as [|[]| |]; simpl in *; lra.
Qed.

Lemma sat_id : forall r, - big <= r <= big -> sat r = r.
Proof. intros r H. unfold sat. rewrite Rmin_right by lra. apply Rmax_right; lra. Qed.
Lemma sat_mono : forall a b, a <= b -> sat a <= sat b.
Proof.
  intros a b H. unfold sat. apply Rle_max_compat_l.
  apply Rmin_case_strong; intros; apply Rmin_case_strong; intros; lra.
Qed.
Lemma sat_bound : forall r, - big <= sat r <= big.
Proof.
  intros r. unfold sat. pose proof big_pos. split. apply Rmax_l.
  apply Rmax_lub. lra. apply Rmin_l.
Qed.

Lemma rnd_mono : forall a b, a <= b -> rnd a <= rnd b.
Proof. intros. unfold rnd. apply round_le; auto with typeclass_instances. Qed.
Lemma rnd_0 : rnd 0 = 0.
Proof. apply round_0; auto with typeclass_instances. Qed.
Lemma rnd_B2R : forall x : f32, rnd (B2R x) = B2R x.
Proof.
  intros. apply round_generic; auto with typeclass_instances.
  apply generic_format_B2R.
Qed.
Lemma rnd_nonneg : forall r, 0 <= r -> 0 <= rnd r.
Proof. intros. rewrite <- rnd_0. now apply rnd_mono. Qed.
Lemma rnd_opp : forall r, rnd (- r) = - rnd r.
Proof. intros. unfold rnd. apply round_NE_opp. Qed.

(** ** Comparison *)

Lemma fle_nn : forall x y, fle x y = true -> nn x /\ nn y.
Proof. intros [| | |] [| | |]; cbn; auto; discriminate. Qed.
Lemma flt_nn : forall x y, flt x y = true -> nn x /\ nn y.
Proof. intros [| | |] [| | |]; cbn; auto; discriminate. Qed.

Lemma fle_iff : forall x y, nn x -> nn y -> (fle x y = true <-> fx x <= fx y).
Proof.
  intros x y Hx Hy.
  destruct (is_finite x) eqn:Fx, (is_finite y) eqn:Fy.
  - unfold fle. rewrite Bleb_correct by auto. rewrite !fx_fin by auto.
    destruct (Rle_bool_spec (B2R x) (B2R y)); split; auto; try discriminate; lra.
  - pose proof (B2R_lt x). pose proof big_pos.
    destruct y as [|[]| |]; try discriminate;
    rewrite (fx_fin x) by auto; destruct x as [[]|[]| |[]]; try discriminate; cbn in *;
    (split; [intros; try lra; try discriminate| intros; try reflexivity; try lra]).
  - pose proof (B2R_lt y). pose proof big_pos.
    destruct x as [|[]| |]; try discriminate;
    rewrite (fx_fin y) by auto; destruct y as [[]|[]| |[]]; try discriminate; cbn in *;
    (split; [intros; try lra; try discriminate| intros; try reflexivity; try lra]).
  - pose proof big_pos.
    destruct x as [|[]| |]; try discriminate;
    destruct y as [|[]| |]; try discriminate; cbn;
    (split; [intros; try lra; try discriminate| intros; try reflexivity; try lra]).
Qed.

Lemma flt_negb_fle : forall x y, nn x -> nn y -> flt x y = negb (fle y x).
Proof.
  intros x y Hx Hy. unfold flt, fle, Bltb, Bleb, SpecFloat.SFltb, SpecFloat.SFleb.
  change (SpecFloat.SFcompare (B2SF x) (B2SF y)) with (Bcompare x y).
  change (SpecFloat.SFcompare (B2SF y) (B2SF x)) with (Bcompare y x).
  rewrite (Bcompare_swap _ _ x y).
  destruct (Bcompare x y) as [[]|] eqn:E; try reflexivity.
  exfalso. destruct (is_finite x) eqn:Fx, (is_finite y) eqn:Fy.
  - rewrite Bcompare_correct in E by auto. discriminate.
  - destruct x as [|[]| |[]], y as [|[]| |]; cbn in *; discriminate.
  - destruct x as [|[]| |], y as [|[]| |[]]; cbn in *; discriminate.
  - destruct x as [|[]| |], y as [|[]| |]; cbn in *; discriminate.
Qed.

Lemma flt_iff : forall x y, nn x -> nn y -> (flt x y = true <-> fx x < fx y).
Proof.
  intros x y Hx Hy. rewrite flt_negb_fle by auto.
  pose proof (fle_iff y x Hy Hx) as H.
  destruct (fle y x); cbn; split; intros; try discriminate; auto.
  - assert (fx y <= fx x) by tauto. lra.
  - destruct (Rlt_le_dec (fx x) (fx y)); auto. apply H in r. discriminate.
Qed.

Lemma fle_fx : forall x y, fle x y = true -> fx x <= fx y.
Proof. intros x y H. destruct (fle_nn _ _ H). now apply fle_iff. Qed.
Lemma flt_fx : forall x y, flt x y = true -> fx x < fx y.
Proof. intros x y H. destruct (flt_nn _ _ H). now apply flt_iff. Qed.
Lemma fle_intro : forall x y, nn x -> nn y -> fx x <= fx y -> fle x y = true.
Proof. intros. now apply fle_iff. Qed.
Lemma flt_intro : forall x y, nn x -> nn y -> fx x < fx y -> flt x y = true.
Proof. intros. now apply flt_iff. Qed.

Lemma fle_refl : forall x, nn x -> fle x x = true.
Proof. intros. apply fle_intro; auto; lra. Qed.
Lemma fle_trans : forall x y z, fle x y = true -> fle y z = true -> fle x z = true.
Proof.
  intros x y z H1 H2. pose proof (fle_fx _ _ H1). pose proof (fle_fx _ _ H2).
  apply fle_nn in H1. apply fle_nn in H2. apply fle_intro; try tauto; lra.
Qed.
Lemma flt_fle : forall x y, flt x y = true -> fle x y = true.
Proof.
  intros x y H. pose proof (flt_fx _ _ H). apply flt_nn in H.
  apply fle_intro; try tauto; lra.
Qed.
Lemma fle_flt_trans : forall x y z, fle x y = true -> flt y z = true -> flt x z = true.
Proof.
  intros x y z H1 H2. pose proof (fle_fx _ _ H1). pose proof (flt_fx _ _ H2).
  apply fle_nn in H1. apply flt_nn in H2. apply flt_intro; try tauto; lra.
Qed.
Lemma flt_fle_trans : forall x y z, flt x y = true -> fle y z = true -> flt x z = true.
Proof.
  intros x y z H1 H2. pose proof (flt_fx _ _ H1). pose proof (fle_fx _ _ H2).
  apply flt_nn in H1. apply fle_nn in H2. apply flt_intro; try tauto; lra.
Qed.
Lemma flt_irrefl : forall x, flt x x = false.
Proof.
  intros x. destruct (flt x x) eqn:E; auto. pose proof (flt_fx _ _ E). lra.
Qed.
Lemma fle_total : forall x y, nn x -> nn y -> fle x y = true \/ fle y x = true.
Proof.
  intros. destruct (Rle_dec (fx x) (fx y)).
  - left; now apply fle_intro.
  - right; apply fle_intro; auto; lra.
Qed.
Lemma flt_false_fle : forall x y, nn x -> nn y -> flt x y = false -> fle y x = true.
Proof. intros x y Hx Hy H. rewrite flt_negb_fle in H by auto. now apply negb_false_iff in H. Qed.
Lemma fle_false_flt : forall x y, nn x -> nn y -> fle x y = false -> flt y x = true.
Proof. intros x y Hx Hy H. rewrite flt_negb_fle by auto. now rewrite H. Qed.
Lemma fle_flt_false : forall x y, fle x y = true -> flt y x = false.
Proof. intros x y H. destruct (fle_nn _ _ H). rewrite flt_negb_fle by auto. now rewrite H. Qed.
Lemma flt_fle_false : forall x y, flt x y = true -> fle y x = false.
Proof. intros x y H. destruct (flt_nn _ _ H). rewrite flt_negb_fle in H by auto. now apply negb_true_iff in H. Qed.
Lemma flt_asym : forall x y, flt x y = true -> flt y x = false.
Proof. intros. apply fle_flt_false. now apply flt_fle. Qed.

Lemma feq_iff : forall x y, nn x -> nn y -> (feq x y = true <-> fx x = fx y).
Proof.
  intros x y Hx Hy.
  assert (H : feq x y = andb (fle x y) (fle y x)).
  { unfold feq, fle, Beqb, Bleb, SpecFloat.SFeqb, SpecFloat.SFleb.
    change (SpecFloat.SFcompare (B2SF x) (B2SF y)) with (Bcompare x y).
    change (SpecFloat.SFcompare (B2SF y) (B2SF x)) with (Bcompare y x).
    rewrite (Bcompare_swap _ _ x y). destruct (Bcompare x y) as [[]|]; reflexivity. }
  rewrite H, andb_true_iff, !fle_iff by auto. split; intros; lra.
Qed.

(** ** NaN-freeness of a finite pair, and saturating value of each operation *)

Lemma overflow_inf : forall (z : f32) s, B2SF z = binary_overflow fprec femax mode_NE s ->
  z = B754_infinity s.
Proof.
  intros z s H. apply B2SF_inj. rewrite H. reflexivity.
Qed.

Lemma Bsign_nonneg : forall x : f32, nn x -> Bsign x = false -> 0 <= B2R x.
Proof.
  intros [[]|[]| |[] m e H]; simpl; intros; try lra; try discriminate.
  apply F2R_ge_0. simpl. lia.
Qed.
Lemma Bsign_nonpos : forall x : f32, nn x -> Bsign x = true -> B2R x <= 0.
Proof.
  intros [[]|[]| |[] m e H]; simpl; intros; try lra; try discriminate.
  apply F2R_le_0. simpl. lia.
Qed.

Lemma fx_sat_fin : forall (z : f32) r, fin z -> B2R z = r -> fx z = sat r.
Proof.
  intros z r F <-. rewrite fx_fin by auto. symmetry. apply sat_id.
  pose proof (B2R_lt z); lra.
Qed.

Lemma fx_sat_inf : forall s r, big <= Rabs r -> (s = false -> 0 <= r) -> (s = true -> r <= 0) ->
  fx (B754_infinity s) = sat r.
Proof.
  intros s r H Hp Hm. pose proof big_pos. unfold sat. destruct s; simpl.
  - specialize (Hm eq_refl). rewrite Rabs_left1 in H by auto.
    rewrite Rmin_right by lra. rewrite Rmax_left by lra. reflexivity.
  - specialize (Hp eq_refl). rewrite Rabs_pos_eq in H by auto.
    rewrite Rmin_left by lra. rewrite Rmax_right by lra. reflexivity.
Qed.

Lemma fadd_fx : forall x y, fin x -> fin y ->
  nn (fadd x y) /\ fx (fadd x y) = sat (rnd (B2R x + B2R y)).
Proof.
  intros x y Fx Fy. pose proof (Bplus_correct fprec femax _ _ mode_NE x y Fx Fy) as H.
  change (round radix2 fexp32 (round_mode mode_NE) (B2R x + B2R y)) with (rnd (B2R x + B2R y)) in H.
  change (bpow radix2 128) with big in H.
  unfold fadd.
  destruct (Rlt_bool_spec (Rabs (rnd (B2R x + B2R y))) big).
  - destruct H as (H1 & H2 & _). split. now apply fin_nn. now apply fx_sat_fin.
  - destruct H as (H1 & H2). apply overflow_inf in H1.
    pose proof (fin_nn _ Fx). pose proof (fin_nn _ Fy).
    rewrite H1. split; auto.
    apply fx_sat_inf; auto; intros E.
    + apply rnd_nonneg. rewrite E in H2. symmetry in H2.
      pose proof (Bsign_nonneg x). pose proof (Bsign_nonneg y). intuition lra.
    + rewrite <- rnd_0. apply rnd_mono. rewrite E in H2. symmetry in H2.
      pose proof (Bsign_nonpos x). pose proof (Bsign_nonpos y). intuition lra.
Qed.

Lemma fsub_fx : forall x y, fin x -> fin y ->
  nn (fsub x y) /\ fx (fsub x y) = sat (rnd (B2R x - B2R y)).
Proof.
  intros x y Fx Fy. pose proof (Bminus_correct fprec femax _ _ mode_NE x y Fx Fy) as H.
  change (round radix2 fexp32 (round_mode mode_NE) (B2R x - B2R y)) with (rnd (B2R x - B2R y)) in H.
  change (bpow radix2 128) with big in H.
  unfold fsub.
  destruct (Rlt_bool_spec (Rabs (rnd (B2R x - B2R y))) big).
  - destruct H as (H1 & H2 & _). split. now apply fin_nn. now apply fx_sat_fin.
  - destruct H as (H1 & H2). apply overflow_inf in H1.
    pose proof (fin_nn _ Fx). pose proof (fin_nn _ Fy).
    rewrite H1. split; auto.
    apply fx_sat_inf; auto; intros E.
    + apply rnd_nonneg. rewrite E in H2. symmetry in H2. apply negb_false_iff in H2.
      pose proof (Bsign_nonneg x). pose proof (Bsign_nonpos y). intuition lra.
    + rewrite <- rnd_0. apply rnd_mono. rewrite E in H2. symmetry in H2. apply negb_true_iff in H2.
      pose proof (Bsign_nonpos x). pose proof (Bsign_nonneg y). intuition lra.
Qed.

Lemma fmul_fx : forall x y, fin x -> fin y ->
  nn (fmul x y) /\ fx (fmul x y) = sat (rnd (B2R x * B2R y)).
Proof.
  intros x y Fx Fy. pose proof (Bmult_correct fprec femax _ _ mode_NE x y) as H.
  change (round radix2 fexp32 (round_mode mode_NE) (B2R x * B2R y)) with (rnd (B2R x * B2R y)) in H.
  change (bpow radix2 128) with big in H.
  unfold fmul.
  destruct (Rlt_bool_spec (Rabs (rnd (B2R x * B2R y))) big).
  - destruct H as (H1 & H2 & _). rewrite Fx, Fy in H2. split. now apply fin_nn. now apply fx_sat_fin.
  - apply overflow_inf in H.
    pose proof (fin_nn _ Fx). pose proof (fin_nn _ Fy).
    rewrite H. split; auto.
    pose proof (Bsign_nonneg x). pose proof (Bsign_nonneg y).
    pose proof (Bsign_nonpos x). pose proof (Bsign_nonpos y).
    apply fx_sat_inf; auto; intros E; destruct (Bsign x), (Bsign y); try discriminate.
    + apply rnd_nonneg. assert (B2R x <= 0) by auto. assert (B2R y <= 0) by auto. nra.
    + apply rnd_nonneg. assert (0 <= B2R x) by auto. assert (0 <= B2R y) by auto. nra.
    + rewrite <- rnd_0. apply rnd_mono. assert (B2R x <= 0) by auto. assert (0 <= B2R y) by auto. nra.
    + rewrite <- rnd_0. apply rnd_mono. assert (0 <= B2R x) by auto. assert (B2R y <= 0) by auto. nra.
Qed.

Lemma Rdiv_nn : forall a b, 0 <= a -> 0 < b -> 0 <= a / b.
Proof. intros. unfold Rdiv. apply Rmult_le_pos; auto. left. now apply Rinv_0_lt_compat. Qed.

Lemma fdiv_fx : forall x y, fin x -> fin y -> B2R y <> 0 ->
  nn (fdiv x y) /\ fx (fdiv x y) = sat (rnd (B2R x / B2R y)).
Proof.
  intros x y Fx Fy Hy. pose proof (Bdiv_correct fprec femax _ _ mode_NE x y Hy) as H.
  change (round radix2 fexp32 (round_mode mode_NE) (B2R x / B2R y)) with (rnd (B2R x / B2R y)) in H.
  change (bpow radix2 128) with big in H.
  unfold fdiv.
  destruct (Rlt_bool_spec (Rabs (rnd (B2R x / B2R y))) big).
  - destruct H as (H1 & H2 & _). rewrite Fx in H2. split. now apply fin_nn. now apply fx_sat_fin.
  - apply overflow_inf in H.
    pose proof (fin_nn _ Fx). pose proof (fin_nn _ Fy).
    rewrite H. split; auto.
    pose proof (Bsign_nonneg x). pose proof (Bsign_nonneg y).
    pose proof (Bsign_nonpos x). pose proof (Bsign_nonpos y).
    assert (D : B2R x / B2R y = (- B2R x) / (- B2R y)) by (field; auto).
    assert (D1 : B2R x / B2R y = - ((- B2R x) / (B2R y))) by (field; auto).
    assert (D2 : B2R x / B2R y = - ((B2R x) / (- B2R y))) by (field; auto).
    apply fx_sat_inf; auto; intros E; destruct (Bsign x), (Bsign y); try discriminate.
    + apply rnd_nonneg. assert (B2R x <= 0) by auto. assert (B2R y <= 0) by auto.
      rewrite D. apply Rdiv_nn; lra.
    + apply rnd_nonneg. assert (0 <= B2R x) by auto. assert (0 <= B2R y) by auto.
      apply Rdiv_nn; lra.
    + rewrite <- rnd_0. apply rnd_mono. assert (B2R x <= 0) by auto. assert (0 <= B2R y) by auto.
      rewrite D1. cut (0 <= - B2R x / B2R y). lra. apply Rdiv_nn; lra.
    + rewrite <- rnd_0. apply rnd_mono. assert (0 <= B2R x) by auto. assert (B2R y <= 0) by auto.
      rewrite D2. cut (0 <= B2R x / - B2R y). lra. apply Rdiv_nn; lra.
Qed.

Lemma fneg_fx : forall x, fx (fneg x) = - fx x.
Proof.
  intros x. destruct (is_finite x) eqn:F.
  - rewrite !fx_fin; auto. unfold fneg. apply B2R_Bopp. destruct x; auto.
  - destruct x as [|[]| |]; cbn; try lra; discriminate.
Qed.
Lemma fneg_nn : forall x, is_nan (fneg x) = is_nan x.
Proof. intros [| | |]; reflexivity. Qed.
Lemma fabs_fx : forall x, nn x -> fx (fabs x) = Rabs (fx x).
Proof.
  pose proof big_pos.
  intros [|[]| |] Hx; try discriminate; cbn.
  - now rewrite Rabs_R0.
  - rewrite Rabs_Ropp, Rabs_pos_eq; lra.
  - rewrite Rabs_pos_eq; lra.
  - rewrite <- F2R_Zabs. now destruct s.
Qed.
Lemma fabs_nn : forall x, is_nan (fabs x) = is_nan x.
Proof. intros [| | |]; reflexivity. Qed.
Lemma fabs_fin : forall x, is_finite (fabs x) = is_finite x.
Proof. intros [| | |]; reflexivity. Qed.

Lemma fx_f0 : fx f0 = 0. Proof. reflexivity. Qed.
Lemma fx_f1 : fx f1 = 1.
Proof. cbn. unfold F2R; cbn. lra. Qed.
Lemma fx_f2 : fx f2 = 2.
Proof. cbn. unfold F2R; cbn. lra. Qed.
Lemma fx_fhalf : fx fhalf = /2.
Proof. cbn. unfold F2R; cbn. lra. Qed.

Notation nneg x := (fle f0 x = true).
Notation pos x := (flt f0 x = true).

Lemma nneg_iff : forall x, nn x -> (nneg x <-> 0 <= fx x).
Proof. intros. rewrite fle_iff by auto. now rewrite fx_f0. Qed.
Lemma nneg_nn : forall x, nneg x -> nn x.
Proof. intros x H. now apply fle_nn in H. Qed.
Lemma pos_nneg : forall x, pos x -> nneg x. Proof. intros; now apply flt_fle. Qed.
Lemma pos_fx : forall x, pos x -> 0 < fx x.
Proof. intros x H. apply flt_fx in H. exact H. Qed.
Lemma nneg_fx : forall x, nneg x -> 0 <= fx x.
Proof. intros x H. apply fle_fx in H. exact H. Qed.

Lemma fabs_nneg : forall x, nn x -> nneg (fabs x).
Proof.
  intros. apply nneg_iff. now rewrite fabs_nn. rewrite fabs_fx by auto. apply Rabs_pos.
Qed.

Lemma fx_big_iff : forall x, nn x -> (fx x = big <-> x = finf).
Proof.
  intros x Hx. pose proof big_pos. pose proof (B2R_lt x). split.
  - destruct x as [|[]| |]; cbn in *; intros; try discriminate; try lra; reflexivity.
  - intros ->. reflexivity.
Qed.
Lemma fx_mbig_iff : forall x, nn x -> (fx x = - big <-> x = fninf).
Proof.
  intros x Hx. pose proof big_pos. pose proof (B2R_lt x). split.
  - destruct x as [|[]| |]; cbn in *; intros; try discriminate; try lra; reflexivity.
  - intros ->. reflexivity.
Qed.
Lemma fin_iff : forall x, nn x -> (fin x <-> - big < fx x < big).
Proof.
  intros x Hx. pose proof big_pos. pose proof (B2R_lt x).
  destruct x as [|[]| |]; cbn in *; split; intros; try discriminate; auto; try lra.
Qed.
Lemma fin_between : forall a x b, fin a -> fin b -> fle a x = true -> fle x b = true -> fin x.
Proof.
  intros a x b Fa Fb H1 H2. pose proof (fle_nn _ _ H1).
  apply fle_fx in H1. apply fle_fx in H2.
  apply fin_iff. tauto. pose proof (fx_fin _ Fa). pose proof (fx_fin _ Fb).
  pose proof (B2R_lt a). pose proof (B2R_lt b). lra.
Qed.

(** Every non-NaN value is finite or one of the infinities. *)
Lemma nn_cases : forall x, nn x -> fin x \/ x = finf \/ x = fninf.
Proof. intros [|[]| |]; cbn; auto; discriminate. Qed.

(** ** Addition *)

Lemma fadd_comm : forall x y, fadd x y = fadd y x.
Proof.
  intros x y.
  destruct (is_nan x) eqn:Nx; [destruct x; try discriminate; destruct y; reflexivity|].
  destruct (is_nan y) eqn:Ny; [destruct y; try discriminate; destruct x; reflexivity|].
  destruct x as [[]|[]| |sx mx ex Hx], y as [[]|[]| |sy my ey Hy]; try reflexivity; try discriminate.
  (* finite, finite *)
  assert (Fx : fin (B754_finite sx mx ex Hx : f32)) by reflexivity.
  assert (Fy : fin (B754_finite sy my ey Hy : f32)) by reflexivity.
  pose proof (Bplus_correct fprec femax _ _ mode_NE _ _ Fx Fy) as H1.
  pose proof (Bplus_correct fprec femax _ _ mode_NE _ _ Fy Fx) as H2.
  rewrite (Rplus_comm (B2R (B754_finite sy my ey Hy))) in H2.
  unfold fadd.
  destruct (Rlt_bool _ _).
  - destruct H1 as (A1 & A2 & A3), H2 as (B1 & B2 & B3).
    apply B2R_Bsign_inj; auto; congruence || (rewrite A3, B3; destruct (Rcompare _ _); auto; apply andb_comm).
  - destruct H1 as (A1 & A2), H2 as (B1 & B2). apply B2SF_inj. rewrite A1, B1. now rewrite A2.
Qed.

Lemma fadd_nn_fin_l : forall x y, fin x -> nn y -> nn (fadd x y).
Proof.
  intros x y Fx Ny. destruct (nn_cases y Ny) as [Fy|[->| ->]].
  - now apply fadd_fx.
  - destruct x as [| | |]; try discriminate; reflexivity.
  - destruct x as [| | |]; try discriminate; reflexivity.
Qed.
Lemma fadd_nn_fin_r : forall x y, nn x -> fin y -> nn (fadd x y).
Proof. intros. rewrite fadd_comm. now apply fadd_nn_fin_l. Qed.

Lemma fadd_inf_l : forall y, nn y -> y <> fninf -> fadd finf y = finf.
Proof. intros [|[]| |] H H2; try reflexivity; try discriminate. now elim H2. Qed.
Lemma fadd_ninf_l : forall y, nn y -> y <> finf -> fadd fninf y = fninf.
Proof. intros [|[]| |] H H2; try reflexivity; try discriminate. now elim H2. Qed.
Lemma fadd_nan_l : forall x y, nn (fadd x y) -> nn x /\ nn y.
Proof.
  intros x y H. split.
  - destruct x; auto; exfalso; destruct y; cbn in H; discriminate.
  - destruct y; auto; exfalso; destruct x as [| | |]; cbn in H; discriminate.
Qed.

Lemma fle_inf : forall x, nn x -> fle x finf = true.
Proof. intros. apply fle_intro; auto. apply (fx_bound x). Qed.
Lemma fle_ninf : forall x, nn x -> fle fninf x = true.
Proof. intros. apply fle_intro; auto. apply (fx_bound x). Qed.
Lemma fle_inf_inv : forall x, fle finf x = true -> x = finf.
Proof.
  intros x H. pose proof (fle_nn _ _ H) as [_ N]. apply fle_fx in H. apply fx_big_iff; auto.
  pose proof (fx_bound x). change (fx finf) with big in H. lra.
Qed.
Lemma fle_ninf_inv : forall x, fle x fninf = true -> x = fninf.
Proof.
  intros x H. pose proof (fle_nn _ _ H) as [N _]. apply fle_fx in H. apply fx_mbig_iff; auto.
  pose proof (fx_bound x). change (fx fninf) with (-big) in H. lra.
Qed.

Lemma fadd_mono : forall a b c d, fle a b = true -> fle c d = true ->
  nn (fadd a c) -> nn (fadd b d) -> fle (fadd a c) (fadd b d) = true.
Proof.
  intros a b c d H1 H2 N1 N2.
  destruct (fle_nn _ _ H1) as [Na Nb]. destruct (fle_nn _ _ H2) as [Nc Nd].
  destruct (nn_cases b Nb) as [Fb|[->| ->]].
  - destruct (nn_cases d Nd) as [Fd|[->| ->]].
    + destruct (nn_cases a Na) as [Fa|[->| ->]].
      * destruct (nn_cases c Nc) as [Fc|[->| ->]].
        -- destruct (fadd_fx a c Fa Fc) as [_ E1]. destruct (fadd_fx b d Fb Fd) as [_ E2].
           apply fle_intro; auto. rewrite E1, E2. apply sat_mono, rnd_mono.
           apply fle_fx in H1. apply fle_fx in H2. rewrite !fx_fin in H1, H2 by auto. lra.
        -- apply fle_inf_inv in H2. subst d. discriminate.
        -- destruct a; try discriminate; apply fle_ninf; auto.
      * apply fle_inf_inv in H1. subst b. discriminate.
      * destruct (nn_cases c Nc) as [Fc|[->| ->]]; try discriminate.
        -- rewrite fadd_ninf_l by (auto; intros ->; discriminate). now apply fle_ninf.
        -- apply fle_ninf; auto.
    + rewrite (fadd_comm b), fadd_inf_l by (auto; intros ->; discriminate).
      apply fle_inf; auto.
    + apply fle_ninf_inv in H2. subst c.
      rewrite (fadd_comm a) in *. destruct (nn_cases a Na) as [Fa|[->| ->]]; try discriminate.
      * rewrite fadd_ninf_l by (auto; intros ->; discriminate). now apply fle_ninf.
      * now apply fle_ninf.
  - rewrite fadd_inf_l by (auto; intros ->; discriminate). apply fle_inf; auto.
  - apply fle_ninf_inv in H1. subst a.
    destruct (nn_cases c Nc) as [Fc|[->| ->]]; try discriminate.
    + rewrite fadd_ninf_l by (auto; intros ->; discriminate). now apply fle_ninf.
    + now apply fle_ninf.
Qed.

Lemma fadd_nneg : forall x y, nneg x -> nneg y -> nneg (fadd x y).
Proof.
  intros x y Hx Hy.
  assert (N : nn (fadd x y)).
  { destruct (nn_cases x (nneg_nn _ Hx)) as [F|[->| ->]].
    - apply fadd_nn_fin_l; auto. now apply nneg_nn.
    - rewrite fadd_inf_l; auto. now apply nneg_nn. intros ->; discriminate.
    - discriminate. }
  change f0 with (fadd f0 f0). apply fadd_mono; auto.
Qed.

Lemma fadd_ge_l : forall x y, nn x -> nneg y -> nn (fadd x y) -> fle x (fadd x y) = true.
Proof.
  intros x y Nx Hy N.
  destruct (nn_cases x Nx) as [F|[->| ->]].
  - assert (E : fle x (fadd x f0) = true).
    { destruct (fadd_fx x f0 F eq_refl) as [N1 E]. apply fle_intro; auto.
      rewrite E. simpl B2R. rewrite Rplus_0_r, rnd_B2R, sat_id, fx_fin; auto. lra.
      pose proof (B2R_lt x); lra. }
    eapply fle_trans. exact E. apply fadd_mono; auto. now apply fle_refl.
    apply fadd_nn_fin_l; auto.
  - rewrite fadd_inf_l; auto. now apply nneg_nn. intros ->; discriminate.
  - now apply fle_ninf.
Qed.

Lemma nneg_fadd_nn : forall x y, nneg x -> nneg y -> nn (fadd x y).
Proof. intros. now apply nneg_nn, fadd_nneg. Qed.

(** Sums of non-negative values are non-negative. *)
Lemma fsum_nneg_gen : forall l acc, nneg acc -> Forall (fun x => nneg x) l ->
  nneg (fold_left fadd l acc).
Proof.
  induction l; simpl; auto. intros acc Ha H. inversion H; subst.
  apply IHl; auto. now apply fadd_nneg.
Qed.
Lemma fsum_nneg : forall l, Forall (fun x => nneg x) l -> nneg (fsum l).
Proof. intros. now apply fsum_nneg_gen. Qed.
Lemma fsum_ge_acc : forall l acc, nneg acc -> Forall (fun x => nneg x) l ->
  fle acc (fold_left fadd l acc) = true.
Proof.
  induction l; simpl; intros acc Ha H. apply fle_refl, nneg_nn; auto. inversion H; subst.
  eapply fle_trans; [|apply IHl; auto using fadd_nneg].
  apply fadd_ge_l; auto using nneg_nn, nneg_fadd_nn.
Qed.
Lemma fsum_ge_elem : forall l acc x, nneg acc -> Forall (fun x => nneg x) l -> In x l ->
  fle x (fold_left fadd l acc) = true.
Proof.
  induction l; simpl; intros acc x Ha H []; inversion H; subst.
  - eapply fle_trans; [|apply fsum_ge_acc; auto using fadd_nneg].
    rewrite fadd_comm. apply fadd_ge_l; auto using nneg_nn, nneg_fadd_nn.
  - apply IHl; auto using fadd_nneg.
Qed.

(** ** Subtraction *)
Lemma fsub_eq : forall x y, fsub x y = fadd x (fneg y).
Proof.
  intros x y.
  destruct (is_finite x) eqn:Fx; [destruct (is_finite y) eqn:Fy|].
  - pose proof (Bminus_correct fprec femax _ _ mode_NE x y Fx Fy) as H1.
    assert (Fy' : fin (fneg y)) by (destruct y; auto).
    pose proof (Bplus_correct fprec femax _ _ mode_NE x (fneg y) Fx Fy') as H2.
    unfold fneg in H2. rewrite B2R_Bopp, Bsign_Bopp in H2 by (now apply fin_nn).
    unfold Rminus in H1. unfold fsub, fadd, fneg.
    destruct (Rlt_bool _ _).
    + destruct H1 as (A1 & A2 & A3), H2 as (B1 & B2 & B3).
      apply B2R_Bsign_inj; congruence.
    + destruct H1 as (A1 & A2), H2 as (B1 & B2). apply B2SF_inj. congruence.
  - destruct x as [| | |], y as [|[]| |]; try discriminate; reflexivity.
  - destruct x as [|[]| |], y as [|[]| |]; try discriminate; reflexivity.
Qed.

Lemma fneg_mono : forall x y, fle x y = true -> fle (fneg y) (fneg x) = true.
Proof.
  intros x y H. destruct (fle_nn _ _ H). apply fle_fx in H. apply fle_intro.
  now rewrite fneg_nn. now rewrite fneg_nn. rewrite !fneg_fx. lra.
Qed.

Lemma fsub_mono : forall a b c d, fle a b = true -> fle d c = true ->
  nn (fsub a c) -> nn (fsub b d) -> fle (fsub a c) (fsub b d) = true.
Proof.
  intros. rewrite !fsub_eq in *. apply fadd_mono; auto. now apply fneg_mono.
Qed.

Lemma fsub_nn_fin : forall x y, fin x -> fin y -> nn (fsub x y).
Proof. intros. now apply fsub_fx. Qed.

Lemma fsub_nneg : forall x y, fle y x = true -> nn (fsub x y) -> nneg (fsub x y).
Proof.
  intros x y H N. destruct (fle_nn _ _ H) as [Ny Nx].
  destruct (nn_cases x Nx) as [Fx|[->| ->]].
  - destruct (nn_cases y Ny) as [Fy|[->| ->]].
    + destruct (fsub_fx x y Fx Fy) as [_ E]. apply nneg_iff; auto. rewrite E.
      rewrite <- (sat_id 0) by (pose proof big_pos; lra). apply sat_mono.
      apply rnd_nonneg. apply fle_fx in H. rewrite !fx_fin in H by auto. lra.
    + apply fle_inf_inv in H. subst; discriminate.
    + destruct x; try discriminate; reflexivity.
  - destruct (nn_cases y Ny) as [Fy|[->| ->]]; try discriminate; try reflexivity.
    destruct y; try discriminate; reflexivity.
  - apply fle_ninf_inv in H. subst; discriminate.
Qed.

Lemma fsub_le_l : forall x y, nneg y -> nn x -> nn (fsub x y) -> fle (fsub x y) x = true.
Proof.
  intros x y Hy Nx N.
  destruct (nn_cases x Nx) as [F|[->| ->]].
  - destruct (nn_cases y (nneg_nn _ Hy)) as [Fy|[->| ->]].
    + destruct (fsub_fx x y F Fy) as [_ E]. apply fle_intro; auto. rewrite E.
      apply nneg_fx in Hy. rewrite fx_fin in Hy by auto.
      rewrite fx_fin by auto. apply Rle_trans with (sat (B2R x)); [|rewrite sat_id; [lra|pose proof (B2R_lt x); lra]].
      apply sat_mono. eapply Rle_trans; [apply rnd_mono with (b := B2R x); lra|rewrite rnd_B2R; lra].
    + destruct x; try discriminate; apply fle_ninf; reflexivity.
    + discriminate.
  - apply fle_inf; auto.
  - destruct (nn_cases y (nneg_nn _ Hy)) as [Fy|[->| ->]]; try discriminate; try reflexivity.
    destruct y; try discriminate; reflexivity.
Qed.

(** ** Multiplication and division on non-negative operands *)

Lemma sat_0 : sat 0 = 0.
Proof. apply sat_id. pose proof big_pos; lra. Qed.

Lemma fmul_comm : forall x y, fmul x y = fmul y x.
Proof.
  intros x y.
  destruct x as [[]|[]| |sx mx ex Hx], y as [[]|[]| |sy my ey Hy]; try reflexivity;
    try (destruct sx; reflexivity); try (destruct sy; reflexivity).
  pose (X := B754_finite sx mx ex Hx : f32). pose (Y := B754_finite sy my ey Hy : f32).
  pose proof (Bmult_correct fprec femax _ _ mode_NE X Y) as H1.
  pose proof (Bmult_correct fprec femax _ _ mode_NE Y X) as H2.
  rewrite (Rmult_comm (B2R Y)) in H2. rewrite (xorb_comm (Bsign Y)) in H2.
  unfold fmul. fold X Y.
  destruct (Rlt_bool _ _).
  - destruct H1 as (A1 & A2 & A3), H2 as (B1 & B2 & B3).
    apply B2R_Bsign_inj; auto; try congruence.
    rewrite A3, B3; auto; apply fin_nn; auto.
  - apply B2SF_inj; congruence.
Qed.

Lemma fmul_nneg_fin : forall x y, fin x -> fin y -> nneg x -> nneg y -> nneg (fmul x y).
Proof.
  intros x y Fx Fy Hx Hy. destruct (fmul_fx x y Fx Fy) as [N E].
  apply nneg_iff; auto. rewrite E. rewrite <- sat_0. apply sat_mono, rnd_nonneg.
  apply nneg_fx in Hx. apply nneg_fx in Hy. rewrite fx_fin in * by auto. nra.
Qed.

Lemma fmul_nan_inv : forall x y, nn (fmul x y) -> nn x /\ nn y.
Proof.
  intros x y H. split.
  - destruct x; auto; exfalso; destruct y; cbn in H; discriminate.
  - destruct y; auto; exfalso; destruct x as [| | |]; cbn in H; discriminate.
Qed.

Lemma fmul_inf_l : forall y, pos y -> fmul finf y = finf.
Proof. intros [[]|[]| |[]] H; try discriminate; reflexivity. Qed.

Lemma nneg_cases : forall x, nneg x -> (fin x /\ 0 <= B2R x) \/ x = finf.
Proof.
  intros x H. destruct (nn_cases x (nneg_nn _ H)) as [F|[->| ->]]; auto.
  - left. split; auto. apply nneg_fx in H. now rewrite fx_fin in H.
  - discriminate.
Qed.

Lemma fmul_nneg : forall x y, nneg x -> nneg y -> nn (fmul x y) -> nneg (fmul x y).
Proof.
  intros x y Hx Hy N.
  destruct (nneg_cases x Hx) as [[Fx _]| ->]; destruct (nneg_cases y Hy) as [[Fy _]| ->].
  - now apply fmul_nneg_fin.
  - destruct x as [| | |[]]; try discriminate; reflexivity.
  - destruct y as [| | |[]]; try discriminate; reflexivity.
  - reflexivity.
Qed.

Lemma fmul_mono : forall a b c d, nneg a -> fle a b = true -> nneg c -> fle c d = true ->
  nn (fmul a c) -> nn (fmul b d) -> fle (fmul a c) (fmul b d) = true.
Proof.
  intros a b c d Ha H1 Hc H2 N1 N2.
  pose proof (fle_trans _ _ _ Ha H1) as Hb. pose proof (fle_trans _ _ _ Hc H2) as Hd.
  destruct (nneg_cases b Hb) as [[Fb _]| ->].
  - assert (Fa : fin a) by (eapply fin_between with (a := f0) (b := b); auto).
    destruct (nneg_cases d Hd) as [[Fd _]| ->].
    + assert (Fc : fin c) by (eapply fin_between with (a := f0) (b := d); auto).
      destruct (fmul_fx a c Fa Fc) as [_ E1]. destruct (fmul_fx b d Fb Fd) as [_ E2].
      apply fle_intro; auto. rewrite E1, E2. apply sat_mono, rnd_mono.
      apply fle_fx in H1. apply fle_fx in H2. apply nneg_fx in Ha. apply nneg_fx in Hc.
      rewrite !fx_fin in H1 by auto. rewrite !fx_fin in H2 by auto. rewrite fx_fin in Ha, Hc by auto. apply Rmult_le_compat; auto.
    + assert (E : fmul b finf = finf).
      { destruct b as [| | |[]]; try discriminate; reflexivity. }
      rewrite E. now apply fle_inf.
  - assert (E : fmul finf d = finf).
    { destruct d as [|[]| |[]]; try discriminate; reflexivity. }
    rewrite E. now apply fle_inf.
Qed.

Lemma fin_f1 : fin f1. Proof. reflexivity. Qed.
Lemma B2R_f1 : B2R f1 = 1. Proof. rewrite <- fx_fin by reflexivity. apply fx_f1. Qed.

Lemma fmul_1_l_le : forall x, nneg x -> fin x -> fle (fmul f1 x) x = true.
Proof.
  intros x Hx F. destruct (fmul_fx f1 x fin_f1 F) as [N E].
  apply fle_intro; auto. now apply fin_nn. rewrite E, B2R_f1, Rmult_1_l, rnd_B2R, sat_id, fx_fin; auto.
  lra. pose proof (B2R_lt x); lra.
Qed.

(** Scaling by a factor at most one never increases a non-negative finite value. *)
Lemma fmul_le_r : forall a x, nneg a -> fle a f1 = true -> nneg x -> fin x ->
  fle (fmul a x) x = true.
Proof.
  intros a x Ha H1 Hx Fx.
  assert (Fa : fin a) by (eapply fin_between with (a := f0) (b := f1); auto).
  eapply fle_trans; [|apply fmul_1_l_le; auto].
  apply fmul_mono; auto; try (apply fmul_fx; auto). apply fle_refl. now apply fin_nn.
Qed.

(** Division *)
Lemma B2R_pos : forall y, fin y -> pos y -> 0 < B2R y.
Proof. intros y F H. apply pos_fx in H. now rewrite fx_fin in H. Qed.

Lemma fdiv_nn_fin : forall x y, fin x -> fin y -> pos y -> nn (fdiv x y).
Proof. intros x y Fx Fy Hy. apply fdiv_fx; auto. pose proof (B2R_pos y Fy Hy). lra. Qed.

Lemma fdiv_nneg : forall x y, nneg x -> pos y -> nn (fdiv x y) -> nneg (fdiv x y).
Proof.
  intros x y Hx Hy N.
  destruct (nneg_cases x Hx) as [[Fx Gx]| ->];
  destruct (nneg_cases y (pos_nneg _ Hy)) as [[Fy _]| ->].
  - pose proof (B2R_pos y Fy Hy). destruct (fdiv_fx x y Fx Fy) as [_ E]. lra.
    apply nneg_iff; auto. rewrite E, <- sat_0. apply sat_mono, rnd_nonneg. apply Rdiv_nn; auto.
  - destruct x as [[]| | |[]]; try discriminate; reflexivity.
  - destruct y as [[]| | |[]]; try discriminate; reflexivity.
  - discriminate.
Qed.

Lemma fdiv_le_1 : forall x y, nneg x -> pos y -> fin y -> fle x y = true ->
  fle f0 (fdiv x y) = true /\ fle (fdiv x y) f1 = true.
Proof.
  intros x y Hx Hy Fy H.
  assert (Fx : fin x) by (eapply fin_between with (a := f0) (b := y); auto).
  pose proof (B2R_pos y Fy Hy) as P.
  destruct (fdiv_fx x y Fx Fy) as [N E]. lra.
  split. apply fdiv_nneg; auto.
  apply fle_intro; auto. rewrite E, fx_f1.
  rewrite <- (sat_id 1). apply sat_mono. rewrite <- B2R_f1, <- (rnd_B2R f1). apply rnd_mono.
  rewrite B2R_f1. apply Rmult_le_reg_r with (B2R y); auto. unfold Rdiv.
  rewrite Rmult_assoc, Rinv_l by lra. apply fle_fx in H. rewrite !fx_fin in H by auto. lra.
  rewrite <- B2R_f1. pose proof (B2R_lt f1); lra.
Qed.

Lemma fdiv_mono_l : forall a b c, fle a b = true -> pos c ->
  nn (fdiv a c) -> nn (fdiv b c) -> fle (fdiv a c) (fdiv b c) = true.
Proof.
  intros a b c H Hc N1 N2. destruct (fle_nn _ _ H) as [Na Nb].
  destruct (nneg_cases c (pos_nneg _ Hc)) as [[Fc _]| ->].
  - pose proof (B2R_pos c Fc Hc) as P.
    assert (I1 : fdiv finf c = finf) by (destruct c as [[]| | |[]]; try discriminate; reflexivity).
    assert (I2 : fdiv fninf c = fninf) by (destruct c as [[]| | |[]]; try discriminate; reflexivity).
    destruct (nn_cases a Na) as [Fa|[->| ->]].
    + destruct (nn_cases b Nb) as [Fb|[->| ->]].
      * destruct (fdiv_fx a c Fa Fc) as [_ E1]. lra. destruct (fdiv_fx b c Fb Fc) as [_ E2]. lra.
        apply fle_intro; auto. rewrite E1, E2. apply sat_mono, rnd_mono.
        unfold Rdiv. apply Rmult_le_compat_r. left. now apply Rinv_0_lt_compat.
        apply fle_fx in H. now rewrite !fx_fin in H by auto.
      * rewrite I1. now apply fle_inf.
      * apply fle_ninf_inv in H. subst; discriminate.
    + apply fle_inf_inv in H. subst. rewrite I1. reflexivity.
    + rewrite I2. now apply fle_ninf.
  - (* c = inf: both quotients are zeros *)
    destruct a as [[]|[]| |[]], b as [[]|[]| |[]]; try discriminate; reflexivity.
Qed.

Lemma fdiv_mono_r : forall a c d, nneg a -> pos c -> fle c d = true ->
  nn (fdiv a c) -> nn (fdiv a d) -> fle (fdiv a d) (fdiv a c) = true.
Proof.
  intros a c d Ha Hc H N1 N2.
  assert (Hd : pos d) by (eapply flt_fle_trans; eauto).
  destruct (nneg_cases d (pos_nneg _ Hd)) as [[Fd _]| ->].
  - assert (Fc : fin c) by (eapply fin_between with (a := f0) (b := d); auto; now apply pos_nneg).
    pose proof (B2R_pos c Fc Hc). pose proof (B2R_pos d Fd Hd).
    destruct (nneg_cases a Ha) as [[Fa Ga]| ->].
    + destruct (fdiv_fx a c Fa Fc) as [_ E1]. lra. destruct (fdiv_fx a d Fa Fd) as [_ E2]. lra.
      apply fle_intro; auto. rewrite E1, E2. apply sat_mono, rnd_mono.
      unfold Rdiv. apply Rmult_le_compat_l; auto. apply Rinv_le; auto.
      apply fle_fx in H. now rewrite !fx_fin in H by auto.
    + assert (I1 : fdiv finf c = finf) by (destruct c as [[]| | |[]]; try discriminate; reflexivity).
      rewrite I1. now apply fle_inf.
  - assert (G : nneg (fdiv a c)) by (now apply fdiv_nneg).
    destruct a as [[]|[]| |[]]; try discriminate; (eapply fle_trans; [|exact G]); reflexivity.
Qed.

(** ** max / min / clamp *)

Lemma fmax_ge_l : forall x y, nn x -> fle x (fmax x y) = true.
Proof.
  intros x y N. unfold fmax, fisnan. rewrite N. destruct (is_nan y) eqn:Ny.
  now apply fle_refl. destruct (flt x y) eqn:E. now apply flt_fle. now apply fle_refl.
Qed.
Lemma fmax_ge_r : forall x y, nn y -> fle y (fmax x y) = true.
Proof.
  intros x y N. unfold fmax, fisnan. rewrite N. destruct (is_nan x) eqn:Ny.
  now apply fle_refl. destruct (flt x y) eqn:E. now apply fle_refl. now apply flt_false_fle.
Qed.
Lemma fmax_nn : forall x y, nn x \/ nn y -> nn (fmax x y).
Proof.
  intros x y H. unfold fmax, fisnan. destruct (is_nan x) eqn:Nx.
  destruct H; congruence. destruct (is_nan y) eqn:Ny; auto. destruct (flt x y); auto.
Qed.
Lemma fmin_nn : forall x y, nn x \/ nn y -> nn (fmin x y).
Proof.
  intros x y H. unfold fmin, fisnan. destruct (is_nan x) eqn:Nx.
  destruct H; congruence. destruct (is_nan y) eqn:Ny; auto. destruct (flt y x); auto.
Qed.
Lemma fmin_le_l : forall x y, nn x -> fle (fmin x y) x = true.
Proof.
  intros x y N. unfold fmin, fisnan. rewrite N. destruct (is_nan y) eqn:Ny.
  now apply fle_refl. destruct (flt y x) eqn:E. now apply flt_fle. now apply fle_refl.
Qed.
Lemma fmin_le_r : forall x y, nn y -> fle (fmin x y) y = true.
Proof.
  intros x y N. unfold fmin, fisnan. rewrite N. destruct (is_nan x) eqn:Ny.
  now apply fle_refl. destruct (flt y x) eqn:E. now apply fle_refl. now apply flt_false_fle.
Qed.
Lemma fmax_lub : forall x y z, (nn x -> fle x z = true) -> (nn y -> fle y z = true) ->
  nn x \/ nn y -> fle (fmax x y) z = true.
Proof.
  intros x y z H1 H2 H. unfold fmax, fisnan. destruct (is_nan x) eqn:Nx.
  apply H2. destruct H; congruence.
  destruct (is_nan y) eqn:Ny; auto. destruct (flt x y); auto.
Qed.
Lemma fmin_glb : forall x y z, (nn x -> fle z x = true) -> (nn y -> fle z y = true) ->
  nn x \/ nn y -> fle z (fmin x y) = true.
Proof.
  intros x y z H1 H2 H. unfold fmin, fisnan. destruct (is_nan x) eqn:Nx.
  apply H2. destruct H; congruence.
  destruct (is_nan y) eqn:Ny; auto. destruct (flt y x); auto.
Qed.
Lemma fmax_case : forall x y, fmax x y = x \/ fmax x y = y.
Proof.
  intros. unfold fmax. destruct (fisnan x), (fisnan y), (flt x y); auto.
Qed.
Lemma fmin_case : forall x y, fmin x y = x \/ fmin x y = y.
Proof.
  intros. unfold fmin. destruct (fisnan x), (fisnan y), (flt y x); auto.
Qed.

Lemma fclamp_val_ge : forall x lo hi, nn x -> fle lo hi = true -> fle lo (fclamp_val x lo hi) = true.
Proof.
  intros x lo hi N H. destruct (fle_nn _ _ H). unfold fclamp_val.
  destruct (flt x lo) eqn:E1. now apply fle_refl.
  destruct (flt hi x) eqn:E2; auto. now apply flt_false_fle.
Qed.
Lemma fclamp_val_le : forall x lo hi, nn x -> fle lo hi = true -> fle (fclamp_val x lo hi) hi = true.
Proof.
  intros x lo hi N H. destruct (fle_nn _ _ H). unfold fclamp_val.
  destruct (flt x lo) eqn:E1; auto.
  destruct (flt hi x) eqn:E2. now apply fle_refl. now apply flt_false_fle.
Qed.
Lemma fclamp_val_nan : forall x lo hi, is_nan x = true -> fclamp_val x lo hi = x.
Proof.
  intros x lo hi N. unfold fclamp_val. destruct x; try discriminate.
  unfold flt. destruct lo as [| | |], hi as [| | |]; try reflexivity; destruct s; reflexivity.
Qed.
Lemma fclamp_val_in : forall x lo hi, fle lo x = true -> fle x hi = true -> fclamp_val x lo hi = x.
Proof.
  intros x lo hi H1 H2. unfold fclamp_val.
  now rewrite (fle_flt_false _ _ H1), (fle_flt_false _ _ H2).
Qed.

(** Unit interval, as used by every confidence in the API. *)
Definition in01 (x : f32) : Prop := fle f0 x = true /\ fle x f1 = true.
Lemma in01_fin : forall x, in01 x -> fin x.
Proof. intros x [H1 H2]. eapply fin_between with (a := f0) (b := f1); auto. Qed.
Lemma in01_mul : forall x y, in01 x -> in01 y -> in01 (fmul x y).
Proof.
  intros x y Hx Hy. pose proof (in01_fin _ Hx). pose proof (in01_fin _ Hy).
  destruct Hx, Hy. split. apply fmul_nneg_fin; auto.
  eapply fle_trans. apply fmul_le_r; auto. auto.
Qed.
Lemma in01_clamp : forall x, nn x -> in01 (fclamp_val x f0 f1).
Proof. intros. split. apply fclamp_val_ge; auto. apply fclamp_val_le; auto. Qed.
Lemma in01_max : forall x y, in01 x -> in01 y -> in01 (fmax x y).
Proof. intros x y [] []. destruct (fmax_case x y) as [-> | ->]; split; auto. Qed.
Lemma in01_min : forall x y, in01 x -> in01 y -> in01 (fmin x y).
Proof. intros x y [] []. destruct (fmin_case x y) as [-> | ->]; split; auto. Qed.
Lemma in01_0 : in01 f0. Proof. now split. Qed.
Lemma in01_1 : in01 f1. Proof. now split. Qed.

(** ** More real-valued facts *)

Lemma B2R_fadd : forall x y, fin x -> fin y -> fin (fadd x y) ->
  B2R (fadd x y) = rnd (B2R x + B2R y).
Proof.
  intros x y Fx Fy F. pose proof (Bplus_correct fprec femax _ _ mode_NE x y Fx Fy) as H.
  destruct (Rlt_bool _ _); [exact (proj1 H)|].
  destruct H as [H _]. apply overflow_inf in H. unfold fadd in F. rewrite H in F. discriminate.
Qed.
Lemma B2R_fsub : forall x y, fin x -> fin y -> fin (fsub x y) ->
  B2R (fsub x y) = rnd (B2R x - B2R y).
Proof.
  intros x y Fx Fy F. pose proof (Bminus_correct fprec femax _ _ mode_NE x y Fx Fy) as H.
  destruct (Rlt_bool _ _); [exact (proj1 H)|].
  destruct H as [H _]. apply overflow_inf in H. unfold fsub in F. rewrite H in F. discriminate.
Qed.
Lemma B2R_fmul : forall x y, fin (fmul x y) -> B2R (fmul x y) = rnd (B2R x * B2R y).
Proof.
  intros x y F. pose proof (Bmult_correct fprec femax _ _ mode_NE x y) as H.
  destruct (Rlt_bool _ _); [exact (proj1 H)|].
  apply overflow_inf in H. unfold fmul in F. rewrite H in F. discriminate.
Qed.
Lemma B2R_fdiv : forall x y, fin (fdiv x y) -> B2R y <> 0 -> B2R (fdiv x y) = rnd (B2R x / B2R y).
Proof.
  intros x y F Hy. pose proof (Bdiv_correct fprec femax _ _ mode_NE x y Hy) as H.
  destruct (Rlt_bool _ _); [exact (proj1 H)|].
  apply overflow_inf in H. unfold fdiv in F. rewrite H in F. discriminate.
Qed.

(** A value bounded by a finite float in absolute value rounds to a finite float. *)
Lemma rnd_abs_le : forall r (b : f32), Rabs r <= B2R b -> Rabs (rnd r) <= B2R b.
Proof.
  intros r b H. apply Rabs_le_inv in H. apply Rabs_le. split.
  - rewrite <- (rnd_B2R b), <- rnd_opp. apply rnd_mono. lra.
  - rewrite <- (rnd_B2R b). apply rnd_mono. lra.
Qed.
Lemma fadd_fin_bound : forall x y (b : f32), fin x -> fin y ->
  Rabs (B2R x + B2R y) <= B2R b -> fin (fadd x y).
Proof.
  intros x y b Fx Fy H. pose proof (Bplus_correct fprec femax _ _ mode_NE x y Fx Fy) as C.
  pose proof (rnd_abs_le _ _ H) as L. pose proof (B2R_lt b).
  rewrite Rlt_bool_true in C. apply C. unfold rnd in L.
  eapply Rle_lt_trans. apply L. apply H0.
Qed.
Lemma fsub_fin_bound : forall x y (b : f32), fin x -> fin y ->
  Rabs (B2R x - B2R y) <= B2R b -> fin (fsub x y).
Proof.
  intros x y b Fx Fy H. pose proof (Bminus_correct fprec femax _ _ mode_NE x y Fx Fy) as C.
  pose proof (rnd_abs_le _ _ H) as L. pose proof (B2R_lt b).
  rewrite Rlt_bool_true in C. apply C. unfold rnd in L.
  eapply Rle_lt_trans. apply L. apply H0.
Qed.
Lemma fmul_fin_bound : forall x y (b : f32), fin x -> fin y ->
  Rabs (B2R x * B2R y) <= B2R b -> fin (fmul x y).
Proof.
  intros x y b Fx Fy H. pose proof (Bmult_correct fprec femax _ _ mode_NE x y) as C.
  pose proof (rnd_abs_le _ _ H) as L. pose proof (B2R_lt b).
  rewrite Rlt_bool_true in C. destruct C as (_ & C & _). unfold fmul. now rewrite C, Fx, Fy.
  unfold rnd in L. eapply Rle_lt_trans. apply L. apply H0.
Qed.
Lemma fdiv_fin_bound : forall x y (b : f32), fin x -> B2R y <> 0 ->
  Rabs (B2R x / B2R y) <= B2R b -> fin (fdiv x y).
Proof.
  intros x y b Fx Hy H. pose proof (Bdiv_correct fprec femax _ _ mode_NE x y Hy) as C.
  pose proof (rnd_abs_le _ _ H) as L. pose proof (B2R_lt b).
  rewrite Rlt_bool_true in C. destruct C as (_ & C & _). unfold fdiv. now rewrite C, Fx.
  unfold rnd in L. eapply Rle_lt_trans. apply L. apply H0.
Qed.

(** Multiplying by a non-negative finite constant is monotone on all finite values. *)
Lemma fmul_mono_const : forall a b c, fin a -> fin b -> fin c -> nneg c ->
  fle a b = true -> fle (fmul a c) (fmul b c) = true.
Proof.
  intros a b c Fa Fb Fc Hc H.
  destruct (fmul_fx a c Fa Fc) as [N1 E1]. destruct (fmul_fx b c Fb Fc) as [N2 E2].
  apply fle_intro; auto. rewrite E1, E2. apply sat_mono, rnd_mono.
  apply fle_fx in H. apply nneg_fx in Hc. rewrite !fx_fin in H by auto. rewrite fx_fin in Hc by auto.
  now apply Rmult_le_compat_r.
Qed.

Lemma format_scale2 : forall (x : f32), generic_format radix2 fexp32 (2 * B2R x).
Proof.
  intros x. pose proof (FLT_format_B2R fprec femax _ x) as H.
  destruct H as [[m e] E Hm He]. simpl in Hm, He.
  apply generic_format_FLT. exists (Float radix2 m (e + 1)); simpl; auto.
  - rewrite E. unfold F2R; simpl. rewrite bpow_plus. change (bpow radix2 1) with (IZR 2). ring.
  - lia.
Qed.
Lemma rnd_scale2 : forall (x : f32), rnd (2 * B2R x) = 2 * B2R x.
Proof. intros. apply round_generic; auto with typeclass_instances. apply format_scale2. Qed.

(** The rounded midpoint of two finite values whose sum does not overflow lies between them. *)
Lemma B2R_fhalf : B2R fhalf = / 2.
Proof. rewrite <- fx_fin by reflexivity. apply fx_fhalf. Qed.

Lemma midpoint_fin : forall l r, fin l -> fin r -> fin (fadd l r) ->
  fin (fmul (fadd l r) fhalf).
Proof.
  intros l r Fl Fr Fs. apply fmul_fin_bound with (fabs (fadd l r)); auto.
  unfold fabs. rewrite B2R_Babs, B2R_fhalf, Rabs_mult, (Rabs_pos_eq (/2)) by lra.
  pose proof (Rabs_pos (B2R (fadd l r))). lra.
Qed.

Lemma midpoint_between : forall l r lo hi, fin l -> fin r -> fin lo -> fin hi -> fin (fadd l r) ->
  fle lo l = true -> fle lo r = true -> fle l hi = true -> fle r hi = true ->
  fle lo (fmul (fadd l r) fhalf) = true /\ fle (fmul (fadd l r) fhalf) hi = true.
Proof.
  intros l r lo hi Fl Fr Flo Fhi Fs H1 H2 H3 H4.
  pose proof (midpoint_fin l r Fl Fr Fs) as Fm.
  apply fle_fx in H1. apply fle_fx in H2. apply fle_fx in H3. apply fle_fx in H4.
  rewrite !fx_fin in H1 by auto. rewrite !fx_fin in H2 by auto.
  rewrite !fx_fin in H3 by auto. rewrite !fx_fin in H4 by auto.
  pose proof (B2R_fadd l r Fl Fr Fs) as E.
  assert (L : 2 * B2R lo <= B2R (fadd l r)).
  { rewrite E, <- (rnd_scale2 lo). apply rnd_mono. lra. }
  assert (U : B2R (fadd l r) <= 2 * B2R hi).
  { rewrite E, <- (rnd_scale2 hi). apply rnd_mono. lra. }
  split; apply fle_intro; try (now apply fin_nn); rewrite !fx_fin by auto;
    rewrite (B2R_fmul _ _ Fm), B2R_fhalf.
  - rewrite <- (rnd_B2R lo). apply rnd_mono. lra.
  - rewrite <- (rnd_B2R hi). apply rnd_mono. lra.
Qed.

(** ** Integer conversions *)

Lemma lit_fx : forall m e, nn (lit m e) /\ fx (lit m e) = sat (rnd (F2R (Float radix2 m e))).
Proof.
  intros m e. pose proof (binary_normalize_correct fprec femax _ _ mode_NE m e false) as H.
  cbv zeta in H. fold (lit m e) in H.
  change (round radix2 fexp32 (round_mode mode_NE) (F2R (Float radix2 m e)))
    with (rnd (F2R (Float radix2 m e))) in H.
  change (bpow radix2 128) with big in H.
  destruct (Rlt_bool_spec (Rabs (rnd (F2R (Float radix2 m e)))) big).
  - destruct H as (H1 & H2 & _). split. now apply fin_nn. now apply fx_sat_fin.
  - apply overflow_inf in H. rewrite H. split; auto. apply fx_sat_inf; auto; intros E.
    + apply rnd_nonneg. destruct (Rlt_bool_spec (F2R (Float radix2 m e)) 0); auto; discriminate.
    + rewrite <- rnd_0. apply rnd_mono.
      destruct (Rlt_bool_spec (F2R (Float radix2 m e)) 0); try discriminate. lra.
Qed.

Lemma z2f_fx : forall z, nn (z2f z) /\ fx (z2f z) = sat (rnd (IZR z)).
Proof.
  intros z. unfold z2f. destruct (lit_fx z 0) as [A B]. split; auto. rewrite B.
  unfold F2R; simpl. now rewrite Rmult_1_r.
Qed.
Lemma z2f_nn : forall z, nn (z2f z). Proof. intros; apply z2f_fx. Qed.
Lemma z2f_mono : forall a b, (a <= b)%Z -> fle (z2f a) (z2f b) = true.
Proof.
  intros a b H. destruct (z2f_fx a), (z2f_fx b). apply fle_intro; auto. rewrite H1, H3.
  apply sat_mono, rnd_mono. now apply IZR_le.
Qed.
Lemma z2f_nneg : forall z, (0 <= z)%Z -> nneg (z2f z).
Proof. intros z H. exact (z2f_mono 0 z H). Qed.

Lemma format_Z : forall z, (Z.abs z <= 16777216)%Z -> generic_format radix2 fexp32 (IZR z).
Proof.
  intros z H. destruct (Z.eq_dec (Z.abs z) 16777216) as [E|E].
  - assert (D : z = 16777216%Z \/ z = (-16777216)%Z) by lia.
    apply generic_format_FLT. destruct D as [-> | ->].
    + apply FLT_spec with (Float radix2 1 24); [unfold F2R; simpl; lra|reflexivity|cbv; discriminate].
    + apply FLT_spec with (Float radix2 (-1) 24); [unfold F2R; simpl; lra|reflexivity|cbv; discriminate].
  - apply generic_format_FLT. apply FLT_spec with (Float radix2 z 0);
      [unfold F2R; simpl; ring|cbn [Fnum]; change (Z.pow radix2 24) with 16777216%Z; lia|cbv; discriminate].
Qed.
Lemma rnd_Z : forall z, (Z.abs z <= 16777216)%Z -> rnd (IZR z) = IZR z.
Proof. intros. apply round_generic; auto with typeclass_instances. now apply format_Z. Qed.

Lemma big_val : big = IZR (2 ^ 128).
Proof. unfold big. simpl. reflexivity. Qed.
Lemma IZR_lt_big : forall z, (Z.abs z < 2 ^ 128)%Z -> - big < IZR z < big.
Proof. intros z H. rewrite big_val, <- opp_IZR. split; apply IZR_lt; lia. Qed.

Lemma z2f_exact : forall z, (Z.abs z <= 16777216)%Z -> fin (z2f z) /\ B2R (z2f z) = IZR z.
Proof.
  intros z H. destruct (z2f_fx z) as [N E]. rewrite rnd_Z in E by auto.
  pose proof (IZR_lt_big z ltac:(lia)) as B. rewrite sat_id in E by lra.
  assert (F : fin (z2f z)) by (apply fin_iff; auto; lra).
  split; auto. now rewrite <- fx_fin.
Qed.

Lemma max_float : exists b : f32, fin b /\ forall x : f32, fin x -> B2R x <= B2R b.
Proof.
  exists (lit 16777215 104). split. reflexivity. intros x F.
  assert (L : fle x (lit 16777215 104) = true).
  { pose proof (abs_B2R_le_emax_minus_prec fprec femax _ x) as H.
    apply fle_intro; auto using fin_nn. rewrite (fx_fin _ F), fx_fin by reflexivity.
    assert (E : B2R (lit 16777215 104) = bpow radix2 femax - bpow radix2 (femax - fprec)).
    { cbn. unfold F2R; cbn. lra. }
    rewrite E. apply Rabs_le_inv in H. lra. }
  apply fle_fx in L. rewrite !fx_fin in L; auto.
Qed.

(** Rounding an integer below 2^127 in magnitude stays finite. *)
Lemma z2f_fin : forall z, (Z.abs z <= 2 ^ 64)%Z -> fin (z2f z).
Proof.
  intros z H. destruct (z2f_fx z) as [N E].
  assert (B : Rabs (IZR z) <= B2R (lit 1 64)).
  { assert (X : B2R (lit 1 64) = IZR (2 ^ 64)). { cbn. unfold F2R; cbn. lra. }
    rewrite X, <- abs_IZR. now apply IZR_le. }
  apply rnd_abs_le in B. apply fin_iff; auto.
  pose proof (B2R_lt (lit 1 64)). apply Rabs_le_inv in B.
  rewrite E, sat_id; lra.
Qed.

Lemma Btrunc_Ztrunc : forall x : f32, Btrunc x = Ztrunc (B2R x).
Proof.
  intros x. apply eq_IZR. rewrite Btrunc_correct. unfold round, scaled_mantissa, cexp, FIX_exp, F2R; simpl.
  now rewrite !Rmult_1_r. exact prec_lt_emax_32.
Qed.

Lemma f2int_fin : forall lo hi x, fin x -> f2int lo hi x = Z.max lo (Z.min hi (Ztrunc (B2R x))).
Proof. intros lo hi x F. rewrite <- Btrunc_Ztrunc. destruct x; try discriminate; reflexivity. Qed.

Lemma f2int_bounds : forall lo hi x, (lo <= 0 <= hi)%Z -> (lo <= f2int lo hi x <= hi)%Z.
Proof. intros lo hi [|[]| |] H; unfold f2int; lia. Qed.
Lemma f2usize_bounds : forall x, (0 <= f2usize x <= usize_max)%Z.
Proof. intros. apply f2int_bounds. unfold usize_max. lia. Qed.

Lemma f2int_mono : forall lo hi x y, (lo <= 0 <= hi)%Z -> fle x y = true ->
  (f2int lo hi x <= f2int lo hi y)%Z.
Proof.
  intros lo hi x y B H. pose proof (f2int_bounds lo hi x B). pose proof (f2int_bounds lo hi y B).
  destruct (fle_nn _ _ H) as [Nx Ny].
  destruct (nn_cases x Nx) as [Fx|[->| ->]].
  - destruct (nn_cases y Ny) as [Fy|[->| ->]].
    + rewrite !f2int_fin by auto. apply fle_fx in H. rewrite !fx_fin in H by auto.
      apply Ztrunc_le in H. lia.
    + exact (proj2 H0).
    + apply fle_ninf_inv in H. subst x. discriminate.
  - apply fle_inf_inv in H. subst y. reflexivity.
  - exact (proj1 H1).
Qed.
Lemma f2usize_mono : forall x y, fle x y = true -> (f2usize x <= f2usize y)%Z.
Proof. intros. apply f2int_mono; auto. unfold usize_max; lia. Qed.

Lemma Ztrunc_nonneg_le : forall r, 0 <= r -> IZR (Ztrunc r) <= r.
Proof. intros r H. rewrite Ztrunc_floor by auto. apply Zfloor_lb. Qed.

Lemma f2usize_Z : forall z, (0 <= z <= 16777216)%Z -> f2usize (z2f z) = z.
Proof.
  intros z H. destruct (z2f_exact z ltac:(lia)) as [F E]. unfold f2usize.
  rewrite f2int_fin, E, Ztrunc_IZR by auto. unfold usize_max. lia.
Qed.
Lemma f2i32_Z : forall z, (Z.abs z <= 16777216)%Z -> f2i32 (z2f z) = z.
Proof.
  intros z H. destruct (z2f_exact z ltac:(lia)) as [F E]. unfold f2i32.
  rewrite f2int_fin, E, Ztrunc_IZR by auto. lia.
Qed.

(** floor / ceil / round-half-away as real functions *)
Lemma ffloor_spec : forall x, fin x -> fin (ffloor x) /\ B2R (ffloor x) = IZR (Zfloor (B2R x)).
Proof.
  intros x F. destruct (Bnearbyint_correct fprec femax _ mode_DN x) as (A & B & _).
  split. unfold ffloor; now rewrite B. unfold ffloor. rewrite A. unfold round, scaled_mantissa, cexp, FIX_exp, F2R; simpl.
  now rewrite !Rmult_1_r.
Qed.
Lemma fceil_spec : forall x, fin x -> fin (fceil x) /\ B2R (fceil x) = IZR (Zceil (B2R x)).
Proof.
  intros x F. destruct (Bnearbyint_correct fprec femax _ mode_UP x) as (A & B & _).
  split. unfold fceil; now rewrite B. unfold fceil. rewrite A. unfold round, scaled_mantissa, cexp, FIX_exp, F2R; simpl.
  now rewrite !Rmult_1_r.
Qed.
Lemma fround_spec : forall x, fin x -> fin (fround x) /\ B2R (fround x) = IZR (ZnearestA (B2R x)).
Proof.
  intros x F. destruct (Bnearbyint_correct fprec femax _ mode_NA x) as (A & B & _).
  split. unfold fround; now rewrite B. unfold fround. rewrite A. unfold round, scaled_mantissa, cexp, FIX_exp, F2R; simpl.
  now rewrite !Rmult_1_r.
Qed.
