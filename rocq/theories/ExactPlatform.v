(** A platform whose FFT and mathematics functions are the exact values rounded to the nearest f32: the accuracy hypotheses
    of C76, C78, C79 and C81 can be met at every length. *)
From Coq Require Import ZArith Bool List Arith Lia Reals Lra.
From Flocq Require Import Core IEEE754.BinarySingleNaN.
From Verif Require Import Rust F32 F32Facts F32More Bounds NoveltyProofs Libm Autocorrelation AutocorrelationProofs TempoSpectra
  FourierFacts AutocorrelationValueProofs SpectrumFacts OnsetStrengthFacts NoveltyStrengthFacts.
Import ListNotations.
Local Open Scope R_scope.

(** The f32 nearest to a real number. *)
Definition nearest_f32 (r : R) : f32 := lit (ZnearestE (scaled_mantissa radix2 fexp32 r)) (cexp radix2 fexp32 r).
Lemma nearest_f32_fx : forall r, nn (nearest_f32 r) /\ fx (nearest_f32 r) = sat (rnd r).
Proof.
  intros r. unfold nearest_f32.
  destruct (lit_fx (ZnearestE (scaled_mantissa radix2 fexp32 r)) (cexp radix2 fexp32 r)) as (N & E).
  split; [exact N|]. rewrite E. f_equal.
  change (rnd (rnd r) = rnd r). apply (round_generic radix2 fexp32 ZnearestE (rnd r)).
  apply generic_format_round; typeclasses eauto.
Qed.
Lemma nearest_f32_near : forall r, Rabs r <= bpow radix2 120 ->
  fin (nearest_f32 r) /\ Rabs (B2R (nearest_f32 r) - r) <= u24 * Rabs r + tiny.
Proof.
  intros r H. destruct (nearest_f32_fx r) as (N & E).
  assert (W : within 120 (nearest_f32 r)) by (apply (within_of 120 _ (rnd r)); auto; [lia|apply rnd_within; [lia|exact H]]).
  split; [apply (within_fin _ _ W)|]. rewrite fx_fin in E by apply (within_fin _ _ W).
  rewrite E, sat_id; [apply rnd_near|]. pose proof (rnd_within 120 r ltac:(lia) H) as B. apply Rabs_le_inv in B.
  pose proof (bpow_lt radix2 120 128 ltac:(lia)) as L. change (bpow radix2 128) with big in L. lra.
Qed.

Definition exact_libm : libm :=
  {| m_powf := fun x y => nearest_f32 (Rpower (B2R x) (B2R y)); m_log10 := fun x => nearest_f32 (ln (B2R x) / ln 10);
     m_log2 := fun x => nearest_f32 (ln (B2R x) / ln 2); m_ln := fun x => nearest_f32 (ln (B2R x)); m_exp := fun x => nearest_f32 (exp (B2R x));
     m_sin := fun x => nearest_f32 (sin (B2R x)); m_cos := fun x => nearest_f32 (cos (B2R x)) |}.
Lemma exact_cos : cos_accurate exact_libm (/ 8388608).
Proof.
  intros x Fx _. cbn [exact_libm m_cos]. destruct (trig_le1 (B2R x)) as (C & _).
  destruct (nearest_f32_near (cos (B2R x))) as (F & E).
  - eapply Rle_trans; [exact C|]. apply (bpow_le radix2 0 120). lia.
  - split; [exact F|]. assert (tiny <= / 16777216).
    { unfold tiny. replace (/ 16777216) with (bpow radix2 (-24)) by (cbn; lra). apply bpow_le. lia. }
    unfold u24 in E. lra.
Qed.

Lemma exact_ln : ln_accurate (m_ln exact_libm) (/ 262144).
Proof.
  intros v Fv V. cbn [exact_libm m_ln]. assert (L0 : 0 <= ln (B2R v)) by (replace (B2R v) with (1 + (B2R v - 1)) by ring; apply ln1p_nonneg; lra).
  assert (L31 : ln (B2R v) <= 31).
  { apply Rle_trans with (ln 2147483648). { destruct (Req_dec (B2R v) 2147483648) as [-> |]; [lra|left; apply ln_increasing; lra]. }
    replace 2147483648 with (2 ^ 31) by lra. assert (PL : forall n, ln (2 ^ n) = INR n * ln 2).
    { induction n as [|n IH]; [cbn; rewrite ln_1; ring|]. rewrite S_INR. cbn [pow]. rewrite ln_mult, IH; [ring|lra|apply pow_lt; lra]. }
    rewrite PL. pose proof (ln_le_sub1 2 ltac:(lra)). replace (INR 31) with 31 by (cbn; lra). lra. }
  destruct (nearest_f32_near (ln (B2R v))) as (F & E).
  - rewrite Rabs_pos_eq by exact L0. apply Rle_trans with (bpow radix2 5); [change (bpow radix2 5) with 32; lra|apply bpow_le; lia].
  - split; [exact F|]. destruct (nearest_f32_fx (ln (B2R v))) as (_ & X). rewrite fx_fin in X by exact F. rewrite (Rabs_pos_eq (ln (B2R v))) in E by exact L0.
    assert (tiny <= / 16777216) by (apply Rle_trans with (bpow radix2 (-24)); [apply bpow_le; lia|change (bpow radix2 (-24)) with (/ 16777216); lra]).
    split; [|unfold u24 in E; lra]. rewrite X. pose proof (rnd_nonneg _ L0) as R0. unfold sat. pose proof big_pos. apply Rle_trans with (Rmin big (rnd (ln (B2R v)))); [apply Rmin_glb; lra|apply Rmax_r].
Qed.

Definition exact_forward (l : list complex) : list complex :=
  map (fun j => (nearest_f32 (fwd_re (length l) (re_of l) (im_of l) j), nearest_f32 (fwd_im (length l) (re_of l) (im_of l) j)))
      (seq 0 (length l)).
Definition exact_inverse (l : list complex) : list complex :=
  map (fun j => (nearest_f32 (inv_re (length l) (re_of l) (im_of l) j), nearest_f32 (inv_im (length l) (re_of l) (im_of l) j)))
      (seq 0 (length l)).
Lemma exact_forward_len : forall l, length (exact_forward l) = length l.
Proof. intros l. unfold exact_forward. now rewrite map_length, seq_length. Qed.
Lemma exact_inverse_len : forall l, length (exact_inverse l) = length l.
Proof. intros l. unfold exact_inverse. now rewrite map_length, seq_length. Qed.
Definition exact_fft : fft_oracle :=
  {| fft_forward := exact_forward; fft_inverse := exact_inverse; fft_forward_len := exact_forward_len; fft_inverse_len := exact_inverse_len |}.

Lemma trig_pair : forall x y a, Rabs (x * cos a + y * sin a) <= Rabs x + Rabs y.
Proof.
  intros x y a. eapply Rle_trans; [apply Rabs_triang|]. rewrite !Rabs_mult. destruct (trig_le1 a). pose proof (Rabs_pos x). pose proof (Rabs_pos y). nra.
Qed.
Lemma exact_parts : forall l j, let N := length l in
  Rabs (fwd_re N (re_of l) (im_of l) j) <= weight l /\ Rabs (fwd_im N (re_of l) (im_of l) j) <= weight l /\
  Rabs (inv_re N (re_of l) (im_of l) j) <= weight l /\ Rabs (inv_im N (re_of l) (im_of l) j) <= weight l.
Proof.
  intros l j N. unfold weight. fold N.
  repeat split; (eapply Rle_trans; [apply sumn_abs|]); apply sumn_le; intros t _; set (a := angle N (INR j) (INR t)).
  - apply trig_pair.
  - pose proof (trig_pair (im_of l t) (- re_of l t) a) as T. rewrite Rabs_Ropp in T.
    replace (im_of l t * cos a - re_of l t * sin a) with (im_of l t * cos a + - re_of l t * sin a) by ring. lra.
  - pose proof (trig_pair (re_of l t) (- im_of l t) a) as T. rewrite Rabs_Ropp in T.
    replace (re_of l t * cos a - im_of l t * sin a) with (re_of l t * cos a + - im_of l t * sin a) by ring. lra.
  - pose proof (trig_pair (im_of l t) (re_of l t) a) as T. lra.
Qed.

Theorem exact_accurate : forall N, (Z.of_nat N <= 2 ^ 40)%Z -> accurate exact_fft N (/ 8388608).
Proof.
  intros N HN l Ll Bl j Hj.
  assert (W0 : 0 <= weight l) by (apply sumn_nonneg; intros t _; pose proof (Rabs_pos (re_of l t)); pose proof (Rabs_pos (im_of l t)); lra).
  assert (W : weight l <= bpow radix2 120).
  { unfold weight. rewrite Ll. eapply Rle_trans; [apply (sumn_le _ (fun _ => bpow radix2 71))|].
    - intros t Ht. unfold bounded_buffer in Bl. rewrite Forall_forall in Bl. unfold re_of, im_of.
      destruct (Bl (nth t l (f0, f0)) ltac:(apply nth_In; lia)) as ((_ & B1) & (_ & B2)).
      change (bpow radix2 71) with (bpow radix2 (1 + 70)). rewrite bpow_plus. change (bpow radix2 1) with 2. lra.
    - rewrite sumn_const. apply Rle_trans with (bpow radix2 40 * bpow radix2 71).
      + apply Rmult_le_compat_r; [apply bpow_ge_0|]. rewrite INR_IZR_INZ. rewrite <- (IZR_Zpower radix2) by lia. now apply IZR_le.
      + rewrite <- bpow_plus. apply bpow_le. lia. }
  assert (K : forall r, Rabs r <= weight l -> fin (nearest_f32 r) /\ Rabs (B2R (nearest_f32 r) - r) <= / 8388608 * (weight l + slack)).
  { intros r Hr. destruct (nearest_f32_near r ltac:(lra)) as (F & E). split; [exact F|].
    assert (tiny <= / 8388608 * slack).
    { unfold tiny, slack. replace (/ 8388608) with (bpow radix2 (-23)) by (cbn; lra). rewrite <- bpow_plus. apply bpow_le. lia. }
    unfold u24 in E. lra. }
  destruct (exact_parts l j) as (P1 & P2 & P3 & P4). rewrite Ll in *.
  split; cbn [exact_fft fft_forward fft_inverse].
  - unfold exact_forward. set (g := fun j : nat => _ : complex). rewrite (nth_indep _ (f0, f0) (g 0%nat)) by (rewrite map_length, seq_length; lia).
    rewrite map_nth, seq_nth by lia. unfold g. rewrite Nat.add_0_l, Ll. cbn [fst snd].
    destruct (K _ P1) as (A1 & A2). destruct (K _ P2) as (B1 & B2). auto.
  - unfold exact_inverse. set (g := fun j : nat => _ : complex). rewrite (nth_indep _ (f0, f0) (g 0%nat)) by (rewrite map_length, seq_length; lia).
    rewrite map_nth, seq_nth by lia. unfold g. rewrite Nat.add_0_l, Ll. cbn [fst snd].
    destruct (K _ P3) as (A1 & A2). destruct (K _ P4) as (B1 & B2). auto.
Qed.
Print Assumptions exact_accurate.
