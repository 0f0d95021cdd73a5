(** The spectrum of a Hann-windowed sinusoid over the reals. *)
From Coq Require Import ZArith Bool List Arith Lia Reals Lra.
From Verif Require Import FourierFacts AutocorrelationValueProofs SpectrumFacts.
Local Open Scope R_scope.

Notation hyp a b := (sqrt (Rsqr a + Rsqr b)).

Lemma hyp_scal : forall k a b, hyp (k * a) (k * b) = Rabs k * hyp a b.
Proof.
  intros k a b. rewrite <- (sqrt_Rsqr_abs k), <- sqrt_mult; try apply Rle_0_sqr.
  - f_equal. unfold Rsqr. ring.
  - apply Rplus_le_le_0_compat; apply Rle_0_sqr.
Qed.
Lemma hyp_unit : forall a, hyp (sin a) (cos a) = 1.
Proof. intros a. rewrite sin2_cos2. apply sqrt_1. Qed.
Lemma hyp_unit' : forall a, hyp (cos a) (sin a) = 1.
Proof. intros a. rewrite Rplus_comm, sin2_cos2. apply sqrt_1. Qed.
Lemma hyp_opp_r : forall a b, hyp a (- b) = hyp a b.
Proof. intros a b. now rewrite <- Rsqr_neg. Qed.
Lemma hyp_0 : hyp 0 0 = 0.
Proof. rewrite Rsqr_0, Rplus_0_r. apply sqrt_0. Qed.

(** Sums of a sinusoid of angle p per step, phase f, over n steps. *)
Definition csum (n : nat) (p f : R) : R := sumn (fun t => cos (p * INR t + f)) n.
Definition ssum (n : nat) (p f : R) : R := sumn (fun t => sin (p * INR t + f)) n.

Lemma csum_tele : forall n p f, 2 * sin (p / 2) * csum n p f = sin ((INR n - / 2) * p + f) - sin (f - p / 2).
Proof.
  intros n p f. unfold csum. induction n as [|n IH].
  - cbn. replace ((0 - / 2) * p + f) with (f - p / 2) by lra. ring.
  - cbn [sumn]. rewrite Rmult_plus_distr_l, IH, S_INR.
    replace ((INR n + 1 - / 2) * p + f) with ((p * INR n + f) + p / 2) by lra.
    replace ((INR n - / 2) * p + f) with ((p * INR n + f) - p / 2) by lra. rewrite sin_plus, (sin_minus (p * INR n + f)). ring.
Qed.
Lemma ssum_tele : forall n p f, 2 * sin (p / 2) * ssum n p f = cos (f - p / 2) - cos ((INR n - / 2) * p + f).
Proof.
  intros n p f. unfold ssum. induction n as [|n IH].
  - cbn. replace ((0 - / 2) * p + f) with (f - p / 2) by lra. ring.
  - cbn [sumn]. rewrite Rmult_plus_distr_l, IH, S_INR.
    replace ((INR n + 1 - / 2) * p + f) with ((p * INR n + f) + p / 2) by lra.
    replace ((INR n - / 2) * p + f) with ((p * INR n + f) - p / 2) by lra. rewrite cos_plus, (cos_minus (p * INR n + f)). ring.
Qed.

Lemma sum_bound : forall n p f, sin (p / 2) <> 0 -> hyp (csum n p f) (ssum n p f) <= / Rabs (sin (p / 2)).
Proof.
  intros n p f H. assert (K : 0 < Rabs (sin (p / 2))) by now apply Rabs_pos_lt.
  apply Rmult_le_reg_l with (2 * Rabs (sin (p / 2))); [lra|].
  replace (2 * Rabs (sin (p / 2))) with (Rabs (2 * sin (p / 2))) by (rewrite Rabs_mult, Rabs_pos_eq by lra; reflexivity).
  rewrite <- hyp_scal, csum_tele, ssum_tele. rewrite Rabs_mult, (Rabs_pos_eq 2), Rmult_assoc, Rinv_r by lra.
  set (a := (INR n - / 2) * p + f). set (b := f - p / 2).
  unfold Rminus. rewrite (Rplus_comm (cos b)). rewrite Rsqr_plus, Rsqr_plus. 
  pose proof (hypot_triang (sin a) (- cos a) (- sin b) (cos b)) as T.
  rewrite hyp_opp_r, hyp_unit, <- (Rsqr_neg (sin b)), hyp_unit in T.
  rewrite <- (Rsqr_plus (sin a)), <- (Rsqr_plus (- cos a)). lra.
Qed.

(** Whole turns. *)
Lemma sin_turns : forall x (m : Z), sin (x + 2 * IZR m * PI) = sin x.
Proof.
  intros x m. destruct (Z_le_gt_dec 0 m) as [H|H].
  - rewrite <- (Z2Nat.id m), <- INR_IZR_INZ by auto. apply sin_period.
  - rewrite <- (sin_period (x + 2 * IZR m * PI) (Z.to_nat (- m))). f_equal. rewrite INR_IZR_INZ, Z2Nat.id, opp_IZR by lia. lra.
Qed.
Lemma cos_turns : forall x (m : Z), cos (x + 2 * IZR m * PI) = cos x.
Proof.
  intros x m. destruct (Z_le_gt_dec 0 m) as [H|H].
  - rewrite <- (Z2Nat.id m), <- INR_IZR_INZ by auto. apply cos_period.
  - rewrite <- (cos_period (x + 2 * IZR m * PI) (Z.to_nat (- m))). f_equal. rewrite INR_IZR_INZ, Z2Nat.id, opp_IZR by lia. lra.
Qed.

Lemma sum_zero : forall N (m : Z) f, (0 < N)%nat -> let p := 2 * PI * IZR m / INR N in sin (p / 2) <> 0 ->
  csum N p f = 0 /\ ssum N p f = 0.
Proof.
  intros N m f HN p H. assert (PN : 0 < INR N) by now apply lt_0_INR.
  assert (E : (INR N - / 2) * p + f = (f - p / 2) + 2 * IZR m * PI) by (unfold p; field; lra).
  pose proof (csum_tele N p f) as T1. pose proof (ssum_tele N p f) as T2. rewrite E, sin_turns in T1. rewrite E, cos_turns in T2.
  split; apply Rmult_eq_reg_l with (2 * sin (p / 2)); lra.
Qed.

(** The sine away from the multiples of pi. *)
Lemma sin_lower : forall x, 0 <= x <= / 4 -> 98 / 100 * x <= sin x.
Proof.
  intros x H. pose proof (sin_bound x 0 ltac:(lra) ltac:(pose proof PI_bounds; lra)) as (L & _).
  unfold sin_approx, sin_term in L. cbn [Nat.mul Nat.add sum_f_R0 pow] in L. 
  change (INR (fact 1)) with 1 in L. replace (INR (fact 3)) with 6 in L by (cbn; lra).
  assert (x * x <= / 16) by nra. nra.
Qed.
Lemma sin_away : forall x y, 0 <= x <= / 4 -> x <= y <= PI - x -> 98 / 100 * x <= sin y.
Proof.
  intros x y Hx Hy. pose proof PI_bounds. eapply Rle_trans; [now apply sin_lower|].
  destruct (Rle_lt_dec y (PI / 2)) as [C|C].
  - apply sin_incr_1; lra.
  - rewrite <- (sin_PI_x y). apply sin_incr_1; lra.
Qed.

(** ** The window *)
Definition wcos (N : nat) (p f : R) : R := sumn (fun t => hann_at N t * cos (p * INR t + f)) N.
Definition wsin (N : nat) (p f : R) : R := sumn (fun t => hann_at N t * sin (p * INR t + f)) N.

Lemma wcos_split : forall N p f, let a := 2 * PI / INR (N - 1) in
  wcos N p f = / 2 * csum N p f + (- / 4 * csum N (p + a) f + - / 4 * csum N (p - a) f).
Proof.
  intros N p f a. unfold wcos, csum. rewrite <- !sumn_scal, <- !sumn_plus. apply sumn_ext. intros t _.
  unfold hann_at. replace (2 * PI * INR t / INR (N - 1)) with (a * INR t) by (unfold a, Rdiv; ring).
  replace ((p + a) * INR t + f) with ((p * INR t + f) + a * INR t) by ring. replace ((p - a) * INR t + f) with ((p * INR t + f) - a * INR t) by ring.
  set (q := p * INR t + f). rewrite (cos_plus q), (cos_minus q). field.
Qed.
Lemma wsin_split : forall N p f, let a := 2 * PI / INR (N - 1) in
  wsin N p f = / 2 * ssum N p f + (- / 4 * ssum N (p + a) f + - / 4 * ssum N (p - a) f).
Proof.
  intros N p f a. unfold wsin, ssum. rewrite <- !sumn_scal, <- !sumn_plus. apply sumn_ext. intros t _.
  unfold hann_at. replace (2 * PI * INR t / INR (N - 1)) with (a * INR t) by (unfold a, Rdiv; ring).
  replace ((p + a) * INR t + f) with ((p * INR t + f) + a * INR t) by ring. replace ((p - a) * INR t + f) with ((p * INR t + f) - a * INR t) by ring.
  set (q := p * INR t + f). rewrite (sin_plus q), (sin_minus q). field.
Qed.

Definition leak (N : nat) (p f : R) : R := hyp (wcos N p f) (wsin N p f).

(** Three bins away from the centre the window lets through less than a twelfth. *)
Lemma leak_far : forall N (m : Z) f, (64 <= N)%nat -> (3 <= m <= Z.of_nat N - 3)%Z ->
  leak N (2 * PI * IZR m / INR N) f <= INR N / 12.
Proof.
  intros N m f HN Hm. set (p := 2 * PI * IZR m / INR N). set (a := 2 * PI / INR (N - 1)).
  assert (PN : 64 <= INR N) by (replace 64 with (INR 64) by (rewrite INR_IZR_INZ; reflexivity); now apply le_INR).
  assert (EN : INR (N - 1) = INR N - 1) by (rewrite minus_INR by lia; reflexivity).
  pose proof PI_bounds as PB.
  assert (M : 3 <= IZR m <= INR N - 3).
  { rewrite INR_IZR_INZ. split; [now apply IZR_le|]. rewrite <- minus_IZR. apply IZR_le. lia. }
  set (x := 198 / 100 * PI / INR N).
  assert (PIN : 0 < PI / INR N <= PI / 64).
  { split; [apply Rdiv_lt_0_compat; lra|]. unfold Rdiv. apply Rmult_le_compat_l; [lra|]. apply Rinv_le_contravar; lra. }
  assert (Hx : 0 <= x <= / 4) by (unfold x; replace (198 / 100 * PI / INR N) with (198 / 100 * (PI / INR N)) by (unfold Rdiv; ring); lra).
  assert (A1 : a / 2 <= 102 / 100 * (PI / INR N)).
  { unfold a. rewrite EN. replace (2 * PI / (INR N - 1) / 2) with (PI / INR N * (INR N / (INR N - 1))) by (field; lra).
    rewrite (Rmult_comm (102 / 100)). apply Rmult_le_compat_l; [lra|].
    apply Rmult_le_reg_r with (INR N - 1); [lra|]. replace (INR N / (INR N - 1) * (INR N - 1)) with (INR N) by (field; lra). lra. }
  assert (A0 : 0 <= a / 2) by (unfold a; rewrite EN; apply Rmult_le_pos; [|lra]; apply Rmult_le_pos; [lra|left; apply Rinv_0_lt_compat; lra]).
  assert (P1 : p / 2 = PI / INR N * IZR m) by (unfold p; field; lra).
  assert (PIe : PI = PI / INR N * INR N) by (field; lra).
  assert (X : x = 198 / 100 * (PI / INR N)) by (unfold x, Rdiv; ring).
  set (r := PI / INR N) in *.
  assert (C1 : x <= (p + a) / 2 <= PI - x) by (replace ((p + a) / 2) with (p / 2 + a / 2) by lra; rewrite P1, X; nra).
  assert (C2 : x <= (p - a) / 2 <= PI - x) by (replace ((p - a) / 2) with (p / 2 - a / 2) by lra; rewrite P1, X; nra).
  assert (C0 : x <= p / 2 <= PI - x) by (rewrite P1, X; nra).
  pose proof (sin_away x _ Hx C0) as S0. pose proof (sin_away x _ Hx C1) as S1. pose proof (sin_away x _ Hx C2) as S2.
  assert (Px : 0 < x) by lra.
  destruct (sum_zero N m f ltac:(lia)) as (Z1 & Z2); [fold p; lra|]. fold p in Z1, Z2.
  assert (B : forall q, 98 / 100 * x <= sin (q / 2) -> hyp (csum N q f) (ssum N q f) <= INR N / 6).
  { intros q Hq. eapply Rle_trans; [apply sum_bound; lra|]. rewrite Rabs_pos_eq by lra.
    eapply Rle_trans; [apply Rinv_le_contravar; [|exact Hq]; lra|].
    apply Rmult_le_reg_r with (98 / 100 * x); [lra|]. rewrite Rinv_l by lra. rewrite X. unfold r.
    replace (INR N / 6 * (98 / 100 * (198 / 100 * (PI / INR N)))) with (98 * 198 / 60000 * PI) by (field; lra). lra. }
  pose proof (B _ S1) as B1. pose proof (B _ S2) as B2. clear B.
  unfold leak. rewrite wcos_split, wsin_split. fold a. rewrite Z1, Z2, !Rmult_0_r, !Rplus_0_l.
  eapply Rle_trans; [apply hypot_triang|]. rewrite !hyp_scal, Rabs_Ropp, Rabs_pos_eq by lra. lra.
Qed.

Lemma hann_sum : forall N, (3 <= N)%nat -> sumn (hann_at N) N = (INR N - 1) / 2.
Proof.
  intros N HN. unfold hann_at.
  rewrite (sumn_ext _ (fun t => / 2 + - / 2 * cos (2 * PI * INR t / INR (N - 1)))) by (intros; field; apply not_0_INR; lia).
  rewrite sumn_plus, sumn_const, sumn_scal.
  assert (E : N = S (N - 1)) by lia. rewrite E at 2. cbn [sumn].
  rewrite (sumn_ext _ (fun j => cos (angle (N - 1) (INR j) (IZR 1)))) by (intros; unfold angle; f_equal; unfold Rdiv; ring).
  rewrite cos_sum by lia. cbn [Z.eqb].
  replace (2 * PI * INR (N - 1) / INR (N - 1)) with (2 * PI) by (field; apply not_0_INR; lia). rewrite cos_2PI. lra.
Qed.
Lemma leak_0 : forall N f, (3 <= N)%nat -> leak N 0 f = (INR N - 1) / 2.
Proof.
  intros N f HN. unfold leak, wcos, wsin.
  rewrite (sumn_ext _ (fun t => cos f * hann_at N t)) by (intros; rewrite Rmult_0_l, Rplus_0_l; ring).
  rewrite (sumn_ext (fun t => hann_at N t * sin _) (fun t => sin f * hann_at N t)) by (intros; rewrite Rmult_0_l, Rplus_0_l; ring).
  rewrite !sumn_scal, hann_sum by auto. rewrite (Rmult_comm (cos f)), (Rmult_comm (sin f)), hyp_scal, hyp_unit'.
  apply (le_INR 3) in HN. cbn in HN. rewrite Rabs_pos_eq; lra.
Qed.

(** ** The spectrum of a windowed sinusoid of k cycles per frame. *)
Lemma tone_bin : forall N k b a f, (0 < N)%nat -> 0 <= a ->
  let y t := a * cos (2 * PI * INR k * INR t / INR N + f) * hann_at N t in
  let up := 2 * PI * IZR (Z.of_nat k + Z.of_nat b) / INR N in let down := 2 * PI * IZR (Z.of_nat k - Z.of_nat b) / INR N in
  a / 2 * (leak N down f - leak N up f) <= amplitude N y b <= a / 2 * (leak N down f + leak N up f).
Proof.
  intros N k b a f HN Ha y up down. assert (PN : 0 < INR N) by now apply lt_0_INR.
  assert (C : cos_part N y b = a / 2 * (wcos N down f + wcos N up f)).
  { unfold cos_part, wcos. rewrite <- sumn_plus, <- sumn_scal. apply sumn_ext. intros t _. unfold y.
    replace (down * INR t + f) with ((2 * PI * INR k * INR t / INR N + f) - 2 * PI * INR b * INR t / INR N)
      by (unfold down; rewrite minus_IZR, <- !INR_IZR_INZ; field; lra).
    replace (up * INR t + f) with ((2 * PI * INR k * INR t / INR N + f) + 2 * PI * INR b * INR t / INR N)
      by (unfold up; rewrite plus_IZR, <- !INR_IZR_INZ; field; lra).
    set (q := 2 * PI * INR k * INR t / INR N + f). rewrite (cos_plus q), (cos_minus q). field. }
  assert (S : sin_part N y b = a / 2 * (- wsin N down f + wsin N up f)).
  { unfold sin_part, wsin. replace (- sumn _ N) with (-1 * sumn (fun t => hann_at N t * sin (down * INR t + f)) N) by ring.
    rewrite <- sumn_scal, <- sumn_plus, <- sumn_scal. apply sumn_ext. intros t _. unfold y.
    replace (down * INR t + f) with ((2 * PI * INR k * INR t / INR N + f) - 2 * PI * INR b * INR t / INR N)
      by (unfold down; rewrite minus_IZR, <- !INR_IZR_INZ; field; lra).
    replace (up * INR t + f) with ((2 * PI * INR k * INR t / INR N + f) + 2 * PI * INR b * INR t / INR N)
      by (unfold up; rewrite plus_IZR, <- !INR_IZR_INZ; field; lra).
    set (q := 2 * PI * INR k * INR t / INR N + f). rewrite (sin_plus q), (sin_minus q). field. }
  unfold amplitude. rewrite C, S, hyp_scal, Rabs_pos_eq by lra.
  pose proof (hypot_triang (wcos N down f) (- wsin N down f) (wcos N up f) (wsin N up f)) as T1.
  pose proof (hypot_triang (wcos N down f + wcos N up f) (- wsin N down f + wsin N up f) (- wcos N up f) (- wsin N up f)) as T2.
  replace (wcos N down f + wcos N up f + - wcos N up f) with (wcos N down f) in T2 by ring.
  replace (- wsin N down f + wsin N up f + - wsin N up f) with (- wsin N down f) in T2 by ring.
  rewrite hyp_opp_r in T1. rewrite hyp_opp_r, hyp_opp_r, <- (Rsqr_neg (wcos N up f)) in T2.
  change (hyp (wcos N down f) (wsin N down f)) with (leak N down f) in *. change (hyp (wcos N up f) (wsin N up f)) with (leak N up f) in *.
  split; apply Rmult_le_compat_l; lra.
Qed.

Lemma leak_neg : forall N p f, leak N (- p) f = leak N p (- f).
Proof.
  intros N p f. unfold leak, wcos, wsin.
  rewrite (sumn_ext _ (fun t => hann_at N t * cos (p * INR t + - f))).
  2:{ intros. f_equal. replace (- p * INR i + f) with (- (p * INR i + - f)) by ring. apply cos_neg. }
  rewrite (sumn_ext (fun t => hann_at N t * sin _) (fun t => -1 * (hann_at N t * sin (p * INR t + - f)))).
  2:{ intros. replace (- p * INR i + f) with (- (p * INR i + - f)) by ring. rewrite sin_neg. ring. }
  rewrite sumn_scal. set (u := sumn _ N). set (v := sumn _ N). replace (-1 * v) with (- v) by ring. apply hyp_opp_r.
Qed.

(** The bin of the tone stands out. *)
Lemma tone_peak : forall N k a f, (64 <= N)%nat -> (3 <= k)%nat -> (k + 3 <= N / 2)%nat -> 0 <= a ->
  let y t := a * cos (2 * PI * INR k * INR t / INR N + f) * hann_at N t in a * INR N / 5 <= amplitude N y k.
Proof.
  intros N k a f HN Hk Hk' Ha y. destruct (tone_bin N k k a f ltac:(lia) Ha) as (L & _). fold y in L. eapply Rle_trans; [|exact L].
  assert (PN : 64 <= INR N) by (replace 64 with (INR 64) by (rewrite INR_IZR_INZ; reflexivity); now apply le_INR).
  rewrite Z.sub_diag. replace (2 * PI * 0 / INR N) with 0 by (field; lra). rewrite leak_0 by lia.
  pose proof (Nat.mul_div_le N 2 ltac:(lia)).
  pose proof (leak_far N (Z.of_nat k + Z.of_nat k) f HN ltac:(lia)) as F.
  replace (a * INR N / 5) with (a / 2 * (2 / 5 * INR N)) by field. apply Rmult_le_compat_l; lra.
Qed.
Lemma tone_far : forall N k b a f, (64 <= N)%nat -> (3 <= k)%nat -> (k + 3 <= N / 2)%nat -> 0 <= a ->
  (b <= N / 2)%nat -> (b + 3 <= k \/ k + 3 <= b)%nat ->
  let y t := a * cos (2 * PI * INR k * INR t / INR N + f) * hann_at N t in amplitude N y b <= a * INR N / 12.
Proof.
  intros N k b a f HN Hk Hk' Ha Hb Hd y. destruct (tone_bin N k b a f ltac:(lia) Ha) as (_ & U). fold y in U. eapply Rle_trans; [exact U|].
  assert (PN : 64 <= INR N) by (replace 64 with (INR 64) by (rewrite INR_IZR_INZ; reflexivity); now apply le_INR).
  pose proof (Nat.mul_div_le N 2 ltac:(lia)).
  pose proof (leak_far N (Z.of_nat k + Z.of_nat b) f HN ltac:(lia)) as F.
  replace (a * INR N / 12) with (a / 2 * (INR N / 12 + INR N / 12)) by field. apply Rmult_le_compat_l; [lra|]. apply Rplus_le_compat; [|exact F].
  destruct Hd as [D|D].
  - apply leak_far; lia.
  - replace (2 * PI * IZR (Z.of_nat k - Z.of_nat b) / INR N) with (- (2 * PI * IZR (Z.of_nat b - Z.of_nat k) / INR N))
      by (rewrite !minus_IZR; field; lra).
    rewrite leak_neg. apply leak_far; lia.
Qed.
