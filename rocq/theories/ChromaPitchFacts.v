(** Real-number content of the chroma mapping: frequencies, pitches, contributions. *)
From Coq Require Import ZArith Reals Lra Lia.
From Flocq Require Import Core.
From Verif Require Import Rust F32 F32Facts F32More ListFacts Bounds FloatSums Libm Chroma ChromaProofs TimeSignatureProofs
  FourierFacts TempoSpectrumFacts AutocorrelationValueProofs TimeSignatureScoreFacts.
From Verif Require Import NormalizationProofs.
From Verif Require Import L2Proofs ChromaValueProofs ChromaProps OnsetStrengthFacts.
From Verif Require TempoLagProps.
Local Open Scope R_scope.

Lemma fin_of_rnd_big : forall x r, nn x -> fx x = sat (rnd r) -> Rabs r <= 1099511627776 -> fin x /\ B2R x = rnd r.
Proof.
  intros x r N E H. assert (B : bpow radix2 40 < big) by (apply bpow_lt; lia). apply Rabs_le_inv in H.
  assert (R : - bpow radix2 40 <= rnd r <= bpow radix2 40).
  { assert (1099511627776 = bpow radix2 40) by reflexivity.
    split; [rewrite <- (rnd_bpow 40) by lia; rewrite <- rnd_opp; apply rnd_mono; lra|rewrite <- (rnd_bpow 40) by lia; apply rnd_mono; lra]. }
  rewrite sat_id in E by lra. assert (F : fin x) by (apply fin_iff; [exact N|rewrite E; lra]).
  split; [exact F|]. rewrite <- fx_fin by exact F. exact E.
Qed.

(** ** Frequencies *)
Lemma freq_val : forall k rate fft, (k <= fft)%nat -> (1000 <= Z.of_nat rate <= 200000)%Z -> (1 <= Z.of_nat fft <= 65536)%Z ->
  let f := INR k * (INR rate / INR fft) in
  let ff := fmul (n2f k) (fdiv (n2f rate) (n2f fft)) in
  fin ff /\ Rabs (B2R ff - f) <= / 7000000 * f.
Proof.
  intros k rate fft K Hr Hf f ff.
  destruct (n2f_INR k ltac:(lia)) as (Fk & Vk), (n2f_INR rate ltac:(lia)) as (Fr & Vr), (n2f_INR fft ltac:(lia)) as (Ff & Vf).
  assert (Br : 1000 <= INR rate <= 200000) by (rewrite INR_IZR_INZ; split; apply IZR_le; lia).
  assert (Bf : 1 <= INR fft <= 65536) by (rewrite INR_IZR_INZ; split; apply IZR_le; lia).
  assert (Bk : 0 <= INR k <= 65536) by (split; [apply pos_INR|rewrite INR_IZR_INZ; apply IZR_le; lia]).
  assert (Q : / 66 <= INR rate / INR fft <= 200000).
  { split; apply Rmult_le_reg_r with (INR fft); try lra; replace (INR rate / INR fft * INR fft) with (INR rate) by (field; lra); lra. }
  unfold ff, f. set (q := INR rate / INR fft) in *.
  destruct (fdiv_fx (n2f rate) (n2f fft) Fr Ff ltac:(lra)) as (Nd & Ed). rewrite Vr, Vf in Ed. fold q in Ed.
  destruct (fin_of_rnd_big _ _ Nd Ed ltac:(rewrite Rabs_pos_eq; lra)) as (Fd & Vd).
  assert (L1 : bpow radix2 (-60) <= q). { apply Rle_trans with (bpow radix2 (-7)); [apply bpow_le; lia|simpl; lra]. }
  pose proof (TempoLagProps.rnd_rel q L1) as R1. rewrite <- Vd in R1. set (d := fdiv (n2f rate) (n2f fft)) in *.
  apply Rabs_le_inv in R1.
  destruct (fmul_fx (n2f k) d Fk Fd) as (Nm & Em). rewrite Vk in Em.
  assert (P : 0 <= INR k * B2R d <= 65536 * 200001) by (split; [apply Rmult_le_pos; lra|apply Rmult_le_compat; lra]).
  destruct (fin_of_rnd_big _ _ Nm Em ltac:(rewrite Rabs_pos_eq; lra)) as (Fm & Vm). split; [exact Fm|]. rewrite Vm.
  destruct (Nat.eq_dec k 0) as [-> | K0].
  - change (INR 0) with 0. rewrite !Rmult_0_l, rnd_0, Rminus_0_r, Rabs_R0. lra.
  - assert (Bk1 : 1 <= INR k) by (apply (le_INR 1); lia).
    assert (Pk : INR k * (99 / 100 * q) <= INR k * B2R d) by (apply Rmult_le_compat_l; lra).
    assert (Kq : q <= INR k * q) by (rewrite <- (Rmult_1_l q) at 1; apply Rmult_le_compat_r; lra).
    assert (L2 : bpow radix2 (-60) <= INR k * B2R d).
    { apply Rle_trans with (bpow radix2 (-8)); [apply bpow_le; lia|]. simpl. lra. }
    pose proof (TempoLagProps.rnd_rel _ L2) as R2. apply Rabs_le_inv in R2.
    assert (D1 : INR k * (q * (1 - / 16500000)) <= INR k * B2R d <= INR k * (q * (1 + / 16500000))) by (split; apply Rmult_le_compat_l; lra).
    set (m := INR k * B2R d) in *. clearbody m. apply Rabs_le. split; lra.
Qed.

(** ** Pitch *)
Definition lg (x : R) : R := ln x / ln 2.
Definition log2_accurate (f : f32 -> f32) (e : R) : Prop := forall x, fin x -> / 8 <= B2R x <= 16 ->
  fin (f x) /\ Rabs (B2R (f x) - lg (B2R x)) <= e.

Lemma ln2_ge : 69 / 100 <= ln 2.
Proof.
  assert (E : exp (69 / 100) <= 2).
  { assert (A : exp (69 / 100) = exp (- (69 / 100)) * (exp (69 / 100) * exp (69 / 100))) by (rewrite <- !exp_plus; f_equal; lra).
    (* exp x <= 1 / (1 - x + x^2/2 - x^3/6) via a product of small factors *)
    assert (B : forall t, 0 <= t < 1 -> exp t <= / (1 - t)).
    { intros t Ht. pose proof (exp_ineq1_le (- t)) as X. rewrite exp_Ropp in X. pose proof (exp_pos t) as P.
      assert (I : 0 < 1 - t) by lra. apply Rmult_le_reg_r with (1 - t); [lra|]. rewrite Rinv_l by lra.
      assert (Y : (1 - t) * exp t <= / exp t * exp t) by (apply Rmult_le_compat_r; lra). rewrite Rinv_l in Y by lra. lra. }
    assert (C : exp (69 / 100) = exp (69 / 12800) ^ 128).
    { replace (69 / 100) with (INR 128 * (69 / 12800)) by (rewrite INR_IZR_INZ; cbn; lra). 
      clear A. assert (G : forall n x, exp (INR n * x) = exp x ^ n).
      { intros n x. induction n as [|n IH]; [cbn [INR pow]; rewrite Rmult_0_l; apply exp_0|]. rewrite S_INR. cbn [pow]. rewrite <- IH, <- exp_plus. f_equal. ring. }
      apply G. }
    rewrite C. apply Rle_trans with ((/ (1 - 69 / 12800)) ^ 128).
    - apply pow_incr. split; [left; apply exp_pos|]. apply B. lra.
    - simpl. lra. }
  rewrite <- (ln_exp (69 / 100)). destruct (Req_dec (exp (69 / 100)) 2) as [-> | N]; [lra|].
  left. apply ln_increasing; [apply exp_pos|lra].
Qed.

Lemma ln_1p : forall e, Rabs e <= / 2 -> Rabs (ln (1 + e)) <= 2 * Rabs e.
Proof.
  intros e H. apply Rabs_le_inv in H.
  assert (U : ln (1 + e) <= e).
  { rewrite <- (ln_exp e) at 2. pose proof (exp_ineq1_le e) as X. destruct X as [X | X]; [left; apply ln_increasing; lra|rewrite X; lra]. }
  assert (L : - ln (1 + e) <= - e / (1 + e)).
  { rewrite <- ln_Rinv by lra. set (d := - e / (1 + e)). assert (D : / (1 + e) = 1 + d) by (unfold d; field; lra). rewrite D.
    rewrite <- (ln_exp d) at 2. pose proof (exp_ineq1_le d) as X. assert (P : 0 < 1 + d) by (rewrite <- D; apply Rinv_0_lt_compat; lra).
    destruct X as [X | X]; [left; apply ln_increasing; lra|rewrite X; lra]. }
  assert (M : - e / (1 + e) <= 2 * Rabs e).
  { apply Rmult_le_reg_r with (1 + e); [lra|]. replace (- e / (1 + e) * (1 + e)) with (- e) by (field; lra).
    unfold Rabs. destruct (Rcase_abs e); nra. }
  apply Rabs_le. split; [lra|]. pose proof (Rle_abs e). pose proof (Rabs_pos e). lra.
Qed.

Lemma lg_near : forall x y e, 0 < x -> 0 <= e <= / 2 -> Rabs (y - x) <= e * x -> Rabs (lg y - lg x) <= 3 * e.
Proof.
  intros x y e X E H. set (d := (y - x) / x). assert (D : y = x * (1 + d)) by (unfold d; field; lra).
  assert (Hd : Rabs d <= e).
  { unfold d, Rdiv. rewrite Rabs_mult, (Rabs_pos_eq (/ x)) by (left; now apply Rinv_0_lt_compat).
    apply Rmult_le_reg_r with x; [lra|]. rewrite Rmult_assoc, Rinv_l by lra. lra. }
  pose proof (Rabs_le_inv _ _ Hd) as Hd'. rewrite D. unfold lg. rewrite ln_mult by lra.
  replace ((ln x + ln (1 + d)) / ln 2 - ln x / ln 2) with (ln (1 + d) / ln 2) by (pose proof ln2_ge; field; lra).
  pose proof (ln_1p d ltac:(lra)) as B. pose proof ln2_ge as L2. unfold Rdiv. rewrite Rabs_mult, (Rabs_pos_eq (/ ln 2)) by (left; apply Rinv_0_lt_compat; lra).
  apply Rmult_le_reg_r with (ln 2); [lra|]. rewrite Rmult_assoc, Rinv_l by lra.
  assert (P : 3 * e * (69 / 100) <= 3 * e * ln 2) by (apply Rmult_le_compat_l; lra). lra.
Qed.

Lemma lg_range : forall x, / 8 <= x <= 16 -> - 3 <= lg x <= 4.
Proof.
  intros x H. pose proof ln2_ge as L2. unfold lg.
  assert (A : ln x <= 4 * ln 2).
  { replace (4 * ln 2) with (ln 16). 2:{ replace 16 with (2 * 2 * (2 * 2)) by lra. rewrite !ln_mult by lra. lra. }
    destruct (Req_dec x 16) as [-> | N]; [lra|left; apply ln_increasing; lra]. }
  assert (B : - (3 * ln 2) <= ln x).
  { replace (- (3 * ln 2)) with (ln (/ 8)). 2:{ rewrite ln_Rinv by lra. replace 8 with (2 * 2 * 2) by lra. rewrite !ln_mult by lra. lra. }
    destruct (Req_dec x (/ 8)) as [-> | N]; [lra|left; apply ln_increasing; lra]. }
  split; apply Rmult_le_reg_r with (ln 2); try lra; replace (ln x / ln 2 * ln 2) with (ln x) by (field; lra); lra.
Qed.

Lemma rnd_abs : forall r B, Rabs r <= B -> 1 <= B -> Rabs (rnd r - r) <= B / 16000000.
Proof.
  intros r B H HB. pose proof (rnd_near r) as N. assert (T : tiny <= / 10000000000).
  { eapply Rle_trans; [apply (bpow_le radix2 _ (-40)); lia|]. simpl. lra. }
  unfold u24 in N. lra.
Qed.

Lemma pitch_val : forall L ff f t, log2_accurate (m_log2 L) (/ 1048576) -> fin ff -> fin t -> 99 <= f <= 5001 ->
  Rabs (B2R ff - f) <= / 7000000 * f -> Rabs (B2R t) <= 1 ->
  let s := semitone L t ff in
  fin s /\ Rabs (B2R s - (12 * lg (f / 440) + 57 - B2R t)) <= / 20000.
Proof.
  intros L ff f t HL Ff Ft Hf Hff Ht s. apply Rabs_le_inv in Hff. apply Rabs_le_inv in Ht.
  destruct (z2f_exact 440 ltac:(lia)) as (Fa & Va). destruct (z2f_exact 57 ltac:(lia)) as (Fb & Vb). destruct f12_val as (Fc & Vc).
  unfold s, semitone, a4.
  destruct (fdiv_fx ff (z2f 440) Ff Fa ltac:(rewrite Va; lra)) as (N1 & E1). rewrite Va in E1.
  set (x := B2R ff / 440) in *. assert (Hx : 22 / 100 <= x <= 12) by (unfold x; lra).
  destruct (fin_of_rnd_big _ _ N1 E1 ltac:(rewrite Rabs_pos_eq; lra)) as (F1 & V1).
  pose proof (TempoLagProps.rnd_rel x ltac:(apply Rle_trans with (bpow radix2 (-3)); [apply bpow_le; lia|simpl; lra])) as R1.
  rewrite <- V1 in R1. set (d := fdiv ff (z2f 440)) in *. apply Rabs_le_inv in R1.
  destruct (HL d F1 ltac:(lra)) as (Fl & El).
  assert (EL : Rabs (lg (B2R d) - lg (f / 440)) <= 3 * (/ 4000000)).
  { apply lg_near; [lra|lra|]. unfold x in R1. apply Rabs_le. split; lra. }
  pose proof (lg_range (f / 440) ltac:(lra)) as Lr. set (l := lg (f / 440)) in *. clearbody l.
  set (ld := m_log2 L d) in *. apply Rabs_le_inv in El. apply Rabs_le_inv in EL.
  assert (Wl : Rabs (B2R ld - l) <= 18 / 10000000) by (apply Rabs_le; lra). clear El EL. apply Rabs_le_inv in Wl.
  destruct (fmul_fx (z2f 12) ld Fc Fl) as (N2 & E2). rewrite Vc in E2.
  assert (H2 : Rabs (12 * B2R ld) <= 49) by (apply Rabs_le; lra).
  destruct (fin_of_rnd_big _ _ N2 E2 ltac:(lra)) as (F2 & V2). pose proof (rnd_abs _ 49 H2 ltac:(lra)) as R2. rewrite <- V2 in R2.
  set (m := fmul (z2f 12) ld) in *. apply Rabs_le_inv in R2.
  destruct (fadd_fx m (z2f 57) F2 Fb) as (N3 & E3). rewrite Vb in E3.
  assert (H3 : Rabs (B2R m + 57) <= 107) by (apply Rabs_le; lra).
  destruct (fin_of_rnd_big _ _ N3 E3 ltac:(lra)) as (F3 & V3). pose proof (rnd_abs _ 107 H3 ltac:(lra)) as R3. rewrite <- V3 in R3.
  set (a := fadd m (z2f 57)) in *. apply Rabs_le_inv in R3.
  destruct (fsub_fx a t F3 Ft) as (N4 & E4).
  assert (H4 : Rabs (B2R a - B2R t) <= 109) by (apply Rabs_le; lra).
  destruct (fin_of_rnd_big _ _ N4 E4 ltac:(lra)) as (F4 & V4). pose proof (rnd_abs _ 109 H4 ltac:(lra)) as R4. rewrite <- V4 in R4.
  apply Rabs_le_inv in R4. split; [exact F4|]. apply Rabs_le. split; lra.
Qed.

(** The nearest note, once the pitch is clear of the half-way points. *)
Lemma note_val : forall s q p, fin s -> Rabs (B2R s - q) <= / 20000 -> Rabs (q - IZR p) <= 4999 / 10000 -> (Z.abs p <= 10000)%Z ->
  fin (fround s) /\ B2R (fround s) = IZR p /\ f2i32 (fround s) = p.
Proof.
  intros s q p F H1 H2 P. destruct (fround_spec s F) as (Fr & Vr).
  assert (E : ZnearestA (B2R s) = p).
  { apply Znearest_imp. apply Rabs_le_inv in H1. apply Rabs_le_inv in H2. apply Rabs_lt. lra. }
  rewrite E in Vr. split; [exact Fr|]. split; [exact Vr|]. unfold f2i32. rewrite f2int_fin, Vr, Ztrunc_IZR by auto. lia.
Qed.

(** ** Band membership *)
Lemma nyq_val : forall rate, (1000 <= Z.of_nat rate <= 200000)%Z ->
  let ny := fdiv (n2f rate) f2 in fin ny /\ B2R ny = INR rate / 2.
Proof.
  intros rate H ny. destruct (n2f_INR rate ltac:(lia)) as (Fr & Vr).
  assert (F2' : fin f2) by reflexivity.
  assert (V2 : B2R f2 = 2).
  { rewrite <- SF2R_B2SF. replace (B2SF f2) with (SpecFloat.S754_finite false 8388608 (-22)) by (vm_compute; reflexivity).
    cbn [SF2R cond_Zopp]. unfold F2R. cbn [Fnum Fexp]. change (bpow radix2 (-22)) with (/ 4194304). lra. }
  assert (Br : 1000 <= INR rate <= 200000) by (rewrite INR_IZR_INZ; split; apply IZR_le; lia).
  destruct (fdiv_fx (n2f rate) f2 Fr F2' ltac:(lra)) as (N & E). rewrite Vr, V2 in E.
  destruct (fin_of_rnd_big _ _ N E ltac:(rewrite Rabs_pos_eq; lra)) as (F & V). split; [exact F|]. unfold ny. rewrite V.
  apply round_generic; [typeclasses eauto|]. rewrite INR_IZR_INZ.
  replace (IZR (Z.of_nat rate) / 2) with (F2R (Float radix2 (Z.of_nat rate) (-1))) by (unfold F2R; cbn [Fnum Fexp]; change (bpow radix2 (-1)) with (/ 2); reflexivity).
  apply generic_format_FLT. exists (Float radix2 (Z.of_nat rate) (-1)); cbn [Fnum Fexp];
    [reflexivity|change (radix2 ^ 24)%Z with 16777216%Z; lia|vm_compute; discriminate].
Qed.

Lemma used_val : forall ff f rate, (1000 <= Z.of_nat rate <= 200000)%Z -> fin ff -> 0 <= f -> Rabs (B2R ff - f) <= / 7000000 * f ->
  let ny := fdiv (n2f rate) f2 in
  let used := fle (z2f 100) ff && fle ff (fmin (z2f 5000) ny) && flt ff ny in
  (1000001 / 10000 <= f <= 4999999 / 1000 -> f <= INR rate / 2 * (1 - / 1000000) -> used = true) /\
  (f <= 999999 / 10000 \/ 5000001 / 1000 <= f \/ INR rate / 2 * (1 + / 1000000) <= f -> used = false) /\
  (used = true -> 99 <= f <= 5001).
Proof.
  intros ff f rate Hr Ff F0 H ny used. destruct (nyq_val rate Hr) as (Fn & Vn). fold ny in Fn, Vn.
  destruct (z2f_exact 100 ltac:(lia)) as (F1 & V1). destruct (z2f_exact 5000 ltac:(lia)) as (F5 & V5).
  assert (Br : 1000 <= INR rate <= 200000) by (rewrite INR_IZR_INZ; split; apply IZR_le; lia).
  destruct (BayesianLikelihoodProps.fmin_B2R (z2f 5000) ny F5 Fn) as (Fm & Vm). rewrite V5, Vn in Vm.
  assert (U : used = Rle_bool 100 (B2R ff) && Rle_bool (B2R ff) (Rmin 5000 (INR rate / 2)) && Rlt_bool (B2R ff) (INR rate / 2)).
  { unfold used, fle, flt. now rewrite !Bleb_correct, Bltb_correct, V1, Vm, Vn by assumption. }
  rewrite U. clear U. apply Rabs_le_inv in H. assert (Pr : 500 <= INR rate / 2) by lra. set (r := INR rate / 2) in *. set (g := B2R ff) in *.
  split; [|split].
  - intros A B. assert (g <= 5000) by lra. assert (g < r) by lra. assert (100 <= g) by lra.
    rewrite !Rle_bool_true, Rlt_bool_true; auto. apply Rmin_glb; lra.
  - intros [A | [A | A]].
    + rewrite Rle_bool_false by lra. reflexivity.
    + rewrite (Rle_bool_false g); [now rewrite andb_false_r|]. eapply Rle_lt_trans; [apply Rmin_l|]. lra.
    + rewrite (Rle_bool_false g); [now rewrite andb_false_r|]. eapply Rle_lt_trans; [apply Rmin_r|]. lra.
  - intros A. apply andb_true_iff in A. destruct A as (A & _). apply andb_true_iff in A. destruct A as (A & B).
    destruct (Rle_bool_spec 100 g); [|discriminate]. destruct (Rle_bool_spec g (Rmin 5000 r)) as [C|]; [|discriminate].
    pose proof (Rmin_l 5000 r). lra.
Qed.

(** ** Contributions *)
Definition q06 : R := 5033165 / 8388608.
Definition pwr (q x : R) : R := if Rle_dec x 0 then 0 else Rpower x q.
Definition pow_accurate (f : f32 -> f32 -> f32) (e : R) : Prop := forall x, fin x -> 0 <= B2R x <= bpow radix2 50 ->
  fin (f x (lit 5033165 (-23))) /\ Rabs (B2R (f x (lit 5033165 (-23))) - pwr q06 (B2R x)) <= e * pwr q06 (B2R x).

Lemma exp_near_0 : forall t, Rabs t <= / 2 -> Rabs (exp t - 1) <= 2 * Rabs t.
Proof.
  intros t H. pose proof (Rabs_le_inv _ _ H) as B. pose proof (exp_ineq1_le t) as L.
  assert (U : exp t * (1 - t) <= 1).
  { pose proof (exp_ineq1_le (- t)) as X. pose proof (exp_pos t) as P. assert (E : exp t * exp (- t) = 1) by (rewrite <- exp_plus, <- exp_0; f_equal; ring). rewrite <- E.
    apply Rmult_le_compat_l; lra. }
  apply Rabs_le. split.
  - pose proof (Rle_abs (- t)) as X. rewrite Rabs_Ropp in X. pose proof (Rabs_pos t). lra.
  - destruct (Rle_or_lt t 0) as [N | N].
    + pose proof (Rabs_pos t). assert (exp t <= 1) by (rewrite <- exp_0; destruct N as [N | ->]; [left; now apply exp_increasing|lra]). lra.
    + rewrite Rabs_pos_eq by lra. nra.
Qed.

Lemma pos_float_ge : forall x : f32, fin x -> 0 < B2R x -> bpow radix2 (-149) <= B2R x.
Proof.
  intros x F P.
  destruct x as [s|s| |s m e B]; try discriminate; try (cbn in P; lra). destruct s; [cbn in P; pose proof (F2R_lt_0 radix2 (Float radix2 (Z.neg m) e) ltac:(reflexivity)); cbn in *; lra|].
  cbn [B2R cond_Zopp]. assert (E : (-149 <= e)%Z).
  { clear - B. pose proof B as B'. unfold SpecFloat.bounded in B'. apply andb_true_iff in B'. destruct B' as (B' & _).
    unfold SpecFloat.canonical_mantissa in B'. apply Zeq_bool_eq in B'. unfold fexp32, SpecFloat.fexp, SpecFloat.emin in B'. lia. }
  apply Rle_trans with (bpow radix2 e); [now apply bpow_le|]. apply bpow_le_F2R. reflexivity.
Qed.

Lemma ln_bpow : forall k, ln (bpow radix2 k) = IZR k * ln 2.
Proof.
  intros k. rewrite bpow_powerRZ. change (IZR radix2) with 2.
  rewrite <- (ln_exp (IZR k * ln 2)). f_equal. fold (Rpower 2 (IZR k)). apply powerRZ_Rpower. lra.
Qed.

Lemma pwr_near : forall x, fin x -> 0 <= B2R x <= bpow radix2 50 ->
  0 <= pwr (6 / 10) (B2R x) <= bpow radix2 30 /\
  Rabs (pwr q06 (B2R x) - pwr (6 / 10) (B2R x)) <= / 140000 * pwr (6 / 10) (B2R x).
Proof.
  intros x F H. unfold pwr. destruct (Rle_dec (B2R x) 0) as [N | N].
  - split; [split; [lra|apply bpow_ge_0]|]. rewrite Rminus_0_r, Rabs_R0. lra.
  - assert (P : 0 < B2R x) by lra. set (v := B2R x) in *.
    assert (M : bpow radix2 (-149) <= v).
    { now apply pos_float_ge. }
    assert (L0 : ln (bpow radix2 50) = 50 * ln 2).
    { rewrite bpow_powerRZ. change (powerRZ (IZR radix2) 50) with (2 ^ 50). rewrite ln_pow by lra. rewrite INR_IZR_INZ. reflexivity. }
    assert (L1 : ln (bpow radix2 (-149)) = - (149 * ln 2)).
    { change (-149)%Z with (- (149))%Z. rewrite bpow_opp, ln_Rinv by apply bpow_gt_0. rewrite bpow_powerRZ. change (powerRZ (IZR radix2) 149) with (2 ^ 149). rewrite ln_pow by lra. rewrite INR_IZR_INZ. reflexivity. }
    assert (LN : ln 2 <= 1). { rewrite <- (ln_exp 1). left. apply ln_increasing; [lra|]. pose proof (exp_ineq1 1 ltac:(lra)). lra. }
    assert (A : ln v <= 50 * ln 2). { rewrite <- L0. destruct (proj2 H) as [Q | Q]; [left; now apply ln_increasing|rewrite Q; lra]. }
    assert (B : - (149 * ln 2) <= ln v). { rewrite <- L1. destruct M as [Q | Q]; [left; apply ln_increasing; [apply bpow_gt_0|exact Q]|rewrite Q; lra]. }
    split.
    + split; [left; apply exp_pos|]. unfold Rpower.
      replace (bpow radix2 30) with (exp (30 * ln 2)).
      2:{ rewrite <- (exp_ln (bpow radix2 30)) by apply bpow_gt_0. f_equal. rewrite bpow_powerRZ. change (powerRZ (IZR radix2) 30) with (2 ^ 30). rewrite ln_pow by lra. rewrite INR_IZR_INZ. reflexivity. }
      destruct (Req_dec (6 / 10 * ln v) (30 * ln 2)) as [-> | Q]; [lra|]. left. apply exp_increasing. lra.
    + replace q06 with (6 / 10 + 2 / (10 * 8388608)) by (unfold q06; lra). rewrite Rpower_plus.
      set (w := Rpower v (6 / 10)). assert (W : 0 < w) by apply exp_pos. set (d := Rpower v (2 / (10 * 8388608))).
      assert (D : Rabs (d - 1) <= / 140000).
      { unfold d, Rpower. assert (T : Rabs (2 / (10 * 8388608) * ln v) <= / 280000).
        { apply Rabs_le. split; lra. }
        eapply Rle_trans; [apply exp_near_0; lra|]. lra. }
      replace (w * d - w) with ((d - 1) * w) by ring. rewrite Rabs_mult, (Rabs_pos_eq w) by lra. apply Rmult_le_compat_r; lra.
Qed.

Lemma contrib_val : forall L m, pow_accurate (m_powf L) (/ 1048576) -> fin m -> B2R m <= bpow radix2 50 ->
  let c := m_powf L (fmax m f0) (lit 5033165 (-23)) in
  let w := pwr (6 / 10) (B2R m) in
  fin c /\ nneg c /\ within 31 c /\ 0 <= w <= bpow radix2 30 /\ Rabs (B2R c - w) <= / 120000 * w.
Proof.
  intros L m HL Fm Hm c w. destruct (fmax0_val m Fm) as (Fx & Vx). set (x := fmax m f0) in *.
  assert (Hx : 0 <= B2R x <= bpow radix2 50) by (rewrite Vx; split; [apply Rmax_r|apply Rmax_lub; [exact Hm|apply bpow_ge_0]]).
  assert (Ew : w = pwr (6 / 10) (B2R x)).
  { unfold w, pwr. rewrite Vx. unfold Rmax. destruct (Rle_dec (B2R m) 0); [destruct (Rle_dec 0 0); [reflexivity|lra]|].
    destruct (Rle_dec (B2R m) 0); [lra|reflexivity]. }
  destruct (HL x Fx Hx) as (Fc & Ec). fold c in Fc, Ec. destruct (pwr_near x Fx Hx) as (W & N). rewrite <- Ew in W, N.
  set (y := pwr q06 (B2R x)) in *. clearbody y w. apply Rabs_le_inv in Ec. apply Rabs_le_inv in N.
  assert (B : Rabs (B2R c - w) <= / 120000 * w) by (apply Rabs_le; split; lra). pose proof (Rabs_le_inv _ _ B) as B'.
  split; [exact Fc|]. split; [apply nneg_iff; [now apply fin_nn|rewrite fx_fin by exact Fc; lra]|].
  split; [|split; [exact W|exact B]]. split; [exact Fc|]. change (bpow radix2 31) with 2147483648. change (bpow radix2 30) with 1073741824 in W.
  apply Rabs_le. lra.
Qed.

(** ** Sums over selected bins *)
Lemma sumn_filter : forall (p : nat -> bool) (r : nat -> R) n,
  sumn (fun i => r (nth i (filter p (seq 0 n)) 0%nat)) (length (filter p (seq 0 n))) = sumn (fun i => if p i then r i else 0) n.
Proof.
  intros p r n. induction n as [|n IH]; [reflexivity|]. rewrite seq_S, filter_app. cbn [sumn filter Nat.add]. rewrite <- IH.
  set (l := filter p (seq 0 n)). destruct (p n).
  - rewrite app_length. cbn [length]. rewrite Nat.add_1_r. cbn [sumn]. rewrite app_nth2, Nat.sub_diag by lia. cbn [nth]. f_equal.
    apply sumn_ext. intros i Hi. now rewrite app_nth1.
  - rewrite app_nil_r, Rplus_0_r. reflexivity.
Qed.

Lemma filter_sum : forall (p : nat -> bool) (g : nat -> f32) (r : nat -> R) n a k, (Z.of_nat n <= 1048576)%Z -> 0 <= a <= / 1024 -> (-149 <= k <= 100)%Z ->
  (forall i, (i < n)%nat -> p i = true -> nneg (g i) /\ within k (g i) /\ 0 <= r i /\ Rabs (B2R (g i) - r i) <= a * r i) ->
  let s := fold_left fadd (map g (filter p (seq 0 n))) f0 in
  let S0 := sumn (fun i => if p i then r i else 0) n in
  fin s /\ nneg s /\ 0 <= S0 /\ Rabs (B2R s - S0) <= (a + INR n / 6000000) * S0.
Proof.
  intros p g r n a k Hn Ha Hk H s S0. set (fl := filter p (seq 0 n)) in *. set (l := map g fl) in *.
  assert (In0 : forall i, In i fl -> (i < n)%nat /\ p i = true). { intros i Hi. apply filter_In in Hi. destruct Hi as (A & B). apply in_seq in A. split; [lia|exact B]. }
  assert (Nn : Forall (fun x => nneg x) l). { apply Forall_map, Forall_forall. intros i Hi. destruct (In0 i Hi). now apply H. }
  assert (Ww : Forall (within k) l). { apply Forall_map, Forall_forall. intros i Hi. destruct (In0 i Hi). now apply H. }
  assert (Fs : fin (fsum l)) by (apply (sum_fin k); [lia|exact Ww]).
  assert (Ll : length l = length fl) by apply map_length.
  assert (Ln : (length fl <= n)%nat).
  { unfold fl. clear. induction n as [|n IH]; [reflexivity|]. rewrite seq_S, filter_app, app_length. cbn [filter]. destruct (p (0 + n)%nat); cbn [length]; lia. }
  split; [exact Fs|]. split; [now apply fsum_nneg|].
  assert (P0 : 0 <= S0). { apply sumn_nonneg. intros i Hi. destruct (p i) eqn:E; [now apply H|lra]. }
  split; [exact P0|].
  pose proof (sum_near l (fun i => r (nth i fl 0%nat)) a 0 Nn Fs ltac:(lia) Ha (Rle_refl 0)) as B. cbv zeta in B. rewrite Ll in B.
  assert (Es : sumn (fun i => r (nth i fl 0%nat)) (length fl) = S0) by apply sumn_filter. rewrite Es in B.
  eapply Rle_trans; [apply B|].
  - intros i Hi. destruct (In0 (nth i fl 0%nat) ltac:(apply nth_In; lia)) as (A & Q). destruct (H _ A Q) as (_ & _ & R0 & Rb).
    split; [exact R0|]. unfold l. rewrite (nth_indep _ f0 (g 0%nat)) by (rewrite map_length; lia). rewrite map_nth. lra.
  - apply le_INR in Ln. assert ((a + INR (length fl) / 6000000) * S0 <= (a + INR n / 6000000) * S0) by (apply Rmult_le_compat_r; lra). lra.
Qed.

(** ** Division by the norm *)
Definition nrm (x : nat -> R) : R := sqrt (sumn (fun i => x i * x i) 12).
Lemma nrm_rdev : forall x, nrm x = sqrt 12 * rdev 12 x.
Proof.
  intros x. unfold nrm, rdev. rewrite <- sqrt_mult_alt by lra. f_equal. rewrite (INR_IZR_INZ 12). cbn [Z.of_nat]. change (IZR (Z.pos (Pos.of_succ_nat 11))) with 12. field.
Qed.
Lemma sqrt12 : 0 < sqrt 12 <= 35 / 10.
Proof. split; [apply sqrt_lt_R0; lra|]. rewrite <- (sqrt_square (35 / 10)) by lra. apply sqrt_le_1; lra. Qed.
Lemma nrm_scal : forall c x, 0 <= c -> nrm (fun i => c * x i) = c * nrm x.
Proof.
  intros c x C. unfold nrm. rewrite (sumn_ext _ (fun i => (c * c) * (x i * x i))) by (intros; ring). rewrite sumn_scal.
  rewrite sqrt_mult_alt by nra. now rewrite sqrt_square.
Qed.
Lemma nrm_mono : forall x y, (forall i, (i < 12)%nat -> 0 <= x i <= y i) -> nrm x <= nrm y.
Proof.
  intros x y H. apply sqrt_le_1_alt, sumn_le. intros i Hi. specialize (H i Hi). apply Rmult_le_compat; lra.
Qed.
Lemma nrm_ge : forall x j, (j < 12)%nat -> 0 <= x j -> x j <= nrm x.
Proof.
  intros x j Hj X. rewrite <- (sqrt_square (x j)) by exact X. apply sqrt_le_1_alt.
  apply (sumn_term (fun i => x i * x i)); [intros; apply Rle_0_sqr|exact Hj].
Qed.
Lemma nrm_shift : forall x t, 0 <= t -> nrm (fun i => x i + t) <= nrm x + 35 / 10 * t.
Proof.
  intros x t T. rewrite !nrm_rdev. pose proof (rms_up 12 x (fun i => x i + t) t ltac:(lia) T) as B.
  assert (Q : forall i, (i < 12)%nat -> Rabs (x i + t - x i) <= t) by (intros; replace (x i + t - x i) with t by ring; rewrite Rabs_pos_eq; lra).
  specialize (B Q). pose proof sqrt12 as S12. assert (sqrt 12 * rdev 12 (fun i => x i + t) <= sqrt 12 * (rdev 12 x + t)) by (apply Rmult_le_compat_l; lra).
  assert (sqrt 12 * t <= 35 / 10 * t) by (apply Rmult_le_compat_r; lra). lra.
Qed.

Lemma eps10_up : B2R (lit 14411519 (-57)) <= bpow radix2 (-33).
Proof.
  rewrite <- SF2R_B2SF. replace (B2SF (lit 14411519 (-57))) with (SpecFloat.S754_finite false 14411519 (-57)) by (vm_compute; reflexivity).
  cbn [SF2R cond_Zopp]. unfold F2R. cbn [Fnum Fexp]. simpl. lra.
Qed.

Lemma norm_val : forall l, length l = 12%nat -> Forall (within 55) l ->
  let e i := B2R (nth i l f0) in bpow radix2 (-31) <= nrm e ->
  fin (l2_norm l) /\ Rabs (B2R (l2_norm l) - nrm e) <= / 300000 * nrm e.
Proof.
  intros l Hl W e He. pose proof (norm_fin l ltac:(lia) W) as Fn. split; [exact Fn|].
  assert (Wf : Forall (fun x => fin x) l) by (eapply Forall_impl; [|exact W]; intros x; apply within_fin).
  pose proof (squares_nneg l Wf) as Sq. set (q := map (fun x => fmul x x) l) in *.
  pose proof (fsum_nneg _ Sq) as Ns. unfold l2_norm in *. fold q. fold q in Fn.
  assert (Fs : fin (fsum q)).
  { destruct (nneg_cases _ Ns) as [(F & _)|E]; [exact F|]. rewrite E in Fn. discriminate. }
  assert (Lq : length q = 12%nat) by (unfold q; now rewrite map_length).
  assert (Tn : tiny <= bpow radix2 (-140)) by apply tiny_small. pose proof tiny_pos as T0.
  pose proof (sum_near q (fun i => e i * e i) u24 tiny Sq Fs ltac:(rewrite Lq; vm_compute; discriminate)) as B. cbv zeta in B. rewrite Lq in B.
  specialize (B ltac:(unfold u24; lra) ltac:(lra)).
  assert (H : forall i, (i < 12)%nat -> 0 <= e i * e i /\ Rabs (B2R (nth i q f0) - e i * e i) <= u24 * (e i * e i) + tiny).
  { intros i Hi. split; [apply Rle_0_sqr|]. unfold q. rewrite (nth_indep _ f0 (fmul f0 f0)) by (rewrite map_length; lia).
    rewrite (map_nth (fun x => fmul x x)). fold (e i).
    pose proof (proj1 (Forall_forall _ _) W (nth i l f0) ltac:(apply nth_In; lia)) as (Fi & Bi).
    destruct (fmul_fx (nth i l f0) (nth i l f0) Fi Fi) as (N & E). fold (e i) in E, Bi.
    assert (Q : Rabs (e i * e i) <= bpow radix2 110).
    { rewrite Rabs_mult. change (bpow radix2 110) with (bpow radix2 (55 + 55)). rewrite bpow_plus. apply Rmult_le_compat; auto using Rabs_pos. }
    assert (V : B2R (fmul (nth i l f0) (nth i l f0)) = rnd (e i * e i)).
    { pose proof (within_of 110 _ _ ltac:(lia) N E (rnd_within 110 _ ltac:(lia) Q)) as (Fm & _). rewrite <- (fx_fin _ Fm), E.
      apply sat_id. pose proof (rnd_within 110 _ ltac:(lia) Q) as R. apply Rabs_le_inv in R.
      pose proof (bpow_lt radix2 110 128 ltac:(lia)) as LL. change (bpow radix2 128) with big in LL. lra. }
    rewrite V. pose proof (rnd_near (e i * e i)) as R. rewrite (Rabs_pos_eq (e i * e i)) in R by apply Rle_0_sqr. exact R. }
  specialize (B H). clear H. destruct (fsqrt_val (fsum q) Fs Ns) as (_ & V). rewrite V. clear V.
  set (s := B2R (fsum q)) in *. assert (S0 : 0 <= s) by (now apply nneg_B2R).
  set (v := sumn (fun i => e i * e i) 12) in *. assert (Ev : nrm e = sqrt v) by reflexivity. rewrite Ev in *.
  assert (V0 : 0 <= v) by (apply sumn_nonneg; intros; apply Rle_0_sqr).
  pose proof (sqrt_pos v) as R0. pose proof (sqrt_sqrt v V0) as RR. pose proof (sqrt_pos s) as Q0. pose proof (sqrt_sqrt s S0) as QQ.
  set (x := sqrt v) in *. set (y := sqrt s) in *. clearbody x y s v.
  assert (I12 : INR 12 = 12) by (rewrite INR_IZR_INZ; reflexivity). rewrite I12 in B. unfold u24 in B.
  assert (X2 : bpow radix2 (-62) <= x * x).
  { change (bpow radix2 (-62)) with (bpow radix2 (-31 + -31)). rewrite bpow_plus. apply Rmult_le_compat; auto using bpow_ge_0. }
  assert (T2 : tiny <= / 1000000000 * (x * x)).
  { assert (bpow radix2 (-140) <= / 1000000000 * bpow radix2 (-62)).
    { change (bpow radix2 (-140)) with (bpow radix2 (-78 + -62)). rewrite bpow_plus. apply Rmult_le_compat_r; [apply bpow_ge_0|]. simpl. lra. }
    lra. }
  assert (D : Rabs (y * y - x * x) <= 25 / 10000000 * (x * x)) by (rewrite QQ, RR in *; lra). clear B.
  assert (XP : 0 < x) by (pose proof (bpow_gt_0 radix2 (-31)); lra).
  assert (D1 : Rabs (y - x) <= 25 / 10000000 * x).
  { replace (y * y - x * x) with ((y - x) * (y + x)) in D by ring. rewrite Rabs_mult, (Rabs_pos_eq (y + x)) in D by lra.
    apply Rmult_le_reg_r with x; [exact XP|]. pose proof (Rabs_pos (y - x)) as A.
    assert (Rabs (y - x) * x <= Rabs (y - x) * (y + x)) by (apply Rmult_le_compat_l; lra). lra. }
  apply Rabs_le_inv in D1.
  assert (Ly : bpow radix2 (-60) <= y).
  { apply Rle_trans with (bpow radix2 (-32)); [apply bpow_le; lia|]. change (-32)%Z with (-1 + -31)%Z. rewrite bpow_plus. change (bpow radix2 (-1)) with (/ 2). lra. }
  pose proof (TempoLagProps.rnd_rel y Ly) as R. apply Rabs_le_inv in R. apply Rabs_le. split; lra.
Qed.

Lemma unit_val : forall l (E : nat -> R) rho tau, length l = 12%nat -> Forall (fun x => nneg x /\ within 55 x) l ->
  0 <= rho <= / 50 -> 0 <= tau <= / 100 -> (forall i, (i < 12)%nat -> 0 <= E i) -> bpow radix2 (-30) <= nrm E ->
  (forall i, (i < 12)%nat -> Rabs (B2R (nth i l f0) - E i) <= rho * E i + tau * nrm E) ->
  length (divided_by_norm l) = 12%nat /\
  forall j, (j < 12)%nat -> fin (nth j (divided_by_norm l) f0) /\
    Rabs (B2R (nth j (divided_by_norm l) f0) - E j / nrm E) <= 22 / 10 * rho + 5 * tau + / 80000.
Proof.
  intros l E rho tau Hl Hn Hr Ht E0 EN H. set (N := nrm E) in *. set (e := fun i => B2R (nth i l f0)).
  assert (NP : 0 < N) by (pose proof (bpow_gt_0 radix2 (-30)); lra).
  assert (TN : 0 <= tau * N) by (apply Rmult_le_pos; lra).
  assert (TN' : tau * N <= / 100 * N) by (apply Rmult_le_compat_r; lra).
  assert (RN' : rho * N <= / 50 * N) by (apply Rmult_le_compat_r; lra).
  assert (RN : 0 <= rho * N) by (apply Rmult_le_pos; lra).
  assert (e0 : forall i, (i < 12)%nat -> 0 <= e i).
  { intros i Hi. apply nneg_B2R. apply (proj1 (Forall_forall _ _) Hn). apply nth_In. lia. }
  assert (Up : nrm e <= (1 + rho) * N + 35 / 10 * (tau * N)).
  { eapply Rle_trans; [apply (nrm_mono e (fun i => (1 + rho) * E i + tau * N))|].
    - intros i Hi. split; [now apply e0|]. specialize (H i Hi). apply Rabs_le_inv in H. unfold e. lra.
    - eapply Rle_trans; [apply (nrm_shift (fun i => (1 + rho) * E i) (tau * N) TN)|]. rewrite nrm_scal by lra. fold N. lra. }
  assert (Lo : (1 - rho) * N - 35 / 10 * (tau * N) <= nrm e).
  { assert (A : nrm (fun i => (1 - rho) * E i) <= nrm e + 35 / 10 * (tau * N)).
    { eapply Rle_trans; [|apply (nrm_shift e (tau * N) TN)]. apply nrm_mono. intros i Hi. specialize (H i Hi). apply Rabs_le_inv in H. specialize (E0 i Hi).
      split; [apply Rmult_le_pos; lra|]. unfold e. lra. }
    rewrite nrm_scal in A by lra. fold N in A. lra. }
  assert (Ww : Forall (within 55) l) by (eapply Forall_impl; [|exact Hn]; intros x (_ & A); exact A).
  assert (HN : bpow radix2 (-31) <= nrm e).
  { change (-31)%Z with (-1 + -30)%Z. rewrite bpow_plus. change (bpow radix2 (-1)) with (/ 2). lra. }
  destruct (norm_val l Hl Ww HN) as (Fn & Vn). change (fun i => B2R (nth i l f0)) with e in Vn. apply Rabs_le_inv in Vn.
  set (nf := l2_norm l) in *. set (m := nrm e) in *. clearbody m.
  assert (G : fgt (fsqrt (fold_left fadd (map (fun x => fmul x x) l) f0)) (lit 14411519 (-57)) = true).
  { change (fsqrt (fold_left fadd (map (fun x => fmul x x) l) f0)) with nf. unfold fgt. rewrite Bltb_correct; [|reflexivity|exact Fn].
    apply Rlt_bool_true. pose proof eps10_up as Ep. pose proof (bpow_gt_0 radix2 (-33)) as P33.
    change (-31)%Z with (2 + -33)%Z in HN. rewrite bpow_plus in HN. change (bpow radix2 2) with 4 in HN. lra. }
  unfold divided_by_norm. rewrite G. change (fsqrt (fold_left fadd (map (fun x => fmul x x) l) f0)) with nf.
  split; [now rewrite map_length|]. intros j Hj. rewrite (nth_indep _ f0 (fdiv f0 nf)) by (rewrite map_length; lia).
  rewrite (map_nth (fun x => fdiv x nf)).
  pose proof (proj1 (Forall_forall _ _) Ww (nth j l f0) ltac:(apply nth_In; lia)) as (Fj & _).
  set (M := B2R nf) in *. assert (MP : 94 / 100 * N <= M) by lra.
  destruct (fdiv_fx (nth j l f0) nf Fj Fn ltac:(fold M; lra)) as (Nq & Eq). fold (e j) M in Eq.
  pose proof (H j Hj) as Hj'. fold (e j) in Hj'. apply Rabs_le_inv in Hj'. pose proof (nrm_ge E j Hj (E0 j Hj)) as EjN. fold N in EjN.
  pose proof (E0 j Hj) as Ej0. pose proof (e0 j Hj) as ej0. clearbody M.
  assert (RE : rho * E j <= rho * N) by (apply Rmult_le_compat_l; lra).
  set (x := E j / N). assert (Hx : 0 <= x <= 1).
  { unfold x. split; [apply Rmult_le_pos; [lra|left; now apply Rinv_0_lt_compat]|]. apply Rmult_le_reg_r with N; [exact NP|]. replace (E j / N * N) with (E j) by (field; lra). lra. }
  assert (Ex : E j = x * N) by (unfold x; field; lra).
  assert (D : Rabs (e j / M - x) <= 215 / 100 * rho + 49 / 10 * tau + / 90000).
  { replace (e j / M - x) with ((e j - x * M) / M) by (field; lra). unfold Rdiv. rewrite Rabs_mult, (Rabs_pos_eq (/ M)) by (left; apply Rinv_0_lt_compat; lra).
    apply Rmult_le_reg_r with M; [lra|]. rewrite Rmult_assoc, Rinv_l, Rmult_1_r by lra.
    assert (A1 : Rabs (e j - x * M) <= 2 * (rho * N) + 45 / 10 * (tau * N) + / 280000 * N).
    { replace (e j - x * M) with ((e j - E j) - x * (M - N)) by (rewrite Ex; ring).
      assert (B1 : Rabs (e j - E j) <= rho * N + tau * N) by (apply Rabs_le; lra).
      assert (B2 : Rabs (M - N) <= rho * N + 35 / 10 * (tau * N) + / 280000 * N) by (apply Rabs_le; split; lra).
      assert (B3 : Rabs (x * (M - N)) <= Rabs (M - N)).
      { rewrite Rabs_mult, (Rabs_pos_eq x) by lra. rewrite <- (Rmult_1_l (Rabs (M - N))) at 2. apply Rmult_le_compat_r; [apply Rabs_pos|lra]. }
      pose proof (Rabs_triang (e j - E j) (- (x * (M - N)))) as T. rewrite Rabs_Ropp in T. unfold Rminus at 1. lra. }
    assert (A2 : (215 / 100 * rho + 49 / 10 * tau + / 90000) * (94 / 100 * N) <= (215 / 100 * rho + 49 / 10 * tau + / 90000) * M).
    { apply Rmult_le_compat_l; [|exact MP]. lra. }
    lra. }
  pose proof (Rabs_le_inv _ _ D) as D'.
  assert (Q : Rabs (e j / M) <= 2) by (apply Rabs_le; split; lra).
  destruct (fin_of_rnd_big _ _ Nq Eq ltac:(lra)) as (Fq & Vq). split; [exact Fq|]. rewrite Vq.
  pose proof (rnd_abs (e j / M) 2 Q ltac:(lra)) as R. apply Rabs_le_inv in R. apply Rabs_le. split; lra.
Qed.
