(** What the FFT tempogram computes: lemmas. *)
From Coq Require Import ZArith Bool List Arith Lia Reals Lra Permutation.
From Flocq Require Import Core IEEE754.BinarySingleNaN.
From Verif Require Import Rust F32 F32Facts F32More FloatSums Means Bounds NoveltyProofs CombFilterProofs Libm Autocorrelation AutocorrelationProofs
  TempoSpectra TempogramValueProofs FourierFacts AutocorrelationValueProofs SpectrumFacts.
Import ListNotations.
Local Open Scope R_scope.

Lemma sumn_shift : forall f n, sumn f (S n) = f 0%nat + sumn (fun i => f (S i)) n.
Proof. intros f n. induction n as [|n IH]; [cbn; lra|]. cbn [sumn] in *. rewrite IH. lra. Qed.
Lemma Rsum_sumn : forall l, Rsum l = sumn (fun i => B2R (nth i l f0)) (length l).
Proof.
  induction l as [|x l IH]; [reflexivity|]. cbn [length]. rewrite sumn_shift. cbn [nth Rsum fold_right]. fold (Rsum l). now rewrite IH.
Qed.

(** The mean of a curve. *)
Definition mean_of (nov : list f32) : R := sumn (fun i => B2R (nth i nov f0)) (length nov) / INR (length nov).

Lemma in01_B2R : forall x, in01 x -> 0 <= B2R x <= 1.
Proof.
  intros x H. pose proof (in01_fin _ H) as F. destruct H as (L & U). apply fle_fx in L, U. rewrite !fx_fin in * by auto. 
  rewrite B2R_f1 in U. split; [exact L|exact U].
Qed.
Lemma nth_in01 : forall l i, Forall in01 l -> in01 (nth i l f0).
Proof.
  intros l i H. destruct (Nat.lt_ge_cases i (length l)) as [L|L].
  - rewrite Forall_forall in H. apply H. now apply nth_In.
  - rewrite nth_overflow by auto. split; reflexivity.
Qed.
Lemma tiny_u24 : tiny <= / 1024 * u24.
Proof. unfold tiny. rewrite <- u24_pow. replace (/ 1024) with (bpow radix2 (-10)) by (cbn; lra). rewrite <- bpow_plus. apply bpow_le. lia. Qed.

Lemma mean_value : forall nov, Forall in01 nov -> (1 <= length nov)%nat -> (Z.of_nat (length nov) <= 1048576)%Z ->
  let m := fdiv (fsum nov) (n2f (length nov)) in
  in01 m /\ Rabs (B2R m - mean_of nov) <= INR (length nov) * (4 * u24) /\ 0 <= mean_of nov <= 1.
Proof.
  intros nov H N1 N2 m. set (n := length nov) in *.
  assert (Im : in01 m) by (apply mean_in01; [destruct nov; cbn in *; [lia|congruence]|fold n; lia|exact H]).
  assert (Hn : Forall (fun x => nneg x) nov) by (eapply Forall_impl; [|exact H]; intros x Q; apply Q).
  assert (Fs : fin (fsum nov)).
  { apply (within_fin 25). apply (within_sum 0); [lia|]. eapply Forall_impl; [|exact H]. intros x Q. split; [now apply in01_fin|].
    pose proof (in01_B2R _ Q). rewrite Rabs_pos_eq by lra. cbn. lra. }
  destruct (fsum_bounds nov Hn Fs) as (L & U). fold n in L, U.
  assert (Pn : 1 <= INR n) by (apply (le_INR 1); lia). assert (Bn : INR n <= 1048576) by (rewrite INR_IZR_INZ; now apply IZR_le).
  pose proof u_val as Eu.
  pose proof (pow_le_1p n ltac:(rewrite Eu; lra)) as P1. pose proof (pow_ge_1m n) as P2.
  set (S := Rsum nov) in *.
  assert (ES : S = sumn (fun i => B2R (nth i nov f0)) n) by apply Rsum_sumn.
  assert (S0 : 0 <= S <= INR n).
  { rewrite ES. split; [apply sumn_nonneg; intros; apply in01_B2R; now apply nth_in01|].
    rewrite <- (Rmult_1_r (INR n)), <- sumn_const. apply sumn_le. intros. apply in01_B2R. now apply nth_in01. }
  set (fs := B2R (fsum nov)) in *.
  assert (E1 : Rabs (fs - S) <= 2 * INR n * u24 * S).
  { replace u24 with u by (rewrite Eu; reflexivity). assert (0 <= INR n * u * S) by (rewrite Eu; apply Rmult_le_pos; lra).
    apply Rabs_le. split.
    - assert (S * (1 - INR n * u) <= S * (1 - u) ^ n) by (apply Rmult_le_compat_l; lra). lra.
    - assert (S * (1 + u) ^ n <= S * (1 + 2 * INR n * u)) by (apply Rmult_le_compat_l; lra). lra. }
  destruct (n2f_exact n ltac:(lia)) as (Fn & En). rewrite <- INR_IZR_INZ in En.
  assert (Em : B2R m = rnd (fs / INR n)) by (unfold m; rewrite B2R_fdiv, En; auto; [now apply in01_fin|lra]).
  pose proof (rnd_near (fs / INR n)) as R. rewrite <- Em in R.
  assert (Mu : mean_of nov = S / INR n) by (unfold mean_of; fold n; now rewrite ES).
  assert (M01 : 0 <= S / INR n <= 1).
  { split; [apply Rmult_le_pos; [lra|left; apply Rinv_0_lt_compat; lra]|]. apply Rmult_le_reg_r with (INR n); [lra|].
    unfold Rdiv. rewrite Rmult_assoc, Rinv_l by lra. lra. }
  assert (E2 : Rabs (fs / INR n - S / INR n) <= 2 * INR n * u24).
  { replace (fs / INR n - S / INR n) with ((fs - S) * / INR n) by (field; lra). rewrite Rabs_mult, (Rabs_pos_eq (/ INR n)) by (left; apply Rinv_0_lt_compat; lra).
    apply Rmult_le_reg_r with (INR n); [lra|]. rewrite Rmult_assoc, Rinv_l, Rmult_1_r by lra. eapply Rle_trans; [exact E1|].
    apply Rmult_le_compat_l; [|lra]. unfold u24. nra. }
  split; [exact Im|]. rewrite Mu. split; [|exact M01].
  set (q := fs / INR n) in *. set (p := S / INR n) in *.
  assert (Q : Rabs q <= 2). { replace q with (q - p + p) by ring. eapply Rle_trans; [apply Rabs_triang|]. rewrite (Rabs_pos_eq p) by lra. unfold u24 in E2. lra. }
  replace (B2R m - p) with ((B2R m - q) + (q - p)) by ring. eapply Rle_trans; [apply Rabs_triang|].
  pose proof tiny_u24. assert (0 < u24) by (unfold u24; lra).
  assert (u24 * Rabs q + tiny <= INR n * (2 * u24)); [|lra].
  { destruct (Rle_lt_dec 2 (INR n)).
    - nra.
    - (* one value: its mean is itself, |q| <= 1 + 2u *)
      assert (Rabs q <= 3 / 2). { replace q with (q - p + p) by ring. eapply Rle_trans; [apply Rabs_triang|]. rewrite (Rabs_pos_eq p) by lra. unfold u24 in E2. lra. }
      nra. }
Qed.

(** The transform's input: mean removed, Hann weights, zero padding. *)
Lemma fft_input_val : forall L nov d, cos_accurate L d -> 0 <= d <= / 8 -> Forall in01 nov -> (2 <= length nov)%nat -> (Z.of_nat (length nov) <= 1048576)%Z ->
  let n := length nov in let N := next_pow2 n in let l := fft_input L nov in let mu := B2R (fdiv (fsum nov) (n2f n)) in
  let y t := if (t <? n)%nat then (B2R (nth t nov f0) - mu) * hann_at n t else 0 in
  length l = N /\ bounded_buffer l /\ (forall t, im_of l t = 0) /\
  sumn (fun t => Rabs (re_of l t - y t)) N <= INR n * (3 / 4 * d + / 300000) /\
  sumn (fun t => Rabs (y t)) N <= INR n.
Proof.
  intros L nov d C Hd H N1 N2 n N l mu y. pose proof (next_pow2_ge n) as GE. fold N in GE.
  destruct (mean_value nov H ltac:(lia) N2) as (Im & Em & Mb). fold n in Em, Im.
  assert (Len : length l = N).
  { unfold l, fft_input. rewrite app_length, map_length, combine_length, seq_length, repeat_length, Nat.min_id. fold n. fold N. lia. }
  unfold mu in y. clear mu. set (mean := fdiv (fsum nov) (n2f n)) in *. pose proof (in01_B2R _ Im) as Bm.
  assert (Nl : forall t, (t < n)%nat -> nth t l (f0, f0) = (fmul (fsub (nth t nov f0) mean) (window L n t), f0)).
  { intros t Ht. unfold l, fft_input. fold n mean. rewrite app_nth1 by (rewrite map_length, combine_length, seq_length; fold n; lia).
    set (g := fun ix : nat * f32 => _ : complex). rewrite (nth_indep _ (f0, f0) (g (0%nat, f0))) by (rewrite map_length, combine_length, seq_length; fold n; lia).
    rewrite map_nth, combine_nth by (now rewrite seq_length). rewrite seq_nth by lia. unfold g. cbn [fst snd]. rewrite Nat.add_0_l.
    unfold TempoSpectra.hann. destruct (Nat.ltb_spec 1 n); [reflexivity|lia]. }
  assert (Nz : forall t, (n <= t)%nat -> nth t l (f0, f0) = (f0, f0)).
  { intros t Ht. unfold l, fft_input. fold n mean. rewrite app_nth2 by (rewrite map_length, combine_length, seq_length; fold n; lia). apply nth_repeat. }
  assert (Pn : 2 <= INR n) by (apply (le_INR 2); lia). assert (Bn : INR n <= 1048576) by (rewrite INR_IZR_INZ; now apply IZR_le).
  assert (U0 : 0 < u24) by (unfold u24; lra). pose proof tiny_u24 as TU. pose proof tiny_pos as TP.
  assert (V : forall t, (t < n)%nat -> let b := fmul (fsub (nth t nov f0) mean) (window L n t) in
     within 62 b /\ Rabs (B2R b - y t) <= 3 / 4 * d + / 300000).
  { intros t Ht b. pose proof (in01_B2R _ (nth_in01 nov t H)) as Bx.
    assert (Wx : within 0 (nth t nov f0)) by (split; [apply in01_fin; now apply nth_in01|rewrite Rabs_pos_eq by lra; cbn; lra]).
    assert (Wm : within 0 mean) by (split; [now apply in01_fin|rewrite Rabs_pos_eq by lra; cbn; lra]).
    pose proof (within_sub 0 _ _ ltac:(lia) Wx Wm) as Wc. set (c := fsub (nth t nov f0) mean) in *.
    assert (Ec : B2R c = rnd (B2R (nth t nov f0) - B2R mean)) by (unfold c; rewrite B2R_fsub; auto; eapply within_fin; eauto).
    pose proof (rnd_near (B2R (nth t nov f0) - B2R mean)) as Rc. rewrite <- Ec in Rc.
    assert (Bd : Rabs (B2R (nth t nov f0) - B2R mean) <= 1) by (apply Rabs_le; lra).
    assert (W60 : within 60 c) by (eapply within_mono; [|exact Wc]; lia).
    destruct (windowed_val L d n t c C Hd ltac:(lia) ltac:(lia) Ht W60) as (Wb & Eb). fold b in Wb, Eb. split; [exact Wb|].
    unfold y. destruct (Nat.ltb_spec t n); [|lia]. pose proof (hann_at_bounds n t) as HB. set (h := hann_at n t) in *.
    set (x := B2R (nth t nov f0)) in *. set (mm := B2R mean) in *. clearbody x mm h.
    set (cc := B2R c) in *. set (bb := B2R b) in *. clearbody cc bb.
    assert (D : Rabs (cc - (x - mm)) <= u24 + tiny).
    { assert (u24 * Rabs (x - mm) <= u24 * 1) by (apply Rmult_le_compat_l; lra). lra. }
    assert (Bc : Rabs cc <= 9 / 8).
    { replace cc with (cc - (x - mm) + (x - mm)) by ring. eapply Rle_trans; [apply Rabs_triang|]. unfold u24 in *. lra. }
    replace (bb - (x - mm) * h) with ((bb - cc * h) + (cc - (x - mm)) * h) by ring. eapply Rle_trans; [apply Rabs_triang|].
    rewrite (Rabs_mult _ h), (Rabs_pos_eq h) by lra.
    assert ((d / 2 + / 480000) * Rabs cc <= (d / 2 + / 480000) * (9 / 8)) by (apply Rmult_le_compat_l; lra).
    assert (Rabs (cc - (x - mm)) * h <= u24 + tiny) by (pose proof (Rabs_pos (cc - (x - mm))); nra).
    unfold u24 in *. lra. }
  split; [exact Len|]. split.
  { apply Forall_forall. intros q Hq. destruct (In_nth _ _ (f0, f0) Hq) as (t & Ht & E).
    destruct (Nat.lt_ge_cases t n) as [Lt|Lt].
    - rewrite Nl in E by auto. subst q. cbn [fst snd]. split; [|apply within_0]. eapply within_mono; [|apply V; auto]. lia.
    - rewrite Nz in E by auto. subst q. split; apply within_0. }
  split.
  { intros t. unfold im_of. destruct (Nat.lt_ge_cases t n) as [Lt|Lt]; [now rewrite Nl|now rewrite Nz]. }
  assert (Yz : forall t, (n <= t)%nat -> y t = 0) by (intros t Ht; unfold y; destruct (Nat.ltb_spec t n); [lia|reflexivity]).
  split.
  - rewrite (sumn_extend _ n N GE) by (intros i Hi; unfold re_of; rewrite Nz, Yz by lia; cbn; rewrite Rminus_0_r; apply Rabs_R0).
    rewrite <- sumn_const. apply sumn_le. intros t Ht. unfold re_of. rewrite Nl by auto. now apply V.
  - rewrite (sumn_extend _ n N GE) by (intros i Hi; rewrite Yz by lia; apply Rabs_R0).
    rewrite <- (Rmult_1_r (INR n)), <- sumn_const. apply sumn_le. intros t Ht. unfold y. destruct (Nat.ltb_spec t n); [|lia].
    pose proof (in01_B2R _ (nth_in01 nov t H)) as Bx. pose proof (hann_at_bounds n t). rewrite Rabs_mult, (Rabs_pos_eq (hann_at n t)) by lra.
    assert (Rabs (B2R (nth t nov f0) - B2R mean) <= 1) by (apply Rabs_le; lra).
    pose proof (Rabs_pos (B2R (nth t nov f0) - B2R mean)). nra.
Qed.

(** The squared magnitude of a bin. *)
Lemma power_val : forall z c s A D, fin (fst z) -> fin (snd z) -> Rabs c <= A -> Rabs s <= A -> A + D <= bpow radix2 31 ->
  0 <= A -> 0 <= D -> Rabs (B2R (fst z) - c) <= D -> Rabs (B2R (snd z) + s) <= D ->
  let p := fadd (fmul (fst z) (fst z)) (fmul (snd z) (snd z)) in
  fin p /\ nneg p /\ Rabs (B2R p - (c * c + s * s)) <= 2 * (D * (2 * A + D)) + / 2097152 * ((A + D) * (A + D)) + bpow radix2 (-140).
Proof.
  intros (a & b) c s A D Fa Fb Hc Hs HA A0 HD Ea Eb p. cbn [fst snd] in *.
  assert (Ba : Rabs (B2R a) <= A + D).
  { replace (B2R a) with (B2R a - c + c) by ring. eapply Rle_trans; [apply Rabs_triang|]. lra. }
  assert (Bb : Rabs (B2R b) <= A + D).
  { replace (B2R b) with (B2R b + s + - s) by ring. eapply Rle_trans; [apply Rabs_triang|]. rewrite Rabs_Ropp. lra. }
  assert (Wa : within 31 a) by (split; [assumption|lra]). assert (Wb : within 31 b) by (split; [assumption|lra]).
  destruct (square_sum_val a b Wa Wb) as (Wp & Np & Ep). fold p in Wp, Np, Ep.
  split; [apply (within_fin _ _ Wp)|]. split; [exact Np|].
  assert (D1 := sq_diff (B2R a) c A D Ea Hc A0 HD). 
  assert (D2 : Rabs (B2R b * B2R b - s * s) <= D * (2 * A + D)).
  { replace (s * s) with (- s * - s) by ring. apply sq_diff; auto; [now replace (B2R b - - s) with (B2R b + s) by ring|now rewrite Rabs_Ropp]. }
  set (v := B2R a * B2R a + B2R b * B2R b) in *.
  assert (Hv : v <= 2 * ((A + D) * (A + D))).
  { assert (Q : forall x, Rabs x <= A + D -> x * x <= (A + D) * (A + D)).
    { intros x Hx. rewrite <- (Rabs_pos_eq (x * x)) by apply Rle_0_sqr. rewrite Rabs_mult. pose proof (Rabs_pos x). apply Rmult_le_compat; lra. }
    pose proof (Q _ Ba). pose proof (Q _ Bb). unfold v. lra. }
  replace (B2R p - (c * c + s * s)) with ((B2R p - v) + ((B2R a * B2R a - c * c) + (B2R b * B2R b - s * s))) by (unfold v; ring).
  eapply Rle_trans; [apply Rabs_triang|]. pose proof (Rabs_triang (B2R a * B2R a - c * c) (B2R b * B2R b - s * s)). lra.
Qed.

(** The tempo of bin k. *)
Definition bin_tempo (rate hop size k : nat) : R := 60 * INR k * INR rate / (INR hop * INR size).

Lemma n2f_INR : forall n, (Z.of_nat n <= 16777216)%Z -> fin (n2f n) /\ B2R (n2f n) = INR n.
Proof. intros n H. destruct (n2f_exact n H) as (F & E). split; [exact F|]. now rewrite E, INR_IZR_INZ. Qed.

Lemma rel_rnd : forall x y k, 0 <= y -> Rabs (x - y) <= k * u24 * y -> 0 <= k <= 8 -> (y = 0 \/ bpow radix2 (-100) <= y) ->
  Rabs (rnd x - y) <= (k + 5 / 4) * u24 * y.
Proof.
  intros x y k Hy H Hk Y. pose proof (rnd_near x) as R. pose proof tiny_pos as TP. assert (U0 : 0 < u24 <= / 16000000) by (unfold u24; lra).
  assert (Hx : Rabs x <= y + k * u24 * y).
  { replace x with (x - y + y) by ring. eapply Rle_trans; [apply Rabs_triang|]. rewrite (Rabs_pos_eq y) by lra. lra. }
  destruct Y as [->|Y].
  - rewrite !Rmult_0_r in *. assert (x = 0) by (apply Rabs_le_inv in H; lra). subst x. rewrite rnd_0, Rminus_0_r, Rabs_R0. lra.
  - assert (T : tiny <= / 8 * u24 * y).
    { eapply Rle_trans; [|apply Rmult_le_compat_l; [unfold u24; lra|exact Y]]. rewrite <- u24_pow. replace (/ 8) with (bpow radix2 (-3)) by (cbn; lra).
      unfold tiny. rewrite <- !bpow_plus. apply bpow_le. lia. }
    replace (rnd x - y) with ((rnd x - x) + (x - y)) by ring. eapply Rle_trans; [apply Rabs_triang|].
    assert (u24 * Rabs x <= u24 * (9 / 8 * y)).
    { apply Rmult_le_compat_l; [lra|]. assert (k * u24 * y <= / 8 * y) by (apply Rmult_le_compat_r; nra). lra. }
    nra.
Qed.

Lemma bin_bpm_val : forall rate hop size k, (0 < rate)%nat -> (0 < hop)%nat -> (0 < size)%nat ->
  (Z.of_nat rate <= 16777216)%Z -> (Z.of_nat hop <= 16777216)%Z -> (Z.of_nat size <= 16777216)%Z -> (k <= size)%nat ->
  let b := bin_bpm rate hop size k in fin b /\ Rabs (B2R b - bin_tempo rate hop size k) <= 5 * u24 * bin_tempo rate hop size k.
Proof.
  intros rate hop size k R0 H0 S0 R1 H1 S1 K b.
  destruct (n2f_INR rate R1) as (Fr & Er). destruct (n2f_INR hop H1) as (Fh & Eh). destruct (n2f_INR size S1) as (Fs & Es).
  destruct (n2f_INR k ltac:(lia)) as (Fk & Ek).
  assert (Gr : 1 <= INR rate <= 16777216) by (split; [apply (le_INR 1); lia|rewrite INR_IZR_INZ; now apply IZR_le]).
  assert (Gh : 1 <= INR hop <= 16777216) by (split; [apply (le_INR 1); lia|rewrite INR_IZR_INZ; now apply IZR_le]).
  assert (Gs : 1 <= INR size <= 16777216) by (split; [apply (le_INR 1); lia|rewrite INR_IZR_INZ; now apply IZR_le]).
  assert (Gk : 0 <= INR k <= INR size) by (split; [apply pos_INR|now apply le_INR]).
  assert (Wr : within 24 (n2f rate)) by (split; [assumption|rewrite Er, Rabs_pos_eq by lra; cbn; lra]).
  assert (W1 : within (24 - 0) (frame_rate rate hop)).
  { apply within_div; auto; [lia|]. rewrite Eh, Rabs_pos_eq by lra. cbn. lra. }
  assert (W2 : within (24 - 0 - 0) (fdiv (frame_rate rate hop) (n2f size))).
  { apply within_div; auto; [lia|]. rewrite Es, Rabs_pos_eq by lra. cbn. lra. }
  assert (Wk : within 24 (n2f k)) by (split; [assumption|rewrite Ek, Rabs_pos_eq by lra; cbn; lra]).
  pose proof (within_mul 24 (24 - 0 - 0) _ _ ltac:(lia) Wk W2) as W3.
  destruct (z2f_exact 60 ltac:(lia)) as (F60 & E60).
  assert (W60 : within 6 (z2f 60)) by (split; [assumption|rewrite E60, Rabs_pos_eq by lra; cbn; lra]).
  pose proof (within_mul (24 + (24 - 0 - 0)) 6 _ _ ltac:(lia) W3 W60) as W4.
  assert (Fb : fin b) by apply (within_fin _ _ W4). split; [exact Fb|].
  assert (I : forall x, 0 < x <= 16777216 -> bpow radix2 (-24) <= / x).
  { intros x Hx. rewrite u24_pow. unfold u24. apply Rinv_le_contravar; lra. }
  pose proof (I (INR hop) ltac:(lra)) as Ih. pose proof (I (INR size) ltac:(lra)) as Is.
  set (q := INR rate / INR hop). assert (Q0 : bpow radix2 (-24) <= q) by (unfold q, Rdiv; pose proof (bpow_gt_0 radix2 (-24)); nra).
  set (r := q / INR size). assert (R2 : bpow radix2 (-48) <= r).
  { unfold r, Rdiv. change (-48)%Z with (-24 + -24)%Z. rewrite bpow_plus. apply Rmult_le_compat; try apply bpow_ge_0; lra. }
  pose proof (bpow_gt_0 radix2 (-24)). pose proof (bpow_gt_0 radix2 (-48)).
  assert (B48 : bpow radix2 (-100) <= bpow radix2 (-48)) by (apply bpow_le; lia).
  assert (B24 : bpow radix2 (-100) <= bpow radix2 (-24)) by (apply bpow_le; lia).
  assert (E1 : Rabs (B2R (frame_rate rate hop) - q) <= (0 + 5 / 4) * u24 * q).
  { unfold frame_rate in *. rewrite B2R_fdiv, Er, Eh; [|eapply within_fin; eauto|lra]. fold q. apply rel_rnd; try lra. 
    unfold Rminus. rewrite Rplus_opp_r, Rabs_R0. lra. }
  assert (E2 : Rabs (B2R (fdiv (frame_rate rate hop) (n2f size)) - r) <= (5 / 4 + 5 / 4) * u24 * r).
  { rewrite B2R_fdiv, Es; [|eapply within_fin; eauto|lra]. apply rel_rnd; try lra. unfold r.
    replace (B2R (frame_rate rate hop) / INR size - q / INR size) with ((B2R (frame_rate rate hop) - q) * / INR size) by (field; lra).
    rewrite Rabs_mult, (Rabs_pos_eq (/ INR size)) by lra. unfold Rdiv. rewrite <- Rmult_assoc. apply Rmult_le_compat_r; [lra|]. lra. }
  set (f := B2R (fdiv (frame_rate rate hop) (n2f size))) in *.
  assert (K0 : INR k * r = 0 \/ bpow radix2 (-48) <= INR k * r).
  { destruct k as [|k]; [left; cbn; ring|right]. rewrite S_INR. pose proof (pos_INR k). nra. }
  assert (E3 : Rabs (B2R (fmul (n2f k) (fdiv (frame_rate rate hop) (n2f size))) - INR k * r) <= (5 / 2 + 5 / 4) * u24 * (INR k * r)).
  { rewrite B2R_fmul, Ek by (eapply within_fin; eauto). fold f. apply rel_rnd; [apply Rmult_le_pos; lra| |lra|destruct K0; [now left|right; lra]].
    rewrite <- Rmult_minus_distr_l, Rabs_mult, (Rabs_pos_eq (INR k)) by lra.
    replace (5 / 2 * u24 * (INR k * r)) with (INR k * ((5 / 4 + 5 / 4) * u24 * r)) by field. apply Rmult_le_compat_l; lra. }
  set (g := B2R (fmul (n2f k) _)) in *.
  assert (T : bin_tempo rate hop size k = INR k * r * 60) by (unfold bin_tempo, r, q; field; lra).
  rewrite T. unfold b, bin_bpm. rewrite B2R_fmul, E60 by exact Fb. fold g.
  replace (5 * u24 * (INR k * r * 60)) with ((15 / 4 + 5 / 4) * u24 * (INR k * r * 60)) by field.
  apply rel_rnd; [| |lra|].
  - apply Rmult_le_pos; [apply Rmult_le_pos; lra|lra].
  - replace (g * 60 - INR k * r * 60) with ((g - INR k * r) * 60) by ring. rewrite Rabs_mult, (Rabs_pos_eq 60) by lra.
    replace (15 / 4 * u24 * (INR k * r * 60)) with ((5 / 2 + 5 / 4) * u24 * (INR k * r) * 60) by field. apply Rmult_le_compat_r; lra.
  - destruct K0 as [->|K1]; [left; ring|right]. lra.
Qed.
