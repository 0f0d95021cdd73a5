(** What the FFT-based autocorrelation computes: lemmas. *)
From Coq Require Import ZArith Bool List Arith Lia Reals Lra.
From Flocq Require Import Core IEEE754.BinarySingleNaN.
From Verif Require Import Rust F32 F32Facts F32More Bounds NoveltyProofs Autocorrelation AutocorrelationProofs FourierFacts.
Import ListNotations.
Local Open Scope R_scope.

(** The real and imaginary parts of a buffer as functions of time, and the sum of their absolute values. *)
Definition re_of (l : list complex) (t : nat) : R := B2R (fst (nth t l (f0, f0))).
Definition im_of (l : list complex) (t : nat) : R := B2R (snd (nth t l (f0, f0))).
Definition weight (l : list complex) : R := sumn (fun t => Rabs (re_of l t) + Rabs (im_of l t)) (length l).
Definition bounded_buffer (l : list complex) : Prop :=
  Forall (fun z => within 70 (fst z) /\ within 70 (snd z)) l.

(** An FFT implementation is accurate to e for buffers of length N: every output is finite and within e times the sum of
    the absolute input values of the exact transform; the slack of e * 2^-100 leaves room for underflow. *)
Definition slack : R := bpow radix2 (-100).
Lemma slack_pos : 0 < slack. Proof. apply bpow_gt_0. Qed.
Definition accurate (F : fft_oracle) (N : nat) (e : R) : Prop :=
  forall l, length l = N -> bounded_buffer l -> forall j, (j < N)%nat ->
  (let z := nth j (fft_forward F l) (f0, f0) in
   fin (fst z) /\ fin (snd z) /\
   Rabs (B2R (fst z) - fwd_re N (re_of l) (im_of l) j) <= e * (weight l + slack) /\
   Rabs (B2R (snd z) - fwd_im N (re_of l) (im_of l) j) <= e * (weight l + slack)) /\
  (let z := nth j (fft_inverse F l) (f0, f0) in
   fin (fst z) /\ fin (snd z) /\
   Rabs (B2R (fst z) - inv_re N (re_of l) (im_of l) j) <= e * (weight l + slack) /\
   Rabs (B2R (snd z) - inv_im N (re_of l) (im_of l) j) <= e * (weight l + slack)).

Lemma fneg_B2R : forall x : f32, B2R (fneg x) = - B2R x.
Proof. intros x. unfold fneg. apply B2R_Bopp. Qed.
Lemma fneg_fin : forall x : f32, is_finite (fneg x) = is_finite x.
Proof. now intros [| | |]. Qed.

Definition tiny : R := bpow radix2 (-150).
Lemma tiny_pos : 0 < tiny. Proof. apply bpow_gt_0. Qed.
Lemma tiny_small : tiny <= bpow radix2 (-140). Proof. apply bpow_le. lia. Qed.
Definition u24 : R := / 16777216.
Lemma u24_pow : bpow radix2 (-24) = u24. Proof. unfold u24. cbn. lra. Qed.

Lemma rnd_near : forall x, Rabs (rnd x - x) <= u24 * Rabs x + tiny.
Proof.
  intros x. destruct (rnd_err x) as (ep & et & H1 & H2 & _ & E). rewrite u24_pow in H1.
  rewrite E. replace (x * (1 + ep) + et - x) with (x * ep + et) by ring.
  eapply Rle_trans; [apply Rabs_triang|]. rewrite Rabs_mult. pose proof (Rabs_pos x). unfold tiny. nra.
Qed.

Lemma mul_conj_val : forall a b, within 31 a -> within 31 b ->
  let p := mul_conj (a, b) in let v := B2R a * B2R a + B2R b * B2R b in
  within 63 (fst p) /\ within 63 (snd p) /\ B2R (snd p) = 0 /\ Rabs (B2R (fst p) - v) <= / 4194304 * v + bpow radix2 (-140).
Proof.
  intros a b Wa Wb p v. unfold p, mul_conj. cbn [fst snd].
  assert (Wna := within_neg _ _ Wa). assert (Wnb := within_neg _ _ Wb).
  pose proof (within_mul 31 31 _ _ ltac:(lia) Wa Wa) as Waa. pose proof (within_mul 31 31 _ _ ltac:(lia) Wb Wnb) as Wbb.
  pose proof (within_mul 31 31 _ _ ltac:(lia) Wa Wnb) as Wab. pose proof (within_mul 31 31 _ _ ltac:(lia) Wb Wa) as Wba.
  pose proof (within_sub 62 _ _ ltac:(lia) Waa Wbb) as Wr. pose proof (within_add 62 _ _ ltac:(lia) Wab Wba) as Wi.
  split; [exact Wr|]. split; [exact Wi|].
  assert (F := within_fin).
  split.
  - rewrite B2R_fadd, !B2R_fmul, fneg_B2R by eauto.
    replace (B2R a * - B2R b) with (- (B2R b * B2R a)) by ring. rewrite rnd_opp.
    replace (- rnd (B2R b * B2R a) + rnd (B2R b * B2R a)) with 0 by ring. apply rnd_0.
  - rewrite B2R_fsub, !B2R_fmul, fneg_B2R by eauto. replace (B2R b * - B2R b) with (- (B2R b * B2R b)) by ring. rewrite rnd_opp.
    set (x := B2R a * B2R a) in *. set (y := B2R b * B2R b) in *.
    assert (0 <= x) by apply Rle_0_sqr. assert (0 <= y) by apply Rle_0_sqr.
    pose proof (rnd_near x) as Ex. pose proof (rnd_near y) as Ey. rewrite (Rabs_pos_eq x) in Ex by lra. rewrite (Rabs_pos_eq y) in Ey by lra.
    pose proof (rnd_near (rnd x - - rnd y)) as Es.
    pose proof (rnd_nonneg x ltac:(lra)). pose proof (rnd_nonneg y ltac:(lra)).
    rewrite (Rabs_pos_eq (rnd x - - rnd y)) in Es by lra.
    apply Rabs_le_inv in Ex. apply Rabs_le_inv in Ey. apply Rabs_le_inv in Es.
    assert (T : tiny * 1024 = bpow radix2 (-140)) by (unfold tiny; change (-140)%Z with (-150 + 10)%Z; rewrite bpow_plus; cbn; lra).
    pose proof tiny_pos. rewrite <- T. unfold v. unfold u24 in *. apply Rabs_le. lra.
Qed.

Lemma trig_le1 : forall a, Rabs (cos a) <= 1 /\ Rabs (sin a) <= 1.
Proof. intros a. pose proof (COS_bound a). pose proof (SIN_bound a). split; apply Rabs_le; lra. Qed.

(** The exact spectrum of a real signal is bounded by the sum of its absolute values. *)
Lemma fwd_bound : forall N x A j, sumn (fun t => Rabs (x t)) N <= A ->
  Rabs (fwd_re N x (fun _ => 0) j) <= A /\ Rabs (fwd_im N x (fun _ => 0) j) <= A.
Proof.
  intros N x A j H. unfold fwd_re, fwd_im. split; (eapply Rle_trans; [apply sumn_abs|]); (eapply Rle_trans; [|exact H]);
    apply sumn_le; intros t _; destruct (trig_le1 (angle N (INR j) (INR t))) as (C & S); pose proof (Rabs_pos (x t)).
  - rewrite Rmult_0_l, Rplus_0_r, Rabs_mult. nra.
  - rewrite Rmult_0_l, Rminus_0_l, Rabs_Ropp, Rabs_mult. nra.
Qed.

Lemma sq_diff : forall a b A d, Rabs (a - b) <= d -> Rabs b <= A -> 0 <= A -> 0 <= d -> Rabs (a * a - b * b) <= d * (2 * A + d).
Proof.
  intros a b A d H B PA Pd. replace (a * a - b * b) with ((a - b) * (a - b + 2 * b)) by ring. rewrite Rabs_mult.
  pose proof (Rabs_triang (a - b) (2 * b)) as T. rewrite (Rabs_mult 2), (Rabs_pos_eq 2) in T by lra.
  pose proof (Rabs_pos (a - b)). pose proof (Rabs_pos (a - b + 2 * b)). apply Rmult_le_compat; lra.
Qed.

Lemma within_R : forall k x, fin x -> Rabs (B2R x) <= bpow radix2 k -> within k x.
Proof. now split. Qed.

(** One bin of the computed power spectrum. *)
Lemma power_bin : forall N x A e j (z : complex), 0 <= e <= / 8 -> 0 <= A <= bpow radix2 30 ->
  sumn (fun t => Rabs (x t)) N <= A ->
  fin (fst z) -> fin (snd z) ->
  Rabs (B2R (fst z) - fwd_re N x (fun _ => 0) j) <= e * A -> Rabs (B2R (snd z) - fwd_im N x (fun _ => 0) j) <= e * A ->
  let p := mul_conj z in
  within 63 (fst p) /\ within 63 (snd p) /\ B2R (snd p) = 0 /\
  Rabs (B2R (fst p) - power N x j) <= (17 / 4 * e + 3 / 4194304) * (A * A) + bpow radix2 (-140) /\
  Rabs (B2R (fst p)) <= 13 / 5 * (A * A) + bpow radix2 (-140).
Proof.
  intros N x A e j (a & b) He HA HX Fa Fb Ea Eb p. cbn [fst snd] in *.
  destruct (fwd_bound N x A j HX) as (Br & Bi).
  set (r := fwd_re N x (fun _ => 0) j) in *. set (i := fwd_im N x (fun _ => 0) j) in *.
  assert (K : bpow radix2 31 = 2 * bpow radix2 30) by (cbn; lra).
  assert (Ba : Rabs (B2R a) <= 9 / 8 * A).
  { replace (B2R a) with (B2R a - r + r) by ring. eapply Rle_trans; [apply Rabs_triang|]. nra. }
  assert (Bb : Rabs (B2R b) <= 9 / 8 * A).
  { replace (B2R b) with (B2R b - i + i) by ring. eapply Rle_trans; [apply Rabs_triang|]. nra. }
  assert (Wa : within 31 a) by (split; [assumption|lra]). assert (Wb : within 31 b) by (split; [assumption|lra]).
  destruct (mul_conj_val a b Wa Wb) as (W1 & W2 & Z & V). fold p in W1, W2, Z, V.
  split; [exact W1|]. split; [exact W2|]. split; [exact Z|].
  assert (PA : 0 <= e * A) by nra.
  pose proof (sq_diff _ _ A (e * A) Ea Br ltac:(lra) PA) as D1. pose proof (sq_diff _ _ A (e * A) Eb Bi ltac:(lra) PA) as D2.
  assert (S1 : B2R a * B2R a <= 81 / 64 * (A * A)).
  { rewrite <- (Rabs_pos_eq (B2R a * B2R a)) by apply Rle_0_sqr. rewrite Rabs_mult. pose proof (Rabs_pos (B2R a)).
    replace (81 / 64 * (A * A)) with ((9 / 8 * A) * (9 / 8 * A)) by field. apply Rmult_le_compat; lra. }
  assert (S2 : B2R b * B2R b <= 81 / 64 * (A * A)).
  { rewrite <- (Rabs_pos_eq (B2R b * B2R b)) by apply Rle_0_sqr. rewrite Rabs_mult. pose proof (Rabs_pos (B2R b)).
    replace (81 / 64 * (A * A)) with ((9 / 8 * A) * (9 / 8 * A)) by field. apply Rmult_le_compat; lra. }
  set (v := B2R a * B2R a + B2R b * B2R b) in *.
  assert (V0 : 0 <= v) by (apply Rplus_le_le_0_compat; apply Rle_0_sqr).
  assert (AA : 0 <= A * A) by apply Rle_0_sqr.
  assert (V1 : v <= 81 / 32 * (A * A)) by (unfold v; lra).
  assert (D : Rabs (v - power N x j) <= 17 / 4 * e * (A * A)).
  { unfold power. fold r i. replace (v - (r * r + i * i)) with ((B2R a * B2R a - r * r) + (B2R b * B2R b - i * i)) by (unfold v; ring).
    eapply Rle_trans; [apply Rabs_triang|].
    assert (e * A * (2 * A + e * A) <= 17 / 8 * e * (A * A)).
    { replace (e * A * (2 * A + e * A)) with ((2 + e) * (e * (A * A))) by ring.
      replace (17 / 8 * e * (A * A)) with (17 / 8 * (e * (A * A))) by ring. apply Rmult_le_compat_r; [nra|lra]. }
    lra. }
  set (q := B2R (fst p)) in *. clearbody v q. set (P := power N x j) in *. clearbody P. pose proof (bpow_gt_0 radix2 (-140)).
  split.
  - replace (q - P) with ((q - v) + (v - P)) by ring. eapply Rle_trans; [apply Rabs_triang|]. lra.
  - replace q with ((q - v) + v) by ring. eapply Rle_trans; [apply Rabs_triang|]. rewrite (Rabs_pos_eq v) by lra. lra.
Qed.

Lemma sumn_term : forall f n k, (forall i, (i < n)%nat -> 0 <= f i) -> (k < n)%nat -> f k <= sumn f n.
Proof.
  intros f n k. induction n as [|n IH]; intros H K; [lia|]. cbn [sumn].
  pose proof (sumn_nonneg f n ltac:(auto)). destruct (Nat.eq_dec k n) as [->|]; [lra|].
  specialize (IH ltac:(auto) ltac:(lia)). specialize (H n ltac:(lia)). lra.
Qed.

(** The zero-padded buffer. *)
Lemma padded_nth : forall s m t,
  nth t (map (fun x => (x, f0)) s ++ repeat (f0, f0) m) (f0, f0) = (nth t s f0, f0).
Proof.
  intros s m t. destruct (Nat.lt_ge_cases t (length s)) as [L|L].
  - rewrite app_nth1 by now rewrite map_length. exact (map_nth (fun x : f32 => (x, f0)) s f0 t).
  - rewrite app_nth2 by now rewrite map_length. rewrite nth_repeat, nth_overflow; auto.
Qed.

Lemma fmax0_val : forall x, fin x -> fin (fmax x f0) /\ B2R (fmax x f0) = Rmax (B2R x) 0.
Proof.
  intros x F. destruct (fmax_case x f0) as [E|E]; rewrite E.
  - split; [exact F|]. symmetry. apply Rmax_left. 
    assert (L : fle f0 (fmax x f0) = true) by (apply fmax_ge_r; reflexivity). rewrite E in L. apply fle_fx in L.
    rewrite !fx_fin in L by auto. exact L.
  - split; [reflexivity|]. symmetry. apply Rmax_right.
    assert (L : fle x (fmax x f0) = true) by (apply fmax_ge_l; now apply fin_nn). rewrite E in L. apply fle_fx in L.
    rewrite !fx_fin in L by auto. exact L.
Qed.
Lemma Rmax_close : forall a b h, Rabs (a - b) <= h -> Rabs (Rmax a 0 - Rmax b 0) <= h.
Proof.
  intros a b h H. apply Rabs_le_inv in H. apply Rabs_le. unfold Rmax. destruct (Rle_dec a 0), (Rle_dec b 0); lra.
Qed.

Lemma n2f_pow2 : forall m, (m <= 60)%nat -> fin (n2f (2 ^ m)) /\ B2R (n2f (2 ^ m)) = bpow radix2 (Z.of_nat m).
Proof.
  intros m H. unfold n2f. assert (E : IZR (Z.of_nat (2 ^ m)) = bpow radix2 (Z.of_nat m)).
  { rewrite Nat2Z.inj_pow. rewrite (IZR_Zpower radix2) by lia. reflexivity. }
  destruct (z2f_fx (Z.of_nat (2 ^ m))) as (N & X). rewrite E, rnd_bpow in X by lia.
  assert (F : fin (z2f (Z.of_nat (2 ^ m)))).
  { apply z2f_fin. rewrite Z.abs_eq by lia. rewrite Nat2Z.inj_pow. apply Z.pow_le_mono_r; lia. }
  split; [exact F|]. rewrite fx_fin in X by auto. rewrite X. apply sat_id. pose proof (bpow_ge_0 radix2 (Z.of_nat m)).
  assert (bpow radix2 (Z.of_nat m) <= big) by (apply bpow_le; lia). lra.
Qed.

(** Every lag of the computed autocorrelation. *)
Lemma autocorr_value : forall F s e A k, 0 <= e <= / 8 -> Forall (fun x => fin x) s ->
  sumn (fun t => Rabs (B2R (nth t s f0))) (length s) + slack <= A -> A <= bpow radix2 30 ->
  (Z.of_nat (length s) <= 2 ^ 50)%Z -> accurate F (next_pow2 (2 * length s)) e -> (k < length s)%nat ->
  let v := nth k (autocorr_fft F s) f0 in
  fin v /\ Rabs (B2R v - Rmax (sumn (fun t => B2R (nth t s f0) * B2R (nth (t + k) s f0)) (length s)) 0)
           <= (7 * e + / 1048576) * (A * A) + bpow radix2 (-98).
Proof.
  intros F s e A k He Fs HA0 BA30 HL Acc Hk v. pose proof slack_pos as PS.
  assert (BA : 0 <= A <= bpow radix2 30)
    by (split; [|exact BA30]; pose proof (sumn_nonneg (fun t => Rabs (B2R (nth t s f0))) (length s) (fun i _ => Rabs_pos _)); lra).
  assert (HA : sumn (fun t => Rabs (B2R (nth t s f0))) (length s) <= A) by lra.
  set (n := length s) in *. set (N := next_pow2 (2 * n)) in *. set (x := fun t => B2R (nth t s f0)) in *.
  assert (LN : (2 * n <= N)%nat) by apply next_pow2_ge.
  set (m := Nat.log2_up (2 * n)).
  assert (Hm : (m <= 51)%nat).
  { apply (Nat.le_trans _ (Nat.log2_up (2 ^ 51))); [|rewrite Nat.log2_up_pow2; lia].
    apply Nat.log2_up_le_mono. apply Nat2Z.inj_le. rewrite Nat2Z.inj_pow, Nat2Z.inj_mul.
    change (Z.of_nat 2) with 2%Z. change (Z.of_nat 51) with 51%Z. lia. }
  destruct (n2f_pow2 m ltac:(lia)) as (FN & EN). change (2 ^ m)%nat with N in FN, EN.
  assert (IN : INR N = bpow radix2 (Z.of_nat m)).
  { rewrite INR_IZR_INZ. unfold N, next_pow2. fold m. rewrite Nat2Z.inj_pow. rewrite (IZR_Zpower radix2) by lia. reflexivity. }
  assert (PN : 0 < INR N) by (rewrite IN; apply bpow_gt_0).
  assert (X0 : forall t, (n <= t)%nat -> x t = 0) by (intros t Ht; unfold x; rewrite nth_overflow; auto).
  assert (XN0 : sumn (fun t => Rabs (x t)) N + slack <= A).
  { rewrite (sumn_extend _ n N); [exact HA0|lia|]. intros i Hi. rewrite X0 by lia. apply Rabs_R0. }
  assert (XN : sumn (fun t => Rabs (x t)) N <= A) by lra.
  assert (XA : forall t, Rabs (x t) <= A).
  { intros t. destruct (Nat.lt_ge_cases t n) as [L|L].
    - eapply Rle_trans; [|exact HA]. apply (sumn_term (fun t => Rabs (x t))); auto. intros; apply Rabs_pos.
    - rewrite X0, Rabs_R0 by auto. lra. }
  set (l := map (fun x => (x, f0)) s ++ repeat (f0, f0) (N - n)).
  assert (Ll : length l = N) by (unfold l; rewrite app_length, map_length, repeat_length; fold n; lia).
  assert (Rl : forall t, re_of l t = x t) by (intros t; unfold re_of, l; now rewrite padded_nth).
  assert (Il : forall t, im_of l t = 0) by (intros t; unfold im_of, l; now rewrite padded_nth).
  assert (Wl : weight l + slack <= A).
  { unfold weight. rewrite Ll. rewrite (sumn_ext _ (fun t => Rabs (x t))); [exact XN0|].
    intros t _. rewrite Rl, Il, Rabs_R0. lra. }
  assert (Bl : bounded_buffer l).
  { apply Forall_forall. intros z Hz. destruct (In_nth _ _ (f0, f0) Hz) as (t & Ht & E). unfold l in E. rewrite padded_nth in E.
    subst z. cbn [fst snd]. split; [|apply within_0]. split.
    - destruct (Nat.lt_ge_cases t n) as [L|L]; [|rewrite nth_overflow; auto].
      rewrite Forall_forall in Fs. apply Fs. now apply nth_In.
    - eapply Rle_trans; [apply (XA t)|]. eapply Rle_trans; [apply BA|]. apply bpow_le. lia. }
  assert (EA : e * (weight l + slack) <= e * A) by (apply Rmult_le_compat_l; lra).
  set (tau := bpow radix2 (-140)). assert (Pt : 0 < tau) by apply bpow_gt_0.
  assert (AA : 0 <= A * A) by apply Rle_0_sqr.
  set (pw := map mul_conj (fft_forward F l)).
  assert (Lp : length pw = N) by (unfold pw; now rewrite map_length, fft_forward_len).
  assert (Bin : forall j, (j < N)%nat -> let p := nth j pw (f0, f0) in
     within 63 (fst p) /\ within 63 (snd p) /\ B2R (snd p) = 0 /\
     Rabs (B2R (fst p) - power N x j) <= (17 / 4 * e + 3 / 4194304) * (A * A) + tau /\
     Rabs (B2R (fst p)) <= 13 / 5 * (A * A) + tau).
  { intros j Hj p. destruct (Acc l Ll Bl j Hj) as ((F1 & F2 & E1 & E2) & _).
    assert (Ep : p = mul_conj (nth j (fft_forward F l) (f0, f0))).
    { unfold p. rewrite (nth_indep _ (f0, f0) (mul_conj (f0, f0))) by lia. apply map_nth. }
    assert (G1 : fwd_re N (re_of l) (im_of l) j = fwd_re N x (fun _ => 0) j)
      by (apply sumn_ext; intros t _; now rewrite Rl, Il).
    assert (G2 : fwd_im N (re_of l) (im_of l) j = fwd_im N x (fun _ => 0) j)
      by (apply sumn_ext; intros t _; now rewrite Rl, Il).
    rewrite G1 in E1. rewrite G2 in E2. rewrite Ep. apply power_bin; auto; lra. }
  assert (Bp : bounded_buffer pw).
  { apply Forall_forall. intros z Hz. destruct (In_nth _ _ (f0, f0) Hz) as (t & Ht & E). rewrite Lp in Ht.
    destruct (Bin t Ht) as (B1 & B2 & _). rewrite E in B1, B2. split; eapply within_mono; eauto; lia. }
  assert (Wp : weight pw <= INR N * (13 / 5 * (A * A) + tau)).
  { unfold weight. rewrite Lp, <- sumn_const. apply sumn_le. intros t Ht. destruct (Bin t Ht) as (_ & _ & Z & _ & B).
    unfold re_of, im_of. rewrite Z, Rabs_R0. lra. }
  destruct (Acc pw Lp Bp k ltac:(lia)) as (_ & F1 & _ & E1 & _).
  set (back := nth k (fft_inverse F pw) (f0, f0)) in *.
  set (rk := sumn (fun t => x t * x (t + k)%nat) n).
  assert (WK := wiener_khinchin N n x k LN Hk X0). fold rk in WK.
  assert (D : Rabs (inv_re N (re_of pw) (im_of pw) k - INR N * rk) <= INR N * ((17 / 4 * e + 3 / 4194304) * (A * A) + tau)).
  { rewrite <- WK. unfold inv_re. set (c := fun t => cos (angle N (INR k) (INR t))).
    replace (sumn _ N - sumn _ N) with (sumn (fun t => (re_of pw t - power N x t) * c t) N).
    - rewrite <- sumn_const. eapply Rle_trans; [apply sumn_abs|]. apply sumn_le. intros t Ht.
      destruct (Bin t Ht) as (_ & _ & _ & B & _). rewrite Rabs_mult. destruct (trig_le1 (angle N (INR k) (INR t))) as (C & _).
      unfold re_of. pose proof (Rabs_pos (B2R (fst (nth t pw (f0, f0))) - power N x t)). unfold c.
      pose proof (Rabs_pos (cos (angle N (INR k) (INR t)))). nra.
    - rewrite <- (Rmult_1_l (sumn (fun t => power N x t * _ - _) N)). 
      replace (1 * sumn (fun t => power N x t * cos (angle N (INR k) (INR t)) - 0 * sin (angle N (INR k) (INR t))) N)
        with (- (-1 * sumn (fun t => power N x t * cos (angle N (INR k) (INR t)) - 0 * sin (angle N (INR k) (INR t))) N)) by ring.
      unfold Rminus at 2. rewrite Ropp_involutive, <- sumn_scal, <- sumn_plus. apply sumn_ext. intros t Ht.
      destruct (Bin t Ht) as (_ & _ & Z & _ & _). unfold im_of. rewrite Z. unfold c. ring. }
  assert (N1 : 1 <= INR N) by (rewrite IN; apply (bpow_le radix2 0); lia).
  assert (Wp' : e * (weight pw + slack) <= INR N * (e * (13 / 5 * (A * A) + tau) + slack)).
  { rewrite Rmult_plus_distr_l, Rmult_plus_distr_l. apply Rplus_le_compat; [|nra].
    replace (INR N * (e * (13 / 5 * (A * A) + tau))) with (e * (INR N * (13 / 5 * (A * A) + tau))) by ring. apply Rmult_le_compat_l; [apply He|exact Wp]. }
  set (h := (137 / 20 * e + 3 / 4194304) * (A * A) + 2 * tau + slack).
  assert (Q : Rabs (B2R (fst back) / INR N - rk) <= h).
  { assert (G : Rabs (B2R (fst back) - INR N * rk) <= INR N * h).
    { replace (B2R (fst back) - INR N * rk) with
        ((B2R (fst back) - inv_re N (re_of pw) (im_of pw) k) + (inv_re N (re_of pw) (im_of pw) k - INR N * rk)) by ring.
      eapply Rle_trans; [apply Rabs_triang|].
      assert (INR N * (e * (13 / 5 * (A * A) + tau) + slack) + INR N * ((17 / 4 * e + 3 / 4194304) * (A * A) + tau) <= INR N * h).
      { rewrite <- Rmult_plus_distr_l. apply Rmult_le_compat_l; [lra|]. unfold h. nra. }
      lra. }
    replace (B2R (fst back) / INR N - rk) with ((B2R (fst back) - INR N * rk) * / INR N) by (field; lra).
    rewrite Rabs_mult, (Rabs_pos_eq (/ INR N)) by (left; now apply Rinv_0_lt_compat).
    apply Rmult_le_reg_r with (INR N); [lra|]. rewrite Rmult_assoc, Rinv_l by lra. lra. }
  assert (RK : Rabs rk <= A * A).
  { unfold rk. eapply Rle_trans; [apply sumn_abs|]. eapply Rle_trans; [apply (sumn_le _ (fun t => A * Rabs (x t)))|].
    - intros t _. rewrite Rabs_mult. pose proof (XA (t + k)%nat). pose proof (Rabs_pos (x t)). nra.
    - rewrite sumn_scal. apply Rmult_le_compat_l; [apply BA|exact HA]. }
  set (scale := fdiv f1 (n2f N)).
  assert (ES : fin scale /\ B2R scale = / INR N).
  { assert (NZ : B2R (n2f N) <> 0) by (rewrite EN; apply Rgt_not_eq, bpow_gt_0).
    destruct (fdiv_fx f1 (n2f N) eq_refl FN NZ) as (Nn & Ex). fold scale in Nn, Ex.
    rewrite B2R_f1, EN in Ex. unfold Rdiv in Ex. rewrite Rmult_1_l, <- bpow_opp, rnd_bpow in Ex by lia.
    assert (W : within 0 scale).
    { apply (within_of 0 scale (bpow radix2 (- Z.of_nat m))); auto; [lia|]. rewrite Rabs_pos_eq by apply bpow_ge_0. apply bpow_le. lia. }
    split; [apply (within_fin 0 _ W)|]. rewrite <- fx_fin by apply (within_fin 0 _ W). rewrite Ex, IN, <- bpow_opp. apply sat_id.
    pose proof (bpow_ge_0 radix2 (- Z.of_nat m)). assert (bpow radix2 (- Z.of_nat m) <= big) by (apply bpow_le; lia). lra. }
  destruct ES as (FS & ES).
  assert (AA' : A * A <= bpow radix2 60).
  { change 60%Z with (30 + 30)%Z. rewrite bpow_plus. apply Rmult_le_compat; lra. }
  assert (T1 : tau <= 1) by (apply (bpow_le radix2 (-140) 0); lia).
  assert (SL1 : slack <= 1) by (apply (bpow_le radix2 (-100) 0); lia).
  assert (HH : h <= A * A + 3) by (unfold h; nra).
  assert (B62 : bpow radix2 62 = 4 * bpow radix2 60) by (cbn; lra).
  assert (B60 : 4 <= bpow radix2 60) by (apply (bpow_le radix2 2 60); lia).
  assert (Qb : Rabs (B2R (fst back) * B2R scale) <= bpow radix2 62).
  { rewrite ES. change (B2R (fst back) * / INR N) with (B2R (fst back) / INR N).
    replace (B2R (fst back) / INR N) with (B2R (fst back) / INR N - rk + rk) by ring.
    eapply Rle_trans; [apply Rabs_triang|]. lra. }
  set (w := fmul (fst back) scale).
  assert (Ww : within 62 w).
  { destruct (fmul_fx (fst back) scale F1 FS) as (Nn & Ex). apply (within_of 62 w _ ltac:(lia) Nn Ex). apply rnd_within; [lia|exact Qb]. }
  assert (Ew : B2R w = rnd (B2R (fst back) / INR N)) by (unfold w; rewrite B2R_fmul, ES by (apply (within_fin _ _ Ww)); reflexivity).
  assert (Vw : v = fmax w f0).
  { unfold v, autocorr_fft. fold n N l pw scale.
    set (g := fun z : complex => fmax (fmul (fst z) scale) f0).
    assert (L' : (k < length (firstn n (fft_inverse F pw)))%nat) by (rewrite firstn_length, fft_inverse_len, Lp; lia).
    rewrite (nth_indep _ f0 (g (f0, f0))) by now rewrite map_length.
    rewrite map_nth. unfold g, w, back. do 3 f_equal.
    rewrite <- (firstn_skipn n (fft_inverse F pw)) at 2. now rewrite app_nth1. }
  destruct (fmax0_val w (within_fin _ _ Ww)) as (Fv & Ev). rewrite <- Vw in Fv, Ev.
  split; [exact Fv|]. rewrite Ev. apply Rmax_close.
  change (sumn (fun t => B2R (nth t s f0) * B2R (nth (t + k) s f0)) n) with rk. rewrite Ew.
  set (q := B2R (fst back) / INR N) in *.
  pose proof (rnd_near q) as Rq.
  assert (q' : Rabs q <= A * A + h).
  { replace q with (q - rk + rk) by ring. eapply Rle_trans; [apply Rabs_triang|]. lra. }
  replace (rnd q - rk) with ((rnd q - q) + (q - rk)) by ring. eapply Rle_trans; [apply Rabs_triang|].
  assert (T8 : bpow radix2 (-98) = 4 * slack) by (unfold slack; change (-98)%Z with (2 + -100)%Z; rewrite bpow_plus; reflexivity).
  assert (TS : tau <= / 16 * slack) by (unfold tau, slack; replace (/ 16) with (bpow radix2 (-4)) by (cbn; lra); rewrite <- bpow_plus; apply bpow_le; lia).
  assert (T0 : tiny <= tau) by apply tiny_small. rewrite T8.
  assert (u24 * (A * A + h) + tiny + h <= (7 * e + / 1048576) * (A * A) + 4 * slack).
  { unfold h, u24. clear - He AA Pt T0 TS PS. nra. }
  unfold u24 in *. lra.
Qed.
