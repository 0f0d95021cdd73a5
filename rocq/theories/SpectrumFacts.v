(** The Hann window and the magnitude of a transform bin in floating point: lemmas. *)
From Coq Require Import ZArith Bool List Arith Lia Reals Lra Machin SpecFloat.
From Flocq Require Import Core IEEE754.BinarySingleNaN.
From Verif Require Import Rust F32 F32Facts F32More Bounds NoveltyProofs Libm Autocorrelation AutocorrelationProofs TempoSpectra
  CombFilterProofs FourierFacts AutocorrelationValueProofs.
Import ListNotations.
Local Open Scope R_scope.

(** ** pi and the cosine *)
Lemma PI_bounds : 3.1415926 <= PI <= 3.1415927.
Proof.
  pose proof (PI_2_3_7_ineq 3) as (L & H). unfold tg_alt, PI_2_3_7_tg, Ratan_seq in L, H. cbn [Nat.mul Nat.add] in L, H.
  cbn [sum_f_R0] in L, H. cbn [Nat.mul Nat.add] in L, H. rewrite !INR_IZR_INZ in H. rewrite !(INR_IZR_INZ _) in L.
  change (IZR (Z.of_nat 15)) with 15 in L. cbn [Z.of_nat Pos.of_succ_nat Pos.succ] in L, H. cbn [pow] in L, H. lra.
Qed.

Lemma sin_abs : forall x, Rabs (sin x) <= Rabs x.
Proof.
  intros x. destruct (Rtotal_order x 0) as [L|[->|G]].
  - pose proof (sin_lt_x (- x) ltac:(lra)) as H. rewrite sin_neg in H. rewrite (Rabs_left x) by lra.
    destruct (Rle_lt_dec (sin x) 0); [rewrite Rabs_left1 by lra; lra|].
    destruct (Rle_lt_dec (-1) x) as [B|B]; [|rewrite Rabs_pos_eq by lra; pose proof (SIN_bound x); lra].
    exfalso. assert (0 < sin (- x)) by (apply sin_gt_0; pose proof PI_bounds; lra). rewrite sin_neg in H0. lra.
  - rewrite sin_0. lra.
  - pose proof (sin_lt_x x G) as H. rewrite (Rabs_pos_eq x) by lra.
    destruct (Rle_lt_dec 0 (sin x)); [rewrite Rabs_pos_eq by lra; lra|].
    destruct (Rle_lt_dec x 1) as [B|B]; [|rewrite Rabs_left by lra; pose proof (SIN_bound x); lra].
    exfalso. assert (0 < sin x) by (apply sin_gt_0; pose proof PI_bounds; lra). lra.
Qed.
Lemma cos_lip : forall a b, Rabs (cos a - cos b) <= Rabs (a - b).
Proof.
  intros a b. rewrite form2. rewrite !Rabs_mult, (Rabs_left (-2)) by lra.
  pose proof (sin_abs ((a - b) / 2)) as H. unfold Rdiv in H at 2. rewrite Rabs_mult, (Rabs_pos_eq (/ 2)) in H by lra.
  destruct (trig_le1 ((a + b) / 2)) as (_ & S). pose proof (Rabs_pos (sin ((a - b) / 2))). pose proof (Rabs_pos (sin ((a + b) / 2))). nra.
Qed.

(** The cosine of the platform is within d of the real one on [-7, 7]. *)
Definition cos_accurate (L : libm) (d : R) : Prop := forall x, fin x -> Rabs (B2R x) <= 7 ->
  fin (m_cos L x) /\ Rabs (B2R (m_cos L x) - cos (B2R x)) <= d.

(** ** The window *)
Definition hann_at (n t : nat) : R := (1 - cos (2 * PI * INR t / INR (n - 1))) / 2.
Lemma hann_at_bounds : forall n t, 0 <= hann_at n t <= 1.
Proof. intros n t. unfold hann_at. pose proof (COS_bound (2 * PI * INR t / INR (n - 1))). lra. Qed.

Lemma two_pi_val : fin (fmul f2 f_pi) /\ B2R (fmul f2 f_pi) = 13176795 / 2097152.
Proof.
  assert (E : B2SF (fmul f2 f_pi) = S754_finite false 13176795 (-21)) by (vm_compute; reflexivity).
  split.
  - rewrite <- is_finite_SF_B2SF, E. reflexivity.
  - rewrite <- SF2R_B2SF, E. unfold SF2R, F2R. cbn. lra.
Qed.

Definition window (L : libm) (n i : nat) : f32 :=
  fmul fhalf (fsub f1 (m_cos L (fdiv (fmul (fmul f2 f_pi) (n2f i)) (n2f (n - 1))))).

Lemma window_arg : forall n i, (2 <= n)%nat -> (Z.of_nat n <= 16777216)%Z -> (i < n)%nat ->
  let a := fdiv (fmul (fmul f2 f_pi) (n2f i)) (n2f (n - 1)) in
  fin a /\ Rabs (B2R a) <= 7 /\ Rabs (B2R a - 2 * PI * INR i / INR (n - 1)) <= / 524288.
Proof.
  intros n i Hn Hb Hi a.
  destruct two_pi_val as (Fp & Ep). set (p := fmul f2 f_pi) in *. clearbody p.
  destruct (n2f_exact i ltac:(lia)) as (Fi & Ei). destruct (n2f_exact (n - 1) ltac:(lia)) as (Fm & Em).
  rewrite <- INR_IZR_INZ in Ei, Em.
  assert (Hm : 1 <= INR (n - 1)) by (apply (le_INR 1); lia).
  assert (Hi' : 0 <= INR i <= INR (n - 1)) by (split; [apply pos_INR|apply le_INR; lia]).
  assert (B24 : INR (n - 1) <= 16777216) by (rewrite INR_IZR_INZ; apply IZR_le; lia).
  set (q := fmul p (n2f i)) in *.
  assert (Wp : within 3 p) by (split; [assumption|rewrite Ep, Rabs_pos_eq by lra; cbn; lra]).
  assert (Wi : within 24 (n2f i)) by (split; [assumption|rewrite Ei, Rabs_pos_eq by lra; cbn; lra]).
  pose proof (within_mul 3 24 _ _ ltac:(lia) Wp Wi) as Wq. fold q in Wq. cbn [Z.add] in Wq.
  assert (Eq : B2R q = rnd (B2R p * INR i)) by (unfold q; rewrite B2R_fmul, Ei by apply (within_fin _ _ Wq); reflexivity).
  assert (Wa : within (27 - 0) a).
  { apply within_div; auto; [lia|]. rewrite Em, Rabs_pos_eq by lra. cbn. lra. }
  assert (Ea : B2R a = rnd (B2R q / INR (n - 1))).
  { unfold a. rewrite B2R_fdiv, Em; auto; [apply (within_fin _ _ Wa)|lra]. }
  assert (Fa : fin a) by apply (within_fin _ _ Wa).
  pose proof (rnd_near (B2R p * INR i)) as N1. rewrite <- Eq in N1. rewrite Rabs_mult, (Rabs_pos_eq (INR i)), (Rabs_pos_eq (B2R p)) in N1 by (try rewrite Ep; lra).
  set (m := INR (n - 1)) in *. set (t := INR i / m).
  assert (Ht : 0 <= t <= 1).
  { unfold t. split; [apply Rmult_le_pos; [lra|left; apply Rinv_0_lt_compat; lra]|].
    apply Rmult_le_reg_r with m; [lra|]. unfold Rdiv. rewrite Rmult_assoc, Rinv_l by lra. lra. }
  assert (Ti : INR i = t * m) by (unfold t; field; lra).
  assert (T0 : tiny <= / 1073741824) by (eapply Rle_trans; [apply tiny_small|]; change (/ 1073741824) with (/ IZR (2 ^ 30)); 
     rewrite (IZR_Zpower radix2) by lia; rewrite <- bpow_opp; apply bpow_le; lia).
  pose proof tiny_pos as TP.
  assert (N2 : Rabs (B2R q / m - B2R p * t) <= u24 * B2R p + tiny).
  { replace (B2R q / m - B2R p * t) with ((B2R q - B2R p * INR i) * / m) by (rewrite Ti; field; lra).
    rewrite Rabs_mult, (Rabs_pos_eq (/ m)) by (left; apply Rinv_0_lt_compat; lra).
    apply Rmult_le_reg_r with m; [lra|]. rewrite Rmult_assoc, Rinv_l, Rmult_1_r by lra. eapply Rle_trans; [exact N1|].
    unfold u24. rewrite Ep. rewrite Ep in N1. nra. }
  pose proof (rnd_near (B2R q / m)) as N3. rewrite <- Ea in N3.
  set (w := B2R q / m) in *. set (v := B2R a) in *. clearbody w v.
  assert (Wb : Rabs w <= 6.2832).
  { replace w with (w - B2R p * t + B2R p * t) by ring. eapply Rle_trans; [apply Rabs_triang|].
    rewrite (Rabs_pos_eq (B2R p * t)) by (rewrite Ep; nra). rewrite Ep in *. unfold u24 in *. nra. }
  pose proof PI_bounds as PB.
  assert (P : Rabs (B2R p * t - 2 * PI * INR i / m) <= 1 / 3000000).
  { replace (2 * PI * INR i / m) with (2 * PI * t) by (unfold t; field; lra). rewrite <- Rmult_minus_distr_r, Rabs_mult, (Rabs_pos_eq t) by lra.
    assert (Rabs (B2R p - 2 * PI) <= 1 / 3000000) by (rewrite Ep; apply Rabs_le; lra). pose proof (Rabs_pos (B2R p - 2 * PI)). nra. }
  assert (N3' : Rabs (v - w) <= / 2600000) by (unfold u24 in *; lra).
  assert (N2' : Rabs (w - B2R p * t) <= / 2600000) by (rewrite Ep in *; unfold u24 in *; lra).
  split; [exact Fa|]. split.
  - replace v with (v - w + w) by ring. eapply Rle_trans; [apply Rabs_triang|]. lra.
  - replace (v - 2 * PI * INR i / m) with ((v - w) + ((w - B2R p * t) + (B2R p * t - 2 * PI * INR i / m))) by ring.
    eapply Rle_trans; [apply Rabs_triang|]. pose proof (Rabs_triang (w - B2R p * t) (B2R p * t - 2 * PI * INR i / m)). lra.
Qed.

Lemma window_val : forall L d n i, cos_accurate L d -> d <= / 8 -> (2 <= n)%nat -> (Z.of_nat n <= 16777216)%Z -> (i < n)%nat ->
  let w := window L n i in fin w /\ Rabs (B2R w - hann_at n i) <= d / 2 + / 524288.
Proof.
  intros L d n i C Hd Hn Hb Hi w. destruct (window_arg n i Hn Hb Hi) as (Fa & Ba & Ea).
  unfold w, window, hann_at. set (a := fdiv _ _) in *. clearbody a.
  destruct (C a Fa Ba) as (Fc & Ec). set (c := m_cos L a) in *. clearbody c.
  assert (D := Rle_trans _ _ _ (Rabs_pos _) Ec).
  set (th := 2 * PI * INR i / INR (n - 1)) in *. clearbody th.
  pose proof (cos_lip (B2R a) th) as Lp. pose proof (COS_bound (B2R a)) as CB.
  assert (Bc : Rabs (B2R c) <= 2) by (apply Rabs_le_inv in Ec; apply Rabs_le; lra).
  assert (Wc : within 1 c) by (split; [assumption|cbn; lra]).
  assert (W1 : within 1 f1) by (split; [reflexivity|rewrite B2R_f1, Rabs_R1; cbn; lra]).
  pose proof (within_sub 1 _ _ ltac:(lia) W1 Wc) as Ws. set (s := fsub f1 c) in *.
  assert (Wh : within 0 fhalf) by (split; [reflexivity|rewrite B2R_fhalf, Rabs_pos_eq by lra; cbn; lra]).
  pose proof (within_mul 0 2 _ _ ltac:(lia) Wh Ws) as Wm.
  split; [apply (within_fin _ _ Wm)|].
  rewrite B2R_fmul, B2R_fhalf by apply (within_fin _ _ Wm).
  assert (Es : B2R s = rnd (1 - B2R c)) by (unfold s; rewrite B2R_fsub, B2R_f1; auto; apply (within_fin _ _ Ws)).
  pose proof (rnd_near (1 - B2R c)) as N1. rewrite <- Es in N1. clearbody s. clear Es Ws Wm.
  pose proof (rnd_near (/ 2 * B2R s)) as N2.
  set (r := rnd (/ 2 * B2R s)) in *. clearbody r.
  apply Rabs_le_inv in Ec. pose proof (Rle_trans _ _ _ Lp Ea) as Lp'. apply Rabs_le_inv in Lp'. apply Rabs_le_inv in Bc.
  assert (Rabs (1 - B2R c) <= 3) by (apply Rabs_le; lra).
  assert (T0 : tiny <= / 1073741824) by (eapply Rle_trans; [apply tiny_small|]; change (/ 1073741824) with (/ IZR (2 ^ 30)); 
     rewrite (IZR_Zpower radix2) by lia; rewrite <- bpow_opp; apply bpow_le; lia).
  assert (N1' : Rabs (B2R s - (1 - B2R c)) <= / 4000000) by (unfold u24 in *; lra). apply Rabs_le_inv in N1'.
  assert (Rabs (/ 2 * B2R s) <= 2) by (apply Rabs_le; lra).
  assert (N2' : Rabs (r - / 2 * B2R s) <= / 8000000) by (unfold u24 in *; lra). apply Rabs_le_inv in N2'.
  apply Rabs_le. lra.
Qed.

(** ** One bin of a transform *)

(** The correlation of y with the cosine and the sine of bin b. *)
Definition cos_part (N : nat) (y : nat -> R) (b : nat) : R := sumn (fun t => y t * cos (2 * PI * INR b * INR t / INR N)) N.
Definition sin_part (N : nat) (y : nat -> R) (b : nat) : R := sumn (fun t => y t * sin (2 * PI * INR b * INR t / INR N)) N.
Definition amplitude (N : nat) (y : nat -> R) (b : nat) : R := sqrt (Rsqr (cos_part N y b) + Rsqr (sin_part N y b)).

Lemma sumn_minus : forall f g n, sumn f n - sumn g n = sumn (fun i => f i - g i) n.
Proof. intros f g n. induction n as [|n IH]; cbn; [lra|]. rewrite <- IH. lra. Qed.
Lemma part_lip : forall N y y' b,
  Rabs (cos_part N y b - cos_part N y' b) <= sumn (fun t => Rabs (y t - y' t)) N /\
  Rabs (sin_part N y b - sin_part N y' b) <= sumn (fun t => Rabs (y t - y' t)) N.
Proof.
  intros N y y' b. unfold cos_part, sin_part. rewrite !sumn_minus.
  split; (eapply Rle_trans; [apply sumn_abs|]); apply sumn_le; intros t _; rewrite <- Rmult_minus_distr_r, Rabs_mult;
    destruct (trig_le1 (2 * PI * INR b * INR t / INR N)); pose proof (Rabs_pos (y t - y' t)); nra.
Qed.
Lemma part_bound : forall N y b, Rabs (cos_part N y b) <= sumn (fun t => Rabs (y t)) N /\
  Rabs (sin_part N y b) <= sumn (fun t => Rabs (y t)) N.
Proof.
  intros N y b. unfold cos_part, sin_part.
  split; (eapply Rle_trans; [apply sumn_abs|]); apply sumn_le; intros t _; rewrite Rabs_mult;
    destruct (trig_le1 (2 * PI * INR b * INR t / INR N)); pose proof (Rabs_pos (y t)); nra.
Qed.

(** A bin computed from a real buffer that is within [h] (in total) of y. *)
Lemma bin_parts : forall F N e l y A h b, accurate F N e -> 0 <= e -> length l = N -> bounded_buffer l -> (forall t, im_of l t = 0) ->
  sumn (fun t => Rabs (re_of l t - y t)) N <= h -> sumn (fun t => Rabs (y t)) N <= A -> (b < N)%nat ->
  let z := nth b (fft_forward F l) (f0, f0) in
  fin (fst z) /\ fin (snd z) /\
  Rabs (B2R (fst z) - cos_part N y b) <= e * (A + slack + h) + h /\ Rabs (B2R (snd z) + sin_part N y b) <= e * (A + slack + h) + h.
Proof.
  intros F N e l y A h b Acc He Ll Bl Il Hh HA Hb z. destruct (Acc l Ll Bl b Hb) as ((F1 & F2 & E1 & E2) & _). fold z in F1, F2, E1, E2.
  assert (G1 : fwd_re N (re_of l) (im_of l) b = cos_part N (re_of l) b)
    by (apply sumn_ext; intros t _; rewrite Il; unfold angle; ring).
  assert (G2 : fwd_im N (re_of l) (im_of l) b = - sin_part N (re_of l) b).
  { unfold fwd_im, sin_part. replace (- sumn _ N) with (-1 * sumn (fun t => re_of l t * sin (2 * PI * INR b * INR t / INR N)) N) by ring.
    rewrite <- sumn_scal. apply sumn_ext. intros t _. rewrite Il. unfold angle. ring. }
  assert (W : weight l <= A + h).
  { unfold weight. rewrite Ll. eapply Rle_trans; [apply (sumn_le _ (fun t => Rabs (y t) + Rabs (re_of l t - y t)))|].
    - intros t _. rewrite Il, Rabs_R0. pose proof (Rabs_triang (y t) (re_of l t - y t)) as T.
      replace (y t + (re_of l t - y t)) with (re_of l t) in T by ring. lra.
    - rewrite sumn_plus. lra. }
  assert (EW : e * (weight l + slack) <= e * (A + slack + h)) by (apply Rmult_le_compat_l; lra).
  destruct (part_lip N (re_of l) y b) as (P1 & P2).
  split; [exact F1|]. split; [exact F2|]. rewrite G1 in E1. rewrite G2 in E2. split.
  - replace (B2R (fst z) - cos_part N y b) with ((B2R (fst z) - cos_part N (re_of l) b) + (cos_part N (re_of l) b - cos_part N y b)) by ring.
    eapply Rle_trans; [apply Rabs_triang|]. lra.
  - replace (B2R (snd z) + sin_part N y b) with ((B2R (snd z) - - sin_part N (re_of l) b) + - (sin_part N (re_of l) b - sin_part N y b)) by ring.
    eapply Rle_trans; [apply Rabs_triang|]. rewrite Rabs_Ropp. lra.
Qed.

(** The squared magnitude in floating point. *)
Lemma square_sum_val : forall a b, within 31 a -> within 31 b ->
  let p := fadd (fmul a a) (fmul b b) in let v := B2R a * B2R a + B2R b * B2R b in
  within 63 p /\ nneg p /\ Rabs (B2R p - v) <= / 4194304 * v + bpow radix2 (-140).
Proof.
  intros a b Wa Wb p v. unfold p.
  pose proof (within_mul 31 31 _ _ ltac:(lia) Wa Wa) as Waa. pose proof (within_mul 31 31 _ _ ltac:(lia) Wb Wb) as Wbb.
  pose proof (within_add 62 _ _ ltac:(lia) Waa Wbb) as Wr. split; [exact Wr|].
  assert (F := within_fin).
  assert (E : B2R (fadd (fmul a a) (fmul b b)) = rnd (rnd (B2R a * B2R a) + rnd (B2R b * B2R b)))
    by (rewrite B2R_fadd, !B2R_fmul by eauto; reflexivity).
  set (x := B2R a * B2R a) in *. set (y := B2R b * B2R b) in *.
  assert (0 <= x) by apply Rle_0_sqr. assert (0 <= y) by apply Rle_0_sqr.
  pose proof (rnd_nonneg x ltac:(lra)). pose proof (rnd_nonneg y ltac:(lra)).
  split.
  - apply nneg_iff; [apply fin_nn; eauto|]. rewrite fx_fin, E by eauto. apply rnd_nonneg. lra.
  - rewrite E. pose proof (rnd_near x) as Ex. pose proof (rnd_near y) as Ey. rewrite (Rabs_pos_eq x) in Ex by lra. rewrite (Rabs_pos_eq y) in Ey by lra.
    pose proof (rnd_near (rnd x + rnd y)) as Es. rewrite (Rabs_pos_eq (rnd x + rnd y)) in Es by lra.
    apply Rabs_le_inv in Ex. apply Rabs_le_inv in Ey. apply Rabs_le_inv in Es.
    assert (T : tiny * 1024 = bpow radix2 (-140)) by (unfold tiny; change (-140)%Z with (-150 + 10)%Z; rewrite bpow_plus; cbn; lra).
    pose proof tiny_pos. rewrite <- T. unfold v. unfold u24 in *. apply Rabs_le. lra.
Qed.

Lemma sqrt_le_abs : forall a b, sqrt (Rsqr a + Rsqr b) <= Rabs a + Rabs b.
Proof.
  intros a b. pose proof (Rabs_pos a). pose proof (Rabs_pos b). rewrite <- (sqrt_Rsqr (Rabs a + Rabs b)) by lra.
  apply sqrt_le_1_alt. rewrite (Rsqr_abs a), (Rsqr_abs b). unfold Rsqr. nra.
Qed.
(** The length of a vector changes by at most the change of its coordinates. *)
Lemma hypot_triang : forall a b c d, sqrt (Rsqr (a + c) + Rsqr (b + d)) <= sqrt (Rsqr a + Rsqr b) + sqrt (Rsqr c + Rsqr d).
Proof.
  intros a b c d. pose proof (sqrt_pos (Rsqr a + Rsqr b)) as P. pose proof (sqrt_pos (Rsqr c + Rsqr d)) as Q.
  set (u := sqrt (Rsqr a + Rsqr b)) in *. set (v := sqrt (Rsqr c + Rsqr d)) in *.
  assert (Eu : u * u = a * a + b * b) by (apply (sqrt_sqrt (Rsqr a + Rsqr b)); pose proof (Rle_0_sqr a); pose proof (Rle_0_sqr b); lra).
  assert (Ev : v * v = c * c + d * d) by (apply (sqrt_sqrt (Rsqr c + Rsqr d)); pose proof (Rle_0_sqr c); pose proof (Rle_0_sqr d); lra).
  clearbody u v. rewrite <- (sqrt_Rsqr (u + v)) by lra. apply sqrt_le_1_alt. unfold Rsqr.
  assert (C : a * c + b * d <= u * v).
  { apply Rsqr_incr_0_var; [|nra]. unfold Rsqr. replace (u * v * (u * v)) with ((u * u) * (v * v)) by ring. rewrite Eu, Ev.
    pose proof (Rle_0_sqr (a * d - b * c)) as H. unfold Rsqr in H. nra. }
  nra.
Qed.
Lemma hypot_lip : forall a b c d, Rabs (sqrt (Rsqr a + Rsqr b) - sqrt (Rsqr c + Rsqr d)) <= Rabs (a - c) + Rabs (b - d).
Proof.
  intros a b c d. pose proof (hypot_triang c d (a - c) (b - d)) as H1. pose proof (hypot_triang a b (c - a) (d - b)) as H2.
  replace (c + (a - c)) with a in H1 by ring. replace (d + (b - d)) with b in H1 by ring.
  replace (a + (c - a)) with c in H2 by ring. replace (b + (d - b)) with d in H2 by ring.
  pose proof (sqrt_le_abs (a - c) (b - d)) as S1. pose proof (sqrt_le_abs (c - a) (d - b)) as S2.
  rewrite (Rabs_minus_sym c a), (Rabs_minus_sym d b) in S2. apply Rabs_le. lra.
Qed.

Lemma sqrt_near : forall p v, 0 <= p -> 0 <= v -> Rabs (p - v) <= / 4194304 * v + bpow radix2 (-140) ->
  Rabs (sqrt p - sqrt v) <= / 2097152 * sqrt v + bpow radix2 (-70).
Proof.
  intros p v Hp Hv H. set (s := sqrt v). set (r := sqrt p). assert (Es : s * s = v) by now apply sqrt_sqrt. assert (Er : r * r = p) by now apply sqrt_sqrt.
  assert (Ps : 0 <= s) by apply sqrt_pos. assert (Pr : 0 <= r) by apply sqrt_pos.
  set (q := bpow radix2 (-70)). assert (Pq : 0 < q) by apply bpow_gt_0.
  assert (Eq : bpow radix2 (-140) = q * q) by (unfold q; rewrite <- bpow_plus; f_equal; lia).
  rewrite Eq, <- Es, <- Er in H. clearbody s r q. apply Rabs_le_inv in H. apply Rabs_le. split.
  - (* s - r <= k s + q *) apply Rnot_lt_le. intros C. assert (r < s * (1 - / 2097152) - q) by lra. 
    assert (0 <= s * (1 - / 2097152) - q) by lra. assert (r * r < (s * (1 - / 2097152) - q) * (s * (1 - / 2097152) - q)) by nra. nra.
  - apply Rnot_lt_le. intros C. assert (r > s * (1 + / 2097152) + q) by lra.
    assert (r * r > (s * (1 + / 2097152) + q) * (s * (1 + / 2097152) + q)) by nra. nra.
Qed.

(** The magnitude of a bin. *)
Lemma magnitude_val : forall z c s A D, fin (fst z) -> fin (snd z) -> Rabs c <= A -> Rabs s <= A -> A + D <= bpow radix2 31 ->
  0 <= D -> Rabs (B2R (fst z) - c) <= D -> Rabs (B2R (snd z) + s) <= D ->
  let m := fsqrt (fadd (fmul (fst z) (fst z)) (fmul (snd z) (snd z))) in
  fin m /\ Rabs (B2R m - sqrt (Rsqr c + Rsqr s)) <= 2 * D + / 800000 * (A + D) + bpow radix2 (-69).
Proof.
  intros (a & b) c s A D Fa Fb Hc Hs HA HD Ea Eb m. cbn [fst snd] in *.
  assert (Ba : Rabs (B2R a) <= A + D).
  { replace (B2R a) with (B2R a - c + c) by ring. eapply Rle_trans; [apply Rabs_triang|]. lra. }
  assert (Bb : Rabs (B2R b) <= A + D).
  { replace (B2R b) with (B2R b + s + - s) by ring. eapply Rle_trans; [apply Rabs_triang|]. rewrite Rabs_Ropp. lra. }
  assert (Wa : within 31 a) by (split; [assumption|lra]). assert (Wb : within 31 b) by (split; [assumption|lra]).
  destruct (square_sum_val a b Wa Wb) as (Wp & Np & Ep). set (p := fadd (fmul a a) (fmul b b)) in *.
  destruct (fsqrt_val p (within_fin _ _ Wp) Np) as (Fm & Em). fold m in Fm, Em. split; [exact Fm|].
  set (v := B2R a * B2R a + B2R b * B2R b) in *.
  assert (V0 : 0 <= v) by (apply Rplus_le_le_0_compat; apply Rle_0_sqr).
  assert (P0 : 0 <= B2R p).
  { pose proof (proj1 (nneg_iff p (fin_nn _ (within_fin _ _ Wp))) Np) as Q. now rewrite fx_fin in Q by apply (within_fin _ _ Wp). }
  pose proof (sqrt_near (B2R p) v P0 V0 Ep) as S1.
  pose proof (hypot_lip (B2R a) (B2R b) c (- s)) as S2. rewrite <- Rsqr_neg in S2.
  change (Rsqr (B2R a) + Rsqr (B2R b)) with v in S2. replace (B2R b - - s) with (B2R b + s) in S2 by ring.
  pose proof (sqrt_le_abs (B2R a) (B2R b)) as S3. change (Rsqr (B2R a) + Rsqr (B2R b)) with v in S3.
  pose proof (sqrt_pos v) as S4.
  pose proof (rnd_near (sqrt (B2R p))) as S5. rewrite <- Em in S5.
  set (h := sqrt (Rsqr c + Rsqr s)) in *. set (sv := sqrt v) in *. set (sp := sqrt (B2R p)) in *.
  set (q := bpow radix2 (-70)) in *. assert (Pq : 0 < q) by apply bpow_gt_0.
  assert (Eq : bpow radix2 (-69) = 2 * q) by (unfold q; change (-69)%Z with (1 + -70)%Z; rewrite bpow_plus; reflexivity).
  assert (T0 : tiny <= / 16 * q).
  { unfold tiny, q. replace (/ 16) with (bpow radix2 (-4)) by (cbn; lra). rewrite <- bpow_plus. apply bpow_le. lia. }
  rewrite Eq. clearbody q. set (r := B2R m) in *. clearbody h sv sp r.
  assert (Bp : Rabs sp <= sv + / 2097152 * sv + q).
  { replace sp with (sp - sv + sv) by ring. eapply Rle_trans; [apply Rabs_triang|]. rewrite (Rabs_pos_eq sv) by lra. lra. }
  replace (r - h) with ((r - sp) + ((sp - sv) + (sv - h))) by ring. eapply Rle_trans; [apply Rabs_triang|].
  pose proof (Rabs_triang (sp - sv) (sv - h)). unfold u24 in S5. lra.
Qed.

(** A sample weighted with the window. *)
Lemma windowed_val : forall L d n i x, cos_accurate L d -> 0 <= d <= / 8 -> (2 <= n)%nat -> (Z.of_nat n <= 16777216)%Z -> (i < n)%nat ->
  within 60 x ->
  let y := fmul x (window L n i) in
  within 62 y /\ Rabs (B2R y - B2R x * hann_at n i) <= (d / 2 + / 480000) * Rabs (B2R x) + tiny.
Proof.
  intros L d n i x C Hd Hn Hb Hi Wx y. destruct (window_val L d n i C ltac:(lra) Hn Hb Hi) as (Fw & Ew).
  unfold y. set (w := window L n i) in *. clearbody w. pose proof (hann_at_bounds n i) as HB. set (h := hann_at n i) in *. clearbody h.
  assert (Bw : Rabs (B2R w) <= 2) by (apply Rabs_le_inv in Ew; apply Rabs_le; lra).
  assert (Ww : within 1 w) by (split; [assumption|cbn; lra]).
  pose proof (within_mul 60 1 _ _ ltac:(lia) Wx Ww) as Wy. split; [eapply within_mono; [|exact Wy]; lia|].
  rewrite B2R_fmul by apply (within_fin _ _ Wy).
  pose proof (rnd_near (B2R x * B2R w)) as N. rewrite Rabs_mult in N. pose proof (Rabs_pos (B2R x)) as PX.
  assert (M : Rabs (B2R x * B2R w - B2R x * h) <= (d / 2 + / 524288) * Rabs (B2R x)).
  { rewrite <- Rmult_minus_distr_l, Rabs_mult. nra. }
  replace (rnd (B2R x * B2R w) - B2R x * h) with ((rnd (B2R x * B2R w) - B2R x * B2R w) + (B2R x * B2R w - B2R x * h)) by ring.
  eapply Rle_trans; [apply Rabs_triang|].
  assert (Rabs (B2R x) * Rabs (B2R w) <= 2 * Rabs (B2R x)) by (pose proof (Rabs_pos (B2R w)); nra). unfold u24 in N. lra.
Qed.
