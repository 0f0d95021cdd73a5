(** The distance of an onset from the nearest beat, over the reals and as computed by bayesian.rs:224-246. *)
From Coq Require Import ZArith Bool List Arith Lia Reals Lra Psatz.
From Flocq Require Import Core IEEE754.BinarySingleNaN.
From Verif Require Import Rust F32 F32Facts F32More ListFacts FloatSums Bounds PeakPicking Bayesian NoveltyProofs
  FourierFacts AutocorrelationValueProofs SpectrumFacts TempoSpectrumFacts OnsetStrengthFacts TempoLagProps.
Import ListNotations.
Local Open Scope R_scope.

(** The distance of x from the nearest multiple of P. *)
Definition off_beat (x P : R) : R := Rabs (x - IZR (Zfloor (x / P + / 2)) * P).

Lemma off_beat_min : forall x P k, 0 < P -> off_beat x P <= Rabs (x - IZR k * P).
Proof.
  intros x P k HP. unfold off_beat. set (m := Zfloor (x / P + / 2)). pose proof (Zfloor_lb (x / P + / 2)) as A. pose proof (Zfloor_ub (x / P + / 2)) as B. fold m in A, B.
  set (q := x / P) in *. assert (E : x = q * P) by (unfold q; field; lra). rewrite E. clearbody q. replace (q * P - IZR m * P) with ((q - IZR m) * P) by ring. replace (q * P - IZR k * P) with ((q - IZR k) * P) by ring.
  rewrite !Rabs_mult. apply Rmult_le_compat_r; [apply Rabs_pos|].
  destruct (Z.eq_dec k m) as [->|N]; [lra|]. assert (C : (k <= m - 1)%Z \/ (m + 1 <= k)%Z) by lia.
  apply Rle_trans with (/ 2); [apply Rabs_le; lra|]. destruct C as [C|C]; apply IZR_le in C; [rewrite minus_IZR in C|rewrite plus_IZR in C].
  - apply Rle_trans with (q - IZR k); [lra|apply Rle_abs].
  - rewrite Rabs_minus_sym. apply Rle_trans with (IZR k - q); [lra|apply Rle_abs].
Qed.
Lemma off_beat_attained : forall x P, 0 < P -> exists k, off_beat x P = Rabs (x - IZR k * P) /\ off_beat x P <= P / 2 /\ Rabs (IZR k * P) <= Rabs x + P / 2.
Proof.
  intros x P HP. exists (Zfloor (x / P + / 2)). split; [reflexivity|]. unfold off_beat. set (m := Zfloor (x / P + / 2)). pose proof (Zfloor_lb (x / P + / 2)) as A. pose proof (Zfloor_ub (x / P + / 2)) as B. fold m in A, B.
  set (q := x / P) in *. assert (E : x = q * P) by (unfold q; field; lra). rewrite E. clearbody q.
  assert (H : Rabs (q * P - IZR m * P) <= P / 2). { replace (q * P - IZR m * P) with ((q - IZR m) * P) by ring. rewrite Rabs_mult, (Rabs_pos_eq P) by lra. assert (Rabs (q - IZR m) <= / 2) by (apply Rabs_le; lra). nra. }
  split; [exact H|]. pose proof (Rabs_triang (q * P) (- (q * P - IZR m * P))) as Tr. rewrite Rabs_Ropp in Tr. replace (q * P + - (q * P - IZR m * P)) with (IZR m * P) in Tr by ring. lra.
Qed.
Lemma off_beat_nonneg : forall x P, 0 <= off_beat x P. Proof. intros. apply Rabs_pos. Qed.

(** The same over the reals with every operation off by the stated amount; v is the rounding unit at T. *)
Lemma dist_real : forall T v x y P p q i w e s o g,
  1 <= T -> v = T / 16000000 -> T <= 4096 -> Rabs x <= T -> x = o - s -> 0 <= s <= T -> 0 <= o <= T -> / 3 <= P <= 1 ->
  Rabs (y - x) <= v -> Rabs (p - P) <= / 16500000 * P -> Rabs (q * p - y) <= 101 / 100 * v -> Rabs (q - IZR i) <= / 2 ->
  (Rabs (IZR i * p) <= 16 / 10 * T -> Rabs (w - IZR i * p) <= 161 / 100 * v) -> (Rabs (s + w) <= 16 / 10 * T + 1 / 100 -> Rabs (e - (s + w)) <= 162 / 100 * v) ->
  (Rabs (o - e) <= 6 / 10 -> Rabs (g - (o - e)) <= v) ->
  Rabs (IZR i * p) <= 16 / 10 * T /\ Rabs (s + w) <= 16 / 10 * T + 1 / 100 /\ Rabs (o - e) <= 6 / 10 /\ Rabs (Rabs g - off_beat x P) <= T / 1000000.
Proof.
  intros T v x y P p q i w e s o g HT Hv HT2 Hx Ex Hs Ho HP Hy Hp Hq Hi Hw He Hg.
  assert (V0 : 0 < v <= 3 / 10000) by (subst v; lra). pose proof (Rabs_le_inv _ _ Hp) as Hp'. assert (P0 : 0 < p <= 1 + / 1000000) by lra. assert (Pi : 3 / 10 <= p) by lra.
  assert (Hqi : Rabs (q * p - IZR i * p) <= p / 2). { replace (q * p - IZR i * p) with ((q - IZR i) * p) by ring. rewrite Rabs_mult, (Rabs_pos_eq p) by lra. nra. }
  set (j := IZR i * p) in *. assert (Yj : Rabs (y - j) <= p / 2 + 101 / 100 * v). { replace (y - j) with ((q * p - j) - (q * p - y)) by ring. eapply Rle_trans; [apply Rabs_triang|]. rewrite Rabs_Ropp. lra. }
  pose proof (Rabs_le_inv _ _ Yj) as Yj'. pose proof (Rabs_le_inv _ _ Hy) as Hy'. pose proof (Rabs_le_inv _ _ Hx) as Hx'.
  assert (J : Rabs j <= 16 / 10 * T) by (apply Rabs_le; lra). specialize (Hw J). pose proof (Rabs_le_inv _ _ Hw) as Hw'. pose proof (Rabs_le_inv _ _ J) as J'.
  assert (SW : Rabs (s + w) <= 16 / 10 * T + 1 / 100) by (apply Rabs_le; lra). specialize (He SW). pose proof (Rabs_le_inv _ _ He) as He'.
  assert (OE : Rabs (o - e) <= 6 / 10) by (apply Rabs_le; lra). specialize (Hg OE). pose proof (Rabs_le_inv _ _ Hg) as Hg'.
  split; [exact J|]. split; [exact SW|]. split; [exact OE|].
  assert (G : Rabs (g - (x - j)) <= 424 / 100 * v) by (apply Rabs_le; lra).
  assert (JP : Rabs (j - IZR i * P) <= 17 / 10 * v).
  { unfold j. replace (IZR i * p - IZR i * P) with (IZR i * (p - P)) by ring. rewrite Rabs_mult. unfold j in J. rewrite Rabs_mult, (Rabs_pos_eq p) in J by lra.
    apply Rle_trans with (Rabs (IZR i) * (/ 16500000 * P)); [apply Rmult_le_compat_l; [apply Rabs_pos|exact Hp]|]. set (a := Rabs (IZR i)) in *. assert (0 <= a) by apply Rabs_pos.
    assert (a * P <= 161 / 100 * T) by nra. subst v. lra. }
  destruct (off_beat_attained x P ltac:(lra)) as (m & Em & Hm & Bm). pose proof (off_beat_min x P i ltac:(lra)) as Lo. set (d := off_beat x P) in *.
  (* lower *)
  assert (L : d - 6 * v <= Rabs g).
  { assert (Rabs (x - IZR i * P) <= Rabs g + 6 * v); [|lra]. replace (x - IZR i * P) with (g + (- (g - (x - j)) + (j - IZR i * P))) by ring.
    eapply Rle_trans; [apply Rabs_triang|]. apply Rplus_le_compat_l. eapply Rle_trans; [apply Rabs_triang|]. rewrite Rabs_Ropp. lra. }
  (* upper *)
  assert (QM : Rabs (q - IZR i) <= Rabs (q - IZR m)).
  { destruct (Z.eq_dec m i) as [->|N]; [lra|]. assert (C : (m <= i - 1)%Z \/ (i + 1 <= m)%Z) by lia. apply Rabs_le_inv in Hi as Hi'. eapply Rle_trans; [exact Hi|].
    destruct C as [C|C]; apply IZR_le in C; [rewrite minus_IZR in C|rewrite plus_IZR in C].
    - apply Rle_trans with (q - IZR m); [lra|apply Rle_abs].
    - rewrite Rabs_minus_sym. apply Rle_trans with (IZR m - q); [lra|apply Rle_abs]. }
  assert (QP : Rabs (q * p - j) <= Rabs (q * p - IZR m * p)). { unfold j. replace (q * p - IZR i * p) with ((q - IZR i) * p) by ring. replace (q * p - IZR m * p) with ((q - IZR m) * p) by ring. rewrite !Rabs_mult. apply Rmult_le_compat_r; [apply Rabs_pos|exact QM]. }
  assert (MP : Rabs (IZR m * p - IZR m * P) <= 15 / 10 * v).
  { replace (IZR m * p - IZR m * P) with (IZR m * (p - P)) by ring. rewrite Rabs_mult. rewrite Rabs_mult, (Rabs_pos_eq P) in Bm by lra. apply Rle_trans with (Rabs (IZR m) * (/ 16500000 * P)); [apply Rmult_le_compat_l; [apply Rabs_pos|exact Hp]|]. subst v. lra. }
  assert (U : Rabs g <= d + 11 * v).
  { replace g with ((g - (x - j)) + ((x - y) + ((y - q * p) + (q * p - j)))) by ring. eapply Rle_trans; [apply Rabs_triang|]. eapply Rle_trans; [apply Rplus_le_compat_l, Rabs_triang|].
    eapply Rle_trans; [apply Rplus_le_compat_l, Rplus_le_compat_l, Rabs_triang|]. rewrite (Rabs_minus_sym x y), (Rabs_minus_sym y (q * p)).
    assert (Rabs (q * p - IZR m * p) <= d + 401 / 100 * v); [|lra].
    replace (q * p - IZR m * p) with ((x - IZR m * P) + ((q * p - y) + ((y - x) - (IZR m * p - IZR m * P)))) by ring. rewrite Em.
    eapply Rle_trans; [apply Rabs_triang|]. apply Rplus_le_compat_l. eapply Rle_trans; [apply Rabs_triang|]. eapply Rle_trans; [apply Rplus_le_compat_l, Rabs_triang|]. rewrite Rabs_Ropp. lra. }
  apply Rabs_le. subst v. lra.
Qed.

(** Half the distance of onset o from the grid through s with bpm beats per minute, as computed. *)
Definition computed_distance (s p o : f32) : f32 := fabs (fsub o (fadd s (fmul (z2f (f2i32 (fround (fdiv (fsub o s) p)))) p))).

Lemma fabs_fin : forall x, fin x -> fin (fabs x) /\ B2R (fabs x) = Rabs (B2R x).
Proof. intros x F. split; [unfold fabs; now rewrite is_finite_Babs|]. unfold fabs. apply B2R_Babs. Qed.

Lemma interval_val : forall bpm, fin bpm -> 60 <= B2R bpm <= 180 ->
  fin (fdiv (z2f 60) bpm) /\ / 3 <= 60 / B2R bpm <= 1 /\ Rabs (B2R (fdiv (z2f 60) bpm) - 60 / B2R bpm) <= / 16500000 * (60 / B2R bpm).
Proof.
  intros bpm F B. destruct (z2f_exact 60 ltac:(lia)) as (F60 & E60). set (P := 60 / B2R bpm).
  assert (HP : / 3 <= P <= 1). { unfold P. split; apply Rmult_le_reg_r with (B2R bpm); try lra; unfold Rdiv; rewrite Rmult_assoc, Rinv_l by lra; lra. }
  destruct (fdiv_fx (z2f 60) bpm F60 F ltac:(lra)) as (N & E). rewrite E60 in E. fold P in E.
  assert (P60 : bpow radix2 (-60) <= / 3). { eapply Rle_trans; [apply (bpow_le radix2 _ (-10)); lia|]. simpl. lra. }
  pose proof (rnd_rel P ltac:(lra)) as R. pose proof (Rabs_le_inv _ _ R) as R'.
  assert (B4 : 4 < big) by (change 4 with (bpow radix2 2); apply bpow_lt; lia). rewrite sat_id in E by lra.
  assert (Fd : fin (fdiv (z2f 60) bpm)) by (apply fin_iff; auto; rewrite E; lra). rewrite fx_fin in E by exact Fd. rewrite E. auto.
Qed.

Lemma near_T : forall T c r, 1 <= T -> 0 <= c <= 10 -> Rabs r <= c * T -> Rabs (rnd r - r) <= (c + 1 / 100) * (T / 16777216).
Proof.
  intros T c r HT Hc Hr. pose proof (rnd_near r) as N. assert (TT : tiny <= / 100 * / 16777216).
  { eapply Rle_trans; [apply (bpow_le radix2 _ (-40)); lia|]. simpl. lra. }
  unfold u24 in N. nra.
Qed.

Lemma fin_of_rnd : forall x r, nn x -> fx x = sat (rnd r) -> Rabs r <= 100000 -> fin x /\ B2R x = rnd r.
Proof.
  intros x r N E H. assert (B : bpow radix2 17 < big) by (apply bpow_lt; lia). apply Rabs_le_inv in H.
  assert (R : - bpow radix2 17 <= rnd r <= bpow radix2 17).
  { assert (131072 = bpow radix2 17) by reflexivity. split; [rewrite <- (rnd_bpow 17) by lia; rewrite <- rnd_opp; apply rnd_mono; lra|rewrite <- (rnd_bpow 17) by lia; apply rnd_mono; lra]. }
  rewrite sat_id in E by lra. assert (F : fin x) by (apply fin_iff; auto; rewrite E; lra). split; [exact F|]. now rewrite fx_fin in E by exact F.
Qed.

Lemma distance_val : forall s bpm o T, fin s -> fin o -> fin bpm -> 1 <= T <= 4096 -> 0 <= B2R s <= T -> 0 <= B2R o <= T -> 60 <= B2R bpm <= 180 ->
  let d := computed_distance s (fdiv (z2f 60) bpm) o in
  fin d /\ 0 <= B2R d <= 61 / 100 /\ Rabs (B2R d - off_beat (B2R o - B2R s) (60 / B2R bpm)) <= T / 1000000.
Proof.
  intros s bpm o T Fs Fo Fb HT Hs Ho Hb d. unfold computed_distance in d. destruct (interval_val bpm Fb Hb) as (Fp & HP & Ep). set (p := fdiv (z2f 60) bpm) in *. set (P := 60 / B2R bpm) in *.
  set (x := B2R o - B2R s). assert (Hx : Rabs x <= T) by (unfold x; apply Rabs_le; lra).
  destruct (fsub_fx o s Fo Fs) as (Ny & Ey). fold x in Ey. destruct (fin_of_rnd _ _ Ny Ey ltac:(lra)) as (Fy & Vy). set (yf := fsub o s) in *.
  assert (Hy : Rabs (B2R yf - x) <= T / 16000000). { rewrite Vy. pose proof (near_T T 1 x ltac:(lra) ltac:(lra) ltac:(lra)). lra. }
  pose proof (Rabs_le_inv _ _ Ep) as Ep'. assert (Pp : 3 / 10 <= B2R p <= 1 + / 1000000) by lra.
  assert (Yb : Rabs (B2R yf) <= 101 / 100 * T). { replace (B2R yf) with (x + (B2R yf - x)) by ring. eapply Rle_trans; [apply Rabs_triang|]. lra. }
  assert (Qb : Rabs (B2R yf / B2R p) <= 337 / 100 * T).
  { unfold Rdiv. rewrite Rabs_mult, (Rabs_pos_eq (/ B2R p)) by (left; apply Rinv_0_lt_compat; lra). assert (/ B2R p <= 10 / 3) by (replace (10 / 3) with (/ (3 / 10)) by lra; apply Rinv_le_contravar; lra). assert (0 < / B2R p) by (apply Rinv_0_lt_compat; lra).
    pose proof (Rabs_pos (B2R yf)). nra. }
  destruct (fdiv_fx yf p Fy Fp ltac:(lra)) as (Nq & Eq). destruct (fin_of_rnd _ _ Nq Eq ltac:(lra)) as (Fq & Vq). set (qf := fdiv yf p) in *.
  assert (Hq : Rabs (B2R qf * B2R p - B2R yf) <= 101 / 100 * (T / 16000000)).
  { pose proof (rnd_near (B2R yf / B2R p)) as N. rewrite <- Vq in N. replace (B2R qf * B2R p - B2R yf) with ((B2R qf - B2R yf / B2R p) * B2R p) by (field; lra). rewrite Rabs_mult, (Rabs_pos_eq (B2R p)) by lra.
    assert (TT : tiny <= / 1000 * / 16777216). { eapply Rle_trans; [apply (bpow_le radix2 _ (-40)); lia|]. simpl. lra. }
    apply Rle_trans with ((u24 * Rabs (B2R yf / B2R p) + tiny) * B2R p); [apply Rmult_le_compat_r; lra|].
    replace ((u24 * Rabs (B2R yf / B2R p) + tiny) * B2R p) with (u24 * Rabs (B2R yf) + tiny * B2R p). 2:{ unfold Rdiv. rewrite Rabs_mult, (Rabs_pos_eq (/ B2R p)) by (left; apply Rinv_0_lt_compat; lra). field. lra. }
    pose proof tiny_pos. unfold u24. nra. }
  destruct (fround_spec qf Fq) as (Fr & Er). set (i := ZnearestA (B2R qf)) in *.
  assert (Hi : Rabs (B2R qf - IZR i) <= / 2) by (unfold i; apply Znearest_half).
  assert (Qb' : Rabs (B2R qf) <= 34 / 10 * T). { rewrite Vq. pose proof (near_T T (337 / 100) _ ltac:(lra) ltac:(lra) Qb) as N. set (z := B2R yf / B2R p) in *. replace (rnd z) with (z + (rnd z - z)) by ring. eapply Rle_trans; [apply Rabs_triang|]. lra. }
  assert (Bi : (Z.abs i <= 20000)%Z). { apply Rabs_le_inv in Hi as Hi'. apply Rabs_le_inv in Qb'. apply Z.abs_le. split; apply le_IZR; rewrite ?opp_IZR; lra. }
  assert (Ei : f2i32 (fround qf) = i). { unfold f2i32. rewrite f2int_fin by exact Fr. rewrite Er, Ztrunc_IZR. lia. }
  destruct (z2f_exact i ltac:(lia)) as (Fi & Vi). unfold d. clear d. rewrite Ei.
  destruct (fmul_fx (z2f i) p Fi Fp) as (Nw & Ew). rewrite Vi in Ew.
  set (wf := fmul (z2f i) p) in *. set (w := rnd (IZR i * B2R p)). set (e := rnd (B2R s + w)). set (g := rnd (B2R o - e)).
  destruct (dist_real T (T / 16000000) x (B2R yf) P (B2R p) (B2R qf) i w e (B2R s) (B2R o) g) as (J & SW & OE & D); try assumption; try lra; try reflexivity.
  - intros J. unfold w. pose proof (near_T T (16 / 10) _ ltac:(lra) ltac:(lra) J). lra.
  - intros SW. unfold e. pose proof (near_T T (161 / 100) (B2R s + w) ltac:(lra) ltac:(lra) ltac:(lra)). lra.
  - intros OE. unfold g. pose proof (near_T T (6 / 10) (B2R o - e) ltac:(lra) ltac:(lra) ltac:(lra)). lra.
  - destruct (fin_of_rnd _ _ Nw Ew ltac:(lra)) as (Fw & Vw). fold w in Vw.
    destruct (fadd_fx s wf Fs Fw) as (Ne & Ee). rewrite Vw in Ee. destruct (fin_of_rnd _ _ Ne Ee ltac:(lra)) as (Fe & Ve). fold e in Ve.
    destruct (fsub_fx o (fadd s wf) Fo Fe) as (Ng & Eg). rewrite Ve in Eg. destruct (fin_of_rnd _ _ Ng Eg ltac:(lra)) as (Fg & Vg). fold g in Vg.
    destruct (fabs_fin _ Fg) as (Fd & Vd). rewrite Vd, Vg. split; [exact Fd|]. split; [|exact D]. split; [apply Rabs_pos|].
    pose proof (near_T T (6 / 10) (B2R o - e) ltac:(lra) ltac:(lra) ltac:(lra)) as N. fold g in N. replace g with ((B2R o - e) + (g - (B2R o - e))) by ring. eapply Rle_trans; [apply Rabs_triang|]. lra.
Qed.

(** sigma = 0.05 s and the divisor 2 sigma^2. *)
Definition divisor : f32 := fmul f2 (fmul likelihood_sigma likelihood_sigma).
Lemma divisor_val : fin divisor /\ Rabs (200 - / B2R divisor) <= / 50000.
Proof.
  assert (S : B2SF divisor = SpecFloat.S754_finite false 10737419 (-31)) by (vm_compute; reflexivity).
  split; [rewrite <- is_finite_SF_B2SF, S; reflexivity|]. rewrite <- SF2R_B2SF, S. cbn [SF2R cond_Zopp]. unfold F2R. cbn [Fnum Fexp]. change (bpow radix2 (-31)) with (/ 2147483648). apply Rabs_le. split; lra.
Qed.

(** The log-probability of one onset is -d^2 / (2 sigma^2). *)
Lemma log_prob_val : forall s bpm o T, fin s -> fin o -> fin bpm -> 1 <= T <= 4096 -> 0 <= B2R s <= T -> 0 <= B2R o <= T -> 60 <= B2R bpm <= 180 ->
  let l := fneg (log_prob s (fdiv (z2f 60) bpm) o) in let d := off_beat (B2R o - B2R s) (60 / B2R bpm) in
  fin l /\ 0 <= B2R l <= 128 /\ Rabs (B2R l - 200 * (d * d)) <= T / 2000 * d + T * T / 1000000000.
Proof.
  intros s bpm o T Fs Fo Fb HT Hs Ho Hb l d. destruct (distance_val s bpm o T Fs Fo Fb HT Hs Ho Hb) as (Fd & Bd & Ed). fold d in Ed. unfold l, log_prob in *. clear l. cbv zeta.
  fold (computed_distance s (fdiv (z2f 60) bpm) o). set (c := computed_distance s (fdiv (z2f 60) bpm) o) in *. fold divisor. destruct divisor_val as (Fv & Ev). apply Rabs_le_inv in Ev.
  assert (V0 : B2R divisor <> 0). { intros Z. rewrite Z, Rinv_0 in Ev. lra. }
  destruct (fmul_fx c c Fd Fd) as (Nm & Em). assert (C2 : 0 <= B2R c * B2R c <= 38 / 100) by nra. destruct (fin_of_rnd _ _ Nm Em ltac:(apply Rabs_le; lra)) as (Fm & Vm). set (m := fmul c c) in *.
  assert (Fn : fin (fneg m)) by (unfold fneg; now rewrite is_finite_Bopp). assert (Vn : B2R (fneg m) = - B2R m) by (unfold fneg; apply B2R_Bopp).
  pose proof (rnd_near (B2R c * B2R c)) as N1. rewrite <- Vm, (Rabs_pos_eq (B2R c * B2R c)) in N1 by lra.
  assert (TT : tiny <= / 1000000000000). { eapply Rle_trans; [apply (bpow_le radix2 _ (-40)); lia|]. simpl. lra. }
  assert (M0 : 0 <= B2R m) by (rewrite Vm; apply rnd_nonneg; lra). apply Rabs_le_inv in N1.
  destruct (fdiv_fx (fneg m) divisor Fn Fv V0) as (Nq & Eq). rewrite Vn in Eq. set (y := B2R m / B2R divisor). replace (- B2R m / B2R divisor) with (- y) in Eq by (unfold y, Rdiv; ring).
  set (k := / B2R divisor) in *. assert (Y : 0 <= y <= 100) by (unfold y, Rdiv; fold k; unfold u24 in *; nra).
  destruct (fin_of_rnd _ _ Nq Eq ltac:(rewrite Rabs_Ropp, Rabs_pos_eq; lra)) as (Fq & Vq). set (q := fdiv (fneg m) divisor) in *. rewrite rnd_opp in Vq.
  assert (Fl : fin (fneg q)) by (unfold fneg; now rewrite is_finite_Bopp). assert (Vl : B2R (fneg q) = rnd y) by (unfold fneg; rewrite B2R_Bopp; lra). split; [exact Fl|]. rewrite Vl.
  pose proof (rnd_near y) as N2. rewrite (Rabs_pos_eq y) in N2 by lra. apply Rabs_le_inv in N2. split; [split; [apply rnd_nonneg; lra|unfold u24 in *; lra]|].
  assert (D0 : 0 <= d) by apply off_beat_nonneg. assert (Db : d <= / 2).
  { destruct (interval_val bpm Fb Hb) as (_ & HP & _). destruct (off_beat_attained (B2R o - B2R s) (60 / B2R bpm) ltac:(lra)) as (z & _ & Hz & _). fold d in Hz. lra. }
  assert (YK : y = B2R m * k) by reflexivity. clear Vl Vq Eq. set (v := rnd y) in *. set (a := B2R c) in *. set (b := B2R m) in *. clearbody v y. subst y. clear Vm Vn Em. clearbody a b k.
  apply Rabs_le_inv in Ed. set (E := T / 1000000) in *. assert (E0 : 0 < E <= 41 / 10000) by (unfold E; lra). unfold u24 in *.
  assert (A1 : a * a <= d * d + 2 * d * E + E * E) by nra. assert (A2 : d * d - 2 * d * E - E * E <= a * a). { destruct (Rle_or_lt d E); nra. }
  assert (K1 : b * k <= b * (200 + / 50000)) by (apply Rmult_le_compat_l; lra). assert (K2 : b * (200 - / 50000) <= b * k) by (apply Rmult_le_compat_l; lra).
  set (A := a * a) in *. assert (B1 : b * k <= 200 * A + / 20000 * A + / 4000000000) by lra.
  assert (B2 : 200 * A - / 20000 * A - / 4000000000 <= b * k) by lra. clear K1 K2. clearbody A. clear N1. set (bk := b * k) in *. clearbody bk.
  replace (T / 2000) with (500 * E) by (unfold E; lra). replace (T * T / 1000000000) with (1000 * (E * E)) by (unfold E; field). assert (E1 : / 1000000 <= E) by (unfold E; lra).
  assert (EE : / 1000000000000 <= E * E) by nra. assert (dd : d * d <= d * / 2) by nra. assert (dE : 0 <= d * E) by nra. assert (dE1 : d * / 1000000 <= d * E) by nra.
  replace (500 * E * d) with (500 * (d * E)) by ring. replace (2 * d * E) with (2 * (d * E)) in * by ring.
  set (D2 := d * d) in *. set (dE' := d * E) in *. set (E2 := E * E) in *. clearbody D2 dE' E2. apply Rabs_le. split; lra.
Qed.
