(** What the novelty curves measure: float values against real ones. *)
From Coq Require Import ZArith Bool List Arith Lia Reals Lra.
From Flocq Require Import Core IEEE754.BinarySingleNaN.
From Verif Require Import Rust F32 F32Facts F32More ListFacts FloatSums Bounds Libm Novelty NoveltyProofs Onsets CombFilterProofs
  FourierFacts AutocorrelationProofs AutocorrelationValueProofs SpectrumFacts TempoSpectrumFacts OnsetStrengthFacts.
Import ListNotations.
Local Open Scope R_scope.

(** Division by the maximum. *)
Lemma normalize_val : forall raw k, Forall (upto k) raw -> (k < 128)%Z ->
  length (normalize raw) = length raw /\ (peak raw <= floor10 -> normalize raw = raw) /\
  (floor10 < peak raw -> forall i, (i < length raw)%nat -> fin (nth i (normalize raw) f0) /\
     Rabs (B2R (nth i (normalize raw) f0) - B2R (nth i raw f0) / peak raw) <= u24 * (B2R (nth i raw f0) / peak raw) + tiny).
Proof.
  intros raw k H K. split; [apply normalize_length|]. unfold normalize.
  destruct (fold_peak raw f0 eq_refl) as (Fm & Em). { eapply Forall_impl; [|exact H]. intros x. apply upto_fin. }
  change (fold_right Rmax (B2R f0) (map B2R raw)) with (peak raw) in Em. set (m := fold_left fmax raw f0) in *.
  destruct on_eps_val as (Fe & Ee). change nov_eps with on_eps. unfold fgt. rewrite Bltb_correct by auto. rewrite Ee, Em.
  destruct (Rlt_bool_spec floor10 (peak raw)) as [L|L]; [|split; [reflexivity|lra]]. split; [lra|]. intros _ i Hi.
  assert (P : 0 < peak raw) by (unfold floor10 in L; lra).
  rewrite (nth_indep _ f0 (fdiv f0 m)) by (now rewrite map_length). rewrite (map_nth (fun x => fdiv x m)).
  assert (Ux : upto k (nth i raw f0)) by (rewrite Forall_forall in H; now apply H, nth_In). destruct Ux as (Fx & X0 & _).
  pose proof (peak_ge raw i) as X1. set (x := nth i raw f0) in *.
  assert (Q01 : 0 <= B2R x / peak raw <= 1) by (split; [apply quot_nonneg; lra|apply quot_le_1; lra]).
  destruct (fdiv_fx x m Fx Fm) as (N & E); [rewrite Em; lra|]. rewrite Em in E.
  assert (R01 : 0 <= rnd (B2R x / peak raw) <= 1) by (split; [apply rnd_nonneg; lra|eapply Rle_trans; [apply (rnd_mono _ (IZR 1)); lra|rewrite (rnd_Z 1) by lia; lra]]).
  rewrite sat_id in E by (unfold big; change (bpow radix2 128) with 340282366920938463463374607431768211456; lra).
  assert (F : fin (fdiv x m)) by (apply fin_iff; auto; rewrite E; unfold big; change (bpow radix2 128) with 340282366920938463463374607431768211456; lra).
  rewrite fx_fin in E by exact F. split; [exact F|]. rewrite E. pose proof (rnd_near (B2R x / peak raw)) as R. rewrite (Rabs_pos_eq (B2R x / peak raw)) in R by lra. exact R.
Qed.

(** Lengths of vectors whose coordinates are known up to a relative and an absolute error. *)
Lemma l2_val : forall (l : list f32) (d : nat -> f32) (r eta : nat -> R), let n := length l in
  (Z.of_nat n <= 1048576)%Z ->
  (forall i, (i < n)%nat -> nth i l f0 = fmul (d i) (d i) /\ upto 50 (d i) /\ 0 <= r i /\ 0 <= eta i /\ Rabs (B2R (d i) - r i) <= u24 * r i + eta i) ->
  upto 125 (fsqrt (fsum l)) /\
  Rabs (B2R (fsqrt (fsum l)) - sqrt (sumn (fun i => Rsqr (r i)) n)) <=
    (INR n + 6) / 5000000 * sqrt (sumn (fun i => Rsqr (r i)) n) + 2 * sumn eta n + bpow radix2 (-59).
Proof.
  intros l d r eta n Hn H.
  assert (Ul : Forall (upto 100) l).
  { apply Forall_forall. intros x I. destruct (In_nth _ _ f0 I) as (i & Hi & <-). destruct (H i Hi) as (-> & U & _). now apply (upto_mul 50 50). }
  pose proof (upto_sum 100 l ltac:(lia) Ul) as Us. split; [now apply (upto_sqrt' 125)|].
  destruct (fsqrt_val (fsum l) (upto_fin _ _ Us) (upto_nneg _ _ Us)) as (_ & Eq).
  pose proof tiny_pos as TP. assert (PN : 0 <= INR n) by apply pos_INR. assert (Bn : INR n <= 1048576) by (rewrite INR_IZR_INZ; now apply IZR_le).
  set (D := fun i => B2R (d i)).
  assert (A : Rabs (B2R (fsum l) - sumn (fun i => Rsqr (D i)) n) <= (u24 + INR n / 6000000) * sumn (fun i => Rsqr (D i)) n + 2 * (INR n * tiny)).
  { apply (sum_near l (fun i => Rsqr (D i)) u24 tiny); auto.
    - eapply Forall_impl; [|exact Ul]. intros x. apply upto_nneg.
    - eapply upto_fin; eauto.
    - unfold u24. lra.
    - lra.
    - intros i Hi. split; [apply Rle_0_sqr|]. destruct (H i Hi) as (E & U & _). rewrite E. now apply (sq_near 50). }
  (* split the coordinate error into its relative and its absolute part *)
  set (r' := fun i => Rmax (r i - u24 * r i) (Rmin (D i) (r i + u24 * r i))).
  assert (R1 : forall i, (i < n)%nat -> Rabs (r' i - r i) <= u24 * r i /\ Rabs (D i - r' i) <= eta i).
  { intros i Hi. destruct (H i Hi) as (_ & _ & R0 & E0 & E). fold (D i) in E. apply Rabs_le_inv in E. unfold r'. assert (0 <= u24 * r i) by (unfold u24; lra).
    unfold Rmax, Rmin. destruct (Rle_dec (D i) (r i + u24 * r i)), (Rle_dec _ _); (split; apply Rabs_le; lra). }
  assert (N1 : Rabs (sqrt (sumn (fun i => Rsqr (D i)) n) - sqrt (sumn (fun i => Rsqr (r' i)) n)) <= sumn eta n).
  { eapply Rle_trans; [apply norm_lip|]. apply sumn_le. intros i Hi. now apply R1. }
  set (G2 := sumn (fun i => Rsqr (r i)) n) in *. assert (G20 : 0 <= G2) by (apply sumn_nonneg; intros; apply Rle_0_sqr).
  assert (N2 : Rabs (sqrt (sumn (fun i => Rsqr (r' i)) n) - sqrt G2) <= 3 * u24 * sqrt G2 + 0).
  { apply sqrt_close; [apply sumn_nonneg; intros; apply Rle_0_sqr|exact G20|unfold u24; lra|lra|]. rewrite Rmult_0_l, Rplus_0_r. unfold G2.
    rewrite sumn_minus. eapply Rle_trans; [apply sumn_abs|]. rewrite <- sumn_scal. apply sumn_le. intros i Hi. destruct (R1 i Hi) as (E & _). destruct (H i Hi) as (_ & _ & R0 & _).
    set (x := r' i) in *. set (y := r i) in *. clearbody x y. replace (Rsqr x - Rsqr y) with ((x - y) * (x + y)) by (unfold Rsqr; ring). rewrite Rabs_mult.
    assert (Rabs (x + y) <= (2 + u24) * y). { apply Rabs_le_inv in E. unfold u24 in *. apply Rabs_le. lra. }
    apply Rle_trans with ((u24 * y) * ((2 + u24) * y)); [apply Rmult_le_compat; auto using Rabs_pos|]. unfold Rsqr, u24. assert (0 <= y * y) by nra. nra. }
  set (S2 := sumn (fun i => Rsqr (D i)) n) in *. assert (S20 : 0 <= S2) by (apply sumn_nonneg; intros; apply Rle_0_sqr).
  assert (E0 : 0 <= sumn eta n) by (apply sumn_nonneg; intros i Hi; now apply H).
  assert (q0 : 0 <= B2R (fsum l)) by apply Us.
  assert (TT : 2 * (INR n * tiny) <= bpow radix2 (-60) * bpow radix2 (-60)).
  { rewrite <- bpow_plus. change (-60 + -60)%Z with (-120)%Z. assert (E : bpow radix2 (-120) = tiny * 1073741824) by (change 1073741824 with (bpow radix2 30); now rewrite tiny_bpow by lia).
    rewrite E. nra. }
  pose proof (sqrt_close (B2R (fsum l)) S2 (u24 + INR n / 6000000) (bpow radix2 (-60)) q0 S20 ltac:(unfold u24; lra) (bpow_ge_0 _ _) ltac:(lra)) as SC.
  rewrite Eq. pose proof (rnd_near (sqrt (B2R (fsum l)))) as R. rewrite (Rabs_pos_eq (sqrt (B2R (fsum l)))) in R by apply sqrt_pos.
  set (s := sqrt (B2R (fsum l))) in *. set (v := rnd s) in *. set (sS := sqrt S2) in *. set (G := sqrt G2) in *. set (h := sqrt (sumn (fun i => Rsqr (r' i)) n)) in *.
  assert (G0 : 0 <= G) by apply sqrt_pos. assert (SS0 : 0 <= sS) by apply sqrt_pos. assert (s0 : 0 <= s) by apply sqrt_pos.
  assert (E59 : bpow radix2 (-59) = 2 * bpow radix2 (-60)) by (change 2 with (bpow radix2 1); rewrite <- bpow_plus; reflexivity).
  assert (T60 : tiny <= / 100 * bpow radix2 (-60)).
  { apply Rle_trans with (bpow radix2 (-10) * bpow radix2 (-60)); [rewrite <- bpow_plus; apply bpow_le; lia|]. apply Rmult_le_compat_r; [apply bpow_ge_0|]. change (bpow radix2 (-10)) with (/ 1024). lra. }
  rewrite E59. set (t := bpow radix2 (-60)) in *. assert (t0 : 0 <= t) by apply bpow_ge_0. set (E := sumn eta n) in *. set (N := INR n) in *.
  clearbody s v sS G h t E N. clear - SC R N1 N2 E0 G0 SS0 s0 T60 t0 TP PN Bn. unfold u24 in *.
  apply Rabs_le_inv in SC. apply Rabs_le_inv in R. apply Rabs_le_inv in N1. apply Rabs_le_inv in N2.
  assert (B1 : sS <= G + 3 * / 16777216 * G + E) by lra.
  assert (a0 : 0 <= / 16777216 + N / 6000000 <= / 5) by lra.
  assert (B2 : (/ 16777216 + N / 6000000) * sS <= (/ 16777216 + N / 6000000) * G + / 5 * (3 * / 16777216 * G + E)).
  { assert ((/ 16777216 + N / 6000000) * sS <= (/ 16777216 + N / 6000000) * (G + (3 * / 16777216 * G + E))) by (apply Rmult_le_compat_l; lra).
    assert ((/ 16777216 + N / 6000000) * (3 * / 16777216 * G + E) <= / 5 * (3 * / 16777216 * G + E)) by (apply Rmult_le_compat_r; lra). lra. }
  assert (B3 : s <= 2 * G + 2 * E + t).
  { assert ((/ 16777216 + N / 6000000) * G <= / 5 * G) by (apply Rmult_le_compat_r; lra). lra. }
  replace ((N + 6) / 5000000 * G) with (N * G / 5000000 + 6 * G / 5000000) by (unfold Rdiv; ring). assert (0 <= N * G) by nra.
  replace ((/ 16777216 + N / 6000000) * G) with (G / 16777216 + N * G / 6000000) in B2 by (unfold Rdiv; ring). apply Rabs_le. split; lra.
Qed.

(** The largest value of P within k of b, inside [lo, hi). *)
Definition wmax (P : nat -> R) (lo hi : nat) (k : Z) (b : nat) : R :=
  fold_right Rmax 0 (map P (filter (fun q => (Z.abs (Z.of_nat q - Z.of_nat b) <=? k)%Z) (seq lo (hi - lo)))).

Lemma fold_max_ge : forall l x, In x l -> x <= fold_right Rmax 0 l.
Proof. induction l as [|y r IH]; intros x I; [easy|]. cbn. destruct I as [-> |I]; [apply Rmax_l|]. eapply Rle_trans; [now apply IH|apply Rmax_r]. Qed.
Lemma fold_max_in : forall l, fold_right Rmax 0 l = 0 \/ In (fold_right Rmax 0 l) l.
Proof.
  induction l as [|y r IH]; [now left|]. cbn. destruct (Rle_dec y (fold_right Rmax 0 r)) as [L|L].
  - rewrite Rmax_right by exact L. destruct IH as [E|I]; [now left|right; now right].
  - rewrite Rmax_left by lra. right. now left.
Qed.
Lemma wmax_ge : forall P lo hi k b q, (lo <= q < hi)%nat -> (Z.abs (Z.of_nat q - Z.of_nat b) <= k)%Z -> P q <= wmax P lo hi k b.
Proof. intros P lo hi k b q Q K. apply fold_max_ge, in_map, filter_In. split; [apply in_seq; lia|now apply Z.leb_le]. Qed.
Lemma wmax_in : forall P lo hi k b, wmax P lo hi k b = 0 \/
  exists q, (lo <= q < hi)%nat /\ (Z.abs (Z.of_nat q - Z.of_nat b) <= k)%Z /\ wmax P lo hi k b = P q.
Proof.
  intros P lo hi k b. destruct (fold_max_in (map P (filter (fun q => (Z.abs (Z.of_nat q - Z.of_nat b) <=? k)%Z) (seq lo (hi - lo))))) as [E|I]; [now left|right].
  apply in_map_iff in I. destruct I as (q & E & I). apply filter_In in I. destruct I as (I & Q). apply in_seq in I. exists q. split; [lia|]. split; [now apply Z.leb_le|]. now symmetry.
Qed.
Lemma wmax_0 : forall P lo hi k b, 0 <= wmax P lo hi k b.
Proof. intros. unfold wmax. induction (map _ _) as [|y r IH]; [apply Rle_refl|]. cbn. eapply Rle_trans; [exact IH|apply Rmax_r]. Qed.

Lemma window_max_val : forall prev (P : nat -> R) a t lo hi k b j, Forall (upto j) prev -> (hi <= length prev)%nat -> 0 <= a -> 0 <= t ->
  (forall q, (lo <= q < hi)%nat -> 0 <= P q /\ Rabs (B2R (nth q prev f0) - P q) <= a * P q + t) ->
  upto j (window_max prev lo hi k b) /\ Rabs (B2R (window_max prev lo hi k b) - wmax P lo hi k b) <= a * wmax P lo hi k b + t.
Proof.
  intros prev P a t lo hi k b j H L A T V. destruct (window_max_spec prev lo hi k b) as (N & G). set (M := window_max prev lo hi k b) in *.
  assert (I : M = f0 \/ exists q, (lo <= q < hi)%nat /\ (Z.abs (Z.of_nat q - Z.of_nat b) <= k)%Z /\ M = nth q prev f0).
  { unfold M, window_max. set (x := Nat.max _ _). set (e := Z.to_nat _).
    destruct (PeakPickingProofs.fold_fmax_spec (slice prev x e) f0 eq_refl) as (_ & _ & [E|I] & _); cbv zeta in *; [now left|right].
    destruct (In_nth _ _ f0 I) as (i & Hi & E). assert (Le : (length (slice prev x e) <= e - x)%nat) by (unfold slice; rewrite firstn_length; lia).
    assert (He : (e <= length prev)%nat) by (unfold e; lia). exists (x + i)%nat. split; [unfold x, e in *; lia|]. split; [unfold x, e in *; lia|].
    rewrite <- E. symmetry. apply nth_error_nth. apply nth_slice; lia. }
  assert (UM : upto j M). { destruct I as [-> |(q & Q & _ & ->)]; [apply upto_0|]. rewrite Forall_forall in H. apply H, nth_In. lia. }
  split; [exact UM|]. pose proof (wmax_0 P lo hi k b) as W0. set (W := wmax P lo hi k b) in *.
  assert (U : B2R M <= W + a * W + t).
  { destruct I as [-> |(q & Q & K & ->)]; [change (B2R f0) with 0; nra|]. destruct (V q Q) as (P0 & E). pose proof (wmax_ge P lo hi k b q Q K) as WG. fold W in WG. apply Rabs_le_inv in E. nra. }
  assert (D : W - (a * W + t) <= B2R M).
  { destruct (wmax_in P lo hi k b) as [E|(q & Q & K & E)]; fold W in E; [rewrite E in *; destruct UM as (_ & ? & _); lra|].
    assert (J : (q < length prev)%nat) by lia. assert (Uq : upto j (nth q prev f0)) by (rewrite Forall_forall in H; now apply H, nth_In).
    pose proof (G q _ Q K (nth_error_nth' prev f0 J) (fin_nn _ (upto_fin _ _ Uq))) as Le. apply fle_fx in Le.
    rewrite !fx_fin in Le by (eapply upto_fin; eauto). destruct (V q Q) as (_ & Eq). apply Rabs_le_inv in Eq. rewrite E in *. lra. }
  apply Rabs_le. lra.
Qed.

(** The superflux distance. *)
Definition super (P C : nat -> R) (lo hi : nat) (k : Z) : R :=
  sqrt (sumn (fun i => Rsqr (Rmax 0 (C (lo + i)%nat - wmax P lo hi k (lo + i)))) (hi - lo)).

Lemma superflux_val : forall prev cur (P C : nat -> R) a t lo hi k, Forall (upto 32) prev -> Forall (upto 32) cur ->
  (lo <= hi)%nat -> (hi <= length prev)%nat -> (hi <= length cur)%nat -> (Z.of_nat hi <= 1048576)%Z -> 0 <= a <= / 2 -> tiny <= t ->
  (forall q, (lo <= q < hi)%nat -> 0 <= P q /\ Rabs (B2R (nth q prev f0) - P q) <= a * P q + t) ->
  (forall q, (lo <= q < hi)%nat -> 0 <= C q /\ Rabs (B2R (nth q cur f0) - C q) <= a * C q + t) ->
  upto 125 (superflux_dist lo hi k prev cur) /\
  Rabs (B2R (superflux_dist lo hi k prev cur) - super P C lo hi k) <=
    (INR (hi - lo) + 6) / 5000000 * super P C lo hi k
    + 3 * (a * sumn (fun i => C (lo + i)%nat + wmax P lo hi k (lo + i)) (hi - lo)) + 9 * (INR (hi - lo) * t) + bpow radix2 (-59).
Proof.
  intros prev cur P C a t lo hi k Hp Hc L Lp Lc Hn A T VP VC. unfold superflux_dist. set (l := map _ _).
  assert (Ll : length l = (hi - lo)%nat) by (unfold l; now rewrite map_length, seq_length).
  set (d := fun i => fmax (fsub (nth (lo + i) cur f0) (window_max prev lo hi k (lo + i))) f0).
  pose proof (l2_val l d (fun i => Rmax 0 (C (lo + i)%nat - wmax P lo hi k (lo + i)))
     (fun i => / 1 * (3 / 2 * (a * (C (lo + i)%nat + wmax P lo hi k (lo + i)))) + 9 / 2 * t)) as V. cbv zeta in V. rewrite Ll in V.
  destruct V as (U & E).
  - lia.
  - intros i Hi. assert (Bi : (lo <= lo + i < hi)%nat) by lia.
    assert (Uc : upto 32 (nth (lo + i) cur f0)) by (rewrite Forall_forall in Hc; apply Hc, nth_In; lia).
    destruct (window_max_val prev P a t lo hi k (lo + i) 32 Hp Lp (proj1 A) ltac:(pose proof tiny_pos; lra) VP) as (Uw & Ew).
    destruct (VC (lo + i)%nat Bi) as (C0 & Ec). pose proof (wmax_0 P lo hi k (lo + i)) as W0.
    split; [|split; [|split; [apply Rmax_l|split]]].
    + unfold l. set (g := fun b : nat => _). rewrite (nth_indep _ f0 (g 0%nat)) by (rewrite map_length, seq_length; lia). rewrite map_nth, seq_nth by lia. reflexivity.
    + apply (upto_mono 32); [lia|]. apply upto_rise; [exact Uc|eapply upto_nneg; eauto].
    + pose proof tiny_pos. assert (0 <= a * (C (lo + i)%nat + wmax P lo hi k (lo + i))) by (apply Rmult_le_pos; lra). lra.
    + unfold d. set (x := nth (lo + i) cur f0) in *. set (m := window_max prev lo hi k (lo + i)) in *. set (c := C (lo + i)%nat) in *. set (w := wmax P lo hi k (lo + i)) in *.
      pose proof (within_sub 32 x m ltac:(lia) (upto_within _ _ Uc) (upto_within _ _ Uw)) as Wd. pose proof (within_fin _ _ Wd) as Fd.
      rewrite (proj2 (fmax_B2R (fsub x m) f0 Fd eq_refl)). change (B2R f0) with 0. rewrite B2R_fsub by (first [exact Fd | apply Uc | apply Uw]).
      pose proof (rnd_near (B2R x - B2R m)) as R. set (y := B2R x - B2R m) in *.
      assert (Ey : Rabs (y - (c - w)) <= a * (c + w) + 2 * t).
      { apply Rabs_le_inv in Ec. apply Rabs_le_inv in Ew. apply Rabs_le. unfold y. lra. }
      assert (S0 : y <= 0 -> rnd y <= 0) by (intros Y; rewrite <- rnd_0; now apply rnd_mono).
      assert (S1 : 0 <= y -> 0 <= rnd y) by (intros; now apply rnd_nonneg).
      assert (ACW : 0 <= a * (c + w)) by (apply Rmult_le_pos; lra).
      set (v := rnd y) in *. clearbody v y c w. pose proof tiny_pos as TP. apply Rabs_le_inv in Ey. unfold u24 in *.
      assert (K : Rabs (Rmax v 0 - Rmax 0 y) <= / 16777216 * Rmax 0 y + tiny).
      { destruct (Rle_lt_dec y 0) as [Y|Y].
        - specialize (S0 Y). rewrite Rmax_right, Rmax_left by lra. rewrite Rminus_0_r, Rabs_R0. lra.
        - specialize (S1 ltac:(lra)). rewrite (Rmax_left v 0), (Rmax_right 0 y) by lra. rewrite (Rabs_pos_eq y) in R by lra. exact R. }
      assert (K2 : Rabs (Rmax 0 y - Rmax 0 (c - w)) <= a * (c + w) + 2 * t).
      { apply Rabs_le. unfold Rmax. destruct (Rle_dec 0 y), (Rle_dec 0 (c - w)); lra. }
      pose proof (Rmax_l 0 (c - w)) as M0. set (p := Rmax 0 y) in *. set (q := Rmax 0 (c - w)) in *. set (z := Rmax v 0) in *. clearbody p q z.
      apply Rabs_le_inv in K. apply Rabs_le_inv in K2. apply Rabs_le. lra.
  - fold l. split; [exact U|]. unfold super. eapply Rle_trans; [exact E|].
    assert (ES : sumn (fun i => / 1 * (3 / 2 * (a * (C (lo + i)%nat + wmax P lo hi k (lo + i)))) + 9 / 2 * t) (hi - lo) =
      3 / 2 * (a * sumn (fun i => C (lo + i)%nat + wmax P lo hi k (lo + i)) (hi - lo)) + 9 / 2 * (INR (hi - lo) * t)).
    { rewrite sumn_plus, sumn_const. rewrite <- (sumn_scal a), <- (sumn_scal (3 / 2)). f_equal; [|ring]. apply sumn_ext. intros i _. rewrite Rinv_1. ring. }
    rewrite ES. lra.
Qed.

(** ** Log compression *)

(** A natural logarithm within e of the real one on [1, 2^31], never negative there. *)
Definition ln_accurate (lnf : f32 -> f32) (e : R) : Prop :=
  forall v, fin v -> 1 <= B2R v <= 2147483648 -> fin (lnf v) /\ 0 <= B2R (lnf v) /\ Rabs (B2R (lnf v) - ln (B2R v)) <= e.

Lemma ln_le_sub1 : forall x, 0 < x -> ln x <= x - 1.
Proof.
  intros x X. destruct (Req_dec x 1) as [-> |N]; [rewrite ln_1; lra|]. assert (H : ln x <> 0) by (intros E; apply N; rewrite <- (exp_ln x X), E; apply exp_0).
  pose proof (exp_ineq1 (ln x) H) as I. rewrite exp_ln in I by auto. lra.
Qed.
Lemma ln_lip : forall a b, 1 <= a -> 1 <= b -> Rabs (ln a - ln b) <= Rabs (a - b) / b * 2 \/ Rabs (ln a - ln b) <= Rabs (a - b) / a * 2.
Proof.
  assert (G : forall a b, 1 <= a -> a <= b -> Rabs (ln a - ln b) <= Rabs (a - b) / a * 2).
  { intros a b A B. assert (0 < a) by lra. assert (0 < b) by lra. assert (L : ln (b / a) <= b / a - 1) by (apply ln_le_sub1, Rdiv_lt_0_compat; lra).
    unfold Rdiv in L at 1. rewrite ln_mult, ln_Rinv in L; auto; [|now apply Rinv_0_lt_compat]. assert (M : ln a <= ln b) by (destruct (Req_dec a b) as [-> |]; [lra|left; apply ln_increasing; lra]).
    rewrite (Rabs_minus_sym (ln a)), (Rabs_minus_sym a), !Rabs_pos_eq by lra. assert (E : (b - a) / a = b / a - 1) by (field; lra). rewrite E.
    assert (0 <= b / a - 1) by (rewrite <- E; apply quot_nonneg; lra). lra. }
  intros a b A B. destruct (Rle_dec a b) as [L|L]; [right; now apply G|left]. rewrite (Rabs_minus_sym (ln a)), (Rabs_minus_sym a). apply G; lra.
Qed.
Lemma log_val : forall lnf e x, ln_accurate lnf e -> 0 <= e <= / 1024 -> upto 30 x ->
  upto 5 (lnf (fadd f1 (fmax x f0))) /\ Rabs (B2R (lnf (fadd f1 (fmax x f0))) - ln (1 + B2R x)) <= e + 5 * u24.
Proof.
  intros lnf e x A He U. destruct U as (Fx & X0 & X1). change (bpow radix2 30) with 1073741824 in X1.
  destruct (fmax_B2R x f0 Fx eq_refl) as (Fm & Em). change (B2R f0) with 0 in Em. rewrite Rmax_left in Em by lra.
  set (y := fmax x f0) in *. destruct (fadd_fx f1 y eq_refl Fm) as (N & E). change (B2R f1) with (F2R (Float radix2 8388608 (-23))) in E.
  rewrite Em in E. replace (F2R (Float radix2 8388608 (-23))) with 1 in E by (unfold F2R; cbn [Fnum Fexp]; change (bpow radix2 (-23)) with (/ 8388608); lra).
  assert (L1 : 1 <= rnd (1 + B2R x)) by (apply Rle_trans with (rnd (IZR 1)); [rewrite rnd_Z by lia; lra|apply rnd_mono; lra]).
  assert (L2 : rnd (1 + B2R x) <= 2147483648) by (apply Rle_trans with (rnd (bpow radix2 31)); [apply rnd_mono; change (bpow radix2 31) with 2147483648; lra|rewrite rnd_bpow by lia; change (bpow radix2 31) with 2147483648; lra]).
  rewrite sat_id in E by (unfold big; change (bpow radix2 128) with 340282366920938463463374607431768211456; lra).
  assert (F : fin (fadd f1 y)) by (apply fin_iff; auto; rewrite E; unfold big; change (bpow radix2 128) with 340282366920938463463374607431768211456; lra).
  rewrite fx_fin in E by exact F. destruct (A (fadd f1 y) F ltac:(rewrite E; lra)) as (Fl & L0 & El). rewrite E in El.
  pose proof (rnd_near (1 + B2R x)) as R. rewrite (Rabs_pos_eq (1 + B2R x)) in R by lra. set (a := rnd (1 + B2R x)) in *. set (b := 1 + B2R x) in *.
  assert (B1 : 1 <= b) by (unfold b; lra). assert (T : tiny <= / 16777216 * / 16777216).
  { apply Rle_trans with (bpow radix2 (-48)); [apply bpow_le; lia|]. change (bpow radix2 (-48)) with (/ 281474976710656). lra. }
  pose proof tiny_pos as TP. assert (D : Rabs (ln a - ln b) <= 5 * u24).
  { assert (Q : forall c, 1 <= c -> b <= 2 * c -> (c = a \/ c = b) -> Rabs (a - b) / c * 2 <= 5 * u24).
    { intros c C1 C2 C. apply Rle_trans with ((u24 * b + tiny) / c * 2); [unfold Rdiv; apply Rmult_le_compat_r; [lra|]; apply Rmult_le_compat_r; [left; apply Rinv_0_lt_compat; lra|exact R]|].
      assert (K : b / c <= 1 + 2 * u24).
      { apply Rmult_le_reg_r with c; [lra|]. unfold Rdiv. rewrite Rmult_assoc, Rinv_l, Rmult_1_r by lra. destruct C as [-> | ->]; [|unfold u24; lra]. apply Rabs_le_inv in R. unfold u24 in *. lra. }
      assert (K2 : tiny / c <= tiny) by (apply Rmult_le_reg_r with c; [lra|]; unfold Rdiv; rewrite Rmult_assoc, Rinv_l, Rmult_1_r by lra; nra).
      replace ((u24 * b + tiny) / c * 2) with (2 * (u24 * (b / c)) + 2 * (tiny / c)) by (field; lra). unfold u24 in *. lra. }
    assert (b <= 2 * a) by (apply Rabs_le_inv in R; unfold u24 in R; lra).
    destruct (ln_lip a b ltac:(lra) B1) as [H0|H0]; (eapply Rle_trans; [exact H0|]); apply Q; auto; lra. }
  apply Rabs_le_inv in El. apply Rabs_le_inv in D. split; [|apply Rabs_le; unfold u24 in *; lra].
  split; [exact Fl|]. split; [exact L0|]. change (bpow radix2 5) with 32.
  assert (L31 : ln a <= 31).
  { apply Rle_trans with (ln 2147483648). { destruct (Req_dec a 2147483648) as [-> |]; [lra|left; apply ln_increasing; lra]. }
    replace 2147483648 with (2 ^ 31) by lra. assert (PL : forall n, ln (2 ^ n) = INR n * ln 2).
    { induction n as [|n IH]; [cbn; rewrite ln_1; ring|]. rewrite S_INR. cbn [pow]. rewrite ln_mult, IH; [ring|lra|apply pow_lt; lra]. }
    rewrite PL. pose proof (ln_le_sub1 2 ltac:(lra)). replace (INR 31) with 31 by (cbn; lra). lra. }
  lra.
Qed.

Definition loud (fr : list f32) (q : nat) : R := ln (1 + B2R (nth q fr f0)).
Lemma ln1p_nonneg : forall x, 0 <= x -> 0 <= ln (1 + x).
Proof. intros x X. rewrite <- ln_1. destruct X as [X| <-]; [left; apply ln_increasing; lra|rewrite Rplus_0_r; lra]. Qed.
Lemma loud_nonneg : forall fr q, Forall mag_ok fr -> 0 <= loud fr q.
Proof. intros fr q H. apply ln1p_nonneg. apply (nth_ok fr q H). Qed.
Lemma log_frame_val : forall lnf e fr q, ln_accurate lnf e -> 0 <= e <= / 1024 -> Forall mag_ok fr -> (q < length fr)%nat ->
  Rabs (B2R (nth q (log_frame lnf fr) f0) - loud fr q) <= e + 5 * u24.
Proof.
  intros lnf e fr q A He H Q. unfold log_frame. rewrite (nth_indep _ f0 (lnf (fadd f1 (fmax f0 f0)))) by (now rewrite map_length).
  rewrite (map_nth (fun x => lnf (fadd f1 (fmax x f0)))). apply log_val; auto. now apply nth_ok.
Qed.
Lemma log_frame_up : forall lnf e fr, ln_accurate lnf e -> 0 <= e <= / 1024 -> Forall mag_ok fr -> Forall (upto 5) (log_frame lnf fr).
Proof. intros lnf e fr A He H. apply Forall_map. eapply Forall_impl; [|exact H]. intros x X. apply (log_val lnf e); auto. Qed.

(** ** Mel bands *)

(** The triangle over the bins l < c < r: it rises from l to c and falls from c to r.  The centre
    bin belongs to both slopes and counts twice. *)
Definition triangle (l c r b : nat) : R :=
  if ((l <? c) && (c <? r))%nat%bool then
    if (b <? c)%nat then Rmax 0 ((INR b - INR l) / (INR c - INR l))
    else if (b =? c)%nat then 2
    else Rmax 0 ((INR r - INR b) / (INR r - INR c))
  else 0.
Definition mel_level (edges : list nat) (fr : list f32) (m : nat) : R :=
  sumn (fun b => triangle (nth m edges 0%nat) (nth (m + 1) edges 0%nat) (nth (m + 2) edges 0%nat) b * loud fr b) (length fr).

Lemma triangle_range : forall l c r b, 0 <= triangle l c r b <= 2.
Proof.
  intros l c r b. unfold triangle. destruct (Nat.ltb_spec l c); [|cbn; lra]. destruct (Nat.ltb_spec c r); cbn [andb]; [|lra].
  assert (INR l < INR c) by now apply lt_INR. assert (INR c < INR r) by now apply lt_INR.
  destruct (Nat.ltb_spec b c) as [B|B].
  - assert (INR b < INR c) by now apply lt_INR. split; [apply Rmax_l|apply Rmax_lub; [lra|]]. apply Rle_trans with 1; [apply quot_le_1; lra|lra].
  - destruct (Nat.eqb_spec b c); [lra|]. assert (INR c < INR b) by (apply lt_INR; lia). split; [apply Rmax_l|apply Rmax_lub; [lra|]]. apply Rle_trans with 1; [apply quot_le_1; lra|lra].
Qed.

Definition terms (lnf : f32 -> f32) (edges : list nat) (m : nat) (bx : nat * f32) : list f32 :=
  let v := lnf (fadd f1 (fmax (snd bx) f0)) in if fle v f0 then [] else map (fmul v) (mel_weights edges m (fst bx)).
Lemma mel_slot_sum : forall lnf edges fr m, mel_slot lnf edges fr m = fsum (flat_map (terms lnf edges m) (combine (seq 0 (length fr)) fr)).
Proof.
  intros lnf edges fr m. unfold mel_slot, fsum.
  assert (G : forall l acc, fold_left (fun acc bx => let v := lnf (fadd f1 (fmax (snd bx) f0)) in
      if fle v f0 then acc else fold_left (fun a w => fadd a (fmul v w)) (mel_weights edges m (fst bx)) acc) l acc = fold_left fadd (flat_map (terms lnf edges m) l) acc).
  { induction l as [|bx l IH]; intros acc; [reflexivity|]. cbn [fold_left flat_map]. rewrite fold_left_app, IH. f_equal. unfold terms. cbv zeta. destruct (fle _ f0); [reflexivity|].
    generalize (mel_weights edges m (fst bx)) as ws. intros ws. revert acc. induction ws as [|w ws IW]; intros acc; [reflexivity|]. cbn [fold_left map]. apply IW. }
  apply G.
Qed.

Lemma Rsum_app : forall a b, Rsum (a ++ b) = Rsum a + Rsum b.
Proof.
  induction a as [|x a IH]; intros b; [change (Rsum b = 0 + Rsum b); ring|]. change (B2R x + Rsum (a ++ b) = B2R x + Rsum a + Rsum b). rewrite IH. ring.
Qed.

Lemma ratio_val : forall a c w num den, (a <= c)%nat -> (0 < c)%nat -> w = fdiv num den -> fin num -> fin den -> B2R num = INR a -> B2R den = INR c ->
  upto 0 w /\ Rabs (B2R w - INR a / INR c) <= u24 * (INR a / INR c) + tiny.
Proof.
  intros a c w num den AC C -> Fn Fd En Ed. assert (0 < INR c) by now apply lt_0_INR. assert (INR a <= INR c) by now apply le_INR. pose proof (pos_INR a).
  assert (Q01 : 0 <= INR a / INR c <= 1) by (split; [apply quot_nonneg; lra|apply quot_le_1; lra]).
  destruct (fdiv_fx num den Fn Fd) as (N & E); [rewrite Ed; lra|]. rewrite En, Ed in E.
  assert (R01 : 0 <= rnd (INR a / INR c) <= 1) by (split; [apply rnd_nonneg; lra|eapply Rle_trans; [apply (rnd_mono _ (IZR 1)); lra|rewrite (rnd_Z 1) by lia; lra]]).
  rewrite sat_id in E by (unfold big; change (bpow radix2 128) with 340282366920938463463374607431768211456; lra).
  assert (F : fin (fdiv num den)) by (apply fin_iff; auto; rewrite E; unfold big; change (bpow radix2 128) with 340282366920938463463374607431768211456; lra).
  rewrite fx_fin in E by exact F. split; [split; [exact F|rewrite E; change (bpow radix2 0) with 1; lra]|]. rewrite E.
  pose proof (rnd_near (INR a / INR c)) as R. rewrite (Rabs_pos_eq (INR a / INR c)) in R by lra. exact R.
Qed.

Lemma term_val : forall v w L W e, upto 5 v -> upto 0 w -> 0 <= L -> 0 <= W <= 1 -> 0 <= e -> Rabs (B2R v - L) <= e -> Rabs (B2R w - W) <= u24 * W + tiny ->
  upto 5 (fmul v w) /\ Rabs (B2R (fmul v w) - W * L) <= 11 / 10 * (W * e) + 3 * u24 * (W * L) + 40 * tiny.
Proof.
  intros v w L W e Uv Uw L0 W01 E0 Ev Ew. pose proof (upto_mul 5 0 v w ltac:(lia) Uv Uw) as Um. change (5 + 0)%Z with 5%Z in Um. split; [exact Um|].
  rewrite B2R_fmul by apply Um. destruct Uv as (_ & V0 & V1). destruct Uw as (_ & w0 & w1). change (bpow radix2 5) with 32 in V1. change (bpow radix2 0) with 1 in w1.
  pose proof (rnd_near (B2R v * B2R w)) as R. rewrite (Rabs_pos_eq (B2R v * B2R w)) in R by nra. set (p := rnd _) in *. set (x := B2R v) in *. set (y := B2R w) in *. clearbody p x y. clear Um v w.
  pose proof tiny_pos as TP. assert (K : Rabs (x * y - W * L) <= u24 * (W * L) + u24 * (W * e) + 32 * tiny + W * e).
  { replace (x * y - W * L) with (x * (y - W) + W * (x - L)) by ring. eapply Rle_trans; [apply Rabs_triang|]. rewrite !Rabs_mult, (Rabs_pos_eq x), (Rabs_pos_eq W) by lra.
    assert (A : x * Rabs (y - W) <= x * (u24 * W + tiny)) by (apply Rmult_le_compat_l; lra). assert (B : W * Rabs (x - L) <= W * e) by (apply Rmult_le_compat_l; lra).
    assert (C : x * (u24 * W) <= (L + e) * (u24 * W)) by (apply Rmult_le_compat_r; [unfold u24; lra|apply Rabs_le_inv in Ev; lra]). assert (x * tiny <= 32 * tiny) by (apply Rmult_le_compat_r; lra). lra. }
  assert (0 <= W * L) by nra. assert (0 <= W * e) by nra. set (A := W * L) in *. set (B := W * e) in *. clearbody A B. unfold u24 in *. apply Rabs_le_inv in K. apply Rabs_le_inv in R. apply Rabs_le. lra.
Qed.

Lemma terms_val : forall lnf e edges m b x n, ln_accurate lnf e -> 0 <= e <= / 1024 -> upto 30 x -> (Z.of_nat n <= 524288)%Z -> Forall (fun i => (i <= n - 1)%nat) edges ->
  let W := triangle (nth m edges 0%nat) (nth (m + 1) edges 0%nat) (nth (m + 2) edges 0%nat) b in
  Forall (upto 5) (terms lnf edges m (b, x)) /\ (length (terms lnf edges m (b, x)) <= 2)%nat /\
  Rabs (Rsum (terms lnf edges m (b, x)) - W * ln (1 + B2R x)) <= 11 / 5 * (e + 5 * u24) + 3 * u24 * (W * ln (1 + B2R x)) + 80 * tiny.
Proof.
  intros lnf e edges m b x n A He U Hn Hedge W. destruct (log_val lnf e x A He U) as (Uv & Ev). unfold terms. cbn [fst snd].
  set (v := lnf (fadd f1 (fmax x f0))) in *. pose proof (ln1p_nonneg (B2R x) ltac:(apply U)) as L0. set (L := ln (1 + B2R x)) in *.
  pose proof (triangle_range (nth m edges 0%nat) (nth (m + 1) edges 0%nat) (nth (m + 2) edges 0%nat) b) as WR. fold W in WR.
  pose proof tiny_pos as TP. assert (WL : 0 <= W * L) by nra. set (e' := e + 5 * u24) in *. assert (e0 : 0 <= e') by (unfold e', u24; lra).
  assert (WE : W * e' <= 2 * e') by (apply Rmult_le_compat_r; lra). assert (u0 : 0 <= 3 * u24 * (W * L)) by (unfold u24; nra).
  cbv zeta. destruct (fle v f0) eqn:Ez.
  - split; [constructor|]. split; [cbn; lia|]. apply fle_fx in Ez. rewrite !fx_fin in Ez by (first [apply Uv|reflexivity]). change (B2R f0) with 0 in Ez.
    assert (LE : L <= e') by (apply Rabs_le_inv in Ev; destruct Uv as (_ & ? & _); lra). cbn [Rsum fold_right]. rewrite Rminus_0_l, Rabs_Ropp, Rabs_pos_eq by exact WL.
    assert (W * L <= 2 * e') by (apply Rle_trans with (2 * L); [apply Rmult_le_compat_r; lra|lra]). lra.
  - clear Ez. pose proof (nth_le _ _ m Hedge) as B1. pose proof (nth_le _ _ (m + 1) Hedge) as B2. pose proof (nth_le _ _ (m + 2) Hedge) as B3. unfold W, mel_weights, triangle in *.
    set (l := nth m edges 0%nat) in *. set (c := nth (m + 1) edges 0%nat) in *. set (r := nth (m + 2) edges 0%nat) in *. clearbody l c r.
    assert (FP : forall ws, Forall (upto 0) ws -> Forall (upto 5) (map (fmul v) (filter (fun w => fgt w f0) ws)) /\ Rsum (map (fmul v) (filter (fun w => fgt w f0) ws)) = Rsum (map (fmul v) ws)).
    { clear - Uv. induction ws as [|w ws IH]; intros F; [split; [constructor|reflexivity]|]. inversion F as [|? ? Fw Fr]; subst. destruct (IH Fr) as (I1 & I2). cbn [filter map].
      pose proof (upto_mul 5 0 v w ltac:(lia) Uv Fw) as Um. change (5 + 0)%Z with 5%Z in Um. destruct (fgt w f0) eqn:G.
      - cbn [map]. split; [constructor; auto|]. cbn [Rsum fold_right]. fold (Rsum (map (fmul v) (filter (fun w => fgt w f0) ws))). fold (Rsum (map (fmul v) ws)). now rewrite I2.
      - split; [exact I1|]. cbn [Rsum fold_right]. fold (Rsum (map (fmul v) ws)). rewrite I2. unfold fgt in G. rewrite Bltb_correct in G by (first [apply Fw|reflexivity]).
        destruct (Rlt_bool_spec (B2R f0) (B2R w)) as [?|G0]; [discriminate|]. change (B2R f0) with 0 in G0. assert (Z : B2R w = 0) by (destruct Fw as (_ & ? & _); lra).
        rewrite (B2R_fmul v w) by apply Um. rewrite Z, Rmult_0_r, rnd_0. ring. }
    destruct (Nat.ltb_spec l c) as [LC|LC]; [|cbn [andb map Rsum fold_right length]; split; [constructor|]; split; [lia|]; rewrite Rmult_0_l, Rminus_0_r, Rabs_R0; unfold u24; lra].
    destruct (Nat.ltb_spec c r) as [CR|CR]; [|cbn [andb map Rsum fold_right length]; split; [constructor|]; split; [lia|]; rewrite Rmult_0_l, Rminus_0_r, Rabs_R0; unfold u24; lra]. cbn [andb] in *.
    (* one slope *)
    assert (S1 : (l <= b <= c)%nat -> let w := if (b =? l)%nat then f0 else fdiv (fsub (n2f b) (n2f l)) (fsub (n2f c) (n2f l)) in
      upto 0 w /\ Rabs (B2R w - (INR b - INR l) / (INR c - INR l)) <= u24 * ((INR b - INR l) / (INR c - INR l)) + tiny).
    { intros Q w. unfold w. assert (INR l < INR c) by now apply lt_INR. destruct (Nat.eqb_spec b l) as [-> |NE].
      - split; [apply upto_0|]. rewrite Rminus_eq_0. unfold Rdiv. rewrite !Rmult_0_l, Rmult_0_r, Rminus_0_r. change (B2R f0) with 0. rewrite Rabs_R0. lra.
      - destruct (n2f_sub l b ltac:(lia) ltac:(lia)) as (F1 & _ & E1). destruct (n2f_sub l c ltac:(lia) ltac:(lia)) as (F2 & _ & E2). rewrite <- INR_IZR_INZ in E1, E2.
        rewrite <- !minus_INR by lia. eapply ratio_val; eauto; lia. }
    assert (S2 : (c <= b <= r)%nat -> let w := if (b =? r)%nat then f0 else fdiv (fsub (n2f r) (n2f b)) (fsub (n2f r) (n2f c)) in
      upto 0 w /\ Rabs (B2R w - (INR r - INR b) / (INR r - INR c)) <= u24 * ((INR r - INR b) / (INR r - INR c)) + tiny).
    { intros Q w. unfold w. assert (INR c < INR r) by now apply lt_INR. destruct (Nat.eqb_spec b r) as [-> |NE].
      - split; [apply upto_0|]. rewrite Rminus_eq_0. unfold Rdiv. rewrite !Rmult_0_l, Rmult_0_r, Rminus_0_r. change (B2R f0) with 0. rewrite Rabs_R0. lra.
      - destruct (n2f_sub b r ltac:(lia) ltac:(lia)) as (F1 & _ & E1). destruct (n2f_sub c r ltac:(lia) ltac:(lia)) as (F2 & _ & E2). rewrite <- INR_IZR_INZ in E1, E2.
        rewrite <- !minus_INR by lia. eapply ratio_val; eauto; lia. }
    assert (One : forall w q, upto 0 w -> 0 <= q <= 1 -> Rabs (B2R w - q) <= u24 * q + tiny -> Rabs (Rsum (map (fmul v) [w]) - q * L) <= 11 / 10 * (q * e') + 3 * u24 * (q * L) + 40 * tiny).
    { intros w q Uw Q01 Ew. cbn [map Rsum fold_right]. rewrite Rplus_0_r. now apply term_val. }
    assert (NL : INR l < INR c) by now apply lt_INR. assert (NR : INR c < INR r) by now apply lt_INR.
    destruct (Nat.ltb_spec b c) as [BC|BC].
    + (* rising *) destruct (Nat.leb_spec c b) as [?|_]; [lia|]. cbn [andb]. rewrite app_nil_r. destruct (Nat.leb_spec b c) as [_|?]; [|lia]. rewrite Bool.andb_true_r. destruct (Nat.leb_spec l b) as [LB|LB].
      * destruct (S1 ltac:(lia)) as (Uw & Ew). set (w := if (b =? l)%nat then f0 else _) in *. clearbody w.
        destruct (FP [w] ltac:(auto)) as (P1 & P2). split; [exact P1|]. split; [rewrite map_length; cbn; destruct (fgt w f0); cbn; lia|]. rewrite P2.
        assert (INR l <= INR b) by now apply le_INR. assert (INR b < INR c) by now apply lt_INR.
        assert (Q01 : 0 <= (INR b - INR l) / (INR c - INR l) <= 1) by (split; [apply quot_nonneg; lra|apply quot_le_1; lra]).
        rewrite Rmax_right in * by lra. eapply Rle_trans; [apply (One _ _ Uw Q01 Ew)|]. lra.
      * cbn [filter map Rsum fold_right length]. split; [constructor|]. split; [lia|]. assert (INR b < INR l) by now apply lt_INR.
        assert (Q0 : (INR b - INR l) / (INR c - INR l) < 0) by (replace ((INR b - INR l) / (INR c - INR l)) with (- ((INR l - INR b) / (INR c - INR l))) by (field; lra); apply Ropp_lt_gt_0_contravar, Rdiv_lt_0_compat; lra).
        rewrite Rmax_left in * by lra. rewrite Rmult_0_l, Rminus_0_r, Rabs_R0. lra.
    + destruct (Nat.eqb_spec b c) as [-> |NE].
      * (* the centre *) destruct (Nat.leb_spec c c) as [_|?]; [|lia]. destruct (Nat.leb_spec l c) as [_|?]; [|lia]. destruct (Nat.leb_spec c r) as [_|?]; [|lia]. cbn [andb app].
        destruct (S1 ltac:(lia)) as (Uw & Ew). destruct (S2 ltac:(lia)) as (Ux & Ex). set (w := if (c =? l)%nat then f0 else _) in *. set (y := if (c =? r)%nat then f0 else _) in *. clearbody w y.
        destruct (FP [w; y] ltac:(auto)) as (P1 & P2). split; [exact P1|]. split; [rewrite map_length; cbn; destruct (fgt w f0), (fgt y f0); cbn; lia|]. rewrite P2.
        assert (Q1 : (INR c - INR l) / (INR c - INR l) = 1) by (field; lra). assert (Q2 : (INR r - INR c) / (INR r - INR c) = 1) by (field; lra). rewrite Q1 in Ew. rewrite Q2 in Ex. pose proof (One w 1 Uw ltac:(lra) Ew) as K1. pose proof (One y 1 Ux ltac:(lra) Ex) as K2.
        cbn [map Rsum fold_right] in *. rewrite Rplus_0_r in *. apply Rabs_le_inv in K1. apply Rabs_le_inv in K2. apply Rabs_le. unfold u24 in *. lra.
      * (* falling *) destruct (Nat.leb_spec b c) as [?|_]; [lia|]. rewrite Bool.andb_false_r. cbn [app]. destruct (Nat.leb_spec c b) as [_|?]; [|lia]. cbn [andb]. destruct (Nat.leb_spec b r) as [BR|BR].
        -- destruct (S2 ltac:(lia)) as (Uw & Ew). set (w := if (b =? r)%nat then f0 else _) in *. clearbody w.
           destruct (FP [w] ltac:(auto)) as (P1 & P2). split; [exact P1|]. split; [rewrite map_length; cbn; destruct (fgt w f0); cbn; lia|]. rewrite P2.
           assert (INR c <= INR b) by now apply le_INR. assert (INR b <= INR r) by now apply le_INR.
           assert (Q01 : 0 <= (INR r - INR b) / (INR r - INR c) <= 1) by (split; [apply quot_nonneg; lra|apply quot_le_1; lra]).
           rewrite Rmax_right in * by lra. eapply Rle_trans; [apply (One _ _ Uw Q01 Ew)|]. lra.
        -- cbn [filter map Rsum fold_right length]. split; [constructor|]. split; [lia|]. assert (INR r < INR b) by now apply lt_INR.
           assert (Q0 : (INR r - INR b) / (INR r - INR c) < 0) by (replace ((INR r - INR b) / (INR r - INR c)) with (- ((INR b - INR r) / (INR r - INR c))) by (field; lra); apply Ropp_lt_gt_0_contravar, Rdiv_lt_0_compat; lra).
           rewrite Rmax_left in * by lra. rewrite Rmult_0_l, Rminus_0_r, Rabs_R0. lra.
Qed.

Lemma mel_level_nonneg : forall edges fr m, Forall mag_ok fr -> 0 <= mel_level edges fr m.
Proof. intros edges fr m H. apply sumn_nonneg. intros b _. apply Rmult_le_pos; [apply triangle_range|now apply loud_nonneg]. Qed.

Lemma mel_slot_val : forall lnf e edges fr m, ln_accurate lnf e -> 0 <= e <= / 1024 -> Forall mag_ok fr -> let n := length fr in (1 <= n)%nat -> (Z.of_nat n <= 524288)%Z ->
  Forall (fun i => (i <= n - 1)%nat) edges ->
  upto 30 (mel_slot lnf edges fr m) /\
  Rabs (B2R (mel_slot lnf edges fr m) - mel_level edges fr m) <= (2 * INR n + 3) / 5000000 * mel_level edges fr m + 3 * (INR n * (e + 5 * u24)).
Proof.
  intros lnf e edges fr m A He H n N1 Hn Hedge. rewrite mel_slot_sum. set (e' := e + 5 * u24).
  set (W := triangle (nth m edges 0%nat) (nth (m + 1) edges 0%nat) (nth (m + 2) edges 0%nat)).
  assert (G : forall k0 l, Forall mag_ok l -> let T := flat_map (terms lnf edges m) (combine (seq k0 (length l)) l) in
    Forall (upto 5) T /\ (length T <= 2 * length l)%nat /\
    Rabs (Rsum T - sumn (fun i => W (k0 + i)%nat * ln (1 + B2R (nth i l f0))) (length l)) <=
      sumn (fun i => 11 / 5 * e' + 3 * u24 * (W (k0 + i)%nat * ln (1 + B2R (nth i l f0))) + 80 * tiny) (length l)).
  { intros k0 l. revert k0. induction l as [|x l IH]; intros k0 F; cbv zeta.
    - cbn. split; [constructor|]. split; [lia|]. rewrite Rminus_0_r, Rabs_R0. lra.
    - inversion F as [|? ? Fx Fr]; subst. destruct (IH (S k0) Fr) as (I1 & I2 & I3). cbv zeta in *. cbn [length seq combine flat_map].
      destruct (terms_val lnf e edges m k0 x n A He Fx Hn Hedge) as (T1 & T2 & T3). fold (W k0) in T3. fold e' in T3. cbv zeta in T3.
      split; [apply Forall_app; auto|]. split; [rewrite app_length; lia|]. rewrite Rsum_app, !sumn_shift. cbn [nth]. rewrite Nat.add_0_r.
      assert (X1 : forall f g : nat -> R, (forall i, f i = g i) -> sumn f (length l) = sumn g (length l)) by (intros; now apply sumn_ext).
      rewrite (X1 (fun i => W (k0 + S i)%nat * ln (1 + B2R (nth i l f0))) (fun i => W (S k0 + i)%nat * ln (1 + B2R (nth i l f0)))) by (intros; now rewrite Nat.add_succ_comm).
      rewrite (X1 (fun i => 11 / 5 * e' + 3 * u24 * (W (k0 + S i)%nat * ln (1 + B2R (nth i l f0))) + 80 * tiny) (fun i => 11 / 5 * e' + 3 * u24 * (W (S k0 + i)%nat * ln (1 + B2R (nth i l f0))) + 80 * tiny)) by (intros; now rewrite Nat.add_succ_comm).
      apply Rabs_le_inv in I3. apply Rabs_le_inv in T3. apply Rabs_le. lra. }
  specialize (G 0%nat fr H). cbv zeta in G. fold n in G. set (T := flat_map _ _) in *. destruct G as (G1 & G2 & G3).
  pose proof (upto_sum 5 T ltac:(lia) G1) as Us. change (5 + 25)%Z with 30%Z in Us. split; [exact Us|].
  rewrite !sumn_plus, !sumn_const in G3.
  assert (EM : sumn (fun i => W (0 + i)%nat * ln (1 + B2R (nth i fr f0))) n = mel_level edges fr m) by (apply sumn_ext; reflexivity).
  rewrite sumn_scal in G3. rewrite EM in G3. pose proof (mel_level_nonneg edges fr m H) as M0. set (M := mel_level edges fr m) in *.
  assert (S := sum_near T (fun i => B2R (nth i T f0)) 0 0). cbv zeta in S.
  assert (F5 : Forall (fun x => nneg x) T) by (eapply Forall_impl; [|exact G1]; intros x; apply upto_nneg).
  specialize (S F5 ltac:(apply Us) ltac:(lia) ltac:(lra) ltac:(lra)). rewrite <- Rsum_sumn in S.
  assert (S' : Rabs (B2R (fsum T) - Rsum T) <= (0 + INR (length T) / 6000000) * Rsum T + 2 * (INR (length T) * 0)).
  { apply S. intros i Hi. split; [|rewrite Rminus_eq_0, Rabs_R0; lra]. rewrite Forall_forall in G1. apply (G1 (nth i T f0)). now apply nth_In. } clear S.
  assert (R0 : 0 <= Rsum T) by (now apply Rsum_nonneg).
  assert (LT : INR (length T) <= 2 * INR n) by (replace (2 * INR n) with (INR (2 * n)) by (rewrite mult_INR; cbn; ring); now apply le_INR).
  assert (Nn : 1 <= INR n) by (apply (le_INR 1); exact N1). assert (Nb : INR n <= 524288) by (rewrite INR_IZR_INZ; now apply IZR_le).
  assert (TT : tiny <= / 1000 * e'). { unfold e', u24. apply Rle_trans with (bpow radix2 (-40)); [apply bpow_le; lia|]. change (bpow radix2 (-40)) with (/ 1099511627776). lra. }
  pose proof tiny_pos as TP. assert (e0 : 0 <= e') by lra. pose proof (pos_INR (length T)) as T0.
  set (N := INR n) in *. set (K := INR (length T)) in *. set (q := B2R (fsum T)) in *. set (s := Rsum T) in *. clearbody N K q s M e'. clear - S' G3 LT Nn Nb TT TP e0 T0 R0 M0.
  assert (Ks : K * s <= 2 * N * s) by (apply Rmult_le_compat_r; auto). assert (NE : 0 <= N * e') by nra. assert (NT : N * tiny <= / 1000 * (N * e')) by nra.
  apply Rabs_le_inv in S'. apply Rabs_le_inv in G3. unfold u24 in *.
  assert (B1 : s <= M + 12 / 5 * (N * e') + 3 * / 16777216 * M) by lra.
  assert (B2 : K / 6000000 * s <= N / 3000000 * M + / 5 * (12 / 5 * (N * e') + 3 * / 16777216 * M)).
  { apply Rle_trans with (N / 3000000 * s); [unfold Rdiv; nra|]. apply Rle_trans with (N / 3000000 * (M + (12 / 5 * (N * e') + 3 * / 16777216 * M))); [apply Rmult_le_compat_l; lra|].
    assert (N / 3000000 * (12 / 5 * (N * e') + 3 * / 16777216 * M) <= / 5 * (12 / 5 * (N * e') + 3 * / 16777216 * M)) by (apply Rmult_le_compat_r; lra). lra. }
  replace ((2 * N + 3) / 5000000 * M) with (N * M / 2500000 + 3 * M / 5000000) by (unfold Rdiv; field). replace (N / 3000000 * M) with (N * M / 3000000) in B2 by (unfold Rdiv; ring).
  assert (0 <= N * M) by nra. apply Rabs_le. split; lra.
Qed.
