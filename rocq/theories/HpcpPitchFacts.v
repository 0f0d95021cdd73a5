(** The quantities of the harmonic pitch class profile over the reals. *)
From Coq Require Import ZArith Reals Lra Lia List.
From Flocq Require Import Core IEEE754.BinarySingleNaN.
From Verif Require Import Rust F32 F32Facts F32More ListFacts Bounds FloatSums Libm Chroma ChromaProofs
  FourierFacts TempoSpectrumFacts AutocorrelationValueProofs OnsetStrengthFacts TimeSignatureScoreFacts ChromaPitchFacts ChromaSpreadFacts.
From Verif Require BayesianLikelihoodProps TempoLagProps.
Import ListNotations.
Local Open Scope R_scope.

(** ** Frequency of a harmonic *)
Lemma harm_freq : forall k h rate fft, (k <= fft)%nat -> (1 <= h <= 16)%nat -> (1000 <= Z.of_nat rate <= 200000)%Z -> (1 <= Z.of_nat fft <= 65536)%Z ->
  let f := INR k * (INR rate / INR fft) * INR h in
  let ff := fmul (fmul (n2f k) (fdiv (n2f rate) (n2f fft))) (n2f h) in
  fin ff /\ 0 <= f /\ Rabs (B2R ff - f) <= / 4900000 * f.
Proof.
  intros k h rate fft K Hh Hr Hf f ff. destruct (freq_val k rate fft K Hr Hf) as (F & E).
  set (b := INR k * (INR rate / INR fft)) in *. set (bf := fmul (n2f k) _) in *.
  assert (Br : 1000 <= INR rate <= 200000) by (rewrite INR_IZR_INZ; split; apply IZR_le; lia).
  assert (Bf : 1 <= INR fft <= 65536) by (rewrite INR_IZR_INZ; split; apply IZR_le; lia).
  assert (Bk : INR k <= INR fft) by (apply le_INR; exact K).
  assert (Q : / 66 <= INR rate / INR fft <= 200000).
  { split; apply Rmult_le_reg_r with (INR fft); try lra; replace (INR rate / INR fft * INR fft) with (INR rate) by (field; lra); lra. }
  assert (B0 : 0 <= b <= 65536 * 200000) by (split; [apply Rmult_le_pos; [apply pos_INR|lra]|apply Rmult_le_compat; try lra; apply pos_INR]).
  destruct (n2f_INR h ltac:(lia)) as (Fh & Vh). assert (Bh : 1 <= INR h <= 16) by (split; [apply (le_INR 1); lia|rewrite INR_IZR_INZ; apply IZR_le; lia]).
  apply Rabs_le_inv in E. unfold ff, f. destruct (fmul_fx bf (n2f h) F Fh) as (N & X). rewrite Vh in X.
  assert (P : 0 <= B2R bf * INR h <= 65536 * 200001 * 16) by (split; [apply Rmult_le_pos; lra|apply Rmult_le_compat; lra]).
  destruct (fin_of_rnd_big _ _ N X ltac:(rewrite Rabs_pos_eq; lra)) as (Fm & Vm). split; [exact Fm|]. split; [apply Rmult_le_pos; lra|]. rewrite Vm.
  destruct (Nat.eq_dec k 0) as [K0 | K0].
  - assert (Z : b = 0) by (unfold b; rewrite K0; change (INR 0) with 0; ring). assert (Zf : B2R bf = 0) by lra. rewrite Zf, Z, !Rmult_0_l, rnd_0, Rminus_0_r, Rabs_R0. lra.
  - assert (Bk1 : 1 <= INR k) by (apply (le_INR 1); lia).
    assert (B1 : / 66 <= b). { unfold b. replace (/ 66) with (1 * / 66) by ring. apply Rmult_le_compat; lra. }
    assert (G1 : (b * (1 - / 7000000)) * INR h <= B2R bf * INR h <= (b * (1 + / 7000000)) * INR h) by (split; apply Rmult_le_compat_r; lra).
    assert (G2 : b * 1 <= b * INR h) by (apply Rmult_le_compat_l; lra).
    pose proof (TempoLagProps.rnd_rel (B2R bf * INR h)) as R2. set (m := B2R bf * INR h) in *. clearbody m.
    replace (b * (1 - / 7000000) * INR h) with (b * INR h * (1 - / 7000000)) in G1 by ring. replace (b * (1 + / 7000000) * INR h) with (b * INR h * (1 + / 7000000)) in G1 by ring.
    set (y := b * INR h) in *. clearbody y.
    specialize (R2 ltac:(apply Rle_trans with (bpow radix2 (-8)); [apply bpow_le; lia|simpl; lra])). apply Rabs_le_inv in R2. apply Rabs_le. split; lra.
Qed.

Lemma pitch_val' : forall L ff f t, log2_accurate (m_log2 L) (/ 1048576) -> fin ff -> fin t -> 99 <= f <= 5001 ->
  Rabs (B2R ff - f) <= / 4900000 * f -> Rabs (B2R t) <= 1 ->
  let s := semitone L t ff in
  fin s /\ Rabs (B2R s - (12 * lg (f / 440) + 57 - B2R t)) <= / 20000.
Proof.
  intros L ff f t HL Ff Ft Hf Hff Ht s. apply Rabs_le_inv in Hff. apply Rabs_le_inv in Ht.
  destruct (z2f_exact 440 ltac:(lia)) as (Fa & Va). destruct (z2f_exact 57 ltac:(lia)) as (Fb & Vb). destruct f12_val as (Fc & Vc).
  unfold s, semitone, a4.
  destruct (fdiv_fx ff (z2f 440) Ff Fa ltac:(rewrite Va; lra)) as (N1 & E1). rewrite Va in E1.
  set (x := B2R ff / 440) in *. assert (Hx : 22 / 100 <= x <= 12) by (unfold x; lra).
  destruct (fin_of_rnd_big _ _ N1 E1 ltac:(rewrite Rabs_pos_eq; lra)) as (F1 & V1).
  pose proof (TempoLagProps.rnd_rel x ltac:(apply Rle_trans with (bpow radix2 (-3)); [apply bpow_le; lia|simpl; lra])) as R1.
  rewrite <- V1 in R1. set (d := fdiv ff (z2f 440)) in *. apply Rabs_le_inv in R1.
  destruct (HL d F1 ltac:(lra)) as (Fl & El).
  assert (EL : Rabs (lg (B2R d) - lg (f / 440)) <= 3 * (/ 3700000)).
  { apply lg_near; [lra|lra|]. unfold x in R1. apply Rabs_le. split; lra. }
  pose proof (lg_range (f / 440) ltac:(lra)) as Lr. set (l := lg (f / 440)) in *. clearbody l.
  set (ld := m_log2 L d) in *. apply Rabs_le_inv in El. apply Rabs_le_inv in EL.
  assert (Wl : Rabs (B2R ld - l) <= 18 / 10000000) by (apply Rabs_le; lra). clear El EL. apply Rabs_le_inv in Wl.
  destruct (fmul_fx (z2f 12) ld Fc Fl) as (N2 & E2). rewrite Vc in E2.
  assert (H2 : Rabs (12 * B2R ld) <= 49) by (apply Rabs_le; lra).
  destruct (fin_of_rnd_big _ _ N2 E2 ltac:(lra)) as (F2 & V2). pose proof (rnd_abs _ 49 H2 ltac:(lra)) as R2. rewrite <- V2 in R2.
  set (m := fmul (z2f 12) ld) in *. apply Rabs_le_inv in R2.
  destruct (fadd_fx m (z2f 57) F2 Fb) as (N3 & E3). rewrite Vb in E3.
  assert (H3 : Rabs (B2R m + 57) <= 107) by (apply Rabs_le; lra).
  destruct (fin_of_rnd_big _ _ N3 E3 ltac:(lra)) as (F3 & V3). pose proof (rnd_abs _ 107 H3 ltac:(lra)) as R3. rewrite <- V3 in R3.
  set (a := fadd m (z2f 57)) in *. apply Rabs_le_inv in R3.
  destruct (fsub_fx a t F3 Ft) as (N4 & E4).
  assert (H4 : Rabs (B2R a - B2R t) <= 109) by (apply Rabs_le; lra).
  destruct (fin_of_rnd_big _ _ N4 E4 ltac:(lra)) as (F4 & V4). pose proof (rnd_abs _ 109 H4 ltac:(lra)) as R4. rewrite <- V4 in R4.
  apply Rabs_le_inv in R4. split; [exact F4|]. apply Rabs_le. split; lra.
Qed.

(** ** Band of the profile: both limits belong to it *)
Lemma band_val : forall ff f rate, (1000 <= Z.of_nat rate <= 200000)%Z -> fin ff -> 0 <= f -> Rabs (B2R ff - f) <= / 4900000 * f ->
  let hi := fmin (z2f 5000) (fdiv (n2f rate) f2) in
  let used := fle (fmax (z2f 100) (z2f 20)) ff && fle ff hi in
  (100001 / 1000 <= f <= 2499999 / 500 -> f <= INR rate / 2 * (1 - / 1000000) -> used = true) /\
  (f <= 99999 / 1000 \/ 2500001 / 500 <= f \/ INR rate / 2 * (1 + / 1000000) <= f -> used = false) /\
  (used = true -> 99 <= f <= 5001).
Proof.
  intros ff f rate Hr Ff F0 H hi used. destruct (nyq_val rate Hr) as (Fn & Vn).
  destruct (z2f_exact 100 ltac:(lia)) as (F1 & V1). destruct (z2f_exact 5000 ltac:(lia)) as (F5 & V5). destruct (z2f_exact 20 ltac:(lia)) as (F2 & V2).
  assert (Br : 1000 <= INR rate <= 200000) by (rewrite INR_IZR_INZ; split; apply IZR_le; lia).
  destruct (BayesianLikelihoodProps.fmin_B2R (z2f 5000) _ F5 Fn) as (Fm & Vm). rewrite V5, Vn in Vm.
  destruct (fmax_B2R (z2f 100) (z2f 20) F1 F2) as (Fl & Vl). rewrite V1, V2, Rmax_left in Vl by lra.
  assert (U : used = Rle_bool 100 (B2R ff) && Rle_bool (B2R ff) (Rmin 5000 (INR rate / 2))).
  { unfold used, hi, fle. now rewrite !Bleb_correct, Vl, Vm by assumption. }
  rewrite U. clear U. apply Rabs_le_inv in H. assert (Pr : 500 <= INR rate / 2) by lra. set (r := INR rate / 2) in *. set (g := B2R ff) in *.
  split; [|split].
  - intros A B. assert (g <= 5000) by lra. assert (g < r) by lra. assert (100 <= g) by lra.
    rewrite !Rle_bool_true; auto. apply Rmin_glb; lra.
  - intros [A | [A | A]].
    + rewrite Rle_bool_false by lra. reflexivity.
    + rewrite (Rle_bool_false g); [now rewrite andb_false_r|]. eapply Rle_lt_trans; [apply Rmin_l|]. lra.
    + rewrite (Rle_bool_false g); [now rewrite andb_false_r|]. eapply Rle_lt_trans; [apply Rmin_r|]. lra.
  - intros A. apply andb_true_iff in A. destruct A as (A & B).
    destruct (Rle_bool_spec 100 g); [|discriminate]. destruct (Rle_bool_spec g (Rmin 5000 r)) as [C|]; [|discriminate].
    pose proof (Rmin_l 5000 r). lra.
Qed.

(** ** Accuracy of the powers *)
Definition powf_accurate (f : f32 -> f32 -> f32) (e : R) : Prop := forall x p, fin x -> fin p -> 0 <= B2R x <= bpow radix2 30 -> 5 / 100 <= B2R p <= 1 ->
  fin (f x p) /\ Rabs (B2R (f x p) - pwr (B2R p) (B2R x)) <= e * pwr (B2R p) (B2R x) + bpow radix2 (-149).
Definition powi_accurate (f : f32 -> nat -> f32) (e : R) : Prop := forall d n, fin d -> 0 <= B2R d <= 1 -> (n <= 15)%nat ->
  fin (f d n) /\ 0 <= B2R (f d n) /\ Rabs (B2R (f d n) - B2R d ^ n) <= e * B2R d ^ n + bpow radix2 (-149).

Definition jot : R := bpow radix2 (-100).
Lemma jot_pos : 0 < jot. Proof. apply bpow_gt_0. Qed.

Lemma pwr_range : forall p x, 0 <= p <= 1 -> 0 <= x <= bpow radix2 30 -> 0 <= pwr p x <= bpow radix2 30.
Proof.
  intros p x Hp Hx. unfold pwr. destruct (Rle_dec x 0) as [N | N]; [split; [lra|apply bpow_ge_0]|].
  split; [left; apply exp_pos|]. assert (L : ln x <= 30 * ln 2).
  { rewrite <- (ln_bpow 30). destruct (proj2 Hx) as [Q | Q]; [left; apply ln_increasing; lra|rewrite Q; lra]. }
  pose proof ln2_ge as L2. rewrite <- (exp_ln (bpow radix2 30)) by apply bpow_gt_0. rewrite ln_bpow. unfold Rpower.
  assert (A : p * ln x <= 30 * ln 2).
  { destruct (Rle_or_lt (ln x) 0) as [Q | Q].
    - assert (p * ln x <= 0); [|lra]. replace 0 with (p * 0) by ring. apply Rmult_le_compat_l; lra.
    - apply Rle_trans with (1 * ln x); [apply Rmult_le_compat_r; lra|lra]. }
  destruct A as [A | A]; [left; now apply exp_increasing|rewrite A; lra].
Qed.

(** w * (decay^(h-1) / h) *)
Lemma part_val : forall L pw m p d h, powf_accurate (m_powf L) (/ 1048576) -> powi_accurate pw (/ 1048576) ->
  fin m -> 0 <= B2R m <= bpow radix2 30 -> fin p -> 5 / 100 <= B2R p <= 1 -> fin d -> 0 <= B2R d <= 1 -> (1 <= h <= 16)%nat ->
  let w := m_powf L (fmax m f0) p in
  let S := pwr (B2R p) (B2R m) in
  let C := B2R d ^ (h - 1) / INR h in
  let c := fdiv (pw d (h - 1)%nat) (n2f h) in
  let y := fmul w c in
  0 <= S <= bpow radix2 30 /\ 0 <= C <= 1 /\
  (fle w f0 = true -> S <= bpow radix2 (-140)) /\
  (fle w f0 = false -> fin y /\ 0 <= B2R y <= bpow radix2 31 /\ Rabs (B2R y - S * C) <= 3 / 1000000 * (S * C) + bpow radix2 (-106)).
Proof.
  intros L pw m p d h HP HI Fm Hm Fp Hp Fd Hd Hh w S C c y.
  assert (B149 : 0 < bpow radix2 (-149) <= bpow radix2 (-141)) by (split; [apply bpow_gt_0|apply bpow_le; lia]).
  assert (E140 : bpow radix2 (-140) = 2 * bpow radix2 (-141)) by (change (-140)%Z with (1 + -141)%Z; rewrite bpow_plus; reflexivity).
  assert (E110 : bpow radix2 (-106) = 34359738368 * bpow radix2 (-141)) by (change (-106)%Z with (35 + -141)%Z; rewrite bpow_plus; reflexivity).
  destruct (fmax0_val m Fm) as (Fx & Vx). rewrite Rmax_left in Vx by lra.
  destruct (HP (fmax m f0) p Fx Fp ltac:(rewrite Vx; exact Hm) Hp) as (Fw & Ew). rewrite Vx in Ew. fold w in Fw, Ew. fold S in Ew.
  assert (HS : 0 <= S <= bpow radix2 30) by (apply pwr_range; lra). split; [exact HS|].
  assert (Bh : 1 <= INR h <= 16) by (split; [apply (le_INR 1); lia|rewrite INR_IZR_INZ; apply IZR_le; lia]).
  assert (D0 : 0 <= B2R d ^ (h - 1) <= 1).
  { split; [apply pow_le; lra|]. rewrite <- (pow1 (h - 1)). apply pow_incr. lra. }
  assert (Ih : 0 < / INR h <= 1) by (split; [apply Rinv_0_lt_compat; lra|rewrite <- Rinv_1; apply Rinv_le_contravar; lra]).
  assert (HC : 0 <= C <= 1) by (unfold C, Rdiv; split; [apply Rmult_le_pos; lra|rewrite <- (Rmult_1_l 1); apply Rmult_le_compat; lra]).
  split; [exact HC|]. apply Rabs_le_inv in Ew.
  assert (Wz : fle w f0 = true -> B2R w <= 0).
  { intros Z. unfold fle in Z. rewrite Bleb_correct in Z by (auto; reflexivity). change (B2R f0) with 0 in Z. destruct (Rle_bool_spec (B2R w) 0); [assumption|discriminate]. }
  split; [intros Z; specialize (Wz Z); lra|]. intros Z.
  assert (W0 : 0 < B2R w).
  { unfold fle in Z. rewrite Bleb_correct in Z by (auto; reflexivity). change (B2R f0) with 0 in Z. destruct (Rle_bool_spec (B2R w) 0); [discriminate|assumption]. }
  destruct (HI d (h - 1)%nat Fd Hd ltac:(lia)) as (Fi & I0 & Ei). apply Rabs_le_inv in Ei.
  destruct (n2f_INR h ltac:(lia)) as (Fh & Vh).
  destruct (fdiv_fx (pw d (h - 1)%nat) (n2f h) Fi Fh ltac:(lra)) as (N1 & E1). rewrite Vh in E1. fold c in N1, E1.
  set (x := B2R (pw d (h - 1)%nat)) in *. set (D := B2R d ^ (h - 1)) in *.
  assert (B1 : bpow radix2 (-141) <= / 1000000) by (apply Rle_trans with (bpow radix2 (-20)); [apply bpow_le; lia|simpl; lra]).
  assert (Hx : 0 <= x / INR h <= 2). { unfold Rdiv. split; [apply Rmult_le_pos; lra|]. replace 2 with (2 * 1) by ring. apply Rmult_le_compat; lra. }
  destruct (fin_of_rnd_big _ _ N1 E1 ltac:(rewrite Rabs_pos_eq; lra)) as (Fc & Vc).
  pose proof (rnd_near (x / INR h)) as R1. rewrite <- Vc, (Rabs_pos_eq (x / INR h)) in R1 by lra. unfold u24 in R1. apply Rabs_le_inv in R1.
  assert (T : 0 < tiny <= bpow radix2 (-141)) by (split; [apply tiny_pos|apply bpow_le; lia]).
  assert (G : C * (1 - / 1048576) - bpow radix2 (-141) <= x / INR h <= C * (1 + / 1048576) + bpow radix2 (-141)).
  { unfold C, Rdiv. assert (D * (1 - / 1048576) - bpow radix2 (-149) <= x <= D * (1 + / 1048576) + bpow radix2 (-149)) as (A1 & A2) by lra.
    assert (A3 : bpow radix2 (-149) * / INR h <= bpow radix2 (-149) * 1) by (apply Rmult_le_compat_l; lra).
    split.
    - apply Rle_trans with ((D * (1 - / 1048576) - bpow radix2 (-149)) * / INR h); [lra|apply Rmult_le_compat_r; lra].
    - apply Rle_trans with ((D * (1 + / 1048576) + bpow radix2 (-149)) * / INR h); [apply Rmult_le_compat_r; lra|lra]. }
  set (t := x / INR h) in *. set (k := bpow radix2 (-141)) in *. clearbody t k.
  assert (Cc : C * (1 - 105 / 100000000) - 3 * k <= B2R c <= C * (1 + 105 / 100000000) + 3 * k) by lra.
  assert (C0 : 0 <= B2R c) by (rewrite Vc; apply rnd_nonneg; lra).
  destruct (fmul_fx w c Fw Fc) as (N2 & E2). fold y in N2, E2. change (bpow radix2 30) with 1073741824 in *.
  assert (Wb : B2R w <= 1073741824 * (1000001 / 1000000) + 1) by lra.
  assert (P2 : 0 <= B2R w * B2R c <= 1073741824 * (1000003 / 1000000) * (1000010 / 1000000)).
  { split; [apply Rmult_le_pos; lra|]. apply Rmult_le_compat; lra. }
  destruct (fin_of_rnd_big _ _ N2 E2 ltac:(rewrite Rabs_pos_eq; lra)) as (Fy & Vy). split; [exact Fy|].
  pose proof (rnd_near (B2R w * B2R c)) as R2. rewrite <- Vy, (Rabs_pos_eq (B2R w * B2R c)) in R2 by lra. unfold u24 in R2. apply Rabs_le_inv in R2.
  change (bpow radix2 31) with 2147483648. split; [split; [rewrite Vy; apply rnd_nonneg; lra|lra]|].
  assert (P3 : Rabs (B2R w * B2R c - S * C) <= 22 / 10000000 * (S * C) + 8000000000 * k).
  { replace (B2R w * B2R c - S * C) with ((B2R w - S) * B2R c + S * (B2R c - C)) by ring. eapply Rle_trans; [apply Rabs_triang|]. rewrite !Rabs_mult, (Rabs_pos_eq (B2R c)), (Rabs_pos_eq S) by lra.
    assert (A1 : Rabs (B2R w - S) <= / 1048576 * S + k) by (apply Rabs_le; lra).
    assert (A2 : Rabs (B2R c - C) <= 105 / 100000000 * C + 3 * k) by (apply Rabs_le; lra).
    assert (A3 : Rabs (B2R w - S) * B2R c <= (/ 1048576 * S + k) * (C * (1 + 105 / 100000000) + 3 * k)) by (apply Rmult_le_compat; try lra; apply Rabs_pos).
    assert (A4 : S * Rabs (B2R c - C) <= S * (105 / 100000000 * C + 3 * k)) by (apply Rmult_le_compat_l; lra).
    assert (Q1 : S * k <= 1073741824 * k) by (apply Rmult_le_compat_r; lra).
    assert (Q2 : k * C <= k * 1) by (apply Rmult_le_compat_l; lra).
    assert (Q3 : k * k <= k * 1) by (apply Rmult_le_compat_l; lra).
    assert (Q0 : 0 <= S * C) by (apply Rmult_le_pos; lra).
    replace ((/ 1048576 * S + k) * (C * (1 + 105 / 100000000) + 3 * k)) with
      (/ 1048576 * (1 + 105 / 100000000) * (S * C) + 3 * / 1048576 * (S * k) + (1 + 105 / 100000000) * (k * C) + 3 * (k * k)) in A3 by ring.
    replace (S * (105 / 100000000 * C + 3 * k)) with (105 / 100000000 * (S * C) + 3 * (S * k)) in A4 by ring. lra. }
  apply Rabs_le_inv in P3. set (v := S * C) in *. assert (V0 : 0 <= v) by (apply Rmult_le_pos; lra). clearbody v. rewrite E110. apply Rabs_le. split; lra.
Qed.

(** ** Sums over lists *)
Definition sum_over {A : Type} (f : A -> R) (l : list A) : R := fold_right (fun x s => f x + s) 0 l.
Lemma so_nil : forall A (f : A -> R), sum_over f [] = 0. Proof. reflexivity. Qed.
Lemma so_cons : forall A (f : A -> R) x l, sum_over f (x :: l) = f x + sum_over f l. Proof. reflexivity. Qed.
Lemma so_app : forall A (f : A -> R) l m, sum_over f (l ++ m) = sum_over f l + sum_over f m.
Proof. intros A f l m. induction l as [|x l IH]; cbn [app]; [rewrite so_nil; lra|]. rewrite !so_cons, IH. ring. Qed.
Lemma so_map : forall A B (f : B -> R) (g : A -> B) l, sum_over f (map g l) = sum_over (fun x => f (g x)) l.
Proof. intros A B f g l. induction l as [|x l IH]; [reflexivity|]. cbn [map]. now rewrite !so_cons, IH. Qed.
Lemma so_flat : forall A B (f : B -> R) (g : A -> list B) l, sum_over f (flat_map g l) = sum_over (fun x => sum_over f (g x)) l.
Proof. intros A B f g l. induction l as [|x l IH]; [reflexivity|]. cbn [flat_map]. now rewrite so_app, so_cons, IH. Qed.
Lemma so_ext : forall A (f g : A -> R) l, (forall x, In x l -> f x = g x) -> sum_over f l = sum_over g l.
Proof. intros A f g l H. induction l as [|x l IH]; [reflexivity|]. rewrite !so_cons, (H x), IH; [reflexivity| |now left]. intros y Hy. apply H. now right. Qed.
Lemma so_le : forall A (f g : A -> R) l, (forall x, In x l -> f x <= g x) -> sum_over f l <= sum_over g l.
Proof. intros A f g l H. induction l as [|x l IH]; [apply Rle_refl|]. rewrite !so_cons. apply Rplus_le_compat; [apply H; now left|]. apply IH. intros y Hy. apply H. now right. Qed.
Lemma so_plus : forall A (f g : A -> R) l, sum_over (fun x => f x + g x) l = sum_over f l + sum_over g l.
Proof. intros A f g l. induction l as [|x l IH]; [rewrite !so_nil; lra|]. rewrite !so_cons, IH. ring. Qed.
Lemma so_scal : forall A c (f : A -> R) l, sum_over (fun x => c * f x) l = c * sum_over f l.
Proof. intros A c f l. induction l as [|x l IH]; [rewrite !so_nil; lra|]. rewrite !so_cons, IH. ring. Qed.
Lemma so_const : forall A c (l : list A), sum_over (fun _ => c) l = INR (length l) * c.
Proof. intros A c l. induction l as [|x l IH]; [cbn; lra|]. cbn [length]. rewrite S_INR, so_cons, IH. ring. Qed.
Lemma so_nonneg : forall A (f : A -> R) l, (forall x, In x l -> 0 <= f x) -> 0 <= sum_over f l.
Proof. intros A f l H. induction l as [|x l IH]; [apply Rle_refl|]. rewrite so_cons. apply Rplus_le_le_0_compat; [apply H; now left|]. apply IH. intros y Hy. apply H. now right. Qed.
Lemma so_diff : forall A (f g e : A -> R) l, (forall x, In x l -> Rabs (f x - g x) <= e x) -> Rabs (sum_over f l - sum_over g l) <= sum_over e l.
Proof.
  intros A f g e l H. induction l as [|x l IH]; [rewrite !so_nil, Rminus_0_r, Rabs_R0; lra|]. rewrite !so_cons.
  replace (f x + _ - _) with ((f x - g x) + (sum_over f l - sum_over g l)) by ring. eapply Rle_trans; [apply Rabs_triang|].
  apply Rplus_le_compat; [apply H; now left|]. apply IH. intros y Hy. apply H. now right.
Qed.
Lemma so_filter : forall A (p : A -> bool) (f : A -> R) l, sum_over f (filter p l) = sum_over (fun x => if p x then f x else 0) l.
Proof. intros A p f l. induction l as [|x l IH]; [reflexivity|]. cbn [filter]. destruct (p x) eqn:E; rewrite !so_cons, E, IH; [reflexivity|lra]. Qed.
Lemma so_sumn : forall A (f : nat -> A -> R) n l, sumn (fun j => sum_over (f j) l) n = sum_over (fun x => sumn (fun j => f j x) n) l.
Proof.
  intros A f n l. induction l as [|x l IH]; [rewrite so_nil; apply sumn_0|]. rewrite so_cons, <- IH, <- sumn_plus. apply sumn_ext. intros j _. apply so_cons.
Qed.

Lemma so_nth : forall l : list f32, sumn (fun i => B2R (nth i l f0)) (length l) = sum_over (fun x : f32 => B2R x) l.
Proof.
  intros l. rewrite <- (rev_involutive l). induction (rev l) as [|x m IH]; [reflexivity|]. cbn [rev]. rewrite so_app, <- IH, app_length. cbn [length].
  rewrite Nat.add_1_r. cbn [sumn]. rewrite so_cons, so_nil, Rplus_0_r. f_equal.
  - apply sumn_ext. intros i Hi. now rewrite app_nth1.
  - now rewrite app_nth2, Nat.sub_diag by lia.
Qed.

Lemma list_sum_val : forall A (p : A -> bool) (g : A -> f32) l k, (Z.of_nat (length l) <= 1048576)%Z -> (-149 <= k <= 100)%Z ->
  (forall x, In x l -> p x = true -> nneg (g x) /\ within k (g x)) ->
  let s := fold_left fadd (map g (filter p l)) f0 in
  let S0 := sum_over (fun x => if p x then B2R (g x) else 0) l in
  fin s /\ nneg s /\ 0 <= S0 /\ Rabs (B2R s - S0) <= INR (length l) / 6000000 * S0.
Proof.
  intros A p g l k Hn Hk H s S0. set (m := map g (filter p l)) in *.
  assert (I0 : forall x, In x (filter p l) -> nneg (g x) /\ within k (g x)). { intros x Hx. apply filter_In in Hx. now apply H. }
  assert (Nn : Forall (fun x => nneg x) m) by (apply Forall_map, Forall_forall; intros x Hx; now apply I0).
  assert (Ww : Forall (within k) m) by (apply Forall_map, Forall_forall; intros x Hx; now apply I0).
  assert (Lm : (length m <= length l)%nat).
  { unfold m. rewrite map_length. clear. induction l as [|x l IH]; [apply le_n|]. cbn. destruct (p x); cbn; lia. }
  assert (Fs : fin (fsum m)) by (apply (sum_fin k); [lia|exact Ww]).
  split; [exact Fs|]. split; [now apply fsum_nneg|].
  assert (E0 : S0 = sum_over (fun x : f32 => B2R x) m) by (unfold S0, m; now rewrite so_map, so_filter).
  assert (P0 : 0 <= S0). { rewrite E0. apply so_nonneg. intros x Hx. rewrite Forall_forall in Nn. now apply nneg_B2R, Nn. }
  split; [exact P0|].
  pose proof (sum_near m (fun i => B2R (nth i m f0)) 0 0 Nn Fs ltac:(lia) ltac:(lra) (Rle_refl 0)) as B. cbv zeta in B.
  rewrite so_nth, <- E0 in B. eapply Rle_trans; [apply B|].
  - intros i Hi. rewrite Forall_forall in Nn. split; [apply nneg_B2R, Nn; now apply nth_In|]. rewrite Rminus_diag_eq, Rabs_R0 by reflexivity. lra.
  - apply le_INR in Lm. assert (INR (length m) / 6000000 * S0 <= INR (length l) / 6000000 * S0) by (apply Rmult_le_compat_r; lra). lra.
Qed.

Definition pairs (top : list nat) (H : nat) : list (nat * nat) := flat_map (fun b => map (pair b) (seq 1 H)) top.
Lemma pairs_filter : forall (w : nat -> bool) (u p : nat * nat -> bool) top H,
  filter p (flat_map (fun b => map (pair b) (filter (fun h => u (b, h)) (seq 1 H))) (filter w top)) = filter (fun x => w (fst x) && u x && p x) (pairs top H).
Proof.
  intros w u p top H. unfold pairs. induction top as [|b top IH]; [reflexivity|]. cbn [filter flat_map]. rewrite filter_app, <- IH. clear IH.
  destruct (w b) eqn:E; cbn [flat_map].
  - rewrite filter_app. f_equal. generalize (seq 1 H). intros l. induction l as [|h l IH]; [reflexivity|]. cbn [filter map fst]. rewrite E. cbn [andb].
    destruct (u (b, h)); cbn [andb map filter]; destruct (p (b, h)); now rewrite IH.
  - replace (filter _ (map (pair b) (seq 1 H))) with (@nil (nat * nat)); [reflexivity|]. generalize (seq 1 H). intros l. induction l as [|h l IH]; [reflexivity|].
    cbn [map filter fst]. rewrite E. exact IH.
Qed.
Lemma pairs_in : forall top H b h, In (b, h) (pairs top H) -> In b top /\ (1 <= h <= H)%nat.
Proof.
  intros top H b h I. unfold pairs in I. apply in_flat_map in I. destruct I as (b' & B & I). apply in_map_iff in I. destruct I as (h' & E & I).
  injection E as -> ->. apply in_seq in I. split; [exact B|lia].
Qed.
Lemma pairs_length : forall top H, length (pairs top H) = (length top * H)%nat.
Proof. intros top H. unfold pairs. induction top as [|b top IH]; [reflexivity|]. cbn [flat_map length]. rewrite app_length, IH, map_length, seq_length. lia. Qed.
Lemma pairs_sum : forall (f : nat -> nat -> R) top H, sum_over (fun x => f (fst x) (snd x)) (pairs top H) = sum_over (fun b => sum_over (f b) (seq 1 H)) top.
Proof. intros f top H. unfold pairs. rewrite so_flat. apply so_ext. intros b _. now rewrite so_map. Qed.
