(** C89: the harmonic pitch class profile is the unit vector of what the strongest spectral peaks and their harmonics give
    to the twelve notes; a single tone gives its own note the largest value. *)
From Coq Require Import ZArith List Reals Lra Lia.
From Flocq Require Import Core IEEE754.BinarySingleNaN.
From Verif Require Import Rust F32 F32Facts F32More ListFacts Bounds FloatSums Libm Chroma ChromaProofs ChromaValueProofs ChromaProps KeyFeatures
  FourierFacts AutocorrelationValueProofs OnsetStrengthFacts ExactPlatform ChromaPitchFacts ChromaSpreadFacts ChromaPitchProps HpcpProps HpcpPitchFacts.
From Verif Require BayesianLikelihoodProps.
Import ListNotations.
Local Open Scope R_scope.

(** Weight of a peak of magnitude m. *)
Definition peak_weight (power m : R) : R := if Rle_dec m 0 then 0 else Rpower m power.
(** A spectral peak: above the bin below it and not below the bin above it. *)
Definition peak (mag : nat -> R) (n b : nat) : Prop := (1 <= b)%nat /\ (b + 1 < n)%nat /\ mag (b - 1)%nat < mag b /\ mag (b + 1)%nat <= mag b.
(** The [count] strongest of the peaks inside the band: all of them if there are no more. *)
Definition strongest_peaks (rate fft : nat) (mag : nat -> R) (n count : nat) (top : list nat) : Prop :=
  let eligible b := peak mag n b /\ inside rate (bin_freq rate fft b) = true in
  NoDup top /\ (forall b, In b top -> eligible b) /\ (length top <= count)%nat /\
  ((length top < count)%nat -> forall b, eligible b -> In b top) /\
  (forall b t, eligible b -> ~ In b top -> In t top -> mag b <= mag t).
(** Harmonic h of a peak, of weight decay^(h-1)/h, counts if it is inside the band. *)
Definition harmonic_part (rate fft : nat) (power decay : R) (mag : nat -> R) (b h : nat) : R :=
  if inside rate (INR h * bin_freq rate fft b) then peak_weight power (mag b) * (decay ^ (h - 1) / INR h) else 0.
(** What the peaks and their first H harmonics give to class j. *)
Definition harmonic_strength (rate fft : nat) (sigma tuning power decay : R) (mag : nat -> R) (H : nat) (top : list nat) (j : nat) : R :=
  sum_over (fun b => sum_over (fun h =>
    harmonic_part rate fft power decay mag b h * spread sigma (scale_pos tuning (INR h * bin_freq rate fft b)) j) (seq 1 H)) top.
(** A frequency away from the edges of the band and, inside the band, away from the quarter tones. *)
Definition apart (rate : nat) (tuning f : R) : Prop :=
  / 1000 <= Rabs (f - 100) /\ / 500 <= Rabs (f - 5000) /\ INR rate / 2 * / 1000000 <= Rabs (f - INR rate / 2) /\
  (inside rate f = true -> Rabs (scale_pos tuning f - IZR (note (scale_pos tuning f))) <= 4999 / 10000).

Lemma apart_used : forall rate tuning ff f, (1000 <= Z.of_nat rate <= 200000)%Z -> fin ff -> 0 <= f -> Rabs (B2R ff - f) <= / 4900000 * f ->
  apart rate tuning f ->
  fle (fmax (z2f 100) (z2f 20)) ff && fle ff (fmin (z2f 5000) (fdiv (n2f rate) f2)) = inside rate f.
Proof.
  intros rate tuning ff f Hr Ff F0 H (C1 & C2 & C3 & _). destruct (band_val ff f rate Hr Ff F0 H) as (A & B & _).
  assert (Br : 1000 <= INR rate <= 200000) by (rewrite INR_IZR_INZ; split; apply IZR_le; lia).
  assert (Pr : 500 <= INR rate / 2) by lra. unfold inside. set (r := INR rate / 2) in *. clearbody r.
  destruct (Rle_bool_spec 100 f) as [H1 | H1]; cbn [andb].
  2:{ apply B. left. rewrite Rabs_left in C1 by lra. lra. }
  destruct (Rle_bool_spec f 5000) as [H2 | H2]; cbn [andb].
  2:{ apply B. right. left. rewrite Rabs_pos_eq in C2 by lra. lra. }
  destruct (Rlt_bool_spec f r) as [H3 | H3].
  - rewrite Rabs_left in C3 by lra. rewrite Rabs_pos_eq in C1 by lra. rewrite Rabs_left1 in C2 by lra. apply A; lra.
  - apply B. right. right. rewrite Rabs_pos_eq in C3 by lra. lra.
Qed.

Lemma share_range : forall s q j o, / 2 <= s -> 0 <= share s q j o <= 1.
Proof.
  intros s q j o Hs. unfold share. destruct (_ =? _)%Z; [|lra]. split; [left; apply exp_pos|]. rewrite <- exp_0.
  set (y := (q - IZR (note q + o)) * (q - IZR (note q + o))). assert (0 <= y) by apply Rle_0_sqr. set (T := 2 * s * s).
  assert (0 < T) by (unfold T; repeat apply Rmult_lt_0_compat; lra). assert (A : - y / T <= 0).
  { unfold Rdiv. assert (0 <= y * / T) by (apply Rmult_le_pos; [lra|left; now apply Rinv_0_lt_compat]). lra. }
  destruct A as [A | A]; [left; now apply exp_increasing|rewrite A; lra].
Qed.

Section Frame.
Context (L : libm) (P : key_platform) (rate fft : nat) (tuning sigma power decay : f32) (frame : list f32) (H : nat).
Context (HP : powf_accurate (m_powf L) (/ 1048576)) (HI : powi_accurate (p_powi P) (/ 1048576)).
Context (HG : log2_accurate (m_log2 L) (/ 1048576)) (HX : BayesianLikelihoodProps.exp_accurate (m_exp L) (/ 1048576)).
Context (Hr : (1000 <= Z.of_nat rate <= 200000)%Z) (Hf : (1 <= Z.of_nat fft <= 65536)%Z) (Hn : (length frame <= fft)%nat).
Context (Ft : fin tuning) (Ht : Rabs (B2R tuning) <= 1) (Fg : fin sigma) (Hg : / 2 <= B2R sigma <= 4).
Context (Fp : fin power) (Hp : 5 / 100 <= B2R power <= 1) (Fd : fin decay) (Hd : 0 <= B2R decay <= 1) (HH : (1 <= H <= 16)%nat).
Context (Hm : Forall (fun m => fin m /\ 0 <= B2R m <= 1073741824) frame).

Let mag b := B2R (nth b frame f0).
Let lo := fmax (z2f 100) (z2f 20).
Let hi := fmin (z2f 5000) (fdiv (n2f rate) f2).
Let ff b h := fmul (fmul (n2f b) (fdiv (n2f rate) (n2f fft))) (n2f h).
Let used b h := fle lo (ff b h) && fle (ff b h) hi.
Let freq b h := INR h * bin_freq rate fft b.
Let pos_of b h := scale_pos (B2R tuning) (freq b h).

Lemma mag_val : forall b, fin (nth b frame f0) /\ 0 <= mag b <= bpow radix2 30.
Proof.
  intros b. unfold mag. destruct (Nat.lt_ge_cases b (length frame)) as [Q | Q].
  - apply (proj1 (Forall_forall _ _) Hm). now apply nth_In.
  - rewrite nth_overflow by exact Q. split; [reflexivity|]. change (B2R f0) with 0. split; [lra|apply bpow_ge_0].
Qed.

Lemma ff_val : forall b h, (b < length frame)%nat -> (1 <= h <= 16)%nat -> fin (ff b h) /\ 0 <= freq b h /\ Rabs (B2R (ff b h) - freq b h) <= / 4900000 * freq b h.
Proof.
  intros b h Hb Hh. destruct (harm_freq b h rate fft ltac:(lia) Hh Hr Hf) as (A & B & C).
  replace (freq b h) with (INR b * (INR rate / INR fft) * INR h) by (unfold freq, bin_freq, Rdiv; ring). auto.
Qed.

Let sg := fmax sigma (lit 8796093 (-43)).
Let pc b h := frem_euclid (semitone L tuning (ff b h)) (z2f 12).
Let nearest b h := f2i32 (frem_euclid (fround (pc b h)) (z2f 12)).

Lemma pc_val : forall b h, (b < length frame)%nat -> (1 <= h <= 16)%nat -> used b h = true ->
  let q := pos_of b h in let s := semitone L tuning (ff b h) in
  fin s /\ Rabs (B2R s - q) <= / 20000 /\ fin (pc b h) /\ 0 <= B2R (pc b h) < 12 /\ (exists i, B2R s = B2R (pc b h) + 12 * IZR i).
Proof.
  intros b h Hb Hh U q s. destruct (ff_val b h Hb Hh) as (F & F0 & E). destruct (band_val (ff b h) _ rate Hr F F0 E) as (_ & _ & R). specialize (R U).
  destruct (pitch_val' L (ff b h) _ tuning HG F Ft R E Ht) as (Fs & Vs). fold s in Fs, Vs. unfold lg in Vs. fold (scale_pos (B2R tuning) (freq b h)) in Vs. fold (pos_of b h) in Vs. fold q in Vs.
  split; [exact Fs|]. split; [exact Vs|].
  pose proof (lg_range (freq b h / 440) ltac:(lra)) as Lr. unfold lg in Lr.
  assert (S0 : 0 <= B2R s). { apply Rabs_le_inv in Vs. pose proof (Rabs_le_inv _ _ Ht) as Ht'. unfold q, pos_of, scale_pos in Vs. lra. }
  exact (frem_euclid_val s Fs S0).
Qed.

Lemma nearest_val : forall b h, (b < length frame)%nat -> (1 <= h <= 16)%nat -> apart rate (B2R tuning) (freq b h) -> used b h = true ->
  nearest b h = (note (pos_of b h) mod 12)%Z.
Proof.
  intros b h Hb Hh A U. destruct (pc_val b h Hb Hh U) as (Fs & Vs & Fc & Rp & (i & Ei)). destruct (ff_val b h Hb Hh) as (F & F0 & E).
  pose proof (apart_used rate (B2R tuning) (ff b h) _ Hr F F0 E A) as UI. change (used b h = inside rate (freq b h)) in UI.
  destruct A as (_ & _ & _ & C). rewrite <- UI in C. specialize (C U). fold (pos_of b h) in C.
  set (q := pos_of b h) in *. set (p := note q) in *. set (s := semitone L tuning (ff b h)) in *.
  apply Rabs_le_inv in Vs. apply Rabs_le_inv in C. destruct (fround_spec (pc b h) Fc) as (Fr & Vr).
  assert (Z1 : ZnearestA (B2R (pc b h)) = (p - 12 * i)%Z).
  { apply Znearest_imp. rewrite minus_IZR, mult_IZR. apply Rabs_lt. lra. }
  rewrite Z1 in Vr. assert (P0 : (0 <= p - 12 * i)%Z).
  { assert (-1 < p - 12 * i)%Z; [|lia]. apply lt_IZR. rewrite minus_IZR, mult_IZR. lra. }
  destruct (frem_euclid_val (fround (pc b h)) Fr ltac:(rewrite Vr; now apply IZR_le)) as (Fe & Re & (i' & Ei')). rewrite Vr in Ei'.
  set (r := frem_euclid (fround (pc b h)) (z2f 12)) in *.
  assert (Vz : B2R r = IZR (p - 12 * i - 12 * i')) by (rewrite (minus_IZR (p - 12 * i)), mult_IZR; lra).
  rewrite Vz in Re. assert (0 <= p - 12 * i - 12 * i' < 12)%Z by (split; [apply le_IZR|apply lt_IZR]; lra).
  unfold nearest. fold r. unfold f2i32. rewrite f2int_fin, Vz, Ztrunc_IZR by exact Fe.
  replace (p mod 12)%Z with (p - 12 * i - 12 * i')%Z; [lia|]. apply (Z.mod_unique_pos p 12 (i + i')); lia.
Qed.

Let w b := m_powf L (fmax (nth b frame f0) f0) power.
Let y b h := fmul (w b) (fdiv (p_powi P decay (h - 1)) (n2f h)).
Let pk j b h := negb (fle (w b) f0) && used b h && existsb (fun o => ((nearest b h + o) mod 12 =? Z.of_nat j)%Z) [-1; 0; 1]%Z.
Let gk j b h := fmul (y b h) (soft_weight L sg (pc b h) (Z.of_nat j)).
Let S0 b h := harmonic_part rate fft (B2R power) (B2R decay) mag b h.

Lemma gk_val : forall j b h, (j < 12)%nat -> (b < length frame)%nat -> (1 <= h <= 16)%nat -> used b h = true -> fle (w b) f0 = false ->
  let sw := soft_weight L sg (pc b h) (Z.of_nat j) in
  nneg (gk j b h) /\ within 33 (gk j b h) /\ Rabs (B2R (gk j b h) - B2R (y b h) * B2R sw) <= / 16777216 * (B2R (y b h) * B2R sw) + tiny.
Proof.
  intros j b h Hj Hb Hh U Z sw. destruct (pc_val b h Hb Hh U) as (_ & _ & Fc & Rp & _). destruct (sg_val sigma Fg Hg) as (Fsg & Vsg). fold sg in Fsg, Vsg.
  destruct (weight_val L sg (pc b h) j HX Fsg ltac:(rewrite Vsg; exact Hg) Fc Rp Hj) as (Fw & Rw & _). fold sw in Fw, Rw.
  destruct (mag_val b) as (Fm & Bm).
  destruct (part_val L (p_powi P) (nth b frame f0) power decay h HP HI Fm Bm Fp Hp Fd Hd Hh) as (_ & _ & _ & Y). specialize (Y Z). fold (w b) in Y. fold (y b h) in Y.
  destruct Y as (Fy & By & _). change (bpow radix2 31) with 2147483648 in By.
  destruct (fmul_fx (y b h) sw Fy Fw) as (N & E). assert (Q : 0 <= B2R (y b h) * B2R sw <= 2147483648 * 2) by (split; [apply Rmult_le_pos; lra|apply Rmult_le_compat; lra]).
  destruct (fin_of_rnd_big _ _ N E ltac:(rewrite Rabs_pos_eq; lra)) as (F & V). change (fmul (y b h) sw) with (gk j b h) in F, V.
  pose proof (rnd_near (B2R (y b h) * B2R sw)) as R. rewrite (Rabs_pos_eq (B2R (y b h) * B2R sw)) in R by lra. rewrite <- V in R. unfold u24 in R.
  split; [apply nneg_iff; [now apply fin_nn|rewrite fx_fin, V by exact F; apply rnd_nonneg; lra]|]. split; [|exact R].
  split; [exact F|]. change (bpow radix2 33) with 8589934592. pose proof tiny_small as T. assert (bpow radix2 (-140) <= 1) by (apply (bpow_le radix2 (-140) 0); lia).
  apply Rabs_le_inv in R. apply Rabs_le. split; lra.
Qed.

Lemma part_share : forall j b h, (j < 12)%nat -> (b < length frame)%nat -> (1 <= h <= 16)%nat -> apart rate (B2R tuning) (freq b h) ->
  0 <= S0 b h <= bpow radix2 30 /\
  Rabs ((if pk j b h then B2R (gk j b h) else 0) - S0 b h * spread (B2R sigma) (pos_of b h) j) <= / 11000 * S0 b h + jot.
Proof.
  intros j b h Hj Hb Hh A. pose proof jot_pos as J0. destruct (mag_val b) as (Fm & Bm).
  destruct (part_val L (p_powi P) (nth b frame f0) power decay h HP HI Fm Bm Fp Hp Fd Hd Hh) as (HS & HC & Yz & Yn). fold (w b) in Yz, Yn. fold (y b h) in Yn.
  change (pwr (B2R power) (B2R (nth b frame f0))) with (peak_weight (B2R power) (mag b)) in *. set (S := peak_weight (B2R power) (mag b)) in *.
  set (C := B2R decay ^ (h - 1) / INR h) in *. change (bpow radix2 30) with 1073741824 in *.
  assert (HSC : 0 <= S * C <= 1073741824) by (split; [apply Rmult_le_pos; lra|rewrite <- (Rmult_1_r 1073741824); apply Rmult_le_compat; lra]).
  assert (ES : S0 b h = if inside rate (freq b h) then S * C else 0) by reflexivity. rewrite ES.
  split; [destruct (inside _ _); lra|].
  destruct (ff_val b h Hb Hh) as (F & F0 & E).
  pose proof (apart_used rate (B2R tuning) (ff b h) _ Hr F F0 E A) as UI. change (used b h = inside rate (freq b h)) in UI.
  unfold pk. rewrite <- UI. destruct (used b h) eqn:U; [|rewrite andb_false_r; cbn [andb]; rewrite Rmult_0_l, Rminus_0_r, Rabs_R0; lra].
  assert (SP : 0 <= spread (B2R sigma) (pos_of b h) j <= 3).
  { unfold spread. pose proof (share_range (B2R sigma) (pos_of b h) j (-1) ltac:(lra)). pose proof (share_range (B2R sigma) (pos_of b h) j 0 ltac:(lra)). pose proof (share_range (B2R sigma) (pos_of b h) j 1 ltac:(lra)). lra. }
  destruct (fle (w b) f0) eqn:Z; cbn [negb andb].
  { specialize (Yz eq_refl). rewrite Rminus_0_l, Rabs_Ropp, Rabs_pos_eq by (apply Rmult_le_pos; lra).
    assert (Q1 : S * C <= bpow radix2 (-140)) by (apply Rle_trans with (S * 1); [apply Rmult_le_compat_l; lra|lra]).
    assert (Q2 : S * C * spread (B2R sigma) (pos_of b h) j <= bpow radix2 (-140) * 3) by (apply Rmult_le_compat; lra).
    assert (Q3 : bpow radix2 (-140) * 3 <= jot). { unfold jot. change (-100)%Z with (40 + -140)%Z. rewrite bpow_plus. change (bpow radix2 40) with 1099511627776. pose proof (bpow_gt_0 radix2 (-140)). lra. }
    lra. }
  specialize (Yn eq_refl). destruct Yn as (Fy & By & Ey).
  rewrite (nearest_val b h Hb Hh A U). set (q := pos_of b h) in *.
  assert (Mt : forall o, ((note q mod 12 + o) mod 12 =? Z.of_nat j)%Z = ((note q + o) mod 12 =? Z.of_nat j)%Z) by (intros; now rewrite Z.add_mod_idemp_l by lia).
  cbn [existsb]. rewrite !Mt, orb_false_r.
  assert (Val : forall o, (-1 <= o <= 1)%Z -> ((note q + o) mod 12 =? Z.of_nat j)%Z = true ->
    Rabs (B2R (gk j b h) - S * C * share (B2R sigma) q j o) <= / 11000 * (S * C) + jot).
  { intros o Ho Eo. pose proof (share_range (B2R sigma) q j o ltac:(lra)) as W1. unfold share in *. rewrite Eo in *. apply Z.eqb_eq in Eo.
    destruct (pc_val b h Hb Hh U) as (Fs & Vs & Fc & Rp & (i & Ei)). fold q in Vs.
    pose proof A as (_ & _ & _ & Cl). rewrite <- UI in Cl. specialize (Cl eq_refl). fold (pos_of b h) in Cl. fold q in Cl.
    destruct (sg_val sigma Fg Hg) as (Fsg & Vsg). fold sg in Fsg, Vsg.
    destruct (weight_val L sg (pc b h) j HX Fsg ltac:(rewrite Vsg; exact Hg) Fc Rp Hj) as (_ & Rw & Vw). rewrite Vsg in Vw.
    set (s := B2R (semitone L tuning (ff b h))) in *.
    specialize (Vw (s - IZR (note q + o)) (q - IZR (note q + o)) ((note q + o) / 12 - i)%Z).
    pose proof (Z.div_mod (note q + o) 12 ltac:(lia)) as DM. rewrite Eo in DM. apply (f_equal IZR) in DM. rewrite (plus_IZR (12 * _)), mult_IZR in DM.
    rewrite <- INR_IZR_INZ in DM. rewrite minus_IZR in Vw.
    assert (Ro : -1 <= IZR o <= 1) by (split; apply IZR_le; lia). pose proof (plus_IZR (note q) o) as PO.
    apply Rabs_le_inv in Vs. apply Rabs_le_inv in Cl.
    specialize (Vw ltac:(lra) ltac:(apply Rabs_le; lra) ltac:(replace (s - IZR (note q + o) - (q - IZR (note q + o))) with (s - q) by ring; apply Rabs_le; lra)).
    destruct (gk_val j b h Hj Hb Hh U Z) as (_ & _ & G). set (x := B2R (soft_weight L sg (pc b h) (Z.of_nat j))) in *.
    set (c := B2R (y b h)) in *. set (W := exp _) in *. set (v := S * C) in *.
    clearbody x c W v. apply Rabs_le_inv in Ey.
    assert (J1 : 3 * bpow radix2 (-106) + tiny <= jot).
    { assert (tiny <= bpow radix2 (-106)) by (apply bpow_le; lia). unfold jot. change (-100)%Z with (6 + -106)%Z. rewrite bpow_plus. change (bpow radix2 6) with 64. pose proof (bpow_gt_0 radix2 (-106)). lra. }
    pose proof (bpow_gt_0 radix2 (-106)) as J2. set (k := bpow radix2 (-106)) in *. clearbody k. pose proof tiny_pos as T0.
    assert (D1 : Rabs (c * x - v * W) <= (3 / 1000000 * v + k) * (1000001 / 1000000) + v * (80 / 1000000)).
    { replace (c * x - v * W) with ((c - v) * x + v * (x - W)) by ring. eapply Rle_trans; [apply Rabs_triang|]. rewrite !Rabs_mult, (Rabs_pos_eq x), (Rabs_pos_eq v) by lra.
      apply Rplus_le_compat; [apply Rmult_le_compat; try lra; [apply Rabs_pos|apply Rabs_le; lra]|apply Rmult_le_compat_l; lra]. }
    assert (CW : 0 <= c * x <= (2 * v + k) * 2) by (split; [apply Rmult_le_pos; lra|apply Rmult_le_compat; lra]).
    apply Rabs_le_inv in D1. apply Rabs_le_inv in G. apply Rabs_le. split; lra. }
  assert (Un : forall o o', (-1 <= o <= 1)%Z -> (-1 <= o' <= 1)%Z -> ((note q + o) mod 12 =? Z.of_nat j)%Z = true -> ((note q + o') mod 12 =? Z.of_nat j)%Z = true -> o = o').
  { intros o o' H1 H2 X Y. apply Z.eqb_eq in X. apply Z.eqb_eq in Y. pose proof (Z.div_mod (note q + o) 12 ltac:(lia)). pose proof (Z.div_mod (note q + o') 12 ltac:(lia)). lia. }
  assert (Z0 : forall o, ((note q + o) mod 12 =? Z.of_nat j)%Z = false -> share (B2R sigma) q j o = 0) by (intros o X; unfold share; now rewrite X).
  unfold spread.
  destruct ((note q + -1) mod 12 =? Z.of_nat j)%Z eqn:A1; [|destruct ((note q + 0) mod 12 =? Z.of_nat j)%Z eqn:A2; [|destruct ((note q + 1) mod 12 =? Z.of_nat j)%Z eqn:A3]]; cbn [orb].
  + rewrite (Z0 0%Z), (Z0 1%Z).
    * rewrite !Rplus_0_r. apply (Val (-1)%Z); [lia|exact A1].
    * apply not_true_iff_false. intros B. assert (Q := fun a b => Un _ _ a b A1 B). specialize (Q ltac:(lia) ltac:(lia)). discriminate Q.
    * apply not_true_iff_false. intros B. assert (Q := fun a b => Un _ _ a b A1 B). specialize (Q ltac:(lia) ltac:(lia)). discriminate Q.
  + rewrite (Z0 (-1)%Z A1), (Z0 1%Z).
    * rewrite Rplus_0_l, Rplus_0_r. apply (Val 0%Z); [lia|exact A2].
    * apply not_true_iff_false. intros B. assert (Q := fun a b => Un _ _ a b A2 B). specialize (Q ltac:(lia) ltac:(lia)). discriminate Q.
  + rewrite (Z0 (-1)%Z A1), (Z0 0%Z A2), !Rplus_0_l. apply (Val 1%Z); [lia|exact A3].
  + rewrite (Z0 (-1)%Z A1), (Z0 0%Z A2), (Z0 1%Z A3), !Rplus_0_l, Rmult_0_r, Rminus_0_r, Rabs_R0. lra.
Qed.

Context (top : list nat) (Htop : forall b, In b top -> (b < length frame)%nat /\ forall h, (1 <= h <= H)%nat -> apart rate (B2R tuning) (freq b h)).
Context (Ltop : (length top <= 1000)%nat).
Let ps := pairs top H.
Let E j := harmonic_strength rate fft (B2R sigma) (B2R tuning) (B2R power) (B2R decay) mag H top j.
Let total := sum_over (fun x => S0 (fst x) (snd x)) ps.

Lemma ps_in : forall x, In x ps -> (fst x < length frame)%nat /\ (1 <= snd x <= 16)%nat /\ apart rate (B2R tuning) (freq (fst x) (snd x)).
Proof.
  intros (b, h) I. apply pairs_in in I. destruct I as (B & Hh). destruct (Htop b B) as (Q & A). cbn [fst snd]. split; [exact Q|]. split; [lia|]. now apply A.
Qed.
Lemma E_pairs : forall j, E j = sum_over (fun x => S0 (fst x) (snd x) * spread (B2R sigma) (pos_of (fst x) (snd x)) j) ps.
Proof. intros j. symmetry. apply (pairs_sum (fun b h => S0 b h * spread (B2R sigma) (pos_of b h) j)). Qed.
Lemma count_pairs : 0 <= INR (length ps) <= 16000 /\ INR (length ps) <= INR (length top) * INR H.
Proof.
  unfold ps. rewrite pairs_length. split; [|rewrite mult_INR; lra]. split; [apply pos_INR|]. rewrite INR_IZR_INZ. apply IZR_le. nia.
Qed.

Lemma energy_val : forall j, (j < 12)%nat ->
  let e := fold_left fadd (map (fun x => gk j (fst x) (snd x)) (filter (fun x => pk j (fst x) (snd x)) ps)) f0 in
  fin e /\ nneg e /\ 0 <= E j <= 3 * total /\ 0 <= total <= INR (length ps) * bpow radix2 30 /\
  Rabs (B2R e - E j) <= INR (length ps) / 6000000 * E j + 102 / 100 * (/ 11000 * total + INR (length ps) * jot).
Proof.
  intros j Hj e. destruct count_pairs as (In0 & _). set (n := INR (length ps)) in *.
  destruct (list_sum_val _ (fun x => pk j (fst x) (snd x)) (fun x => gk j (fst x) (snd x)) ps 33) as (Fe & Ne & S00 & Ee);
    [apply le_IZR; rewrite <- INR_IZR_INZ; fold n; lra|lia| |].
  { intros x Ix Q. unfold pk in Q. apply andb_true_iff in Q. destruct Q as (Q & _). apply andb_true_iff in Q. destruct Q as (Z & U). apply negb_true_iff in Z.
    destruct (ps_in x Ix) as (A & B & _). destruct (gk_val j (fst x) (snd x) Hj A B U Z) as (C & D & _). auto. }
  fold e in Fe, Ne, Ee. fold n in Ee. set (S1 := sum_over (fun x => if pk j (fst x) (snd x) then B2R (gk j (fst x) (snd x)) else 0) ps) in *.
  split; [exact Fe|]. split; [exact Ne|].
  assert (SB : forall x, In x ps -> 0 <= S0 (fst x) (snd x) <= bpow radix2 30).
  { intros x Ix. destruct (ps_in x Ix) as (A & B & C). apply (part_share 0 _ _ ltac:(lia) A B C). }
  assert (Tt : 0 <= total <= n * bpow radix2 30).
  { unfold total. split; [apply so_nonneg; intros x Ix; now apply SB|]. unfold n. rewrite <- so_const. apply so_le. intros x Ix. now apply SB. }
  assert (Sp : forall b h, 0 <= spread (B2R sigma) (pos_of b h) j <= 3).
  { intros b h. unfold spread. pose proof (share_range (B2R sigma) (pos_of b h) j (-1) ltac:(lra)). pose proof (share_range (B2R sigma) (pos_of b h) j 0 ltac:(lra)). pose proof (share_range (B2R sigma) (pos_of b h) j 1 ltac:(lra)). lra. }
  assert (E0 : 0 <= E j <= 3 * total).
  { rewrite E_pairs. unfold total. rewrite <- so_scal. split.
    - apply so_nonneg. intros x Ix. apply Rmult_le_pos; [now apply SB|apply Sp].
    - apply so_le. intros x Ix. rewrite Rmult_comm. apply Rmult_le_compat_r; [now apply SB|apply Sp]. }
  split; [exact E0|]. split; [exact Tt|].
  assert (D : Rabs (S1 - E j) <= / 11000 * total + n * jot).
  { rewrite E_pairs. unfold S1, total. unfold n. rewrite <- so_scal, <- so_const, <- so_plus. apply so_diff. intros x Ix.
    destruct (ps_in x Ix) as (A & B & C). apply (part_share j _ _ Hj A B C). }
  set (rho := n / 6000000) in *. assert (Hrho : 0 <= rho <= 3 / 1000) by (unfold rho; lra).
  set (dd := / 11000 * total + n * jot) in *. apply Rabs_le_inv in D. apply Rabs_le_inv in Ee.
  assert (RS : rho * S1 <= rho * (E j + dd)) by (apply Rmult_le_compat_l; lra).
  assert (D0 : 0 <= dd) by lra. assert (RD : rho * dd <= 11 / 1000 * dd) by (apply Rmult_le_compat_r; lra). clearbody rho dd S1. apply Rabs_le. split; lra.
Qed.

Lemma total_le : total <= 7 * length12 E.
Proof.
  assert (A : / 2 * total <= sumn E 12).
  { rewrite (sumn_ext E _ 12 (fun j _ => E_pairs j)). rewrite so_sumn. unfold total. rewrite <- so_scal. apply so_le. intros x Ix.
    destruct (ps_in x Ix) as (A1 & A2 & A3). destruct (part_share 0 _ _ ltac:(lia) A1 A2 A3) as (B & _). destruct x as (b, h). cbn [fst snd] in *.
    rewrite sumn_scal. destruct (inside rate (freq b h)) eqn:I.
    2:{ assert (Q : S0 b h = 0) by (unfold S0, harmonic_part; fold (freq b h); now rewrite I). rewrite Q. lra. }
    destruct A3 as (_ & _ & _ & C). specialize (C I). fold (pos_of b h) in C. set (q := pos_of b h) in *.
    rewrite (Rmult_comm (/ 2)). apply Rmult_le_compat_l; [lra|].
    set (j := Z.to_nat (note q mod 12)). pose proof (Z.mod_pos_bound (note q) 12 ltac:(lia)) as Mb. assert (Hj : (j < 12)%nat) by (unfold j; lia).
    assert (Sp : forall i, 0 <= share (B2R sigma) q i (-1) /\ 0 <= share (B2R sigma) q i 0 /\ 0 <= share (B2R sigma) q i 1) by (intros; repeat split; apply share_range; lra).
    eapply Rle_trans; [|apply (sumn_term (fun i => spread (B2R sigma) q i) 12 j); [intros i _; unfold spread; destruct (Sp i) as (? & ? & ?); lra|exact Hj]].
    cbv beta. unfold spread. destruct (Sp j) as (P1 & _ & P3). enough (/ 2 <= share (B2R sigma) q j 0) by lra. unfold share. rewrite Z.add_0_r.
    replace (note q mod 12 =? Z.of_nat j)%Z with true by (symmetry; apply Z.eqb_eq; unfold j; rewrite Z2Nat.id; lia).
    set (x := q - IZR (note q)) in *. set (T := 2 * B2R sigma * B2R sigma).
    assert (HT : / 2 <= T). { unfold T. assert (/ 2 * / 2 <= B2R sigma * B2R sigma) by (apply Rmult_le_compat; lra). lra. }
    assert (X2 : 0 <= x * x <= / 4). { split; [apply Rle_0_sqr|]. apply Rabs_le_inv in C. nra. }
    eapply Rle_trans; [|apply exp_ineq1_le]. assert (- / 2 <= - (x * x) / T); [|lra].
    apply Rmult_le_reg_r with T; [lra|]. replace (- (x * x) / T * T) with (- (x * x)) by (field; lra). lra. }
  assert (CS : sumn E 12 * sumn E 12 <= 12 * sumn (fun i => E i * E i) 12).
  { set (m := sumn E 12 / 12). pose proof (sumn_nonneg (fun i => (E i - m) * (E i - m)) 12 ltac:(intros; apply Rle_0_sqr)) as Q.
    rewrite (sumn_ext _ (fun i => E i * E i + (- (2 * m) * E i + m * m))) in Q by (intros; ring). rewrite !sumn_plus, sumn_scal, sumn_const in Q.
    replace (INR 12) with 12 in Q by (rewrite INR_IZR_INZ; reflexivity). unfold m in Q. lra. }
  unfold length12. set (v := sumn (fun i => E i * E i) 12) in *. set (x := sumn E 12) in *.
  assert (V0 : 0 <= v) by (apply sumn_nonneg; intros; apply Rle_0_sqr). assert (X : x <= 35 / 10 * sqrt v).
  { pose proof (sqrt_pos v) as P1. pose proof (sqrt_sqrt v V0) as Q. destruct (Rle_or_lt x (35 / 10 * sqrt v)) as [A1 | A1]; [exact A1|]. exfalso.
    assert ((35 / 10 * sqrt v) * (35 / 10 * sqrt v) < x * x \/ v = 0) as [B | B].
    { destruct (Req_dec v 0); [now right|left]. apply Rmult_le_0_lt_compat; lra. }
    - nra.
    - rewrite B, sqrt_0 in A1. nra. }
  lra.
Qed.

Lemma vector_val : / 1073741824 <= length12 E ->
  let c := divided_by_norm (map (fun j => fold_left fadd (map (fun x => gk j (fst x) (snd x)) (filter (fun x => pk j (fst x) (snd x)) ps)) f0) (seq 0 12)) in
  length c = 12%nat /\ forall j, (j < 12)%nat -> fin (nth j c f0) /\
    Rabs (B2R (nth j c f0) - E j / length12 E) <= INR (length top) * INR H / 2700000 + / 300.
Proof.
  intros HE. set (energy := fun j => fold_left fadd _ f0). pose proof total_le as TL. destruct count_pairs as (I & I2). set (n := INR (length ps)) in *.
  set (rho := n / 6000000).
  assert (En : forall j, (j < 12)%nat -> fin (energy j) /\ nneg (energy j) /\ 0 <= E j <= 3 * total /\ 0 <= total <= n * bpow radix2 30 /\
    Rabs (B2R (energy j) - E j) <= rho * E j + 102 / 100 * (/ 11000 * total + n * jot)) by exact energy_val.
  set (N := length12 E) in *.
  assert (NT : n * jot <= / 10000000 * N).
  { assert (T : jot <= bpow radix2 (-80)) by (apply bpow_le; lia). pose proof jot_pos.
    apply Rle_trans with (65536 * bpow radix2 (-80)); [apply Rmult_le_compat; lra|].
    apply Rle_trans with (/ 10000000 * / 1073741824); [|apply Rmult_le_compat_l; lra]. change 65536 with (bpow radix2 16). rewrite <- bpow_plus.
    change (bpow radix2 (16 + -80)) with (/ 18446744073709551616). lra. }
  assert (Nt : forall i, (i < 12)%nat -> nth i (map energy (seq 0 12)) f0 = energy i).
  { intros i Hi. rewrite (nth_indep _ f0 (energy 0%nat)) by (rewrite map_length, seq_length; exact Hi). rewrite map_nth, seq_nth by exact Hi. reflexivity. }
  destruct (unit_val (map energy (seq 0 12)) E rho (65 / 100000)) as (Lc & Hj).
  - now rewrite map_length, seq_length.
  - apply Forall_map, Forall_forall. intros i Hi. apply in_seq in Hi. destruct (En i ltac:(lia)) as (Fi & Ni & E0 & T0 & Ei). split; [exact Ni|]. split; [exact Fi|].
    change (bpow radix2 30) with 1073741824 in T0. change (bpow radix2 55) with 36028797018963968.
    assert (n * jot <= 1).
    { apply Rle_trans with (65536 * bpow radix2 (-80)); [apply Rmult_le_compat; try lra; [left; apply jot_pos|apply bpow_le; lia]|]. change (bpow radix2 (-80)) with (/ 1208925819614629174706176). lra. }
    apply Rabs_le_inv in Ei. assert (rho * E i <= 1 * E i) by (apply Rmult_le_compat_r; [lra|unfold rho; lra]). assert (0 <= rho * E i) by (apply Rmult_le_pos; [unfold rho; lra|lra]).
    apply Rabs_le. split; [apply nneg_B2R in Ni; lra|]. lra.
  - unfold rho. lra.
  - lra.
  - intros i Hi. apply (En i Hi).
  - change (bpow radix2 (-30)) with (/ 1073741824). exact HE.
  - intros i Hi. rewrite Nt by exact Hi. destruct (En i Hi) as (_ & _ & _ & _ & A). change (nrm E) with N. eapply Rle_trans; [exact A|].
    apply Rplus_le_compat_l. lra.
  - split; [exact Lc|]. intros j Hj'. destruct (Hj j Hj') as (Fj & Vj). split; [exact Fj|].
    change (nrm E) with N in Vj. eapply Rle_trans; [exact Vj|]. unfold rho. lra.
Qed.
End Frame.

Lemma clamp_val : forall x a b, fin x -> fin a -> fin b -> B2R a <= B2R x <= B2R b -> fclamp_val x a b = x.
Proof.
  intros x a b Fx Fa Fb H. unfold fclamp_val, flt. rewrite !Bltb_correct by assumption. now rewrite !Rlt_bool_false by lra.
Qed.

Lemma le_real : forall x y, fin x -> fin y -> (fle x y = true <-> B2R x <= B2R y).
Proof. intros x y Fx Fy. unfold fle. rewrite Bleb_correct by assumption. destruct (Rle_bool_spec (B2R x) (B2R y)); split; intros; auto; try discriminate; lra. Qed.
Lemma lt_real : forall x y, fin x -> fin y -> (flt x y = true <-> B2R x < B2R y).
Proof. intros x y Fx Fy. unfold flt. rewrite Bltb_correct by assumption. destruct (Rlt_bool_spec (B2R x) (B2R y)); split; intros; auto; try discriminate; lra. Qed.

(** One frame in the band 100 Hz to 5 kHz, without whitening: the profile is, to within (peaks * harmonics)/2700000 + 1/300,
    the vector of harmonic strengths of the strongest peaks, divided by its length. *)
Theorem C89_profile : forall L P q rate fft frame, select_ok P ->
  powf_accurate (m_powf L) (/ 1048576) -> powi_accurate (p_powi P) (/ 1048576) ->
  log2_accurate (m_log2 L) (/ 1048576) -> BayesianLikelihoodProps.exp_accurate (m_exp L) (/ 1048576) ->
  (1000 <= Z.of_nat rate <= 200000)%Z -> (1 <= Z.of_nat fft <= 65536)%Z -> (length frame <= fft)%nat ->
  fin (hp_sigma q) -> / 2 <= B2R (hp_sigma q) <= 4 -> fin (hp_tuning q) -> Rabs (B2R (hp_tuning q)) <= 1 ->
  fin (hp_power q) -> 6 / 100 <= B2R (hp_power q) <= 1 -> fin (hp_decay q) -> 0 <= B2R (hp_decay q) <= 1 ->
  (hp_harmonics q <= 16)%nat -> (hp_peaks q <= 1000)%nat -> hp_whiten q = false ->
  Forall (fun m => fin m /\ 0 <= B2R m <= 1073741824) frame ->
  let mag b := B2R (nth b frame f0) in
  let H := Nat.max 1 (hp_harmonics q) in
  (forall b h, peak mag (length frame) b -> (1 <= h <= H)%nat -> apart rate (B2R (hp_tuning q)) (INR h * bin_freq rate fft b)) ->
  exists top c, strongest_peaks rate fft mag (length frame) (Nat.max 1 (hp_peaks q)) top /\
    frame_to_hpcp L P q rate fft (z2f 100) (z2f 5000) frame = Ok c /\ length c = 12%nat /\
    let E := harmonic_strength rate fft (B2R (hp_sigma q)) (B2R (hp_tuning q)) (B2R (hp_power q)) (B2R (hp_decay q)) mag H top in
    (/ 1073741824 <= length12 E -> forall j, (j < 12)%nat -> fin (nth j c f0) /\
      Rabs (B2R (nth j c f0) - E j / length12 E) <= INR (length top) * INR H / 2700000 + / 300).
Proof.
  intros L P q rate fft frame HS HP HI HG HX Hr Hf Hn Fg Hg Ft Ht Fp Hp Fd Hd Hh Hk Hw Hm mag H Ha.
  assert (HH : (1 <= H <= 16)%nat) by (unfold H; lia).
  assert (W : Forall (within 50) frame).
  { eapply Forall_impl; [|exact Hm]. intros m (Fm & Bm). split; [exact Fm|]. change (bpow radix2 50) with 1125899906842624. rewrite Rabs_pos_eq; lra. }
  assert (Lp : fin (lit 13421773 (-28))) by reflexivity.
  assert (Vp : B2R (lit 13421773 (-28)) <= 6 / 100 /\ 5 / 100 <= B2R (lit 13421773 (-28))).
  { rewrite <- SF2R_B2SF. replace (B2SF (lit 13421773 (-28))) with (SpecFloat.S754_finite false 13421773 (-28)) by (vm_compute; reflexivity).
    cbn [SF2R cond_Zopp]. unfold F2R. cbn [Fnum Fexp]. simpl. lra. }
  assert (F1 : fin f1) by reflexivity. assert (V1 : B2R f1 = 1) by (change f1 with (z2f 1); now destruct (z2f_exact 1 ltac:(lia))).
  assert (F0 : fin f0) by reflexivity. assert (V0 : B2R f0 = 0) by reflexivity.
  assert (Ep : fclamp_val (hp_power q) (lit 13421773 (-28)) f1 = hp_power q) by (apply clamp_val; auto; lra).
  assert (Ed : fclamp_val (hp_decay q) f0 f1 = hp_decay q) by (apply clamp_val; auto; lra).
  pose proof (C65_content L P q rate fft (z2f 100) (z2f 5000) frame HS ltac:(lia) ltac:(lia) ltac:(lia) ltac:(lia) ltac:(lia) ltac:(lia) W) as C.
  cbv zeta in C. rewrite Ep, Ed, Hw in C. cbn [andb] in C.
  destruct (nyq_val rate Hr) as (Fn & Vn). destruct (z2f_exact 100 ltac:(lia)) as (Fa & Va). destruct (z2f_exact 5000 ltac:(lia)) as (Fb & Vb). destruct (z2f_exact 20 ltac:(lia)) as (Fc & Vc).
  destruct (BayesianLikelihoodProps.fmin_B2R (z2f 5000) _ Fb Fn) as (Fm & Vm). destruct (fmax_B2R (z2f 100) (z2f 20) Fa Fc) as (Fl & Vl).
  assert (Br : 1000 <= INR rate) by (rewrite INR_IZR_INZ; apply IZR_le; lia).
  assert (Band : flt (fmax (z2f 100) (z2f 20)) (fmin (z2f 5000) (fdiv (n2f rate) f2)) = true).
  { apply lt_real; auto. rewrite Vl, Vm, Va, Vb, Vc, Vn. rewrite Rmax_left by lra. apply Rmin_glb_lt; lra. }
  destruct (C Band) as (top & (T1 & T2 & T3 & T4 & T5) & E). clear C.
  set (freq := fun k => fmul (n2f k) (fdiv (n2f rate) (n2f fft))) in *.
  assert (MV : forall b, fin (nth b frame f0)) by (intros b; apply (mag_val frame Hm b)).
  assert (FI : forall b, (b < length frame)%nat -> peak mag (length frame) b ->
    fle (fmax (z2f 100) (z2f 20)) (freq b) && fle (freq b) (fmin (z2f 5000) (fdiv (n2f rate) f2)) = inside rate (bin_freq rate fft b)).
  { intros b Hb Pb. pose proof (Ha b 1%nat Pb ltac:(lia)) as A. change (INR 1) with 1 in A. rewrite Rmult_1_l in A.
    destruct (freq_val b rate fft ltac:(lia) Hr Hf) as (Ff & Ef). fold (freq b) in Ff, Ef.
    replace (INR b * (INR rate / INR fft)) with (bin_freq rate fft b) in Ef by (unfold bin_freq, Rdiv; ring).
    assert (B0 : 0 <= bin_freq rate fft b).
    { unfold bin_freq, Rdiv. apply Rmult_le_pos; [apply Rmult_le_pos; apply pos_INR|]. left. apply Rinv_0_lt_compat. apply (lt_INR 0). lia. }
    apply (apart_used rate (B2R (hp_tuning q))); auto. lra. }
  assert (PK : forall b, peak_bin frame freq (fmax (z2f 100) (z2f 20)) (fmin (z2f 5000) (fdiv (n2f rate) f2)) b <->
    peak mag (length frame) b /\ inside rate (bin_freq rate fft b) = true).
  { intros b. unfold peak_bin. split.
    - intros (A1 & A2 & A3 & A4 & A5 & A6). assert (Pb : peak mag (length frame) b).
      { split; [exact A1|]. split; [exact A2|]. split; [now apply lt_real|now apply le_real]. }
      split; [exact Pb|]. rewrite <- (FI b ltac:(lia) Pb), A3, A4. reflexivity.
    - intros (Pb & I). pose proof Pb as (A1 & A2 & A3 & A4). rewrite <- (FI b ltac:(lia) Pb) in I. apply andb_true_iff in I. destruct I as (I1 & I2).
      repeat split; auto; [now apply lt_real|now apply le_real]. }
  assert (ST : strongest_peaks rate fft mag (length frame) (Nat.max 1 (hp_peaks q)) top).
  { split; [exact T1|]. split; [intros b Hb; apply PK; now apply T2|]. split; [exact T3|]. split.
    - intros Lt b Hb. apply (T4 Lt). now apply PK.
    - intros b t Hb Nb It. apply le_real; auto. apply T5; auto. now apply PK. }
  assert (Htop : forall b, In b top -> (b < length frame)%nat /\ forall h, (1 <= h <= H)%nat -> apart rate (B2R (hp_tuning q)) (INR h * bin_freq rate fft b)).
  { intros b Hb. destruct (proj1 (PK b) (T2 b Hb)) as (Pb & _). split; [destruct Pb as (A1 & A2 & _); lia|]. intros h Hhh. now apply Ha. }
  assert (Lt : (length top <= 1000)%nat) by lia.
  rewrite Nat.max_comm in E. fold H in E.
  exists top. eexists. split; [exact ST|]. split; [exact E|]. clear E.
  match goal with |- length (divided_by_norm (map ?e _)) = _ /\ _ => set (energy := e) end.
  pose proof (vector_val L P rate fft (hp_tuning q) (hp_sigma q) (hp_power q) (hp_decay q) frame H HP HI HG HX Hr Hf Hn Ft Ht Fg Hg Fp ltac:(lra) Fd Hd HH Hm top Htop Lt) as V.
  cbv zeta in V. match type of V with _ -> length (divided_by_norm (map ?e _)) = _ /\ _ => set (energy' := e) in V end.
  assert (EE : map energy (seq 0 12) = map energy' (seq 0 12)).
  { apply map_ext_in. intros j Hj. unfold energy, energy'. f_equal.
    rewrite (pairs_filter (fun b => negb (fle (m_powf L (fmax (nth b frame f0) f0) (hp_power q)) f0))
      (fun x => fle (fmax (z2f 100) (z2f 20)) (fmul (freq (fst x)) (n2f (snd x))) && fle (fmul (freq (fst x)) (n2f (snd x))) (fmin (z2f 5000) (fdiv (n2f rate) f2)))).
    erewrite filter_ext; [apply map_ext|]; intros (b, h); reflexivity. }
  rewrite EE. clearbody energy energy'. clear EE.
  split.
  - now rewrite divided_by_norm_eq, unit_or_keep_length, map_length, seq_length.
  - intros E' HE j Hj. now apply V.
Qed.
Print Assumptions C89_profile.

(** The class of a position is one of three, so a note gives each class one Gaussian share or nothing. *)
Lemma spread_one : forall s q j, spread s q j = 0 \/ exists o, (-1 <= o <= 1)%Z /\ ((note q + o) mod 12 = Z.of_nat j)%Z /\
  spread s q j = exp (- ((q - IZR (note q + o)) * (q - IZR (note q + o))) / (2 * s * s)).
Proof.
  intros s q j. set (n := note q).
  assert (Un : forall o o', (-1 <= o <= 1)%Z -> (-1 <= o' <= 1)%Z -> ((n + o) mod 12 = Z.of_nat j)%Z -> ((n + o') mod 12 = Z.of_nat j)%Z -> o = o').
  { intros o o' H1 H2 X Y. pose proof (Z.div_mod (n + o) 12 ltac:(lia)). pose proof (Z.div_mod (n + o') 12 ltac:(lia)). lia. }
  unfold spread, share. fold n.
  destruct (Z.eqb_spec ((n + -1) mod 12) (Z.of_nat j)) as [A1 | A1], (Z.eqb_spec ((n + 0) mod 12) (Z.of_nat j)) as [A2 | A2], (Z.eqb_spec ((n + 1) mod 12) (Z.of_nat j)) as [A3 | A3];
    try (exfalso; pose proof (Un (-1)%Z 0%Z ltac:(lia) ltac:(lia) A1 A2); lia); try (exfalso; pose proof (Un (-1)%Z 1%Z ltac:(lia) ltac:(lia) A1 A3); lia);
    try (exfalso; pose proof (Un 0%Z 1%Z ltac:(lia) ltac:(lia) A2 A3); lia).
  - right. exists (-1)%Z. split; [lia|]. split; [exact A1|]. lra.
  - right. exists 0%Z. split; [lia|]. split; [exact A2|]. lra.
  - right. exists 1%Z. split; [lia|]. split; [exact A3|]. lra.
  - left. lra.
Qed.

(** Octaves of a frequency give the same shares; the third harmonic is nineteen semitones up, to within 1/23. *)
Lemma note_add : forall q k, note (q + IZR k) = (note q + k)%Z.
Proof.
  intros q k. unfold note. apply Zfloor_imp. rewrite !plus_IZR. pose proof (Zfloor_lb (q + / 2)). pose proof (Zfloor_ub (q + / 2)). lra.
Qed.
Lemma spread_octave : forall s q i j, spread s (q + 12 * IZR i) j = spread s q j.
Proof.
  intros s q i j. replace (12 * IZR i) with (IZR (12 * i)) by apply mult_IZR. unfold spread, share. rewrite note_add.
  assert (M : forall o, ((note q + 12 * i + o) mod 12)%Z = ((note q + o) mod 12)%Z).
  { intros o. replace (note q + 12 * i + o)%Z with (note q + o + i * 12)%Z by ring. apply Z.mod_add. lia. }
  rewrite !M. assert (D : forall o, q + IZR (12 * i) - IZR (note q + 12 * i + o) = q - IZR (note q + o)) by (intros o; rewrite !plus_IZR; ring).
  now rewrite !D.
Qed.
Lemma third_harmonic : forall t f, 0 < f -> Rabs (scale_pos t (3 * f) - (scale_pos t f + 19)) <= 42 / 1000.
Proof.
  intros t f F. pose proof ln2_ge as L2. unfold scale_pos. replace (3 * f / 440) with (3 * (f / 440)) by field. rewrite ln_mult by lra.
  replace (12 * ((ln 3 + ln (f / 440)) / ln 2) + 57 - t - (12 * (ln (f / 440) / ln 2) + 57 - t + 19)) with (lg (3 ^ 12) - lg (2 ^ 19)).
  - eapply Rle_trans; [apply (lg_near (2 ^ 19) (3 ^ 12) (14 / 1000)); [lra|lra|apply Rabs_le; lra]|]. lra.
  - unfold lg. rewrite !ln_pow by lra. rewrite !INR_IZR_INZ. vm_compute Z.of_nat. field. lra.
Qed.

(** A frame with a single peak in the band, at most a quarter of a semitone away from note p, up to four harmonics and a
    spread of at most a semitone: the class of p has the largest value, by at least 1/100. *)
Theorem C89_tone : forall L P q rate fft frame b p, select_ok P ->
  powf_accurate (m_powf L) (/ 1048576) -> powi_accurate (p_powi P) (/ 1048576) ->
  log2_accurate (m_log2 L) (/ 1048576) -> BayesianLikelihoodProps.exp_accurate (m_exp L) (/ 1048576) ->
  (1000 <= Z.of_nat rate <= 200000)%Z -> (1 <= Z.of_nat fft <= 65536)%Z -> (length frame <= fft)%nat ->
  fin (hp_sigma q) -> / 2 <= B2R (hp_sigma q) <= 1 -> fin (hp_tuning q) -> Rabs (B2R (hp_tuning q)) <= 1 ->
  fin (hp_power q) -> 6 / 100 <= B2R (hp_power q) <= 1 -> fin (hp_decay q) -> 0 <= B2R (hp_decay q) <= 1 ->
  (hp_harmonics q <= 4)%nat -> (hp_peaks q <= 1000)%nat -> hp_whiten q = false ->
  Forall (fun m => fin m /\ 0 <= B2R m <= 1073741824) frame ->
  let mag b := B2R (nth b frame f0) in
  (forall b' h, peak mag (length frame) b' -> (1 <= h <= Nat.max 1 (hp_harmonics q))%nat -> apart rate (B2R (hp_tuning q)) (INR h * bin_freq rate fft b')) ->
  (forall b', peak mag (length frame) b' /\ inside rate (bin_freq rate fft b') = true <-> b' = b) ->
  Rabs (scale_pos (B2R (hp_tuning q)) (bin_freq rate fft b) - IZR p) <= / 4 -> / 100000000 <= peak_weight (B2R (hp_power q)) (mag b) ->
  exists c, frame_to_hpcp L P q rate fft (z2f 100) (z2f 5000) frame = Ok c /\ length c = 12%nat /\
    forall a j, (a < 12)%nat -> (j < 12)%nat -> Z.of_nat a = (p mod 12)%Z -> j <> a -> B2R (nth j c f0) + / 100 <= B2R (nth a c f0).
Proof.
  intros L P q rate fft frame b p HS HP HI HG HX Hr Hf Hn Fg Hg Ft Ht Fp Hp Fd Hd Hh Hk Hw Hm mag Ha Hb Hq HW.
  destruct (C89_profile L P q rate fft frame HS HP HI HG HX Hr Hf Hn Fg ltac:(lra) Ft Ht Fp Hp Fd Hd ltac:(lia) Hk Hw Hm Ha) as (top & c & (T1 & T2 & T3 & T4 & _) & R & Lc & V).
  fold mag in T1, T2, T3, T4, V. cbv zeta in T2, T4, V.
  exists c. split; [exact R|]. split; [exact Lc|]. clear R Lc.
  assert (ET : top = [b]).
  { assert (A : forall x, In x top -> x = b) by (intros x Hx; apply Hb; now apply T2).
    destruct top as [|x [|x' l]].
    - exfalso. apply (T4 ltac:(cbn [length]; lia) b). now apply Hb.
    - now rewrite (A x (or_introl eq_refl)).
    - exfalso. inversion T1 as [|? ? N _]. subst. apply N. rewrite (A x (or_introl eq_refl)), <- (A x' (or_intror (or_introl eq_refl))). now left. }
  subst top. clear T1 T2 T3 T4.
  pose proof (proj2 (Hb b) eq_refl) as (_ & Ib). set (H := Nat.max 1 (hp_harmonics q)) in *. assert (HH : (1 <= H <= 4)%nat) by (unfold H; lia).
  set (s := B2R (hp_sigma q)) in *. set (t := B2R (hp_tuning q)) in *. set (f := bin_freq rate fft b) in *. set (S := peak_weight (B2R (hp_power q)) (mag b)) in *.
  assert (Pf : 100 <= f). { unfold inside in Ib. destruct (Rle_bool_spec 100 f); [assumption|discriminate]. }
  set (part := harmonic_part rate fft (B2R (hp_power q)) (B2R (hp_decay q)) mag b).
  assert (Part : forall h, (1 <= h <= 4)%nat -> 0 <= part h <= S / INR h).
  { intros h Hhh. unfold part, harmonic_part. fold S. set (d := B2R (hp_decay q)) in *.
    assert (Ih : 0 < / INR h) by (apply Rinv_0_lt_compat, (lt_INR 0); lia).
    assert (D : 0 <= d ^ (h - 1) <= 1) by (split; [apply pow_le; lra|rewrite <- (pow1 (h - 1)); apply pow_incr; lra]).
    assert (0 <= S / INR h) by (apply Rmult_le_pos; lra). destruct (inside rate (INR h * bin_freq rate fft b)); [|lra]. unfold Rdiv. split.
    - apply Rmult_le_pos; [lra|]. apply Rmult_le_pos; lra.
    - apply Rmult_le_compat_l; [lra|]. rewrite <- (Rmult_1_l (/ INR h)) at 2. apply Rmult_le_compat_r; lra. }
  assert (P1 : part 1%nat = S). { unfold part, harmonic_part. fold f. change (INR 1) with 1. rewrite Rmult_1_l, Ib. fold S. cbn [Nat.sub pow]. field. }
  set (E := harmonic_strength rate fft s t (B2R (hp_power q)) (B2R (hp_decay q)) mag H [b]) in *.
  set (q1 := scale_pos t f) in *. set (q3 := scale_pos t (3 * f)).
  assert (Q2 : scale_pos t (2 * f) = q1 + 12 * IZR 1) by (rewrite C88_octave by lra; fold q1; lra).
  assert (Q4 : scale_pos t (4 * f) = q1 + 12 * IZR 2).
  { replace (4 * f) with (2 * (2 * f)) by ring. rewrite C88_octave by lra. rewrite C88_octave by lra. fold q1. lra. }
  assert (Q3 : Rabs (q3 - (q1 + 19)) <= 42 / 1000) by (apply third_harmonic; lra).
  assert (EV : exists A B, S <= A <= 175 / 100 * S /\ 0 <= B <= S / 3 /\ forall j, E j = A * spread s q1 j + B * spread s q3 j).
  { pose proof (Part 2%nat ltac:(lia)) as R2. pose proof (Part 3%nat ltac:(lia)) as R3. pose proof (Part 4%nat ltac:(lia)) as R4.
    rewrite INR_IZR_INZ in R2, R3, R4. change (Z.of_nat 2) with 2%Z in R2. change (Z.of_nat 3) with 3%Z in R3. change (Z.of_nat 4) with 4%Z in R4.
    assert (T : forall h j, (1 <= h <= 4)%nat -> part h * spread s (scale_pos t (INR h * f)) j =
      part h * (if (h =? 3)%nat then spread s q3 j else spread s q1 j)).
    { intros h j Hhh. f_equal. rewrite INR_IZR_INZ. assert (h = 1 \/ h = 2 \/ h = 3 \/ h = 4)%nat as [-> | [-> | [-> | ->]]] by lia; cbn [Nat.eqb].
      - change (IZR (Z.of_nat 1)) with 1. now rewrite Rmult_1_l.
      - change (IZR (Z.of_nat 2)) with 2. rewrite Q2. apply spread_octave.
      - reflexivity.
      - change (IZR (Z.of_nat 4)) with 4. rewrite Q4. apply spread_octave. }
    assert (X : forall j, E j = sum_over (fun h => part h * (if (h =? 3)%nat then spread s q3 j else spread s q1 j)) (seq 1 H)).
    { intros j. unfold E, harmonic_strength. rewrite so_cons, so_nil, Rplus_0_r. apply so_ext. intros h Hin. apply in_seq in Hin. apply T. lia. }
    assert (H = 1 \/ H = 2 \/ H = 3 \/ H = 4)%nat as [EH | [EH | [EH | EH]]] by lia; rewrite EH in X; cbn [seq] in X.
    - exists S, 0. split; [lra|]. split; [lra|]. intros j. rewrite X, !so_cons, so_nil, P1. cbn [Nat.eqb]. ring.
    - exists (S + part 2%nat), 0. split; [lra|]. split; [lra|]. intros j. rewrite X, !so_cons, so_nil, P1. cbn [Nat.eqb]. ring.
    - exists (S + part 2%nat), (part 3%nat). split; [lra|]. split; [lra|]. intros j. rewrite X, !so_cons, so_nil, P1. cbn [Nat.eqb]. ring.
    - exists (S + part 2%nat + part 4%nat), (part 3%nat). split; [lra|]. split; [lra|]. intros j. rewrite X, !so_cons, so_nil, P1. cbn [Nat.eqb]. ring. }
  destruct EV as (A & B & BA & BB & EV). clear Part P1 part.
  assert (N1 : note q1 = p) by (apply note_of; lra).
  assert (N3 : note q3 = (p + 19)%Z).
  { apply note_of. rewrite plus_IZR. apply Rabs_le_inv in Hq. apply Rabs_le_inv in Q3. apply Rabs_lt. lra. }
  set (dl := q1 - IZR p) in *. set (T := 2 * s * s). assert (HT : / 2 <= T <= 2).
  { unfold T. assert (/ 2 * / 2 <= s * s <= 1 * 1) by (split; apply Rmult_le_compat; lra). lra. }
  apply Rabs_le_inv in Hq. assert (D2 : 0 <= dl * dl <= / 16) by nra. set (g0 := exp (- (dl * dl) / T)).
  assert (G0 : 7 / 8 <= g0 <= 1).
  { assert (X : - / 8 <= - (dl * dl) / T <= 0).
    { split; apply Rmult_le_reg_r with T; try lra; replace (- (dl * dl) / T * T) with (- (dl * dl)) by (field; lra); lra. }
    split; [pose proof (exp_ineq1_le (- (dl * dl) / T)); fold g0 in H0; lra|]. unfold g0. rewrite <- exp_0. destruct (proj2 X) as [Y | Y]; [left; now apply exp_increasing|rewrite Y; lra]. }
  assert (S1 : forall z j, 0 <= spread s z j <= 1).
  { intros z j. destruct (spread_one s z j) as [Z | (o & _ & _ & Z)]; rewrite Z; [lra|]. split; [left; apply exp_pos|]. fold T.
    set (x := (z - IZR (note z + o)) * (z - IZR (note z + o))). assert (X0 : 0 <= x) by apply Rle_0_sqr.
    assert (X : - x / T <= 0) by (apply Rmult_le_reg_r with T; [lra|]; replace (- x / T * T) with (- x) by (field; lra); lra).
    rewrite <- exp_0. destruct X as [Y | Y]; [left; now apply exp_increasing|rewrite Y; lra]. }
  assert (Eb : forall j, 0 <= E j <= 21 / 10 * S).
  { intros j. rewrite EV. pose proof (S1 q1 j) as X1. pose proof (S1 q3 j) as X3.
    assert (0 <= A * spread s q1 j <= A * 1) by (split; [apply Rmult_le_pos; lra|apply Rmult_le_compat_l; lra]).
    assert (0 <= B * spread s q3 j <= B * 1) by (split; [apply Rmult_le_pos; lra|apply Rmult_le_compat_l; lra]). lra. }
  assert (NU : length12 E <= 735 / 100 * S).
  { change (nrm E <= 735 / 100 * S). eapply Rle_trans; [apply (nrm_mono E (fun _ => 21 / 10 * S * 1)); intros i _; rewrite Rmult_1_r; apply Eb|].
    rewrite (nrm_scal (21 / 10 * S) (fun _ => 1)) by lra. unfold nrm. rewrite (sumn_ext _ (fun _ => 1)) by (intros; ring). rewrite sumn_const, INR_IZR_INZ. change (IZR (Z.of_nat 12)) with 12. rewrite Rmult_1_r.
    pose proof sqrt12. assert (21 / 10 * S * sqrt 12 <= 21 / 10 * S * (35 / 10)) by (apply Rmult_le_compat_l; lra). lra. }
  intros a j La Lj Ea Nj.
  assert (Sa : g0 <= spread s q1 a).
  { unfold spread. pose proof (share_range s q1 a (-1) ltac:(lra)). pose proof (share_range s q1 a 1 ltac:(lra)).
    enough (share s q1 a 0 = g0) by lra. unfold share. rewrite N1, Z.add_0_r. destruct (Z.eqb_spec (p mod 12) (Z.of_nat a)); [reflexivity|congruence]. }
  assert (Ga : A * g0 <= E a).
  { rewrite EV. pose proof (S1 q3 a). assert (0 <= B * spread s q3 a) by (apply Rmult_le_pos; lra). assert (A * g0 <= A * spread s q1 a) by (apply Rmult_le_compat_l; lra). lra. }
  assert (AG : A * (7 / 8) <= A * g0) by (apply Rmult_le_compat_l; lra).
  assert (Lead : E j + 175 / 1000 * S <= E a).
  { destruct (spread_one s q1 j) as [Z1 | (o & Ho & Eo & Z1)].
    - rewrite (EV j), Z1. pose proof (S1 q3 j). assert (B * spread s q3 j <= B * 1) by (apply Rmult_le_compat_l; lra). lra.
    - rewrite N1 in Eo, Z1. fold T in Z1.
      assert (Z3 : spread s q3 j = 0).
      { destruct (spread_one s q3 j) as [Z3 | (o' & Ho' & Eo' & _)]; [exact Z3|]. exfalso. rewrite N3 in Eo'.
        pose proof (Z.div_mod (p + o) 12 ltac:(lia)). pose proof (Z.div_mod (p + 19 + o') 12 ltac:(lia)). lia. }
      assert (O : o = (-1)%Z \/ o = 1%Z).
      { assert (o <> 0)%Z; [|lia]. intros ->. rewrite Z.add_0_r in Eo. apply Nj. lia. }
      assert (G1 : spread s q1 j <= 8 / 10 * g0).
      { rewrite Z1. replace (- ((q1 - IZR (p + o)) * (q1 - IZR (p + o))) / T) with (- (dl * dl) / T + - ((1 - 2 * IZR o * dl) / T)).
        2:{ rewrite plus_IZR. replace (q1 - (IZR p + IZR o)) with (dl - IZR o) by (unfold dl; ring). replace 1 with (IZR o * IZR o) at 1 by (destruct O as [-> | ->]; lra). field. lra. }
        rewrite exp_plus. fold g0. rewrite (Rmult_comm g0). apply Rmult_le_compat_r; [lra|].
        set (z := (1 - 2 * IZR o * dl) / T). assert (Z : / 4 <= z).
        { unfold z. apply Rmult_le_reg_r with T; [lra|]. replace ((1 - 2 * IZR o * dl) / T * T) with (1 - 2 * IZR o * dl) by (field; lra). destruct O as [-> | ->]; lra. }
        rewrite exp_Ropp. replace (8 / 10) with (/ (125 / 100)) by field. apply Rinv_le_contravar; [lra|]. pose proof (exp_ineq1_le z). lra. }
      rewrite (EV j), Z3, Rmult_0_r, Rplus_0_r. assert (A * spread s q1 j <= A * (8 / 10 * g0)) by (apply Rmult_le_compat_l; lra). lra. }
  assert (NL : E a <= length12 E) by (apply (nrm_ge E a La); apply Eb).
  destruct (V ltac:(lra) a La) as (_ & Va). destruct (V ltac:(lra) j Lj) as (_ & Vj).
  assert (IH : INR (length [b]) * INR H <= 4).
  { cbn [length]. change (INR 1) with 1. rewrite Rmult_1_l, INR_IZR_INZ. apply IZR_le. lia. }
  set (N := length12 E) in *. assert (N0 : 0 < N) by lra.
  assert (R : E j / N + 2 / 100 <= E a / N).
  { apply Rmult_le_reg_r with N; [exact N0|]. replace ((E j / N + 2 / 100) * N) with (E j + 2 / 100 * N) by (field; lra). replace (E a / N * N) with (E a) by (field; lra). lra. }
  apply Rabs_le_inv in Va. apply Rabs_le_inv in Vj. lra.
Qed.
Print Assumptions C89_tone.

(** The hypotheses on the platform hold of correctly rounded functions and of selection by sorting. *)
Definition profile_platform : key_platform :=
  {| p_atan2 := p_atan2 by_sorting; p_powi := fun d n => nearest_f32 (B2R d ^ n); p_select := p_select by_sorting |}.
Lemma C89_platform : select_ok profile_platform /\ powf_accurate (m_powf pitch_platform) (/ 1048576) /\ powi_accurate (p_powi profile_platform) (/ 1048576) /\
  log2_accurate (m_log2 pitch_platform) (/ 1048576) /\ BayesianLikelihoodProps.exp_accurate (m_exp pitch_platform) (/ 1048576).
Proof.
  assert (Tn : tiny <= bpow radix2 (-149)) by (apply bpow_le; lia).
  split; [exact ex_select|]. split; [|split; [|apply C88_platform]].
  - intros x p Fx Fp Hx Hp. cbn [pitch_platform m_powf]. pose proof (pwr_range (B2R p) (B2R x) ltac:(lra) Hx) as V. set (v := pwr (B2R p) (B2R x)) in *.
    destruct (nearest_f32_near v) as (F & E).
    { rewrite Rabs_pos_eq by lra. apply Rle_trans with (bpow radix2 30); [lra|apply bpow_le; lia]. }
    split; [exact F|]. rewrite (Rabs_pos_eq v) in E by lra. unfold u24 in E. lra.
  - intros d n Fd Hd _. cbn [profile_platform p_powi]. assert (V : 0 <= B2R d ^ n <= 1) by (split; [apply pow_le; lra|rewrite <- (pow1 n); apply pow_incr; lra]).
    set (v := B2R d ^ n) in *. destruct (nearest_f32_near v) as (F & E).
    { rewrite Rabs_pos_eq by lra. apply Rle_trans with (bpow radix2 0); [simpl; lra|apply bpow_le; lia]. }
    split; [exact F|]. destruct (nearest_f32_fx v) as (N & X). rewrite (Rabs_pos_eq v) in E by lra. unfold u24 in E. split; [|lra].
    rewrite <- (fx_fin _ F), X. unfold sat. pose proof (rnd_nonneg v ltac:(lra)). unfold Rmax, Rmin. pose proof (bpow_gt_0 radix2 128).
    destruct (Rle_dec big (rnd v)), (Rle_dec (- big) _); unfold big in *; lra.
Qed.

(** An A at 440 Hz with its harmonics at 880, 1320 (an E) and 1760 Hz: class 9 leads. *)
Example C89_case : forall L P, select_ok P ->
  powf_accurate (m_powf L) (/ 1048576) -> powi_accurate (p_powi P) (/ 1048576) ->
  log2_accurate (m_log2 L) (/ 1048576) -> BayesianLikelihoodProps.exp_accurate (m_exp L) (/ 1048576) ->
  let q := {| hp_sigma := lit 1 (-1); hp_tuning := f0; hp_peaks := 24; hp_harmonics := 4; hp_decay := lit 1 (-1); hp_power := lit 1 (-1);
              hp_whiten := false; hp_whiten_bins := 31 |} in
  exists c, frame_to_hpcp L P q 4400 10 (z2f 100) (z2f 5000) [f0; f1; f0] = Ok c /\ length c = 12%nat /\
    forall j, (j < 12)%nat -> j <> 9%nat -> B2R (nth j c f0) + / 100 <= B2R (nth 9 c f0).
Proof.
  intros L P HS HP HI HG HX q. assert (V0 : B2R f0 = 0) by reflexivity. assert (F1 : fin f1) by reflexivity.
  assert (V1 : B2R f1 = 1) by (change f1 with (z2f 1); now destruct (z2f_exact 1 ltac:(lia))).
  assert (Fh : fin (lit 1 (-1))) by reflexivity.
  assert (Vh : B2R (lit 1 (-1)) = / 2).
  { rewrite <- SF2R_B2SF. replace (B2SF (lit 1 (-1))) with (SpecFloat.S754_finite false 8388608 (-24)) by (vm_compute; reflexivity).
    cbn [SF2R cond_Zopp]. unfold F2R. cbn [Fnum Fexp]. simpl. lra. }
  assert (IN : forall n, INR n = IZR (Z.of_nat n)) by apply INR_IZR_INZ.
  assert (B1 : bin_freq 4400 10 1 = 440) by (unfold bin_freq; rewrite !IN; vm_compute Z.of_nat; lra).
  assert (R2 : INR 4400 / 2 = 2200) by (rewrite IN; vm_compute Z.of_nat; lra).
  assert (P1 : scale_pos 0 440 = 57) by (unfold scale_pos; replace (440 / 440) with 1 by field; rewrite ln_1; lra).
  assert (I1 : inside 4400 440 = true) by (unfold inside; rewrite R2, !Rle_bool_true, Rlt_bool_true by lra; reflexivity).
  assert (NT : forall x p, Rabs (x - IZR p) <= 42 / 1000 -> Rabs (x - IZR (note x)) <= 4999 / 10000) by (intros x p X; rewrite (note_of x p) by lra; lra).
  assert (PB : forall b, peak (fun b => B2R (nth b [f0; f1; f0] f0)) 3 b -> b = 1%nat) by (intros b (A1 & A2 & _); lia).
  destruct (C89_tone L P q 4400 10 [f0; f1; f0] 1 57 HS HP HI HG HX) as (c & C1 & C2 & C3); cbn [q hp_sigma hp_tuning hp_peaks hp_harmonics hp_decay hp_power hp_whiten];
    rewrite ?Vh, ?V0; try lia; try lra; auto.
  - cbn [length]. lia.
  - rewrite Rabs_R0. lra.
  - apply Forall_cons; [|apply Forall_cons; [|apply Forall_cons; [|apply Forall_nil]]]; rewrite ?V0, ?V1; split; auto; lra.
  - intros b h Hb Hh. rewrite (PB b Hb), B1.
    assert (h = 1 \/ h = 2 \/ h = 3 \/ h = 4)%nat as Q by (cbn in Hh; lia). unfold apart. rewrite R2, IN.
    destruct Q as [-> | [-> | [-> | ->]]]; vm_compute Z.of_nat.
    + rewrite Rmult_1_l. split; [rewrite Rabs_pos_eq; lra|]. split; [rewrite Rabs_left; lra|]. split; [rewrite Rabs_left; lra|].
      intros _. apply (NT _ 57%Z). rewrite P1. rewrite Rminus_diag_eq, Rabs_R0 by reflexivity. lra.
    + split; [rewrite Rabs_pos_eq; lra|]. split; [rewrite Rabs_left; lra|]. split; [rewrite Rabs_left; lra|].
      intros _. apply (NT _ 69%Z). rewrite C88_octave, P1 by lra. rewrite Rminus_diag_eq, Rabs_R0; lra.
    + split; [rewrite Rabs_pos_eq; lra|]. split; [rewrite Rabs_left; lra|]. split; [rewrite Rabs_left; lra|].
      intros _. apply (NT _ 76%Z). pose proof (third_harmonic 0 440 ltac:(lra)) as T. rewrite P1 in T. replace (57 + 19) with 76 in T by lra. exact T.
    + split; [rewrite Rabs_pos_eq; lra|]. split; [rewrite Rabs_left; lra|]. split; [rewrite Rabs_left; lra|].
      intros _. apply (NT _ 81%Z). replace (4 * 440) with (2 * (2 * 440)) by ring. rewrite !C88_octave, P1 by lra. rewrite Rminus_diag_eq, Rabs_R0; lra.
  - intros b. split; [intros (Hb & _); now apply PB|]. intros ->. split; [|now rewrite B1].
    split; [lia|]. split; [cbn [length]; lia|]. cbn [nth Nat.sub Nat.add]. rewrite V0, V1. lra.
  - rewrite B1, P1. rewrite Rminus_diag_eq, Rabs_R0 by reflexivity. lra.
  - cbn [nth]. rewrite V1. unfold peak_weight. destruct (Rle_dec 1 0); [lra|]. unfold Rpower. rewrite ln_1, Rmult_0_r, exp_0. lra.
  - exists c. split; [exact C1|]. split; [exact C2|]. intros j Hj Nj. now apply C3; auto.
Qed.
