(** C88: the chroma vector of a frame is the unit vector of the energies of its twelve pitch classes, every frequency
    taken to the note it is nearest to on the equal-tempered scale. *)
From Coq Require Import ZArith List Reals Lra Lia.
From Flocq Require Import Core.
From Verif Require Import Rust F32 F32Facts F32More ListFacts Bounds FloatSums Libm Chroma ChromaProofs ChromaProps
  FourierFacts AutocorrelationValueProofs OnsetStrengthFacts ExactPlatform ChromaPitchFacts ChromaSpreadFacts.
From Verif Require BayesianLikelihoodProps.
Import ListNotations.
Local Open Scope R_scope.

(** Frequency of bin k of an FFT of [fft] points at [rate] samples per second. *)
Definition bin_freq (rate fft k : nat) : R := INR k * INR rate / INR fft.
(** Position on the scale of semitones that has A4 (440 Hz) at 57 and hence C at the multiples of 12. *)
Definition scale_pos (tuning f : R) : R := 12 * (ln (f / 440) / ln 2) + 57 - tuning.
(** The note nearest to a position. *)
Definition note (q : R) : Z := Zfloor (q + / 2).
(** The analysed band: 100 Hz to 5 kHz, below half the sample rate. *)
Definition inside (rate : nat) (f : R) : bool := Rle_bool 100 f && Rle_bool f 5000 && Rlt_bool f (INR rate / 2).
(** Perceived strength of a magnitude: its power 0.6. *)
Definition strength (m : R) : R := if Rle_dec m 0 then 0 else Rpower m (6 / 10).
(** Euclidean length of a vector of twelve. *)
Definition length12 (x : nat -> R) : R := sqrt (sumn (fun i => x i * x i) 12).

(** A frequency away from the edges of the band and, inside the band, away from the quarter tones. *)
Definition clear_of_edges (rate : nat) (tuning f : R) : Prop :=
  / 10000 <= Rabs (f - 100) /\ / 1000 <= Rabs (f - 5000) /\ INR rate / 2 * / 1000000 <= Rabs (f - INR rate / 2) /\
  (inside rate f = true -> Rabs (scale_pos tuning f - IZR (note (scale_pos tuning f))) <= 4999 / 10000).

(** Total strength of the bins whose nearest note has pitch class j. *)
Definition class_strength (rate fft : nat) (tuning : R) (mag : nat -> R) (n j : nat) : R :=
  sumn (fun k => if inside rate (bin_freq rate fft k) && (note (scale_pos tuning (bin_freq rate fft k)) mod 12 =? Z.of_nat j)%Z
                 then strength (mag k) else 0) n.

(** Spreading: a bin at position q gives to the class of its note and of the two beside it a Gaussian share. *)
Definition share (sigma q : R) (j : nat) (o : Z) : R :=
  if ((note q + o) mod 12 =? Z.of_nat j)%Z then exp (- ((q - IZR (note q + o)) * (q - IZR (note q + o))) / (2 * sigma * sigma)) else 0.
Definition spread (sigma q : R) (j : nat) : R := share sigma q j (-1) + share sigma q j 0 + share sigma q j 1.
Definition spread_strength (rate fft : nat) (sigma tuning : R) (mag : nat -> R) (n j : nat) : R :=
  sumn (fun k => if inside rate (bin_freq rate fft k)
                 then strength (mag k) * spread sigma (scale_pos tuning (bin_freq rate fft k)) j else 0) n.

Lemma edges_used : forall rate tuning ff f, (1000 <= Z.of_nat rate <= 200000)%Z -> fin ff -> 0 <= f -> Rabs (B2R ff - f) <= / 7000000 * f ->
  clear_of_edges rate tuning f ->
  let ny := fdiv (n2f rate) f2 in
  fle (z2f 100) ff && fle ff (fmin (z2f 5000) ny) && flt ff ny = inside rate f.
Proof.
  intros rate tuning ff f Hr Ff F0 H (C1 & C2 & C3 & _) ny. destruct (used_val ff f rate Hr Ff F0 H) as (A & B & _). fold ny in A, B.
  assert (Br : 1000 <= INR rate <= 200000) by (rewrite INR_IZR_INZ; split; apply IZR_le; lia).
  assert (Pr : 500 <= INR rate / 2) by lra. unfold inside. set (r := INR rate / 2) in *. clearbody r.
  destruct (Rle_bool_spec 100 f) as [H1 | H1]; cbn [andb].
  2:{ apply B. left. rewrite Rabs_left in C1 by lra. lra. }
  destruct (Rle_bool_spec f 5000) as [H2 | H2]; cbn [andb].
  2:{ apply B. right. left. rewrite Rabs_pos_eq in C2 by lra. lra. }
  destruct (Rlt_bool_spec f r) as [H3 | H3].
  - rewrite Rabs_left in C3 by lra. rewrite Rabs_pos_eq in C1 by lra. rewrite Rabs_left1 in C2 by lra. apply A; lra.
  - apply B. right. right. rewrite Rabs_pos_eq in C3 by lra. lra.
Qed.

Lemma note_range : forall t f, 99 <= f <= 5001 -> Rabs t <= 1 -> (Z.abs (note (scale_pos t f)) <= 10000)%Z.
Proof.
  intros t f Hf Ht. apply Rabs_le_inv in Ht. pose proof (lg_range (f / 440) ltac:(lra)) as L. unfold lg in L.
  unfold note. set (q := scale_pos t f). assert (Q : -1000 <= q <= 1000) by (unfold q, scale_pos; lra).
  pose proof (Zfloor_lb (q + / 2)) as A. pose proof (Zfloor_ub (q + / 2)) as B.
  assert (IZR (Zfloor (q + / 2)) < 10000) by lra. assert (-10000 < IZR (Zfloor (q + / 2))) by lra.
  apply Z.abs_le. change (- (10000))%Z with (-10000)%Z. split; apply Z.lt_le_incl, lt_IZR; assumption.
Qed.

Section Frame.
Context (L : libm) (rate fft : nat) (tuning : f32) (frame : list f32).
Context (HP : pow_accurate (m_powf L) (/ 1048576)) (HG : log2_accurate (m_log2 L) (/ 1048576)).
Context (Hr : (1000 <= Z.of_nat rate <= 200000)%Z) (Hf : (1 <= Z.of_nat fft <= 65536)%Z) (Hn : (length frame <= fft)%nat).
Context (Ft : fin tuning) (Ht : Rabs (B2R tuning) <= 1).
Context (Hm : Forall (fun m => fin m /\ B2R m <= bpow radix2 50) frame).
Context (Hc : forall k, (k < length frame)%nat -> 0 < B2R (nth k frame f0) -> clear_of_edges rate (B2R tuning) (bin_freq rate fft k)).

Let ff k := fmul (n2f k) (fdiv (n2f rate) (n2f fft)).
Let ny := fdiv (n2f rate) f2.
Let used k := fle (z2f 100) (ff k) && fle (ff k) (fmin (z2f 5000) ny) && flt (ff k) ny.

Lemma bin_freq_val : forall k, (k < length frame)%nat -> fin (ff k) /\ 0 <= bin_freq rate fft k /\
  Rabs (B2R (ff k) - bin_freq rate fft k) <= / 7000000 * bin_freq rate fft k.
Proof.
  intros k Hk. destruct (freq_val k rate fft ltac:(lia) Hr Hf) as (F & E). 
  assert (Q : bin_freq rate fft k = INR k * (INR rate / INR fft)) by (unfold bin_freq, Rdiv; ring). rewrite Q.
  split; [exact F|]. split; [|exact E]. apply Rmult_le_pos; [apply pos_INR|]. apply Rmult_le_pos; [apply pos_INR|]. left. apply Rinv_0_lt_compat. apply (lt_INR 0). lia.
Qed.

Lemma frame_bin : forall k, (k < length frame)%nat -> fin (nth k frame f0) /\ B2R (nth k frame f0) <= bpow radix2 50.
Proof. intros k Hk. apply (proj1 (Forall_forall _ _) Hm). now apply nth_In. Qed.

Lemma clear_class : forall k, (k < length frame)%nat -> 0 < B2R (nth k frame f0) ->
  used k = inside rate (bin_freq rate fft k) /\
  (used k = true -> f2i32 (fround (semitone L tuning (ff k))) = note (scale_pos (B2R tuning) (bin_freq rate fft k))).
Proof.
  intros k Hk M. pose proof (Hc k Hk M) as C. destruct (bin_freq_val k Hk) as (F & F0 & E).
  pose proof (edges_used rate (B2R tuning) (ff k) _ Hr F F0 E C) as U. split; [exact U|]. intros T.
  destruct (used_val (ff k) _ rate Hr F F0 E) as (_ & _ & R). specialize (R T).
  destruct (pitch_val L (ff k) _ tuning HG F Ft R E Ht) as (Fs & Vs).
  assert (I : inside rate (bin_freq rate fft k) = true) by (rewrite <- U; exact T).
  destruct C as (_ & _ & _ & C). specialize (C I). eapply note_val; [exact Fs|exact Vs|exact C|]. now apply note_range.
Qed.

Lemma hard_energy : forall j,
  let pitch k := f2i32 (fround (semitone L tuning (ff k))) in
  let e := fold_left fadd (map (fun k => m_powf L (fmax (nth k frame f0) f0) (lit 5033165 (-23)))
    (filter (fun k => used k && (pitch k mod 12 =? Z.of_nat j)%Z) (seq 0 (length frame)))) f0 in
  let E := class_strength rate fft (B2R tuning) (fun k => B2R (nth k frame f0)) (length frame) j in
  fin e /\ nneg e /\ 0 <= E /\ Rabs (B2R e - E) <= (/ 120000 + INR (length frame) / 6000000) * E.
Proof.
  intros j pitch e E. set (p := fun k => used k && (pitch k mod 12 =? Z.of_nat j)%Z) in *.
  assert (EE : E = sumn (fun k => if p k then strength (B2R (nth k frame f0)) else 0) (length frame)).
  { unfold E, class_strength. apply sumn_ext. intros k Hk. destruct (Rle_dec (B2R (nth k frame f0)) 0) as [Z | Z].
    - unfold strength. destruct (Rle_dec (B2R (nth k frame f0)) 0); [|lra]. now destruct (_ && _), (p k).
    - destruct (clear_class k Hk ltac:(lra)) as (U & V). unfold p. rewrite <- U. destruct (used k); [|reflexivity]. cbn [andb]. unfold pitch. now rewrite V. }
  rewrite EE. apply (filter_sum p _ (fun k => strength (B2R (nth k frame f0))) (length frame) (/ 120000) 31); [lia|lra|lia|].
  intros k Hk _. destruct (frame_bin k Hk) as (Fm & Bm). destruct (contrib_val L (nth k frame f0) HP Fm Bm) as (A & B & C & D & F).
  change (pwr (6 / 10) (B2R (nth k frame f0))) with (strength (B2R (nth k frame f0))) in D, F.
  split; [exact B|]. split; [exact C|]. split; [exact (proj1 D)|exact F].
Qed.

Context (sigma : f32) (HX : BayesianLikelihoodProps.exp_accurate (m_exp L) (/ 1048576)) (Fg : fin sigma) (Hg : / 2 <= B2R sigma <= 4).
Let sg := fmax sigma (lit 8796093 (-43)).
Let pc k := frem_euclid (semitone L tuning (ff k)) (z2f 12).
Let nearest k := f2i32 (frem_euclid (fround (pc k)) (z2f 12)).

Lemma sg_val : fin sg /\ B2R sg = B2R sigma.
Proof.
  assert (Fl : fin (lit 8796093 (-43))) by reflexivity. destruct (fmax_B2R sigma _ Fg Fl) as (A & B). split; [exact A|]. unfold sg. rewrite B.
  apply Rmax_left. assert (V : B2R (lit 8796093 (-43)) <= / 2).
  { rewrite <- SF2R_B2SF. replace (B2SF (lit 8796093 (-43))) with (SpecFloat.S754_finite false 8796093 (-43)) by (vm_compute; reflexivity).
    cbn [SF2R cond_Zopp]. unfold F2R. cbn [Fnum Fexp]. simpl. lra. }
  lra.
Qed.

Lemma used_pc : forall k, (k < length frame)%nat -> used k = true ->
  let q := scale_pos (B2R tuning) (bin_freq rate fft k) in let s := semitone L tuning (ff k) in
  fin s /\ Rabs (B2R s - q) <= / 20000 /\ fin (pc k) /\ 0 <= B2R (pc k) < 12 /\ (exists i, B2R s = B2R (pc k) + 12 * IZR i) /\
  99 <= bin_freq rate fft k <= 5001.
Proof.
  intros k Hk U q s. destruct (bin_freq_val k Hk) as (F & F0 & E). destruct (used_val (ff k) _ rate Hr F F0 E) as (_ & _ & R). specialize (R U).
  destruct (pitch_val L (ff k) _ tuning HG F Ft R E Ht) as (Fs & Vs). fold s in Fs, Vs. unfold lg in Vs. fold (scale_pos (B2R tuning) (bin_freq rate fft k)) in Vs. fold q in Vs.
  split; [exact Fs|]. split; [exact Vs|].
  pose proof (lg_range (bin_freq rate fft k / 440) ltac:(lra)) as Lr. unfold lg in Lr.
  assert (S0 : 0 <= B2R s). { apply Rabs_le_inv in Vs. pose proof (Rabs_le_inv _ _ Ht) as Ht'. unfold q, scale_pos in Vs. lra. }
  destruct (frem_euclid_val s Fs S0) as (A & B & C). auto.
Qed.

Lemma clear_nearest : forall k, (k < length frame)%nat -> 0 < B2R (nth k frame f0) -> used k = true ->
  nearest k = (note (scale_pos (B2R tuning) (bin_freq rate fft k)) mod 12)%Z.
Proof.
  intros k Hk M U. destruct (clear_class k Hk M) as (UI & _). destruct (used_pc k Hk U) as (Fs & Vs & Fp & Rp & (i & Ei) & Rf).
  pose proof (Hc k Hk M) as (_ & _ & _ & C). rewrite <- UI in C. specialize (C U).
  set (q := scale_pos (B2R tuning) (bin_freq rate fft k)) in *. set (p := note q) in *. set (s := semitone L tuning (ff k)) in *.
  apply Rabs_le_inv in Vs. apply Rabs_le_inv in C. destruct (fround_spec (pc k) Fp) as (Fr & Vr).
  assert (Z1 : ZnearestA (B2R (pc k)) = (p - 12 * i)%Z).
  { apply Znearest_imp. rewrite minus_IZR, mult_IZR. apply Rabs_lt. lra. }
  rewrite Z1 in Vr. assert (P0 : (0 <= p - 12 * i)%Z).
  { assert (-1 < p - 12 * i)%Z; [|lia]. apply lt_IZR. rewrite minus_IZR, mult_IZR. lra. }
  destruct (frem_euclid_val (fround (pc k)) Fr ltac:(rewrite Vr; now apply IZR_le)) as (Fe & Re & (i' & Ei')). rewrite Vr in Ei'.
  set (r := frem_euclid (fround (pc k)) (z2f 12)) in *.
  assert (Vz : B2R r = IZR (p - 12 * i - 12 * i')) by (rewrite (minus_IZR (p - 12 * i)), mult_IZR; lra).
  rewrite Vz in Re. assert (0 <= p - 12 * i - 12 * i' < 12)%Z by (split; [apply le_IZR|apply lt_IZR]; lra).
  unfold nearest. fold r. unfold f2i32. rewrite f2int_fin, Vz, Ztrunc_IZR by exact Fe.
  replace (p mod 12)%Z with (p - 12 * i - 12 * i')%Z; [lia|]. apply (Z.mod_unique_pos p 12 (i + i')); lia.
Qed.

Let pk j k := used k && existsb (fun o => ((nearest k + o) mod 12 =? Z.of_nat j)%Z) [-1; 0; 1]%Z.
Let gk j k := fmul (m_powf L (fmax (nth k frame f0) f0) (lit 5033165 (-23))) (soft_weight L sg (pc k) (Z.of_nat j)).
Let pos_of k := scale_pos (B2R tuning) (bin_freq rate fft k).

Lemma gk_val : forall j k, (j < 12)%nat -> (k < length frame)%nat -> used k = true ->
  let c := m_powf L (fmax (nth k frame f0) f0) (lit 5033165 (-23)) in let w := soft_weight L sg (pc k) (Z.of_nat j) in
  nneg (gk j k) /\ within 33 (gk j k) /\ Rabs (B2R (gk j k) - B2R c * B2R w) <= / 16777216 * (B2R c * B2R w) + tiny.
Proof.
  intros j k Hj Hk U c w. destruct (used_pc k Hk U) as (_ & _ & Fp & Rp & _). destruct sg_val as (Fsg & Vsg).
  destruct (weight_val L sg (pc k) j HX Fsg ltac:(rewrite Vsg; exact Hg) Fp Rp Hj) as (Fw & Rw & _). fold w in Fw, Rw.
  destruct (frame_bin k Hk) as (Fm & Bm). destruct (contrib_val L (nth k frame f0) HP Fm Bm) as (Fc & Nc & (_ & Wc) & _). fold c in Fc, Nc, Wc.
  apply nneg_B2R in Nc. change (bpow radix2 31) with 2147483648 in Wc. rewrite Rabs_pos_eq in Wc by exact Nc.
  destruct (fmul_fx c w Fc Fw) as (N & E). assert (P : 0 <= B2R c * B2R w <= 2147483648 * 2) by (split; [apply Rmult_le_pos; lra|apply Rmult_le_compat; lra]).
  destruct (fin_of_rnd_big _ _ N E ltac:(rewrite Rabs_pos_eq; lra)) as (F & V). change (fmul c w) with (gk j k) in F, V.
  pose proof (rnd_near (B2R c * B2R w)) as R. rewrite (Rabs_pos_eq (B2R c * B2R w)) in R by lra. rewrite <- V in R. unfold u24 in R.
  split; [apply nneg_iff; [now apply fin_nn|rewrite fx_fin, V by exact F; apply rnd_nonneg; lra]|]. split; [|exact R].
  split; [exact F|]. change (bpow radix2 33) with 8589934592. pose proof tiny_small as T. assert (bpow radix2 (-140) <= 1) by (apply (bpow_le radix2 (-140) 0); lia).
  apply Rabs_le_inv in R. apply Rabs_le. split; lra.
Qed.

Lemma share_01 : forall q j o, 0 <= share (B2R sigma) q j o <= 1.
Proof.
  intros q j o. unfold share. destruct (_ =? _)%Z; [|lra]. split; [left; apply exp_pos|]. rewrite <- exp_0.
  set (y := (q - IZR (note q + o)) * (q - IZR (note q + o))). assert (0 <= y) by apply Rle_0_sqr. set (T := 2 * B2R sigma * B2R sigma).
  assert (0 < T) by (unfold T; repeat apply Rmult_lt_0_compat; lra). assert (A : - y / T <= 0).
  { unfold Rdiv. assert (0 <= y * / T) by (apply Rmult_le_pos; [lra|left; now apply Rinv_0_lt_compat]). lra. }
  destruct A as [A | A]; [left; now apply exp_increasing|rewrite A; lra].
Qed.

Lemma bin_share : forall j k, (j < 12)%nat -> (k < length frame)%nat ->
  let S0 := if inside rate (bin_freq rate fft k) then strength (B2R (nth k frame f0)) else 0 in
  0 <= S0 <= bpow radix2 30 /\
  Rabs ((if pk j k then B2R (gk j k) else 0) - S0 * spread (B2R sigma) (pos_of k) j) <= / 11000 * S0 + tiny.
Proof.
  intros j k Hj Hk S0. destruct (frame_bin k Hk) as (Fm & Bm). destruct (contrib_val L (nth k frame f0) HP Fm Bm) as (Fc & Nc & _ & Rs & Es).
  change (pwr (6 / 10) (B2R (nth k frame f0))) with (strength (B2R (nth k frame f0))) in Rs, Es.
  assert (HS : 0 <= S0 <= bpow radix2 30) by (unfold S0; destruct (inside _ _); [exact Rs|split; [lra|apply bpow_ge_0]]).
  split; [exact HS|]. pose proof tiny_pos as T0.
  destruct (Rle_dec (B2R (nth k frame f0)) 0) as [Zr | Zr].
  - assert (St : strength (B2R (nth k frame f0)) = 0) by (unfold strength; destruct (Rle_dec _ 0); [reflexivity|lra]). rewrite St in Es.
    assert (S00 : S0 = 0) by (unfold S0; rewrite St; now destruct (inside _ _)). rewrite S00, !Rmult_0_r, Rmult_0_l, Rminus_0_r.
    unfold pk. destruct (used k) eqn:U; cbn [andb]; [|rewrite Rabs_R0; lra]. destruct (existsb _ _); [|rewrite Rabs_R0; lra].
    destruct (gk_val j k Hj Hk U) as (_ & _ & G). rewrite Rmult_0_r, Rminus_0_r in Es.
    assert (C0 : B2R (m_powf L (fmax (nth k frame f0) f0) (lit 5033165 (-23))) = 0) by (apply Rabs_le_inv in Es; lra).
    rewrite C0, Rmult_0_l, Rmult_0_r, Rminus_0_r in G. lra.
  - assert (M : 0 < B2R (nth k frame f0)) by lra. destruct (clear_class k Hk M) as (UI & _).
    unfold S0, pk. rewrite <- UI. destruct (used k) eqn:U; cbn [andb]; [|rewrite Rmult_0_l, Rminus_0_r, Rabs_R0; lra].
    rewrite (clear_nearest k Hk M U). fold (pos_of k). set (q := pos_of k).
    assert (Mt : forall o, ((note q mod 12 + o) mod 12 =? Z.of_nat j)%Z = ((note q + o) mod 12 =? Z.of_nat j)%Z) by (intros; now rewrite Z.add_mod_idemp_l by lia).
    cbn [existsb]. rewrite !Mt, orb_false_r.
    assert (Val : forall o, (-1 <= o <= 1)%Z -> ((note q + o) mod 12 =? Z.of_nat j)%Z = true ->
      Rabs (B2R (gk j k) - strength (B2R (nth k frame f0)) * share (B2R sigma) q j o) <= / 11000 * strength (B2R (nth k frame f0)) + tiny).
    { intros o Ho Eo. pose proof (share_01 q j o) as W1. unfold share in *. rewrite Eo in *. apply Z.eqb_eq in Eo.
      destruct (used_pc k Hk U) as (Fs & Vs & Fp & Rp & (i & Ei) & Rf). fold (pos_of k) in Vs. fold q in Vs.
      pose proof (Hc k Hk M) as (_ & _ & _ & C). rewrite <- UI in C. specialize (C eq_refl). fold (pos_of k) in C. fold q in C.
      destruct sg_val as (Fsg & Vsg).
      destruct (weight_val L sg (pc k) j HX Fsg ltac:(rewrite Vsg; exact Hg) Fp Rp Hj) as (_ & Rw & Vw). rewrite Vsg in Vw.
      set (s := B2R (semitone L tuning (ff k))) in *.
      specialize (Vw (s - IZR (note q + o)) (q - IZR (note q + o)) ((note q + o) / 12 - i)%Z).
      pose proof (Z.div_mod (note q + o) 12 ltac:(lia)) as DM. rewrite Eo in DM. apply (f_equal IZR) in DM. rewrite (plus_IZR (12 * _)), mult_IZR in DM.
      rewrite <- INR_IZR_INZ in DM. rewrite minus_IZR in Vw. 
      assert (Ro : -1 <= IZR o <= 1) by (split; apply IZR_le; lia). pose proof (plus_IZR (note q) o) as PO.
      apply Rabs_le_inv in Vs. apply Rabs_le_inv in C.
      specialize (Vw ltac:(lra) ltac:(apply Rabs_le; lra) ltac:(replace (s - IZR (note q + o) - (q - IZR (note q + o))) with (s - q) by ring; apply Rabs_le; lra)).
      destruct (gk_val j k Hj Hk U) as (_ & _ & G). set (w := B2R (soft_weight L sg (pc k) (Z.of_nat j))) in *.
      set (c := B2R (m_powf L (fmax (nth k frame f0) f0) (lit 5033165 (-23)))) in *. set (W := exp _) in *. set (S := strength _) in *.
      clearbody w c W S. apply Rabs_le_inv in Es.
      assert (C0 : 0 <= c <= 2 * S) by lra.
      assert (D1 : Rabs (c * w - S * W) <= / 120000 * S * (1000001 / 1000000) + S * (80 / 1000000)).
      { replace (c * w - S * W) with ((c - S) * w + S * (w - W)) by ring. eapply Rle_trans; [apply Rabs_triang|]. rewrite !Rabs_mult, (Rabs_pos_eq w), (Rabs_pos_eq S) by lra.
        apply Rplus_le_compat; [apply Rmult_le_compat; try lra; [apply Rabs_pos|apply Rabs_le; lra]|apply Rmult_le_compat_l; lra]. }
      assert (CW : c * w <= 2 * S * 2) by (apply Rmult_le_compat; lra).
      apply Rabs_le_inv in D1. apply Rabs_le_inv in G. apply Rabs_le. split; lra. }
    assert (Un : forall o o', (-1 <= o <= 1)%Z -> (-1 <= o' <= 1)%Z -> ((note q + o) mod 12 =? Z.of_nat j)%Z = true -> ((note q + o') mod 12 =? Z.of_nat j)%Z = true -> o = o').
    { intros o o' H1 H2 A B. apply Z.eqb_eq in A. apply Z.eqb_eq in B. pose proof (Z.div_mod (note q + o) 12 ltac:(lia)). pose proof (Z.div_mod (note q + o') 12 ltac:(lia)). lia. }
    assert (Z0 : forall o, ((note q + o) mod 12 =? Z.of_nat j)%Z = false -> share (B2R sigma) q j o = 0) by (intros o A; unfold share; now rewrite A).
    unfold spread.
    destruct ((note q + -1) mod 12 =? Z.of_nat j)%Z eqn:A1; [|destruct ((note q + 0) mod 12 =? Z.of_nat j)%Z eqn:A2; [|destruct ((note q + 1) mod 12 =? Z.of_nat j)%Z eqn:A3]]; cbn [orb].
    + rewrite (Z0 0%Z), (Z0 1%Z).
      * rewrite !Rplus_0_r. apply (Val (-1)%Z); [lia|exact A1].
      * apply not_true_iff_false. intros B. assert (Q := fun a b => Un _ _ a b A1 B). specialize (Q ltac:(lia) ltac:(lia)). discriminate Q.
      * apply not_true_iff_false. intros B. assert (Q := fun a b => Un _ _ a b A1 B). specialize (Q ltac:(lia) ltac:(lia)). discriminate Q.
    + rewrite (Z0 (-1)%Z A1), (Z0 1%Z).
      * rewrite Rplus_0_l, Rplus_0_r. apply (Val 0%Z); [lia|exact A2].
      * apply not_true_iff_false. intros B. assert (Q := fun a b => Un _ _ a b A2 B). specialize (Q ltac:(lia) ltac:(lia)). discriminate Q.
    + rewrite (Z0 (-1)%Z A1), (Z0 0%Z A2), !Rplus_0_l. apply (Val 1%Z); [lia|exact A3].
    + rewrite (Z0 (-1)%Z A1), (Z0 0%Z A2), (Z0 1%Z A3), !Rplus_0_l, Rmult_0_r, Rminus_0_r, Rabs_R0. lra.
Qed.

Let total := sumn (fun k => if inside rate (bin_freq rate fft k) then strength (B2R (nth k frame f0)) else 0) (length frame).
Let E j := spread_strength rate fft (B2R sigma) (B2R tuning) (fun k => B2R (nth k frame f0)) (length frame) j.

Lemma E_eq : forall j, E j = sumn (fun k => (if inside rate (bin_freq rate fft k) then strength (B2R (nth k frame f0)) else 0) * spread (B2R sigma) (pos_of k) j) (length frame).
Proof. intros j. apply sumn_ext. intros k Hk. unfold pos_of. destruct (inside _ _); [reflexivity|ring]. Qed.

Lemma soft_energy : forall j, (j < 12)%nat ->
  let e := fold_left fadd (map (gk j) (filter (pk j) (seq 0 (length frame)))) f0 in
  fin e /\ nneg e /\ 0 <= E j <= 3 * total /\ 0 <= total <= INR (length frame) * bpow radix2 30 /\
  Rabs (B2R e - E j) <= INR (length frame) / 6000000 * E j + 102 / 100 * (/ 11000 * total + INR (length frame) * tiny).
Proof.
  intros j Hj e. set (n := length frame). assert (I : 0 <= INR n <= 65536) by (split; [apply pos_INR|rewrite INR_IZR_INZ; apply IZR_le; unfold n; lia]).
  destruct (filter_sum (pk j) (gk j) (fun k => B2R (gk j k)) n 0 33) as (Fe & Ne & S00 & Ee); [unfold n; lia|lra|lia| |].
  { intros k Hk P. unfold pk in P. apply andb_true_iff in P. destruct P as (U & _). destruct (gk_val j k Hj Hk U) as (A & B & _).
    split; [exact A|]. split; [exact B|]. split; [now apply nneg_B2R|]. rewrite Rminus_diag_eq, Rabs_R0 by reflexivity. lra. }
  fold n in e. fold e in Fe, Ne, Ee. set (S1 := sumn (fun i => if pk j i then B2R (gk j i) else 0) n) in *.
  split; [exact Fe|]. split; [exact Ne|].
  assert (Tt : 0 <= total <= INR n * bpow radix2 30).
  { unfold total. fold n. split; [apply sumn_nonneg; intros k Hk; apply (bin_share 0 k ltac:(lia) Hk)|]. rewrite <- sumn_const. apply sumn_le. intros k Hk. apply (bin_share 0 k ltac:(lia) Hk). }
  assert (Sp : forall k, 0 <= spread (B2R sigma) (pos_of k) j <= 3).
  { intros k. unfold spread. pose proof (share_01 (pos_of k) j (-1)). pose proof (share_01 (pos_of k) j 0). pose proof (share_01 (pos_of k) j 1). lra. }
  assert (E0 : 0 <= E j <= 3 * total).
  { rewrite E_eq. unfold total. fold n. rewrite <- sumn_scal. split.
    - apply sumn_nonneg. intros k Hk. apply Rmult_le_pos; [apply (bin_share 0 k ltac:(lia) Hk)|apply Sp].
    - apply sumn_le. intros k Hk. rewrite Rmult_comm. destruct (bin_share 0 k ltac:(lia) Hk) as (B & _). apply Rmult_le_compat_r; [apply B|apply Sp]. }
  split; [exact E0|]. split; [exact Tt|].
  assert (D : Rabs (S1 - E j) <= / 11000 * total + INR n * tiny).
  { rewrite E_eq. fold n. unfold S1. rewrite SpectrumFacts.sumn_minus. eapply Rle_trans; [apply sumn_abs|]. unfold total. fold n.
    rewrite <- sumn_scal, <- sumn_const, <- sumn_plus. apply sumn_le. intros k Hk. apply (bin_share j k Hj Hk). }
  rewrite Rplus_0_l in Ee. set (rho := INR n / 6000000) in *. assert (Hrho : 0 <= rho <= 11 / 1000) by (unfold rho; lra).
  set (dd := / 11000 * total + INR n * tiny) in *. apply Rabs_le_inv in D. apply Rabs_le_inv in Ee.
  assert (RS : rho * S1 <= rho * (E j + dd)) by (apply Rmult_le_compat_l; lra).
  assert (D0 : 0 <= dd) by lra. assert (RD : rho * dd <= 11 / 1000 * dd) by (apply Rmult_le_compat_r; lra). clearbody rho dd S1. apply Rabs_le. split; lra.
Qed.

Lemma total_le : total <= 7 * length12 E.
Proof.
  assert (A : / 2 * total <= sumn E 12).
  { rewrite (sumn_ext E _ 12 (fun j _ => E_eq j)). rewrite sumn_swap. unfold total. rewrite <- sumn_scal. apply sumn_le. intros k Hk.
    set (S0 := if inside rate (bin_freq rate fft k) then strength (B2R (nth k frame f0)) else 0).
    rewrite sumn_scal. destruct (bin_share 0 k ltac:(lia) Hk) as (B & _). fold S0 in B.
    destruct (Rle_dec (B2R (nth k frame f0)) 0) as [Zr | Zr].
    { assert (S00 : S0 = 0) by (unfold S0, strength; destruct (Rle_dec _ 0); [now destruct (inside _ _)|lra]). rewrite S00. lra. }
    destruct (inside rate (bin_freq rate fft k)) eqn:I; [|unfold S0; lra].
    pose proof (Hc k Hk ltac:(lra)) as (_ & _ & _ & C). specialize (C I). fold (pos_of k) in C. set (q := pos_of k) in *.
    rewrite (Rmult_comm (/ 2)). apply Rmult_le_compat_l; [lra|].
    set (j := Z.to_nat (note q mod 12)). pose proof (Z.mod_pos_bound (note q) 12 ltac:(lia)) as Mb. assert (Hj : (j < 12)%nat) by (unfold j; lia).
    assert (Sp : forall i, 0 <= share (B2R sigma) q i (-1) /\ 0 <= share (B2R sigma) q i 0 /\ 0 <= share (B2R sigma) q i 1) by (intros; repeat split; apply share_01).
    eapply Rle_trans; [|apply (sumn_term (fun i => spread (B2R sigma) q i) 12 j); [intros i _; unfold spread; destruct (Sp i) as (? & ? & ?); lra|exact Hj]].
    cbv beta. unfold spread. destruct (Sp j) as (P1 & _ & P3). enough (/ 2 <= share (B2R sigma) q j 0) by lra. unfold share. rewrite Z.add_0_r.
    replace (note q mod 12 =? Z.of_nat j)%Z with true by (symmetry; apply Z.eqb_eq; unfold j; rewrite Z2Nat.id; lia).
    set (x := q - IZR (note q)) in *. set (T := 2 * B2R sigma * B2R sigma).
    assert (HT : / 2 <= T). { unfold T. assert (/ 2 * / 2 <= B2R sigma * B2R sigma) by (apply Rmult_le_compat; lra). lra. }
    assert (X2 : 0 <= x * x <= / 4). { split; [apply Rle_0_sqr|]. apply Rabs_le_inv in C. nra. }
    eapply Rle_trans; [|apply exp_ineq1_le]. assert (- / 2 <= - (x * x) / T); [|lra].
    apply Rmult_le_reg_r with T; [lra|]. replace (- (x * x) / T * T) with (- (x * x)) by (field; lra). lra. }
  assert (CS : sumn E 12 * sumn E 12 <= 12 * sumn (fun i => E i * E i) 12).
  { set (m := sumn E 12 / 12). pose proof (sumn_nonneg (fun i => (E i - m) * (E i - m)) 12 ltac:(intros; apply Rle_0_sqr)) as Q.
    rewrite (sumn_ext _ (fun i => E i * E i + (- (2 * m) * E i + m * m))) in Q by (intros; ring). rewrite !sumn_plus, sumn_scal, sumn_const in Q.
    replace (INR 12) with 12 in Q by (rewrite INR_IZR_INZ; reflexivity). unfold m in Q. lra. }
  unfold length12. set (v := sumn (fun i => E i * E i) 12) in *. set (x := sumn E 12) in *.
  assert (V0 : 0 <= v) by (apply sumn_nonneg; intros; apply Rle_0_sqr). assert (X : x <= 35 / 10 * sqrt v).
  { pose proof (sqrt_pos v) as P. pose proof (sqrt_sqrt v V0) as Q. destruct (Rle_or_lt x (35 / 10 * sqrt v)) as [A1 | A1]; [exact A1|]. exfalso.
    assert ((35 / 10 * sqrt v) * (35 / 10 * sqrt v) < x * x \/ v = 0).
    { destruct (Req_dec v 0); [now right|left]. apply Rmult_le_0_lt_compat; lra. }
    destruct H as [H | H]; [nra|]. rewrite H, sqrt_0 in A1. nra. }
  lra.
Qed.
End Frame.

(** Hard assignment: every chroma value is, to within n/2700000 + 1/30000 for n frequency bins, the strength of its pitch
    class divided by the length of the vector of strengths. *)
Theorem C88_hard : forall L rate fft sigma tuning frame,
  pow_accurate (m_powf L) (/ 1048576) -> log2_accurate (m_log2 L) (/ 1048576) ->
  (1000 <= Z.of_nat rate <= 200000)%Z -> (1 <= Z.of_nat fft <= 65536)%Z -> (length frame <= fft)%nat ->
  fin tuning -> Rabs (B2R tuning) <= 1 -> Forall (fun m => fin m /\ B2R m <= 1125899906842624) frame ->
  (forall k, (k < length frame)%nat -> 0 < B2R (nth k frame f0) -> clear_of_edges rate (B2R tuning) (bin_freq rate fft k)) ->
  let E := class_strength rate fft (B2R tuning) (fun k => B2R (nth k frame f0)) (length frame) in
  / 1073741824 <= length12 E ->
  exists c, frame_to_chroma L rate fft false sigma tuning frame = Ok c /\ length c = 12%nat /\
    forall j, (j < 12)%nat -> fin (nth j c f0) /\
      Rabs (B2R (nth j c f0) - E j / length12 E) <= INR (length frame) / 2700000 + / 30000.
Proof.
  intros L rate fft sigma tuning frame HP HG Hr Hf Hn Ft Ht Hm Hc E HE.
  rewrite C59_hard_content by lia. cbv zeta. set (energy := fun j => fold_left fadd _ f0).
  assert (I : 0 <= INR (length frame) <= 65536) by (split; [apply pos_INR|rewrite INR_IZR_INZ; apply IZR_le; lia]).
  set (rho := / 120000 + INR (length frame) / 6000000).
  assert (En : forall j, fin (energy j) /\ nneg (energy j) /\ 0 <= E j /\ Rabs (B2R (energy j) - E j) <= rho * E j).
  { intros j. exact (hard_energy L rate fft tuning frame HP HG Hr Hf Hn Ft Ht Hm Hc j). }
  assert (Wn : forall j, within 55 (energy j)).
  { intros j. unfold energy. split; [apply En|]. destruct (En j) as (Fj & Nj & E0 & Ej).
    assert (Ub : E j <= INR (length frame) * bpow radix2 30).
    { unfold E, class_strength. rewrite <- sumn_const. apply sumn_le. intros k Hk.
      destruct (frame_bin frame Hm k Hk) as (Fm & Bm). destruct (contrib_val L (nth k frame f0) HP Fm Bm) as (_ & _ & _ & D & _).
      change (pwr (6 / 10) (B2R (nth k frame f0))) with (strength (B2R (nth k frame f0))) in D. destruct (_ && _); [lra|apply bpow_ge_0]. }
    change (bpow radix2 30) with 1073741824 in Ub. change (bpow radix2 55) with 36028797018963968.
    change (Rabs (B2R (energy j)) <= 36028797018963968). apply Rabs_le_inv in Ej.
    assert (rho * E j <= 1 * E j) by (apply Rmult_le_compat_r; [exact E0|unfold rho; lra]). apply Rabs_le. split; lra. }
  assert (Nt : forall i, (i < 12)%nat -> nth i (map energy (seq 0 12)) f0 = energy i).
  { intros i Hi. rewrite (nth_indep _ f0 (energy 0%nat)) by (rewrite map_length, seq_length; exact Hi). rewrite map_nth, seq_nth by exact Hi. reflexivity. }
  destruct (unit_val (map energy (seq 0 12)) E rho 0) as (Lc & Hj).
  - now rewrite map_length, seq_length.
  - apply Forall_map, Forall_forall. intros i _. split; [apply En|apply Wn].
  - unfold rho. lra.
  - lra.
  - intros i _. apply En.
  - change (bpow radix2 (-30)) with (/ 1073741824). exact HE.
  - intros i Hi. rewrite Nt by exact Hi. destruct (En i) as (_ & _ & _ & A). lra.
  - eexists. split; [reflexivity|]. split; [exact Lc|]. intros j Hj'. destruct (Hj j Hj') as (Fj & Vj). split; [exact Fj|].
    change (nrm E) with (length12 E) in Vj. eapply Rle_trans; [exact Vj|]. unfold rho. lra.
Qed.
Print Assumptions C88_hard.

(** Soft assignment with a spread between half a semitone and four: the same with the Gaussian shares, to within
    n/2700000 + 1/300. *)
Theorem C88_soft : forall L rate fft sigma tuning frame,
  pow_accurate (m_powf L) (/ 1048576) -> log2_accurate (m_log2 L) (/ 1048576) -> BayesianLikelihoodProps.exp_accurate (m_exp L) (/ 1048576) ->
  (1000 <= Z.of_nat rate <= 200000)%Z -> (1 <= Z.of_nat fft <= 65536)%Z -> (length frame <= fft)%nat ->
  fin sigma -> / 2 <= B2R sigma <= 4 ->
  fin tuning -> Rabs (B2R tuning) <= 1 -> Forall (fun m => fin m /\ B2R m <= 1125899906842624) frame ->
  (forall k, (k < length frame)%nat -> 0 < B2R (nth k frame f0) -> clear_of_edges rate (B2R tuning) (bin_freq rate fft k)) ->
  let E := spread_strength rate fft (B2R sigma) (B2R tuning) (fun k => B2R (nth k frame f0)) (length frame) in
  / 1073741824 <= length12 E ->
  exists c, frame_to_chroma L rate fft true sigma tuning frame = Ok c /\ length c = 12%nat /\
    forall j, (j < 12)%nat -> fin (nth j c f0) /\
      Rabs (B2R (nth j c f0) - E j / length12 E) <= INR (length frame) / 2700000 + / 300.
Proof.
  intros L rate fft sigma tuning frame HP HG HX Hr Hf Hn Fg Hg Ft Ht Hm Hc E HE.
  rewrite C59_soft_content by lia. cbv zeta. set (energy := fun j => fold_left fadd _ f0).
  assert (I : 0 <= INR (length frame) <= 65536) by (split; [apply pos_INR|rewrite INR_IZR_INZ; apply IZR_le; lia]).
  set (rho := INR (length frame) / 6000000). 
  set (total := sumn (fun k => if inside rate (bin_freq rate fft k) then strength (B2R (nth k frame f0)) else 0) (length frame)).
  assert (En : forall j, (j < 12)%nat -> fin (energy j) /\ nneg (energy j) /\ 0 <= E j <= 3 * total /\ 0 <= total <= INR (length frame) * bpow radix2 30 /\
    Rabs (B2R (energy j) - E j) <= rho * E j + 102 / 100 * (/ 11000 * total + INR (length frame) * tiny)).
  { intros j Hj. exact (soft_energy L rate fft tuning frame HP HG Hr Hf Hn Ft Ht Hm Hc sigma HX Fg Hg j Hj). }
  assert (TL : total <= 7 * length12 E) by exact (total_le L rate fft tuning frame HP HG Hr Hf Hn Ft Ht Hm Hc sigma HX Fg Hg).
  set (N := length12 E) in *.
  assert (NT : INR (length frame) * tiny <= / 10000000 * N).
  { assert (T : tiny <= bpow radix2 (-80)) by (apply bpow_le; lia).
    apply Rle_trans with (65536 * bpow radix2 (-80)); [apply Rmult_le_compat; try lra; left; apply tiny_pos|].
    apply Rle_trans with (/ 10000000 * / 1073741824); [|apply Rmult_le_compat_l; lra]. change 65536 with (bpow radix2 16). rewrite <- bpow_plus.
    change (bpow radix2 (16 + -80)) with (/ 18446744073709551616). lra. }
  assert (Nt : forall i, (i < 12)%nat -> nth i (map energy (seq 0 12)) f0 = energy i).
  { intros i Hi. rewrite (nth_indep _ f0 (energy 0%nat)) by (rewrite map_length, seq_length; exact Hi). rewrite map_nth, seq_nth by exact Hi. reflexivity. }
  destruct (unit_val (map energy (seq 0 12)) E rho (65 / 100000)) as (Lc & Hj).
  - now rewrite map_length, seq_length.
  - apply Forall_map, Forall_forall. intros i Hi. apply in_seq in Hi. destruct (En i ltac:(lia)) as (Fi & Ni & E0 & T0 & Ei). split; [exact Ni|]. split; [exact Fi|].
    change (bpow radix2 30) with 1073741824 in T0. change (bpow radix2 55) with 36028797018963968.
    assert (INR (length frame) * tiny <= 1).
    { apply Rle_trans with (65536 * bpow radix2 (-80)); [apply Rmult_le_compat; try lra; [left; apply tiny_pos|apply bpow_le; lia]|]. change (bpow radix2 (-80)) with (/ 1208925819614629174706176). lra. }
    apply Rabs_le_inv in Ei. assert (rho * E i <= 1 * E i) by (apply Rmult_le_compat_r; [lra|unfold rho; lra]). assert (0 <= rho * E i) by (apply Rmult_le_pos; [unfold rho; lra|lra]).
    apply Rabs_le. split; [apply nneg_B2R in Ni; lra|]. lra.
  - unfold rho. lra.
  - lra.
  - intros i Hi. apply (En i Hi).
  - change (bpow radix2 (-30)) with (/ 1073741824). exact HE.
  - intros i Hi. rewrite Nt by exact Hi. destruct (En i Hi) as (_ & _ & _ & _ & A). change (nrm E) with N. eapply Rle_trans; [exact A|].
    apply Rplus_le_compat_l. lra.
  - eexists. split; [reflexivity|]. split; [exact Lc|]. intros j Hj'. destruct (Hj j Hj') as (Fj & Vj). split; [exact Fj|].
    change (nrm E) with N in Vj. eapply Rle_trans; [exact Vj|]. unfold rho. lra.
Qed.
Print Assumptions C88_soft.

(** A frame whose audible bins all belong to one pitch class a, in whatever octaves: the chroma vector is 1 there and 0 elsewhere. *)
Theorem C88_one_class : forall L rate fft sigma tuning frame a,
  pow_accurate (m_powf L) (/ 1048576) -> log2_accurate (m_log2 L) (/ 1048576) ->
  (1000 <= Z.of_nat rate <= 200000)%Z -> (1 <= Z.of_nat fft <= 65536)%Z -> (length frame <= fft)%nat ->
  fin tuning -> Rabs (B2R tuning) <= 1 -> Forall (fun m => fin m /\ B2R m <= 1125899906842624) frame -> (a < 12)%nat ->
  (forall k, (k < length frame)%nat -> 0 < B2R (nth k frame f0) ->
    let f := bin_freq rate fft k in
    clear_of_edges rate (B2R tuning) f /\ (inside rate f = true -> (note (scale_pos (B2R tuning) f) mod 12 = Z.of_nat a)%Z)) ->
  (exists k, (k < length frame)%nat /\ inside rate (bin_freq rate fft k) = true /\ / 1073741824 <= strength (B2R (nth k frame f0))) ->
  exists c, frame_to_chroma L rate fft false sigma tuning frame = Ok c /\ length c = 12%nat /\
    forall j, (j < 12)%nat -> Rabs (B2R (nth j c f0) - (if (j =? a)%nat then 1 else 0)) <= INR (length frame) / 2700000 + / 30000.
Proof.
  intros L rate fft sigma tuning frame a HP HG Hr Hf Hn Ft Ht Hm Ha Hc (k0 & K0 & I0 & S0).
  set (E := class_strength rate fft (B2R tuning) (fun k => B2R (nth k frame f0)) (length frame)).
  assert (P0 : forall m, 0 <= strength m) by (intros m; unfold strength; destruct (Rle_dec m 0); [lra|left; apply exp_pos]).
  assert (Ez : forall j, (j < 12)%nat -> j <> a -> E j = 0).
  { intros j Hj Na. unfold E, class_strength. transitivity (sumn (fun _ => 0) (length frame)); [|apply sumn_0]. apply sumn_ext. intros k Hk.
    destruct (Rle_dec (B2R (nth k frame f0)) 0) as [Z | Z].
    - unfold strength. destruct (Rle_dec _ 0); [now destruct (_ && _)|lra].
    - destruct (Hc k Hk ltac:(lra)) as (_ & C). destruct (inside rate (bin_freq rate fft k)); [|reflexivity]. rewrite (C eq_refl).
      replace (Z.of_nat a =? Z.of_nat j)%Z with false; [reflexivity|]. symmetry. apply Z.eqb_neq. lia. }
  assert (Ea : / 1073741824 <= E a).
  { eapply Rle_trans; [exact S0|]. unfold E, class_strength.
    set (g := fun k => if inside rate (bin_freq rate fft k) && (note (scale_pos (B2R tuning) (bin_freq rate fft k)) mod 12 =? Z.of_nat a)%Z then strength (B2R (nth k frame f0)) else 0).
    assert (G : g k0 = strength (B2R (nth k0 frame f0))).
    { unfold g. rewrite I0. destruct (Rle_dec (B2R (nth k0 frame f0)) 0) as [Z | Z].
      - exfalso. unfold strength in S0. destruct (Rle_dec _ 0); lra.
      - destruct (Hc k0 K0 ltac:(lra)) as (_ & C). rewrite (C I0), Z.eqb_refl. reflexivity. }
    rewrite <- G. apply (sumn_term g); [|exact K0]. intros k Hk. unfold g. destruct (_ && _); [apply P0|lra]. }
  assert (Eq : sumn (fun i => E i * E i) 12 = E a * E a).
  { rewrite (sumn_ext _ (fun i => if (i =? a)%nat then E i * E i else 0)).
    - rewrite (sumn_pick (fun i => E i * E i)). destruct (Nat.ltb_spec a 12); [reflexivity|lia].
    - intros i Hi. destruct (Nat.eqb_spec i a) as [-> | N]; [reflexivity|]. rewrite (Ez i Hi N). ring. }
  assert (El : length12 E = E a) by (unfold length12; rewrite Eq; apply sqrt_square; lra).
  destruct (C88_hard L rate fft sigma tuning frame HP HG Hr Hf Hn Ft Ht Hm) as (c & C1 & C2 & C3).
  - intros k Hk M. apply (Hc k Hk M).
  - fold E. rewrite El. exact Ea.
  - exists c. split; [exact C1|]. split; [exact C2|]. intros j Hj. destruct (C3 j Hj) as (_ & V). fold E in V. rewrite El in V.
    destruct (Nat.eqb_spec j a) as [-> | N].
    + replace (E a / E a) with 1 in V by (field; lra). exact V.
    + rewrite (Ez j Hj N) in V. unfold Rdiv in V at 1. rewrite Rmult_0_l in V. exact V.
Qed.
Print Assumptions C88_one_class.

(** Octaves share their pitch class, and concert pitch is an A. *)
Lemma C88_octave : forall t f, 0 < f -> scale_pos t (2 * f) = scale_pos t f + 12.
Proof.
  intros t f F. unfold scale_pos. replace (2 * f / 440) with (2 * (f / 440)) by field. rewrite ln_mult by lra. pose proof ln2_ge. field. lra.
Qed.
Lemma note_of : forall q p, Rabs (q - IZR p) < / 2 -> note q = p.
Proof. intros q p H. apply Rabs_lt_inv in H. unfold note. apply Zfloor_imp. rewrite plus_IZR. lra. Qed.

(** The accuracy hypotheses hold of correctly rounded functions. *)
Definition pitch_platform : libm :=
  {| m_powf := fun x y => nearest_f32 (pwr (B2R y) (B2R x)); m_log10 := m_log10 exact_libm; m_log2 := m_log2 exact_libm; m_ln := m_ln exact_libm;
     m_exp := m_exp exact_libm; m_sin := m_sin exact_libm; m_cos := m_cos exact_libm |}.
Lemma q06_val : B2R (lit 5033165 (-23)) = q06.
Proof.
  rewrite <- SF2R_B2SF. replace (B2SF (lit 5033165 (-23))) with (SpecFloat.S754_finite false 10066330 (-24)) by (vm_compute; reflexivity).
  cbn [SF2R cond_Zopp]. unfold F2R, q06. cbn [Fnum Fexp]. simpl. lra.
Qed.
Lemma C88_platform : pow_accurate (m_powf pitch_platform) (/ 1048576) /\ log2_accurate (m_log2 pitch_platform) (/ 1048576) /\
  BayesianLikelihoodProps.exp_accurate (m_exp pitch_platform) (/ 1048576).
Proof.
  assert (Tn : tiny = bpow radix2 (-150)) by reflexivity. split; [|split].
  - intros x F H. cbn [pitch_platform m_powf]. rewrite q06_val. destruct (pwr_near x F H) as (W & D). apply Rabs_le_inv in D.
    set (v := pwr q06 (B2R x)) in *. assert (V0 : 0 <= v <= bpow radix2 31).
    { change (bpow radix2 31) with 2147483648. change (bpow radix2 30) with 1073741824 in W. lra. }
    assert (B : Rabs v <= bpow radix2 120) by (rewrite Rabs_pos_eq by lra; apply Rle_trans with (bpow radix2 31); [lra|apply bpow_le; lia]).
    destruct (nearest_f32_near v B) as (Fn & En). split; [exact Fn|]. rewrite (Rabs_pos_eq v) in En by lra.
    destruct (Rle_dec (B2R x) 0) as [Z | Z].
    + assert (V : v = 0) by (unfold v, pwr; destruct (Rle_dec _ 0); [reflexivity|lra]). rewrite V in *. rewrite Rmult_0_r, Rminus_0_r in *.
      replace (nearest_f32 0) with f0; [change (B2R f0) with 0; rewrite Rabs_R0; lra|].
      symmetry. unfold nearest_f32. replace (scaled_mantissa radix2 fexp32 0) with 0 by (unfold scaled_mantissa; now rewrite Rmult_0_l).
      rewrite (Znearest_imp _ 0 0) by (rewrite Rminus_0_r, Rabs_R0; lra). apply B2SF_inj. unfold lit. generalize (cexp radix2 fexp32 0). intros z. destruct z; reflexivity.
    + pose proof (pos_float_ge x F ltac:(lra)) as Px.
      assert (V : bpow radix2 (-90) <= v).
      { unfold v, pwr. destruct (Rle_dec _ 0); [lra|]. rewrite <- (exp_ln (bpow radix2 (-90))) by apply bpow_gt_0. unfold Rpower. rewrite ln_bpow.
        assert (Lx : -149 * ln 2 <= ln (B2R x)). { rewrite <- ln_bpow. destruct Px as [P | P]; [left; apply ln_increasing; [apply bpow_gt_0|exact P]|rewrite P; lra]. }
        pose proof ln2_ge as L2. assert (A : -90 * ln 2 < q06 * ln (B2R x)); [|left; now apply exp_increasing].
        assert (q06 * (-149 * ln 2) <= q06 * ln (B2R x)) by (apply Rmult_le_compat_l; [unfold q06; lra|exact Lx]). unfold q06 in *. lra. }
      assert (T : tiny <= / 4194304 * v).
      { rewrite Tn. apply Rle_trans with (/ 4194304 * bpow radix2 (-90)); [|apply Rmult_le_compat_l; lra].
        change (/ 4194304) with (bpow radix2 (-22)). rewrite <- bpow_plus. apply bpow_le. lia. }
      unfold u24 in En. lra.
  - intros x F H. cbn [pitch_platform m_log2 exact_libm]. pose proof (lg_range (B2R x) H) as R. fold (lg (B2R x)).
    destruct (nearest_f32_near (lg (B2R x))) as (Fn & En).
    + apply Rle_trans with (bpow radix2 2); [simpl; apply Rabs_le; lra|apply bpow_le; lia].
    + split; [exact Fn|]. assert (tiny <= / 4194304) by (rewrite Tn; change (/ 4194304) with (bpow radix2 (-22)); apply bpow_le; lia).
      assert (Rabs (lg (B2R x)) <= 4) by (apply Rabs_le; lra). unfold u24 in En. lra.
  - intros x F H. destruct (BayesianLikelihoodProps.exact_exp x F H) as (A & B & C). split; [exact A|]. split; [exact B|]. eapply Rle_trans; [exact C|]. lra.
Qed.

(** An A at 440 Hz and an E at 1320 Hz, equally loud: 1/sqrt 2 in the classes 9 and 4, nothing elsewhere. *)
Example C88_case : forall L sigma, pow_accurate (m_powf L) (/ 1048576) -> log2_accurate (m_log2 L) (/ 1048576) ->
  exists c, frame_to_chroma L 4400 10 false sigma f0 [f0; f1; f0; f1] = Ok c /\ length c = 12%nat /\
    forall j, (j < 12)%nat -> Rabs (B2R (nth j c f0) - (if (j =? 9)%nat || (j =? 4)%nat then / sqrt 2 else 0)) <= / 20000.
Proof.
  intros L sigma HP HG. assert (V0 : B2R f0 = 0) by reflexivity. assert (F1 : fin f1) by reflexivity.
  assert (V1 : B2R f1 = 1) by (change f1 with (z2f 1); now destruct (z2f_exact 1 ltac:(lia))).
  assert (IN : forall n, INR n = IZR (Z.of_nat n)) by apply INR_IZR_INZ.
  assert (B1 : bin_freq 4400 10 1 = 440) by (unfold bin_freq; rewrite !IN; vm_compute Z.of_nat; lra).
  assert (B3 : bin_freq 4400 10 3 = 1320) by (unfold bin_freq; rewrite !IN; vm_compute Z.of_nat; lra).
  assert (R2 : INR 4400 / 2 = 2200) by (rewrite IN; vm_compute Z.of_nat; lra).
  assert (I1 : inside 4400 440 = true) by (unfold inside; rewrite R2, !Rle_bool_true, Rlt_bool_true by lra; reflexivity).
  assert (I3 : inside 4400 1320 = true) by (unfold inside; rewrite R2, !Rle_bool_true, Rlt_bool_true by lra; reflexivity).
  assert (P1 : scale_pos 0 440 = 57) by (unfold scale_pos; replace (440 / 440) with 1 by field; rewrite ln_1; lra).
  assert (P3 : Rabs (scale_pos 0 1320 - 76) <= 42 / 1000).
  { unfold scale_pos. replace (1320 / 440) with 3 by field. pose proof ln2_ge as L2.
    replace (12 * (ln 3 / ln 2) + 57 - 0 - 76) with (lg (3 ^ 12) - lg (2 ^ 19)).
    - eapply Rle_trans; [apply (lg_near (2 ^ 19) (3 ^ 12) (14 / 1000)); [lra|lra|apply Rabs_le; lra]|]. lra.
    - unfold lg. rewrite !ln_pow by lra. rewrite !IN. vm_compute Z.of_nat. field. lra. }
  assert (N1 : note (scale_pos 0 440) = 57%Z) by (apply note_of; rewrite P1, Rminus_diag_eq, Rabs_R0 by reflexivity; lra).
  assert (N3 : note (scale_pos 0 1320) = 76%Z) by (apply note_of; lra).
  set (fr := [f0; f1; f0; f1]).
  set (E := class_strength 4400 10 (B2R f0) (fun k => B2R (nth k fr f0)) (length fr)).
  assert (S1 : strength 1 = 1) by (unfold strength; destruct (Rle_dec 1 0); [lra|unfold Rpower; rewrite ln_1, Rmult_0_r; apply exp_0]).
  assert (S0 : strength 0 = 0) by (unfold strength; destruct (Rle_dec 0 0); [reflexivity|lra]).
  assert (EV : forall j, E j = (if (57 mod 12 =? Z.of_nat j)%Z then 1 else 0) + (if (76 mod 12 =? Z.of_nat j)%Z then 1 else 0)).
  { intros j. unfold E, class_strength. cbn [length fr sumn nth]. rewrite B1, B3, !V0, !V1, I1, I3, N1, N3, S1, S0. cbn [andb].
    repeat (match goal with |- context [if ?b then 0 else 0] => replace (if b then 0 else 0) with 0 by now destruct b end). lra. }
  assert (E2 : length12 E = sqrt 2).
  { unfold length12. f_equal. cbn [sumn]. rewrite !EV. change (57 mod 12)%Z with 9%Z. change (76 mod 12)%Z with 4%Z. cbn [Z.eqb Z.of_nat Pos.of_succ_nat Pos.succ Pos.eqb]. lra. }
  assert (Q2 : 1 <= sqrt 2) by (rewrite <- sqrt_1 at 1; apply sqrt_le_1_alt; lra).
  assert (Cl : forall k, (k < length fr)%nat -> 0 < B2R (nth k fr f0) -> clear_of_edges 4400 (B2R f0) (bin_freq 4400 10 k)).
  { intros k Hk M. unfold clear_of_edges. rewrite V0, R2. destruct k as [|[|[|[|k]]]]; cbn [nth fr length] in Hk, M; try lia; rewrite ?V0 in M; try lra.
    - rewrite B1, N1, P1. rewrite (Rabs_pos_eq (440 - 100)), (Rabs_left (440 - 5000)), (Rabs_left (440 - 2200)), (Rabs_pos_eq (57 - 57)) by lra. repeat split; intros; lra.
    - rewrite B3, N3. rewrite (Rabs_pos_eq (1320 - 100)), (Rabs_left (1320 - 5000)), (Rabs_left (1320 - 2200)) by lra. repeat split; intros; lra. }
  assert (Fr : Forall (fun m => fin m /\ B2R m <= 1125899906842624) fr).
  { unfold fr. assert (A0 : fin f0 /\ B2R f0 <= 1125899906842624) by (split; [reflexivity|lra]). assert (A1 : fin f1 /\ B2R f1 <= 1125899906842624) by (split; [reflexivity|lra]).
    apply Forall_cons; [exact A0|]. apply Forall_cons; [exact A1|]. apply Forall_cons; [exact A0|]. apply Forall_cons; [exact A1|]. apply Forall_nil. }
  destruct (C88_hard L 4400 10 sigma f0 fr HP HG ltac:(vm_compute; split; discriminate) ltac:(vm_compute; split; discriminate) ltac:(cbn [length fr]; lia) eq_refl ltac:(rewrite V0, Rabs_R0; lra) Fr Cl) as (c & C1 & C2 & C3).
  - fold E. rewrite E2. lra.
  - exists c. split; [exact C1|]. split; [exact C2|]. intros j Hj. destruct (C3 j Hj) as (_ & V). fold E in V. rewrite E2, EV in V.
    replace (INR (length fr)) with 4 in V by (rewrite IN; reflexivity). change (57 mod 12)%Z with 9%Z in V. change (76 mod 12)%Z with 4%Z in V.
    eapply Rle_trans; [|eapply Rle_trans; [exact V|lra]]. right. do 2 f_equal.
    do 12 (destruct j as [|j]; [cbn [Nat.eqb orb Z.eqb Z.of_nat Pos.of_succ_nat Pos.succ Pos.eqb]; unfold Rdiv; ring|]). lia.
Qed.
