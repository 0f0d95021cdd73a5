(** C96: the chroma vector does not depend on the volume. *)
From Coq Require Import ZArith Reals Lra Lia List.
From Flocq Require Import Core IEEE754.BinarySingleNaN.
From Verif Require Import Rust F32 F32Facts F32More ListFacts Bounds Libm Chroma FourierFacts ChromaPitchFacts ChromaPitchProps.
From Verif Require BayesianLikelihoodProps.
Import ListNotations.
Local Open Scope R_scope.

Lemma strength_scaled : forall g m, 0 < g -> strength (g * m) = Rpower g (6 / 10) * strength m.
Proof.
  intros g m G. unfold strength. destruct (Rle_dec m 0) as [H | H].
  - destruct (Rle_dec (g * m) 0) as [_ | N]; [ring|]. exfalso. apply N. rewrite <- (Rmult_0_r g). apply Rmult_le_compat_l; lra.
  - destruct (Rle_dec (g * m) 0) as [N | _]; [exfalso; assert (0 < g * m) by (apply Rmult_lt_0_compat; lra); lra|].
    symmetry. apply Rpower_mult_distr; lra.
Qed.
Lemma length12_scaled : forall a x y, 0 <= a -> (forall j, y j = a * x j) -> length12 y = a * length12 x.
Proof.
  intros a x y Ha E. unfold length12. rewrite (sumn_ext _ (fun i => a * a * (x i * x i))) by (intros i _; rewrite E; ring).
  replace (sumn (fun i => a * a * (x i * x i)) 12) with (a * a * sumn (fun i => x i * x i) 12) by (cbn [sumn]; ring).
  rewrite sqrt_mult_alt by (apply Rmult_le_pos; lra). now rewrite sqrt_square by lra.
Qed.

(** How strongly pitch class [j] sounds, by the chosen assignment. *)
Definition sounding (soft : bool) (rate fft : nat) (sigma tuning : R) (frame : list f32) (j : nat) : R :=
  let mag k := B2R (nth k frame f0) in
  if soft then spread_strength rate fft sigma tuning mag (length frame) j else class_strength rate fft tuning mag (length frame) j.

Lemma sounding_scaled : forall soft rate fft sigma tuning fr fr' g, 0 < g -> length fr' = length fr ->
  (forall k, (k < length fr)%nat -> B2R (nth k fr' f0) = g * B2R (nth k fr f0)) ->
  forall j, sounding soft rate fft sigma tuning fr' j = Rpower g (6 / 10) * sounding soft rate fft sigma tuning fr j.
Proof.
  intros soft rate fft sigma tuning fr fr' g G Ln M j. unfold sounding. cbv zeta. rewrite Ln.
  assert (S : forall f (n : nat), Rpower g (6 / 10) * sumn f n = sumn (fun k => Rpower g (6 / 10) * f k) n).
  { intros f n. induction n as [|n IH]; cbn [sumn]; [ring|]. rewrite <- IH. ring. }
  destruct soft; unfold spread_strength, class_strength; rewrite S; apply sumn_ext; intros k Hk; rewrite M, strength_scaled by assumption;
    (match goal with |- context [if ?b then _ else 0] => destruct b end); ring.
Qed.

(** Two frames, the second with all magnitudes multiplied by [g], both loud enough to be normalised: their chroma vectors
    agree up to rounding.  [L] and [L'] may be different mathematics libraries. *)
Theorem C96_volume : forall L L' rate fft soft sigma tuning fr fr' g,
  (forall M, M = L \/ M = L' -> pow_accurate (m_powf M) (/ 1048576) /\ log2_accurate (m_log2 M) (/ 1048576) /\ BayesianLikelihoodProps.exp_accurate (m_exp M) (/ 1048576)) ->
  (1000 <= Z.of_nat rate <= 200000)%Z -> (1 <= Z.of_nat fft <= 65536)%Z -> (length fr <= fft)%nat ->
  (soft = true -> fin sigma /\ / 2 <= B2R sigma <= 4) -> fin tuning -> Rabs (B2R tuning) <= 1 ->
  Forall (fun m => fin m /\ B2R m <= 1125899906842624) fr -> Forall (fun m => fin m /\ B2R m <= 1125899906842624) fr' ->
  0 < g -> length fr' = length fr -> (forall k, (k < length fr)%nat -> B2R (nth k fr' f0) = g * B2R (nth k fr f0)) ->
  (forall k, (k < length fr)%nat -> 0 < B2R (nth k fr f0) -> clear_of_edges rate (B2R tuning) (bin_freq rate fft k)) ->
  let E := sounding soft rate fft (B2R sigma) (B2R tuning) fr in
  / 1073741824 <= length12 E -> / 1073741824 <= Rpower g (6 / 10) * length12 E ->
  exists c c', frame_to_chroma L rate fft soft sigma tuning fr = Ok c /\ frame_to_chroma L' rate fft soft sigma tuning fr' = Ok c' /\
    forall j, (j < 12)%nat -> Rabs (B2R (nth j c' f0) - B2R (nth j c f0)) <= INR (length fr) / 1350000 + (if soft then / 150 else / 15000).
Proof.
  intros L L' rate fft soft sigma tuning fr fr' g Acc Hr Hf Hn Hs Ft Ht Fr Fr' G Ln M Ed E HE HE'.
  destruct (Acc L (or_introl eq_refl)) as (P1 & P2 & P3). destruct (Acc L' (or_intror eq_refl)) as (Q1 & Q2 & Q3).
  set (E' := sounding soft rate fft (B2R sigma) (B2R tuning) fr'). set (a := Rpower g (6 / 10)) in *. assert (Pa : 0 < a) by apply exp_pos.
  assert (S : forall j, E' j = a * E j) by (intros j; now apply sounding_scaled).
  assert (SL : length12 E' = a * length12 E) by (apply length12_scaled; [lra|exact S]).
  assert (Ed' : forall k, (k < length fr')%nat -> 0 < B2R (nth k fr' f0) -> clear_of_edges rate (B2R tuning) (bin_freq rate fft k)).
  { intros k Hk Mk. rewrite Ln in Hk. apply (Ed k Hk). rewrite (M k Hk) in Mk. apply Rmult_lt_reg_l with g; lra. }
  assert (X : exists c c', frame_to_chroma L rate fft soft sigma tuning fr = Ok c /\ frame_to_chroma L' rate fft soft sigma tuning fr' = Ok c' /\
    forall j, (j < 12)%nat -> Rabs (B2R (nth j c f0) - E j / length12 E) <= INR (length fr) / 2700000 + (if soft then / 300 else / 30000) /\
      Rabs (B2R (nth j c' f0) - E' j / length12 E') <= INR (length fr) / 2700000 + (if soft then / 300 else / 30000)).
  { rewrite <- SL in HE'. destruct soft.
    - destruct (Hs eq_refl) as (Fs & Bs).
      destruct (C88_soft L rate fft sigma tuning fr P1 P2 P3 Hr Hf Hn Fs Bs Ft Ht Fr Ed HE) as (c & C1 & _ & C3).
      destruct (C88_soft L' rate fft sigma tuning fr' Q1 Q2 Q3 Hr Hf ltac:(lia) Fs Bs Ft Ht Fr' Ed' HE') as (c' & D1 & _ & D3).
      exists c, c'. split; [exact C1|]. split; [exact D1|]. intros j Hj. rewrite <- Ln at 2. split; [apply (C3 j Hj)|apply (D3 j Hj)].
    - destruct (C88_hard L rate fft sigma tuning fr P1 P2 Hr Hf Hn Ft Ht Fr Ed HE) as (c & C1 & _ & C3).
      destruct (C88_hard L' rate fft sigma tuning fr' Q1 Q2 Hr Hf ltac:(lia) Ft Ht Fr' Ed' HE') as (c' & D1 & _ & D3).
      exists c, c'. split; [exact C1|]. split; [exact D1|]. intros j Hj. rewrite <- Ln at 2. split; [apply (C3 j Hj)|apply (D3 j Hj)]. }
  destruct X as (c & c' & C & C' & X). exists c, c'. split; [exact C|]. split; [exact C'|]. intros j Hj. destruct (X j Hj) as (A & B).
  rewrite SL, S in B. replace (a * E j / (a * length12 E)) with (E j / length12 E) in B by (field; lra).
  replace (B2R (nth j c' f0) - B2R (nth j c f0)) with ((B2R (nth j c' f0) - E j / length12 E) - (B2R (nth j c f0) - E j / length12 E)) by ring.
  unfold Rminus at 1. eapply Rle_trans; [apply Rabs_triang|]. rewrite Rabs_Ropp. destruct soft; lra.
Qed.
Print Assumptions C96_volume.

(** An A at 440 Hz, and the same A twice as loud. *)
Example C96_case : forall L rate sigma, Z.of_nat rate = 4400%Z -> pow_accurate (m_powf L) (/ 1048576) -> log2_accurate (m_log2 L) (/ 1048576) ->
  BayesianLikelihoodProps.exp_accurate (m_exp L) (/ 1048576) ->
  exists c c', frame_to_chroma L rate 10 false sigma f0 [f0; f1] = Ok c /\ frame_to_chroma L rate 10 false sigma f0 [f0; f2] = Ok c' /\
    forall j, (j < 12)%nat -> Rabs (B2R (nth j c' f0) - B2R (nth j c f0)) <= / 14000.
Proof.
  intros L rate sigma Er H1 H2 H3. assert (V0 : B2R f0 = 0) by reflexivity. assert (V1 : B2R f1 = 1) by apply B2R_f1.
  assert (V2 : B2R f2 = 2) by (change f2 with (z2f 2); now destruct (z2f_exact 2 ltac:(lia))).
  assert (IR : INR rate = 4400) by (rewrite INR_IZR_INZ, Er; reflexivity). assert (I10 : INR 10 = 10) by (simpl; lra).
  assert (B0 : bin_freq rate 10 0 = 0) by (unfold bin_freq; simpl INR; lra).
  assert (B1 : bin_freq rate 10 1 = 440) by (unfold bin_freq; rewrite IR, I10; change (INR 1) with 1; lra).
  assert (R2 : INR rate / 2 = 2200) by lra.
  assert (I1 : inside rate 440 = true) by (unfold inside; rewrite R2, !Rle_bool_true, Rlt_bool_true by lra; reflexivity).
  assert (P1 : scale_pos 0 440 = 57) by (unfold scale_pos; replace (440 / 440) with 1 by field; rewrite ln_1; lra).
  assert (N1 : note 57 = 57%Z) by (apply note_of; rewrite Rminus_diag_eq, Rabs_R0 by reflexivity; lra).
  assert (S1 : strength 1 = 1) by (unfold strength; destruct (Rle_dec 1 0); [lra|unfold Rpower; rewrite ln_1, Rmult_0_r; apply exp_0]).
  assert (S0 : strength 0 = 0) by (unfold strength; destruct (Rle_dec 0 0); [reflexivity|lra]).
  assert (EV : forall j, sounding false rate 10 (B2R sigma) (B2R f0) [f0; f1] j = if (j =? 9)%nat then 1 else 0).
  { intros j. unfold sounding, class_strength. cbn [length sumn nth]. rewrite B0, B1, V0, V1, I1, P1, N1, S1, S0. cbn [andb]. change (57 mod 12)%Z with (Z.of_nat 9).
    replace (Z.of_nat 9 =? Z.of_nat j)%Z with (j =? 9)%nat. 2:{ destruct (Nat.eqb_spec j 9) as [-> | N]; symmetry; [apply Z.eqb_refl|apply Z.eqb_neq; lia]. }
    destruct (inside rate 0 && _); destruct (j =? 9)%nat; lra. }
  assert (EL : length12 (sounding false rate 10 (B2R sigma) (B2R f0) [f0; f1]) = 1).
  { unfold length12. rewrite (sumn_ext _ (fun j => (if (j =? 9)%nat then 1 else 0) * (if (j =? 9)%nat then 1 else 0))) by (intros j _; now rewrite EV).
    cbn [sumn Nat.eqb]. replace (_ + _) with 1 by ring. apply sqrt_1. }
  assert (G : 1 <= Rpower 2 (6 / 10)). { rewrite <- (Rpower_O 2) at 1 by lra. apply Rle_Rpower; lra. }
  destruct (C96_volume L L rate 10 false sigma f0 [f0; f1] [f0; f2] 2) as (c & c' & C & C' & B).
  - intros M [-> | ->]; auto.
  - lia.
  - lia.
  - cbn [length]. lia.
  - discriminate.
  - reflexivity.
  - rewrite V0, Rabs_R0. lra.
  - apply Forall_cons; [|apply Forall_cons; [|apply Forall_nil]]; rewrite ?V0, ?V1; (split; [reflexivity|lra]).
  - apply Forall_cons; [|apply Forall_cons; [|apply Forall_nil]]; rewrite ?V0, ?V2; (split; [reflexivity|lra]).
  - lra.
  - reflexivity.
  - intros k Hk. destruct k as [|[|k]]; cbn [nth length] in *; [| |lia]; rewrite ?V0, ?V1, ?V2; lra.
  - intros k Hk Mk. destruct k as [|[|k]]; cbn [nth length] in *; [rewrite V0 in Mk; lra| |lia].
    unfold clear_of_edges. rewrite B1, R2, V0, P1, N1, (Rabs_pos_eq (440 - 100)), (Rabs_left (440 - 5000)), (Rabs_left (440 - 2200)), (Rabs_pos_eq (57 - 57)) by lra. repeat split; intros; lra.
  - rewrite EL. lra.
  - rewrite EL. lra.
  - exists c, c'. split; [exact C|]. split; [exact C'|]. intros j Hj. specialize (B j Hj). cbn [length] in B. change (INR 2) with 2 in B. lra.
Qed.
