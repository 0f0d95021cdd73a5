(** C42, C43, C46: confidence scoring. *)
From Coq Require Import String List.
From Verif Require Import Rust F32 F32Facts Confidence ConfidenceProofs.
Import ListNotations.

(** All four scores are in [0,1] for every non-NaN input (inputs outside [0,1],
    infinities, any BPM including NaN, any warnings). *)
Theorem C42_scores_in_unit : forall r,
  fisnan (ar_bpm_confidence r) = false -> fisnan (ar_key_confidence r) = false ->
  fisnan (ar_grid_stability r) = false ->
  let c := compute_confidence r in
  in01 (ac_bpm c) /\ in01 (ac_key c) /\ in01 (ac_grid c) /\ in01 (ac_overall c).
Proof.
  intros r Nb Nk Ng c.
  exact (conj (bpm_conf_in01 r Nb) (conj (key_conf_in01 r Nk)
        (conj (in01_clamp _ Ng) (overall_in01 r Nb Nk Ng)))).
Qed.
Print Assumptions C42_scores_in_unit.

(** Failed components score zero. *)
Theorem C42_failed_components : forall r,
  (fle (ar_bpm r) f0 = true -> ac_bpm (compute_confidence r) = f0) /\
  (fle (ar_key_confidence r) f0 = true -> ac_key (compute_confidence r) = f0) /\
  (fle (ar_bpm r) f0 = true -> fle (ar_key_confidence r) f0 = true ->
     ac_overall (compute_confidence r) = f0).
Proof.
  intros r. unfold compute_confidence, compute_bpm_confidence, compute_key_confidence; simpl.
  repeat split.
  - now intros ->.
  - now intros ->.
  - now intros -> ->.
Qed.
Print Assumptions C42_failed_components.

(** The component scores never exceed the (clamped) inputs they come from. *)
Theorem C42_never_inflates : forall r,
  fisnan (ar_bpm_confidence r) = false -> fisnan (ar_key_confidence r) = false ->
  fle (ac_bpm (compute_confidence r)) (clamp01 (ar_bpm_confidence r)) = true /\
  fle (ac_key (compute_confidence r)) (clamp01 (ar_key_confidence r)) = true.
Proof.
  intros r Nb Nk. unfold compute_confidence; simpl. split.
  - unfold compute_bpm_confidence. pose proof (in01_clamp _ Nb) as [C1 C2].
    destruct (fle (ar_bpm r) f0); auto. fold (clamp01 (ar_bpm_confidence r)) in *.
    destruct (existsb _ _); [|now apply fle_refl, nneg_nn].
    rewrite fmul_comm. apply fmul_le_r; auto. apply in01_fin; now split.
  - unfold compute_key_confidence. pose proof (in01_clamp _ Nk) as C.
    fold (clamp01 (ar_key_confidence r)) in *.
    destruct (fle (ar_key_confidence r) f0); [apply C|].
    assert (A : forall x k, in01 x -> in01 k -> fle (fmul x k) x = true).
    { intros x k X K. rewrite fmul_comm. apply fmul_le_r; try apply K; try apply X.
      now apply in01_fin. }
    set (ca := if flt _ k02 then k06 else _). assert (in01 ca).
    { subst ca. destruct (flt _ k02); [now split|]. destruct (flt _ fhalf); now split. }
    eapply fle_trans; [apply A|apply A]; auto.
    + now apply in01_mul.
    + destruct (existsb _ _); now split.
Qed.
Print Assumptions C42_never_inflates.

(** Flags: the input's flags come first and unchanged, then exactly the
    threshold-triggered ones. *)
Theorem C42_flags : forall r, let c := compute_confidence r in
  exists extra, ac_flags c = (ar_flags r ++ extra)%list /\
    (In MultimodalBpm extra <-> flt (ac_bpm c) (lit 5033165 (-24)) = true) /\
    (In WeakTonality extra <-> flt (ac_key c) (lit 13421773 (-26)) = true) /\
    (In TempoVariation extra <-> flt (ac_grid c) (lit 5033165 (-24)) = true) /\
    ~ In OnsetDetectionAmbiguous extra /\ NoDup extra.
Proof.
  intros r c. subst c. unfold compute_confidence; cbn [ac_flags ac_bpm ac_key ac_grid].
  eexists. split; [reflexivity|]. fold k03 k02.
  generalize (flt (compute_bpm_confidence r) k03), (flt (compute_key_confidence r) k02),
    (flt (clamp01 (ar_grid_stability r)) k03).
  intros [] [] []; cbn [app In];
    (split; [intuition congruence|split; [intuition congruence|split; [intuition congruence|
     split; [intuition congruence|]]]]);
    repeat (apply NoDup_cons; [cbn [In]; intuition congruence|]); apply NoDup_nil.
Qed.
Print Assumptions C42_flags.

(** Exactly one confidence class holds and the textual level names it. *)
Theorem C43_classes : forall c, fisnan (ac_overall c) = false ->
  (is_high c = true /\ is_medium c = false /\ is_low c = false) \/
  (is_high c = false /\ is_medium c = true /\ is_low c = false) \/
  (is_high c = false /\ is_medium c = false /\ is_low c = true).
Proof. exact level_classes. Qed.
Print Assumptions C43_classes.

Theorem C43_level : forall c, fisnan (ac_overall c) = false ->
  (confidence_level c = "High"%string <-> is_high c = true) /\
  (confidence_level c = "Medium"%string <-> is_medium c = true) /\
  (confidence_level c = "Low"%string <-> is_low c = true).
Proof.
  intros c N. unfold confidence_level.
  destruct (level_classes c N) as [(-> & -> & ->)|[(-> & -> & ->)|(-> & -> & ->)]];
    intuition congruence.
Qed.
Print Assumptions C43_level.

(** The classes are the documented ranges. *)
Theorem C43_ranges : forall c,
  (is_high c = true <-> fle (lit 11744051 (-24)) (ac_overall c) = true) /\
  (is_low c = true <-> flt (ac_overall c) (lit 1 (-1)) = true) /\
  (is_medium c = true <-> fle (lit 1 (-1)) (ac_overall c) = true /\
                          flt (ac_overall c) (lit 11744051 (-24)) = true).
Proof.
  intros c. unfold is_high, is_low, is_medium, fge. rewrite andb_true_iff. split; [|split]; split; auto.
Qed.
Print Assumptions C43_ranges.

(** NaN overall confidence: no class holds, yet the level reads "Medium". *)
Theorem C43_nan_refuted : exists c,
  is_high c = false /\ is_medium c = false /\ is_low c = false /\ confidence_level c = "Medium"%string.
Proof.
  exists {| ac_bpm := f0; ac_key := f0; ac_grid := fnan; ac_overall := fnan; ac_flags := [] |}.
  vm_compute. auto.
Qed.
Print Assumptions C43_nan_refuted.

(** C46: while all components are available, raising component scores never
    lowers the overall confidence. *)
Theorem C46_monotone_when_available : forall r r',
  fisnan (ar_bpm_confidence r) = false -> fisnan (ar_key_confidence r) = false ->
  fisnan (ar_grid_stability r) = false ->
  fisnan (ar_bpm_confidence r') = false -> fisnan (ar_key_confidence r') = false ->
  fisnan (ar_grid_stability r') = false ->
  let c := compute_confidence r in let c' := compute_confidence r' in
  flt f0 (ac_bpm c) = true -> flt f0 (ac_key c) = true ->
  fle (ac_bpm c) (ac_bpm c') = true -> fle (ac_key c) (ac_key c') = true ->
  fle (ac_grid c) (ac_grid c') = true ->
  fle (ac_overall c) (ac_overall c') = true.
Proof.
  intros r r' N1 N2 N3 N4 N5 N6 c c' P1 P2 L1 L2 L3. subst c c'.
  unfold compute_confidence in *; simpl in *. unfold fgt.
  fold (flt f0 (compute_bpm_confidence r)). fold (flt f0 (compute_key_confidence r)).
  fold (flt f0 (compute_bpm_confidence r')). fold (flt f0 (compute_key_confidence r')).
  rewrite P1, P2. rewrite (flt_fle_trans _ _ _ P1 L1), (flt_fle_trans _ _ _ P2 L2). simpl.
  apply clamp01_mono, wsum_mono; auto using bpm_conf_in01, key_conf_in01; now apply in01_clamp.
Qed.
Print Assumptions C46_monotone_when_available.

Definition res (b bc kc g : f32) : analysis_result :=
  {| ar_bpm := b; ar_bpm_confidence := bc; ar_key_confidence := kc; ar_key_clarity := f1;
     ar_grid_stability := g; ar_flags := []; ar_warnings := [] |}.

(** Across the "failed component" boundary it is not monotone: detecting a BPM
    with low confidence lowers the overall confidence from 0.6 to 0.34. *)
Theorem C46_monotone_refuted : exists r r',
  let c := compute_confidence r in let c' := compute_confidence r' in
  fle (ac_bpm c) (ac_bpm c') = true /\ fle (ac_key c) (ac_key c') = true /\
  fle (ac_grid c) (ac_grid c') = true /\ flt (ac_overall c') (ac_overall c) = true.
Proof.
  exists (res f0 f0 f1 f0), (res (lit 120 0) (lit 13421773 (-27)) f1 f0).
  vm_compute. auto.
Qed.
Print Assumptions C46_monotone_refuted.

(** Non-trivial instance of the hypotheses: all components present, one warning. *)
Example C42_case :
  let r := {| ar_bpm := lit 128 0; ar_bpm_confidence := lit 3 0; ar_key_confidence := k07;
     ar_key_clarity := k03; ar_grid_stability := k02; ar_flags := [OnsetDetectionAmbiguous];
     ar_warnings := ["Low key confidence"%string] |} in
  fisnan (ar_bpm_confidence r) = false /\
  ac_flags (compute_confidence r) = [OnsetDetectionAmbiguous; TempoVariation] /\
  is_medium (compute_confidence r) = true.
Proof. vm_compute. auto. Qed.
