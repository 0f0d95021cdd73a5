(** C09: adaptive thresholds. *)
From Coq Require Import ZArith Reals.
From Flocq Require Import Core IEEE754.BinarySingleNaN.
From Verif Require Import Rust F32 F32Facts Sorting Threshold ThresholdProofs.

(** percentile_threshold errors exactly on the empty curve and on percentiles outside
    [0,1] (NaN included), and never panics. *)
Theorem C09_percentile_errors : forall values p,
  (percentile_threshold values p = Err InvalidInput <->
     values = [] \/ ~ (fle f0 p = true /\ fle p f1 = true)) /\
  percentile_threshold values p <> Panic.
Proof. intros values p. exact (conj (percentile_errors values p) (percentile_no_panic values p)). Qed.
Print Assumptions C09_percentile_errors.

Theorem C09_percentile_total : forall values p, values <> [] ->
  fle f0 p = true -> fle p f1 = true -> exists t, percentile_threshold values p = Ok t.
Proof.
  intros values p H1 H2 H3. destruct (percentile_ok values p H1 H2 H3) as (t & H & _). eauto.
Qed.
Print Assumptions C09_percentile_total.

(** The result is one of the values. *)
Theorem C09_percentile_element : forall values p t,
  percentile_threshold values p = Ok t -> In t values.
Proof. exact percentile_element. Qed.
Print Assumptions C09_percentile_element.

(** Monotone in the percentile. *)
Theorem C09_percentile_monotone : forall values p q t u,
  (Z.of_nat (length values) <= 2 ^ 64)%Z -> Forall (fun x => fisnan x = false) values ->
  fle p q = true ->
  percentile_threshold values p = Ok t -> percentile_threshold values q = Ok u ->
  fle t u = true.
Proof. exact percentile_mono. Qed.
Print Assumptions C09_percentile_monotone.

(** At least the fraction p of the curve lies at or below the threshold (exact real
    inequality; curves of at most 2^24 values, beyond which the length itself is
    rounded by the cast to f32). *)
Theorem C09_percentile_fraction : forall values p t,
  (Z.of_nat (length values) <= 16777216)%Z -> Forall (fun x => fisnan x = false) values ->
  percentile_threshold values p = Ok t ->
  (INR (length values) * B2R p <= INR (length (filter (fun x => fle x t) values)))%R.
Proof. exact percentile_fraction. Qed.
Print Assumptions C09_percentile_fraction.

(** The median + k*MAD threshold: exactly the empty curve and negative k are rejected,
    nothing panics. *)
Theorem C09_adaptive_total : forall values k,
  (values = [] \/ flt k f0 = true -> adaptive_threshold_median_mad values k = Err InvalidInput) /\
  (values <> [] -> flt k f0 = false -> exists t, adaptive_threshold_median_mad values k = Ok t).
Proof. exact adaptive_total. Qed.
Print Assumptions C09_adaptive_total.

(** At least half of the curve lies at or below the adaptive threshold, for values of
    magnitude at most 2^125 (so no intermediate sum overflows). *)
Theorem C09_adaptive_half : forall values k t,
  Forall (fun x => fle (fneg (lit 1 125)) x = true /\ fle x (lit 1 125) = true) values ->
  fisfin k = true -> adaptive_threshold_median_mad values k = Ok t ->
  length values <= 2 * length (filter (fun x => fle x t) values).
Proof. exact adaptive_half. Qed.
Print Assumptions C09_adaptive_half.

(** Non-trivial instances: five values, 60th percentile = 4th smallest; median 3 and
    MAD 2, k = 2 gives 7; four values give the mid-point. *)
Definition curve5 := [z2f 5; z2f 1; z2f 100; z2f 3; z2f 2].
Example C09_case :
  omap B2SF (percentile_threshold curve5 (lit 10066330 (-24))) = Ok (B2SF (z2f 5)) /\
  omap B2SF (percentile_threshold curve5 f1) = Ok (B2SF (z2f 100)) /\
  omap B2SF (adaptive_threshold_median_mad curve5 f2) = Ok (B2SF (z2f 7)) /\
  omap B2SF (adaptive_threshold_median_mad [z2f 1; z2f 2; z2f 4; z2f 8] f0) = Ok (B2SF (z2f 3)).
Proof. vm_compute. auto. Qed.
