(** C16, C17: peak picking. *)
From Coq Require Import ZArith Sorted.
From Verif Require Import Rust F32 PeakPicking PeakPickingSpec PeakPickingProofs.

(** Soundness: every returned pair is a strict local maximum of the signal, with its
    own value, that reaches the (absolute or relative) threshold.  Holds for every
    signal, NaN and infinities included. *)
Theorem C16_sound : forall s thr d i v, In (i, v) (find_peaks s thr d) -> qualifies s thr i v.
Proof. exact find_peaks_sound. Qed.
Print Assumptions C16_sound.

(** Output order: non-increasing values; no index twice. *)
Theorem C16_sorted : forall s thr d,
  StronglySorted (fun p q => fle (snd q) (snd p) = true) (find_peaks s thr d).
Proof. exact find_peaks_sorted. Qed.
Print Assumptions C16_sorted.
Theorem C16_nodup : forall s thr d, NoDup (map fst (find_peaks s thr d)).
Proof. exact find_peaks_nodup. Qed.
Print Assumptions C16_nodup.

(** Nothing is returned exactly when the signal has fewer than 3 samples or its
    maximum is below 1e-10, or no sample qualifies; with distance 0 every
    qualifying maximum is returned. *)
Theorem C16_complete : forall s thr i v,
  3 <= length s -> flt (max_value s) (lit 14411519 (-57)) = false ->
  qualifies s thr i v -> In (i, v) (find_peaks s thr 0).
Proof. intros s thr i v H1 H2. exact (find_peaks_complete s thr i v (conj H1 H2)). Qed.
Print Assumptions C16_complete.

(** Spacing. *)
Theorem C17_spacing : forall s thr d i v j w,
  (Z.of_nat (length s) < 2147483648)%Z -> (0 < d < 2147483648)%Z ->
  In (i, v) (find_peaks s thr d) -> In (j, w) (find_peaks s thr d) -> i <> j ->
  (d <= Z.abs (Z.of_nat i - Z.of_nat j))%Z.
Proof. exact find_peaks_spacing. Qed.
Print Assumptions C17_spacing.

(** Greedy maximality: a qualifying maximum is dropped only in favour of a returned
    peak closer than d that is at least as high. *)
Theorem C17_maximal : forall s thr d i v,
  3 <= length s -> flt (max_value s) (lit 14411519 (-57)) = false ->
  (Z.of_nat (length s) < 2147483648)%Z -> (0 < d < 2147483648)%Z ->
  qualifies s thr i v -> ~ In (i, v) (find_peaks s thr d) ->
  exists j w, In (j, w) (find_peaks s thr d) /\
    (Z.abs (Z.of_nat i - Z.of_nat j) < d)%Z /\ fle v w = true.
Proof. intros s thr d i v H1 H2. exact (find_peaks_maximal s thr d i v (conj H1 H2)). Qed.
Print Assumptions C17_maximal.

(** The spacing claim fails for distances of 2^31 and more, because the source
    truncates min_distance to i32: with d = 2^31 two peaks 2 apart are returned. *)
Theorem C17_spacing_refuted : exists s thr d i v j w,
  (0 < d < 18446744073709551616)%Z /\
  In (i, v) (find_peaks s thr d) /\ In (j, w) (find_peaks s thr d) /\ i <> j /\
  (Z.abs (Z.of_nat i - Z.of_nat j) < d)%Z.
Proof.
  exists [f0; f1; f0; f2; f0], f1, 2147483648%Z, 3, f2, 1, f1.
  split. split; reflexivity.
  split. left; reflexivity. split. right; left; reflexivity. split; [discriminate|reflexivity].
Qed.
Print Assumptions C17_spacing_refuted.

(** Non-trivial instance: the documentation's example signal, with d = 2 and d = 4. *)
Definition doc_signal : list f32 :=
  [f0; lit 1 (-1); f1; lit 11744051 (-24); lit 5033165 (-24); lit 15099494 (-24); lit 13421773 (-26)].
Example C16_case : map fst (find_peaks doc_signal (lit 1 (-1)) 2) = [2; 5] /\
                   map fst (find_peaks doc_signal (lit 1 (-1)) 4) = [2] /\
                   flt (max_value doc_signal) (lit 14411519 (-57)) = false.
Proof. vm_compute. auto. Qed.
