(** Chroma smoothing: properties (src/features/chroma/smoothing.rs). *)
From Coq Require Import Reals.
From Flocq Require Import Core.
From Verif Require Import Rust F32 F32Facts ListFacts Chroma SmoothingProofs FloatSums.
Close Scope R_scope.

(** C40, median filter: for NaN-free frames of [m] bins each, one frame of [m] bins per input frame comes out, and each
    value is one of the values of its bin in the at most 2*(w/2)+1 frames around it (those that exist), at most half of
    them smaller and more than half not larger. *)
Theorem C40_median : forall (c : list (list f32)) (m w : nat),
  Forall (fun f => length f = m) c -> Forall (Forall (fun x => nn x)) c ->
  (Z.of_nat (length c) < 2 ^ 30)%Z -> (Z.of_nat w < 2 ^ 29)%Z ->
  exists r, smooth_chroma c w = Ok r /\ length r = length c /\ Forall (fun f => length f = m) r /\
    forall i s, i < length c -> s < m ->
      let v := nth s (nth i r []) f0 in
      let win := window_bin c s i (w / 2) (w / 2) in
      In v win /\
      2 * length (filter (fun x => flt x v) win) <= length win /\
      length win < 2 * length (filter (fun x => fle x v) win).
Proof. intros c m w R N Hn Hw. exact (median_ok m c w R N Hn Hw). Qed.
Print Assumptions C40_median.

(** C40, moving average: for frames of values in [0,1] the output has the same shape, stays in [0,1] and is the mean of
    its bin over the frames from w/2 before to (w-1)/2 after, up to a relative error of 2*(n+1)*2^-24 for n frames
    (plus half the smallest float). *)
Theorem C40_average : forall (c : list (list f32)) (m w : nat),
  Forall (fun f => length f = m) c -> Forall (Forall in01) c ->
  (Z.of_nat (length c) < 2 ^ 30)%Z -> 2 <= w -> (Z.of_nat w <= 2 ^ 22)%Z ->
  exists r, smooth_chroma_average c w = Ok r /\ length r = length c /\ Forall (fun f => length f = m) r /\
    forall i s, i < length c -> s < m ->
      let v := nth s (nth i r []) f0 in
      let win := window_bin c s i (w / 2) (w - 1 - w / 2) in
      let mean := (fold_right (fun x t => B2R x + t) 0 win / INR (length win))%R in
      in01 v /\
      (Rabs (B2R v - mean) <= mean * (2 * INR (length win + 1) * bpow radix2 (-24)) + bpow radix2 (-150))%R.
Proof. intros c m w R N Hn H2 Hw. exact (average_ok m c w R N Hn H2 Hw). Qed.
Print Assumptions C40_average.

(** Windows 0 and 1 leave every sequence as it is, whatever it contains. *)
Theorem C40_no_window : forall c w, w <= 1 -> smooth_chroma c w = Ok c /\ smooth_chroma_average c w = Ok c.
Proof.
  intros c w H. unfold smooth_chroma, smooth_chroma_average. destruct c as [|f c]; [split; reflexivity|].
  replace ((w =? 0) || (w =? 1)) with true by (destruct w as [|[|w]]; [reflexivity|reflexivity|lia]). split; reflexivity.
Qed.
Print Assumptions C40_no_window.

(** The average can leave the range of the window: three equal frames average to a smaller value. *)
Theorem C40_average_range_refuted : exists (c r : list (list f32)),
  Forall (fun f => length f = 12) c /\ Forall (Forall in01) c /\ smooth_chroma_average c 3 = Ok r /\
  Forall (fun x => flt (nth 0 (nth 1 r []) f0) x = true) (window_bin c 0 1 1 1) /\ window_bin c 0 1 1 1 <> [].
Proof.
  set (x := lit 16497998 (-24)).
  assert (Hx : in01 x) by (split; vm_compute; reflexivity).
  assert (H : match smooth_chroma_average (repeat (repeat x 12) 3) 3 with
              | Ok r => flt (nth 0 (nth 1 r []) f0) x | _ => false end = true) by (vm_compute; reflexivity).
  clearbody x. destruct (smooth_chroma_average (repeat (repeat x 12) 3) 3) as [r| |] eqn:E; try discriminate.
  exists (repeat (repeat x 12) 3), r. split; [repeat constructor|]. split; [repeat constructor; auto; apply Hx|].
  split; auto. split; [|discriminate]. repeat constructor; exact H.
Qed.
Print Assumptions C40_average_range_refuted.

(** A NaN among two or more frames makes the median filter panic as soon as the window covers another frame. *)
Theorem C40_nan_refuted : exists (c : list (list f32)),
  Forall (fun f => length f = 12) c /\ smooth_chroma c 5 = Panic.
Proof.
  exists [repeat f0 12; repeat fnan 12]. split; [repeat constructor|].
  assert (H : match smooth_chroma [repeat f0 12; repeat fnan 12] 5 with Panic => true | _ => false end = true)
    by (vm_compute; reflexivity).
  destruct (smooth_chroma _ _); (discriminate || reflexivity).
Qed.
Print Assumptions C40_nan_refuted.

Definition codes (r : outcome (list (list f32))) : list (list Z) :=
  match r with Ok l => map (map (fun x => f2i32 (fmul x (z2f 100)))) l | _ => [] end.

(** Five frames of one bin, 0.1 0.9 0.2 0.3 0.4, in hundredths. *)
Definition five_frames : list (list f32) := map (fun k => [fdiv (z2f k) (z2f 100)]) [10; 90; 20; 30; 40]%Z.
Example C40_median_example : codes (smooth_chroma five_frames 3) = [[90]; [20]; [30]; [30]; [40]]%Z.
Proof. vm_compute. reflexivity. Qed.
Example C40_median_even : codes (smooth_chroma five_frames 2) = codes (smooth_chroma five_frames 3).
Proof. vm_compute. reflexivity. Qed.
Example C40_average_example : codes (smooth_chroma_average five_frames 2) = [[10]; [50]; [55]; [25]; [35]]%Z.
Proof. vm_compute. reflexivity. Qed.
