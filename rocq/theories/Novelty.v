(** Model of src/features/period/novelty.rs (novelty curves).  Logging is dropped;
    the error message texts are dropped.  [ln], [log10] and [powf] come from the
    [libm] record. *)
From Coq Require Import ZArith.
From Verif Require Import Rust F32 Libm Onsets.

(** EPSILON, novelty.rs:37. *)
Definition nov_eps : f32 := lit 14411519 (-57).

(** novelty.rs:935-942 normalize_in_place; the same code is inlined as the last step of every
    curve (298-304, 379-384, 460-465, 523-529, 601-606, 653-658, 750-755, 831-836). *)
Definition normalize (curve : list f32) : list f32 :=
  let m := fold_left fmax curve f0 in
  if fgt m nov_eps then map (fun x => fdiv x m) curve else curve.

(** The checks shared by all curves (novelty.rs:225-250, 39-60, ...): fewer than two frames give
    an empty curve before any validation; then the frames must be non-empty and rectangular. *)
Definition checked (spec : list (list f32)) (body : nat -> outcome (list f32)) : outcome (list f32) :=
  match spec with
  | fr :: _ :: _ =>
      if length fr =? 0 then Err InvalidInput
      else if negb (rectangular (length fr) spec) then Err InvalidInput
      else body (length fr)
  | _ => Ok []
  end.

(** novelty.rs:222-315 spectral_flux_novelty; the flux is that of the onset detector
    ([spectral_flux] of Onsets.v: 260-296 is the same per-frame normalization and L2 distance). *)
Definition spectral_flux_novelty (spec : list (list f32)) : outcome (list f32) :=
  checked spec (fun _ => Ok (normalize (spectral_flux spec))).

(** novelty.rs:352-356 / 420-424 log compression. *)
Definition log_frame (ln : f32 -> f32) (frame : list f32) : list f32 :=
  map (fun x => ln (fadd f1 (fmax x f0))) frame.
(** novelty.rs:365-370 (lo = 0, hi = n_bins), 434-440 (a band), 583-588 (mel): maximum of the
    previous frame over [b-k, b+k] clipped to [lo, hi). *)
Definition window_max (prev : list f32) (lo hi : nat) (k : Z) (b : nat) : f32 :=
  fold_left fmax
    (slice prev (Nat.max lo (Z.to_nat (Z.of_nat b - k)))
                (Z.to_nat (Z.min (Z.of_nat b + k + 1) (Z.of_nat hi)))) f0.
(** novelty.rs:362-375, 431-445, 580-593; [curr[b]] is in range because hi <= frame length. *)
Definition superflux_dist (lo hi : nat) (k : Z) (prev cur : list f32) : f32 :=
  fsqrt (fsum (map (fun b => let d := fmax (fsub (nth b cur f0) (window_max prev lo hi k b)) f0 in
                             fmul d d) (seq lo (hi - lo)))).
(** The inner loop evaluates [b + k + 1] in usize for every b < hi; the largest value is hi + k. *)
Definition superflux_curve (lo hi : nat) (max_filter : Z) (frames : list (list f32))
  : outcome (list f32) :=
  let k := Z.max max_filter 1 in
  if (usize_max <? Z.of_nat hi + k)%Z then Panic
  else Ok (normalize (adj (superflux_dist lo hi k) frames)).

(** novelty.rs:336-386 superflux_novelty. *)
Definition superflux_novelty (ln : f32 -> f32) (spec : list (list f32)) (max_filter : Z)
  : outcome (list f32) :=
  checked spec (fun n => superflux_curve 0 n max_filter (map (log_frame ln) spec)).

(** novelty.rs:409-413 (and 635-639, 800-804): clamp a band to the frame. *)
Definition in_band (n bin_start bin_end : nat) (body : nat -> nat -> outcome (list f32))
  : outcome (list f32) :=
  let lo := Nat.min bin_start n in
  let hi := Nat.min bin_end n in
  if hi <=? lo + 1 then Ok [] else body lo hi.

(** novelty.rs:395-467 superflux_novelty_band. *)
Definition superflux_novelty_band (ln : f32 -> f32) (spec : list (list f32)) (max_filter : Z)
  (bin_start bin_end : nat) : outcome (list f32) :=
  checked spec (fun n => in_band n bin_start bin_end (fun lo hi =>
    superflux_curve lo hi max_filter (map (log_frame ln) spec))).

(** novelty.rs:477-545 energy_flux_novelty. *)
Definition energy_flux_novelty (spec : list (list f32)) : outcome (list f32) :=
  checked spec (fun _ => Ok (normalize (adj rise (map frame_energy spec)))).
(** novelty.rs:612-660 energy_flux_novelty_band. *)
Definition energy_flux_novelty_band (spec : list (list f32)) (bin_start bin_end : nat)
  : outcome (list f32) :=
  checked spec (fun n => in_band n bin_start bin_end (fun lo hi =>
    Ok (normalize (adj rise (map (fun fr => frame_energy (slice fr lo hi)) spec))))).

(** novelty.rs:687-768 hfc_novelty: an empty spectrogram is accepted before the sample-rate check,
    a one-frame spectrogram only after it. *)
Definition hfc_novelty (spec : list (list f32)) (sample_rate : Z) : outcome (list f32) :=
  match spec with
  | [] => Ok []
  | _ =>
      if (sample_rate =? 0)%Z then Err InvalidInput
      else checked spec (fun _ => Ok (normalize (adj rise (map hfc spec))))
  end.
(** novelty.rs:774-838 hfc_novelty_band: absolute bin weights inside the band. *)
Definition hfc_novelty_band (spec : list (list f32)) (bin_start bin_end : nat)
  : outcome (list f32) :=
  checked spec (fun n => in_band n bin_start bin_end (fun lo hi =>
    Ok (normalize (adj rise (map (fun fr => hfc_from lo f0 (slice fr lo hi)) spec))))).

(** novelty.rs:62-65 mel, 67-69 inv_mel. *)
Definition mel (log10 : f32 -> f32) (f : f32) : f32 :=
  fmul (z2f 2595) (log10 (fadd f1 (fdiv f (z2f 700)))).
Definition inv_mel (powf : f32 -> f32 -> f32) (m : f32) : f32 :=
  fmul (z2f 700) (fsub (powf (z2f 10) (fdiv m (z2f 2595))) f1).

(** novelty.rs:127-131: left-to-right fix-up of the band edges. *)
Fixpoint spread_from (top prev : nat) (l : list nat) : list nat :=
  match l with
  | [] => []
  | x :: r => let y := if x <=? prev then Nat.min (prev + 1) top else x in
              y :: spread_from top y r
  end.
Definition spread (top : nat) (l : list nat) : list nat :=
  match l with [] => [] | x :: r => x :: spread_from top x r end.

(** novelty.rs:79-125: edges of the triangular filters in bins.
    [n_mels] is a nat: an allocation of n_mels+2 entries is assumed to succeed. *)
Definition mel_edges (lm : libm) (sample_rate : Z) (n_bins n_mels : nat) (fmin_hz fmax_hz : f32)
  : outcome (list nat) :=
  let nyq := fmul (z2f sample_rate) fhalf in
  let lo := fmin (fmax fmin_hz f0) (fmax nyq f1) in
  let hi0 := if fisfin fmax_hz && fgt fmax_hz f0 then fmax_hz else nyq in
  let! hi := fclamp hi0 (fadd lo f1) nyq in
  let res := fdiv (z2f sample_rate) (n2f ((n_bins - 1) * 2)) in
  let mmin := mel (m_log10 lm) lo in
  let mmax := mel (m_log10 lm) hi in
  let step := fdiv (fsub mmax mmin) (n2f (n_mels + 1)) in
  let bin i :=
    let hz := inv_mel (m_powf lm) (fadd mmin (fmul step (n2f i))) in
    Z.to_nat (Z.max 0 (Z.min (f2isize (fround (fdiv hz res))) (Z.of_nat n_bins - 1))) in
  Ok (spread (n_bins - 1) (map bin (seq 0 (n_mels + 2)))).

(** novelty.rs:133-165: contributions of filter m to bin b, in push order
    (the centre bin receives two entries). *)
Definition mel_weights (edges : list nat) (m b : nat) : list f32 :=
  let l := nth m edges 0 in
  let c := nth (m + 1) edges 0 in
  let r := nth (m + 2) edges 0 in
  if (l <? c) && (c <? r) then
    filter (fun w => fgt w f0)
      ((if (l <=? b) && (b <=? c)
        then [if b =? l then f0 else fdiv (fsub (n2f b) (n2f l)) (fsub (n2f c) (n2f l))] else [])
       ++ (if (c <=? b) && (b <=? r)
           then [if b =? r then f0 else fdiv (fsub (n2f r) (n2f b)) (fsub (n2f r) (n2f c))] else []))
  else [].

(** novelty.rs:174-190 apply_logmag.  Each mel slot is only ever added to, so slot m is the fold of
    its own contributions in bin order. *)
Definition mel_slot (ln : f32 -> f32) (edges : list nat) (frame : list f32) (m : nat) : f32 :=
  fold_left (fun acc bx =>
      let v := ln (fadd f1 (fmax (snd bx) f0)) in
      if fle v f0 then acc
      else fold_left (fun a w => fadd a (fmul v w)) (mel_weights edges m (fst bx)) acc)
    (combine (seq 0 (length frame)) frame) f0.
Definition apply_logmag (ln : f32 -> f32) (edges : list nat) (n_mels : nat) (frame : list f32)
  : list f32 := map (mel_slot ln edges frame) (seq 0 n_mels).

(** novelty.rs:553-608 mel_superflux_novelty. *)
Definition mel_superflux_novelty (lm : libm) (spec : list (list f32)) (sample_rate : Z)
  (n_mels : nat) (fmin_hz fmax_hz : f32) (max_filter : Z) : outcome (list f32) :=
  checked spec (fun n =>
    if (sample_rate =? 0)%Z then Err InvalidInput
    else if n <? 2 then Err InvalidInput
    else
      let nm := Nat.max n_mels 4 in
      let! edges := mel_edges lm sample_rate n nm fmin_hz fmax_hz in
      superflux_curve 0 nm max_filter (map (apply_logmag (m_ln lm) edges nm) spec)).

(** The window mean of 957-964 and 980-985; [i + half + 1] cannot overflow usize because
    half <= usize::MAX/2 and a slice is shorter than isize::MAX. *)
Definition window_mean (x : list f32) (window i : nat) : f32 :=
  let half := window / 2 in
  let start := i - half in
  let stop := Nat.min (i + half + 1) (length x) in
  fdiv (fsum (slice x start stop)) (n2f (stop - start)).
(** novelty.rs:947-968 local_mean_subtract. *)
Definition local_mean_subtract (x : list f32) (window : nat) : list f32 :=
  if window =? 0 then x
  else map (fun iv => fmax (fsub (snd iv) (window_mean x window (fst iv))) f0)
           (combine (seq 0 (length x)) x).
(** novelty.rs:971-986 smooth_moving_average_in_place. *)
Definition smooth (x : list f32) (window : nat) : list f32 :=
  if (length x <? 3) || (window <=? 1) then x
  else map (window_mean x window) (seq 0 (length x)).

(** novelty.rs:874-932 combined_novelty_with_params; min_len = 0 gives the empty curve. *)
Definition combined_novelty_with_params (spectral energy hfcs : list f32) (w_s w_e w_h : f32)
  (mean_window smooth_window : nat) : list f32 :=
  let ws := fmax w_s f0 in
  let we := fmax w_e f0 in
  let wh := fmax w_h f0 in
  let wsum := fmax (fadd (fadd ws we) wh) nov_eps in
  let raw := map (fun seh => match seh with (s, (e, h)) =>
                 fdiv (fadd (fadd (fmul s ws) (fmul e we)) (fmul h wh)) wsum end)
               (combine spectral (combine energy hfcs)) in
  let c := normalize raw in
  let c := if 1 <? mean_window then local_mean_subtract c mean_window else c in
  let c := if 1 <? smooth_window then smooth c smooth_window else c in
  normalize c.

(** novelty.rs:865-867 combined_novelty: weights 0.5, 0.3, 0.2, windows 16 and 5. *)
Definition combined_novelty (spectral energy hfcs : list f32) : list f32 :=
  combined_novelty_with_params spectral energy hfcs
    (lit 1 (-1)) (lit 5033165 (-24)) (lit 13421773 (-26)) 16 5.
