(** Model of src/features/period/autocorrelation.rs. *)
From Coq Require Import ZArith.
From Verif Require Import Rust F32 Sorting PeakPicking Candidate.

(** rustfft: the forward and inverse plans transform a buffer in place, so all the model
    knows is that they keep its length.  Complex numbers are (re, im) pairs. *)
Notation complex := (f32 * f32)%type.
Record fft_oracle := {
  fft_forward : list complex -> list complex;
  fft_inverse : list complex -> list complex;
  fft_forward_len : forall l, length (fft_forward l) = length l;
  fft_inverse_len : forall l, length (fft_inverse l) = length l }.

(** usize::next_power_of_two for positive arguments. *)
Definition next_pow2 (n : nat) : nat := 2 ^ Nat.log2_up n.

(** num_complex: z *= conj z, i.e. (a + ib)(a - ib) computed as
    (a*a - b*(-b), a*(-b) + b*a); autocorrelation.rs:240-242. *)
Definition mul_conj (z : complex) : complex :=
  let (a, b) := z in
  (fsub (fmul a a) (fmul b (fneg b)), fadd (fmul a (fneg b)) (fmul b a)).

(** autocorrelation.rs:223-263 compute_autocorrelation_fft. *)
Definition autocorr_fft (F : fft_oracle) (signal : list f32) : list f32 :=
  let n := length signal in
  let size := next_pow2 (2 * n) in
  let input := map (fun x => (x, f0)) signal ++ repeat (f0, f0) (size - n) in
  let power := map mul_conj (fft_forward F input) in
  let back := fft_inverse F power in
  let scale := fdiv f1 (n2f size) in
  map (fun z => fmax (fmul (fst z) scale) f0) (firstn n back).

(** autocorrelation.rs:145-155: one entry per frame, 1.0 where an onset falls. *)
Definition beat_signal (onsets : list nat) (hop : nat) : list f32 :=
  map (fun i => if existsb (fun o => o / hop =? i) onsets then f1 else f0)
      (seq 0 (list_max onsets / hop + 1)).

(** autocorrelation.rs:295-329, one loop step; [peaks] holds the found peaks, last one first.
    The i32 subtraction is exact (no overflow) whenever both lags are below 2^31. *)
Definition acf_step (s : list f32) (offset : nat) (min_prom : f32) (peaks : list (nat * f32)) (i : nat)
  : list (nat * f32) :=
  let value := nth i s f0 in
  let left := nth (i - 1) s f0 in
  let right := nth (i + 1) s f0 in
  if fgt value left && fgt value right then
    let prominence := fsub value (fmax left right) in
    if fge prominence min_prom then
      let lag := i + offset in
      match peaks with
      | [] => [(lag, value)]
      | last :: rest =>
          if (2 <=? Z.abs (as_i32 (Z.of_nat lag) - as_i32 (Z.of_nat (fst last))))%Z
          then (lag, value) :: peaks
          else if fgt value (snd last) then (lag, value) :: rest else peaks
      end
    else peaks
  else peaks.

(** autocorrelation.rs:276-335 find_peaks_in_acf (never fails; for an empty slice the
    result is empty, otherwise len - 1 does not underflow). *)
Definition find_acf_peaks (s : list f32) (offset : nat) : list (nat * f32) :=
  match s with
  | [] => []
  | _ =>
      let m := fmax0 s in
      if flt m eps10 then []
      else sort_desc snd
             (rev (fold_left (acf_step s offset (fmul m (lit 13421773 (-27)))) (seq 1 (length s - 2)) []))
  end.

(** 60.0 * sample_rate as f32. *)
Definition sixty_rate (rate : nat) : f32 := fmul (z2f 60) (n2f rate).
(** autocorrelation.rs:185 tempo of a lag. *)
Definition lag_bpm (rate hop lag : nat) : f32 := fdiv (sixty_rate rate) (fmul (n2f lag) (n2f hop)).

(** autocorrelation.rs:184-203: the candidate of one peak, if in range. *)
Definition acf_candidate (acf : list f32) (rate hop : nat) (min_bpm max_bpm : f32) (p : nat * f32)
  : list candidate :=
  let bpm := lag_bpm rate hop (fst p) in
  if fge bpm min_bpm && fle bpm max_bpm then
    let m := fmax0 acf in
    [mkCand bpm (if fgt m eps10 then fmin (fdiv (snd p) m) f1 else f0)]
  else [].

(** autocorrelation.rs:99-215 estimate_bpm_from_autocorrelation.  The size of the signal is
    not limited by memory in the model. *)
Definition estimate_autocorr (F : fft_oracle) (onsets : list nat) (rate hop : nat) (min_bpm max_bpm : f32)
  : outcome (list candidate) :=
  if length onsets =? 0 then Err InvalidInput
  else if rate =? 0 then Err InvalidInput
  else if hop =? 0 then Err InvalidInput
  else if fle min_bpm f0 || fle max_bpm f0 || fge min_bpm max_bpm then Err InvalidInput
  else if length onsets <? 2 then Ok []
  else if list_max onsets / hop + 1 <? 2 then Err ProcessingError
  else
    let acf := autocorr_fft F (beat_signal onsets hop) in
    let len := Z.of_nat (length acf) in
    let lag_min := f2usize (fceil (fdiv (sixty_rate rate) (fmul max_bpm (n2f hop)))) in
    let lag_max := f2usize (ffloor (fdiv (sixty_rate rate) (fmul min_bpm (n2f hop)))) in
    if ((lag_max <=? lag_min) || (len <=? lag_min) || (len <=? lag_max))%Z then Ok []
    else
      let lo := Z.to_nat lag_min in let hi := Z.to_nat lag_max in
      let! s := slice_chk acf lo (hi + 1) in
      let peaks := find_acf_peaks s lo in
      Ok (sort_desc c_conf (flat_map (acf_candidate acf rate hop min_bpm max_bpm) peaks)).
