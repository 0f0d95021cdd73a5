(** Model of src/features/period/tempogram_autocorr.rs and tempogram_fft.rs. *)
From Coq Require Import ZArith.
From Verif Require Import Rust F32 Libm Sorting PeakPicking BpmLoop Autocorrelation.

(** tempogram_autocorr.rs:120 frame_rate = sample_rate / hop_size (u32 values). *)
Definition frame_rate (rate hop : nat) : f32 := fdiv (n2f rate) (n2f hop).

(** tempogram_autocorr.rs:133-139: the lag of a tempo in frames. *)
Definition tempo_lag (rate hop : nat) (bpm : f32) : Z :=
  f2usize (fdiv (frame_rate rate hop) (fdiv bpm (z2f 60))).

(** tempogram_autocorr.rs:137-158: mean product of values [lag] frames apart.  The index
    addition i + lag panics on overflow (overflow checks on). *)
Definition lag_strength (nov : list f32) (lag : Z) : outcome f32 :=
  let n := length nov in
  if (usize_max <? Z.of_nat (n - 1) + lag)%Z then Panic
  else if (Z.of_nat n <=? lag)%Z then Ok f0
  else
    let lag := Z.to_nat lag in
    let sum := fsum (map (fun i => fmul (nth i nov f0) (nth (i + lag) nov f0)) (seq 0 (n - lag))) in
    Ok (fdiv sum (n2f (n - lag))).

(** tempogram_autocorr.rs:79-179 autocorrelation_tempogram; [None]: loop still running. *)
Definition autocorr_tempogram (fuel : nat) (nov : list f32) (rate hop : nat) (min_bpm max_bpm res : f32)
  : option (outcome (list (f32 * f32))) :=
  if length nov =? 0 then Some (Err InvalidInput)
  else if rate =? 0 then Some (Err InvalidInput)
  else if hop =? 0 then Some (Err InvalidInput)
  else if fle min_bpm f0 || fle max_bpm min_bpm then Some (Err InvalidInput)
  else if fle res f0 then Some (Err InvalidInput)
  else
    match bpm_loop (fun bpm => lag_strength nov (tempo_lag rate hop bpm)) max_bpm res fuel min_bpm with
    | None => None
    | Some r => Some (omap (sort_desc snd) r)
    end.

(** tempogram_autocorr.rs:192-222 find_best_bpm_autocorr and tempogram_fft.rs:206-236
    find_best_bpm_fft (the same code): (bpm, confidence, strength).  The clamp bounds are
    the constants 0 and 1. *)
Definition find_best (t : list (f32 * f32)) : option (f32 * f32 * f32) :=
  match t with
  | [] => None
  | (bpm, best) :: r =>
      let conf :=
        match r with
        | [] => fhalf
        | (_, second) :: _ =>
            if fgt best eps10 then fclamp_val (fdiv (fmax (fsub best second) f0) best) f0 f1
            else f0
        end in
      Some (bpm, conf, best)
  end.

(** tempogram_fft.rs:130-146: mean removal, Hann window, zero padding.  PI is the f32
    constant 3.1415927. *)
Definition f_pi : f32 := lit 13176795 (-22).
Definition hann (L : libm) (n i : nat) : f32 :=
  if 1 <? n then
    fmul fhalf (fsub f1 (m_cos L (fdiv (fmul (fmul f2 f_pi) (n2f i)) (n2f (n - 1)))))
  else f1.
Definition fft_input (L : libm) (nov : list f32) : list complex :=
  let n := length nov in
  let mean := fdiv (fsum nov) (n2f n) in
  map (fun ix => (fmul (fsub (snd ix) mean) (hann L n (fst ix)), f0)) (combine (seq 0 n) nov)
  ++ repeat (f0, f0) (next_pow2 n - n).

(** tempogram_fft.rs:178-181: tempo of a bin. *)
Definition bin_bpm (rate hop size k : nat) : f32 :=
  fmul (fmul (n2f k) (fdiv (frame_rate rate hop) (n2f size))) (z2f 60).

(** tempogram_fft.rs:78-203 fft_tempogram. *)
Definition fft_tempogram (F : fft_oracle) (L : libm) (nov : list f32) (rate hop : nat) (min_bpm max_bpm : f32)
  : outcome (list (f32 * f32)) :=
  if length nov =? 0 then Err InvalidInput
  else if rate =? 0 then Err InvalidInput
  else if hop =? 0 then Err InvalidInput
  else if fle min_bpm f0 || fle max_bpm min_bpm then Err InvalidInput
  else
    let size := next_pow2 (length nov) in
    let power := map (fun z => fadd (fmul (fst z) (fst z)) (fmul (snd z) (snd z)))
                     (fft_forward F (fft_input L nov)) in
    let bins := combine (seq 0 (size / 2 + 1)) (firstn (size / 2 + 1) power) in
    let entries := map (fun kp => (bin_bpm rate hop size (fst kp), snd kp)) bins in
    Ok (sort_desc snd (filter (fun e => fge (fst e) min_bpm && fle (fst e) max_bpm) entries)).
