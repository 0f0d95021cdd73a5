(** Model of src/features/chroma/smoothing.rs, src/features/chroma/normalization.rs and of the STFT and
    chroma mapping in src/features/chroma/extractor.rs. *)
From Coq Require Import ZArith.
From Verif Require Import Rust F32 Libm Sorting PeakPicking Autocorrelation TempoSpectra Hmm.

(** An i32 addition or subtraction: overflow panics (overflow checks on). *)
Definition i32_chk (z : Z) : outcome Z :=
  if ((- 2147483648 <=? z) && (z <=? 2147483647))%Z then Ok z else Panic.

(** smoothing.rs:73-77 and 139-144: the value one window offset contributes, if that frame exists. *)
Definition offset_value (c : list (list f32)) (half i s offset : nat) : outcome (list f32) :=
  let! d := i32_chk (as_i32 (Z.of_nat offset) - as_i32 (Z.of_nat half)) in
  let! j := i32_chk (as_i32 (Z.of_nat i) + d) in
  if ((0 <=? j) && (j <? Z.of_nat (length c)))%Z then
    let! row := get c (Z.to_nat j) in
    let! v := get row s in Ok [v]
  else Ok [].

(** smoothing.rs:70-78 and 138-145: the values of bin [s] in the window around frame [i]. *)
Definition window_values (c : list (list f32)) (window half i s : nat) : outcome (list f32) :=
  omap (@concat _) (oseq (map (offset_value c half i s) (seq 0 window))).

(** smoothing.rs:81-87: the element at position len/2 of the sorted window. *)
Definition median_cell (c : list (list f32)) (window i s : nat) : outcome f32 :=
  let! w := window_values c window (window / 2) i s in
  if length w =? 0 then let! row := get c i in get row s
  else let! l := sort_times (fun x => x) w in get l (length l / 2).

(** smoothing.rs:148-152. *)
Definition mean_cell (c : list (list f32)) (window i s : nat) : outcome f32 :=
  let! w := window_values c window (window / 2) i s in
  if length w =? 0 then let! row := get c i in get row s
  else Ok (fdiv (fsum w) (n2f (length w))).

(** smoothing.rs:61-93 and 126-158: one cell per frame and bin of the first frame. *)
Definition smooth_cells (cell : nat -> nat -> outcome f32) (c : list (list f32)) : outcome (list (list f32)) :=
  oseq (map (fun i => oseq (map (cell i) (seq 0 (length (nth 0 c []))))) (seq 0 (length c))).

(** smoothing.rs:37-94 smooth_chroma (median). *)
Definition smooth_chroma (c : list (list f32)) (window : nat) : outcome (list (list f32)) :=
  if length c =? 0 then Ok []
  else if (window =? 0) || (window =? 1) then Ok c
  else
    let window := if Nat.even window then window + 1 else window in
    smooth_cells (median_cell c window) c.

(** smoothing.rs:109-159 smooth_chroma_average. *)
Definition smooth_chroma_average (c : list (list f32)) (window : nat) : outcome (list (list f32)) :=
  if length c =? 0 then Ok []
  else if (window =? 0) || (window =? 1) then Ok c
  else smooth_cells (mean_cell c window) c.

(** normalization.rs:52 and 83, extractor.rs (several places): Euclidean norm of a vector. *)
Definition l2_norm (c : list f32) : f32 := fsqrt (fsum (map (fun x => fmul x x) c)).

(** normalization.rs:78-92 l2_normalize_chroma. *)
Definition l2_normalize (c : list f32) : list f32 :=
  if length c =? 0 then []
  else
    let norm := l2_norm c in
    if fgt norm eps10 then map (fun x => fdiv x norm) c
    else repeat (fdiv f1 (fsqrt (n2f (length c)))) (length c).

(** normalization.rs:41-65 sharpen_chroma. *)
Definition sharpen_chroma (L : libm) (c : list f32) (power : f32) : list f32 :=
  if length c =? 0 then []
  else
    let s := map (fun x => m_powf L x power) c in
    let norm := l2_norm s in
    if fgt norm eps10 then map (fun x => fdiv x norm) s
    else repeat (fdiv f1 (fsqrt (n2f (length c)))) (length c).

(** extractor.rs:458-465 and later copies: divide by the norm unless it is at most 1e-10. *)
Definition unit_or_keep (c : list f32) : list f32 :=
  let norm := l2_norm c in
  if fgt norm eps10 then map (fun x => fdiv x norm) c else c.

(** extractor.rs:318-323: Hann window. *)
Definition stft_window (L : libm) (frame i : nat) : f32 :=
  fmul fhalf (fsub f1 (m_cos L (fdiv (fmul (fmul f2 f_pi) (n2f i)) (n2f (frame - 1))))).

(** extractor.rs:339-355: windowed FFT magnitudes of the frame starting at [start].  An FFT of length 0 leaves
    its empty buffer alone, so for frame = 0 taking the first bin panics. *)
Definition stft_frame (F : fft_oracle) (L : libm) (samples : list f32) (frame start : nat) : outcome (list f32) :=
  let! s := slice_chk samples start (start + frame) in
  let input := map (fun p => (fmul (fst p) (snd p), f0)) (combine s (map (stft_window L frame) (seq 0 frame))) in
  let! bins := slice_chk (fft_forward F input) 0 (frame / 2 + 1) in
  Ok (map (fun z => fsqrt (fadd (fmul (fst z) (fst z)) (fmul (snd z) (snd z)))) bins).

(** extractor.rs:329-358: the frame loop with its early exit. *)
Fixpoint stft_frames (F : fft_oracle) (L : libm) (samples : list f32) (frame hop : nat) (idx : list nat)
  : outcome (list (list f32)) :=
  match idx with
  | [] => Ok []
  | k :: r =>
      if length samples <? k * hop + frame then Ok []
      else
        let! m := stft_frame F L samples frame (k * hop) in
        let! rest := stft_frames F L samples frame hop r in
        Ok (m :: rest)
  end.

(** extractor.rs:301-359 compute_stft; a hop of 0 divides by zero. *)
Definition compute_stft (F : fft_oracle) (L : libm) (samples : list f32) (frame hop : nat)
  : outcome (list (list f32)) :=
  let n := length samples in
  if n <? frame then Ok []
  else if hop =? 0 then Panic
  else stft_frames F L samples frame hop (seq 0 ((n - frame) / hop + 1)).

(** f32's [%]: the exact remainder of truncated division (fmod). *)
Definition frem (x y : f32) : f32 :=
  match x, y with
  | B754_nan, _ | _, B754_nan | B754_infinity _, _ | _, B754_zero _ => fnan
  | _, B754_infinity _ => x
  | B754_zero _, _ => x
  | B754_finite sx mx ex _, B754_finite _ my ey _ =>
      let e := Z.min ex ey in
      let a := (Z.pos mx * 2 ^ (ex - e))%Z in
      let b := (Z.pos my * 2 ^ (ey - e))%Z in
      binary_normalize fprec femax _ _ mode_NE (if sx then - (a mod b) else a mod b)%Z e sx
  end.
(** f32::rem_euclid. *)
Definition frem_euclid (x y : f32) : f32 :=
  let r := frem x y in if flt r f0 then fadd r (fabs y) else r.

(** extractor.rs:37-48: reference pitch and band limits. *)
Definition a4 : f32 := z2f 440.
Definition chroma_fmin : f32 := z2f 100.
Definition chroma_fmax : f32 := z2f 5000.

(** extractor.rs:424, 642: semitone = 12*log2(freq/440) + 57 - tuning. *)
Definition semitone (L : libm) (tuning freq : f32) : f32 :=
  fsub (fadd (fmul (z2f 12) (m_log2 L (fdiv freq a4))) (z2f 57)) tuning.

(** chroma[i] += v. *)
Definition add_at (c : list f32) (i : nat) (v : f32) : outcome (list f32) :=
  let! old := get c i in Ok (firstn i c ++ fadd old v :: skipn (S i) c).

(** extractor.rs:441-457, 643-663: spread a contribution over the nearest pitch class and its two neighbours on the
    12-tone circle with Gaussian weights. *)
Definition soft_weight (L : libm) (sigma pc : f32) (target : Z) : f32 :=
  let d := fabs (fsub pc (z2f target)) in
  let d := fmin d (fsub (z2f 12) d) in
  m_exp L (fdiv (fmul (fneg d) d) (fmul (fmul f2 sigma) sigma)).
Definition soft_add (L : libm) (sigma s contrib : f32) (c : list f32) : outcome (list f32) :=
  let pc := frem_euclid s (z2f 12) in
  let primary := f2i32 (frem_euclid (fround pc) (z2f 12)) in
  fold_left (fun acc off =>
      let! c := acc in
      let target := ((primary + off) mod 12)%Z in
      add_at c (Z.to_nat target) (fmul contrib (soft_weight L sigma pc target)))
    [-1; 0; 1]%Z (Ok c).

(** extractor.rs:464-477: hard assignment to the nearest semitone class. *)
Definition hard_add (s contrib : f32) (c : list f32) : outcome (list f32) :=
  let k := Z.rem (f2i32 (fround s)) 12 in
  let k := if (k <? 0)%Z then (k + 12)%Z else k in
  add_at c (Z.to_nat k) contrib.

(** extractor.rs:404-478: the loop over the frequency bins.  The sigma floor is 1e-6, the magnitude exponent 0.6. *)
Fixpoint chroma_bins (L : libm) (rate : nat) (res : f32) (soft : bool) (sigma tuning : f32)
    (bins : list (nat * f32)) (c : list f32) : outcome (list f32) :=
  match bins with
  | [] => Ok c
  | (k, mag) :: r =>
      let freq := fmul (n2f k) res in
      let nyq := fdiv (n2f rate) f2 in
      if flt freq chroma_fmin then chroma_bins L rate res soft sigma tuning r c
      else if fgt freq (fmin chroma_fmax nyq) then Ok c
      else if fge freq nyq then Ok c
      else
        let s := semitone L tuning freq in
        let contrib := m_powf L (fmax mag f0) (lit 5033165 (-23)) in
        let! c' := if soft then soft_add L (fmax sigma (lit 8796093 (-43))) s contrib c else hard_add s contrib c in
        chroma_bins L rate res soft sigma tuning r c'
  end.

(** extractor.rs:393-490 frame_to_chroma_tuned (376-391 frame_to_chroma is tuning = 0). *)
Definition frame_to_chroma (L : libm) (rate fft_size : nat) (soft : bool) (sigma tuning : f32) (frame : list f32)
  : outcome (list f32) :=
  let res := fdiv (n2f rate) (n2f fft_size) in
  omap unit_or_keep
    (chroma_bins L rate res soft sigma tuning (combine (seq 0 (length frame)) frame) (repeat f0 12)).

(** extractor.rs:218-290 extract_chroma_with_options (208-216 extract_chroma: soft = true, sigma = 0.5). *)
Definition extract_chroma (F : fft_oracle) (L : libm) (samples : list f32) (rate frame hop : nat)
    (soft : bool) (sigma : f32) : outcome (list (list f32)) :=
  if length samples =? 0 then Err InvalidInput
  else if frame =? 0 then Err InvalidInput
  else if hop =? 0 then Err InvalidInput
  else if rate =? 0 then Err InvalidInput
  else
    let! stft := compute_stft F L samples frame hop in
    if length stft =? 0 then Ok []
    else oseq (map (frame_to_chroma L rate frame soft sigma f0) stft).
