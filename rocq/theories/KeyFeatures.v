(** Model of the spectrogram-based key features in src/features/chroma/extractor.rs: tuning estimation, HPCP,
    log-frequency conversion, beat-synchronous chroma, time smoothing and the harmonic masks. *)
From Coq Require Import ZArith.
(** The sum of squares of a frame (extractor.rs:1079, 1133, 1194) is [Onsets.frame_energy]. *)
From Verif Require Import Rust F32 Libm Sorting Onsets Hpss Chroma Autocorrelation TempoSpectra Hmm.

(** Platform functions used only here: f32::atan2, f32::powi with exponent h - 1, and the first k elements left by
    slice::select_nth_unstable_by(k - 1, ..) with the descending comparator (their order and the choice among equal
    scores are not specified by Rust). *)
Record key_platform := {
  p_atan2 : f32 -> f32 -> f32;
  p_powi : f32 -> nat -> f32;
  p_select : list (nat * f32) -> nat -> list (nat * f32) }.

(** extractor.rs:78-93 and its copies (997-1012, 1059-1074, 1113-1128, 1173-1188, 1254-1269, 1315-1330, 1384-1399): the
    shape check shared by the spectrogram functions, run on a non-empty spectrogram. *)
Definition check_shape (spec : list (list f32)) : outcome nat :=
  let nb := length (nth 0 spec []) in
  if nb =? 0 then Err InvalidInput
  else if negb (rectangular nb spec) then Err InvalidInput
  else Ok nb.

(** ** Tuning *)

(** extractor.rs:110-121: largest in-band magnitude of a frame. *)
Fixpoint band_peak (res fmin_ fmax_ : f32) (bins : list (nat * f32)) (peak : f32) : f32 :=
  match bins with
  | [] => peak
  | (k, mag) :: r =>
      let freq := fmul (n2f k) res in
      if flt freq fmin_ then band_peak res fmin_ fmax_ r peak
      else if fgt freq fmax_ then peak
      else band_peak res fmin_ fmax_ r (fmax peak mag)
  end.

(** extractor.rs:104-106: the running sums of sines, cosines and weights. *)
Record tuning_sums := { ts_sin : f32; ts_cos : f32; ts_w : f32 }.

(** extractor.rs:138-151: one strong bin. *)
Definition tuning_bin (L : libm) (freq mag : f32) (a : tuning_sums) : tuning_sums :=
  let s := fadd (fmul (z2f 12) (m_log2 L (fdiv freq a4))) (z2f 57) in
  let residual := fsub s (fround s) in
  let w := m_powf L (fmax mag f0) fhalf in
  if fle w f0 then a
  else
    let angle := fmul (fmul f2 f_pi) residual in
    {| ts_sin := fadd (ts_sin a) (fmul w (m_sin L angle));
       ts_cos := fadd (ts_cos a) (fmul w (m_cos L angle));
       ts_w := fadd (ts_w a) w |}.

(** extractor.rs:127-152. *)
Fixpoint tuning_bins (L : libm) (res fmin_ fmax_ thr : f32) (bins : list (nat * f32)) (a : tuning_sums) : tuning_sums :=
  match bins with
  | [] => a
  | (k, mag) :: r =>
      let freq := fmul (n2f k) res in
      if flt mag thr then tuning_bins L res fmin_ fmax_ thr r a
      else if flt freq fmin_ then tuning_bins L res fmin_ fmax_ thr r a
      else if fgt freq fmax_ then a
      else tuning_bins L res fmin_ fmax_ thr r (tuning_bin L freq mag a)
  end.

(** extractor.rs:109-156: one frame; frames whose in-band peak is at most 1e-12 are skipped. *)
Definition tuning_frame (L : libm) (res fmin_ fmax_ thr : f32) (a : tuning_sums) (frame : list f32) : tuning_sums :=
  let bins := combine (seq 0 (length frame)) frame in
  let peak := band_peak res fmin_ fmax_ bins f0 in
  if fle peak (lit 2305843 (-61)) then a
  else tuning_bins L res fmin_ fmax_ (fmul peak thr) bins a.

(** Iterator::step_by: elements 0, step, 2*step, ... *)
Definition step_by {A} (step : nat) (l : list A) : list A :=
  map snd (filter (fun p => fst p mod step =? 0) (combine (seq 0 (length l)) l)).

(** extractor.rs:66-175 estimate_tuning_offset_semitones_from_spectrogram. *)
Definition estimate_tuning (L : libm) (P : key_platform) (spec : list (list f32)) (rate fft : nat)
    (fmin_hz fmax_hz : f32) (frame_step : nat) (peak_thr : f32) : outcome f32 :=
  if length spec =? 0 then Ok f0
  else
    let! _ := check_shape spec in
    if (rate =? 0) || (fft =? 0) then Ok f0
    else
      let res := fdiv (n2f rate) (n2f fft) in
      let fmin_ := fmax fmin_hz (z2f 20) in
      let! fmax_ := fclamp fmax_hz (fadd fmin_ f1) (fdiv (n2f rate) f2) in
      let step := Nat.max frame_step 1 in
      let thr := fclamp_val peak_thr f0 f1 in
      let a := fold_left (tuning_frame L res fmin_ fmax_ thr) (step_by step spec)
                 {| ts_sin := f0; ts_cos := f0; ts_w := f0 |} in
      if fle (ts_w a) (lit 8796093 (-43)) then Ok f0
      else
        let r := fdiv (fsqrt (fadd (fmul (ts_sin a) (ts_sin a)) (fmul (ts_cos a) (ts_cos a)))) (ts_w a) in
        if flt r (lit 13421773 (-28)) then Ok f0
        else Ok (fdiv (p_atan2 P (ts_sin a) (ts_cos a)) (fmul f2 f_pi)).

(** ** HPCP *)

(** extractor.rs:498-510: the parameters common to all HPCP functions. *)
Record hpcp_params := {
  hp_sigma : f32; hp_tuning : f32; hp_peaks : nat; hp_harmonics : nat; hp_decay : f32; hp_power : f32;
  hp_whiten : bool; hp_whiten_bins : nat }.

(** Prefix sums: element i is the sum of the first i entries (extractor.rs:566-569, 1276-1279). *)
Fixpoint prefix_from (acc : f32) (l : list f32) : list f32 :=
  match l with
  | [] => [acc]
  | x :: r => acc :: prefix_from (fadd acc x) r
  end.
Definition prefix_sums (l : list f32) : list f32 := prefix_from f0 l.

(** extractor.rs:560-580: divide each magnitude by the mean of its neighbourhood of odd width [bins | 1], at most 20. *)
Definition whitened (frame : list f32) (bins : nat) : list f32 :=
  let win := if Nat.even (Nat.max bins 3) then S (Nat.max bins 3) else Nat.max bins 3 in
  let half := win / 2 in
  let prefix := prefix_sums (map (fun x => fmax x f0) frame) in
  let n := length frame in
  map (fun i =>
    let l := i - half in
    let r := Nat.min (i + half) (n - 1) in
    let denom := n2f (r + 1 - l) in
    let mean := fdiv (fsub (nth (r + 1) prefix f0) (nth l prefix f0)) (fmax denom f1) in
    fmin (fdiv (fmax (nth i frame f0) f0) (fadd mean (lit 2305843 (-61)))) (z2f 20)) (seq 0 n).

(** extractor.rs:582-611: in-band local maxima of the selection curve [m] (original or whitened magnitudes). *)
Fixpoint local_maxima (res fmin_ fmax_ : f32) (m : list f32) (bins : list nat) : list (nat * f32) :=
  match bins with
  | [] => []
  | b :: r =>
      let freq := fmul (n2f b) res in
      if flt freq fmin_ then local_maxima res fmin_ fmax_ m r
      else if fgt freq fmax_ then []
      else
        let x := nth b m f0 in
        if fle x (nth (b - 1) m f0) || flt x (nth (b + 1) m f0) then local_maxima res fmin_ fmax_ m r
        else (b, x) :: local_maxima res fmin_ fmax_ m r
  end.

(** extractor.rs:644-669: the harmonics h .. h + n - 1 of one peak. *)
Fixpoint add_harmonics (L : libm) (P : key_platform) (fmin_ fmax_ sigma tuning decay f0_ w0 : f32) (h n : nat)
    (c : list f32) : outcome (list f32) :=
  match n with
  | O => Ok c
  | S n' =>
      let fh := fmul f0_ (n2f h) in
      if fgt fh fmax_ then Ok c
      else if flt fh fmin_ then add_harmonics L P fmin_ fmax_ sigma tuning decay f0_ w0 (S h) n' c
      else
        let contrib := fmul w0 (fdiv (p_powi P decay (h - 1)) (n2f h)) in
        let! c' := soft_add L sigma (semitone L tuning fh) contrib c in
        add_harmonics L P fmin_ fmax_ sigma tuning decay f0_ w0 (S h) n' c'
  end.

(** extractor.rs:634-670: one selected peak. *)
Definition add_peak (L : libm) (P : key_platform) (res fmin_ fmax_ sigma tuning decay p : f32) (hmax : nat)
    (frame : list f32) (acc : outcome (list f32)) (peak : nat * f32) : outcome (list f32) :=
  let! c := acc in
  let f := fmul (n2f (fst peak)) res in
  if fle f f0 then Ok c
  else
    let! mag := get frame (fst peak) in
    let w0 := m_powf L (fmax mag f0) p in
    if fle w0 f0 then Ok c
    else add_harmonics L P fmin_ fmax_ sigma tuning decay f w0 1 hmax c.

(** extractor.rs:529-680 frame_to_hpcp_tuned_band.  [p_select] stands for select_nth_unstable_by and truncate. *)
Definition frame_to_hpcp (L : libm) (P : key_platform) (q : hpcp_params) (rate fft : nat) (fmin_hz fmax_hz : f32)
    (frame : list f32) : outcome (list f32) :=
  if (length frame =? 0) || (rate =? 0) || (fft =? 0) then Ok (repeat f0 12)
  else
    let res := fdiv (n2f rate) (n2f fft) in
    let fmin_ := fmax fmin_hz (z2f 20) in
    let fmax_ := fmin fmax_hz (fdiv (n2f rate) f2) in
    if fle fmax_ fmin_ then Ok (repeat f0 12)
    else
      let curve := if hp_whiten q && (3 <=? hp_whiten_bins q) then whitened frame (hp_whiten_bins q) else frame in
      let peaks := local_maxima res fmin_ fmax_ curve (seq 1 (length frame - 1 - 1)) in
      if length peaks =? 0 then Ok (repeat f0 12)
      else
        let k := Nat.max 1 (Nat.min (hp_peaks q) (length peaks)) in
        let top := p_select P peaks k in
        let sigma := fmax (hp_sigma q) (lit 8796093 (-43)) in
        let decay := fclamp_val (hp_decay q) f0 f1 in
        let p := fclamp_val (hp_power q) (lit 13421773 (-28)) f1 in
        omap unit_or_keep
          (fold_left (add_peak L P res fmin_ fmax_ sigma (hp_tuning q) decay p (Nat.max (hp_harmonics q) 1) frame)
             top (Ok (repeat f0 12))).

(** extractor.rs:1097-1151 extract_hpcp_from_spectrogram_with_options_and_energy_tuned. *)
Definition extract_hpcp (L : libm) (P : key_platform) (q : hpcp_params) (rate fft : nat) (spec : list (list f32))
  : outcome (list (list f32) * list f32) :=
  if length spec =? 0 then Ok ([], [])
  else
    let! _ := check_shape spec in
    let! pcs := oseq (map (frame_to_hpcp L P q rate fft chroma_fmin chroma_fmax) spec) in
    Ok (pcs, map frame_energy spec).

(** extractor.rs:1226-1236: (1-w)*full + w*bass, divided by its norm. *)
Definition blend (w : f32) (full bass : list f32) : list f32 :=
  unit_or_keep (map (fun i => fadd (fmul (fsub f1 w) (nth i full f0)) (fmul w (nth i bass f0))) (seq 0 12)).

(** extractor.rs:1154-1239 extract_hpcp_bass_blend_from_spectrogram_with_options_and_energy_tuned; the bass band uses
    between 1 and 12 peaks. *)
Definition extract_hpcp_bass (L : libm) (P : key_platform) (q : hpcp_params) (rate fft : nat)
    (bass_fmin bass_fmax bass_weight : f32) (spec : list (list f32)) : outcome (list (list f32) * list f32) :=
  if length spec =? 0 then Ok ([], [])
  else
    let! _ := check_shape spec in
    let w := fclamp_val bass_weight f0 f1 in
    let qb := {| hp_sigma := hp_sigma q; hp_tuning := hp_tuning q; hp_peaks := Nat.max 1 (Nat.min (hp_peaks q) 12);
                 hp_harmonics := hp_harmonics q; hp_decay := hp_decay q; hp_power := hp_power q;
                 hp_whiten := hp_whiten q; hp_whiten_bins := hp_whiten_bins q |} in
    let! pcs := oseq (map (fun f =>
        let! full := frame_to_hpcp L P q rate fft chroma_fmin chroma_fmax f in
        let! bass := frame_to_hpcp L P qb rate fft bass_fmin bass_fmax f in
        Ok (blend w full bass)) spec) in
    Ok (pcs, map frame_energy spec).

(** extractor.rs:1047-1091 extract_chroma_from_spectrogram_with_options_and_energy_tuned (1028-1043 is tuning = 0). *)
Definition extract_chroma_spec (L : libm) (rate fft : nat) (soft : bool) (sigma tuning : f32) (spec : list (list f32))
  : outcome (list (list f32) * list f32) :=
  if length spec =? 0 then Ok ([], [])
  else
    let! _ := check_shape spec in
    let! cs := oseq (map (frame_to_chroma L rate fft soft sigma tuning) spec) in
    Ok (cs, map frame_energy spec).

(** ** Log-frequency spectrogram *)

(** extractor.rs:738-752: lowest semitone bin and number of semitone bins.  A negative count cast to usize is at least
    2^64 - 2^32, and allocating that many bins panics ("capacity overflow"). *)
Definition semitone_bins (L : libm) (fmin_ fmax_ : f32) : outcome (Z * nat) :=
  let st f := fadd (fmul (z2f 12) (m_log2 L (fdiv f a4))) (z2f 57) in
  let lo := f2i32 (ffloor (st fmin_)) in
  let hi := f2i32 (fceil (st fmax_)) in
  let! d := i32_chk (hi - lo) in
  let! n := i32_chk (d + 1) in
  if (n =? 0)%Z then Err InvalidInput
  else if (n <? 0)%Z then Panic
  else Ok (lo, Z.to_nat n).

(** extractor.rs:783-801: the contributions of one linear bin. *)
Definition log_targets (L : libm) (lo : Z) (n : nat) (freq mag : f32) : list (nat * f32) :=
  let x := fsub (fadd (fmul (z2f 12) (m_log2 L (fdiv freq a4))) (z2f 57)) (z2f lo) in
  let low := f2usize (ffloor x) in
  let high := Z.min (f2usize (fceil x)) (Z.of_nat n - 1) in
  if (low <? Z.of_nat n)%Z then
    let wh := fsub x (z2f low) in
    let wl := fsub f1 wh in
    (Z.to_nat low, fmul mag wl) ::
    (if negb (high =? low)%Z && (high <? Z.of_nat n)%Z then [(Z.to_nat high, fmul mag wh)] else [])
  else [].

(** extractor.rs:769-803: one frame. *)
Fixpoint log_bins (L : libm) (res fmin_ fmax_ nyq : f32) (lo : Z) (n : nat) (bins : list (nat * f32)) (c : list f32)
  : outcome (list f32) :=
  match bins with
  | [] => Ok c
  | (k, mag) :: r =>
      let freq := fmul (n2f k) res in
      if fle mag f0 then log_bins L res fmin_ fmax_ nyq lo n r c
      else if flt freq fmin_ || fge freq fmax_ || fge freq nyq then log_bins L res fmin_ fmax_ nyq lo n r c
      else
        let! c' := fold_left (fun acc p => let! c := acc in add_at c (fst p) (snd p)) (log_targets L lo n freq mag) (Ok c) in
        log_bins L res fmin_ fmax_ nyq lo n r c'
  end.

(** extractor.rs:701-810 convert_linear_to_log_frequency_spectrogram; the unused _semitone_freqs table (754-765) is
    left out. *)
Definition log_frequency (L : libm) (rate fft : nat) (fmin_hz fmax_hz : f32) (spec : list (list f32))
  : outcome (list (list f32)) :=
  if length spec =? 0 then Ok []
  else if negb (rectangular (length (nth 0 spec [])) spec) then Err InvalidInput
  else if (rate =? 0) || (fft =? 0) then Err InvalidInput
  else
    let res := fdiv (n2f rate) (n2f fft) in
    let nyq := fdiv (n2f rate) f2 in
    let fmin_ := fmax fmin_hz (z2f 20) in
    let fmax_ := fmin fmax_hz (fsub nyq f1) in
    let! b := semitone_bins L fmin_ fmax_ in
    oseq (map (fun f => log_bins L res fmin_ fmax_ nyq (fst b) (snd b) (combine (seq 0 (length f)) f)
                          (repeat f0 (snd b))) spec).

(** extractor.rs:947-968: chroma of one log-frequency frame. *)
Fixpoint fold_octaves (offset : Z) (bins : list (nat * f32)) (c : list f32) : outcome (list f32) :=
  match bins with
  | [] => Ok c
  | (k, mag) :: r =>
      if fle mag f0 then fold_octaves offset r c
      else
        let! s := i32_chk (offset + as_i32 (Z.of_nat k)) in
        let! c' := add_at c (Z.to_nat (s mod 12)) mag in
        fold_octaves offset r c'
  end.
(** extractor.rs:937-981 extract_chroma_from_log_frequency_spectrogram. *)
Definition log_chroma (offset : Z) (spec : list (list f32)) : outcome (list (list f32)) :=
  oseq (map (fun f => omap unit_or_keep (fold_octaves offset (combine (seq 0 (length f)) f) (repeat f0 12))) spec).

(** ** Beat-synchronous chroma *)

(** extractor.rs:892-910: mean of the vectors, then the norm. *)
Definition average_chroma (cs : list (list f32)) : list f32 :=
  let sums := fold_left (fun acc c => map (fun p => fadd (fst p) (snd p)) (combine acc c)) cs (repeat f0 12) in
  unit_or_keep (map (fun x => fdiv x (n2f (length cs))) sums).

(** extractor.rs:859-919: one beat interval. *)
Definition beat_interval (L : libm) (rate fft hop : nat) (soft : bool) (sigma tuning : f32) (spec : list (list f32))
    (start stop : f32) : outcome (list f32 * f32) :=
  let dur := fdiv (n2f hop) (n2f rate) in
  let frames := filter (fun p => let t := fmul (n2f (fst p)) dur in fge t start && flt t stop)
                  (combine (seq 0 (length spec)) spec) in
  let! cs := oseq (map (fun p => frame_to_chroma L rate fft soft sigma tuning (snd p)) frames) in
  let energy := fsum (map (fun p => frame_energy (snd p)) frames) in
  if length cs =? 0 then Ok (repeat f0 12, f0) else Ok (average_chroma cs, energy).

(** extractor.rs:830-922 extract_beat_synchronous_chroma. *)
Definition beat_chroma (L : libm) (rate fft hop : nat) (soft : bool) (sigma tuning : f32) (beats : list f32)
    (spec : list (list f32)) : outcome (list (list f32) * list f32) :=
  if length spec =? 0 then Ok ([], [])
  else if length beats =? 0 then Err InvalidInput
  else
    let! r := oseq (map (fun i => beat_interval L rate fft hop soft sigma tuning spec (nth i beats f0) (nth (i + 1) beats f0))
                       (seq 0 (length beats - 1))) in
    Ok (map fst r, map snd r).

(** ** Harmonic emphasis *)

(** extractor.rs:1246-1291 smooth_spectrogram_time: moving average over time by prefix sums. *)
Definition smooth_time (spec : list (list f32)) (margin : nat) : outcome (list (list f32)) :=
  if (length spec =? 0) || (margin =? 0) then Ok spec
  else
    let! nb := check_shape spec in
    let nf := length spec in
    let prefix := map (fun b => prefix_sums (map (fun row => nth b row f0) spec)) (seq 0 nb) in
    Ok (tabulate nf nb (fun t b =>
          let start := t - margin in
          let stop := Nat.min (t + margin + 1) nf in
          fdiv (fsub (nth stop (nth b prefix []) f0) (nth start (nth b prefix []) f0)) (n2f (Nat.max (stop - start) 1)))).

(** extractor.rs:1342-1344, 1479-1483: the harmonic soft mask. *)
Definition mask_value (L : libm) (p h r : f32) : f32 :=
  let hp := m_powf L h p in
  let rp := m_powf L r p in
  fdiv hp (fadd (fadd hp rp) (lit 2305843 (-61))).

(** extractor.rs:1306-1349 harmonic_spectrogram_time_mask. *)
Definition time_mask (L : libm) (spec : list (list f32)) (margin : nat) (power : f32) : outcome (list (list f32)) :=
  if length spec =? 0 then Ok []
  else
    let! nb := check_shape spec in
    let! h_est := smooth_time spec margin in
    let p := fmax power f1 in
    Ok (tabulate (length spec) nb (fun t b =>
          let x := fmax (cell spec t b) f0 in
          let h := fmax (cell h_est t b) f0 in
          fmul x (mask_value L p h (fmax (fsub x h) f0)))).

(** extractor.rs:1451, 1467, 1495: non-finite values count as 0. *)
Definition clean (x : f32) : f32 := if fisfin x then fmax x f0 else f0.

(** extractor.rs:1429-1438: the element at position len/2 in ascending order.  [clean] values have no NaN, so the
    selected value is determined (up to the sign of zero). *)
Definition median_mid (w : list f32) : f32 := nth (length w / 2) (sort_asc w) f0.

(** extractor.rs:1404-1416: the band of bins on which the mask is computed. *)
Definition mask_band (rate fft nb : nat) (fmin_hz fmax_hz : f32) : outcome (Z * Z) :=
  let res := fdiv (n2f rate) (n2f fft) in
  let fmin_ := fmax fmin_hz (z2f 20) in
  let! fmax_ := fclamp fmax_hz (fadd fmin_ f1) (fdiv (n2f rate) f2) in
  let cl z := Z.max 0 (Z.min z (Z.of_nat nb)) in
  Ok (cl (f2isize (ffloor (fdiv fmin_ res))), cl (f2isize (fceil (fdiv fmax_ res)))).

(** extractor.rs:1369-1501 harmonic_spectrogram_hpss_median_mask. *)
Definition median_mask (L : libm) (spec : list (list f32)) (rate fft : nat) (fmin_hz fmax_hz : f32)
    (frame_step time_margin freq_margin : nat) (power : f32) : outcome (list (list f32)) :=
  if length spec =? 0 then Ok []
  else
    let! nb := check_shape spec in
    if (rate =? 0) || (fft =? 0) then Ok spec
    else
      let! band := mask_band rate fft nb fmin_hz fmax_hz in
      if (snd band <=? fst band)%Z then Ok spec
      else
        let bs := Z.to_nat (fst band) in
        let bb := Z.to_nat (snd band) - bs in
        let step := Nat.max frame_step 1 in
        let rows := step_by step spec in
        let nds := length rows in
        let ds k b := clean (cell rows k (bs + b)) in
        let p := fmax power f1 in
        let mask k b :=
          let h := median_mid (map (fun k' => ds k' b) (window time_margin k nds)) in
          let per := median_mid (map (fun b' => ds k b') (window freq_margin b bb)) in
          mask_value L p (fmax h f0) (fmax per f0) in
        let nf := length spec in
        Ok (tabulate nf nb (fun t bin =>
              if (bs <=? bin) && (bin <? bs + bb) then
                fmul (clean (cell spec t bin)) (mask (Nat.min (t / step) (nds - 1)) (bin - bs))
              else f0)).
