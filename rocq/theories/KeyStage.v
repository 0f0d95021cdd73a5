(** Model of the key detection stage of src/lib.rs (analyze_audio, lines 960-1559).  Logging and the debug dump
    (1470-1538) are dropped. *)
From Coq Require Import ZArith.
From Verif Require Import Rust F32 Libm Sorting Onsets Autocorrelation Chroma KeyFeatures KeyNotation KeyTemplates KeyDetector
  Config.

(** Result of a call whose error is only logged: [f] on success, [d] on error; panics propagate. *)
Definition on_error {A} (x : outcome A) (d : A) : outcome A :=
  match x with
  | Ok a => Ok a
  | Err _ => Ok d
  | Panic => Panic
  end.

(** The hash orders of the key detector calls made here: ensemble (2 calls), each segment, each multi-scale segment, and
    the whole track. *)
Record key_orders := {
  ko_kk : hash_order; ko_te : hash_order; ko_segment : nat -> hash_order; ko_scale : nat -> nat -> hash_order;
  ko_track : hash_order }.

(** lib.rs:985-994: frame and hop size of the key STFT. *)
Definition key_fft_size (c : analysis_config) : nat :=
  if cf_enable_key_stft_override c then Nat.max (cf_key_stft_frame_size c) 256 else cf_frame_size c.
Definition key_hop_size (c : analysis_config) : nat :=
  if cf_enable_key_stft_override c then Nat.max (cf_key_stft_hop_size c) 1 else cf_hop_size c.

(** lib.rs:996-1009: the spectrogram used for key detection; the shared one if the override is off or fails. *)
Definition key_spec (F : fft_oracle) (L : libm) (c : analysis_config) (samples : list f32) (shared : list (list f32))
  : outcome (list (list f32)) :=
  if cf_enable_key_stft_override c
  then on_error (compute_stft F L samples (key_fft_size c) (key_hop_size c)) shared
  else Ok shared.

(** lib.rs:1012-1062: conditioning by the first enabled mask; the input if none is enabled or the mask fails. *)
Definition condition_spec (L : libm) (c : analysis_config) (rate : nat) (spec : list (list f32))
  : outcome (list (list f32)) :=
  if length spec =? 0 then Ok spec
  else if cf_enable_key_hpss_harmonic c then
    on_error (median_mask L spec rate (key_fft_size c) (z2f 100) (z2f 5000) (cf_key_hpss_frame_step c)
                (cf_key_hpss_time_margin c) (cf_key_hpss_freq_margin c) (cf_key_hpss_mask_power c)) spec
  else if cf_enable_key_harmonic_mask c then
    on_error (time_mask L spec (cf_key_spectrogram_smooth_margin c) (cf_key_harmonic_mask_power c)) spec
  else if cf_enable_key_spectrogram_time_smoothing c then
    on_error (smooth_time spec (cf_key_spectrogram_smooth_margin c)) spec
  else Ok spec.

(** lib.rs:1066-1092: the log-frequency spectrogram and the semitone of its first bin, if enabled and convertible. *)
Definition log_spec (L : libm) (c : analysis_config) (rate : nat) (spec : list (list f32))
  : outcome (option (list (list f32) * Z)) :=
  if cf_enable_key_log_frequency c && negb (length spec =? 0) then
    match log_frequency L rate (key_fft_size c) (z2f 100) (z2f 5000) spec with
    | Ok s => Ok (Some (s, f2i32 (ffloor (fadd (fmul (z2f 12) (m_log2 L (fdiv (z2f 100) a4))) (z2f 57)))))
    | Err _ => Ok None
    | Panic => Panic
    end
  else Ok None.

(** lib.rs:1096-1118: the tuning offset, clamped to the configured maximum (clamp panics if that is NaN). *)
Definition tuning_offset (L : libm) (P : key_platform) (c : analysis_config) (rate : nat) (spec : list (list f32))
    (use_log : bool) : outcome f32 :=
  if cf_enable_key_tuning_compensation c && negb (length spec =? 0) && negb use_log then
    match estimate_tuning L P spec rate (key_fft_size c) (z2f 80) (z2f 2000) (cf_key_tuning_frame_step c)
            (cf_key_tuning_peak_rel_threshold c) with
    | Ok d =>
        let m := fabs (cf_key_tuning_max_abs_semitones c) in
        fclamp d (fneg m) m
    | Err _ => Ok f0
    | Panic => Panic
    end
  else Ok f0.

(** lib.rs:1145-1177: HPCP parameters from the configuration. *)
Definition hpcp_config (c : analysis_config) (tuning : f32) : hpcp_params :=
  {| hp_sigma := cf_soft_mapping_sigma c; hp_tuning := tuning; hp_peaks := cf_key_hpcp_peaks_per_frame c;
     hp_harmonics := cf_key_hpcp_num_harmonics c; hp_decay := cf_key_hpcp_harmonic_decay c;
     hp_power := cf_key_hpcp_mag_power c; hp_whiten := cf_enable_key_hpcp_whitening c;
     hp_whiten_bins := cf_key_hpcp_whitening_smooth_bins c |}.

(** lib.rs:1120-1195: chroma vectors and frame energies by the selected extractor. *)
Definition chroma_call (L : libm) (P : key_platform) (c : analysis_config) (rate : nat) (beats : list f32)
    (spec : list (list f32)) (lg : option (list (list f32) * Z)) (tuning : f32) : outcome (list (list f32) * list f32) :=
  let fft := key_fft_size c in
  match lg with
  | None =>
      if cf_enable_key_beat_synchronous c && negb (length beats =? 0) then
        beat_chroma L rate fft (key_hop_size c) (cf_soft_chroma_mapping c) (cf_soft_mapping_sigma c) tuning beats spec
      else if cf_enable_key_hpcp c then
        if cf_enable_key_hpcp_bass_blend c then
          extract_hpcp_bass L P (hpcp_config c tuning) rate fft (cf_key_hpcp_bass_fmin_hz c) (cf_key_hpcp_bass_fmax_hz c)
            (cf_key_hpcp_bass_weight c) spec
        else extract_hpcp L P (hpcp_config c tuning) rate fft spec
      else if cf_enable_key_tuning_compensation c && fgt (fabs tuning) (lit 8796093 (-43)) then
        extract_chroma_spec L rate fft (cf_soft_chroma_mapping c) (cf_soft_mapping_sigma c) tuning spec
      else extract_chroma_spec L rate fft (cf_soft_chroma_mapping c) (cf_soft_mapping_sigma c) f0 spec
  | Some (s, offset) =>
      let! cs := log_chroma offset s in
      Ok (cs, map frame_energy s)
  end.

(** lib.rs:1199-1213: sharpening and temporal smoothing. *)
Definition refine_chroma (L : libm) (c : analysis_config) (cs : list (list f32)) : outcome (list (list f32)) :=
  let cs := if fgt (cf_chroma_sharpening_power c) f1
            then map (fun v => sharpen_chroma L v (cf_chroma_sharpening_power c)) cs else cs in
  if 5 <? length cs then smooth_chroma cs 5 else Ok cs.

(** lib.rs:1217-1233: first and one-past-last frame kept by edge trimming; None: all frames are kept. *)
Definition trim_range (c : analysis_config) (n energies : nat) : option (Z * Z) :=
  if cf_enable_key_edge_trim c && (n =? energies) && (200 <=? n) then
    let frac := fclamp_val (cf_key_edge_trim_fraction c) f0 (lit 2055209 (-22)) in
    let start := f2usize (fround (fmul (n2f n) frac)) in
    let stop := f2usize (fround (fmul (n2f n) (fsub f1 frac))) in
    if ((start + 50 <? stop) && (stop <=? Z.of_nat n))%Z then Some (start, stop) else None
  else None.
Definition trim_edges {A} (r : option (Z * Z)) (l : list A) : outcome (list A) :=
  match r with
  | Some (a, b) => slice_chk l (Z.to_nat a) (Z.to_nat b)
  | None => Ok l
  end.

(** lib.rs:1236-1251 chroma_tonalness. *)
Definition tonalness (L : libm) (chroma : list f32) : f32 :=
  let s := fsum chroma in
  if fle s (lit 2305843 (-61)) then f0
  else
    let entropy := fold_left (fun h x =>
        let p := fdiv x s in
        if fgt p (lit 2305843 (-61)) then fsub h (fmul p (m_ln L p)) else h) chroma f0 in
    fclamp_val (fsub f1 (fdiv entropy (m_ln L (z2f 12)))) f0 f1.

(** lib.rs:1263-1274: the weight of one frame. *)
Definition frame_weight (L : libm) (c : analysis_config) (median : f32) (chroma : list f32) (e : f32) : f32 :=
  let t := tonalness L chroma in
  let t := if flt t (cf_key_min_tonalness c) then f0 else t in
  let e_norm := fmax (fdiv e median) f0 in
  fmax (fmul (m_powf L t (fmax (cf_key_tonalness_power c) f0)) (m_powf L e_norm (fmax (cf_key_energy_power c) f0))) f0.

(** lib.rs:1253-1287: the frame weights, unless they are off, do not match the frames, or leave fewer than 10 frames. *)
Definition frame_weights (L : libm) (c : analysis_config) (chroma : list (list f32)) (energies : list f32)
  : option (list f32) :=
  if cf_enable_key_frame_weighting c && negb (length energies =? 0) && (length energies =? length chroma) then
    let median := fmax (nth (length energies / 2) (sort_asc energies) f0) (lit 2305843 (-61)) in
    let w := map (fun p => frame_weight L c median (fst p) (snd p)) (combine chroma energies) in
    let used := length (filter (fun x => fgt x f0) w) in
    if fle (fsum w) (lit 2305843 (-61)) || (used <? 10) then None else Some w
  else None.

(** lib.rs:1355-1373, 1390-1412, 1437-1455: the detector for one stretch of frames.  The flip threshold handed over is 0
    unless the mode heuristic is on. *)
Definition mode_opts (c : analysis_config) : scale_opts :=
  {| so_mode := cf_enable_key_mode_heuristic c; so_margin := cf_key_mode_third_ratio_margin c;
     so_flip := if cf_enable_key_mode_heuristic c then cf_key_mode_flip_min_score_ratio c else f0;
     so_minor := cf_enable_key_minor_harmonic_bonus c; so_minor_weight := cf_key_minor_leading_tone_bonus_weight c |}.

(** lib.rs:1352-1387: starts of the voting segments: 0, hop, 2 hop, ... while the segment fits (hop >= 1). *)
Definition segment_starts (len seg hop : nat) : list nat :=
  filter (fun s => s + seg <=? len) (map (fun i => i * hop) (seq 0 (S len))).

(** lib.rs:1375-1385: add the scores of a segment that is clear enough, weighted by its clarity. *)
Definition add_votes (min_clarity clarity : f32) (scores : list score) (st : list score * nat) : list score * nat :=
  if fge clarity min_clarity then
    (map (fun ks => match find (fun r => key_eqb (fst r) (fst ks)) scores with
                    | Some r => (fst ks, fadd (snd ks) (fmul (snd r) clarity))
                    | None => ks
                    end) (fst st), S (snd st))
  else st.

(** lib.rs:1341-1387: accumulated scores and number of segments used.  An error of a segment leaves analyze_audio. *)
Definition segment_votes (hs : nat -> hash_order) (o : scale_opts) (t : templates) (seg hop : nat) (min_clarity : f32)
    (chroma : list (list f32)) (w : option (list f32)) : outcome (list score * nat) :=
  fold_left (fun acc start =>
      let! st := acc in
      let! fs := slice_chk chroma start (start + seg) in
      let! ws := match w with
                 | Some l => omap Some (slice_chk l start (start + seg))
                 | None => Ok None
                 end in
      let! r := detect_segment (hs start) o fs t ws in
      let! cl := key_clarity (kr_scores r) in
      Ok (add_votes min_clarity cl (kr_scores r) st))
    (segment_starts (length chroma) seg hop) (Ok (map (fun k => (k, f0)) all_keys, 0)).

(** lib.rs:1458-1546: key, confidence and clarity reported for a detector result. *)
Definition key_report (x : outcome key_result) : outcome (key * f32 * f32) :=
  match x with
  | Ok r => let! cl := key_clarity (kr_scores r) in Ok (kr_key r, kr_conf r, cl)
  | Err _ => Ok (Major 0, f0, f0)
  | Panic => Panic
  end.

(** lib.rs:1304-1307: multi-scale detection needs a length list and at least the shortest length. *)
Definition use_multi_scale (c : analysis_config) (n : nat) : bool :=
  match cf_key_multi_scale_lengths c with
  | [] => false
  | l :: ls => cf_enable_key_multi_scale c && (fold_left Nat.min ls l <=? n)
  end.

(** lib.rs:1332-1335. *)
Definition use_segments (c : analysis_config) (n : nat) : bool :=
  cf_enable_key_segment_voting c && (Nat.max (cf_key_segment_len_frames c) 1 <=? n)
  && (120 <=? cf_key_segment_len_frames c) && (1 <=? cf_key_segment_hop_frames c).

(** lib.rs:1290-1456, 1458-1546: the detector selected by the configuration, and its report. *)
Definition key_call (O : key_orders) (c : analysis_config) (chroma : list (list f32)) (w : option (list f32))
  : outcome (key * f32 * f32) :=
  if cf_enable_key_ensemble c then
    key_report (detect_key_ensemble (ko_kk O) (ko_te O) chroma w (cf_key_ensemble_kk_weight c)
                  (cf_key_ensemble_temperley_weight c))
  else
    let t := new_templates (cf_key_template_set c) in
    let o := mode_opts c in
    if use_multi_scale c (length chroma) then
      key_report (detect_key_multi_scale (ko_scale O) (ko_track O) chroma t w (cf_key_multi_scale_lengths c)
                    (Z.of_nat (Nat.max (cf_key_multi_scale_hop c) 1))
                    (fclamp_val (cf_key_multi_scale_min_clarity c) f0 f1)
                    (match cf_key_multi_scale_weights c with [] => None | ws => Some ws end) o)
    else if use_segments c (length chroma) then
      let seg := Nat.min (cf_key_segment_len_frames c) (length chroma) in
      let hop := Nat.max (Nat.min (cf_key_segment_hop_frames c) seg) 1 in
      let min_clarity := fclamp_val (cf_key_segment_min_clarity c) f0 f1 in
      let! st := segment_votes (ko_segment O) o t seg hop min_clarity chroma w in
      if snd st =? 0 then key_report (detect_segment (ko_track O) o chroma t w)
      else key_report (let! sorted := sort_or_panic (fst st) in report sorted)
    else key_report (detect_segment (ko_track O) o chroma t w).

(** lib.rs:961-1559: key, confidence and clarity. *)
Definition key_stage (F : fft_oracle) (L : libm) (P : key_platform) (O : key_orders) (c : analysis_config)
    (rate : nat) (samples : list f32) (shared : list (list f32)) (beats : list f32) : outcome (key * f32 * f32) :=
  if cf_frame_size c <=? length samples then
    let! ks := key_spec F L c samples shared in
    let! spec := condition_spec L c rate ks in
    let! lg := log_spec L c rate spec in
    let! tuning := tuning_offset L P c rate spec (match lg with Some _ => true | None => false end) in
    match chroma_call L P c rate beats spec lg tuning with
    | Panic => Panic
    | Err _ => Ok (Major 0, f0, f0)
    | Ok (cs, energies) =>
        let! cs := refine_chroma L c cs in
        let r := trim_range c (length cs) (length energies) in
        let! cs' := trim_edges r cs in
        let! es' := trim_edges r energies in
        key_call O c cs' (frame_weights L c cs' es')
    end
  else Ok (Major 0, f0, f0).
