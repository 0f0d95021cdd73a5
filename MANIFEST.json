{
 "claims": [
  {
   "property": "C01",
   "status": "proved",
   "theorems": [
    "C01_mismatch",
    "C01_total",
    "C01_average",
    "C01_dominant",
    "C01_between",
    "C01_unit",
    "C01_symmetric"
   ],
   "note": ""
  },
  {
   "property": "C02",
   "status": "proved",
   "theorems": [
    "C02_contiguous",
    "C02_bounds"
   ],
   "note": ""
  },
  {
   "property": "C03",
   "status": "proved",
   "theorems": [
    "C03_ordered",
    "C03_exact"
   ],
   "note": ""
  },
  {
   "property": "C04",
   "status": "partial",
   "theorems": [
    "C04_outcomes_partial",
    "C04_no_panic_refuted"
   ],
   "note": "Outcomes are characterised for every input; \"never panics\" is refuted: frame_size 1 makes the hop size 0 and divides by zero."
  },
  {
   "property": "C05",
   "status": "proved",
   "theorems": [
    "C05_uniform",
    "C05_peak_gain",
    "C05_silence"
   ],
   "note": ""
  },
  {
   "property": "C06",
   "status": "partial",
   "theorems": [
    "C06_peak",
    "C06_rms_no_clip",
    "C06_rms",
    "C06_rms_nan_refuted",
    "C06_huge_refuted",
    "C06_lufs_partial"
   ],
   "note": "Peak method proved for every headroom; RMS proved not to exceed 1 for every target, and NaN-free for finite targets; a NaN target or a peak above 2^126 refutes it. LUFS (not part of the statement) needs headroom >= 0."
  },
  {
   "property": "C07",
   "status": "proved",
   "theorems": [
    "C07_round_trip",
    "C07_shape",
    "C07_codes_distinct",
    "C07_names_distinct"
   ],
   "note": ""
  },
  {
   "property": "C08",
   "status": "partial",
   "theorems": [
    "C08_accepts_exactly",
    "C08_panics_exactly",
    "C08_total_otherwise",
    "C08_no_panic_refuted"
   ],
   "note": "The accept set and the panic set are characterised exactly; \"never panics\" is refuted: strings ending in a multi-byte character panic."
  },
  {
   "property": "C09",
   "status": "proved",
   "theorems": [
    "C09_percentile_errors",
    "C09_percentile_total",
    "C09_percentile_element",
    "C09_percentile_monotone",
    "C09_percentile_fraction",
    "C09_adaptive_total",
    "C09_adaptive_half"
   ],
   "note": ""
  },
  {
   "property": "C10",
   "status": "proved",
   "theorems": [
    "C10_outcomes",
    "C10_frames",
    "C10_rising",
    "C10_rising_bin"
   ],
   "note": ""
  },
  {
   "property": "C11",
   "status": "proved",
   "theorems": [
    "C11_positions",
    "C11_complete",
    "C11_outcomes"
   ],
   "note": ""
  },
  {
   "property": "C12",
   "status": "proved",
   "theorems": [
    "C12_partition",
    "C12_components",
    "C12_count",
    "C12_total"
   ],
   "note": ""
  },
  {
   "property": "C13",
   "status": "partial",
   "theorems": [
    "C13_confidence",
    "C13_formula",
    "C13_votes",
    "C13_nan_weight_refuted"
   ],
   "note": "Proved for non-negative weights with finite sum; NaN/inf weights pass validation and refute it (C13_nan_weight_refuted)."
  },
  {
   "property": "C14",
   "status": "partial",
   "theorems": [
    "C14_exact_below_2_31_partial",
    "C14_exact_refuted"
   ],
   "note": "Exact for positions below 2^31; refuted for arbitrary usize positions (i32 truncation)."
  },
  {
   "property": "C15",
   "status": "partial",
   "theorems": [
    "C15_outcomes",
    "C15_shape",
    "C15_bounded",
    "C15_huge_refuted",
    "C15_median"
   ],
   "note": "Shape proved for all inputs, bounds for magnitudes up to 2^126; refuted for finite magnitudes near the f32 maximum, where the median overflows and NaN survives."
  },
  {
   "property": "C16",
   "status": "proved",
   "theorems": [
    "C16_sound",
    "C16_sorted",
    "C16_nodup",
    "C16_complete"
   ],
   "note": ""
  },
  {
   "property": "C17",
   "status": "proved",
   "theorems": [
    "C17_spacing",
    "C17_maximal",
    "C17_spacing_refuted"
   ],
   "note": "For min_distance >= 2^31 the spacing claim is refuted (i32 truncation)."
  },
  {
   "property": "C18",
   "status": "proved",
   "theorems": [
    "C18_range",
    "C18_sorted",
    "C18_sound",
    "C18_complete",
    "C18_outcomes"
   ],
   "note": ""
  },
  {
   "property": "C19",
   "status": "proved",
   "theorems": [
    "C19_range",
    "C19_best",
    "C19_exact",
    "C19_coarse_fine"
   ],
   "note": ""
  },
  {
   "property": "C20",
   "status": "partial",
   "theorems": [
    "C20_comb_terminates",
    "C20_comb_count",
    "C20_comb_refuted",
    "C20_capacity_refuted",
    "C20_tempogram_terminates",
    "C20_tempogram_count",
    "C20_tempogram_refuted",
    "C20_lag_overflow_refuted"
   ],
   "note": "Terminates, with the step count bounded, when the resolution exceeds max_bpm/2^23 (and for the tempogram min_bpm >= 1); refuted for smaller resolutions, where adding the step no longer changes the tempo, for ranges whose capacity estimate overflows, and for tiny minimum tempos whose lag overflows."
  },
  {
   "property": "C21",
   "status": "proved",
   "theorems": [
    "C21_conservation",
    "C21_nonempty",
    "C21_single"
   ],
   "note": ""
  },
  {
   "property": "C22",
   "status": "partial",
   "theorems": [
    "C22_range_refuted",
    "C22_partial"
   ],
   "note": "[0,1] is refuted: consensus boosts multiply confidences; proved instead: finite, non-negative and at most 4.2."
  },
  {
   "property": "C23",
   "status": "proved",
   "theorems": [
    "C23_preorder",
    "C23_sorted",
    "C23_meaning",
    "C23_nan_refuted"
   ],
   "note": "For NaN-free confidences, which the candidate generators guarantee; refuted with NaN confidences."
  },
  {
   "property": "C24",
   "status": "partial",
   "theorems": [
    "C24_sane",
    "C24_nan_refuted",
    "C24_select",
    "C24_choice"
   ],
   "note": "Selection proved for all guardrails; nesting of the sanitised bounds proved unless both preferred bounds are NaN (refuted there)."
  },
  {
   "property": "C25",
   "status": "proved",
   "theorems": [
    "C25_shape",
    "C25_unit",
    "C25_no_overflow",
    "C25_spectral_unit",
    "C25_decay",
    "C25_vibrato",
    "C25_combined",
    "C25_combined_default",
    "C25_overflow_refuted",
    "C25_weight_refuted"
   ],
   "note": "Overflow-freedom is stated exactly for energy/HFC (C25_no_overflow) and follows from magnitudes up to 2^39 for all eight curves; the platform ln is assumed to map finite x >= 1 into [0,100]. Overflowing spectrograms and infinite weights refute the unconditional form."
  },
  {
   "property": "C26",
   "status": "partial",
   "theorems": [
    "C26_exact",
    "C26_sorted",
    "C26_best",
    "C26_inf_refuted",
    "C26_reported",
    "C26_fft"
   ],
   "note": "Everything except: a strength of +inf gives a NaN confidence (C26_inf_refuted)."
  },
  {
   "property": "C27",
   "status": "partial",
   "theorems": [
    "C27_range",
    "C27_candidates",
    "C27_choice",
    "C27_scores",
    "C27_truncated_refuted",
    "C27_prefix"
   ],
   "note": "Range, spacing, flagging and agreement proved for all inputs; order and confidence in [0,1] for magnitudes up to 2^39, usable weights and a platform with the stated bounds on ln, cos and the FFT (otherwise the confidence may be NaN). With a candidate limit the reported tempo may be missing from the list (C27_truncated_refuted)."
  },
  {
   "property": "C28",
   "status": "partial",
   "theorems": [
    "C28_fusion",
    "C28_range",
    "C28_near_range",
    "C28_range_refuted",
    "C28_confidence",
    "C28_switch"
   ],
   "note": "Origin, support and agreement proved for all inputs; range proved when the searched range contains [70,180] and refuted otherwise (C28_range_refuted: the final octave fold ignores it); confidence in [0,1] for magnitudes up to 2^39, bounded weights and a platform with the stated bounds."
  },
  {
   "property": "C29",
   "status": "proved",
   "theorems": [
    "C29_optimal",
    "C29_empty",
    "C29_always_slowest",
    "C29_underflow",
    "C29_underflow_zero"
   ],
   "note": "For the tracker's own matrices the optimal path is always the slowest tempo state (C29_always_slowest), and every path probability underflows after 541 frames."
  },
  {
   "property": "C30",
   "status": "proved",
   "theorems": [
    "C30_beats",
    "C30_near_onset",
    "C30_complete",
    "C30_first",
    "C30_nan_tempo"
   ],
   "note": "The platform exp is assumed to map non-positive arguments into [0,1] and to be 0 at -infinity; a NaN tempo passes validation and yields no beats (C30_nan_tempo)."
  },
  {
   "property": "C31",
   "status": "proved",
   "theorems": [
    "C31_update",
    "C31_step_size",
    "C31_run",
    "C31_best",
    "C31_single_onset_slows_down"
   ],
   "note": "The step bound is 5 BPM up to one rounding (2^-15). A single onset always slows the tempo down (C31_single_onset_slows_down)."
  },
  {
   "property": "C32",
   "status": "partial",
   "theorems": [
    "C32_result",
    "C32_terminates_partial",
    "C32_terminates_refuted",
    "C32_cover_refuted"
   ],
   "note": "Order, range and confidence proved for every terminating run; termination proved for beat times up to 2^23 s and refuted for ascending finite beats at 2^25 s; coverage of all beats refuted."
  },
  {
   "property": "C33",
   "status": "partial",
   "theorems": [
    "C33_grid",
    "C33_downbeat_iff",
    "C33_missed_bar_ends_bars",
    "C33_near_onset",
    "C33_stability",
    "C33_stability_partial",
    "C33_duplicate_and_lost_beats_refuted"
   ],
   "note": "Everything except: stability in [0,1] is proved for beats up to 2^100 s (NaN is the only other value possible beyond). The order is not strict and tracked beats may be duplicated or lost (C33_duplicate_and_lost_beats_refuted)."
  },
  {
   "property": "C34",
   "status": "partial",
   "theorems": [
    "C34_total_partial",
    "C34_nan_onset_panics",
    "C34_nan_onset_refuted",
    "C34_huge_onset_refuted",
    "C34_hang_refuted"
   ],
   "note": "Total for onsets up to 2^22 s, under the stated assumptions on exp; refuted by a NaN onset, by huge finite onsets (panic) and by onsets at 2^25 s (endless loop)."
  },
  {
   "property": "C35",
   "status": "proved",
   "theorems": [
    "C35_confidence",
    "C35_short",
    "C35_error",
    "C35_total",
    "C35_steady_beat_is_six_eight",
    "C35_garbage"
   ],
   "note": "Proved for all inputs, NaN and infinite ones included; an exactly steady beat is always reported as 6/8 (C35_steady_beat_is_six_eight)."
  },
  {
   "property": "C36",
   "status": "proved",
   "theorems": [
    "C36_result",
    "C36_errors",
    "C36_total",
    "C36_nan",
    "C36_nan_refuted"
   ],
   "note": "In [0,1] whenever no score is infinite, which magnitudes up to 2^46 guarantee (C36_total). A NaN in any counted frame panics (C36_nan, C36_nan_refuted)."
  },
  {
   "property": "C37",
   "status": "partial",
   "theorems": [
    "C37_shape",
    "C37_rotation",
    "C37_refuted",
    "C37_near",
    "C37_unit_norm",
    "C37_get_template"
   ],
   "note": "Exact for all tonics, modes and both template sets except the Krumhansl-Kessler B major template, whose computed norm is one ulp off (C37_refuted); all templates agree with the rotation to 2^-25."
  },
  {
   "property": "C38",
   "status": "partial",
   "theorems": [
    "C38_range",
    "C38_short",
    "C38_panic",
    "C38_detected",
    "C38_equal",
    "C38_refuted"
   ],
   "note": "Proved for scores up to 2^101; finite scores near the f32 maximum give NaN (C38_refuted)."
  },
  {
   "property": "C39",
   "status": "proved",
   "theorems": [
    "C39_result",
    "C39_segments",
    "C39_total",
    "C39_never",
    "C39_overlap_refuted"
   ],
   "note": "An overlap longer than the segment panics (C39_overlap_refuted); audible non-negative chroma never yields any change (C39_never)."
  },
  {
   "property": "C40",
   "status": "partial",
   "theorems": [
    "C40_median",
    "C40_average",
    "C40_no_window",
    "C40_average_range_refuted",
    "C40_nan_refuted"
   ],
   "note": "Median filter proved for NaN-free chroma (a NaN panics, C40_nan_refuted). The averaging filter is proved to stay in range up to rounding; exact range preservation is refuted even for three equal frames."
  },
  {
   "property": "C41",
   "status": "proved",
   "theorems": [
    "C41_shape",
    "C41_content",
    "C41_zero_sizes_refuted"
   ],
   "note": "For positive frame and hop sizes; zero sizes panic (C41_zero_sizes_refuted)."
  },
  {
   "property": "C42",
   "status": "proved",
   "theorems": [
    "C42_scores_in_unit",
    "C42_failed_components",
    "C42_never_inflates",
    "C42_flags"
   ],
   "note": ""
  },
  {
   "property": "C43",
   "status": "proved",
   "theorems": [
    "C43_classes",
    "C43_level",
    "C43_ranges",
    "C43_nan_refuted"
   ],
   "note": "For NaN overall confidence no class holds (C43_nan_refuted)."
  },
  {
   "property": "C44",
   "status": "partial",
   "theorems": [
    "C44_fusion",
    "C44_precedence",
    "C44_confidence"
   ],
   "note": "Everything for all estimator outcomes, with the exact confidence; a NaN tempogram confidence would stay NaN. C44_confidence shows that it does not arise, and the confidence is in [0,1], for audio within [-1,1] or peak-normalised audio of up to 2^24 samples, bounded weights and a platform with the stated bounds on ln, cos and the FFT."
  },
  {
   "property": "C45",
   "status": "proved",
   "theorems": [
    "C45_warnings",
    "C45_flags",
    "C45_invalid",
    "C45_grid"
   ],
   "note": ""
  },
  {
   "property": "C46",
   "status": "partial",
   "theorems": [
    "C46_monotone_when_available",
    "C46_monotone_refuted"
   ],
   "note": "Proved while BPM and key are available; refuted across the failed-component boundary."
  },
  {
   "property": "C47",
   "status": "partial",
   "theorems": [
    "C47_removed_silent_partial",
    "C47_removed_silent_refuted"
   ],
   "note": "Proved for all removed samples inside an analysed frame; refuted for the unanalysed tail, which is cut although it may be loud."
  },
  {
   "property": "C48",
   "status": "partial",
   "theorems": [
    "C48_leading_partial",
    "C48_trailing_refuted"
   ],
   "note": "Proved for leading silence; refuted for trailing silence shorter than the minimum duration."
  },
  {
   "property": "C49",
   "status": "partial",
   "theorems": [
    "C49_rms_gain",
    "C49_peak_gain_partial",
    "C49_reported_gain_refuted"
   ],
   "note": "RMS proved; peak proved while the target peak is at most 1; refuted for negative headroom."
  },
  {
   "property": "C50",
   "status": "proved",
   "theorems": [
    "C50_isolated",
    "C50_count"
   ],
   "note": ""
  },
  {
   "property": "C51",
   "status": "proved",
   "theorems": [
    "C51_sum"
   ],
   "note": ""
  },
  {
   "property": "C52",
   "status": "proved",
   "theorems": [
    "C52_pulse_train"
   ],
   "note": ""
  },
  {
   "property": "C53",
   "status": "proved",
   "theorems": [
    "C53_strength_unit"
   ],
   "note": ""
  },
  {
   "property": "C54",
   "status": "proved",
   "theorems": [
    "C54_in_range"
   ],
   "note": ""
  },
  {
   "property": "C55",
   "status": "partial",
   "theorems": [
    "C55_total",
    "C55_superflux",
    "C55_mel_refuted"
   ],
   "note": "Proved for all curves except mel SuperFlux, where a lower edge above nyquist - 1 Hz panics in clamp (C55_mel_refuted)."
  },
  {
   "property": "C56",
   "status": "partial",
   "theorems": [
    "C56_top",
    "C56_deterministic",
    "C56_tie_refuted"
   ],
   "note": "Proved; with tied best scores the key depends on hash order (C56_tie_refuted)."
  },
  {
   "property": "C58",
   "status": "proved",
   "theorems": [
    "C58_zero_confidence",
    "C58_mode_refuted"
   ],
   "note": "The C major scale is reported as C major or A minor depending on hash order (C58_mode_refuted)."
  },
  {
   "property": "C59",
   "status": "proved",
   "theorems": [
    "C59_extract",
    "C59_range",
    "C59_hard_content",
    "C59_soft_content",
    "C59_pure_tone",
    "C59_loud_is_silent"
   ],
   "note": "Platform powf/exp/log2 are assumed to be bounded as stated (chroma_libm). Finite energies whose squares overflow give a zero vector (C59_loud_is_silent)."
  },
  {
   "property": "C60",
   "status": "proved",
   "theorems": [
    "C60_l2",
    "C60_sharpen"
   ],
   "note": ""
  },
  {
   "property": "C61",
   "status": "partial",
   "theorems": [
    "C61_cases",
    "C61_confidence",
    "C61_tempo",
    "C61_tempo_refuted",
    "C61_analysis"
   ],
   "note": "Everything except the exact range of the averaged tempo: three equal tempi can have a smaller mean (C61_tempo_refuted); proved within a relative 2^-21."
  },
  {
   "property": "C62",
   "status": "partial",
   "theorems": [
    "C62_outcomes",
    "C62_average",
    "C62_range_refuted"
   ],
   "note": "Everything except staying inside the window's value range, which prefix-sum cancellation breaks (C62_range_refuted); the error bound is proved instead."
  },
  {
   "property": "C63",
   "status": "partial",
   "theorems": [
    "C63_time_mask",
    "C63_median_outcomes",
    "C63_low_rate_refuted",
    "C63_median_mask",
    "C63_huge_refuted"
   ],
   "note": "Proved for magnitudes and powers that stay finite; overflowing powers give NaN (C63_huge_refuted) and sample rates too low for the band panic (C63_low_rate_refuted)."
  },
  {
   "property": "C68",
   "status": "proved",
   "theorems": [
    "C68_choice",
    "C68_range"
   ],
   "note": ""
  },
  {
   "property": "C69",
   "status": "proved",
   "theorems": [
    "C69_source",
    "C69_trigger",
    "C69_single"
   ],
   "note": ""
  },
  {
   "property": "C70",
   "status": "proved",
   "theorems": [
    "C70_tempogram",
    "C70_bpm",
    "C70_grid",
    "C70_tempogram_confidence"
   ],
   "note": "A range that does not contain [70,180] is excluded: there the fused tempo can leave it (C28_range_refuted)."
  },
  {
   "property": "C65",
   "status": "proved",
   "theorems": [
    "C65_content",
    "C65_nothing",
    "C65_range",
    "C65_extract",
    "C65_bass"
   ],
   "note": "C65_content states which bins are used and what each class receives; C65_nothing the zero cases; C65_range totality, range and norm; C65_extract and C65_bass the spectrogram versions. NaN magnitudes are outside the hypotheses (the code accepts a NaN bin as a peak)."
  },
  {
   "property": "C64",
   "status": "proved",
   "theorems": [
    "C64_outcome",
    "C64_content",
    "C64_range"
   ],
   "note": "C64_content gives the estimate as an explicit sum over the bins used; C64_range the bound of half a semitone; C64_outcome the special cases, including the panic in f32::clamp when the lower limit plus 1 Hz exceeds the Nyquist frequency."
  },
  {
   "property": "C67",
   "status": "proved",
   "theorems": [
    "C67_content",
    "C67_partition"
   ],
   "note": "C67_content gives every vector and energy; C67_partition says that the half-open intervals of ascending beats cover each frame between the first and last beat once. Frames after the last beat are never used."
  },
  {
   "property": "C66",
   "status": "proved",
   "theorems": [
    "C66_stage",
    "C66_content",
    "C66_outcome",
    "C66_range",
    "C66_chroma"
   ],
   "note": "C66_content gives every semitone bin as a sum of shares; C66_range bounds it; C66_outcome covers the special cases, including the panic for an inverted band (negative count converted to usize); C66_chroma the octave folding."
  },
  {
   "property": "C57",
   "status": "proved",
   "theorems": [
    "C57_multi_result",
    "C57_multi_windows",
    "C57_multi_errors",
    "C57_multi_total",
    "C57_median_result",
    "C57_median_errors",
    "C57_median_total",
    "C57_median_top_refuted",
    "C57_mode_off",
    "C57_mode_result",
    "C57_mode_choice",
    "C57_mode_scores",
    "C57_mode_total",
    "C57_ensemble_result",
    "C57_ensemble_errors",
    "C57_ensemble_total"
   ],
   "note": "Totality for chroma up to 2^k, weights up to 2^j with k+j<=70 and lengths below the usize overflow point; the claim that the chosen key is among the reported candidates is refuted for the median detector (C57_median_top_refuted)."
  },
  {
   "property": "C71",
   "status": "proved",
   "theorems": [
    "C71_paths_total",
    "C71_paths_analysis",
    "C71_variants",
    "C71_trim",
    "C71_tonalness",
    "C71_weights",
    "C71_weight_order",
    "C71_segments",
    "C71_empty",
    "C71_call_total",
    "C71_stage_total",
    "C71_default",
    "C71_analysis"
   ],
   "note": "Stage totality: C71_paths_total (all conditioning, log-frequency, tuning, beat-synchronous, HPCP, plain chroma, sharpening, weighting and detector paths, under the bit budget of key_ready), C71_variants (which switch combinations meet it with the default numbers: all except frame weighting together with the minor bonus, or with the moving average and the log-frequency or beat-synchronous path), C71_stage_total/C71_default with a coarser FFT assumption."
  },
  {
   "property": "C72",
   "status": "proved",
   "theorems": [
    "C72_inert"
   ],
   "note": "Non-interference of the whole analyze_audio model; debug_* and enable_ml_refinement are not in the configuration record."
  },
  {
   "property": "C73",
   "status": "proved",
   "theorems": [
    "C73_scores",
    "C73_choice",
    "C73_fails",
    "C73_variants"
   ],
   "note": "C73_variants: which tempograms are built; C73_scores: evidence and score of each candidate; C73_choice: octave correction, confidence and agreement; C73_fails: when there is no result."
  },
  {
   "property": "C74",
   "status": "proved",
   "theorems": [
    "C74_content",
    "C74_outcome",
    "C74_no_dc",
    "C74_unstable"
   ],
   "note": "C74_content, C74_outcome for all inputs; C74_no_dc and C74_unstable for platforms with sine and cosine in [-1,1]. The documented K weighting is a shelf; the implemented filter is a plain high-pass, unstable below 3364 Hz (C74_unstable)."
  },
  {
   "property": "C75",
   "status": "proved",
   "theorems": [
    "C75_tempogram",
    "C75_chroma",
    "C75_energy",
    "C75_prior"
   ],
   "note": "C75_tempogram, C75_chroma and C75_energy for all inputs; C75_prior under gauss_exp, a monotone exponential with exp 0 = 1."
  },
  {
   "property": "C76",
   "status": "proved",
   "theorems": [
    "C76_value",
    "C76_pairs",
    "C76_fft4"
   ],
   "note": "C76_value for every finite signal, C76_pairs for onset lists; the FFT is assumed accurate to e relative to the sum of input magnitudes, e <= 1/8 (exact_accurate in ExactPlatform.v gives a transform that is, at every length)."
  },
  {
   "property": "C77",
   "status": "proved",
   "theorems": [
    "C77_contrast",
    "C77_verdict",
    "C77_finite",
    "C77_choice",
    "C77_triplet"
   ],
   "note": "C77_verdict: the three readings of a candidate; C77_finite: bounds on their scores; C77_choice: choice, folds, confidence, agreement; C77_contrast: beat contrast; C77_triplet: related tempi. A tempo kept because of the margin escapes the tempo factors (C77_case)."
  },
  {
   "property": "C78",
   "status": "proved",
   "theorems": [
    "C78_bin",
    "C78_tone"
   ],
   "note": "C78_bin for all finite recordings, C78_tone for tones; the FFT and the cosine are assumed accurate to e and d (ExactPlatform.v gives a platform that is accurate to 2^-23 at every length)."
  },
  {
   "property": "C79",
   "status": "proved",
   "theorems": [
    "C79_strength",
    "C79_pulse"
   ],
   "note": "C79_strength for all novelty curves in [0,1], C79_pulse for pulsing curves; same assumptions on the FFT and the cosine as C78."
  },
  {
   "property": "C80",
   "status": "proved",
   "theorems": [
    "C80_detects",
    "C80_found",
    "C80_sound",
    "C80_energy"
   ],
   "note": "C80_detects: the exact set reported, in terms of the documented strengths; C80_found, C80_sound: consequences free of the computed strengths; C80_energy: the time-domain detector, for any powf result in [0,2^20]."
  },
  {
   "property": "C81",
   "status": "proved",
   "theorems": [
    "C81_strength"
   ],
   "note": "C81_strength for all eight curves; the logarithm is assumed accurate to e on [1,2^31], and the bin edges of the mel filters are taken from the model. The mel filters give their centre bin weight two (C81_centre)."
  },
  {
   "property": "C82",
   "status": "proved",
   "theorems": [
    "C82_stages",
    "C82_default"
   ],
   "note": "C82_stages: the five stages; C82_default: the default weights. The moving average is taken over fewer frames at the ends, which can move the maximum to the first frame (C82_case)."
  },
  {
   "property": "C83",
   "status": "proved",
   "theorems": [
    "C83_strength",
    "C83_pulse",
    "C83_confidence"
   ],
   "note": "C83_strength, C83_pulse, C83_confidence; C83_case: 120 BPM clicks at 44100 Hz and hop 512 are reported as 118 BPM with confidence 0."
  },
  {
   "property": "C84",
   "status": "proved",
   "theorems": [
    "C84_separation"
   ],
   "note": "C84_separation; the medians themselves are C15_median."
  },
  {
   "property": "C85",
   "status": "proved",
   "theorems": [
    "C85_likelihood",
    "C85_reported",
    "C85_confidence",
    "C85_candidates",
    "C85_pulse"
   ],
   "note": "C85_likelihood, C85_reported, C85_confidence, C85_candidates, C85_pulse; assumes an exponential that is off by at most e, met by the exact platform (exact_exp)."
  },
  {
   "property": "C86",
   "status": "proved",
   "theorems": [
    "C86_best",
    "C86_tonic",
    "C86_relative"
   ],
   "note": "C86_best, C86_tonic, C86_relative; which of a key and its relative is reported is left to the hash order, because the two scores tie (C58)."
  },
  {
   "property": "C87",
   "status": "proved",
   "theorems": [
    "C87_choice",
    "C87_clear",
    "C87_waltz"
   ],
   "note": "C87_choice, C87_clear, C87_waltz; a metronome has likeness 1 for every signature, so the choice is then left to the tie rule (C35)."
  },
  {
   "property": "C88",
   "status": "proved",
   "theorems": [
    "C88_hard",
    "C88_soft",
    "C88_one_class",
    "C88_octave",
    "C88_platform"
   ],
   "note": "audible bins must be clear of the band edges and of the quarter tones by a small margin; the norm of the strengths must be at least 2^-30 because below the threshold the code leaves the vector unscaled"
  },
  {
   "property": "C89",
   "status": "proved",
   "theorems": [
    "C89_profile",
    "C89_tone",
    "C89_platform"
   ],
   "note": "C89_profile, C89_tone; whitening off (the default); harmonics of peaks must be clear of the band edges and of the quarter tones by a small margin; the norm of the strengths must be at least 2^-30 because below the threshold the code leaves the vector unscaled"
  },
  {
   "property": "C90",
   "status": "proved",
   "theorems": [
    "C90_segments",
    "C90_steady"
   ],
   "note": "C90_segments, C90_steady; beats 0 to 16384 s, 1/8 to 4 s apart; between 0.1499 and 0.1501 the flag depends on rounding"
  },
  {
   "property": "C91",
   "status": "proved",
   "theorems": [
    "C91_filterbank"
   ],
   "note": "magnitudes at most 2^50; audible bins must be at least 0.1 mHz from 100 Hz and 2 mHz from the upper edge; for the band 100 to 5000 Hz that lib.rs uses"
  },
  {
   "property": "C92",
   "status": "proved",
   "theorems": [
    "C92_log_chroma"
   ],
   "note": "as C91 with magnitudes at most 2^30 and at most 16384 bins; the length of the class vector must be at least 2^-30 because below the threshold the code leaves the vector unscaled"
  },
  {
   "property": "C93",
   "status": "proved",
   "theorems": [
    "C93_detuning",
    "C93_platform"
   ],
   "note": "at most 32768 strong bins, because the rounding of the three running sums grows with their number; band edges known to 1 mHz, the threshold to 1e-6"
  },
  {
   "property": "C94",
   "status": "proved",
   "theorems": [
    "C94_compensation",
    "C94_platform"
   ],
   "note": "no log-frequency path (the key stage does not compensate there); frequencies of audible bins away from 100 Hz, 5 kHz and Nyquist by the rounding of the comparison"
  },
  {
   "property": "C95",
   "status": "proved",
   "theorems": [
    "C95_transposed",
    "C95_raised"
   ],
   "note": "the mode is not claimed to stay the same, because the best major and the best minor key tie (C58) and the hash order decides"
  },
  {
   "property": "C96",
   "status": "proved",
   "theorems": [
    "C96_volume"
   ],
   "note": "loud enough: the vector of pitch-class strengths has length at least 2^-30 at both levels, because below the threshold the code leaves the vector unscaled"
  },
  {
   "property": "C97",
   "status": "proved",
   "theorems": [
    "C97_detuned_key"
   ],
   "note": "on the chroma of the extractor call, without the later sharpening, smoothing, trimming and weighting of frames; key or relative key, because their scores tie (C58)"
  }
 ]
}