(** Complete runs of the modelled analyze_audio on small inputs, with toy platform functions. *)
From Coq Require Import ZArith String.
From Verif Require Import Rust F32 Libm Onsets Chroma CandidateFilter Tempogram BeatGrid Confidence Config Autocorrelation
  KeyTemplates KeyNotation KeyDetector KeyFeatures KeyStage Pipeline.
Local Open Scope nat_scope.

(** The FFT is the identity, powers are the base (2^-10 for the dB thresholds), other functions are constant. *)
Definition case_fft : fft_oracle :=
  {| fft_forward := fun l => l; fft_inverse := fun l => l;
     fft_forward_len := fun _ => eq_refl; fft_inverse_len := fun _ => eq_refl |}.
Definition case_libm : libm :=
  {| m_powf := fun x y => if flt y (z2f (-1)) then lit 1 (-10) else x; m_log10 := fun _ => f0;
     m_log2 := fun _ => lit 1 (-3); m_ln := fun _ => f0; m_exp := fun _ => f1; m_sin := fun _ => f0; m_cos := fun _ => f0 |}.
Definition case_order : hash_order := {| ho_votes := fun l => l; ho_counts := fun l => l |}.
Definition case_platform : platform :=
  {| pf_fft := case_fft; pf_libm := case_libm; pf_exp2 := fun _ => f1;
     pf_key := {| p_atan2 := fun _ _ => f0; p_powi := fun x _ => x; p_select := fun l _ => l |};
     pf_fmt2 := fun _ => "0.00"%string;
     pf_orders := {| ko_kk := case_order; ko_te := case_order; ko_segment := fun _ => case_order;
                     ko_scale := fun _ _ => case_order; ko_track := case_order |} |}.

(** A configuration with other STFT sizes, without a separate key STFT. *)
Definition resize (frame hop : nat) (c : analysis_config) : analysis_config := {|
  cf_min_amplitude_db := cf_min_amplitude_db c; cf_normalization := cf_normalization c;
  cf_enable_normalization := cf_enable_normalization c; cf_enable_silence_trimming := cf_enable_silence_trimming c;
  cf_enable_onset_consensus := cf_enable_onset_consensus c; cf_onset_threshold_percentile := cf_onset_threshold_percentile c;
  cf_onset_consensus_tolerance_ms := cf_onset_consensus_tolerance_ms c; cf_onset_consensus_weights := cf_onset_consensus_weights c;
  cf_enable_hpss_onsets := cf_enable_hpss_onsets c; cf_hpss_margin := cf_hpss_margin c;
  cf_force_legacy_bpm := cf_force_legacy_bpm c; cf_enable_bpm_fusion := cf_enable_bpm_fusion c;
  cf_enable_legacy_bpm_guardrails := cf_enable_legacy_bpm_guardrails c; cf_enable_tempogram_multi_resolution := cf_enable_tempogram_multi_resolution c;
  cf_tempogram_multi_res_top_k := cf_tempogram_multi_res_top_k c; cf_tempogram_multi_res_w512 := cf_tempogram_multi_res_w512 c;
  cf_tempogram_multi_res_w256 := cf_tempogram_multi_res_w256 c; cf_tempogram_multi_res_w1024 := cf_tempogram_multi_res_w1024 c;
  cf_tempogram_multi_res_structural_discount := cf_tempogram_multi_res_structural_discount c; cf_tempogram_multi_res_double_time_512_factor := cf_tempogram_multi_res_double_time_512_factor c;
  cf_tempogram_multi_res_margin_threshold := cf_tempogram_multi_res_margin_threshold c; cf_tempogram_multi_res_use_human_prior := cf_tempogram_multi_res_use_human_prior c;
  cf_enable_tempogram_percussive_fallback := cf_enable_tempogram_percussive_fallback c; cf_enable_tempogram_band_fusion := cf_enable_tempogram_band_fusion c;
  cf_tempogram_band_low_max_hz := cf_tempogram_band_low_max_hz c; cf_tempogram_band_mid_max_hz := cf_tempogram_band_mid_max_hz c;
  cf_tempogram_band_high_max_hz := cf_tempogram_band_high_max_hz c; cf_tempogram_band_w_full := cf_tempogram_band_w_full c;
  cf_tempogram_band_w_low := cf_tempogram_band_w_low c; cf_tempogram_band_w_mid := cf_tempogram_band_w_mid c;
  cf_tempogram_band_w_high := cf_tempogram_band_w_high c; cf_tempogram_band_seed_only := cf_tempogram_band_seed_only c;
  cf_tempogram_band_support_threshold := cf_tempogram_band_support_threshold c; cf_tempogram_band_consensus_bonus := cf_tempogram_band_consensus_bonus c;
  cf_tempogram_novelty_w_spectral := cf_tempogram_novelty_w_spectral c; cf_tempogram_novelty_w_energy := cf_tempogram_novelty_w_energy c;
  cf_tempogram_novelty_w_hfc := cf_tempogram_novelty_w_hfc c; cf_tempogram_novelty_local_mean_window := cf_tempogram_novelty_local_mean_window c;
  cf_tempogram_novelty_smooth_window := cf_tempogram_novelty_smooth_window c; cf_enable_tempogram_mel_novelty := cf_enable_tempogram_mel_novelty c;
  cf_tempogram_mel_n_mels := cf_tempogram_mel_n_mels c; cf_tempogram_mel_fmin_hz := cf_tempogram_mel_fmin_hz c;
  cf_tempogram_mel_fmax_hz := cf_tempogram_mel_fmax_hz c; cf_tempogram_mel_max_filter_bins := cf_tempogram_mel_max_filter_bins c;
  cf_tempogram_mel_weight := cf_tempogram_mel_weight c; cf_tempogram_superflux_max_filter_bins := cf_tempogram_superflux_max_filter_bins c;
  cf_emit_tempogram_candidates := cf_emit_tempogram_candidates c; cf_tempogram_candidates_top_n := cf_tempogram_candidates_top_n c;
  cf_legacy_bpm_preferred_min := cf_legacy_bpm_preferred_min c; cf_legacy_bpm_preferred_max := cf_legacy_bpm_preferred_max c;
  cf_legacy_bpm_soft_min := cf_legacy_bpm_soft_min c; cf_legacy_bpm_soft_max := cf_legacy_bpm_soft_max c;
  cf_legacy_bpm_conf_mul_preferred := cf_legacy_bpm_conf_mul_preferred c; cf_legacy_bpm_conf_mul_soft := cf_legacy_bpm_conf_mul_soft c;
  cf_legacy_bpm_conf_mul_extreme := cf_legacy_bpm_conf_mul_extreme c; cf_min_bpm := cf_min_bpm c;
  cf_max_bpm := cf_max_bpm c; cf_bpm_resolution := cf_bpm_resolution c;
  cf_frame_size := frame; cf_hop_size := hop;
  cf_center_frequency := cf_center_frequency c; cf_soft_chroma_mapping := cf_soft_chroma_mapping c;
  cf_soft_mapping_sigma := cf_soft_mapping_sigma c; cf_chroma_sharpening_power := cf_chroma_sharpening_power c;
  cf_enable_key_spectrogram_time_smoothing := cf_enable_key_spectrogram_time_smoothing c; cf_key_spectrogram_smooth_margin := cf_key_spectrogram_smooth_margin c;
  cf_enable_key_frame_weighting := cf_enable_key_frame_weighting c; cf_key_min_tonalness := cf_key_min_tonalness c;
  cf_key_tonalness_power := cf_key_tonalness_power c; cf_key_energy_power := cf_key_energy_power c;
  cf_enable_key_harmonic_mask := cf_enable_key_harmonic_mask c; cf_key_harmonic_mask_power := cf_key_harmonic_mask_power c;
  cf_enable_key_hpss_harmonic := cf_enable_key_hpss_harmonic c; cf_key_hpss_frame_step := cf_key_hpss_frame_step c;
  cf_key_hpss_time_margin := cf_key_hpss_time_margin c; cf_key_hpss_freq_margin := cf_key_hpss_freq_margin c;
  cf_key_hpss_mask_power := cf_key_hpss_mask_power c; cf_enable_key_stft_override := false;
  cf_key_stft_frame_size := cf_key_stft_frame_size c; cf_key_stft_hop_size := cf_key_stft_hop_size c;
  cf_enable_key_log_frequency := cf_enable_key_log_frequency c; cf_enable_key_beat_synchronous := cf_enable_key_beat_synchronous c;
  cf_enable_key_multi_scale := cf_enable_key_multi_scale c; cf_key_template_set := cf_key_template_set c;
  cf_enable_key_ensemble := cf_enable_key_ensemble c; cf_key_ensemble_kk_weight := cf_key_ensemble_kk_weight c;
  cf_key_ensemble_temperley_weight := cf_key_ensemble_temperley_weight c; cf_enable_key_median := cf_enable_key_median c;
  cf_key_median_segment_length_frames := cf_key_median_segment_length_frames c; cf_key_median_segment_hop_frames := cf_key_median_segment_hop_frames c;
  cf_key_median_min_segments := cf_key_median_min_segments c; cf_key_multi_scale_lengths := cf_key_multi_scale_lengths c;
  cf_key_multi_scale_hop := cf_key_multi_scale_hop c; cf_key_multi_scale_min_clarity := cf_key_multi_scale_min_clarity c;
  cf_key_multi_scale_weights := cf_key_multi_scale_weights c; cf_enable_key_tuning_compensation := cf_enable_key_tuning_compensation c;
  cf_key_tuning_max_abs_semitones := cf_key_tuning_max_abs_semitones c; cf_key_tuning_frame_step := cf_key_tuning_frame_step c;
  cf_key_tuning_peak_rel_threshold := cf_key_tuning_peak_rel_threshold c; cf_enable_key_edge_trim := cf_enable_key_edge_trim c;
  cf_key_edge_trim_fraction := cf_key_edge_trim_fraction c; cf_enable_key_segment_voting := cf_enable_key_segment_voting c;
  cf_key_segment_len_frames := cf_key_segment_len_frames c; cf_key_segment_hop_frames := cf_key_segment_hop_frames c;
  cf_key_segment_min_clarity := cf_key_segment_min_clarity c; cf_enable_key_mode_heuristic := cf_enable_key_mode_heuristic c;
  cf_key_mode_third_ratio_margin := cf_key_mode_third_ratio_margin c; cf_key_mode_flip_min_score_ratio := cf_key_mode_flip_min_score_ratio c;
  cf_enable_key_hpcp := cf_enable_key_hpcp c; cf_key_hpcp_peaks_per_frame := cf_key_hpcp_peaks_per_frame c;
  cf_key_hpcp_num_harmonics := cf_key_hpcp_num_harmonics c; cf_key_hpcp_harmonic_decay := cf_key_hpcp_harmonic_decay c;
  cf_key_hpcp_mag_power := cf_key_hpcp_mag_power c; cf_enable_key_hpcp_whitening := cf_enable_key_hpcp_whitening c;
  cf_key_hpcp_whitening_smooth_bins := cf_key_hpcp_whitening_smooth_bins c; cf_enable_key_hpcp_bass_blend := cf_enable_key_hpcp_bass_blend c;
  cf_key_hpcp_bass_fmin_hz := cf_key_hpcp_bass_fmin_hz c; cf_key_hpcp_bass_fmax_hz := cf_key_hpcp_bass_fmax_hz c;
  cf_key_hpcp_bass_weight := cf_key_hpcp_bass_weight c; cf_enable_key_minor_harmonic_bonus := cf_enable_key_minor_harmonic_bonus c;
  cf_key_minor_leading_tone_bonus_weight := cf_key_minor_leading_tone_bonus_weight c |}.

(** 1000 times the numbers of a result, its beat times and its warnings. *)
Definition milli (l : list f32) : list Z := map (fun x => f2i32 (fmul (z2f 1000) x)) l.
Definition shown (a : run full_result) : list Z * list Z * list string :=
  match a with
  | Some (Ok r) =>
      (milli [ar_bpm (fr_core r); ar_bpm_confidence (fr_core r); ar_grid_stability (fr_core r); fr_duration r],
       milli (g_beats (fr_grid r)), ar_warnings (fr_core r))
  | Some (Err _) => ([-1]%Z, [], [])
  | Some Panic => ([-2]%Z, [], [])
  | None => ([-3]%Z, [], [])
  end.

(** Five pulses of 8 samples, 32 samples apart, at 64 Hz: one pulse every half second, 120 BPM. *)
Definition pulses : list f32 := concat (repeat (repeat f1 8 ++ repeat (lit 1 (-8)) 24) 5).
Example case_pulses : shown (analyze_audio case_platform 400 pulses 64 (resize 8 4 default_config))
  = ([120000; 55; 1000; 2500]%Z, [500; 1000; 1500; 2000]%Z,
     ["Low key detection confidence: 0.00 (may indicate ambiguous or atonal music)";
      "Low key clarity: 0.00 (track may be atonal or have weak tonality)"]%string).
Proof. vm_compute. reflexivity. Qed.

(** Twenty samples with the default configuration: too short for everything. *)
Example case_short : shown (analyze_audio case_platform 100 (repeat f1 20) (8 * 1000) default_config)
  = ([0; 0; 0; 2]%Z, [],
     ["BPM detection failed: insufficient onsets or estimation error";
      "Low beat grid stability: 0.00 (may indicate tempo variation)";
      "Low key detection confidence: 0.00 (may indicate ambiguous or atonal music)";
      "Low key clarity: 0.00 (track may be atonal or have weak tonality)"]%string).
Proof. vm_compute. reflexivity. Qed.
