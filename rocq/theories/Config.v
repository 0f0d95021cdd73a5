(** Model of src/config.rs: the analysis configuration.  The debug_* fields (which only steer debug output) and
    enable_ml_refinement (feature "ml", not read by analyze_audio) are left out.  Sizes are natural numbers; the
    tolerance in milliseconds is an integer. *)
From Coq Require Import ZArith.
From Verif Require Import Rust F32 Normalization KeyTemplates.

(** config.rs:8-592 AnalysisConfig; the field x is called cf_x here. *)
Record analysis_config := {
  cf_min_amplitude_db : f32;
  cf_normalization : norm_method;
  cf_enable_normalization : bool;
  cf_enable_silence_trimming : bool;
  cf_enable_onset_consensus : bool;
  cf_onset_threshold_percentile : f32;
  cf_onset_consensus_tolerance_ms : Z;
  cf_onset_consensus_weights : f32 * f32 * f32 * f32;
  cf_enable_hpss_onsets : bool;
  cf_hpss_margin : nat;
  cf_force_legacy_bpm : bool;
  cf_enable_bpm_fusion : bool;
  cf_enable_legacy_bpm_guardrails : bool;
  cf_enable_tempogram_multi_resolution : bool;
  cf_tempogram_multi_res_top_k : nat;
  cf_tempogram_multi_res_w512 : f32;
  cf_tempogram_multi_res_w256 : f32;
  cf_tempogram_multi_res_w1024 : f32;
  cf_tempogram_multi_res_structural_discount : f32;
  cf_tempogram_multi_res_double_time_512_factor : f32;
  cf_tempogram_multi_res_margin_threshold : f32;
  cf_tempogram_multi_res_use_human_prior : bool;
  cf_enable_tempogram_percussive_fallback : bool;
  cf_enable_tempogram_band_fusion : bool;
  cf_tempogram_band_low_max_hz : f32;
  cf_tempogram_band_mid_max_hz : f32;
  cf_tempogram_band_high_max_hz : f32;
  cf_tempogram_band_w_full : f32;
  cf_tempogram_band_w_low : f32;
  cf_tempogram_band_w_mid : f32;
  cf_tempogram_band_w_high : f32;
  cf_tempogram_band_seed_only : bool;
  cf_tempogram_band_support_threshold : f32;
  cf_tempogram_band_consensus_bonus : f32;
  cf_tempogram_novelty_w_spectral : f32;
  cf_tempogram_novelty_w_energy : f32;
  cf_tempogram_novelty_w_hfc : f32;
  cf_tempogram_novelty_local_mean_window : nat;
  cf_tempogram_novelty_smooth_window : nat;
  cf_enable_tempogram_mel_novelty : bool;
  cf_tempogram_mel_n_mels : nat;
  cf_tempogram_mel_fmin_hz : f32;
  cf_tempogram_mel_fmax_hz : f32;
  cf_tempogram_mel_max_filter_bins : nat;
  cf_tempogram_mel_weight : f32;
  cf_tempogram_superflux_max_filter_bins : nat;
  cf_emit_tempogram_candidates : bool;
  cf_tempogram_candidates_top_n : nat;
  cf_legacy_bpm_preferred_min : f32;
  cf_legacy_bpm_preferred_max : f32;
  cf_legacy_bpm_soft_min : f32;
  cf_legacy_bpm_soft_max : f32;
  cf_legacy_bpm_conf_mul_preferred : f32;
  cf_legacy_bpm_conf_mul_soft : f32;
  cf_legacy_bpm_conf_mul_extreme : f32;
  cf_min_bpm : f32;
  cf_max_bpm : f32;
  cf_bpm_resolution : f32;
  cf_frame_size : nat;
  cf_hop_size : nat;
  cf_center_frequency : f32;
  cf_soft_chroma_mapping : bool;
  cf_soft_mapping_sigma : f32;
  cf_chroma_sharpening_power : f32;
  cf_enable_key_spectrogram_time_smoothing : bool;
  cf_key_spectrogram_smooth_margin : nat;
  cf_enable_key_frame_weighting : bool;
  cf_key_min_tonalness : f32;
  cf_key_tonalness_power : f32;
  cf_key_energy_power : f32;
  cf_enable_key_harmonic_mask : bool;
  cf_key_harmonic_mask_power : f32;
  cf_enable_key_hpss_harmonic : bool;
  cf_key_hpss_frame_step : nat;
  cf_key_hpss_time_margin : nat;
  cf_key_hpss_freq_margin : nat;
  cf_key_hpss_mask_power : f32;
  cf_enable_key_stft_override : bool;
  cf_key_stft_frame_size : nat;
  cf_key_stft_hop_size : nat;
  cf_enable_key_log_frequency : bool;
  cf_enable_key_beat_synchronous : bool;
  cf_enable_key_multi_scale : bool;
  cf_key_template_set : template_set;
  cf_enable_key_ensemble : bool;
  cf_key_ensemble_kk_weight : f32;
  cf_key_ensemble_temperley_weight : f32;
  cf_enable_key_median : bool;
  cf_key_median_segment_length_frames : nat;
  cf_key_median_segment_hop_frames : nat;
  cf_key_median_min_segments : nat;
  cf_key_multi_scale_lengths : list nat;
  cf_key_multi_scale_hop : nat;
  cf_key_multi_scale_min_clarity : f32;
  cf_key_multi_scale_weights : list f32;
  cf_enable_key_tuning_compensation : bool;
  cf_key_tuning_max_abs_semitones : f32;
  cf_key_tuning_frame_step : nat;
  cf_key_tuning_peak_rel_threshold : f32;
  cf_enable_key_edge_trim : bool;
  cf_key_edge_trim_fraction : f32;
  cf_enable_key_segment_voting : bool;
  cf_key_segment_len_frames : nat;
  cf_key_segment_hop_frames : nat;
  cf_key_segment_min_clarity : f32;
  cf_enable_key_mode_heuristic : bool;
  cf_key_mode_third_ratio_margin : f32;
  cf_key_mode_flip_min_score_ratio : f32;
  cf_enable_key_hpcp : bool;
  cf_key_hpcp_peaks_per_frame : nat;
  cf_key_hpcp_num_harmonics : nat;
  cf_key_hpcp_harmonic_decay : f32;
  cf_key_hpcp_mag_power : f32;
  cf_enable_key_hpcp_whitening : bool;
  cf_key_hpcp_whitening_smooth_bins : nat;
  cf_enable_key_hpcp_bass_blend : bool;
  cf_key_hpcp_bass_fmin_hz : f32;
  cf_key_hpcp_bass_fmax_hz : f32;
  cf_key_hpcp_bass_weight : f32;
  cf_enable_key_minor_harmonic_bonus : bool;
  cf_key_minor_leading_tone_bonus_weight : f32 }.

(** config.rs:594-744 AnalysisConfig::default. *)
Definition default_config : analysis_config := {|
  cf_min_amplitude_db := z2f (-40);
  cf_normalization := NPeak;
  cf_enable_normalization := true;
  cf_enable_silence_trimming := true;
  cf_enable_onset_consensus := true;
  cf_onset_threshold_percentile := lit 13421773 (-24);
  cf_onset_consensus_tolerance_ms := 50%Z;
  cf_onset_consensus_weights := (lit 1 (-2), lit 1 (-2), lit 1 (-2), lit 1 (-2));
  cf_enable_hpss_onsets := false;
  cf_hpss_margin := 10;
  cf_force_legacy_bpm := false;
  cf_enable_bpm_fusion := false;
  cf_enable_legacy_bpm_guardrails := true;
  cf_enable_tempogram_multi_resolution := true;
  cf_tempogram_multi_res_top_k := 25;
  cf_tempogram_multi_res_w512 := lit 7549747 (-24);
  cf_tempogram_multi_res_w256 := lit 11744051 (-25);
  cf_tempogram_multi_res_w1024 := lit 13421773 (-26);
  cf_tempogram_multi_res_structural_discount := lit 7130317 (-23);
  cf_tempogram_multi_res_double_time_512_factor := lit 15435039 (-24);
  cf_tempogram_multi_res_margin_threshold := lit 5368709 (-26);
  cf_tempogram_multi_res_use_human_prior := false;
  cf_enable_tempogram_percussive_fallback := false;
  cf_enable_tempogram_band_fusion := true;
  cf_tempogram_band_low_max_hz := z2f 200;
  cf_tempogram_band_mid_max_hz := z2f 2000;
  cf_tempogram_band_high_max_hz := z2f 8000;
  cf_tempogram_band_w_full := lit 13421773 (-25);
  cf_tempogram_band_w_low := lit 1 (-2);
  cf_tempogram_band_w_mid := lit 13421773 (-26);
  cf_tempogram_band_w_high := lit 5033165 (-25);
  cf_tempogram_band_seed_only := true;
  cf_tempogram_band_support_threshold := lit 1 (-2);
  cf_tempogram_band_consensus_bonus := lit 5368709 (-26);
  cf_tempogram_novelty_w_spectral := lit 5033165 (-24);
  cf_tempogram_novelty_w_energy := lit 11744051 (-25);
  cf_tempogram_novelty_w_hfc := lit 11744051 (-25);
  cf_tempogram_novelty_local_mean_window := 16;
  cf_tempogram_novelty_smooth_window := 5;
  cf_enable_tempogram_mel_novelty := true;
  cf_tempogram_mel_n_mels := 40;
  cf_tempogram_mel_fmin_hz := z2f 30;
  cf_tempogram_mel_fmax_hz := z2f 8000;
  cf_tempogram_mel_max_filter_bins := 2;
  cf_tempogram_mel_weight := lit 5033165 (-25);
  cf_tempogram_superflux_max_filter_bins := 4;
  cf_emit_tempogram_candidates := false;
  cf_tempogram_candidates_top_n := 10;
  cf_legacy_bpm_preferred_min := z2f 72;
  cf_legacy_bpm_preferred_max := z2f 168;
  cf_legacy_bpm_soft_min := z2f 60;
  cf_legacy_bpm_soft_max := z2f 210;
  cf_legacy_bpm_conf_mul_preferred := lit 5452595 (-22);
  cf_legacy_bpm_conf_mul_soft := lit 11744051 (-24);
  cf_legacy_bpm_conf_mul_extreme := lit 5368709 (-29);
  cf_min_bpm := z2f 40;
  cf_max_bpm := z2f 240;
  cf_bpm_resolution := z2f 1;
  cf_frame_size := 2048;
  cf_hop_size := 512;
  cf_center_frequency := z2f 440;
  cf_soft_chroma_mapping := true;
  cf_soft_mapping_sigma := lit 1 (-1);
  cf_chroma_sharpening_power := z2f 1;
  cf_enable_key_spectrogram_time_smoothing := true;
  cf_key_spectrogram_smooth_margin := 12;
  cf_enable_key_frame_weighting := true;
  cf_key_min_tonalness := z2f 0;
  cf_key_tonalness_power := z2f 2;
  cf_key_energy_power := lit 1 (-1);
  cf_enable_key_harmonic_mask := true;
  cf_key_harmonic_mask_power := z2f 2;
  cf_enable_key_hpss_harmonic := false;
  cf_key_hpss_frame_step := 4;
  cf_key_hpss_time_margin := 8;
  cf_key_hpss_freq_margin := 8;
  cf_key_hpss_mask_power := z2f 2;
  cf_enable_key_stft_override := true;
  cf_key_stft_frame_size := 64 * 128;
  cf_key_stft_hop_size := 512;
  cf_enable_key_log_frequency := false;
  cf_enable_key_beat_synchronous := false;
  cf_enable_key_multi_scale := false;
  cf_key_template_set := KrumhanslKessler;
  cf_enable_key_ensemble := false;
  cf_key_ensemble_kk_weight := lit 1 (-1);
  cf_key_ensemble_temperley_weight := lit 1 (-1);
  cf_enable_key_median := false;
  cf_key_median_segment_length_frames := 480;
  cf_key_median_segment_hop_frames := 120;
  cf_key_median_min_segments := 3;
  cf_key_multi_scale_lengths := [120; 360; 720];
  cf_key_multi_scale_hop := 60;
  cf_key_multi_scale_min_clarity := lit 13421773 (-26);
  cf_key_multi_scale_weights := [];
  cf_enable_key_tuning_compensation := false;
  cf_key_tuning_max_abs_semitones := lit 5368709 (-26);
  cf_key_tuning_frame_step := 20;
  cf_key_tuning_peak_rel_threshold := lit 11744051 (-25);
  cf_enable_key_edge_trim := false;
  cf_key_edge_trim_fraction := lit 5033165 (-25);
  cf_enable_key_segment_voting := true;
  cf_key_segment_len_frames := 1024;
  cf_key_segment_hop_frames := 512;
  cf_key_segment_min_clarity := lit 13421773 (-26);
  cf_enable_key_mode_heuristic := false;
  cf_key_mode_third_ratio_margin := z2f 0;
  cf_key_mode_flip_min_score_ratio := lit 5033165 (-23);
  cf_enable_key_hpcp := true;
  cf_key_hpcp_peaks_per_frame := 24;
  cf_key_hpcp_num_harmonics := 4;
  cf_key_hpcp_harmonic_decay := lit 5033165 (-23);
  cf_key_hpcp_mag_power := lit 1 (-1);
  cf_enable_key_hpcp_whitening := false;
  cf_key_hpcp_whitening_smooth_bins := 31;
  cf_enable_key_hpcp_bass_blend := false;
  cf_key_hpcp_bass_fmin_hz := z2f 55;
  cf_key_hpcp_bass_fmax_hz := z2f 300;
  cf_key_hpcp_bass_weight := lit 11744051 (-25);
  cf_enable_key_minor_harmonic_bonus := false;
  cf_key_minor_leading_tone_bonus_weight := lit 13421773 (-26) |}.
