(** C72: a setting matters only while the feature it belongs to is switched on. *)
From Coq Require Import ZArith Lia.
From Verif Require Import Rust F32 Libm Normalization Silence Onsets Consensus Hpss Autocorrelation Chroma CandidateFilter
  Tempogram MultiResolution BeatGrid KeyNotation KeyTemplates KeyDetector KeyFeatures Config KeyStage Pipeline.
Local Open Scope nat_scope.

(** ** When two configurations describe the same analysis *)

(** Preprocessing: the method only with normalisation on, the silence level only with trimming on. *)
Definition same_audio (c d : analysis_config) : Prop :=
  cf_enable_normalization c = cf_enable_normalization d /\
  cf_enable_silence_trimming c = cf_enable_silence_trimming d /\
  (cf_enable_normalization c = true -> cf_normalization c = cf_normalization d) /\
  (cf_enable_silence_trimming c = true -> cf_min_amplitude_db c = cf_min_amplitude_db d) /\
  cf_frame_size c = cf_frame_size d /\ cf_hop_size c = cf_hop_size d.

(** Onsets: nothing but the switch with the vote off; the HPSS margin only for the HPSS voter. *)
Definition same_onsets (c d : analysis_config) : Prop :=
  cf_enable_onset_consensus c = cf_enable_onset_consensus d /\
  (cf_enable_onset_consensus c = true ->
     cf_onset_threshold_percentile c = cf_onset_threshold_percentile d /\
     cf_onset_consensus_tolerance_ms c = cf_onset_consensus_tolerance_ms d /\
     cf_onset_consensus_weights c = cf_onset_consensus_weights d /\
     cf_enable_hpss_onsets c = cf_enable_hpss_onsets d /\
     (cf_enable_hpss_onsets c = true -> cf_hpss_margin c = cf_hpss_margin d)).

(** Legacy tempo: the guardrail values only with guardrails on. *)
Definition same_legacy (c d : analysis_config) : Prop :=
  cf_min_bpm c = cf_min_bpm d /\ cf_max_bpm c = cf_max_bpm d /\ cf_bpm_resolution c = cf_bpm_resolution d /\
  cf_enable_legacy_bpm_guardrails c = cf_enable_legacy_bpm_guardrails d /\
  (cf_enable_legacy_bpm_guardrails c = true ->
     cf_legacy_bpm_preferred_min c = cf_legacy_bpm_preferred_min d /\
     cf_legacy_bpm_preferred_max c = cf_legacy_bpm_preferred_max d /\
     cf_legacy_bpm_soft_min c = cf_legacy_bpm_soft_min d /\ cf_legacy_bpm_soft_max c = cf_legacy_bpm_soft_max d /\
     cf_legacy_bpm_conf_mul_preferred c = cf_legacy_bpm_conf_mul_preferred d /\
     cf_legacy_bpm_conf_mul_soft c = cf_legacy_bpm_conf_mul_soft d /\
     cf_legacy_bpm_conf_mul_extreme c = cf_legacy_bpm_conf_mul_extreme d).

(** Is one of the auxiliary tempogram variants (bands, mel, consensus bonus) on? *)
Definition aux_on (c : analysis_config) : Prop :=
  cf_enable_tempogram_band_fusion c = true \/ cf_enable_tempogram_mel_novelty c = true \/
  fgt (cf_tempogram_band_consensus_bonus c) f0 = true.

(** Tempogram: band edges only with band fusion on, mel settings only with mel novelty on, the weighting of the variants
    only with one of them on, the novelty settings only with one of them or the multi-resolution escalation on. *)
Definition same_bands (c d : analysis_config) : Prop :=
  cf_enable_tempogram_band_fusion c = cf_enable_tempogram_band_fusion d /\
  cf_enable_tempogram_mel_novelty c = cf_enable_tempogram_mel_novelty d /\
  cf_tempogram_band_consensus_bonus c = cf_tempogram_band_consensus_bonus d /\
  (cf_enable_tempogram_band_fusion c = true ->
     cf_tempogram_band_low_max_hz c = cf_tempogram_band_low_max_hz d /\
     cf_tempogram_band_mid_max_hz c = cf_tempogram_band_mid_max_hz d /\
     cf_tempogram_band_high_max_hz c = cf_tempogram_band_high_max_hz d /\
     cf_tempogram_band_w_low c = cf_tempogram_band_w_low d /\
     cf_tempogram_band_w_mid c = cf_tempogram_band_w_mid d /\
     cf_tempogram_band_w_high c = cf_tempogram_band_w_high d) /\
  (cf_enable_tempogram_mel_novelty c = true ->
     cf_tempogram_mel_n_mels c = cf_tempogram_mel_n_mels d /\ cf_tempogram_mel_fmin_hz c = cf_tempogram_mel_fmin_hz d /\
     cf_tempogram_mel_fmax_hz c = cf_tempogram_mel_fmax_hz d /\
     cf_tempogram_mel_max_filter_bins c = cf_tempogram_mel_max_filter_bins d /\
     cf_tempogram_mel_weight c = cf_tempogram_mel_weight d) /\
  (aux_on c ->
     cf_tempogram_band_w_full c = cf_tempogram_band_w_full d /\
     cf_tempogram_band_seed_only c = cf_tempogram_band_seed_only d /\
     cf_tempogram_band_support_threshold c = cf_tempogram_band_support_threshold d) /\
  (aux_on c \/ cf_enable_tempogram_multi_resolution c = true ->
     cf_tempogram_novelty_w_spectral c = cf_tempogram_novelty_w_spectral d /\
     cf_tempogram_novelty_w_energy c = cf_tempogram_novelty_w_energy d /\
     cf_tempogram_novelty_w_hfc c = cf_tempogram_novelty_w_hfc d /\
     cf_tempogram_novelty_local_mean_window c = cf_tempogram_novelty_local_mean_window d /\
     cf_tempogram_novelty_smooth_window c = cf_tempogram_novelty_smooth_window d /\
     cf_tempogram_superflux_max_filter_bins c = cf_tempogram_superflux_max_filter_bins d).

(** Nothing of the tempogram and of the fusion with the legacy estimator forced; the escalation settings only with the
    escalation on; the HPSS margin only for the percussive fallback; the length of the candidate list only if the list
    is produced. *)
Definition same_tempo (c d : analysis_config) : Prop :=
  cf_force_legacy_bpm c = cf_force_legacy_bpm d /\
  (cf_force_legacy_bpm c = false ->
     cf_enable_bpm_fusion c = cf_enable_bpm_fusion d /\
     cf_enable_tempogram_multi_resolution c = cf_enable_tempogram_multi_resolution d /\
     cf_emit_tempogram_candidates c = cf_emit_tempogram_candidates d /\
     (cf_emit_tempogram_candidates c = true \/ cf_enable_tempogram_multi_resolution c = true ->
        cf_tempogram_candidates_top_n c = cf_tempogram_candidates_top_n d) /\
     same_bands c d /\
     (cf_enable_tempogram_multi_resolution c = true ->
        cf_tempogram_multi_res_top_k c = cf_tempogram_multi_res_top_k d /\
        cf_tempogram_multi_res_w512 c = cf_tempogram_multi_res_w512 d /\
        cf_tempogram_multi_res_w256 c = cf_tempogram_multi_res_w256 d /\
        cf_tempogram_multi_res_w1024 c = cf_tempogram_multi_res_w1024 d /\
        cf_tempogram_multi_res_double_time_512_factor c = cf_tempogram_multi_res_double_time_512_factor d /\
        cf_tempogram_multi_res_margin_threshold c = cf_tempogram_multi_res_margin_threshold d /\
        cf_tempogram_multi_res_use_human_prior c = cf_tempogram_multi_res_use_human_prior d /\
        cf_enable_tempogram_percussive_fallback c = cf_enable_tempogram_percussive_fallback d /\
        (cf_enable_tempogram_percussive_fallback c = true -> cf_hpss_margin c = cf_hpss_margin d))).

(** Key spectrogram: only the settings of the first enabled conditioning step (median mask, time mask, smoothing). *)
Definition same_key_spec (c d : analysis_config) : Prop :=
  cf_enable_key_stft_override c = cf_enable_key_stft_override d /\
  (cf_enable_key_stft_override c = true ->
     cf_key_stft_frame_size c = cf_key_stft_frame_size d /\ cf_key_stft_hop_size c = cf_key_stft_hop_size d) /\
  cf_enable_key_hpss_harmonic c = cf_enable_key_hpss_harmonic d /\
  (cf_enable_key_hpss_harmonic c = true ->
     cf_key_hpss_frame_step c = cf_key_hpss_frame_step d /\ cf_key_hpss_time_margin c = cf_key_hpss_time_margin d /\
     cf_key_hpss_freq_margin c = cf_key_hpss_freq_margin d /\ cf_key_hpss_mask_power c = cf_key_hpss_mask_power d) /\
  (cf_enable_key_hpss_harmonic c = false ->
     cf_enable_key_harmonic_mask c = cf_enable_key_harmonic_mask d /\
     (cf_enable_key_harmonic_mask c = true ->
        cf_key_spectrogram_smooth_margin c = cf_key_spectrogram_smooth_margin d /\
        cf_key_harmonic_mask_power c = cf_key_harmonic_mask_power d) /\
     (cf_enable_key_harmonic_mask c = false ->
        cf_enable_key_spectrogram_time_smoothing c = cf_enable_key_spectrogram_time_smoothing d /\
        (cf_enable_key_spectrogram_time_smoothing c = true ->
           cf_key_spectrogram_smooth_margin c = cf_key_spectrogram_smooth_margin d))).

(** Chroma: tuning, HPCP, whitening, bass, trimming and weighting settings only with their switch on. *)
Definition same_chroma (c d : analysis_config) : Prop :=
  cf_enable_key_log_frequency c = cf_enable_key_log_frequency d /\
  cf_enable_key_tuning_compensation c = cf_enable_key_tuning_compensation d /\
  (cf_enable_key_tuning_compensation c = true ->
     cf_key_tuning_max_abs_semitones c = cf_key_tuning_max_abs_semitones d /\
     cf_key_tuning_frame_step c = cf_key_tuning_frame_step d /\
     cf_key_tuning_peak_rel_threshold c = cf_key_tuning_peak_rel_threshold d) /\
  cf_enable_key_beat_synchronous c = cf_enable_key_beat_synchronous d /\
  cf_soft_chroma_mapping c = cf_soft_chroma_mapping d /\ cf_soft_mapping_sigma c = cf_soft_mapping_sigma d /\
  cf_enable_key_hpcp c = cf_enable_key_hpcp d /\
  (cf_enable_key_hpcp c = true ->
     cf_key_hpcp_peaks_per_frame c = cf_key_hpcp_peaks_per_frame d /\
     cf_key_hpcp_num_harmonics c = cf_key_hpcp_num_harmonics d /\
     cf_key_hpcp_harmonic_decay c = cf_key_hpcp_harmonic_decay d /\
     cf_key_hpcp_mag_power c = cf_key_hpcp_mag_power d /\
     cf_enable_key_hpcp_whitening c = cf_enable_key_hpcp_whitening d /\
     (cf_enable_key_hpcp_whitening c = true -> cf_key_hpcp_whitening_smooth_bins c = cf_key_hpcp_whitening_smooth_bins d) /\
     cf_enable_key_hpcp_bass_blend c = cf_enable_key_hpcp_bass_blend d /\
     (cf_enable_key_hpcp_bass_blend c = true ->
        cf_key_hpcp_bass_fmin_hz c = cf_key_hpcp_bass_fmin_hz d /\ cf_key_hpcp_bass_fmax_hz c = cf_key_hpcp_bass_fmax_hz d /\
        cf_key_hpcp_bass_weight c = cf_key_hpcp_bass_weight d)) /\
  cf_chroma_sharpening_power c = cf_chroma_sharpening_power d /\
  cf_enable_key_edge_trim c = cf_enable_key_edge_trim d /\
  (cf_enable_key_edge_trim c = true -> cf_key_edge_trim_fraction c = cf_key_edge_trim_fraction d) /\
  cf_enable_key_frame_weighting c = cf_enable_key_frame_weighting d /\
  (cf_enable_key_frame_weighting c = true ->
     cf_key_min_tonalness c = cf_key_min_tonalness d /\ cf_key_tonalness_power c = cf_key_tonalness_power d /\
     cf_key_energy_power c = cf_key_energy_power d).

(** Detector: with the ensemble on only its two weights; otherwise the settings of the enabled variants. *)
Definition same_detector (c d : analysis_config) : Prop :=
  cf_enable_key_ensemble c = cf_enable_key_ensemble d /\
  (cf_enable_key_ensemble c = true ->
     cf_key_ensemble_kk_weight c = cf_key_ensemble_kk_weight d /\
     cf_key_ensemble_temperley_weight c = cf_key_ensemble_temperley_weight d) /\
  (cf_enable_key_ensemble c = false ->
     cf_key_template_set c = cf_key_template_set d /\
     cf_enable_key_mode_heuristic c = cf_enable_key_mode_heuristic d /\
     (cf_enable_key_mode_heuristic c = true ->
        cf_key_mode_third_ratio_margin c = cf_key_mode_third_ratio_margin d /\
        cf_key_mode_flip_min_score_ratio c = cf_key_mode_flip_min_score_ratio d) /\
     cf_enable_key_minor_harmonic_bonus c = cf_enable_key_minor_harmonic_bonus d /\
     (cf_enable_key_minor_harmonic_bonus c = true ->
        cf_key_minor_leading_tone_bonus_weight c = cf_key_minor_leading_tone_bonus_weight d) /\
     cf_enable_key_multi_scale c = cf_enable_key_multi_scale d /\
     (cf_enable_key_multi_scale c = true ->
        cf_key_multi_scale_lengths c = cf_key_multi_scale_lengths d /\ cf_key_multi_scale_hop c = cf_key_multi_scale_hop d /\
        cf_key_multi_scale_min_clarity c = cf_key_multi_scale_min_clarity d /\
        cf_key_multi_scale_weights c = cf_key_multi_scale_weights d) /\
     cf_enable_key_segment_voting c = cf_enable_key_segment_voting d /\
     (cf_enable_key_segment_voting c = true ->
        cf_key_segment_len_frames c = cf_key_segment_len_frames d /\
        cf_key_segment_hop_frames c = cf_key_segment_hop_frames d /\
        cf_key_segment_min_clarity c = cf_key_segment_min_clarity d)).

(** Not mentioned at all: center_frequency, tempogram_multi_res_structural_discount, enable_key_median and the three
    key_median_* settings. *)
Definition same_settings (c d : analysis_config) : Prop :=
  same_audio c d /\ same_onsets c d /\ same_legacy c d /\ same_tempo c d /\ same_key_spec c d /\ same_chroma c d /\
  same_detector c d.

(** ** Proof *)

Ltac splits := repeat match goal with H : _ /\ _ |- _ => destruct H end.
Ltac use_true H := match type of H with (?x = true -> _) =>
  destruct x eqn:?; [specialize (H eq_refl); splits | clear H] end.

Lemma preprocess_same P c d rate s : same_audio c d -> preprocess P c rate s = preprocess P d rate s.
Proof.
  intros (N & T & Nm & Tm & Fr & _). unfold preprocess. rewrite <- N, <- T, <- Fr.
  destruct (cf_enable_normalization c), (cf_enable_silence_trimming c); try rewrite (Nm eq_refl); try rewrite (Tm eq_refl);
    reflexivity.
Qed.

Lemma onsets_same c d rate n spec energy :
  same_audio c d -> same_onsets c d -> choose_onsets c rate n spec energy = choose_onsets d rate n spec energy.
Proof.
  intros (_ & _ & _ & _ & _ & Hop) (E & O). unfold choose_onsets, consensus_input. rewrite <- E, <- Hop.
  destruct (cf_enable_onset_consensus c); [|reflexivity]. destruct (O eq_refl) as (-> & -> & -> & Eh & Hm).
  rewrite <- Eh. destruct (cf_enable_hpss_onsets c); [rewrite (Hm eq_refl)|]; reflexivity.
Qed.

Lemma legacy_same P fuel c d rate o :
  same_audio c d -> same_legacy c d -> legacy_stage P fuel c rate o = legacy_stage P fuel d rate o.
Proof.
  intros (_ & _ & _ & _ & _ & Hop) (A & B & R & G & V). unfold legacy_stage. rewrite <- A, <- B, <- R, <- G, <- Hop.
  destruct (cf_enable_legacy_bpm_guardrails c); [|reflexivity].
  destruct (V eq_refl) as (-> & -> & -> & -> & -> & -> & ->). reflexivity.
Qed.

(** Two band configurations no part of the tempogram can tell apart. *)
Definition same_band_cfg (a b : band_config) : Prop :=
  bc_enabled a = bc_enabled b /\ bc_mel a = bc_mel b /\ bc_bonus a = bc_bonus b /\
  (bc_enabled a = true -> bc_low a = bc_low b /\ bc_mid a = bc_mid b /\ bc_high a = bc_high b /\
     bc_w_low a = bc_w_low b /\ bc_w_mid a = bc_w_mid b /\ bc_w_high a = bc_w_high b) /\
  (bc_mel a = true -> bc_n_mels a = bc_n_mels b /\ bc_mel_fmin a = bc_mel_fmin b /\ bc_mel_fmax a = bc_mel_fmax b /\
     bc_mel_filter a = bc_mel_filter b /\ bc_w_mel a = bc_w_mel b) /\
  (bc_nov_s a = bc_nov_s b /\ bc_nov_e a = bc_nov_e b /\ bc_nov_h a = bc_nov_h b /\
     bc_mean_window a = bc_mean_window b /\ bc_smooth_window a = bc_smooth_window b /\ bc_filter a = bc_filter b).
Definition same_scoring (a b : band_config) : Prop :=
  bc_w_full a = bc_w_full b /\ bc_seed_only a = bc_seed_only b /\ bc_support a = bc_support b.

Lemma band_variants_same F L fuel spec rate hop lo hi res a b bs :
  same_band_cfg a b ->
  band_variants F L fuel spec rate hop lo hi res a bs = band_variants F L fuel spec rate hop lo hi res b bs.
Proof.
  intros (_ & _ & _ & _ & _ & A & B & C & D & E & Fi).
  induction bs as [|[[x y] w] r IH]; [reflexivity|].
  cbn [band_variants]. unfold combine_novelty. now rewrite IH, Fi, A, B, C, D, E.
Qed.

Lemma variants_same F L fuel spec rate hop lo hi res a b :
  same_band_cfg a b -> same_scoring a b ->
  variants F L fuel spec rate hop lo hi res (Some a) = variants F L fuel spec rate hop lo hi res (Some b).
Proof.
  intros H (Wf & _ & _). unfold variants, combine_novelty.
  pose proof H as (E & M & _ & Ba & Me & N1 & N2 & N3 & N4 & N5 & Fi). rewrite Fi, Wf, N1, N2, N3, N4, N5.
  assert (Bv : forall n, (if bc_enabled a then band_variants F L fuel spec rate hop lo hi res a (bands a rate n) else Some (Ok []))
                       = (if bc_enabled b then band_variants F L fuel spec rate hop lo hi res b (bands b rate n) else Some (Ok []))).
  { intros n. rewrite <- E. destruct (bc_enabled a); [|reflexivity]. destruct (Ba eq_refl) as (A1 & A2 & A3 & A4 & A5 & A6).
    rewrite (band_variants_same F L fuel spec rate hop lo hi res a b _ H).
    unfold bands. now rewrite A1, A2, A3, A4, A5, A6. }
  assert (Mv : mel_variant F L fuel spec rate hop lo hi res a = mel_variant F L fuel spec rate hop lo hi res b).
  { unfold mel_variant. rewrite <- M. destruct (bc_mel a); [|reflexivity]. destruct (Me eq_refl) as (-> & -> & -> & -> & ->).
    reflexivity. }
  rewrite Mv.
  destruct (_ =? 0); [reflexivity|]. now rewrite Bv.
Qed.

Lemma impl_same F L fuel spec rate hop lo hi res a b :
  same_band_cfg a b -> same_scoring a b ->
  tempogram_impl F L fuel spec rate hop lo hi res (Some a) = tempogram_impl F L fuel spec rate hop lo hi res (Some b).
Proof.
  intros H Sc. unfold tempogram_impl. rewrite (variants_same _ _ _ _ _ _ _ _ _ a b H Sc).
  unfold select_tempo. destruct Sc as (Wf & Se & Su). destruct H as (E & M & B & _). now rewrite Se, Su, E, M, B.
Qed.

Lemma aux_on_iff c :
  aux_on c <-> cf_enable_tempogram_band_fusion c || cf_enable_tempogram_mel_novelty c
               || fgt (cf_tempogram_band_consensus_bonus c) f0 = true.
Proof. unfold aux_on. rewrite !Bool.orb_true_iff. tauto. Qed.

Lemma bands_same c d :
  same_bands c d -> aux_on c \/ cf_enable_tempogram_multi_resolution c = true -> same_band_cfg (band_cfg c) (band_cfg d).
Proof.
  intros (E & M & B & Eb & Em & _ & N) A. destruct (N A) as (N1 & N2 & N3 & N4 & N5 & N6).
  unfold same_band_cfg. cbn. rewrite N6.
  split; [exact E|]. split; [exact M|]. split; [exact B|]. split; [exact Eb|].
  split; [|now repeat split].
  intros H. destruct (Em H) as (M1 & M2 & M3 & M4 & M5). rewrite M4. now repeat split.
Qed.
Lemma scoring_same c d : same_bands c d -> aux_on c -> same_scoring (band_cfg c) (band_cfg d).
Proof. intros (_ & _ & _ & _ & _ & W & _) A. exact (W A). Qed.
Lemma aux_on_same c d : same_bands c d -> (aux_on c <-> aux_on d).
Proof. intros (E & M & B & _). unfold aux_on. now rewrite E, M, B. Qed.

Lemma aux_impl_same c d F L fuel spec rate hop lo hi res :
  same_bands c d ->
  tempogram_impl F L fuel spec rate hop lo hi res (aux_cfg c) = tempogram_impl F L fuel spec rate hop lo hi res (aux_cfg d).
Proof.
  intros H. pose proof (aux_on_same c d H) as A. rewrite !aux_on_iff in A. unfold aux_cfg.
  destruct (cf_enable_tempogram_band_fusion c || _ || _) eqn:X, (cf_enable_tempogram_band_fusion d || _ || _) eqn:Y;
    try reflexivity.
  - apply aux_on_iff in X. apply impl_same; [apply bands_same|apply scoring_same]; auto.
  - destruct A as [A _]. now discriminate A.
  - destruct A as [_ A]. now discriminate A.
Qed.

Lemma multi_res_same c d F L fuel s rate frame lo hi res k p :
  same_bands c d -> cf_enable_tempogram_multi_resolution c = true ->
  multi_resolution_from_samples F L fuel s rate frame lo hi res k p (Some (band_cfg c))
  = multi_resolution_from_samples F L fuel s rate frame lo hi res k p (Some (band_cfg d)).
Proof.
  intros H M. pose proof (bands_same c d H (or_intror M)) as Q. unfold multi_resolution_from_samples.
  assert (N : forall spec, novelty_512 L spec rate (Some (band_cfg c)) = novelty_512 L spec rate (Some (band_cfg d))).
  { intros spec. unfold novelty_512, combine_novelty. destruct Q as (_ & _ & _ & _ & _ & A & B & C & D & E & Fi).
    now rewrite A, B, C, D, E, Fi. }
  assert (I : forall spec hop n,
    tempogram_candidates F L fuel spec rate hop lo hi res n
      (if bc_enabled (band_cfg c) || bc_mel (band_cfg c) || fgt (bc_bonus (band_cfg c)) f0 then Some (band_cfg c) else None)
    = tempogram_candidates F L fuel spec rate hop lo hi res n
      (if bc_enabled (band_cfg d) || bc_mel (band_cfg d) || fgt (bc_bonus (band_cfg d)) f0 then Some (band_cfg d) else None)).
  { intros spec hop n. unfold tempogram_candidates.
    pose proof (aux_impl_same c d F L fuel spec rate hop lo hi res H) as Z. unfold aux_cfg in Z. cbn [bc_enabled bc_mel bc_bonus band_cfg].
    now rewrite Z. }
  destruct (length s <? frame); [reflexivity|].
  destruct (compute_stft F L s frame 256); try reflexivity. cbn [rbind].
  destruct (compute_stft F L s frame 512); try reflexivity. cbn [rbind].
  destruct (compute_stft F L s frame 1024); try reflexivity. cbn [rbind].
  rewrite !I, N. reflexivity.
Qed.

Lemma tempogram_same P fuel c d rate s spec :
  same_audio c d -> same_legacy c d -> same_tempo c d ->
  tempogram_stage P fuel c rate s spec = tempogram_stage P fuel d rate s spec.
Proof.
  intros (_ & _ & _ & _ & Fr & Hop) (Lo & Hi & Re & _) (Fo & T). unfold tempogram_stage. rewrite <- Fo.
  destruct (cf_force_legacy_bpm c) eqn:EF; [reflexivity|]. destruct (T eq_refl) as (_ & Mu & Em & Tn & Ba & Mr).
  unfold hop_u32. rewrite <- Hop, <- Lo, <- Hi, <- Re, <- Mu, <- Em.
  destruct (length spec =? 0); [reflexivity|]. cbn [orb].
  destruct (cf_enable_tempogram_multi_resolution c) eqn:EM.
  - destruct (Mr eq_refl) as (K & W1 & W2 & W3 & Db & Mg & Pr & Pf & Hm). unfold multi_res_stage, hop_u32.
    rewrite <- (Tn (or_intror eq_refl)), <- K, <- W1, <- W2, <- W3, <- Db, <- Mg, <- Pr, <- Pf, <- Hop, <- Lo, <- Hi, <- Re,
      <- Fr, <- Em.
    unfold tempogram_candidates.
    rewrite <- (aux_impl_same c d _ _ _ spec _ _ _ _ _ Ba).
    destruct (run_catch _) as [[[base|]| |]|]; try reflexivity. cbn [rbind].
    rewrite <- (multi_res_same c d _ _ _ _ _ _ _ _ _ _ _ Ba EM).
    destruct (if ambiguous _ _ _ then _ else _) as [[mr| |]|]; try reflexivity. cbn [rbind].
    destruct (after_multi_res base mr) as [chosen used].
    destruct (cf_enable_tempogram_percussive_fallback c); [|reflexivity]. rewrite <- (Hm eq_refl).
    destruct (hpss_decompose spec (cf_hpss_margin c)) as [hp| |]; try reflexivity. cbn [rbind].
    now rewrite <- (aux_impl_same c d _ _ _ (snd hp) _ _ _ _ _ Ba).
  - destruct (cf_emit_tempogram_candidates c).
    + rewrite <- (Tn (or_introl eq_refl)). unfold tempogram_candidates.
      now rewrite <- (aux_impl_same c d _ _ _ _ _ _ _ _ _ Ba).
    + now rewrite <- (aux_impl_same c d _ _ _ _ _ _ _ _ _ Ba).
Qed.

Lemma bpm_same c d t l : same_tempo c d -> choose_bpm c t l = choose_bpm d t l.
Proof.
  intros (Fo & T). unfold choose_bpm. rewrite <- Fo. destruct (cf_force_legacy_bpm c); [reflexivity|].
  destruct (T eq_refl) as (Fu & _). now rewrite <- Fu.
Qed.

Lemma sizes_same c d : same_audio c d -> same_key_spec c d -> key_fft_size c = key_fft_size d /\ key_hop_size c = key_hop_size d.
Proof.
  intros (_ & _ & _ & _ & Fr & Hop) (E & S & _). unfold key_fft_size, key_hop_size. rewrite <- E, <- Fr, <- Hop.
  destruct (cf_enable_key_stft_override c); [|auto]. destruct (S eq_refl) as (-> & ->). auto.
Qed.

Lemma key_spec_same F L c d s sh :
  same_audio c d -> same_key_spec c d -> key_spec F L c s sh = key_spec F L d s sh.
Proof.
  intros A K. destruct (sizes_same c d A K) as (S1 & S2). unfold key_spec. rewrite S1, S2. destruct K as (E & _). now rewrite E.
Qed.

Lemma condition_same L c d rate spec :
  same_audio c d -> same_key_spec c d -> condition_spec L c rate spec = condition_spec L d rate spec.
Proof.
  intros A K. destruct (sizes_same c d A K) as (S1 & S2). unfold condition_spec. rewrite S1.
  destruct K as (_ & _ & H & Ht & Hf). rewrite <- H. destruct (length spec =? 0); [reflexivity|].
  destruct (cf_enable_key_hpss_harmonic c).
  - destruct (Ht eq_refl) as (-> & -> & -> & ->). reflexivity.
  - destruct (Hf eq_refl) as (M & Mt & Mf). rewrite <- M. destruct (cf_enable_key_harmonic_mask c).
    + destruct (Mt eq_refl) as (-> & ->). reflexivity.
    + destruct (Mf eq_refl) as (T & Tt). rewrite <- T.
      destruct (cf_enable_key_spectrogram_time_smoothing c); [rewrite (Tt eq_refl)|]; reflexivity.
Qed.

Lemma hpcp_frame_same L P q q' rate fft lo hi frame :
  hp_sigma q = hp_sigma q' -> hp_tuning q = hp_tuning q' -> hp_peaks q = hp_peaks q' ->
  hp_harmonics q = hp_harmonics q' -> hp_decay q = hp_decay q' -> hp_power q = hp_power q' ->
  hp_whiten q = hp_whiten q' -> (hp_whiten q = true -> hp_whiten_bins q = hp_whiten_bins q') ->
  frame_to_hpcp L P q rate fft lo hi frame = frame_to_hpcp L P q' rate fft lo hi frame.
Proof.
  intros A1 A2 A3 A4 A5 A6 A7 A8. unfold frame_to_hpcp. rewrite A1, A2, A3, A4, A5, A6, <- A7.
  destruct (hp_whiten q); [rewrite (A8 eq_refl)|]; reflexivity.
Qed.

Lemma chroma_same L P c d rate beats spec lg tuning :
  same_audio c d -> same_key_spec c d -> same_chroma c d ->
  chroma_call L P c rate beats spec lg tuning = chroma_call L P d rate beats spec lg tuning.
Proof.
  intros A K (Lf & Tu & _ & Be & So & Si & Hp & Hs & _). destruct (sizes_same c d A K) as (S1 & S2).
  unfold chroma_call. rewrite S1, S2, <- Tu, <- Be, <- So, <- Si, <- Hp.
  destruct lg as [[s o]|]; [reflexivity|]. destruct (cf_enable_key_beat_synchronous c && _); [reflexivity|].
  destruct (cf_enable_key_hpcp c); [|reflexivity].
  destruct (Hs eq_refl) as (H1 & H2 & H3 & H4 & Wh & Wb & Bb & Bs). rewrite <- Bb.
  assert (Q : forall f lo hi fr, frame_to_hpcp L P (hpcp_config c tuning) rate f lo hi fr
                               = frame_to_hpcp L P (hpcp_config d tuning) rate f lo hi fr).
  { intros. apply hpcp_frame_same; auto. }
  destruct (cf_enable_key_hpcp_bass_blend c).
  - destruct (Bs eq_refl) as (-> & -> & ->). unfold extract_hpcp_bass. destruct (length spec =? 0); [reflexivity|].
    destruct (check_shape spec); try reflexivity. cbn [obind].
    match goal with |- (let! _ := oseq (map ?f _) in _) = (let! _ := oseq (map ?g _) in _) =>
      rewrite (map_ext f g) end; [reflexivity|].
    intros fr. rewrite Q. destruct (frame_to_hpcp _ _ _ _ _ _ _ _); try reflexivity. cbn [obind].
    erewrite hpcp_frame_same; [reflexivity| | | | | | | |]; cbn; auto. now rewrite H1.
  - unfold extract_hpcp. destruct (length spec =? 0); [reflexivity|]. destruct (check_shape spec); try reflexivity.
    cbn [obind]. erewrite map_ext; [reflexivity|]. intros fr. apply Q.
Qed.

Lemma segment_same c d h cs t w :
  same_detector c d -> cf_enable_key_ensemble c = false ->
  detect_segment h (mode_opts c) cs t w = detect_segment h (mode_opts d) cs t w.
Proof.
  intros (_ & _ & H) E. destruct (H E) as (_ & Mo & Ms & Mi & Mw & _). unfold detect_segment, mode_opts. cbn.
  rewrite <- Mo, <- Mi. destruct (cf_enable_key_mode_heuristic c).
  - destruct (Ms eq_refl) as (-> & ->). cbn. destruct (cf_enable_key_minor_harmonic_bonus c); [now rewrite (Mw eq_refl)|].
    reflexivity.
  - cbn. destruct (cf_enable_key_minor_harmonic_bonus c); [|reflexivity]. rewrite (Mw eq_refl).
    unfold detect_key_mode. now destruct (detect_key_weighted h cs t w).
Qed.

Lemma scale_loop_same o o' :
  (forall h cs t w, detect_segment h o cs t w = detect_segment h o' cs t w) ->
  forall fuel hs cs t w seg hop mc sw start st,
  scale_loop fuel hs o cs t w seg hop mc sw start st = scale_loop fuel hs o' cs t w seg hop mc sw start st.
Proof.
  intros H fuel. induction fuel as [|n IH]; intros; [reflexivity|]. cbn [scale_loop]. rewrite H.
  destruct (usize_max <? _)%Z; [reflexivity|]. destruct (_ <=? _)%Z; [|reflexivity].
  destruct (detect_segment _ _ _ _ _); try reflexivity. cbn [obind]. destruct (key_clarity _); try reflexivity. cbn [obind].
  destruct (usize_max <? _)%Z; [reflexivity|]. apply IH.
Qed.
Lemma scales_loop_same o o' :
  (forall h cs t w, detect_segment h o cs t w = detect_segment h o' cs t w) ->
  forall hs cs t w hop mc sw lens i st,
  scales_loop hs o cs t w hop mc sw i lens st = scales_loop hs o' cs t w hop mc sw i lens st.
Proof.
  intros H hs cs t w hop mc sw lens. induction lens as [|seg r IH]; intros; [reflexivity|]. cbn [scales_loop].
  repeat match goal with
  | |- (if ?b then _ else _) = (if ?b then _ else _) => destruct b
  | |- scales_loop _ _ _ _ _ _ _ _ _ _ _ = _ => apply IH
  | |- _ => rewrite (scale_loop_same o o' H)
  end.
  destruct (scale_loop _ _ _ _ _ _ _ _ _ _ _ _); try reflexivity. cbn [obind]. apply IH.
Qed.

Lemma fold_left_ext {A B} (f g : A -> B -> A) l : (forall a x, f a x = g a x) -> forall a, fold_left f l a = fold_left g l a.
Proof. intros H. induction l as [|x l IH]; intros a; [reflexivity|]. cbn. now rewrite H, IH. Qed.

Lemma key_call_same O c d cs w : same_detector c d -> key_call O c cs w = key_call O d cs w.
Proof.
  intros D. pose proof D as (E & Et & Ef). unfold key_call. rewrite <- E. destruct (cf_enable_key_ensemble c) eqn:EE.
  - destruct (Et eq_refl) as (-> & ->). reflexivity.
  - pose proof (fun h cs t w => segment_same c d h cs t w D EE) as Sg.
    destruct (Ef eq_refl) as (T & _ & _ & _ & _ & Ms & Mv & Sv & Ss). rewrite <- T.
    assert (U : use_multi_scale c (length cs) = use_multi_scale d (length cs)).
    { unfold use_multi_scale. rewrite <- Ms. destruct (cf_enable_key_multi_scale c).
      - destruct (Mv eq_refl) as (-> & _). reflexivity.
      - now destruct (cf_key_multi_scale_lengths c), (cf_key_multi_scale_lengths d). }
    rewrite <- U. destruct (use_multi_scale c (length cs)) eqn:EU.
    + assert (On : cf_enable_key_multi_scale c = true).
      { unfold use_multi_scale in EU. destruct (cf_key_multi_scale_lengths c); [discriminate|]. now apply andb_prop in EU. }
      destruct (Mv On) as (-> & -> & -> & ->). unfold detect_key_multi_scale.
      rewrite (scales_loop_same _ _ Sg). destruct (length cs =? 0); [reflexivity|]. destruct (_ =? 0); [reflexivity|].
      destruct (scales_loop _ _ _ _ _ _ _ _ _ _ _) as [[[acc tot] used]| |]; try reflexivity. cbn [obind].
      now rewrite Sg.
    + assert (V : use_segments c (length cs) = use_segments d (length cs)).
      { unfold use_segments. rewrite <- Sv. destruct (cf_enable_key_segment_voting c); [|reflexivity].
        destruct (Ss eq_refl) as (-> & -> & _). reflexivity. }
      rewrite <- V. destruct (use_segments c (length cs)) eqn:EV; [|now rewrite Sg].
      assert (On : cf_enable_key_segment_voting c = true).
      { unfold use_segments in EV. destruct (cf_enable_key_segment_voting c); [reflexivity|discriminate]. }
      destruct (Ss On) as (-> & -> & ->).
      assert (Vo : forall hs t seg hop mc, segment_votes hs (mode_opts c) t seg hop mc cs w
                                         = segment_votes hs (mode_opts d) t seg hop mc cs w).
      { intros. unfold segment_votes. apply fold_left_ext. intros acc st. destruct acc; try reflexivity. cbn [obind].
        destruct (slice_chk cs _ _); try reflexivity. cbn [obind].
        destruct w as [ws|]; [destruct (omap Some _); try reflexivity|]; cbn [obind]; now rewrite Sg. }
      rewrite Vo. destruct (segment_votes _ _ _ _ _ _ _ _) as [st| |]; try reflexivity. cbn [obind]. now rewrite Sg.
Qed.

Lemma key_stage_same F L P O c d rate s sh beats :
  same_audio c d -> same_key_spec c d -> same_chroma c d -> same_detector c d ->
  key_stage F L P O c rate s sh beats = key_stage F L P O d rate s sh beats.
Proof.
  intros A K C D. destruct (sizes_same c d A K) as (S1 & S2). unfold key_stage.
  rewrite (key_spec_same F L c d s sh A K). assert (Fr : cf_frame_size c = cf_frame_size d) by apply A. rewrite <- Fr.
  destruct (_ <=? _); [|reflexivity]. destruct (key_spec F L d s sh) as [ks| |]; try reflexivity. cbn [obind].
  rewrite (condition_same L c d rate ks A K). destruct (condition_spec L d rate ks) as [sp| |]; try reflexivity. cbn [obind].
  pose proof C as (Lf & Tu & Ts & _ & _ & _ & _ & _ & Sh & Ed & Ef & Fw & Fs).
  assert (Lg : log_spec L c rate sp = log_spec L d rate sp) by (unfold log_spec; now rewrite S1, Lf).
  rewrite Lg. destruct (log_spec L d rate sp) as [lg| |]; try reflexivity. cbn [obind].
  assert (Tn : forall b, tuning_offset L P c rate sp b = tuning_offset L P d rate sp b).
  { intros b. unfold tuning_offset. rewrite S1, <- Tu. destruct (cf_enable_key_tuning_compensation c); [|reflexivity].
    destruct (Ts eq_refl) as (-> & -> & ->). reflexivity. }
  rewrite Tn. destruct (tuning_offset L P d rate sp _) as [tn| |]; try reflexivity. cbn [obind].
  rewrite (chroma_same L P c d rate beats sp lg tn A K C).
  destruct (chroma_call L P d rate beats sp lg tn) as [[cs es]| |]; try reflexivity.
  assert (Rf : refine_chroma L c cs = refine_chroma L d cs) by (unfold refine_chroma; now rewrite Sh).
  rewrite Rf. destruct (refine_chroma L d cs) as [cs'| |]; try reflexivity. cbn [obind].
  assert (Tr : trim_range c (length cs') (length es) = trim_range d (length cs') (length es)).
  { unfold trim_range. rewrite <- Ed. destruct (cf_enable_key_edge_trim c); [rewrite (Ef eq_refl)|]; reflexivity. }
  rewrite Tr. destruct (trim_edges _ cs'); try reflexivity. cbn [obind]. destruct (trim_edges _ es) as [es'| |]; try reflexivity. cbn [obind].
  assert (Wt : forall l, frame_weights L c l es' = frame_weights L d l es').
  { intros l. unfold frame_weights, frame_weight. rewrite <- Fw. destruct (cf_enable_key_frame_weighting c); [|reflexivity].
    destruct (Fs eq_refl) as (-> & -> & ->). reflexivity. }
  rewrite Wt. now apply key_call_same.
Qed.

(** ** The property *)

(** C72.  Two configurations that agree on every setting whose feature is on give the same analysis: the same outcome
    (result, error or panic), for every signal, rate and platform. *)
Theorem C72_inert P fuel samples rate c d :
  same_settings c d -> analyze_audio P fuel samples rate c = analyze_audio P fuel samples rate d.
Proof.
  intros (A & On & Le & Te & Ks & Ch & De). unfold analyze_audio.
  destruct (length samples =? 0); [reflexivity|]. destruct (rate =? 0); [reflexivity|].
  rewrite (preprocess_same P c d rate samples A). destruct (preprocess P d rate samples) as [tr| |]; try reflexivity.
  cbn [rbind]. assert (Fr : cf_frame_size c = cf_frame_size d) by apply A. assert (Hp : cf_hop_size c = cf_hop_size d) by apply A.
  rewrite <- Fr, <- Hp. destruct (detect_energy_flux_onsets _ _ _ _ _) as [en| |]; try reflexivity. cbn [rbind].
  destruct (compute_stft _ _ _ _ _) as [sp| |]; try reflexivity. cbn [rbind].
  rewrite (onsets_same c d rate (length tr) sp en A On). destruct (choose_onsets d _ _ _ _) as [os| |]; try reflexivity.
  cbn [rbind]. rewrite (legacy_same P fuel c d rate os A Le).
  destruct (legacy_stage P fuel d rate os) as [[lg| |]|]; try reflexivity. cbn [rbind].
  rewrite (tempogram_same P fuel c d rate tr sp A Le Te).
  destruct (tempogram_stage P fuel d rate tr sp) as [[tg| |]|]; try reflexivity. cbn [rbind].
  rewrite (bpm_same c d _ _ Te). destruct (choose_bpm d (tg_est tg) lg) as [bpm conf].
  destruct (beat_stage P fuel rate bpm conf os) as [[gr| |]|]; try reflexivity. cbn [rbind].
  rewrite (key_stage_same _ _ _ _ c d _ _ _ _ A Ks Ch De). reflexivity.
Qed.
Print Assumptions C72_inert.

(** A configuration with thirteen settings changed, all of them inert under the defaults: a NaN tuning limit (which
    panics when tuning compensation is on), a zero frame step and margin, an empty scale list, and so on. *)
Definition retuned (c : analysis_config) : analysis_config := {|
  cf_min_amplitude_db := cf_min_amplitude_db c; cf_normalization := cf_normalization c;
  cf_enable_normalization := cf_enable_normalization c; cf_enable_silence_trimming := cf_enable_silence_trimming c;
  cf_enable_onset_consensus := cf_enable_onset_consensus c;
  cf_onset_threshold_percentile := cf_onset_threshold_percentile c;
  cf_onset_consensus_tolerance_ms := cf_onset_consensus_tolerance_ms c;
  cf_onset_consensus_weights := cf_onset_consensus_weights c; cf_enable_hpss_onsets := cf_enable_hpss_onsets c;
  cf_hpss_margin := 0; cf_force_legacy_bpm := cf_force_legacy_bpm c; cf_enable_bpm_fusion := cf_enable_bpm_fusion c;
  cf_enable_legacy_bpm_guardrails := cf_enable_legacy_bpm_guardrails c;
  cf_enable_tempogram_multi_resolution := cf_enable_tempogram_multi_resolution c;
  cf_tempogram_multi_res_top_k := cf_tempogram_multi_res_top_k c;
  cf_tempogram_multi_res_w512 := cf_tempogram_multi_res_w512 c;
  cf_tempogram_multi_res_w256 := cf_tempogram_multi_res_w256 c;
  cf_tempogram_multi_res_w1024 := cf_tempogram_multi_res_w1024 c; cf_tempogram_multi_res_structural_discount := f0;
  cf_tempogram_multi_res_double_time_512_factor := cf_tempogram_multi_res_double_time_512_factor c;
  cf_tempogram_multi_res_margin_threshold := cf_tempogram_multi_res_margin_threshold c;
  cf_tempogram_multi_res_use_human_prior := cf_tempogram_multi_res_use_human_prior c;
  cf_enable_tempogram_percussive_fallback := cf_enable_tempogram_percussive_fallback c;
  cf_enable_tempogram_band_fusion := cf_enable_tempogram_band_fusion c;
  cf_tempogram_band_low_max_hz := cf_tempogram_band_low_max_hz c;
  cf_tempogram_band_mid_max_hz := cf_tempogram_band_mid_max_hz c;
  cf_tempogram_band_high_max_hz := cf_tempogram_band_high_max_hz c;
  cf_tempogram_band_w_full := cf_tempogram_band_w_full c; cf_tempogram_band_w_low := cf_tempogram_band_w_low c;
  cf_tempogram_band_w_mid := cf_tempogram_band_w_mid c; cf_tempogram_band_w_high := cf_tempogram_band_w_high c;
  cf_tempogram_band_seed_only := cf_tempogram_band_seed_only c;
  cf_tempogram_band_support_threshold := cf_tempogram_band_support_threshold c;
  cf_tempogram_band_consensus_bonus := cf_tempogram_band_consensus_bonus c;
  cf_tempogram_novelty_w_spectral := cf_tempogram_novelty_w_spectral c;
  cf_tempogram_novelty_w_energy := cf_tempogram_novelty_w_energy c;
  cf_tempogram_novelty_w_hfc := cf_tempogram_novelty_w_hfc c;
  cf_tempogram_novelty_local_mean_window := cf_tempogram_novelty_local_mean_window c;
  cf_tempogram_novelty_smooth_window := cf_tempogram_novelty_smooth_window c;
  cf_enable_tempogram_mel_novelty := cf_enable_tempogram_mel_novelty c;
  cf_tempogram_mel_n_mels := cf_tempogram_mel_n_mels c; cf_tempogram_mel_fmin_hz := cf_tempogram_mel_fmin_hz c;
  cf_tempogram_mel_fmax_hz := cf_tempogram_mel_fmax_hz c;
  cf_tempogram_mel_max_filter_bins := cf_tempogram_mel_max_filter_bins c;
  cf_tempogram_mel_weight := cf_tempogram_mel_weight c;
  cf_tempogram_superflux_max_filter_bins := cf_tempogram_superflux_max_filter_bins c;
  cf_emit_tempogram_candidates := cf_emit_tempogram_candidates c;
  cf_tempogram_candidates_top_n := cf_tempogram_candidates_top_n c;
  cf_legacy_bpm_preferred_min := cf_legacy_bpm_preferred_min c;
  cf_legacy_bpm_preferred_max := cf_legacy_bpm_preferred_max c; cf_legacy_bpm_soft_min := cf_legacy_bpm_soft_min c;
  cf_legacy_bpm_soft_max := cf_legacy_bpm_soft_max c;
  cf_legacy_bpm_conf_mul_preferred := cf_legacy_bpm_conf_mul_preferred c;
  cf_legacy_bpm_conf_mul_soft := cf_legacy_bpm_conf_mul_soft c;
  cf_legacy_bpm_conf_mul_extreme := cf_legacy_bpm_conf_mul_extreme c; cf_min_bpm := cf_min_bpm c;
  cf_max_bpm := cf_max_bpm c; cf_bpm_resolution := cf_bpm_resolution c; cf_frame_size := cf_frame_size c;
  cf_hop_size := cf_hop_size c; cf_center_frequency := z2f 415; cf_soft_chroma_mapping := cf_soft_chroma_mapping c;
  cf_soft_mapping_sigma := cf_soft_mapping_sigma c; cf_chroma_sharpening_power := cf_chroma_sharpening_power c;
  cf_enable_key_spectrogram_time_smoothing := false;
  cf_key_spectrogram_smooth_margin := cf_key_spectrogram_smooth_margin c;
  cf_enable_key_frame_weighting := cf_enable_key_frame_weighting c; cf_key_min_tonalness := cf_key_min_tonalness c;
  cf_key_tonalness_power := cf_key_tonalness_power c; cf_key_energy_power := cf_key_energy_power c;
  cf_enable_key_harmonic_mask := cf_enable_key_harmonic_mask c;
  cf_key_harmonic_mask_power := cf_key_harmonic_mask_power c;
  cf_enable_key_hpss_harmonic := cf_enable_key_hpss_harmonic c; cf_key_hpss_frame_step := 0;
  cf_key_hpss_time_margin := cf_key_hpss_time_margin c; cf_key_hpss_freq_margin := cf_key_hpss_freq_margin c;
  cf_key_hpss_mask_power := cf_key_hpss_mask_power c; cf_enable_key_stft_override := cf_enable_key_stft_override c;
  cf_key_stft_frame_size := cf_key_stft_frame_size c; cf_key_stft_hop_size := cf_key_stft_hop_size c;
  cf_enable_key_log_frequency := cf_enable_key_log_frequency c;
  cf_enable_key_beat_synchronous := cf_enable_key_beat_synchronous c;
  cf_enable_key_multi_scale := cf_enable_key_multi_scale c; cf_key_template_set := cf_key_template_set c;
  cf_enable_key_ensemble := cf_enable_key_ensemble c; cf_key_ensemble_kk_weight := f0;
  cf_key_ensemble_temperley_weight := cf_key_ensemble_temperley_weight c; cf_enable_key_median := true;
  cf_key_median_segment_length_frames := 1; cf_key_median_segment_hop_frames := cf_key_median_segment_hop_frames c;
  cf_key_median_min_segments := cf_key_median_min_segments c; cf_key_multi_scale_lengths := [];
  cf_key_multi_scale_hop := cf_key_multi_scale_hop c;
  cf_key_multi_scale_min_clarity := cf_key_multi_scale_min_clarity c;
  cf_key_multi_scale_weights := cf_key_multi_scale_weights c;
  cf_enable_key_tuning_compensation := cf_enable_key_tuning_compensation c; cf_key_tuning_max_abs_semitones := fnan;
  cf_key_tuning_frame_step := cf_key_tuning_frame_step c;
  cf_key_tuning_peak_rel_threshold := cf_key_tuning_peak_rel_threshold c;
  cf_enable_key_edge_trim := cf_enable_key_edge_trim c; cf_key_edge_trim_fraction := f1;
  cf_enable_key_segment_voting := cf_enable_key_segment_voting c;
  cf_key_segment_len_frames := cf_key_segment_len_frames c; cf_key_segment_hop_frames := cf_key_segment_hop_frames c;
  cf_key_segment_min_clarity := cf_key_segment_min_clarity c;
  cf_enable_key_mode_heuristic := cf_enable_key_mode_heuristic c; cf_key_mode_third_ratio_margin := f1;
  cf_key_mode_flip_min_score_ratio := cf_key_mode_flip_min_score_ratio c; cf_enable_key_hpcp := cf_enable_key_hpcp c;
  cf_key_hpcp_peaks_per_frame := cf_key_hpcp_peaks_per_frame c;
  cf_key_hpcp_num_harmonics := cf_key_hpcp_num_harmonics c;
  cf_key_hpcp_harmonic_decay := cf_key_hpcp_harmonic_decay c; cf_key_hpcp_mag_power := cf_key_hpcp_mag_power c;
  cf_enable_key_hpcp_whitening := cf_enable_key_hpcp_whitening c;
  cf_key_hpcp_whitening_smooth_bins := cf_key_hpcp_whitening_smooth_bins c;
  cf_enable_key_hpcp_bass_blend := cf_enable_key_hpcp_bass_blend c;
  cf_key_hpcp_bass_fmin_hz := cf_key_hpcp_bass_fmin_hz c; cf_key_hpcp_bass_fmax_hz := cf_key_hpcp_bass_fmax_hz c;
  cf_key_hpcp_bass_weight := f1; cf_enable_key_minor_harmonic_bonus := cf_enable_key_minor_harmonic_bonus c;
  cf_key_minor_leading_tone_bonus_weight := cf_key_minor_leading_tone_bonus_weight c |}.
Example C72_case : same_settings default_config (retuned default_config)
  /\ B2SF (cf_key_tuning_max_abs_semitones (retuned default_config)) = SpecFloat.S754_nan
  /\ cf_enable_key_median (retuned default_config) <> cf_enable_key_median default_config.
Proof.
  split; [|split; [reflexivity|discriminate]].
  unfold same_settings, same_audio, same_onsets, same_legacy, same_tempo, same_bands, same_key_spec, same_chroma,
    same_detector. cbn [retuned default_config].
  repeat split; intros; try discriminate; try reflexivity.
Qed.
