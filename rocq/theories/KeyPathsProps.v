(** C71 (continued): the key detection stage cannot fail on ordinary audio, whichever of its paths the configuration selects. *)
From Coq Require Import ZArith Reals Lra Lia.
From Flocq Require Import Core BinarySingleNaN.
From Verif Require Import Rust F32 F32Facts F32More ListFacts Libm Bounds Autocorrelation Onsets Chroma ChromaProofs ChromaProps
  ChromaValueProofs NoveltyProofs KeyFeatures HarmonicMaskProofs HpcpProps TempogramProofs TempogramValueProofs TempoConfidenceProps TuningProps
  LogFrequencyProofs LogFrequencyProps KeyNotation KeyTemplates KeyDetector KeyDetectorProofs KeyScoresProofs KeyScalesProofs KeyScalesProps Config
  KeyStage KeyStageProofs KeyStageProps KeyPathsProofs KeyStageTotalProps Normalization NormalizationProps Confidence BeatGrid Pipeline PipelineProofs.
Local Open Scope nat_scope.

(** Bits of the magnitudes handed to the chroma extractor, if those of the STFT have k: the moving average over time adds p
    (its running sums cover up to 2^p frames) and the log-frequency spectrogram b (2^(b-1) linear bins). *)
Definition path_bits (c : analysis_config) (k p b : Z) : Z :=
  (mag_bits c k p + if cf_enable_key_log_frequency c then b else 0)%Z.

(** What is assumed of configuration, sizes and platform, feature by feature: a feature's assumptions are needed only when
    the feature is on. *)
Record key_ready (F : fft_oracle) (L : libm) (P : key_platform) (c : analysis_config) (rate : nat) (samples beats : list f32)
    (k p b j m q : Z) : Prop := {
  kr_fft : fft_upto F (key_fft_size c) k;
  kr_cos : cos_bounds L;
  kr_chroma : chroma_libm L;
  kr_bits : (2 <= k <= 50)%Z /\ (0 <= p <= 22)%Z /\ (0 <= b <= 24)%Z /\ (0 <= j)%Z /\ (0 <= m)%Z /\ (0 <= q <= 71)%Z;
  kr_frame : 2 <= cf_frame_size c /\ (Z.of_nat (key_fft_size c) <= 2 ^ 24)%Z /\ 0 < cf_hop_size c;
  kr_frames : (Z.of_nat (length samples / key_hop_size c + 1) <= 2 ^ p)%Z;
  kr_rate : (Z.of_nat rate < 2 ^ 32)%Z;
  kr_path : (path_bits c k p b <= 50)%Z;
  kr_hpss : cf_enable_key_hpss_harmonic c = true ->
    204 <= rate /\ forall x, upto k x -> upto 125 (m_powf L x (fmax (cf_key_hpss_mask_power c) f1));
  kr_mask : cf_enable_key_hpss_harmonic c = false -> cf_enable_key_harmonic_mask c = true ->
    forall x, upto (k + 26) x -> upto 125 (m_powf L x (fmax (cf_key_harmonic_mask_power c) f1));
  kr_log : cf_enable_key_log_frequency c = true ->
    204 <= rate /\ log2_mono L /\ (2 * Z.of_nat (key_fft_size c / 2 + 1) <= 2 ^ b)%Z;
  kr_tuning : cf_enable_key_tuning_compensation c = true -> 204 <= rate /\ tuning_libm L P /\
    nn (cf_key_tuning_peak_rel_threshold c) /\ nn (cf_key_tuning_max_abs_semitones c);
  kr_beats : cf_enable_key_beat_synchronous c = true -> (Z.of_nat (length beats) <= 2 ^ 22)%Z;
  kr_hpcp : cf_enable_key_hpcp c = true -> HpcpProps.select_ok P /\ hpcp_libm L P /\ (Z.of_nat (cf_key_hpcp_num_harmonics c) < 2 ^ 64)%Z /\
    nn (cf_key_hpcp_harmonic_decay c) /\ nn (cf_key_hpcp_mag_power c) /\
    (cf_enable_key_hpcp_bass_blend c = true -> nn (cf_key_hpcp_bass_weight c));
  kr_sharpen : fgt (cf_chroma_sharpening_power c) f1 = true -> forall x, in01 x -> in01 (m_powf L x (cf_chroma_sharpening_power c));
  kr_weighting : cf_enable_key_frame_weighting c = true -> (2 * path_bits c k p b + 25 + beat_bits c p <= 87)%Z /\ (j <= 70)%Z /\
    (j + 25 + m <= 125)%Z /\ key_ln L /\
    (forall x, in01 x -> in01 (m_powf L x (fmax (cf_key_tonalness_power c) f0))) /\
    (forall x, fin x -> nneg x -> upto j (m_powf L x (fmax (cf_key_energy_power c) f0)));
  kr_minor : (m <= 100)%Z /\ within m (cf_key_minor_leading_tone_bonus_weight c) /\
    (cf_enable_key_minor_harmonic_bonus c = true ->
      ((if cf_enable_key_frame_weighting c then j else 0) + 25 + m + q + 2 <= 76)%Z);
  kr_scales : Forall (within q) (cf_key_multi_scale_weights c) /\ (Z.of_nat (cf_key_multi_scale_hop c) < 2 ^ 63)%Z;
  kr_ensemble : nneg (cf_key_ensemble_kk_weight c) /\ nneg (cf_key_ensemble_temperley_weight c) /\
    fin (fadd (cf_key_ensemble_kk_weight c) (cf_key_ensemble_temperley_weight c))
}.

(** On audio within [-1, 1] the stage always reports a key, with confidence and clarity in [0, 1]: no combination of the
    paths panics, and no error leaves the stage. *)
Theorem C71_paths_total : forall F L P O c rate samples shared beats k p b j m q,
  key_ready F L P c rate samples beats k p b j m q ->
  honest (ko_kk O) -> honest (ko_te O) -> honest (ko_track O) -> (forall s, honest (ko_segment O s)) ->
  (forall i s, honest (ko_scale O i s)) ->
  Forall (fun x => fle (fabs x) f1 = true) samples ->
  compute_stft F L samples (cf_frame_size c) (cf_hop_size c) = Ok shared ->
  exists ky conf cl, key_stage F L P O c rate samples shared beats = Ok (ky, conf, cl) /\ in01 conf /\ in01 cl.
Proof.
  intros F L P O c rate samples shared beats k p b j m q G H1 H2 H3 H4 H5 HS Sh.
  destruct (kr_bits _ _ _ _ _ _ _ _ _ _ _ _ _ G) as (Bk & Bp & Bb & Bj & Bm & Bq).
  destruct (kr_frame _ _ _ _ _ _ _ _ _ _ _ _ _ G) as (S1 & S2 & S3).
  pose proof (kr_frames _ _ _ _ _ _ _ _ _ _ _ _ _ G) as S4. pose proof (kr_rate _ _ _ _ _ _ _ _ _ _ _ _ _ G) as S5.
  pose proof (kr_path _ _ _ _ _ _ _ _ _ _ _ _ _ G) as S6. pose proof (kr_chroma _ _ _ _ _ _ _ _ _ _ _ _ _ G) as HL.
  assert (P22 : (2 ^ p <= 2 ^ 22)%Z) by (apply Z.pow_le_mono_r; lia).
  unfold key_stage. destruct (cf_frame_size c <=? length samples); [|exists (Major 0), f0, f0; split; [reflexivity|split; apply in01_0]].
  destruct (key_spec_bits F L c samples shared k (kr_fft _ _ _ _ _ _ _ _ _ _ _ _ _ G) (kr_cos _ _ _ _ _ _ _ _ _ _ _ _ _ G) ltac:(lia) S1 S2 S3 HS Sh)
    as (ks & E1 & T1 & N1). rewrite E1. cbn [obind].
  assert (Pf : 0 < key_fft_size c) by (unfold key_fft_size; destruct (cf_enable_key_stft_override c); lia).
  assert (Nk : (Z.of_nat (length ks) <= 2 ^ p)%Z).
  { assert (0 < 2 ^ p)%Z by (apply Z.pow_pos_nonneg; lia). lia. }
  set (nb := key_fft_size c / 2 + 1) in *. assert (Pn : 0 < nb) by (unfold nb; lia).
  assert (Bn : (Z.of_nat nb < 2 ^ 64)%Z).
  { unfold nb. pose proof (Nat.div_le_upper_bound (key_fft_size c) 2 (key_fft_size c) ltac:(lia) ltac:(lia)). lia. }
  set (M := mag_bits c k p). assert (BM : (0 <= M)%Z) by (unfold M, mag_bits; destruct (smoothed c); lia).
  assert (BM2 : (M <= path_bits c k p b)%Z) by (unfold path_bits; fold M; destruct (cf_enable_key_log_frequency c); lia).
  destruct (condition_bits L c rate ks nb k p ltac:(lia) Bp ltac:(fold M; lia) Pn T1 Nk S5 Pf (kr_hpss _ _ _ _ _ _ _ _ _ _ _ _ _ G)
    (kr_mask _ _ _ _ _ _ _ _ _ _ _ _ _ G)) as (spec & E2 & N2 & T2). fold M in T2. rewrite E2. cbn [obind].
  (* the log-frequency spectrogram, the tuning offset and the chroma vectors *)
  assert (X : exists lg t cs es, log_spec L c rate spec = Ok lg /\
    tuning_offset L P c rate spec (match lg with Some _ => true | None => false end) = Ok t /\
    chroma_call L P c rate beats spec lg t = Ok (cs, es) /\ (Z.of_nat (length cs) <= 2 ^ 22)%Z /\ chroma_ok cs /\
    (cf_enable_key_frame_weighting c = true -> Forall (upto 87) es)).
  { assert (Tu : forall lg, exists t, tuning_offset L P c rate spec lg = Ok t /\ within 13 t).
    { intros lg. apply (tuning_bits L P c rate spec nb M lg HL S5 Pf ltac:(lia) ltac:(lia) Pn Bn T2 (kr_tuning _ _ _ _ _ _ _ _ _ _ _ _ _ G)). }
    assert (None_ : log_spec L c rate spec = Ok None -> exists lg t cs es, log_spec L c rate spec = Ok lg /\
      tuning_offset L P c rate spec (match lg with Some _ => true | None => false end) = Ok t /\
      chroma_call L P c rate beats spec lg t = Ok (cs, es) /\ (Z.of_nat (length cs) <= 2 ^ 22)%Z /\ chroma_ok cs /\
      (cf_enable_key_frame_weighting c = true -> Forall (upto 87) es)).
    { intros El. destruct (Tu false) as (t & Et & Wt).
      destruct (chroma_linear L P c rate beats spec nb M p t HL S5 Pf ltac:(lia) ltac:(lia) Bp Pn Bn T2 ltac:(lia) Wt
        (kr_beats _ _ _ _ _ _ _ _ _ _ _ _ _ G)) as (cs & es & Ec & Nc & Tc & Te).
      - intros Q. destruct (kr_weighting _ _ _ _ _ _ _ _ _ _ _ _ _ G Q) as (Q1 & _). lia.
      - exact (kr_hpcp _ _ _ _ _ _ _ _ _ _ _ _ _ G).
      - exists None, t, cs, es. auto 8. }
    destruct (cf_enable_key_log_frequency c) eqn:Lq; [|apply None_; unfold log_spec; rewrite Lq; reflexivity].
    destruct spec as [|s0 spec'] eqn:Es; [apply None_; unfold log_spec; rewrite andb_false_r; reflexivity|].
    rewrite <- Es in *. assert (Ne : spec <> []) by (rewrite Es; discriminate). clear s0 spec' Es None_.
    destruct (kr_log _ _ _ _ _ _ _ _ _ _ _ _ _ G Lq) as (R2 & HM & Hb).
    unfold path_bits in S6, BM2. rewrite Lq in S6, BM2. fold M in S6, BM2.
    destruct (log_path L c rate spec nb M b HL HM Lq R2 S5 Pf ltac:(lia) ltac:(lia) Bb Hb Ne T2)
      as (s & first & n & E & _ & _ & F1 & F2 & F3 & Ls & Us).
    destruct (Tu true) as (t & Et & _).
    destruct (chroma_log L P c rate beats spec s first n (M + b) t ltac:(lia) Us ltac:(lia) F1 F2 F3) as (cs & es & Ec & Nc & Tc & Te).
    - intros Q. destruct (kr_weighting _ _ _ _ _ _ _ _ _ _ _ _ _ G Q) as (Q1 & _). unfold path_bits, beat_bits in Q1. rewrite Lq in Q1. fold M in Q1.
      destruct (cf_enable_key_beat_synchronous c); lia.
    - exists (Some (s, first)), t, cs, es. auto 8. }
  destruct X as (lg & t & cs & es & E3 & E4 & E5 & N3 & T3 & T4). rewrite E3. cbn [obind]. rewrite E4. cbn [obind]. rewrite E5.
  destruct (refine_bits L c cs N3 T3 (kr_sharpen _ _ _ _ _ _ _ _ _ _ _ _ _ G)) as (cs1 & E6 & N5 & T5). rewrite E6. cbn [obind].
  assert (X : exists cs' es', trim_edges (trim_range c (length cs1) (length es)) cs1 = Ok cs' /\
    trim_edges (trim_range c (length cs1) (length es)) es = Ok es' /\ chroma_ok cs' /\
    (cf_enable_key_frame_weighting c = true -> Forall (upto 87) es') /\ length cs' <= length cs1).
  { destruct (C71_trim c cs1 es) as [(A & B & _)|(_ & _ & _ & u & v & pre & mid & post & pre' & mid' & post' & A & B & _ & _ & Lm & _ & Ab & C & D & _)].
    - exists cs1, es. auto 6.
    - exists mid, mid'. split; [exact C|]. split; [exact D|]. rewrite A in T5. rewrite B in T4.
      apply Forall_app in T5 as (_ & T5). apply Forall_app in T5 as (T5 & _). split; [exact T5|]. split; [|lia]. intros Q. specialize (T4 Q).
      apply Forall_app in T4 as (_ & T4). apply Forall_app in T4 as (T4 & _). exact T4. }
  destruct X as (cs' & es' & E7 & E8 & T6 & T7 & N6). rewrite E7. cbn [obind]. rewrite E8. cbn [obind].
  destruct (kr_minor _ _ _ _ _ _ _ _ _ _ _ _ _ G) as (M1 & M2 & M3). destruct (kr_scales _ _ _ _ _ _ _ _ _ _ _ _ _ G) as (C1 & C2).
  destruct (kr_ensemble _ _ _ _ _ _ _ _ _ _ _ _ _ G) as (D1 & D2 & D3).
  set (jj := if cf_enable_key_frame_weighting c then j else 0%Z) in *.
  assert (Bjj : (0 <= jj <= 70)%Z /\ (jj + 25 + m <= 125)%Z).
  { unfold jj. destruct (cf_enable_key_frame_weighting c) eqn:Q; [|lia]. destruct (kr_weighting _ _ _ _ _ _ _ _ _ _ _ _ _ G Q) as (_ & Q1 & Q2 & _). lia. }
  assert (W : match frame_weights L c cs' es' with
    | None => True | Some ws => length ws = length cs' /\ Forall (fun x => nneg x /\ within jj x) ws end).
  { unfold jj. destruct (cf_enable_key_frame_weighting c) eqn:Q.
    - destruct (kr_weighting _ _ _ _ _ _ _ _ _ _ _ _ _ G Q) as (_ & Q1 & _ & Q3 & Q4 & Q5). apply weights_tame; auto; [split; [exact Q4|exact Q5]|lia].
    - unfold frame_weights. rewrite Q. exact I. }
  apply (C71_call_total O c cs' _ 0 jj 22 m q); auto; try lia.
  - intros Q. specialize (M3 Q). lia.
  - unfold usize_max. lia.
  - eapply Forall_impl; [|exact T6]. intros ch (A & B). split; [exact A|]. eapply Forall_impl; [|exact B].
    intros x Ix. split; [apply Ix|now apply in01_within].
Qed.
Print Assumptions C71_paths_total.

(** Consequence for complete analyses of peak-normalised audio (or audio already within [-1, 1]). *)
Theorem C71_paths_analysis : forall P fuel samples rate c r k p b j m q,
  key_ready (pf_fft P) (pf_libm P) (pf_key P) c rate samples (g_beats (fr_grid r)) k p b j m q ->
  honest (ko_kk (pf_orders P)) -> honest (ko_te (pf_orders P)) -> honest (ko_track (pf_orders P)) ->
  (forall s, honest (ko_segment (pf_orders P) s)) -> (forall i s, honest (ko_scale (pf_orders P) i s)) ->
  (cf_enable_normalization c = false /\ Forall (fun x => fle (fabs x) f1 = true) samples \/
   cf_enable_normalization c = true /\ cf_normalization c = NPeak /\ powf_ok (pf_libm P) /\ audio_ok samples) ->
  analyze_audio P fuel samples rate c = Some (Ok r) ->
  in01 (ar_key_confidence (fr_core r)) /\ in01 (ar_key_clarity (fr_core r)).
Proof.
  intros P fuel samples rate c r k p b j m q G H1 H2 H3 H4 H5 HN H.
  apply analyze_stages in H as (tr & en & sp & o & l & _ & _ & Hp & _ & Hs & _ & _ & _ & _ & _ & Hk & _).
  destruct (preprocess_bounded _ _ _ _ _ HN Hp) as (B & Lt).
  assert (G' : key_ready (pf_fft P) (pf_libm P) (pf_key P) c rate tr (g_beats (fr_grid r)) k p b j m q).
  { destruct G. constructor; auto.
    assert (length tr / key_hop_size c <= length samples / key_hop_size c) by (apply Nat.div_le_mono; [|exact Lt];
      unfold key_hop_size; destruct (cf_enable_key_stft_override c); lia). lia. }
  destruct (C71_paths_total _ _ _ _ c rate tr sp (g_beats (fr_grid r)) k p b j m q G' H1 H2 H3 H4 H5 B Hs) as (ky & conf & cl & E & I1 & I2).
  rewrite E in Hk. assert (ar_key_confidence (fr_core r) = conf) by congruence. assert (ar_key_clarity (fr_core r) = cl) by congruence.
  subst. split; [exact I1|exact I2].
Qed.
Print Assumptions C71_paths_analysis.

(** Configurations that keep the default numbers of the key stage; the switches, the templates and everything not listed
    here are free. *)
Definition default_numbers (c : analysis_config) : Prop :=
  let d := default_config in
  cf_frame_size c = cf_frame_size d /\ cf_hop_size c = cf_hop_size d /\
  cf_key_stft_frame_size c = cf_key_stft_frame_size d /\ cf_key_stft_hop_size c = cf_key_stft_hop_size d /\
  cf_key_hpss_mask_power c = cf_key_hpss_mask_power d /\ cf_key_harmonic_mask_power c = cf_key_harmonic_mask_power d /\
  cf_key_tuning_peak_rel_threshold c = cf_key_tuning_peak_rel_threshold d /\
  cf_key_tuning_max_abs_semitones c = cf_key_tuning_max_abs_semitones d /\
  cf_key_hpcp_num_harmonics c = cf_key_hpcp_num_harmonics d /\ cf_key_hpcp_harmonic_decay c = cf_key_hpcp_harmonic_decay d /\
  cf_key_hpcp_mag_power c = cf_key_hpcp_mag_power d /\ cf_key_hpcp_bass_weight c = cf_key_hpcp_bass_weight d /\
  cf_chroma_sharpening_power c = cf_chroma_sharpening_power d /\ cf_key_tonalness_power c = cf_key_tonalness_power d /\
  cf_key_energy_power c = cf_key_energy_power d /\
  cf_key_minor_leading_tone_bonus_weight c = cf_key_minor_leading_tone_bonus_weight d /\
  cf_key_multi_scale_weights c = cf_key_multi_scale_weights d /\ cf_key_multi_scale_hop c = cf_key_multi_scale_hop d /\
  cf_key_ensemble_kk_weight c = cf_key_ensemble_kk_weight d /\
  cf_key_ensemble_temperley_weight c = cf_key_ensemble_temperley_weight d.

(** What the numbers and the switches require of the platform's functions. *)
Definition key_math (F : fft_oracle) (L : libm) (P : key_platform) : Prop :=
  fft_upto F 2048 16 /\ fft_upto F (64 * 128) 16 /\ cos_bounds L /\ chroma_libm L /\ HpcpProps.select_ok P /\ hpcp_libm L P /\ tuning_libm L P /\
  log2_mono L /\ key_ln L /\
  (forall x, upto 42 x -> upto 125 (m_powf L x f2)) /\ (forall x, in01 x -> in01 (m_powf L x f2)) /\
  (forall x, fin x -> nneg x -> upto 64 (m_powf L x fhalf)).

(** Up to 2^24 - 512 samples (six minutes at 44.1 kHz) every combination of the switches is covered, except frame weighting
    together with the minor bonus, or with the moving average over time and one of the log-frequency and beat-synchronous
    paths. *)
Theorem C71_variants : forall F L P c rate samples beats, default_numbers c -> key_math F L P ->
  204 <= rate -> (Z.of_nat rate < 2 ^ 32)%Z -> (Z.of_nat (length samples) < 2 ^ 24 - 512)%Z ->
  (cf_enable_key_beat_synchronous c = true -> (Z.of_nat (length beats) <= 2 ^ 22)%Z) ->
  (cf_enable_key_frame_weighting c = true -> cf_enable_key_minor_harmonic_bonus c = false /\
    (cf_enable_key_spectrogram_time_smoothing c = false \/ cf_enable_key_hpss_harmonic c = true \/ cf_enable_key_harmonic_mask c = true \/
     cf_enable_key_log_frequency c = false /\ cf_enable_key_beat_synchronous c = false) /\
    (cf_enable_key_log_frequency c = false \/ cf_enable_key_beat_synchronous c = false)) ->
  key_ready F L P c rate samples beats 16 15 14 64 0 0.
Proof.
  intros F L P c rate samples beats D (M1 & M2 & M3 & M4 & M5 & M6 & M7 & M8 & M9 & M10 & M11 & M12) R R2 N Hb Hw.
  unfold default_numbers in D. cbv zeta in D.
  cbn [default_config cf_frame_size cf_hop_size cf_key_stft_frame_size cf_key_stft_hop_size cf_key_hpss_mask_power cf_key_harmonic_mask_power
    cf_key_tuning_peak_rel_threshold cf_key_tuning_max_abs_semitones cf_key_hpcp_num_harmonics cf_key_hpcp_harmonic_decay cf_key_hpcp_mag_power
    cf_key_hpcp_bass_weight cf_chroma_sharpening_power cf_key_tonalness_power cf_key_energy_power cf_key_minor_leading_tone_bonus_weight
    cf_key_multi_scale_weights cf_key_multi_scale_hop cf_key_ensemble_kk_weight cf_key_ensemble_temperley_weight] in D.
  destruct D as (D1 & D2 & D3 & D4 & D5 & D6 & D7 & D8 & D9 & D10 & D11 & D12 & D13 & D14 & D15 & D16 & D17 & D18 & D19 & D20).
  assert (Q1 : fmax (z2f 2) f1 = f2) by (apply B2SF_inj; vm_compute; reflexivity).
  assert (Q2 : fmax (z2f 2) f0 = f2) by (apply B2SF_inj; vm_compute; reflexivity).
  assert (Q3 : fmax (lit 1 (-1)) f0 = fhalf) by (apply B2SF_inj; vm_compute; reflexivity).
  assert (Hop : key_hop_size c = 512) by (unfold key_hop_size; rewrite D2, D4; destruct (cf_enable_key_stft_override c); reflexivity).
  assert (Fft : key_fft_size c = 2048 \/ key_fft_size c = 64 * 128)
    by (unfold key_fft_size; rewrite D1, D3; destruct (cf_enable_key_stft_override c); auto).
  constructor.
  - destruct Fft as [-> | ->]; assumption.
  - exact M3.
  - exact M4.
  - lia.
  - rewrite D1, D2. split; [lia|]. split; [destruct Fft as [-> | ->]; lia|lia].
  - rewrite Hop. rewrite Nat2Z.inj_add, Nat2Z.inj_div. change (Z.of_nat 512) with 512%Z. change (Z.of_nat 1) with 1%Z.
    assert (Z.of_nat (length samples) / 512 < 2 ^ 15 - 1)%Z by (apply Z.div_lt_upper_bound; lia). lia.
  - exact R2.
  - unfold path_bits, mag_bits. destruct (smoothed c), (cf_enable_key_log_frequency c); lia.
  - intros _. split; [exact R|]. rewrite D5, Q1. intros x U. apply M10. now apply (upto_mono 16).
  - intros _ _ x U. rewrite D6, Q1. exact (M10 x U).
  - intros _. split; [exact R|]. split; [exact M8|]. destruct Fft as [-> | ->]; vm_compute; discriminate.
  - intros _. split; [exact R|]. split; [exact M7|]. rewrite D7, D8. split; reflexivity.
  - exact Hb.
  - intros _. split; [exact M5|]. split; [exact M6|]. rewrite D9, D10, D11, D12. split; [lia|]. split; [reflexivity|]. split; [reflexivity|]. reflexivity.
  - rewrite D13. discriminate.
  - intros W. destruct (Hw W) as (_ & W1 & W2). rewrite D14, D15, Q2, Q3. split; [|split; [lia|split; [lia|split; [exact M9|split; [exact M11|exact M12]]]]].
    unfold path_bits, mag_bits, beat_bits, smoothed.
    destruct (cf_enable_key_spectrogram_time_smoothing c), (cf_enable_key_hpss_harmonic c), (cf_enable_key_harmonic_mask c),
      (cf_enable_key_log_frequency c), (cf_enable_key_beat_synchronous c); cbn; try lia; exfalso; intuition congruence.
  - split; [lia|]. rewrite D16. split; [apply in01_within; split; reflexivity|]. intros Mi.
    destruct (cf_enable_key_frame_weighting c); [destruct (Hw eq_refl); congruence|lia].
  - rewrite D17, D18. split; [constructor|lia].
  - rewrite D19, D20. split; [reflexivity|]. split; [reflexivity|]. reflexivity.
Qed.
Print Assumptions C71_variants.

(** The assumptions can be met, and the default configuration is one of those covered. *)
Definition calm : libm := {| m_powf := fun x _ => if fgt x f0 then f1 else f0; m_log10 := fun _ => f0; m_log2 := fun _ => lit 1 (-3);
  m_ln := fun x => if fle x f1 then f0 else f2; m_exp := fun _ => f1; m_sin := fun _ => f0; m_cos := fun _ => f0 |}.
Example C71_case : key_math id_fft calm by_sorting /\ default_numbers default_config.
Proof.
  split; [|unfold default_numbers; repeat split].
  assert (W : forall k (b : bool), (0 <= k)%Z -> upto k (if b then f1 else f0)).
  { intros k b Hk. apply (upto_mono 0); [exact Hk|]. apply in01_upto. destruct b; split; reflexivity. }
  assert (Ft : forall n, fft_upto id_fft n 16).
  { intros n l _ H. eapply Forall_impl; [|exact H]. intros z (A & B). split; (eapply fle_trans; [eassumption|reflexivity]). }
  split; [apply Ft|]. split; [apply Ft|]. split; [intros x _; reflexivity|].
  split. { pose proof ex_toy as (A & B & C & D). split; [exact A|]. split; [exact B|]. split; [exact C|exact D]. }
  split; [exact ex_select|]. split. { split; [intros k x p Hk _ _ _; apply W; lia|]. intros d [|n] Hd; [split; reflexivity|exact Hd]. }
  split. { split; [intros x _; apply W; lia|]. split; [intros x _; split; apply within_0|]. intros y x _ _. split; reflexivity. }
  split; [intros x y _ _ _; reflexivity|].
  split. { split; [|split; [reflexivity|split; reflexivity]]. intros p _ H. cbn [m_ln calm]. rewrite H. apply within_0. }
  split; [intros x _; apply W; lia|]. split; [intros x _; apply in01_upto, W; lia|]. intros x _ _. apply W; lia.
Qed.

(** The semitone number handed to the octave folding along with the log-frequency spectrogram is that of its first bin: the
    semitone at or below 100 Hz (see C66_content, where the bins are counted from it). *)
Theorem C66_stage : forall L c rate spec lg, chroma_libm L -> log_spec L c rate spec = Ok lg ->
  match lg with
  | Some (s, first) => cf_enable_key_log_frequency c = true /\ spec <> [] /\
      log_frequency L rate (key_fft_size c) (z2f 100) (z2f 5000) spec = Ok s /\
      first = Zfloor (B2R (fadd (fmul (z2f 12) (m_log2 L (fdiv (z2f 100) (z2f 440)))) (z2f 57)))
  | None => cf_enable_key_log_frequency c = false \/ spec = [] \/
      exists e, log_frequency L rate (key_fft_size c) (z2f 100) (z2f 5000) spec = Err e
  end.
Proof.
  intros L c rate spec lg HL H. unfold log_spec in H.
  destruct (cf_enable_key_log_frequency c); [|injection H as <-; now left]. 
  destruct (Nat.eqb_spec (length spec) 0) as [Q|Q]; [injection H as <-; right; left; now apply length_zero_iff_nil|]. cbn [negb andb] in H.
  destruct (log_frequency _ _ _ _ _ _) as [s|e|]; [|injection H as <-; right; right; now exists e|discriminate]. injection H as <-.
  split; [reflexivity|]. split; [intros ->; now apply Q|]. split; [reflexivity|].
  assert (W : within 13 (st L (z2f 100))).
  { apply (st_within L HL); [vm_compute; reflexivity|]. apply within_abs; [lia|vm_compute; reflexivity]. }
  change a4 with (z2f 440). exact (proj1 (within_Z 13 _ ltac:(lia) W)).
Qed.
Print Assumptions C66_stage.
