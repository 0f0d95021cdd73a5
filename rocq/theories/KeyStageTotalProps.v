(** C71 (continued): the whole key detection stage cannot fail on ordinary audio. *)
From Coq Require Import ZArith Reals Lra Lia Sorted Permutation.
From Flocq Require Import Core.
From Verif Require Import Rust F32 F32Facts F32More ListFacts Libm Sorting SortingFacts Bounds KeyNotation KeyTemplates KeyDetector
  KeyDetectorProofs KeyBoundsProofs KeyDetectorProps Autocorrelation Onsets Chroma ChromaProofs ChromaProps ChromaValueProofs NoveltyProofs
  KeyFeatures HarmonicMaskProofs HarmonicMaskProps HpcpProps SmoothingProofs SmoothingProps TempogramProofs TempogramValueProofs
  TempoConfidenceProps KeyVariantsProofs KeyScoresProofs KeyVariantsProps
  KeyScalesProofs KeyScalesProps Config KeyStage KeyStageProofs KeyStageProps Normalization NormalizationProps Confidence BeatGrid Pipeline PipelineProofs.

Lemma stft_upto : forall F L samples frame hop, fft_sane F -> cos_bounds L -> 2 <= frame -> (Z.of_nat frame <= 2 ^ 24)%Z ->
  0 < hop -> Forall (fun x => fle (fabs x) f1 = true) samples ->
  exists s, compute_stft F L samples frame hop = Ok s /\ length s <= Nat.max 1 (length samples / hop + 1) /\
    Forall (fun f => length f = frame / 2 + 1 /\ Forall (upto 31) f) s.
Proof.
  intros F L samples frame hop HF HC Hf Hm Hh HS.
  destruct (C41_shape F L samples frame hop ltac:(lia) Hh) as (s & E & Ls & Sh). exists s. split; [exact E|]. split.
  { rewrite Ls. destruct (Nat.ltb_spec (length samples) frame); [lia|].
    assert ((length samples - frame) / hop <= length samples / hop) by (apply Nat.div_le_mono; lia). lia. }
  destruct (Nat.le_gt_cases frame (length samples)) as [Ln|Ln].
  2:{ unfold compute_stft in E. apply Nat.ltb_lt in Ln. rewrite Ln in E. injection E as <-. constructor. }
  clear Ls. rewrite stft_ok in E by lia. injection E as <-. apply Forall_forall. intros f If.
  split; [exact (proj1 (proj1 (Forall_forall _ _) Sh f If))|]. apply in_map_iff in If as (j & <- & _). clear Sh. apply Forall_map.
  assert (W : Forall (fun z => fle (fabs (fst z)) (lit 1 30) = true /\ fle (fabs (snd z)) (lit 1 30) = true)
     (fft_forward F (windowed L samples frame (j * hop)))).
  { apply HF; [unfold windowed; rewrite map_length, seq_length; lia|].
    apply Forall_map, Forall_forall. intros i I. apply in_seq in I. cbn [fst snd]. split; [|reflexivity].
    apply within_abs1. apply within_mono with (0 + 0)%Z; [lia|]. apply within_mul; [lia| |].
    - destruct (Nat.lt_ge_cases (j * hop + i) (length samples)) as [Q|Q].
      + rewrite Forall_forall in HS. apply within_abs0, HS, nth_In, Q.
      + rewrite nth_overflow by lia. apply within_0.
    - pose proof (hann_within L frame i HC ltac:(lia) Hm) as Hw. unfold TempoSpectra.hann in Hw.
      destruct (Nat.ltb_spec 1 frame); [exact Hw|lia]. }
  apply Forall_forall. intros z Iz. assert (Iz' : In z (fft_forward F (windowed L samples frame (j * hop))))
    by (rewrite <- (firstn_skipn (frame / 2 + 1)); apply in_or_app; now left).
  rewrite Forall_forall in W. destruct (W z Iz') as (A & B). apply within_abs in A, B; try lia.
  pose proof (square_upto 30 _ ltac:(lia) A) as SA. pose proof (square_upto 30 _ ltac:(lia) B) as SB.
  pose proof (upto_add 60 _ _ ltac:(lia) SA SB) as SS.
  exact (upto_sqrt 31 _ ltac:(lia) (upto_mono (60 + 1) (2 * 31) _ ltac:(lia) SS)).
Qed.

(** Frames of [nb] magnitudes up to 2^31. *)
Definition tame_spec (nb : nat) (s : list (list f32)) : Prop := Forall (fun f => length f = nb /\ Forall (upto 31) f) s.

Lemma key_spec_tame : forall F L c samples shared, fft_sane F -> cos_bounds L ->
  2 <= cf_frame_size c -> (Z.of_nat (key_fft_size c) <= 2 ^ 24)%Z -> 0 < cf_hop_size c ->
  Forall (fun x => fle (fabs x) f1 = true) samples ->
  compute_stft F L samples (cf_frame_size c) (cf_hop_size c) = Ok shared ->
  exists s, key_spec F L c samples shared = Ok s /\ tame_spec (key_fft_size c / 2 + 1) s /\
    length s <= Nat.max 1 (length samples / key_hop_size c + 1).
Proof.
  intros F L c samples shared HF HC Fs Fm Hs S Sh. unfold key_spec, key_fft_size, key_hop_size in *.
  destruct (cf_enable_key_stft_override c).
  - destruct (stft_upto F L samples (Nat.max (cf_key_stft_frame_size c) 256) (Nat.max (cf_key_stft_hop_size c) 1) HF HC) as (s & E & L1 & T);
      [lia|exact Fm|lia|exact S|]. rewrite E. exists s. split; [reflexivity|]. split; [exact T|exact L1].
  - destruct (stft_upto F L samples (cf_frame_size c) (cf_hop_size c) HF HC) as (s & E & L1 & T); [lia|exact Fm|lia|exact S|].
    assert (s = shared) by congruence. subst s. exists shared. split; [reflexivity|]. split; [exact T|exact L1].
Qed.

(** Conditioning by the soft mask, or none. *)
Lemma condition_tame : forall L c rate spec nb, 0 < nb -> tame_spec nb spec -> (Z.of_nat (length spec) <= 2 ^ 22)%Z ->
  cf_enable_key_hpss_harmonic c = false ->
  (cf_enable_key_harmonic_mask c = true /\ (forall x, upto 57 x -> upto 125 (m_powf L x (fmax (cf_key_harmonic_mask_power c) f1))) \/
   cf_enable_key_harmonic_mask c = false /\ cf_enable_key_spectrogram_time_smoothing c = false) ->
  exists r, condition_spec L c rate spec = Ok r /\ tame_spec nb r /\ length r = length spec.
Proof.
  intros L c rate spec nb P T Len Hh Hm. unfold condition_spec. destruct (length spec =? 0) eqn:Z; [exists spec; auto|].
  apply Nat.eqb_neq in Z. assert (Ne : spec <> []) by (intros ->; now apply Z).
  rewrite Hh. destruct Hm as [(-> & Hp)|(-> & ->)]; [|exists spec; auto].
  assert (S : Forall (fun f => length f = nb) spec) by (eapply Forall_impl; [|exact T]; cbv beta; tauto).
  assert (U : Forall (Forall (upto 31)) spec) by (eapply Forall_impl; [|exact T]; cbv beta; tauto).
  destruct (C63_time_mask 31 L spec nb (cf_key_spectrogram_smooth_margin c) (cf_key_harmonic_mask_power c) ltac:(lia) Ne P S Len U Hp)
    as (r & s & E & _ & Lr & Sr & V).
  rewrite E. exists r. split; [reflexivity|]. split; [|exact Lr]. apply Forall_forall. intros f If.
  assert (Lf : length f = nb) by exact (proj1 (Forall_forall _ _) Sr f If). split; [exact Lf|].
  apply (In_nth _ _ []) in If as (t & Ht & <-). apply Forall_forall. intros y Iy. apply (In_nth _ _ f0) in Iy as (b & Hb & <-).
  rewrite Lf in Hb. rewrite Lr in Ht. destruct (V t b Ht Hb) as (V0 & V1 & _). eapply upto_le; [exact V0|exact V1|].
  assert (It : In (nth t spec []) spec) by (now apply nth_In). pose proof (proj1 (Forall_forall _ _) S _ It) as Lt. cbv beta in Lt.
  apply (proj1 (Forall_forall _ _) (proj1 (Forall_forall _ _) U _ It)), nth_In. now rewrite Lt.
Qed.

Lemma energy_upto : forall f, Forall (upto 31) f -> upto 87 (frame_energy f).
Proof.
  intros f H. unfold frame_energy. apply (upto_sum 62); [lia|]. apply Forall_map. eapply Forall_impl; [|exact H].
  intros x U. apply (square_upto 31); [lia|now apply upto_within].
Qed.

(** Harmonic pitch class profiles, with or without the bass blend. *)
Lemma chroma_tame : forall L P c rate beats spec nb, HpcpProps.select_ok P -> chroma_libm L -> hpcp_libm L P ->
  (Z.of_nat rate < 2 ^ 32)%Z -> (Z.of_nat (key_fft_size c) < 2 ^ 64)%Z -> (Z.of_nat (cf_key_hpcp_num_harmonics c) < 2 ^ 64)%Z ->
  nn (cf_key_hpcp_harmonic_decay c) -> nn (cf_key_hpcp_mag_power c) -> nn (cf_key_hpcp_bass_weight c) ->
  cf_enable_key_beat_synchronous c = false -> cf_enable_key_hpcp c = true ->
  0 < nb -> (Z.of_nat nb < 2 ^ 64)%Z -> tame_spec nb spec ->
  exists cs es, chroma_call L P c rate beats spec None f0 = Ok (cs, es) /\ length cs = length spec /\ length es = length spec /\
    Forall (fun ch => length ch = 12 /\ Forall in01 ch) cs /\ Forall (upto 87) es.
Proof.
  intros L P c rate beats spec nb HP HL HH R1 F1 Nh Nd Np Nw Hb Hc Pn Bn T. unfold chroma_call. rewrite Hb, Hc. cbn [andb].
  assert (T50 : Forall (fun f => length f = nb /\ Forall (within 50) f) spec).
  { eapply Forall_impl; [|exact T]. intros f (A & B). split; [exact A|]. eapply Forall_impl; [|exact B].
    intros x U. apply (within_mono 31); [lia|now apply upto_within]. }
  assert (En : Forall (upto 87) (map (fun f => fold_left fadd (map (fun x => fmul x x) f) f0) spec)).
  { apply Forall_map. eapply Forall_impl; [|exact T]. intros f (_ & B). exact (energy_upto f B). }
  assert (W0 : within 13 (hp_tuning (hpcp_config c f0))) by apply within_0.
  destruct spec as [|s0 spec'] eqn:Es.
  { exists [], []. destruct (cf_enable_key_hpcp_bass_blend c); (split; [reflexivity|repeat split; constructor]). }
  rewrite <- Es in *. assert (Ne : spec <> []) by (rewrite Es; discriminate). clear s0 spec' Es.
  destruct (cf_enable_key_hpcp_bass_blend c).
  - destruct (C65_bass L P (hpcp_config c f0) rate (key_fft_size c) (cf_key_hpcp_bass_fmin_hz c) (cf_key_hpcp_bass_fmax_hz c)
      (cf_key_hpcp_bass_weight c) spec HP HL HH R1 F1 Nh W0 Nd Np Nw) as (_ & _ & X).
    destruct (X nb Pn Bn Ne T50) as (pcs & E & Lp & Fp & _). rewrite E. exists pcs. eexists. split; [reflexivity|].
    split; [exact Lp|]. split; [apply map_length|]. split; [exact Fp|exact En].
  - destruct (C65_extract L P (hpcp_config c f0) rate (key_fft_size c) spec HP HL HH R1 F1 Nh W0 Nd Np) as (_ & _ & X).
    destruct (X nb Pn Bn Ne T50) as (pcs & E & Lp & Fp & _). rewrite E. exists pcs. eexists. split; [reflexivity|].
    split; [exact Lp|]. split; [apply map_length|]. split; [exact Fp|exact En].
Qed.

Lemma refine_tame : forall L c cs, fgt (cf_chroma_sharpening_power c) f1 = false -> (Z.of_nat (length cs) < 2 ^ 30)%Z ->
  Forall (fun ch => length ch = 12 /\ Forall in01 ch) cs ->
  exists r, refine_chroma L c cs = Ok r /\ length r = length cs /\ Forall (fun ch => length ch = 12 /\ Forall in01 ch) r.
Proof.
  intros L c cs Hs Len H. unfold refine_chroma. rewrite Hs. cbv zeta. destruct (5 <? length cs); [|exists cs; auto].
  destruct (C40_median cs 12 5) as (r & E & Lr & Sr & V).
  - eapply Forall_impl; [|exact H]. cbv beta. tauto.
  - eapply Forall_impl; [|exact H]. intros ch (_ & A). eapply Forall_impl; [|exact A]. intros x X. apply fin_nn. now apply in01_fin.
  - exact Len.
  - lia.
  - exists r. split; [exact E|]. split; [exact Lr|]. apply Forall_forall. intros f If.
    assert (Lf : length f = 12) by exact (proj1 (Forall_forall _ _) Sr f If). split; [exact Lf|].
    apply (In_nth _ _ []) in If as (i & Hi & <-). apply Forall_forall. intros y Iy. apply (In_nth _ _ f0) in Iy as (b & Hb & <-).
    rewrite Lf in Hb. rewrite Lr in Hi. destruct (V i b Hi Hb) as (V0 & _). unfold window_bin in V0. apply in_map_iff in V0 as (j & <- & Ij).
    apply filter_In in Ij as (Ij & _). apply in_seq in Ij.
    assert (Ic : In (nth j cs []) cs) by (apply nth_In; lia). destruct (proj1 (Forall_forall _ _) H _ Ic) as (L12 & A).
    apply (proj1 (Forall_forall _ _) A), nth_In. now rewrite L12.
Qed.

Lemma eps12_lb : (bpow radix2 (-40) <= B2R (lit 2305843 (-61)))%R.
Proof.
  rewrite <- SF2R_B2SF. replace (B2SF (lit 2305843 (-61))) with (SpecFloat.S754_finite false 9223372%positive (-63)%Z) by (vm_compute; reflexivity).
  cbn. unfold F2R. cbn. lra.
Qed.

Lemma weights_tame : forall L c cs es j, key_ln L -> key_powf L c j -> (0 <= j < 128)%Z ->
  Forall (fun ch => length ch = 12 /\ Forall in01 ch) cs -> Forall (upto 87) es ->
  match frame_weights L c cs es with
  | None => True
  | Some ws => length ws = length cs /\ Forall (fun x => nneg x /\ within j x) ws
  end.
Proof.
  intros L c cs es j HL HP J Hc He. destruct (frame_weights L c cs es) as [ws|] eqn:E; [|exact I].
  destruct (C71_weights _ _ _ _ _ E) as (_ & Ne & Le & Lw & Nn & _ & _ & med & Hmed & Hw). split; [exact Lw|].
  assert (Nes : Forall (fun x => nn x) es) by (eapply Forall_impl; [|exact He]; intros x U; apply fin_nn, (upto_fin _ _ U)).
  destruct (Hmed Nes) as (Im & _). clear Hmed.
  assert (Um : upto 87 med) by exact (proj1 (Forall_forall _ _) He med Im).
  set (m := fmax med (lit 2305843 (-61))) in *.
  assert (Fm : fin m) by (unfold m; destruct (fmax_case med (lit 2305843 (-61))) as [-> | ->]; [apply (upto_fin _ _ Um)|reflexivity]).
  assert (Lm : (bpow radix2 (-40) <= Rabs (B2R m))%R).
  { assert (A : fle (lit 2305843 (-61)) m = true) by (apply fmax_ge_r; reflexivity). apply fle_fx in A.
    rewrite !fx_fin in A by (exact Fm || reflexivity). pose proof eps12_lb as B. pose proof (bpow_gt_0 radix2 (-40)).
    rewrite Rabs_right; lra. }
  apply Forall_forall. intros x Ix. split; [exact (proj1 (Forall_forall _ _) Nn x Ix)|].
  apply In_nth_error in Ix as (i & Hi). assert (Li : i < length ws) by (apply nth_error_Some; congruence).
  destruct (nth_error cs i) as [ch|] eqn:Ec; [|apply nth_error_None in Ec; lia].
  destruct (nth_error es i) as [e|] eqn:Ee; [|apply nth_error_None in Ee; lia].
  pose proof (Hw i ch e Ec Ee) as X. assert (x = frame_weight L c m ch e) by congruence. subst x.
  apply upto_within, (frame_weight_upto L c m ch e 0 j HL HP ltac:(lia) J).
  - apply nth_error_In in Ec. destruct (proj1 (Forall_forall _ _) Hc ch Ec) as (_ & A). eapply Forall_impl; [|exact A].
    intros y Y. split; [apply Y|now apply in01_within].
  - apply nth_error_In in Ee. pose proof (proj1 (Forall_forall _ _) He e Ee) as U. cbv beta in U.
    apply (within_fin (87 - -40)). apply within_div; [lia|now apply upto_within|exact Fm|exact Lm].
Qed.

(** The configurations covered: conditioning by the soft mask or none, harmonic pitch class profiles (with or without the
    bass blend), no log-frequency spectrogram, beat synchronisation, tuning compensation or sharpening.  Frame weighting,
    edge trimming, templates, ensemble, multi-scale and segment voting, mode heuristic are free. *)
Definition usual_key (c : analysis_config) : Prop :=
  cf_enable_key_hpss_harmonic c = false /\
  (cf_enable_key_harmonic_mask c = true \/ cf_enable_key_spectrogram_time_smoothing c = false) /\
  cf_enable_key_log_frequency c = false /\ cf_enable_key_beat_synchronous c = false /\
  cf_enable_key_tuning_compensation c = false /\ cf_enable_key_hpcp c = true /\
  fgt (cf_chroma_sharpening_power c) f1 = false /\
  cf_enable_key_minor_harmonic_bonus c = false /\ within 30 (cf_key_minor_leading_tone_bonus_weight c) /\
  nn (cf_key_hpcp_harmonic_decay c) /\ nn (cf_key_hpcp_mag_power c) /\ nn (cf_key_hpcp_bass_weight c) /\
  Forall (within 71) (cf_key_multi_scale_weights c) /\
  nneg (cf_key_ensemble_kk_weight c) /\ nneg (cf_key_ensemble_temperley_weight c) /\
  fin (fadd (cf_key_ensemble_kk_weight c) (cf_key_ensemble_temperley_weight c)).

(** Sizes a machine can address. *)
Definition key_sizes (c : analysis_config) (rate : nat) (samples : list f32) : Prop :=
  2 <= cf_frame_size c /\ (Z.of_nat (key_fft_size c) <= 2 ^ 24)%Z /\ 0 < cf_hop_size c /\
  (Z.of_nat (length samples / key_hop_size c + 1) <= 2 ^ 22)%Z /\ (Z.of_nat rate < 2 ^ 32)%Z /\
  (Z.of_nat (cf_key_hpcp_num_harmonics c) < 2 ^ 64)%Z /\ (Z.of_nat (cf_key_multi_scale_hop c) < 2 ^ 63)%Z.

(** What is assumed of the platform's functions. *)
Definition key_libm (F : fft_oracle) (L : libm) (P : key_platform) (c : analysis_config) : Prop :=
  fft_sane F /\ cos_bounds L /\ HpcpProps.select_ok P /\ chroma_libm L /\ hpcp_libm L P /\ key_ln L /\
  (forall x, upto 57 x -> upto 125 (m_powf L x (fmax (cf_key_harmonic_mask_power c) f1))) /\
  (forall x, in01 x -> in01 (m_powf L x (fmax (cf_key_tonalness_power c) f0))) /\
  (forall x, fin x -> nneg x -> upto 64 (m_powf L x (fmax (cf_key_energy_power c) f0))).

(** On audio within [-1, 1] the stage always reports a key, with confidence and clarity in [0, 1]. *)
Theorem C71_stage_total : forall F L P O c rate samples shared beats,
  usual_key c -> key_sizes c rate samples -> key_libm F L P c ->
  honest (ko_kk O) -> honest (ko_te O) -> honest (ko_track O) -> (forall s, honest (ko_segment O s)) ->
  (forall i s, honest (ko_scale O i s)) ->
  Forall (fun x => fle (fabs x) f1 = true) samples ->
  compute_stft F L samples (cf_frame_size c) (cf_hop_size c) = Ok shared ->
  exists k conf cl, key_stage F L P O c rate samples shared beats = Ok (k, conf, cl) /\ in01 conf /\ in01 cl.
Proof.
  intros F L P O c rate samples shared beats (U1 & U2 & U3 & U4 & U5 & U6 & U7 & U8 & U9 & U10 & U11 & U12 & U13 & U14 & U15 & U16)
    (S1 & S2 & S3 & S4 & S5 & S6 & S7) (L1 & L2 & L3 & L4 & L5 & L6 & L7 & L8 & L9) H1 H2 H3 H4 H5 HS Sh.
  unfold key_stage. destruct (cf_frame_size c <=? length samples); [|exists (Major 0), f0, f0; split; [reflexivity|split; apply in01_0]].
  destruct (key_spec_tame F L c samples shared L1 L2 S1 S2 S3 HS Sh) as (ks & E1 & T1 & N1). rewrite E1. cbn [obind].
  assert (Nk : (Z.of_nat (length ks) <= 2 ^ 22)%Z) by lia.
  set (nb := key_fft_size c / 2 + 1) in *.
  assert (Bn : (Z.of_nat nb < 2 ^ 64)%Z).
  { unfold nb. pose proof (Nat.div_le_upper_bound (key_fft_size c) 2 (key_fft_size c) ltac:(lia) ltac:(lia)). lia. }
  destruct (condition_tame L c rate ks nb ltac:(unfold nb; lia) T1 Nk U1) as (spec & E2 & T2 & N2).
  { destruct (cf_enable_key_harmonic_mask c); [left; split; [reflexivity|exact L7]|right]. split; [reflexivity|]. now destruct U2. }
  rewrite E2. cbn [obind]. unfold log_spec. rewrite U3. cbn [andb obind].
  unfold tuning_offset. rewrite U5. cbn [andb obind].
  destruct (chroma_tame L P c rate beats spec nb L3 L4 L5 S5 ltac:(lia) S6 U10 U11 U12 U4 U6 ltac:(unfold nb; lia) Bn T2)
    as (cs & es & E3 & N3 & N4 & T3 & T4). rewrite E3.
  destruct (refine_tame L c cs U7 ltac:(lia) T3) as (cs1 & E4 & N5 & T5). rewrite E4. cbn [obind].
  assert (X : exists cs' es', trim_edges (trim_range c (length cs1) (length es)) cs1 = Ok cs' /\
    trim_edges (trim_range c (length cs1) (length es)) es = Ok es' /\
    Forall (fun ch => length ch = 12 /\ Forall in01 ch) cs' /\ Forall (upto 87) es' /\ length cs' <= length cs1).
  { destruct (C71_trim c cs1 es) as [(A & B & _)|(_ & _ & _ & a & b & pre & mid & post & pre' & mid' & post' & A & B & _ & _ & Lm & _ & Ab & C & D & _)].
    - exists cs1, es. auto.
    - exists mid, mid'. split; [exact C|]. split; [exact D|]. rewrite A in T5. rewrite B in T4.
      apply Forall_app in T5 as (_ & T5). apply Forall_app in T5 as (T5 & _). apply Forall_app in T4 as (_ & T4). apply Forall_app in T4 as (T4 & _).
      split; [exact T5|]. split; [exact T4|]. lia. }
  destruct X as (cs' & es' & E5 & E6 & T6 & T7 & N6). rewrite E5. cbn [obind]. rewrite E6. cbn [obind].
  assert (W : match frame_weights L c cs' es' with
    | None => True | Some ws => length ws = length cs' /\ Forall (fun x => nneg x /\ within 64 x) ws end).
  { apply weights_tame; auto; [split; [exact L8|exact L9]|lia]. }
  apply (C71_call_total O c cs' _ 0 64 22 30 71); auto; try lia.
  - rewrite U8. discriminate.
  - unfold usize_max. lia.
  - eapply Forall_impl; [|exact T6]. intros ch (A & B). split; [exact A|]. eapply Forall_impl; [|exact B].
    intros x Ix. split; [apply Ix|now apply in01_within].
Qed.
Print Assumptions C71_stage_total.

(** The default configuration is covered. *)
Theorem C71_default : usual_key default_config /\
  forall rate samples, (Z.of_nat rate < 2 ^ 32)%Z -> (Z.of_nat (length samples) < 2 ^ 31)%Z -> key_sizes default_config rate samples.
Proof.
  split.
  - unfold usual_key. repeat (split; [reflexivity|]). split; [now left|]. repeat (split; [reflexivity|]).
    split. { apply (within_mono 0); [lia|]. apply in01_within. split; reflexivity. }
    repeat (split; [reflexivity|]). split; [constructor|]. repeat (split; [reflexivity|]). reflexivity.
  - intros rate samples R N. unfold key_sizes. change (key_hop_size default_config) with 512. change (key_fft_size default_config) with (64 * 128).
    cbn [cf_frame_size cf_hop_size cf_key_hpcp_num_harmonics cf_key_multi_scale_hop default_config].
    split; [lia|]. split; [lia|]. split; [lia|]. split; [|split; [exact R|lia]].
    rewrite Nat2Z.inj_add, Nat2Z.inj_div. change (Z.of_nat 512) with 512%Z. change (Z.of_nat 1) with 1%Z.
    assert (Z.of_nat (length samples) / 512 < 2 ^ 22)%Z by (apply Z.div_lt_upper_bound; lia). lia.
Qed.
Print Assumptions C71_default.

(** Consequence for complete analyses of peak-normalised audio (or audio already within [-1, 1]). *)
Theorem C71_analysis : forall P fuel samples rate c r,
  usual_key c -> key_sizes c rate samples -> key_libm (pf_fft P) (pf_libm P) (pf_key P) c ->
  honest (ko_kk (pf_orders P)) -> honest (ko_te (pf_orders P)) -> honest (ko_track (pf_orders P)) ->
  (forall s, honest (ko_segment (pf_orders P) s)) -> (forall i s, honest (ko_scale (pf_orders P) i s)) ->
  (cf_enable_normalization c = false /\ Forall (fun x => fle (fabs x) f1 = true) samples \/
   cf_enable_normalization c = true /\ cf_normalization c = NPeak /\ powf_ok (pf_libm P) /\ audio_ok samples) ->
  analyze_audio P fuel samples rate c = Some (Ok r) ->
  in01 (ar_key_confidence (fr_core r)) /\ in01 (ar_key_clarity (fr_core r)).
Proof.
  intros P fuel samples rate c r U S HL H1 H2 H3 H4 H5 HN H.
  apply analyze_stages in H as (tr & en & sp & o & l & _ & _ & Hp & _ & Hs & _ & _ & _ & _ & _ & Hk & _).
  destruct (preprocess_bounded _ _ _ _ _ HN Hp) as (B & Lt).
  assert (S' : key_sizes c rate tr).
  { destruct S as (S1 & S2 & S3 & S4 & S5). split; [exact S1|]. split; [exact S2|]. split; [exact S3|]. split; [|exact S5].
    assert (length tr / key_hop_size c <= length samples / key_hop_size c) by (apply Nat.div_le_mono; [|exact Lt];
      unfold key_hop_size; destruct (cf_enable_key_stft_override c); lia). lia. }
  destruct (C71_stage_total _ _ _ _ c rate tr sp (g_beats (fr_grid r)) U S' HL H1 H2 H3 H4 H5 B Hs) as (k & conf & cl & E & I1 & I2).
  rewrite E in Hk. assert (ar_key_confidence (fr_core r) = conf) by congruence. assert (ar_key_clarity (fr_core r) = cl) by congruence.
  subst. split; [exact I1|exact I2].
Qed.
Print Assumptions C71_analysis.
