(** C70, confidences: on audio within [-1,1] and a platform with sane elementary functions, the reported tempo confidence
    is a number in [0,1]. *)
From Coq Require Import ZArith Reals Lra Sorted.
From Flocq Require Import Core BinarySingleNaN.
From Verif Require Import Rust F32 F32Facts F32More ListFacts Libm Autocorrelation L2Proofs Onsets Normalization NormalizationProps Silence SilenceProps Chroma ChromaProofs ChromaProps
  CombFilterProofs CandidateFilter NoveltyProofs NoveltyProps Bounds Hpss HpssProofs HpssProps TempoSpectra Tempogram TempogramProofs TempogramValueProofs TempogramProps
  MultiResolution MultiResolutionProps Confidence Config KeyStage Pipeline PipelineProofs PipelineProps EscalationProps EndToEndProps.
Local Open Scope nat_scope.

(** The bound used for the platform FFT: at most 2^25 inputs of magnitude at most 2 give outputs of magnitude at most 2^30
    (the exact transform stays below 2^27). *)
Definition fft_sane (F : fft_oracle) : Prop := forall l, (Z.of_nat (length l) <= 2 ^ 25)%Z ->
  Forall (fun z => fle (fabs (fst z)) f2 = true /\ fle (fabs (snd z)) f2 = true) l ->
  Forall (fun z => fle (fabs (fst z)) (lit 1 30) = true /\ fle (fabs (snd z)) (lit 1 30) = true) (fft_forward F l).

Lemma sane_bounds : forall F, fft_sane F -> fft_bounds F.
Proof.
  intros F H l Len I. eapply Forall_impl; [|exact (H l Len I)]. intros z (A & B).
  apply within_abs in A, B; try lia. split; apply within_abs; try lia; eapply within_mono; eauto; lia.
Qed.

(** A square has a non-negative sign whatever it is computed from. *)
Lemma square_upto : forall k x, (0 <= k <= 60)%Z -> within k x -> upto (k + k) (fmul x x).
Proof.
  intros k x K W. apply within_upto; [apply within_mul; auto; lia|].
  pose proof (squares_nneg [x] (Forall_cons _ (within_fin _ _ W) (Forall_nil _))) as S. now apply Forall_inv in S.
Qed.

(** Short-time spectra of samples within [-1,1] are moderate. *)
Lemma stft_moderate : forall F L samples frame hop s, fft_sane F -> cos_bounds L -> 2 <= frame -> (Z.of_nat frame <= 2 ^ 24)%Z ->
  0 < hop -> Forall (fun x => fle (fabs x) f1 = true) samples ->
  compute_stft F L samples frame hop = Ok s -> moderate s.
Proof.
  intros F L samples frame hop s HF HC Hf Hm Hh HS E.
  destruct (Nat.le_gt_cases frame (length samples)) as [Ln|Ln].
  2:{ unfold compute_stft in E. apply Nat.ltb_lt in Ln. rewrite Ln in E. injection E as <-. constructor. }
  rewrite stft_ok in E by lia. injection E as <-. apply Forall_map, Forall_forall. intros j _. apply Forall_map.
  assert (W : Forall (fun z => fle (fabs (fst z)) (lit 1 30) = true /\ fle (fabs (snd z)) (lit 1 30) = true)
     (fft_forward F (windowed L samples frame (j * hop)))).
  { apply HF; [unfold windowed; rewrite map_length, seq_length; lia|].
    apply Forall_map, Forall_forall. intros i I. apply in_seq in I. cbn [fst snd]. split; [|reflexivity].
    apply within_abs1. apply within_mono with (0 + 0)%Z; [lia|]. apply within_mul; [lia| |].
    - destruct (Nat.lt_ge_cases (j * hop + i) (length samples)) as [Q|Q].
      + rewrite Forall_forall in HS. apply within_abs0, HS, nth_In, Q.
      + rewrite nth_overflow by lia. apply within_0.
    - pose proof (hann_within L frame i HC ltac:(lia) Hm) as Hw. unfold TempoSpectra.hann in Hw.
      destruct (Nat.ltb_spec 1 frame); [exact Hw|lia]. }
  apply Forall_forall. intros z Iz. assert (Iz' : In z (fft_forward F (windowed L samples frame (j * hop)))) by (rewrite <- (firstn_skipn (frame / 2 + 1)); apply in_or_app; now left).
  rewrite Forall_forall in W. destruct (W z Iz') as (A & B). apply within_abs in A, B; try lia.
  pose proof (square_upto 30 _ ltac:(lia) A) as SA. pose proof (square_upto 30 _ ltac:(lia) B) as SB.
  pose proof (upto_add 60 _ _ ltac:(lia) SA SB) as SS.
  pose proof (upto_sqrt 31 _ ltac:(lia) (upto_mono (60 + 1) (2 * 31) _ ltac:(lia) SS)) as U.
  pose proof (upto_lit 39 ltac:(lia)) as U39. split; [apply (upto_nneg _ _ U)|].
  apply fle_intro; try (apply fin_nn; apply (upto_fin _ _ U)); try (apply fin_nn; apply (upto_fin _ _ U39)).
  rewrite !fx_fin by (try apply (upto_fin _ _ U); apply (upto_fin _ _ U39)).
  destruct U as (_ & U1 & U2).
  apply Rle_trans with (bpow radix2 31); [exact U2|].
  destruct (lit_fx 1 39) as (Nl & El). rewrite F2R_bpow, rnd_bpow in El by lia.
  pose proof (bpow_lt radix2 39 128 ltac:(lia)) as Bb. fold big in Bb. pose proof (bpow_gt_0 radix2 39).
  rewrite sat_id in El by lra. rewrite fx_fin in El by apply (upto_fin _ _ U39). rewrite El. apply bpow_le. lia.
Qed.

(** The percussive part of a moderate spectrogram is moderate and has its shape. *)
Lemma percussive_moderate : forall spec margin h p, hpss_decompose spec margin = Ok (h, p) -> moderate spec ->
  moderate p /\ map (@length f32) p = map (@length f32) spec.
Proof.
  intros spec margin h p H M. pose proof (C15_shape _ _ _ _ H) as (_ & Sp). split; [|exact Sp].
  assert (Ms : forall f b x, at_ spec f b = Some x -> fle f0 x = true /\ fle x (lit 1 39) = true).
  { intros f b x E. unfold at_ in E. destruct (nth_error spec f) as [r|] eqn:R; [|discriminate].
    unfold moderate in M. rewrite Forall_forall in M. specialize (M r (nth_error_In _ _ R)).
    rewrite Forall_forall in M. apply M. eapply nth_error_In; eauto. }
  assert (B39 : fle (lit 1 39) (lit 1 126) = true) by (vm_compute; reflexivity).
  pose proof (C15_bounded _ _ _ _ H) as Bd.
  specialize (Bd ltac:(intros f b x E; destruct (Ms _ _ _ E); split; [auto | eapply fle_trans; eauto])).
  apply Forall_forall. intros r Hr. apply Forall_forall. intros z Hz.
  apply In_nth_error in Hr as (f & R). apply In_nth_error in Hz as (b & Z).
  assert (E : at_ p f b = Some z) by (unfold at_; now rewrite R).
  assert (L : exists x, at_ spec f b = Some x).
  { pose proof (f_equal (fun l => nth_error l f) Sp) as Sf. cbv beta in Sf. rewrite !nth_error_map, R in Sf. cbn in Sf.
    unfold at_. destruct (nth_error spec f) as [rs|]; [|discriminate]. cbn in Sf. injection Sf as Sf.
    destruct (nth_error rs b) eqn:Q; eauto. apply nth_error_None in Q.
    assert (nth_error r b <> None) by congruence. apply nth_error_Some in H0. lia. }
  destruct L as (x & L). destruct (Bd f b x L) as (y & z' & _ & E' & _ & _ & Z1 & Z2).
  assert (z' = z) by congruence. subst z'. destruct (Ms _ _ _ L). split; [exact Z1|]. eapply fle_trans; eauto.
Qed.

(** The audio that reaches the analysis stays within [-1,1]: without normalisation if the input does, and always with the
    default peak normalisation. *)
Lemma preprocess_bounded : forall P c rate samples out,
  (cf_enable_normalization c = false /\ Forall (fun x => fle (fabs x) f1 = true) samples \/
   cf_enable_normalization c = true /\ cf_normalization c = NPeak /\ powf_ok (pf_libm P) /\ audio_ok samples) ->
  preprocess P c rate samples = Ok out ->
  Forall (fun x => fle (fabs x) f1 = true) out /\ length out <= length samples.
Proof.
  intros P c rate samples out Hn H. unfold preprocess in H.
  set (norm := if cf_enable_normalization c then _ else _) in H.
  destruct norm as [s| |] eqn:Es; try discriminate. cbn [obind] in H.
  assert (Hs : Forall (fun x => fle (fabs x) f1 = true) s /\ length s = length samples).
  { subst norm. destruct Hn as [(E & Hn)|(E & M & Pw & A)]; rewrite E in Es.
    - assert (samples = s) by congruence. subst. auto.
    - destruct (normalize _ _ _ _) as [[s' m]| |] eqn:Q; try discriminate. cbn in Es.
      assert (s' = s) by congruence. subst s'. split.
      + refine (C06_peak _ _ _ _ _ _ Pw A _ Q). exact M.
      + now apply C05_uniform in Q as (Q & _). }
  clear norm Es. destruct Hs as (Hs & Ls).
  set (tr := if cf_enable_silence_trimming c then _ else _) in H.
  destruct tr as [t| |] eqn:Et; try discriminate. cbn [obind] in H.
  assert (Ht : Forall (fun x => fle (fabs x) f1 = true) t /\ length t <= length s).
  { subst tr. destruct (cf_enable_silence_trimming c).
    - destruct (detect_and_trim _ _ _ _) as [[t' m]| |] eqn:Q; try discriminate. cbn in Et.
      assert (t' = t) by congruence. subst t'. apply C02_contiguous in Q as (pre & post & ->).
      apply Forall_app in Hs as (_ & Hs). apply Forall_app in Hs as (Hs & _). rewrite !app_length. split; [auto|lia].
    - assert (s = t) by congruence. subst. auto. }
  destruct t; [discriminate|]. assert (out = f :: t) by congruence. subst. rewrite <- Ls. exact Ht.
Qed.

(** What is asked of the weights of a configuration (the default ones are far below). *)
Definition sane_weights (c : analysis_config) : Prop :=
  usable (band_cfg c) /\ fle (cf_tempogram_band_consensus_bonus c) (lit 1 14) = true /\
  (forall w, In w [cf_tempogram_multi_res_w512 c; cf_tempogram_multi_res_w256 c; cf_tempogram_multi_res_w1024 c;
                   cf_tempogram_multi_res_double_time_512_factor c] -> fle (fabs w) (lit 1 20) = true).

(** The tempogram's confidence is a number in [0,1]. *)
Theorem C70_tempogram_confidence : forall P fuel c rate samples spec st t,
  fft_sane (pf_fft P) -> cos_bounds (pf_libm P) -> ln_bounds (pf_libm P) -> sane_weights c ->
  2 <= cf_frame_size c -> (Z.of_nat (cf_frame_size c) <= 2 ^ 24)%Z -> 0 < cf_hop_size c ->
  Forall (fun x => fle (fabs x) f1 = true) samples -> (Z.of_nat (length samples) <= 2 ^ 24)%Z ->
  compute_stft (pf_fft P) (pf_libm P) samples (cf_frame_size c) (cf_hop_size c) = Ok spec ->
  tempogram_stage P fuel c rate samples spec = Some (Ok st) -> tg_est st = Some t -> in01 (e_conf t).
Proof.
  intros P fuel c rate samples spec st t HF HC HL (U1 & U2 & U3) F1 F2 Hh HS Len Es H T.
  pose proof (stft_moderate _ _ _ _ _ _ HF HC F1 F2 Hh HS Es) as M.
  assert (Shape : length spec <= Nat.max 1 (length samples) /\ Forall (fun f => length f <= cf_frame_size c) spec).
  { destruct (C41_shape (pf_fft P) (pf_libm P) samples (cf_frame_size c) (cf_hop_size c) ltac:(lia) Hh) as (s & E & A & B).
    assert (s = spec) by congruence. subst s. split.
    - destruct (Nat.ltb_spec (length samples) (cf_frame_size c)); [lia|].
      assert ((length samples - cf_frame_size c) / cf_hop_size c <= length samples - cf_frame_size c) by (apply Nat.div_le_upper_bound; nia). lia.
    - eapply Forall_impl; [|exact B]. intros f (Q & _). rewrite Q. pose proof (Nat.div_lt (cf_frame_size c) 2 ltac:(lia) ltac:(lia)). lia. }
  destruct Shape as (Sl & Sw).
  assert (UA : forall b, aux_cfg c = Some b -> usable b).
  { unfold aux_cfg. intros b. destruct (_ || _); [|discriminate]. intros E. assert (b = band_cfg c) by congruence. now subst b. }
  assert (I : forall s hop e l, moderate s -> map (@length f32) s = map (@length f32) spec ->
     tempogram_impl (pf_fft P) (pf_libm P) fuel s rate hop (cf_min_bpm c) (cf_max_bpm c) (cf_bpm_resolution c) (aux_cfg c) = Some (Ok (e, l)) ->
     in01 (e_conf e)).
  { intros s hop e l Ms Ls Q. assert (Ll : length s = length spec) by (rewrite <- (map_length (@length f32) s), Ls; apply map_length).
    apply (C27_scores _ _ _ _ _ _ _ _ _ _ _ _ (sane_bounds _ HF) HC HL Ms) in Q; [tauto| | |exact UA].
    - intros n R. destruct s as [|f s].
      { unfold tempogram_impl in Q. cbn in Q. discriminate. }
      destruct spec as [|g spec]; [discriminate|]. cbn in Ls. injection Ls as Lf _. apply Forall_inv in R, Sw. lia.
    - rewrite Ll. lia. }
  assert (SC : forall s e l, moderate s -> map (@length f32) s = map (@length f32) spec -> single_call P fuel c rate s = Some (Ok (e, l)) -> in01 (e_conf e)).
  { intros s e l Ms Ls Q. unfold single_call in Q. rewrite <- aux_is in Q. apply C27_prefix in Q as (rest & Q & _). eapply I; eauto. }
  destruct (cf_enable_tempogram_multi_resolution c) eqn:Em.
  - destruct (C69_source _ _ _ _ _ _ _ _ H T Em) as (base & cands & mid & Sb & Hm & Hp & _ & _ & _).
    assert (Cm : in01 (e_conf mid)).
    { destruct Hm as [(-> & _) | (_ & _ & (l & Q) & _)]; [eapply SC; eauto|]. unfold multi_call in Q.
      refine (C28_confidence _ _ _ _ _ _ _ _ _ _ _ _ _ _ (sane_bounds _ HF) HC HL _ Len _ _ _ Q).
      - lia.
      - intros hop s I0 E. eapply stft_moderate; [exact HF|exact HC|exact F1|exact F2| |exact HS|exact E].
        destruct I0 as [<-|[<-|[<-|[]]]]; lia.
      - intros b E. assert (b = band_of c) by congruence. subst b. split; [exact U1|exact U2].
      - exact U3. }
    destruct Hp as [(-> & _) | (_ & _ & _ & _ & _ & (h & p & l & Hh' & Q) & _)]; [exact Cm|].
    destruct (percussive_moderate _ _ _ _ Hh' M). eapply SC; eauto.
  - unfold tempogram_stage in H.
    destruct (cf_force_legacy_bpm c || (length spec =? 0)).
    { assert (X : no_tempo = st) by congruence. subst st. discriminate T. }
    rewrite Em in H. destruct (cf_emit_tempogram_candidates c).
    + apply rbind_ok in H as (b & Hb & H). destruct b as [[e l]|]; [|injection H as <-; discriminate T].
      assert (e = t) by (injection H as <-; cbn in T; congruence). subst e.
      destruct (tempogram_candidates _ _ _ _ _ _ _ _ _ _ _) as [[x| |]|] eqn:Q; try discriminate Hb. cbn in Hb.
      assert (x = (t, l)) by congruence. subst x. apply C27_prefix in Q as (rest & Q & _). eapply I; eauto.
    + apply rbind_ok in H as (b & Hb & H). destruct b as [[e l]|]; [|injection H as <-; discriminate T].
      assert (e = t) by (injection H as <-; cbn in T; congruence). subst e.
      destruct (tempogram_impl _ _ _ _ _ _ _ _ _ _) as [[x| |]|] eqn:Q; try discriminate Hb. cbn in Hb.
      assert (x = (t, l)) by congruence. subst x. eapply I; eauto.
Qed.
Print Assumptions C70_tempogram_confidence.

(** With the tempo fusion on, the reported confidence is in [0,1] whenever there is a tempogram estimate. *)
Theorem C44_confidence : forall P fuel samples rate c r t,
  fft_sane (pf_fft P) -> cos_bounds (pf_libm P) -> ln_bounds (pf_libm P) -> sane_weights c ->
  2 <= cf_frame_size c -> (Z.of_nat (cf_frame_size c) <= 2 ^ 24)%Z -> 0 < cf_hop_size c ->
  (cf_enable_normalization c = false /\ Forall (fun x => fle (fabs x) f1 = true) samples \/
   cf_enable_normalization c = true /\ cf_normalization c = NPeak /\ powf_ok (pf_libm P) /\ audio_ok samples) ->
  (Z.of_nat (length samples) <= 2 ^ 24)%Z ->
  analyze_audio P fuel samples rate c = Some (Ok r) -> cf_force_legacy_bpm c = false ->
  tg_est (fr_tempo r) = Some t -> fle (e_bpm t) f0 = false ->
  in01 (e_conf t) /\ in01 (ar_bpm_confidence (fr_core r)).
Proof.
  intros P fuel samples rate c r t HF HC HL HW F1 F2 Hh HN Len H Fo T N. pose proof H as H0.
  apply analyze_stages in H as (tr & en & sp & o & l & _ & _ & Hp & _ & Hs & _ & Hl & G & _).
  destruct (preprocess_bounded _ _ _ _ _ HN Hp) as (B & Lt).
  assert (C : in01 (e_conf t)).
  { eapply C70_tempogram_confidence; [exact HF|exact HC|exact HL|exact HW|exact F1|exact F2|exact Hh|exact B| |exact Hs|exact G|exact T]. lia. }
  split; [exact C|]. destruct (cf_enable_bpm_fusion c) eqn:Fu.
  - destruct (C44_fusion _ _ _ _ _ _ _ H0 Fo Fu T N) as (_ & X & _). apply X. unfold fisnan. destruct C as (C & _). apply fle_nn in C. tauto.
  - destruct (C44_precedence _ _ _ _ _ _ H0) as (l' & _ & X). cbv zeta in X. destruct X as (_ & _ & X & _).
    specialize (X t T Fu). assert (E : ar_bpm_confidence (fr_core r) = e_conf t) by congruence. now rewrite E.
Qed.
Print Assumptions C44_confidence.

(** The default configuration meets what is asked of it. *)
Example C44_default_sane : sane_weights default_config /\ 2 <= cf_frame_size default_config /\
  (Z.of_nat (cf_frame_size default_config) <= 2 ^ 24)%Z /\ 0 < cf_hop_size default_config /\
  cf_enable_normalization default_config = true /\ cf_normalization default_config = NPeak /\ cf_force_legacy_bpm default_config = false.
Proof.
  split; [|split; [apply Nat.leb_le; vm_compute; reflexivity|split; [apply Z.leb_le; vm_compute; reflexivity|split; [apply Nat.ltb_lt; vm_compute; reflexivity|auto]]]].
  split; [split|split].
  - intros w I. repeat (destruct I as [<-|I]; [vm_compute; reflexivity|]). destruct I.
  - intros w I. repeat (destruct I as [<-|I]; [vm_compute; reflexivity|]). destruct I.
  - vm_compute. reflexivity.
  - intros w I. repeat (destruct I as [<-|I]; [vm_compute; reflexivity|]). destruct I.
Qed.
