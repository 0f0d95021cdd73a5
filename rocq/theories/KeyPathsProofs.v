(** Lemmas for the totality of the key detection stage over all of its paths. *)
From Coq Require Import ZArith Reals Lra Lia.
From Flocq Require Import Core BinarySingleNaN.
From Verif Require Import Rust F32 F32Facts F32More ListFacts Libm Bounds CountSums Autocorrelation Onsets Chroma ChromaProofs ChromaProps CombFilterProofs
  ChromaValueProofs NoveltyProofs KeyFeatures HarmonicMaskProofs HarmonicMaskProps HpcpProps SmoothingProofs SmoothingProps
  TempogramProofs TempogramValueProofs TempoConfidenceProps TuningProofs TuningProps LogFrequencyProofs LogFrequencyProps BeatChromaProps
  KeyTemplates KeyDetector Config KeyStage Hpss HpssProofs.
Local Open Scope nat_scope.

(** The FFT of n numbers of magnitude at most 2 has components of magnitude at most 2^(k-1). *)
Definition fft_upto (F : fft_oracle) (n : nat) (k : Z) : Prop := forall l, length l = n ->
  Forall (fun z => fle (fabs (fst z)) f2 = true /\ fle (fabs (snd z)) f2 = true) l ->
  Forall (fun z => fle (fabs (fst z)) (lit 1 (k - 1)) = true /\ fle (fabs (snd z)) (lit 1 (k - 1)) = true) (fft_forward F l).

(** Frames of [nb] magnitudes up to 2^k. *)
Definition spec_upto (k : Z) (nb : nat) (s : list (list f32)) : Prop := Forall (fun f => length f = nb /\ Forall (upto k) f) s.

Lemma spec_shape : forall k nb s, spec_upto k nb s -> Forall (fun f => length f = nb) s.
Proof. intros k nb s H. eapply Forall_impl; [|exact H]. cbv beta. tauto. Qed.
Lemma spec_vals : forall k nb s, spec_upto k nb s -> Forall (Forall (upto k)) s.
Proof. intros k nb s H. eapply Forall_impl; [|exact H]. cbv beta. tauto. Qed.
Lemma spec_of : forall k nb s, Forall (fun f => length f = nb) s ->
  (forall t b, t < length s -> b < nb -> upto k (nth b (nth t s []) f0)) -> spec_upto k nb s.
Proof.
  intros k nb s S H. apply Forall_forall. intros f If. assert (Lf : length f = nb) by exact (proj1 (Forall_forall _ _) S f If).
  split; [exact Lf|]. apply (In_nth _ _ []) in If as (t & Ht & <-). apply Forall_forall. intros y Iy.
  apply (In_nth _ _ f0) in Iy as (b & Hb & <-). apply H; [exact Ht|now rewrite <- Lf].
Qed.
Lemma spec_at : forall k nb s t b, spec_upto k nb s -> t < length s -> b < nb -> upto k (nth b (nth t s []) f0).
Proof.
  intros k nb s t b H T B. assert (I : In (nth t s []) s) by (now apply nth_In).
  destruct (proj1 (Forall_forall _ _) H _ I) as (L & U). apply (proj1 (Forall_forall _ _) U), nth_In. now rewrite L.
Qed.
Lemma spec_mono : forall j k nb s, (j <= k)%Z -> spec_upto j nb s -> spec_upto k nb s.
Proof.
  intros j k nb s H S. eapply Forall_impl; [|exact S]. intros f (A & B). split; [exact A|]. eapply Forall_impl; [|exact B].
  intros x. now apply upto_mono.
Qed.

Lemma stft_bits : forall F L samples frame hop k, fft_upto F frame k -> cos_bounds L -> (2 <= k <= 60)%Z ->
  2 <= frame -> (Z.of_nat frame <= 2 ^ 24)%Z -> 0 < hop -> Forall (fun x => fle (fabs x) f1 = true) samples ->
  exists s, compute_stft F L samples frame hop = Ok s /\ length s <= Nat.max 1 (length samples / hop + 1) /\ spec_upto k (frame / 2 + 1) s.
Proof.
  intros F L samples frame hop k HF HC K Hf Hm Hh HS.
  destruct (C41_shape F L samples frame hop ltac:(lia) Hh) as (s & E & Ls & Sh). exists s. split; [exact E|]. split.
  { rewrite Ls. destruct (Nat.ltb_spec (length samples) frame); [lia|].
    assert ((length samples - frame) / hop <= length samples / hop) by (apply Nat.div_le_mono; lia). lia. }
  destruct (Nat.le_gt_cases frame (length samples)) as [Ln|Ln].
  2:{ unfold compute_stft in E. apply Nat.ltb_lt in Ln. rewrite Ln in E. injection E as <-. constructor. }
  clear Ls. rewrite stft_ok in E by lia. injection E as <-. apply Forall_forall. intros f If.
  split; [exact (proj1 (proj1 (Forall_forall _ _) Sh f If))|]. apply in_map_iff in If as (j & <- & _). clear Sh. apply Forall_map.
  assert (W : Forall (fun z => fle (fabs (fst z)) (lit 1 (k - 1)) = true /\ fle (fabs (snd z)) (lit 1 (k - 1)) = true)
     (fft_forward F (windowed L samples frame (j * hop)))).
  { apply HF; [unfold windowed; rewrite map_length, seq_length; lia|].
    apply Forall_map, Forall_forall. intros i I. apply in_seq in I. cbn [fst snd]. split; [|reflexivity].
    apply within_abs1. apply within_mono with (0 + 0)%Z; [lia|]. apply within_mul; [lia| |].
    - destruct (Nat.lt_ge_cases (j * hop + i) (length samples)) as [Q|Q].
      + rewrite Forall_forall in HS. apply within_abs0, HS, nth_In, Q.
      + rewrite nth_overflow by lia. apply within_0.
    - pose proof (hann_within L frame i HC ltac:(lia) Hm) as Hw. unfold TempoSpectra.hann in Hw.
      destruct (Nat.ltb_spec 1 frame); [exact Hw|lia]. }
  apply Forall_forall. intros z Iz. assert (Iz' : In z (fft_forward F (windowed L samples frame (j * hop))))
    by (rewrite <- (firstn_skipn (frame / 2 + 1)); apply in_or_app; now left).
  rewrite Forall_forall in W. destruct (W z Iz') as (A & B). apply within_abs in A, B; try lia.
  pose proof (square_upto (k - 1) _ ltac:(lia) A) as SA. pose proof (square_upto (k - 1) _ ltac:(lia) B) as SB.
  pose proof (upto_add (k - 1 + (k - 1)) _ _ ltac:(lia) SA SB) as SS.
  exact (upto_sqrt k _ ltac:(lia) (upto_mono (k - 1 + (k - 1) + 1) (2 * k) _ ltac:(lia) SS)).
Qed.

Lemma key_spec_bits : forall F L c samples shared k, fft_upto F (key_fft_size c) k -> cos_bounds L -> (2 <= k <= 60)%Z ->
  2 <= cf_frame_size c -> (Z.of_nat (key_fft_size c) <= 2 ^ 24)%Z -> 0 < cf_hop_size c ->
  Forall (fun x => fle (fabs x) f1 = true) samples ->
  compute_stft F L samples (cf_frame_size c) (cf_hop_size c) = Ok shared ->
  exists s, key_spec F L c samples shared = Ok s /\ spec_upto k (key_fft_size c / 2 + 1) s /\
    length s <= Nat.max 1 (length samples / key_hop_size c + 1).
Proof.
  intros F L c samples shared k HF HC K Fs Fm Hs S Sh. unfold key_spec, key_fft_size, key_hop_size in *.
  destruct (cf_enable_key_stft_override c).
  - destruct (stft_bits F L samples (Nat.max (cf_key_stft_frame_size c) 256) (Nat.max (cf_key_stft_hop_size c) 1) k HF HC K) as (s & E & L1 & T);
      [lia|exact Fm|lia|exact S|]. rewrite E. exists s. split; [reflexivity|]. split; [exact T|exact L1].
  - destruct (stft_bits F L samples (cf_frame_size c) (cf_hop_size c) k HF HC K) as (s & E & L1 & T); [lia|exact Fm|lia|exact S|].
    assert (s = shared) by congruence. subst s. exists shared. split; [reflexivity|]. split; [exact T|exact L1].
Qed.

(** ** Smoothing over time *)

Lemma diff_within : forall k a b, (k < 128)%Z -> (-149 <= k)%Z -> upto k a -> upto k b -> within k (fsub a b).
Proof.
  intros k a b K K' Ua Ub. destruct (fsub_fx a b (upto_fin _ _ Ua) (upto_fin _ _ Ub)) as (N & E).
  apply (within_of k _ _ K N E). destruct Ua as (Fa & A), Ub as (Fb & B). apply rnd_within; [lia|]. apply Rabs_le. lra.
Qed.

Lemma smooth_bits : forall k p spec nb margin, (0 <= k <= 75)%Z -> (0 <= p <= 22)%Z -> 0 < nb -> spec_upto k nb spec ->
  (Z.of_nat (length spec) <= 2 ^ p)%Z ->
  exists r, smooth_time spec margin = Ok r /\ length r = length spec /\ spec_upto (k + p) nb r.
Proof.
  intros k p spec nb margin K P Pn U Len.
  assert (Mn : spec_upto (k + p) nb spec) by (apply (spec_mono k); [lia|exact U]).
  destruct spec as [|s0 spec'] eqn:Es; [exists []; auto|]. rewrite <- Es in *. assert (Ne : spec <> []) by (rewrite Es; discriminate). clear s0 spec' Es.
  destruct margin as [|mg]; [exists spec; unfold smooth_time; rewrite orb_true_r; auto|].
  set (margin := S mg). assert (M : 0 < margin) by (unfold margin; lia). clearbody margin. clear mg.
  pose proof (spec_shape _ _ _ U) as Sh. pose proof (spec_vals _ _ _ U) as V.
  assert (L22 : (Z.of_nat (length spec) <= 2 ^ 22)%Z) by (apply Z.le_trans with (2 ^ p)%Z; [exact Len|apply Z.pow_le_mono_r; lia]).
  destruct (C62_average k spec nb margin ltac:(lia) Ne Pn Sh M L22 V) as (r & E & Lr & Sr & H). exists r. split; [exact E|]. split; [exact Lr|].
  apply spec_of; [exact Sr|]. intros t b T B. rewrite Lr in T. specialize (H t b T B). cbv zeta in H. destruct H as (H & _).
  rewrite (smooth_time_run spec nb margin Ne Pn Sh M) in E. injection E as E.
  assert (Ev : nth b (nth t r []) f0 = cell r t b) by reflexivity. rewrite Ev in *. rewrite <- E in H |- *. clear E Ev Sr Lr r.
  rewrite cell_tabulate in H |- * by assumption. cbv zeta in H |- *.
  assert (Pre : forall i, i <= length spec -> upto (k + p) (nth i (prefix_sums (column spec b)) f0)).
  { intros i Hi. assert (Lc : length (column spec b) = length spec) by apply map_length.
    rewrite prefix_nth by (now rewrite Lc). unfold fsum. apply upto_count; [lia|lia| |apply firstn_Forall, (column_P _ _ _ _ Sh B V)].
    rewrite firstn_length, Lc. lia. }
  apply within_upto; [|apply (upto_nneg _ _ H)]. replace (k + p)%Z with (k + p - 0)%Z at 1 by lia.
  apply within_div; [lia|apply diff_within; [lia|lia|apply Pre; lia|apply Pre; lia]| |].
  - apply (upto_fin 22), n2f_upto; lia.
  - destruct (n2f_exact (Nat.max (Nat.min (t + margin + 1) (length spec) - (t - margin)) 1) ltac:(lia)) as (_ & Q). rewrite Q.
    rewrite Rabs_right by (apply Rle_ge, IZR_le; lia). change (bpow radix2 0) with 1%R. apply IZR_le. lia.
Qed.

(** ** Sample rates at which the bands are not inverted *)

Lemma nyquist_ge : forall a rate, (Z.of_nat a <= 16777216)%Z -> a <= rate -> (Z.of_nat rate < 2 ^ 32)%Z ->
  fle (fdiv (n2f a) f2) (fdiv (n2f rate) f2) = true.
Proof.
  intros a rate A H R. apply fdiv_mono_l; try reflexivity.
  - apply z2f_mono. lia.
  - apply fdiv_nn_fin; try reflexivity. apply (upto_fin 32), n2f_upto; lia.
  - apply fdiv_nn_fin; try reflexivity. apply (upto_fin 32), n2f_upto; lia.
Qed.

(** ** Conditioning *)

Lemma median_bits : forall k L c rate spec nb, (0 <= k <= 100)%Z -> 0 < nb -> spec_upto k nb spec -> spec <> [] ->
  204 <= rate -> (Z.of_nat rate < 2 ^ 32)%Z -> 0 < key_fft_size c ->
  (forall x, upto k x -> upto 125 (m_powf L x (fmax (cf_key_hpss_mask_power c) f1))) ->
  exists r, median_mask L spec rate (key_fft_size c) (z2f 100) (z2f 5000) (cf_key_hpss_frame_step c)
              (cf_key_hpss_time_margin c) (cf_key_hpss_freq_margin c) (cf_key_hpss_mask_power c) = Ok r /\
    length r = length spec /\ spec_upto k nb r.
Proof.
  intros k L c rate spec nb K Pn U Ne R R2 Pf HP. pose proof (spec_shape _ _ _ U) as Sh.
  assert (Band : fle (fadd (fmax (z2f 100) (z2f 20)) f1) (fdiv (n2f rate) f2) = true).
  { eapply fle_trans; [|apply (nyquist_ge 204); [lia|exact R|exact R2]]. vm_compute. reflexivity. }
  set (lo := fmax (z2f 100) (z2f 20)) in *. set (hi := fclamp_val (z2f 5000) (fadd lo f1) (fdiv (n2f rate) f2)).
  set (first := Z.max 0 (Z.min (f2isize (ffloor (fdiv lo (fdiv (n2f rate) (n2f (key_fft_size c)))))) (Z.of_nat nb))).
  set (last := Z.max 0 (Z.min (f2isize (fceil (fdiv hi (fdiv (n2f rate) (n2f (key_fft_size c)))))) (Z.of_nat nb))).
  destruct (Z.le_gt_cases last first) as [Q|Q].
  - exists spec. split; [|split; [reflexivity|exact U]]. unfold median_mask.
    destruct (Nat.eqb_spec (length spec) 0) as [E|_]; [now apply length_zero_iff_nil in E|].
    rewrite (check_shape_run spec nb Ne Pn Sh). cbn [obind].
    destruct (Nat.eqb_spec rate 0); [lia|]. destruct (Nat.eqb_spec (key_fft_size c) 0); [lia|]. cbn [orb].
    unfold mask_band, fclamp. fold lo. rewrite Band. cbn [obind fst snd]. fold hi. fold first. fold last.
    apply Z.leb_le in Q. now rewrite Q.
  - assert (V : Forall (Forall (fun x => fisfin x = true -> fle x (lit 1 k) = true)) spec).
    { eapply Forall_impl; [|exact (spec_vals _ _ _ U)]. intros f Hf. eapply Forall_impl; [|exact Hf]. intros x Hx _.
      destruct Hx as (F & _ & B). destruct (lit_fx 1 k) as (Nl & El). rewrite F2R_bpow, rnd_bpow in El by lia.
      pose proof (bpow_lt radix2 k 128 ltac:(lia)) as Q2. fold big in Q2. pose proof (bpow_gt_0 radix2 k). pose proof big_pos.
      rewrite sat_id in El by lra. apply fle_intro; auto using fin_nn. rewrite fx_fin by auto. lra. }
    destruct (C63_median_mask k L spec nb rate (key_fft_size c) (z2f 100) (z2f 5000) (cf_key_hpss_frame_step c)
      (cf_key_hpss_time_margin c) (cf_key_hpss_freq_margin c) (cf_key_hpss_mask_power c) ltac:(lia) Ne Pn Sh ltac:(lia) ltac:(lia) V HP Band)
      as (r & E & Lr & Sr & H); [fold lo; fold hi; fold first; fold last; lia|].
    exists r. split; [exact E|]. split; [exact Lr|]. apply spec_of; [exact Sr|]. intros t b T B. rewrite Lr in T.
    specialize (H t b T B). cbv zeta in H. destruct (andb _ _) in H.
    + destruct H as (H0 & H1 & _). eapply upto_le; [exact H0|exact H1|].
      pose proof (spec_at _ _ _ t b U T B) as X. destruct (fisfin _); [|apply upto_0].
      destruct (fmax_case (nth b (nth t spec []) f0) f0) as [-> | ->]; [exact X|apply upto_0].
    + rewrite H. apply upto_0.
Qed.

(** Whether the moving average over time is the conditioning in use. *)
Definition smoothed (c : analysis_config) : bool :=
  negb (cf_enable_key_hpss_harmonic c) && negb (cf_enable_key_harmonic_mask c) && cf_enable_key_spectrogram_time_smoothing c.
Definition mag_bits (c : analysis_config) (k p : Z) : Z := if smoothed c then (k + p)%Z else k.

Lemma condition_bits : forall L c rate spec nb k p, (0 <= k)%Z -> (0 <= p <= 22)%Z -> (mag_bits c k p <= 50)%Z -> 0 < nb -> spec_upto k nb spec ->
  (Z.of_nat (length spec) <= 2 ^ p)%Z -> (Z.of_nat rate < 2 ^ 32)%Z -> 0 < key_fft_size c ->
  (cf_enable_key_hpss_harmonic c = true ->
    204 <= rate /\ forall x, upto k x -> upto 125 (m_powf L x (fmax (cf_key_hpss_mask_power c) f1))) ->
  (cf_enable_key_hpss_harmonic c = false -> cf_enable_key_harmonic_mask c = true ->
    forall x, upto (k + 26) x -> upto 125 (m_powf L x (fmax (cf_key_harmonic_mask_power c) f1))) ->
  exists r, condition_spec L c rate spec = Ok r /\ length r = length spec /\ spec_upto (mag_bits c k p) nb r.
Proof.
  intros L c rate spec nb k p K P Kp Pn U Len R Pf H1 H2. unfold condition_spec, mag_bits, smoothed in *.
  destruct (length spec =? 0) eqn:Z.
  { exists spec. split; [reflexivity|]. split; [reflexivity|]. apply Nat.eqb_eq, length_zero_iff_nil in Z. subst spec. constructor. }
  apply Nat.eqb_neq in Z. assert (Ne : spec <> []) by (intros ->; now apply Z).
  destruct (cf_enable_key_hpss_harmonic c).
  { cbn [negb andb] in *. destruct (H1 eq_refl) as (R2 & Hp).
    destruct (median_bits k L c rate spec nb ltac:(lia) Pn U Ne R2 R Pf Hp) as (r & E & Lr & Ur). rewrite E. exists r. auto. }
  destruct (cf_enable_key_harmonic_mask c).
  { cbn [negb andb] in *. specialize (H2 eq_refl eq_refl).
    assert (L22 : (Z.of_nat (length spec) <= 2 ^ 22)%Z) by (apply Z.le_trans with (2 ^ p)%Z; [exact Len|apply Z.pow_le_mono_r; lia]).
    destruct (C63_time_mask k L spec nb (cf_key_spectrogram_smooth_margin c) (cf_key_harmonic_mask_power c) ltac:(lia) Ne Pn
      (spec_shape _ _ _ U) L22 (spec_vals _ _ _ U) H2) as (r & s & E & _ & Lr & Sr & V).
    rewrite E. exists r. split; [reflexivity|]. split; [exact Lr|]. apply spec_of; [exact Sr|]. intros t b T B. rewrite Lr in T.
    destruct (V t b T B) as (V0 & V1 & _). eapply upto_le; [exact V0|exact V1|]. now apply (spec_at k nb). }
  cbn [negb andb] in *. destruct (cf_enable_key_spectrogram_time_smoothing c); [|exists spec; auto].
  destruct (smooth_bits k p spec nb (cf_key_spectrogram_smooth_margin c) ltac:(lia) P Pn U Len) as (r & E & Lr & Ur).
  rewrite E. exists r. auto.
Qed.

(** ** The log-frequency path *)

Lemma log_path : forall L c rate spec nb k b, chroma_libm L -> log2_mono L -> cf_enable_key_log_frequency c = true ->
  204 <= rate -> (Z.of_nat rate < 2 ^ 32)%Z -> 0 < key_fft_size c -> (Z.of_nat (key_fft_size c) < 2 ^ 64)%Z ->
  (0 <= k <= 50)%Z -> (0 <= b <= 24)%Z -> (2 * Z.of_nat nb <= 2 ^ b)%Z -> spec <> [] -> spec_upto k nb spec ->
  exists s first n, log_spec L c rate spec = Ok (Some (s, first)) /\
    log_frequency L rate (key_fft_size c) (z2f 100) (z2f 5000) spec = Ok s /\
    first = Zfloor (B2R (st L (z2f 100))) /\ (- 2 ^ 13 <= first)%Z /\ (first + Z.of_nat n <= 2 ^ 15)%Z /\ (Z.of_nat n <= 2 ^ 15)%Z /\
    length s = length spec /\ spec_upto (k + b) n s.
Proof.
  intros L c rate spec nb k b HL M Hlog R R2 Pf Bf K B Nb Ne U.
  assert (Ff : Forall (fun f => length f = nb /\ Forall (fun x => fin x) f) spec).
  { eapply Forall_impl; [|exact U]. intros f (A & W). split; [exact A|]. eapply Forall_impl; [|exact W]. intros x. apply upto_fin. }
  assert (Bn : (Z.of_nat nb < 2 ^ 64)%Z).
  { assert (2 ^ b <= 2 ^ 24)%Z by (apply Z.pow_le_mono_r; lia). lia. }
  pose proof (nyquist_ge 204 rate ltac:(lia) R R2) as Ny.
  assert (Nn : fin (fdiv (n2f rate) f2)).
  { apply (within_fin (32 - 1)). apply within_div; [lia|apply upto_within, n2f_upto; lia|reflexivity|].
    vm_compute B2R. rewrite Rabs_right; cbn; lra. }
  assert (Hi1 : fle (z2f 101) (fsub (fdiv (n2f rate) f2) f1) = true).
  { assert (Q : fsub (fdiv (n2f 204) f2) f1 = z2f 101) by (apply B2SF_inj; vm_compute; reflexivity). rewrite <- Q.
    apply fsub_mono; [exact Ny|reflexivity| |]; apply fin_nn; [reflexivity|]. apply (within_fin 32). apply within_mono with (31 + 1)%Z; [lia|].
    apply within_sub; [lia| |apply (within_mono 0); [lia|]; apply upto_within, in01_upto; split; reflexivity]. apply (within_mono (32 - 1)); [lia|]. apply within_div; [lia|apply upto_within, n2f_upto; lia|reflexivity|].
    vm_compute B2R. rewrite Rabs_right; cbn; lra. }
  assert (Bd : flt (fmax (z2f 100) (z2f 20)) (fmin (z2f 5000) (fsub (fdiv (n2f rate) f2) f1)) = true).
  { apply flt_fle_trans with (z2f 101); [vm_compute; reflexivity|]. apply fmin_glb; [intros _; vm_compute; reflexivity|intros _; exact Hi1|left; reflexivity]. }
  pose proof (C66_content L spec nb rate (key_fft_size c) (z2f 100) (z2f 5000) HL M Ne Ff Bn ltac:(lia) R2 Pf Bf) as C.
  cbv zeta in C. destruct (C Bd) as (E & Hn & Us). clear C.
  assert (Elo : fmax (z2f 100) (z2f 20) = z2f 100) by (apply B2SF_inj; vm_compute; reflexivity). rewrite Elo in *.
  set (hi := fmin (z2f 5000) (fsub (fdiv (n2f rate) f2) f1)) in *.
  change (fadd (fmul (z2f 12) (m_log2 L (fdiv (z2f 100) (z2f 440)))) (z2f 57)) with (st L (z2f 100)) in *.
  change (fadd (fmul (z2f 12) (m_log2 L (fdiv hi (z2f 440)))) (z2f 57)) with (st L hi) in *.
  assert (W100 : within 33 (z2f 100)) by (apply within_abs; [lia|vm_compute; reflexivity]).
  assert (W5 : within 33 (z2f 5000)) by (apply within_abs; [lia|vm_compute; reflexivity]).
  assert (Whi : within 33 hi).
  { apply within_le with (a := z2f 100) (b := z2f 5000); auto; [now apply flt_fle|]. apply fmin_le_l. reflexivity. }
  assert (L1 : fle f1 (z2f 100) = true) by (vm_compute; reflexivity).
  assert (L2 : fle f1 hi = true) by (eapply fle_trans; [exact L1|now apply flt_fle]).
  pose proof (st_within L HL _ L1 W100) as S1. pose proof (st_within L HL _ L2 Whi) as S2.
  destruct (within_Z 13 _ ltac:(lia) S1) as (Z1 & _ & Z2 & Z3 & Z4). destruct (within_Z 13 _ ltac:(lia) S2) as (_ & _ & Z5 & Z6 & Z7).
  unfold log_spec. rewrite Hlog. destruct (Nat.eqb_spec (length spec) 0) as [Q|_]; [now apply length_zero_iff_nil in Q|]. cbn [negb andb].
  rewrite E. change a4 with (z2f 440).
  change (fadd (fmul (z2f 12) (m_log2 L (fdiv (z2f 100) (z2f 440)))) (z2f 57)) with (st L (z2f 100)). rewrite Z1.
  match type of Hn with 1 <= ?m => set (n := m) in * end. do 2 eexists. exists n. split; [reflexivity|]. split; [reflexivity|]. split; [reflexivity|].
  split; [exact Z2|]. split; [unfold n; lia|]. split; [unfold n; lia|]. split; [apply map_length|].
  clearbody n. clear E. apply Forall_map, Forall_forall. intros fr Hfr. split; [now rewrite map_length, seq_length|].
  apply Forall_map, Forall_forall. intros j _.
  destruct (proj1 (Forall_forall _ _) U fr Hfr) as (Lf & Uf).
  apply upto_count; [lia|exact B| |].
  - apply Z.le_trans with (2 * Z.of_nat nb)%Z; [|exact Nb].
    match goal with |- (Z.of_nat (length (flat_map ?g ?l)) <= _)%Z => assert (A : forall l', length (flat_map g l') <= 2 * length l') end.
    { induction l' as [|x l' IH]; [cbn; lia|]. cbn [flat_map length]. rewrite !app_length. 
      repeat match goal with |- context [length (if ?q then _ else _)] => destruct q end; cbn [length]; lia. }
    match goal with |- (Z.of_nat (length (flat_map ?g ?l)) <= _)%Z => specialize (A l); pose proof (filter_le _ (fun k => flt f0 (nth k fr f0) && fle (z2f 100) (fmul (n2f k) (fdiv (n2f rate) (n2f (key_fft_size c)))) && flt (fmul (n2f k) (fdiv (n2f rate) (n2f (key_fft_size c)))) hi) (seq 0 nb)) as A2 end.
    rewrite seq_length in A2. lia.
  - apply Forall_forall. intros v Hv. apply in_flat_map in Hv. destruct Hv as (i & Hk & Hv). destruct (Us fr i Hk) as (_ & _ & _ & I1 & I2).
    assert (Um : upto k (nth i fr f0)).
    { apply filter_In in Hk. destruct Hk as (Hk & _). apply in_seq in Hk. apply (proj1 (Forall_forall _ _) Uf), nth_In. lia. }
    assert (Mul : forall y, in01 y -> upto k (fmul (nth i fr f0) y)).
    { intros y Iy. replace k with (k + 0)%Z by lia. apply upto_mul; [lia|exact Um|now apply in01_upto]. }
    apply in_app_or in Hv. destruct Hv as [Hv|Hv]; match type of Hv with In _ (if ?b then _ else _) => destruct b end; try contradiction;
      destruct Hv as [<-|[]]; now apply Mul.
Qed.

(** ** Tuning *)

Lemma tuning_bits : forall L P c rate spec nb k lg, chroma_libm L -> (Z.of_nat rate < 2 ^ 32)%Z -> 0 < key_fft_size c ->
  (Z.of_nat (key_fft_size c) < 2 ^ 64)%Z -> (k <= 50)%Z -> 0 < nb -> (Z.of_nat nb < 2 ^ 64)%Z -> spec_upto k nb spec ->
  (cf_enable_key_tuning_compensation c = true -> 204 <= rate /\ tuning_libm L P /\
    nn (cf_key_tuning_peak_rel_threshold c) /\ nn (cf_key_tuning_max_abs_semitones c)) ->
  exists t, tuning_offset L P c rate spec lg = Ok t /\ within 13 t.
Proof.
  intros L P c rate spec nb k lg HL R Pf Bf K Pn Bn U H. unfold tuning_offset.
  destruct (cf_enable_key_tuning_compensation c); [|exists f0; split; [reflexivity|apply within_0]].
  destruct (Nat.eqb_spec (length spec) 0) as [|Q]; [exists f0; split; [reflexivity|apply within_0]|].
  destruct lg; [exists f0; split; [reflexivity|apply within_0]|]. cbn [negb andb].
  assert (Ne : spec <> []) by (intros ->; now apply Q). destruct (H eq_refl) as (R2 & HT & Nt & Nm). clear H Q.
  destruct (C64_outcome L P spec rate (key_fft_size c) (z2f 80) (z2f 2000) (cf_key_tuning_frame_step c)
    (cf_key_tuning_peak_rel_threshold c) R) as (_ & _ & X). destruct (X nb Ne Pn (spec_shape _ _ _ U)) as (_ & Y).
  destruct (Y ltac:(lia) Pf) as (_ & Z). destruct Z as (d & E).
  { apply fle_flt_false. eapply fle_trans; [|apply (nyquist_ge 204); [lia|exact R2|exact R]]. vm_compute. reflexivity. }
  clear X Y. rewrite E.
  assert (W50 : Forall (Forall (within 50)) spec).
  { eapply Forall_impl; [|exact (spec_vals _ _ _ U)]. intros f Hf. eapply Forall_impl; [|exact Hf]. intros x Hx.
    apply (within_mono k); [exact K|now apply upto_within]. }
  assert (Nb : (Z.of_nat (length (nth 0 spec [])) < 2 ^ 64)%Z).
  { assert (I : In (nth 0 spec []) spec) by (apply nth_In; destruct spec; [congruence|cbn; lia]).
    rewrite (proj1 (Forall_forall _ _) (spec_shape _ _ _ U) _ I). exact Bn. }
  destruct (C64_range L P spec rate (key_fft_size c) (z2f 80) (z2f 2000) (cf_key_tuning_frame_step c) _ d HL HT W50 Nb R Bf eq_refl Nt E) as (D1 & D2). clear E. cbv zeta. unfold fclamp.
  set (m := fabs (cf_key_tuning_max_abs_semitones c)).
  assert (Hm : nneg m) by (now apply fabs_nneg). assert (Mm : fle (fneg m) f0 = true) by exact (fneg_mono _ _ Hm).
  assert (Mn : fle (fneg m) m = true) by (eapply fle_trans; [exact Mm|exact Hm]). rewrite Mn.
  eexists. split; [reflexivity|]. apply (within_mono 0); [lia|].
  assert (Wh : within 0 fhalf) by (apply upto_within, in01_upto; split; reflexivity).
  assert (Wn : within 0 (fneg fhalf)) by (apply within_abs; [lia|vm_compute; reflexivity]).
  unfold fclamp_val. destruct (flt d (fneg m)) eqn:Q1.
  - apply within_le with (a := fneg fhalf) (b := f0); [eapply fle_trans; [exact D1|now apply flt_fle]|exact Mm|exact Wn|apply within_0].
  - destruct (flt m d) eqn:Q2.
    + apply within_le with (a := f0) (b := fhalf); [exact Hm|eapply fle_trans; [apply flt_fle; exact Q2|exact D2]|apply within_0|exact Wh].
    + apply within_le with (a := fneg fhalf) (b := fhalf); assumption.
Qed.

(** ** Chroma extraction *)

Lemma energy_bits : forall k f, (0 <= k <= 50)%Z -> Forall (upto k) f -> upto (2 * k + 25) (fold_left fadd (map (fun x => fmul x x) f) f0).
Proof.
  intros k f K H. replace (2 * k)%Z with (k + k)%Z by lia. apply (upto_sum (k + k)); [lia|]. apply Forall_map. eapply Forall_impl; [|exact H].
  intros x U. apply (square_upto k); [lia|now apply upto_within].
Qed.

Definition chroma_ok (cs : list (list f32)) : Prop := Forall (fun ch => length ch = 12 /\ Forall in01 ch) cs.

Definition beat_bits (c : analysis_config) (p : Z) : Z := if cf_enable_key_beat_synchronous c then p else 0%Z.

Lemma chroma_linear : forall L P c rate beats spec nb k p tuning, chroma_libm L ->
  (Z.of_nat rate < 2 ^ 32)%Z -> 0 < key_fft_size c -> (Z.of_nat (key_fft_size c) < 2 ^ 64)%Z -> (0 <= k <= 50)%Z -> (0 <= p <= 22)%Z ->
  0 < nb -> (Z.of_nat nb < 2 ^ 64)%Z -> spec_upto k nb spec -> (Z.of_nat (length spec) <= 2 ^ p)%Z -> within 13 tuning ->
  (cf_enable_key_beat_synchronous c = true -> (Z.of_nat (length beats) <= 2 ^ 22)%Z) ->
  (cf_enable_key_frame_weighting c = true -> (2 * k + 25 + beat_bits c p <= 87)%Z) ->
  (cf_enable_key_hpcp c = true -> HpcpProps.select_ok P /\ hpcp_libm L P /\ (Z.of_nat (cf_key_hpcp_num_harmonics c) < 2 ^ 64)%Z /\
    nn (cf_key_hpcp_harmonic_decay c) /\ nn (cf_key_hpcp_mag_power c) /\
    (cf_enable_key_hpcp_bass_blend c = true -> nn (cf_key_hpcp_bass_weight c))) ->
  exists cs es, chroma_call L P c rate beats spec None tuning = Ok (cs, es) /\ (Z.of_nat (length cs) <= 2 ^ 22)%Z /\
    chroma_ok cs /\ (cf_enable_key_frame_weighting c = true -> Forall (upto 87) es).
Proof.
  intros L P c rate beats spec nb k p tuning HL R Pf Bf K Pp Pn Bn U Len T Hb Hw Hh. unfold chroma_call.
  assert (P22 : (2 ^ p <= 2 ^ 22)%Z) by (apply Z.pow_le_mono_r; lia).
  assert (T50 : Forall (fun f => length f = nb /\ Forall (within 50) f) spec).
  { eapply Forall_impl; [|exact U]. intros f (A & B). split; [exact A|]. eapply Forall_impl; [|exact B].
    intros x Ux. apply (within_mono k); [lia|now apply upto_within]. }
  assert (Tf : Forall (fun f => length f = nb /\ Forall (fun x => fin x) f) spec).
  { eapply Forall_impl; [|exact U]. intros f (A & B). split; [exact A|]. eapply Forall_impl; [|exact B]. intros x Ux. apply (upto_fin _ _ Ux). }
  assert (En : Forall (upto (2 * k + 25)) (map (fun f => fold_left fadd (map (fun x => fmul x x) f) f0) spec)).
  { apply Forall_map. eapply Forall_impl; [|exact U]. intros f (_ & B). now apply energy_bits. }
  assert (En' : cf_enable_key_frame_weighting c = true -> Forall (upto 87) (map (fun f => fold_left fadd (map (fun x => fmul x x) f) f0) spec)).
  { intros Q. specialize (Hw Q). eapply Forall_impl; [|exact En]. intros x. apply upto_mono. unfold beat_bits in Hw.
    destruct (cf_enable_key_beat_synchronous c); lia. }
  destruct spec as [|s0 spec'] eqn:Es.
  { exists [], []. split; [|split; [cbn; lia|split; constructor]].
    destruct (_ && _); [reflexivity|]. destruct (cf_enable_key_hpcp c); [destruct (cf_enable_key_hpcp_bass_blend c); reflexivity|].
    destruct (_ && _); reflexivity. }
  rewrite <- Es in *. assert (Ne : spec <> []) by (rewrite Es; discriminate). clear s0 spec' Es.
  assert (Ex : forall t, within 13 t -> exists cs es,
    extract_chroma_spec L rate (key_fft_size c) (cf_soft_chroma_mapping c) (cf_soft_mapping_sigma c) t spec = Ok (cs, es) /\
    (Z.of_nat (length cs) <= 2 ^ 22)%Z /\ chroma_ok cs /\ (cf_enable_key_frame_weighting c = true -> Forall (upto 87) es)).
  { intros t Wt. destruct (C59_extract L rate (key_fft_size c) (cf_soft_chroma_mapping c) (cf_soft_mapping_sigma c) t spec HL R Pf Bf Wt) as (_ & _ & X).
    destruct (X nb Pn ltac:(lia) Ne Tf) as (cs & E & Lp & Fp & _). rewrite E. do 2 eexists. split; [reflexivity|].
    split; [rewrite Lp; lia|]. split; [exact Fp|exact En']. }
  destruct (cf_enable_key_beat_synchronous c && negb (length beats =? 0)) eqn:Q.
  - apply andb_true_iff in Q as (Q1 & Q2). specialize (Hb Q1).
    assert (Nb : beats <> []) by (intros ->; discriminate).
    assert (Tb : Forall (fun f => (Z.of_nat (length f) <= 2 ^ 64)%Z /\ Forall (fun x => fin x) f) spec).
    { eapply Forall_impl; [|exact Tf]. intros f (A & B). split; [rewrite A; lia|exact B]. }
    pose proof (C67_content L rate (key_fft_size c) (key_hop_size c) (cf_soft_chroma_mapping c) (cf_soft_mapping_sigma c) tuning beats spec
      HL R Pf Bf T Tb) as X. cbv zeta in X. destruct X as (_ & _ & X). destruct (X Ne Nb) as (cs & es & ch & E & L1 & L2 & Fc & _ & V).
    clear X. exists cs, es. split; [exact E|]. split; [rewrite L1; lia|]. split; [exact Fc|]. intros Wq.
    specialize (Hw Wq). unfold beat_bits in Hw. rewrite Q1 in Hw. apply Forall_forall. intros y Iy. apply (In_nth _ _ f0) in Iy as (i & Hi & <-).
    rewrite L2 in Hi. destruct (V i ltac:(lia)) as (V0 & V1).
    match type of V0 with ?l = [] -> _ => destruct l as [|a l'] eqn:Ei end.
    { rewrite (proj2 (V0 eq_refl)). apply upto_0. }
    destruct (V1 ltac:(discriminate)) as (_ & V2). rewrite V2. rewrite <- Ei. apply (upto_mono (2 * k + 25 + p)); [lia|].
    apply upto_count; [lia|lia| |].
    + rewrite map_length. eapply Z.le_trans; [|exact Len]. apply inj_le. eapply Nat.le_trans; [apply filter_le|]. now rewrite seq_length.
    + apply Forall_map, Forall_forall. intros j Ij. apply filter_In in Ij as (Ij & _). apply in_seq in Ij. apply energy_bits; [exact K|].
      apply (proj1 (Forall_forall _ _) (spec_vals _ _ _ U)), nth_In. lia.
  - destruct (cf_enable_key_hpcp c).
    + destruct (Hh eq_refl) as (HP & HH & Nh & Nd & Np & Nw).
      destruct (cf_enable_key_hpcp_bass_blend c).
      * destruct (C65_bass L P (hpcp_config c tuning) rate (key_fft_size c) (cf_key_hpcp_bass_fmin_hz c) (cf_key_hpcp_bass_fmax_hz c)
          (cf_key_hpcp_bass_weight c) spec HP HL HH R Bf Nh T Nd Np (Nw eq_refl)) as (_ & _ & X).
        destruct (X nb Pn Bn Ne T50) as (pcs & E & Lp & Fp & _). rewrite E. exists pcs. eexists. split; [reflexivity|].
        split; [rewrite Lp; lia|]. split; [exact Fp|exact En'].
      * destruct (C65_extract L P (hpcp_config c tuning) rate (key_fft_size c) spec HP HL HH R Bf Nh T Nd Np) as (_ & _ & X).
        destruct (X nb Pn Bn Ne T50) as (pcs & E & Lp & Fp & _). rewrite E. exists pcs. eexists. split; [reflexivity|].
        split; [rewrite Lp; lia|]. split; [exact Fp|exact En'].
    + destruct (cf_enable_key_tuning_compensation c && fgt (fabs tuning) (lit 8796093 (-43))); apply Ex; [exact T|apply within_0].
Qed.

Lemma chroma_log : forall L P c rate beats spec s first n k tuning, (0 <= k <= 50)%Z -> spec_upto k n s -> (Z.of_nat (length s) <= 2 ^ 22)%Z ->
  (- 2 ^ 13 <= first)%Z -> (first + Z.of_nat n <= 2 ^ 15)%Z -> (Z.of_nat n <= 2 ^ 15)%Z ->
  (cf_enable_key_frame_weighting c = true -> (2 * k + 25 <= 87)%Z) ->
  exists cs es, chroma_call L P c rate beats spec (Some (s, first)) tuning = Ok (cs, es) /\ (Z.of_nat (length cs) <= 2 ^ 22)%Z /\
    chroma_ok cs /\ (cf_enable_key_frame_weighting c = true -> Forall (upto 87) es).
Proof.
  intros L P c rate beats spec s first n k tuning K U Len F1 F2 F3 Hw. unfold chroma_call.
  destruct (C66_chroma first s ltac:(lia)) as (cs & E & Ec & Fc).
  { eapply Forall_impl; [|exact U]. intros f (A & B). rewrite A. split; [lia|]. split; [lia|]. eapply Forall_impl; [|exact B].
    intros x Ux. apply (within_mono k); [lia|now apply upto_within]. }
  rewrite E. cbn [obind]. do 2 eexists. split; [reflexivity|]. split; [rewrite Ec, map_length; exact Len|]. split; [exact Fc|].
  intros Q. specialize (Hw Q). apply Forall_map. eapply Forall_impl; [|exact U]. intros f (_ & B).
  apply (upto_mono (2 * k + 25)); [exact Hw|]. unfold frame_energy, fsum. now apply energy_bits.
Qed.

(** ** Sharpening and smoothing of the chroma *)

Lemma sharpen_ok : forall L power ch, (forall x, in01 x -> in01 (m_powf L x power)) -> length ch = 12 -> Forall in01 ch ->
  length (sharpen_chroma L ch power) = 12 /\ Forall in01 (sharpen_chroma L ch power).
Proof.
  intros L power ch HP Lc H. assert (Ne : ch <> []) by (intros ->; discriminate).
  pose proof (C60_sharpen L ch power Ne H HP) as C. cbv zeta in C. destruct C as (C1 & C2 & C3). split; [congruence|].
  destruct (fgt _ PeakPicking.eps10); [apply C3; reflexivity|]. eapply Forall_impl; [|exact (C2 eq_refl)]. intros x ->. rewrite Lc.
  split; vm_compute; reflexivity.
Qed.

Lemma refine_bits : forall L c cs, (Z.of_nat (length cs) <= 2 ^ 22)%Z -> chroma_ok cs ->
  (fgt (cf_chroma_sharpening_power c) f1 = true -> forall x, in01 x -> in01 (m_powf L x (cf_chroma_sharpening_power c))) ->
  exists r, refine_chroma L c cs = Ok r /\ length r = length cs /\ chroma_ok r.
Proof.
  intros L c cs Len H HP. unfold refine_chroma.
  set (cs1 := if fgt (cf_chroma_sharpening_power c) f1 then map (fun v => sharpen_chroma L v (cf_chroma_sharpening_power c)) cs else cs).
  assert (L1 : length cs1 = length cs) by (unfold cs1; destruct (fgt _ _); [apply map_length|reflexivity]).
  assert (H1 : chroma_ok cs1).
  { unfold cs1. destruct (fgt _ _); [|exact H]. apply Forall_map. eapply Forall_impl; [|exact H]. intros ch (A & B). apply sharpen_ok; auto. }
  clearbody cs1. clear H. cbv zeta. destruct (5 <? length cs1); [|exists cs1; auto].
  destruct (C40_median cs1 12 5) as (r & E & Lr & Sr & V).
  - eapply Forall_impl; [|exact H1]. cbv beta. tauto.
  - eapply Forall_impl; [|exact H1]. intros ch (_ & A). eapply Forall_impl; [|exact A]. intros x X. apply fin_nn. now apply in01_fin.
  - lia.
  - lia.
  - exists r. split; [exact E|]. split; [congruence|]. apply Forall_forall. intros f If.
    assert (Lf : length f = 12) by exact (proj1 (Forall_forall _ _) Sr f If). split; [exact Lf|].
    apply (In_nth _ _ []) in If as (i & Hi & <-). apply Forall_forall. intros y Iy. apply (In_nth _ _ f0) in Iy as (b & Hb & <-).
    rewrite Lf in Hb. rewrite Lr in Hi. destruct (V i b Hi Hb) as (V0 & _). unfold window_bin in V0. apply in_map_iff in V0 as (j & <- & Ij).
    apply filter_In in Ij as (Ij & _). apply in_seq in Ij.
    assert (Ic : In (nth j cs1 []) cs1) by (apply nth_In; lia). destruct (proj1 (Forall_forall _ _) H1 _ Ic) as (L12 & A).
    apply (proj1 (Forall_forall _ _) A), nth_In. now rewrite L12.
Qed.
