(** The tempograms of moderate spectrograms are finite: lemmas for the tempogram estimator. *)
From Coq Require Import ZArith Reals Lra Sorted.
From Flocq Require Import Core.
From Verif Require Import Rust F32 F32Facts ListFacts Libm Sorting SortingFacts Means PeakPicking BpmLoop BpmLoopProofs Autocorrelation AutocorrelationProofs
  TempoSpectra CombFilterProofs Novelty NoveltyProofs CandidateFilter Bounds TempoSpectraProps NoveltyProps NormalizationProofs Tempogram TempogramProofs.

(** Bounds on the platform: |cos x| <= 1 for finite x, and a transform of at most 2^25 points with components up to 2
    whose results have components up to 2^60. *)
Definition cos_bounds (L : libm) : Prop := forall x, fin x -> fle (fabs (m_cos L x)) f1 = true.
Definition fft_bounds (F : fft_oracle) : Prop := forall l, (Z.of_nat (length l) <= 2 ^ 25)%Z ->
  Forall (fun z => fle (fabs (fst z)) f2 = true /\ fle (fabs (snd z)) f2 = true) l ->
  Forall (fun z => fle (fabs (fst z)) (lit 1 60) = true /\ fle (fabs (snd z)) (lit 1 60) = true) (fft_forward F l).

Lemma within_abs : forall k x, (0 <= k < 128)%Z -> (fle (fabs x) (lit 1 k) = true <-> within k x).
Proof.
  intros k x K. pose proof (upto_lit k K) as (Fl & L0 & L1). destruct (lit_fx 1 k) as (Nl & El).
  rewrite F2R_bpow, rnd_bpow in El by lia. pose proof (bpow_lt radix2 k 128 ltac:(lia)) as B. fold big in B.
  pose proof (bpow_gt_0 radix2 k) as P. rewrite sat_id in El by lra. split.
  - intros H. pose proof (fle_nn _ _ H) as (Na & _). assert (N := Na). rewrite fabs_nn in N. apply fle_fx in H. rewrite El, fabs_fx in H by auto.
    assert (F : fin x) by (apply fin_iff; auto; apply Rabs_le_inv in H; lra). split; auto. now rewrite fx_fin in H.
  - intros (F & H). apply fle_intro; auto. { rewrite fabs_nn. now apply fin_nn. }
    rewrite El, fabs_fx, fx_fin by auto using fin_nn. exact H.
Qed.
Lemma within_abs0 : forall x, fle (fabs x) f1 = true <-> within 0 x.
Proof. intros x. rewrite <- (within_abs 0) by lia. replace (lit 1 0) with f1 by (apply B2SF_inj; vm_compute; reflexivity). tauto. Qed.
Lemma within_abs1 : forall x, fle (fabs x) f2 = true <-> within 1 x.
Proof. intros x. rewrite <- (within_abs 1) by lia. replace (lit 1 1) with f2 by (apply B2SF_inj; vm_compute; reflexivity). tauto. Qed.

Lemma next_pow2_le : forall n, 0 < n -> next_pow2 n <= 2 * n.
Proof.
  intros n H. unfold next_pow2. destruct (Nat.eq_dec n 1) as [->|N]; [cbn; lia|].
  destruct (Nat.log2_up_spec n ltac:(lia)) as (A & _).
  pose proof (Nat.log2_up_pos n ltac:(lia)) as P. destruct (Nat.log2_up n) as [|k]; [lia|].
  cbn [Nat.pred] in A. rewrite Nat.pow_succ_r'. lia.
Qed.

Lemma hann_within : forall L n i, cos_bounds L -> i < n -> (Z.of_nat n <= 2 ^ 24)%Z -> within 0 (TempoSpectra.hann L n i).
Proof.
  intros L n i C I Hn. unfold TempoSpectra.hann. destruct (Nat.ltb_spec 1 n); [|apply within_abs0; reflexivity].
  assert (Fa : fin (fdiv (fmul (fmul f2 f_pi) (n2f i)) (n2f (n - 1)))).
  { destruct (n2f_exact i ltac:(lia)) as (Fi & Ei). destruct (n2f_exact (n - 1) ltac:(lia)) as (Fn & En).
    apply (within_fin (27 - 0)). apply within_div; [lia| |auto|].
    - change 27%Z with (3 + 24)%Z. apply within_mul; [lia| |].
      + apply within_abs; [lia|]. vm_compute. reflexivity.
      + split; auto. rewrite Ei, Rabs_right; [|apply Rle_ge, IZR_le; lia]. change (bpow radix2 24) with (IZR (2 ^ 24)). apply IZR_le; lia.
    - rewrite En, Rabs_right; [|apply Rle_ge, IZR_le; lia]. change (bpow radix2 0) with 1%R. apply IZR_le; lia. }
  change 0%Z with (-1 + 1)%Z. apply within_mul; [lia| |].
  - split; [reflexivity|]. rewrite B2R_fhalf. change (bpow radix2 (-1)) with (/ 2)%R. rewrite Rabs_right; lra.
  - change 1%Z with (0 + 1)%Z. apply within_sub; [lia| |]; apply within_abs0; [reflexivity|]. now apply C.
Qed.

Lemma fft_input_within : forall L nov, cos_bounds L -> Forall in01 nov -> nov <> [] -> (Z.of_nat (length nov) <= 2 ^ 24)%Z ->
  (Z.of_nat (length (fft_input L nov)) <= 2 ^ 25)%Z /\
  Forall (fun z => fle (fabs (fst z)) f2 = true /\ fle (fabs (snd z)) f2 = true) (fft_input L nov).
Proof.
  intros L nov C H N Len. split.
  - unfold fft_input. rewrite app_length, map_length, combine_length, seq_length, repeat_length, Nat.min_id.
    pose proof (next_pow2_le (length nov)) as P. destruct nov; [congruence|]. cbn [length] in *. specialize (P ltac:(lia)). lia.
  - unfold fft_input. pose proof (mean_in01 nov N ltac:(lia) H) as M.
    change (z2f (Z.of_nat (length nov))) with (n2f (length nov)) in M. change (fold_left fadd nov f0) with (fsum nov) in M.
    generalize dependent (fdiv (fsum nov) (n2f (length nov))). intros mean M.
    apply Forall_app. split.
    + apply Forall_map, Forall_forall. intros (i & x) I. cbn [fst snd].
      apply In_nth_error in I as (j & J). apply nth_error_combine_iff in J as (J1 & J2). apply nth_error_seq_iff in J1 as (J1 & ->).
      split; [|reflexivity]. apply within_abs1. change 1%Z with (1 + 0)%Z. apply within_mul; [lia| |].
      * change 1%Z with (0 + 1)%Z. apply within_sub; [lia| |]; apply upto_within, in01_upto; auto.
        rewrite Forall_forall in H. apply H. eapply nth_error_In; eauto.
      * apply hann_within; auto.
    + apply Forall_forall. intros z I. apply repeat_spec in I. subst z. split; reflexivity.
Qed.

Lemma fft_clean : forall F L nov rate hop mn mx t, fft_bounds F -> cos_bounds L -> Forall in01 nov ->
  (Z.of_nat (length nov) <= 2 ^ 24)%Z -> fft_tempogram F L nov rate hop mn mx = Ok t -> clean t.
Proof.
  intros F L nov rate hop mn mx t HF C H Len E. unfold fft_tempogram in E.
  destruct (Nat.eqb_spec (length nov) 0) as [|Ne]; [discriminate|]. destruct (rate =? 0); [discriminate|].
  destruct (hop =? 0); [discriminate|]. destruct (_ || _); [discriminate|].
  assert (Ht := f_equal (fun o => match o with Ok l => l | _ => [] end) E). cbn beta iota in Ht. clear E. subst t.
  destruct (fft_input_within L nov C H ltac:(destruct nov; cbn in Ne; congruence) Len) as (Li & Fi).
  specialize (HF _ Li Fi). generalize dependent (fft_forward F (fft_input L nov)). intros buf HF.
  apply Forall_forall. intros (b & p) I. apply sort_desc_in, filter_In in I as (I & _).
  apply in_map_iff in I as ((k & q) & [= _ <-] & I). cbn [snd]. apply in_combine_r, In_nth_error in I as (j & J).
  rewrite nth_error_firstn in J. destruct (j <? _); [|discriminate]. apply nth_error_In, in_map_iff in J as ((re & im) & <- & I).
  rewrite Forall_forall in HF. destruct (HF _ I) as (R & M). cbn [fst snd] in *.
  apply within_abs in R, M; try lia.
  assert (U : forall x, within 60 x -> upto 120 (fmul x x)).
  { intros x W. apply within_upto; [change 120%Z with (60 + 60)%Z; apply within_mul; auto; lia|].
    apply NormalizationProofs.square_nneg. eapply within_nn; eauto. }
  assert (U2 : upto (120 + 1) (fadd (fmul re re) (fmul im im))) by (apply upto_add; auto; lia).
  split; [eapply upto_fin|eapply upto_nneg]; eauto.
Qed.
Lemma ac_clean : forall fuel nov rate hop mn mx res t, Forall in01 nov -> (Z.of_nat (length nov) <= 2 ^ 24)%Z ->
  autocorr_tempogram fuel nov rate hop mn mx res = Some (Ok t) -> clean t.
Proof.
  intros fuel nov rate hop mn mx res t H Len E. apply Forall_forall. intros (x & s) I.
  assert (S : in01 s) by (eapply (C53_strength_unit _ _ _ _ _ _ _ _ E); eauto).
  cbn [snd]. split; [now apply in01_fin|apply S].
Qed.

Section Fit.
  Variables (F : fft_oracle) (L : libm) (fuel : nat) (spec : list (list f32)) (rate hop : nat) (mn mx res : f32).
  Hypotheses (HF : fft_bounds F) (HC : cos_bounds L) (HL : ln_bounds L) (HM : moderate spec)
    (HW : forall n, rect n spec -> (Z.of_nat n <= 2 ^ 24)%Z) (HN : (Z.of_nat (length spec) <= 2 ^ 24)%Z).

  Lemma curve_len : forall c out, NoveltyProps.run L c spec = Ok out -> (Z.of_nat (length out) <= 2 ^ 24)%Z.
  Proof.
    intros c out H. apply run_ok in H. destruct H as [(_ & ->)|(n & A & B & R & H)]; [cbn; lia|].
    destruct H as [(_ & ->)|(_ & H)]; [cbn; lia|].
    destruct c; try (subst out; rewrite normalize_adj_length, ?map_length; lia).
    destruct H as (edges & _ & ->). rewrite normalize_adj_length, ?map_length; lia.
  Qed.
  Lemma curve_unit : forall c out, NoveltyProps.run L c spec = Ok out -> Forall in01 out.
  Proof. intros c out H. apply (C25_unit L c spec out HL HM HW H). Qed.

  Lemma fit_tempograms : forall full w nov t, Forall in01 nov -> (Z.of_nat (length nov) <= 2 ^ 24)%Z ->
    fle w (lit 1 100) = true -> tempograms F L fuel rate hop mn mx res nov = Some (Ok t) ->
    fit (make_variant full w (fst t) (snd t)).
  Proof.
    intros full w nov t H Len W E. unfold tempograms in E.
    destruct (fft_tempogram F L nov rate hop mn mx) as [tf| |] eqn:E1; cbn [rbind] in E; try discriminate.
    destruct (autocorr_tempogram fuel nov rate hop mn mx res) as [[ta| |]|] eqn:E2; cbn [rbind] in E; try discriminate.
    injection E as <-. cbn [fst snd]. repeat split; auto.
    - eapply fft_clean; eauto.
    - eapply ac_clean; eauto.
  Qed.

  (** Usable band fusion settings. *)
  Definition usable (c : band_config) : Prop :=
    (forall w, In w [bc_w_full c; bc_w_low c; bc_w_mid c; bc_w_high c; bc_w_mel c; bc_bonus c] -> fle w (lit 1 100) = true) /\
    (forall w, In w [bc_nov_s c; bc_nov_e c; bc_nov_h c] -> flt (lit 1 125) w = false).

  Lemma combine_unit : forall cfg s e h, (forall c, cfg = Some c -> usable c) -> Forall in01 s -> Forall in01 e -> Forall in01 h ->
    Forall in01 (combine_novelty cfg s e h) /\ length (combine_novelty cfg s e h) <= length s.
  Proof.
    intros [c|] s e h U S E H; cbn [combine_novelty].
    - destruct (C25_combined s e h _ _ _ (bc_mean_window c) (bc_smooth_window c) S E H (proj2 (U c eq_refl))) as (A & B & _).
      split; auto. lia.
    - destruct (C25_combined_default s e h S E H) as (A & B). split; auto. lia.
  Qed.

  Lemma bands_fit : forall c bs vs, usable c -> (forall b, In b bs -> fle (snd b) (lit 1 100) = true) ->
    band_variants F L fuel spec rate hop mn mx res c bs = Some (Ok vs) -> Forall fit vs /\ length vs <= length bs.
  Proof.
    intros c bs. induction bs as [|((a & b) & w) bs IH]; intros vs U W H; cbn [band_variants] in H.
    - injection H as <-. split; [constructor|auto].
    - assert (W' : forall b, In b bs -> fle (snd b) (lit 1 100) = true) by (intros; apply W; now right).
      assert (G : band_variants F L fuel spec rate hop mn mx res c bs = Some (Ok vs) ->
        Forall fit vs /\ length vs <= length ((a, b, w) :: bs)).
      { intros Hb. destruct (IH vs U W' Hb). split; auto. cbn [length]. lia. }
      destruct (negb _); [now apply G|]. destruct (b <=? a + 1); [now apply G|].
      destruct (superflux_novelty_band (m_ln L) spec (bc_filter c) a b) as [s| |] eqn:Es; cbn [rbind] in H; try discriminate.
      destruct (energy_flux_novelty_band spec a b) as [e| |] eqn:Ee; cbn [rbind] in H; try discriminate.
      destruct (hfc_novelty_band spec a b) as [h| |] eqn:Eh; cbn [rbind] in H; try discriminate.
      cbv zeta in H. destruct (length (combine_novelty (Some c) s e h) =? 0); [now apply G|].
      destruct (tempograms F L fuel rate hop mn mx res (combine_novelty (Some c) s e h)) as [[t| |]|] eqn:Et; cbn [rbind] in H; try discriminate.
      destruct (band_variants F L fuel spec rate hop mn mx res c bs) as [[vs'| |]|] eqn:Er; cbn [rbind] in H; try discriminate.
      assert (vs = make_variant false w (fst t) (snd t) :: vs') by congruence. subst vs.
      destruct (IH vs' U W' eq_refl) as (A & B). split; [|cbn [length]; lia].
      pose proof (curve_unit (SuperBand (bc_filter c) a b) s Es) as S1.
      pose proof (curve_unit (EnergyBand a b) e Ee) as S2.
      pose proof (curve_unit (HfcBand a b) h Eh) as S3.
      destruct (combine_unit (Some c) s e h ltac:(intros c' [= <-]; auto) S1 S2 S3) as (A1 & A2).
      pose proof (curve_len (SuperBand (bc_filter c) a b) s Es) as L1.
      constructor; auto. eapply fit_tempograms; [exact A1|lia| |exact Et]. apply (W (a, b, w)). now left.
  Qed.
  Lemma mel_fit : forall c vs, usable c -> mel_variant F L fuel spec rate hop mn mx res c = Some (Ok vs) ->
    Forall fit vs /\ length vs <= 1.
  Proof.
    intros c vs U H. unfold mel_variant in H. destruct (bc_mel c); [|injection H as <-; split; [constructor|cbn; lia]].
    destruct (mel_superflux_novelty L spec (Z.of_nat rate) (bc_n_mels c) (bc_mel_fmin c) (bc_mel_fmax c) (bc_mel_filter c)) as [m| |] eqn:Em;
      cbn [rbind] in H; try discriminate.
    destruct (length m =? 0); [injection H as <-; split; [constructor|cbn; lia]|].
    destruct (tempograms F L fuel rate hop mn mx res m) as [[t| |]|] eqn:Et; cbn [rbind] in H; try discriminate.
    assert (vs = [make_variant false (bc_w_mel c) (fst t) (snd t)]) by congruence. subst vs. split; [|cbn; lia].
    pose proof (curve_unit (MelSuper (Z.of_nat rate) (bc_n_mels c) (bc_mel_fmin c) (bc_mel_fmax c) (bc_mel_filter c)) m Em) as S1.
    pose proof (curve_len (MelSuper (Z.of_nat rate) (bc_n_mels c) (bc_mel_fmin c) (bc_mel_fmax c) (bc_mel_filter c)) m Em) as L1.
    constructor; auto. eapply fit_tempograms; [exact S1|exact L1| |exact Et]. apply (proj1 U). cbn. auto 10.
  Qed.

  Lemma variants_fit : forall cfg v, (forall c, cfg = Some c -> usable c) ->
    variants F L fuel spec rate hop mn mx res cfg = Some (Ok v) ->
    Forall fit (fst v :: snd v) /\ length (snd v) <= 4.
  Proof.
    intros cfg v U H. unfold variants in H. cbv zeta in H. destruct (_ =? 0); [discriminate|].
    destruct (superflux_novelty (m_ln L) spec _) as [s| |] eqn:Es; cbn [rbind] in H; try discriminate.
    destruct (energy_flux_novelty spec) as [e| |] eqn:Ee; cbn [rbind] in H; try discriminate.
    destruct (hfc_novelty spec (Z.of_nat rate)) as [h| |] eqn:Eh; cbn [rbind] in H; try discriminate.
    pose proof (curve_unit (Super _) s Es) as S1. pose proof (curve_unit Energy e Ee) as S2.
    pose proof (curve_unit (Hfc (Z.of_nat rate)) h Eh) as S3. pose proof (curve_len (Super _) s Es) as L1.
    destruct (combine_unit cfg s e h U S1 S2 S3) as (A1 & A2).
    destruct (length (combine_novelty cfg s e h) =? 0); [discriminate|].
    destruct (tempograms F L fuel rate hop mn mx res (combine_novelty cfg s e h)) as [[t| |]|] eqn:Et; cbn [rbind] in H; try discriminate.
    assert (Ff : fit (make_variant true (match cfg with Some c => bc_w_full c | None => f1 end) (fst t) (snd t))).
    { eapply fit_tempograms; [exact A1|lia| |exact Et]. destruct cfg as [c|]; [apply (proj1 (U c eq_refl)); cbn; auto|vm_compute; reflexivity]. }
    destruct cfg as [c|].
    - assert (Hb : exists b m, (if bc_enabled c then band_variants F L fuel spec rate hop mn mx res c (bands c rate (match spec with [] => 0 | f :: _ => length f end)) else Some (Ok [])) = Some (Ok b)
         /\ mel_variant F L fuel spec rate hop mn mx res c = Some (Ok m) /\ v = (make_variant true (bc_w_full c) (fst t) (snd t), b ++ m)).
      { destruct (if bc_enabled c then _ else _) as [[b| |]|] eqn:Eb; cbn [rbind] in H; try discriminate.
        destruct (mel_variant F L fuel spec rate hop mn mx res c) as [[m| |]|] eqn:Em; cbn [rbind] in H; try discriminate.
        exists b, m. repeat split; auto. congruence. }
      destruct Hb as (b & m & Eb & Em & ->). cbn [fst snd]. destruct (mel_fit c m (U c eq_refl) Em) as (Fm & Lm).
      assert (Fb : Forall fit b /\ length b <= 3).
      { destruct (bc_enabled c); [|injection Eb as <-; split; [constructor|cbn; lia]].
        apply bands_fit in Eb; [destruct Eb; split; auto|auto|].
        destruct (U c eq_refl) as (W & _). intros x [<-|[<-|[<-|[]]]]; apply W; cbn [snd In]; auto 10. }
      destruct Fb as (Fb & Lb). split; [constructor; auto; apply Forall_app; auto|]. rewrite app_length. lia.
    - assert (v = (make_variant true f1 (fst t) (snd t), [])) by congruence. subst v. cbn [fst snd length].
      split; [constructor; auto|lia].
  Qed.
End Fit.
