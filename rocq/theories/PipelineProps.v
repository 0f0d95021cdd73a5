(** C44 and C45: tempo selection and reporting in analyze_audio. *)
From Coq Require Import ZArith String Reals.
From Verif Require Import Rust F32 F32Facts F32More Libm Onsets Chroma CandidateFilter Tempogram BeatGrid Confidence Config
  KeyStage Pipeline PipelineProofs.
Local Open Scope nat_scope.

(** ** C44: BPM selection *)

(** The stages that decide about the tempo of a successful analysis: which onsets the legacy estimator saw and what it
    answered.  (The tempogram estimate is part of the result.) *)
Definition legacy_answer (P : platform) (fuel : nat) (samples : list f32) (rate : nat) (c : analysis_config)
    (legacy : option estimate) : Prop :=
  exists trimmed energy spec onsets,
    preprocess P c rate samples = Ok trimmed /\
    detect_energy_flux_onsets (m_powf (pf_libm P)) trimmed (cf_frame_size c) (cf_hop_size c) (z2f (-20)) = Ok energy /\
    compute_stft (pf_fft P) (pf_libm P) trimmed (cf_frame_size c) (cf_hop_size c) = Ok spec /\
    choose_onsets c rate (length trimmed) spec energy = Ok onsets /\
    legacy_stage P fuel c rate onsets = Some (Ok legacy).

Lemma stages_legacy P fuel samples rate c r : analyze_audio P fuel samples rate c = Some (Ok r) ->
  exists legacy, legacy_answer P fuel samples rate c legacy /\
    choose_bpm c (tg_est (fr_tempo r)) legacy = (ar_bpm (fr_core r), ar_bpm_confidence (fr_core r)).
Proof.
  intros H. apply analyze_stages in H as (t & e & s & o & l & _ & _ & H1 & H2 & H3 & H4 & H5 & _ & H7 & _).
  exists l. split; [exists t, e, s, o; auto | exact H7].
Qed.

(** The legacy tempo l confirms the tempo t: at one of the five metrical levels it is at most 2 BPM away. *)
Definition same_family (t l : f32) : Prop :=
  flt f0 l = true /\
  (fle (fabs (fsub l t)) f2 = true \/
   exists m, In m [fhalf; f2; fdiv f2 (z2f 3); fdiv (z2f 3) f2] /\ fle (fabs (fsub l (fmul t m))) f2 = true).

Lemma confirms_iff t l : confirms t l = true <-> same_family t l.
Proof.
  unfold confirms, same_family, fgt. rewrite andb_true_iff.
  assert (E : forall d1 d2 d3 d4 d5, existsb (fun d => fle d f2) [d1; d2; d3; d4; d5] = true <->
    fle d1 f2 = true \/ fle d2 f2 = true \/ fle d3 f2 = true \/ fle d4 f2 = true \/ fle d5 f2 = true).
  { intros. cbn [existsb]. rewrite !orb_true_iff. intuition congruence. }
  rewrite E. split; intros (H & D); split; auto.
  - destruct D as [D|[D|[D|[D|D]]]]; [left; exact D|right..].
    + exists fhalf. split; [now left | exact D].
    + exists f2. split; [now right; left | exact D].
    + exists (fdiv f2 (z2f 3)). split; [now right; right; left | exact D].
    + exists (fdiv (z2f 3) f2). split; [now right; right; right; left | exact D].
  - destruct D as [D | (m & [<-|[<-|[<-|[<-|[]]]]] & D)]; tauto.
Qed.

Lemma clamp_nneg : forall x, nneg x -> fclamp_val x f0 f1 = fmin x f1.
Proof.
  intros x H. unfold fclamp_val, fmin. change (fisnan f1) with false. rewrite (fle_flt_false _ _ H).
  unfold fisnan. now rewrite (nneg_nn _ H).
Qed.


(** With fusion, a positive tempogram tempo is always the reported one.  Its confidence (cut to [0,1]) is raised by at
    most 0.12 if the legacy tempo confirms it, multiplied by 0.9 if the legacy estimator found another tempo, and kept
    otherwise. *)
Theorem C44_fusion : forall P fuel samples rate c r t,
  analyze_audio P fuel samples rate c = Some (Ok r) ->
  cf_force_legacy_bpm c = false -> cf_enable_bpm_fusion c = true ->
  tg_est (fr_tempo r) = Some t -> fle (e_bpm t) f0 = false ->
  ar_bpm (fr_core r) = e_bpm t /\
  (fisnan (e_conf t) = false -> in01 (ar_bpm_confidence (fr_core r))) /\
  (fisnan (e_conf t) = true -> fisnan (ar_bpm_confidence (fr_core r)) = true) /\
  exists legacy, legacy_answer P fuel samples rate c legacy /\
    let own := fclamp_val (e_conf t) f0 f1 in
    match legacy with
    | Some l =>
        (same_family (e_bpm t) (e_bpm l) ->
           ar_bpm_confidence (fr_core r)
             = fmin (fadd own (fmul (lit 16106127 (-27)) (fmin (e_conf l) f1))) f1 \/ fisnan (e_conf t) = true) /\
        (~ same_family (e_bpm t) (e_bpm l) -> flt f0 (e_bpm l) = true ->
           ar_bpm_confidence (fr_core r) = fmul own (lit 7549747 (-23))) /\
        (flt f0 (e_bpm l) = false -> ar_bpm_confidence (fr_core r) = own)
    | None => ar_bpm_confidence (fr_core r) = own
    end.
Proof.
  intros P fuel samples rate c r t H Fo Fu T N.
  destruct (stages_legacy _ _ _ _ _ _ H) as (l & L & E).
  assert (NL : forall e, l = Some e -> nneg (e_conf e)).
  { intros e ->. destruct L as (? & ? & ? & ? & _ & _ & _ & _ & L). eapply legacy_conf; exact L. }
  unfold choose_bpm in E. rewrite Fo, Fu, T in E. unfold tempo_or at 1 in E. rewrite N in E.
  set (own := fclamp_val (e_conf t) f0 f1) in *.
  assert (O1 : fisnan (e_conf t) = false -> in01 own) by (intros; now apply in01_clamp).
  assert (O2 : fisnan (e_conf t) = true -> own = e_conf t) by (intros; now apply fclamp_val_nan).
  destruct l as [l|].
  - cbn [tempo_or] in E. specialize (NL l eq_refl). pose proof (nneg_nn _ NL) as NNL.
    assert (M : fclamp_val (e_conf l) f0 f1 = fmin (e_conf l) f1).
    { now apply clamp_nneg. }
    rewrite M in E.
    assert (NB : nneg (fmul (lit 16106127 (-27)) (fmin (e_conf l) f1))).
    { assert (I : in01 (fmin (e_conf l) f1)) by (rewrite <- M; now apply in01_clamp).
      destruct I as (I1 & I2). apply fmul_nneg_fin; auto; try reflexivity. apply (fin_between f0 _ f1); auto. }
    set (b := fmul (lit 16106127 (-27)) (fmin (e_conf l) f1)) in *.
    destruct (confirms (e_bpm t) (e_bpm l)) eqn:Cf.
    + assert (E1 : ar_bpm (fr_core r) = e_bpm t) by congruence.
      assert (E2 : ar_bpm_confidence (fr_core r) = fclamp_val (fadd own b) f0 f1) by congruence.
      rewrite E1, E2. split; [reflexivity|].
      destruct (fisnan (e_conf t)) eqn:Nt.
      * assert (X : fisnan (fadd own b) = true).
        { rewrite (O2 eq_refl). destruct (e_conf t); try discriminate. now destruct b. }
        split; [discriminate|]. split; [intros _; rewrite fclamp_val_nan; assumption|].
        exists (Some l). split; [exact L|]. cbv zeta. split; [right; reflexivity|].
        apply confirms_iff in Cf. split; [intros Q; contradiction|]. intros Q. destruct Cf. congruence.
      * destruct (O1 eq_refl) as (I1 & I2).
        assert (NS : nneg (fadd own b)) by (apply fadd_nneg; assumption).
        split; [intros _; apply in01_clamp, nneg_nn, NS|]. split; [discriminate|].
        exists (Some l). split; [exact L|]. cbv zeta. apply confirms_iff in Cf.
        split; [left | split; [intros Q; contradiction | intros Q; destruct Cf; congruence]].
        rewrite (clamp_nneg _ NS). reflexivity.
    + assert (NC : ~ same_family (e_bpm t) (e_bpm l)) by (rewrite <- confirms_iff, Cf; discriminate).
      change (fgt (e_bpm l) f0) with (flt f0 (e_bpm l)) in E. destruct (flt f0 (e_bpm l)) eqn:Pl.
      * assert (E1 : ar_bpm (fr_core r) = e_bpm t) by congruence.
        assert (E2 : ar_bpm_confidence (fr_core r) = fclamp_val (fmul own (lit 7549747 (-23))) f0 f1) by congruence.
        rewrite E1, E2. split; [reflexivity|].
        destruct (fisnan (e_conf t)) eqn:Nt.
        -- assert (X : fisnan (fmul own (lit 7549747 (-23))) = true).
           { rewrite (O2 eq_refl). destruct (e_conf t); try discriminate. reflexivity. }
           split; [discriminate|]. split; [intros _; rewrite fclamp_val_nan; assumption|].
           exists (Some l). split; [exact L|]. cbv zeta. split; [intros Q; contradiction|].
           split; [intros _ _; apply fclamp_val_nan; assumption | intros Q; rewrite Q in Pl; discriminate Pl].
        -- assert (I : in01 (fmul own (lit 7549747 (-23)))) by (apply in01_mul; [auto | now split]).
           rewrite (fclamp_val_in _ f0 f1) by apply I. split; [intros _; exact I|]. split; [discriminate|].
           exists (Some l). split; [exact L|]. cbv zeta. split; [intros Q; contradiction|].
           split; [reflexivity | intros Q; rewrite Q in Pl; discriminate Pl].
      * assert (E1 : ar_bpm (fr_core r) = e_bpm t) by congruence.
        assert (E2 : ar_bpm_confidence (fr_core r) = own) by congruence.
        rewrite E1, E2. split; [reflexivity|]. split; [exact O1|]. split; [intros Q; now rewrite (O2 Q)|].
        exists (Some l). split; [exact L|]. cbv zeta. split; [intros Q; contradiction|].
        split; [intros _ Q; congruence | reflexivity].
  - cbn [tempo_or] in E. change (confirms (e_bpm t) f0) with false in E. change (fgt f0 f0) with false in E.
    assert (E1 : ar_bpm (fr_core r) = e_bpm t) by congruence.
    assert (E2 : ar_bpm_confidence (fr_core r) = own) by congruence.
    rewrite E1, E2. split; [reflexivity|]. split; [exact O1|]. split; [intros Q; now rewrite (O2 Q)|].
    exists None. split; [exact L|]. reflexivity.
Qed.
Print Assumptions C44_fusion.

(** Fusion without a usable tempogram tempo, and no fusion: tempogram, then legacy, then (0, 0). *)
Theorem C44_precedence : forall P fuel samples rate c r,
  analyze_audio P fuel samples rate c = Some (Ok r) ->
  exists legacy, legacy_answer P fuel samples rate c legacy /\
  let reported := (ar_bpm (fr_core r), ar_bpm_confidence (fr_core r)) in
  let from_legacy := match legacy with Some l => (e_bpm l, e_conf l) | None => (f0, f0) end in
  (cf_force_legacy_bpm c = true -> tg_est (fr_tempo r) = None /\ reported = from_legacy) /\
  (tg_est (fr_tempo r) = None -> reported = from_legacy) /\
  (forall t, tg_est (fr_tempo r) = Some t -> cf_enable_bpm_fusion c = false -> reported = (e_bpm t, e_conf t)) /\
  (forall t, tg_est (fr_tempo r) = Some t -> cf_enable_bpm_fusion c = true -> fle (e_bpm t) f0 = true ->
     reported = from_legacy).
Proof.
  intros P fuel samples rate c r H.
  destruct (stages_legacy _ _ _ _ _ _ H) as (l & L & E). exists l. split; [exact L|]. cbv zeta. rewrite <- E.
  apply analyze_stages in H as (tr & e & s & o & l' & _ & _ & _ & _ & _ & _ & _ & G & _).
  assert (FN : cf_force_legacy_bpm c = true -> tg_est (fr_tempo r) = None).
  { intros F. unfold tempogram_stage in G. rewrite F in G. cbn [orb] in G.
    assert (X : no_tempo = fr_tempo r) by congruence. now rewrite <- X. }
  assert (NF : forall t, tg_est (fr_tempo r) = Some t -> cf_force_legacy_bpm c = false).
  { intros t T. destruct (cf_force_legacy_bpm c); auto. rewrite FN in T; [discriminate | reflexivity]. }
  unfold choose_bpm. split; [|split; [|split]].
  - intros F. split; [now apply FN|]. rewrite F. reflexivity.
  - intros T. rewrite T. destruct (cf_force_legacy_bpm c); [reflexivity|].
    destruct (cf_enable_bpm_fusion c); [|reflexivity]. destruct l; reflexivity.
  - intros t T F. now rewrite T, F, (NF t T).
  - intros t T F Z0. rewrite T, F, (NF t T). cbn [tempo_or]. rewrite Z0. destruct l; reflexivity.
Qed.
Print Assumptions C44_precedence.

(** ** C45: warnings, flags, empty grids *)

(** The warnings that start with a given text. *)
Definition starting (text : string) (ws : list string) : list string := filter (String.prefix text) ws.

Lemma prefix_app : forall p x, String.prefix p (p ++ x)%string = true.
Proof.
  induction p as [|a p IH]; intros x; [now destruct x|]. cbn [String.append String.prefix].
  destruct (Ascii.ascii_dec a a); [apply IH | contradiction].
Qed.

Theorem C45_warnings : forall P fuel samples rate c r,
  analyze_audio P fuel samples rate c = Some (Ok r) ->
  let ws := ar_warnings (fr_core r) in
  (flt (ar_grid_stability (fr_core r)) (lit 1 (-1)) = true <-> length (starting "Low beat grid stability: " ws) = 1) /\
  (feq (ar_bpm (fr_core r)) f0 = true <-> length (starting "BPM detection failed: " ws) = 1) /\
  (flt (ar_key_confidence (fr_core r)) (lit 5033165 (-24)) = true
     <-> length (starting "Low key detection confidence: " ws) = 1) /\
  (flt (ar_key_clarity (fr_core r)) (lit 13421773 (-26)) = true <-> length (starting "Low key clarity: " ws) = 1) /\
  length ws = length (starting "BPM detection failed: " ws) + length (starting "Low beat grid stability: " ws)
              + length (starting "Low key detection confidence: " ws) + length (starting "Low key clarity: " ws) /\
  length ws <= 4 /\ NoDup ws.
Proof.
  intros P fuel samples rate c r H ws. unfold ws.
  apply analyze_stages in H as (? & ? & ? & ? & ? & H). destruct H as (_ & _ & _ & _ & _ & _ & _ & _ & _ & _ & _ & _ & -> & _).
  unfold warnings_of, with_value. change fhalf with (lit 1 (-1)).
  generalize (feq (ar_bpm (fr_core r)) f0) as b1. generalize (flt (ar_grid_stability (fr_core r)) (lit 1 (-1))) as b2.
  generalize (flt (ar_key_confidence (fr_core r)) (lit 5033165 (-24))) as b3.
  generalize (flt (ar_key_clarity (fr_core r)) (lit 13421773 (-26))) as b4.
  set (w1 := "BPM detection failed: insufficient onsets or estimation error"%string).
  set (w2 := ("Low beat grid stability: " ++ _)%string). set (w3 := ("Low key detection confidence: " ++ _)%string).
  set (w4 := ("Low key clarity: " ++ _)%string).
  assert (P11 : String.prefix "BPM detection failed: " w1 = true) by reflexivity.
  assert (P12 : String.prefix "BPM detection failed: " w2 = false) by reflexivity.
  assert (P13 : String.prefix "BPM detection failed: " w3 = false) by reflexivity.
  assert (P14 : String.prefix "BPM detection failed: " w4 = false) by reflexivity.
  assert (P21 : String.prefix "Low beat grid stability: " w1 = false) by reflexivity.
  assert (P22 : String.prefix "Low beat grid stability: " w2 = true) by apply prefix_app.
  assert (P23 : String.prefix "Low beat grid stability: " w3 = false) by reflexivity.
  assert (P24 : String.prefix "Low beat grid stability: " w4 = false) by reflexivity.
  assert (P31 : String.prefix "Low key detection confidence: " w1 = false) by reflexivity.
  assert (P32 : String.prefix "Low key detection confidence: " w2 = false) by reflexivity.
  assert (P33 : String.prefix "Low key detection confidence: " w3 = true) by apply prefix_app.
  assert (P34 : String.prefix "Low key detection confidence: " w4 = false) by reflexivity.
  assert (P41 : String.prefix "Low key clarity: " w1 = false) by reflexivity.
  assert (P42 : String.prefix "Low key clarity: " w2 = false) by reflexivity.
  assert (P43 : String.prefix "Low key clarity: " w3 = false) by reflexivity.
  assert (P44 : String.prefix "Low key clarity: " w4 = true) by apply prefix_app.
  clearbody w1 w2 w3 w4. intros b1 b2 b3 b4.
  assert (D : forall i j p, String.prefix p i = true -> String.prefix p j = false -> i <> j) by (intros; congruence).
  assert (ND : NoDup [w1; w2; w3; w4]).
  { repeat (apply NoDup_cons; [intros Q; cbn [In] in Q;
      repeat (destruct Q as [Q|Q]; [symmetry in Q; revert Q; first [now apply (D _ _ _ P11) | now apply (D _ _ _ P22) | now apply (D _ _ _ P33)]|]); exact Q|]).
    apply NoDup_nil. }
  unfold starting.
  destruct b1, b2, b3, b4; cbn [app];
    (split; [|split; [|split; [|split; [|split; [|split]]]]];
     repeat (cbn [filter]; rewrite ?P11, ?P12, ?P13, ?P14, ?P21, ?P22, ?P23, ?P24, ?P31, ?P32, ?P33, ?P34, ?P41, ?P42, ?P43, ?P44);
     cbn [filter length]; try (split; intros; (reflexivity || discriminate)); try lia;
     inversion_clear ND; inversion_clear H0; inversion_clear H2; inversion_clear H3;
     repeat (apply NoDup_cons; [cbn [In] in *; tauto|]); apply NoDup_nil).
Qed.
Print Assumptions C45_warnings.

Theorem C45_flags : forall P fuel samples rate c r,
  analyze_audio P fuel samples rate c = Some (Ok r) ->
  (flt (ar_key_clarity (fr_core r)) (lit 13421773 (-26)) = true -> ar_flags (fr_core r) = [WeakTonality]) /\
  (flt (ar_key_clarity (fr_core r)) (lit 13421773 (-26)) = false -> ar_flags (fr_core r) = []).
Proof.
  intros P fuel samples rate c r H.
  apply analyze_stages in H as (? & ? & ? & ? & ? & H). destruct H as (_ & _ & _ & _ & _ & _ & _ & _ & _ & _ & _ & -> & _).
  unfold flags_of. destruct (flt _ _); split; intros; (reflexivity || discriminate).
Qed.
Print Assumptions C45_flags.

Theorem C45_invalid : forall P fuel samples rate c,
  samples = [] \/ rate = 0 -> analyze_audio P fuel samples rate c = Some (Err InvalidInput).
Proof.
  intros P fuel samples rate c H. unfold analyze_audio. destruct H as [-> | ->]; [reflexivity|].
  destruct (length samples =? 0); reflexivity.
Qed.
Print Assumptions C45_invalid.

(** The onsets the run worked with: the [choose_onsets] answer on the preprocessed samples. *)
Definition onsets_of (P : platform) samples rate c (onsets : list nat) : Prop :=
  exists trimmed energy spec,
    preprocess P c rate samples = Ok trimmed /\
    detect_energy_flux_onsets (m_powf (pf_libm P)) trimmed (cf_frame_size c) (cf_hop_size c) (z2f (-20)) = Ok energy /\
    compute_stft (pf_fft P) (pf_libm P) trimmed (cf_frame_size c) (cf_hop_size c) = Ok spec /\
    choose_onsets c rate (length trimmed) spec energy = Ok onsets.

Theorem C45_grid : forall P fuel samples rate c r,
  analyze_audio P fuel samples rate c = Some (Ok r) ->
  exists onsets, onsets_of P samples rate c onsets /\
  (g_beats (fr_grid r) <> [] -> flt f0 (ar_bpm (fr_core r)) = true /\ 2 <= length onsets) /\
  (flt f0 (ar_bpm (fr_core r)) = false \/ length onsets < 2 ->
     g_beats (fr_grid r) = [] /\ g_downbeats (fr_grid r) = [] /\ g_bars (fr_grid r) = [] /\
     ar_grid_stability (fr_core r) = f0 /\
     length (starting "Low beat grid stability: " (ar_warnings (fr_core r))) = 1).
Proof.
  intros P fuel samples rate c r H. pose proof (C45_warnings _ _ _ _ _ _ H) as W. cbv zeta in W. destruct W as (W & _).
  apply analyze_stages in H as (tr & e & s & o & l & _ & _ & H1 & H2 & H3 & H4 & _ & _ & _ & G & _).
  exists o. split; [exists tr, e, s; auto|].
  unfold beat_stage in G. change (fgt (ar_bpm (fr_core r)) f0) with (flt f0 (ar_bpm (fr_core r))) in G.
  destruct (flt f0 (ar_bpm (fr_core r))) eqn:B; cbn [andb] in G.
  - destruct (2 <=? length o) eqn:L.
    + apply Nat.leb_le in L. split; [auto|]. intros [Q|Q]; [discriminate | lia].
    + apply Nat.leb_gt in L.
      assert (X1 : empty_grid = fr_grid r) by congruence. assert (X2 : f0 = ar_grid_stability (fr_core r)) by congruence.
      rewrite <- X1, <- X2 in *. split; [intros Q; contradiction|]. intros _. repeat (split; [reflexivity|]). apply W. reflexivity.
  - assert (X1 : empty_grid = fr_grid r) by congruence. assert (X2 : f0 = ar_grid_stability (fr_core r)) by congruence.
    rewrite <- X1, <- X2 in *. split; [intros Q; contradiction|]. intros _. repeat (split; [reflexivity|]). apply W. reflexivity.
Qed.
Print Assumptions C45_grid.
