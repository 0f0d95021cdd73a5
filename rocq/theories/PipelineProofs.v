(** Unfolding a successful analysis into its stages. *)
From Coq Require Import ZArith String.
From Verif Require Import Rust F32 Libm Normalization Silence Onsets Autocorrelation Chroma CandidateFilter Tempogram
  BeatGrid KeyNotation Confidence Config KeyStage Pipeline.
Local Open Scope nat_scope.

Lemma rbind_ok {A B} (x : run A) (f : A -> run B) (b : B) :
  rbind x f = Some (Ok b) -> exists a, x = Some (Ok a) /\ f a = Some (Ok b).
Proof. destruct x as [[a | e |]|]; cbn; intros H; try discriminate. exists a. auto. Qed.

(** The stages of a successful analysis. *)
Lemma analyze_stages (P : platform) fuel samples rate c r :
  analyze_audio P fuel samples rate c = Some (Ok r) ->
  exists trimmed energy spec onsets legacy,
    samples <> [] /\ rate <> 0 /\
    preprocess P c rate samples = Ok trimmed /\
    detect_energy_flux_onsets (m_powf (pf_libm P)) trimmed (cf_frame_size c) (cf_hop_size c) (z2f (-20)) = Ok energy /\
    compute_stft (pf_fft P) (pf_libm P) trimmed (cf_frame_size c) (cf_hop_size c) = Ok spec /\
    choose_onsets c rate (length trimmed) spec energy = Ok onsets /\
    legacy_stage P fuel c rate onsets = Some (Ok legacy) /\
    tempogram_stage P fuel c rate trimmed spec = Some (Ok (fr_tempo r)) /\
    choose_bpm c (tg_est (fr_tempo r)) legacy = (ar_bpm (fr_core r), ar_bpm_confidence (fr_core r)) /\
    beat_stage P fuel rate (ar_bpm (fr_core r)) (ar_bpm_confidence (fr_core r)) onsets
      = Some (Ok (fr_grid r, ar_grid_stability (fr_core r))) /\
    key_stage (pf_fft P) (pf_libm P) (pf_key P) (pf_orders P) c rate trimmed spec (g_beats (fr_grid r))
      = Ok (fr_key r, ar_key_confidence (fr_core r), ar_key_clarity (fr_core r)) /\
    ar_flags (fr_core r) = flags_of (ar_key_clarity (fr_core r)) /\
    ar_warnings (fr_core r) = warnings_of (pf_fmt2 P) (ar_bpm (fr_core r)) (ar_grid_stability (fr_core r))
                                (ar_key_confidence (fr_core r)) (ar_key_clarity (fr_core r)) /\
    fr_duration r = fdiv (n2f (length trimmed)) (n2f rate) /\ fr_rate r = rate /\
    fr_onset_consensus r = (if length energy =? 0 then f0 else f1).
Proof.
  unfold analyze_audio. intros H.
  destruct (length samples =? 0) eqn:E1; [discriminate|]. destruct (rate =? 0) eqn:E2; [discriminate|].
  apply Nat.eqb_neq in E1, E2.
  apply rbind_ok in H as (trimmed & Ht & H). apply rbind_ok in H as (energy & He & H).
  apply rbind_ok in H as (spec & Hs & H). apply rbind_ok in H as (onsets & Ho & H).
  apply rbind_ok in H as (legacy & Hl & H). apply rbind_ok in H as (tempo & Hg & H).
  destruct (choose_bpm c (tg_est tempo) legacy) as [bpm conf] eqn:Hb.
  apply rbind_ok in H as ([grid stab] & Hr & H). apply rbind_ok in H as ([[ky kc] cl] & Hk & H).
  injection Ht as Ht. injection He as He. injection Hs as Hs. injection Ho as Ho. injection Hk as Hk. injection H as <-.
  cbn [fr_core fr_key fr_grid fr_duration fr_rate fr_onset_consensus fr_tempo ar_bpm ar_bpm_confidence ar_key_confidence
       ar_key_clarity ar_grid_stability ar_flags ar_warnings fst snd] in *.
  exists trimmed, energy, spec, onsets, legacy.
  split; [intros ->; apply E1; reflexivity|]. repeat (split; [first [assumption | reflexivity]|]). reflexivity.
Qed.

(** The stages before the key detection return an error (or do not finish) in the remaining cases. *)
Lemma run_catch_ok {A} (x : run A) (y : option A) :
  run_catch x = Some (Ok y) -> (exists a, x = Some (Ok a) /\ y = Some a) \/ (exists e, x = Some (Err e) /\ y = None).
Proof.
  destruct x as [[a | e |]|]; cbn; intros H; try discriminate; injection H as <-; [left | right]; eauto.
Qed.
From Verif Require Import F32Facts F32More CombFilter CombFilterProps AutocorrelationProps CandidateFilterProps.

(** ** The legacy estimate *)

Lemma legacy_conf P fuel c rate onsets e : legacy_stage P fuel c rate onsets = Some (Ok (Some e)) -> nneg (e_conf e).
Proof.
  unfold legacy_stage. destruct (2 <=? length onsets); [|discriminate]. set (g := if _ : bool then _ else _). clearbody g.
  unfold estimate_bpm. intros H.
  destruct (estimate_autocorr _ _ _ _ _ _) as [ac | |] eqn:A; try discriminate.
  destruct (estimate_comb _ _ _ _ _ _) as [[comb | |]|] eqn:C; try discriminate. injection H as H.
  assert (R : Forall (fun c => fle f0 (Candidate.c_conf c) = true /\ fle (Candidate.c_conf c) f1 = true) (ac ++ comb)).
  { apply Forall_app. split; apply Forall_forall; intros x Hx.
    - destruct (C18_range _ _ _ _ _ _ _ A x Hx) as (_ & _ & B). exact B.
    - destruct (C19_range _ _ _ _ _ _ _ C x Hx) as (_ & _ & _ & B1 & B2). split; auto.
      eapply fle_trans; [|exact B1]. reflexivity. }
  destruct (C24_select (pf_exp2 P) g ac comb) as (_ & S0). destruct (S0 e H) as (m & Hm & _ & _ & Hc).
  destruct (C22_partial _ _ _ _ R m Hm) as (F & N & _).
  destruct g.
  - destruct Hc as (mul & Fm & Nm & ->). apply fmul_nneg_fin; auto.
  - rewrite Hc. exact N.
Qed.
