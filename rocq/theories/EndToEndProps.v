(** C70: tempo and beat grid of a complete analysis. *)
From Coq Require Import ZArith Reals Lra Sorted.
From Flocq Require Import Core BinarySingleNaN.
From Verif Require Import Rust F32 F32Facts F32More Libm Onsets Chroma CandidateFilter CandidateFilterProps Tempogram TempogramProps
  MultiResolutionProps ListFacts HmmBeatsProofs BeatGrid BeatGridProofs BeatGridProps Bounds Confidence Config KeyStage Pipeline PipelineProofs PipelineProps EscalationProps
  OnsetChoiceProps.
Local Open Scope nat_scope.

(** Whichever way the tempogram stage goes, its tempo is in the requested range if that contains [70,180]. *)
Theorem C70_tempogram : forall P fuel c rate samples spec st t,
  tempogram_stage P fuel c rate samples spec = Some (Ok st) -> tg_est st = Some t ->
  fle (cf_min_bpm c) (z2f 70) = true -> fle (z2f 180) (cf_max_bpm c) = true ->
  fle (cf_min_bpm c) (e_bpm t) = true /\ fle (e_bpm t) (cf_max_bpm c) = true /\ conf_ok (e_conf t).
Proof.
  intros P fuel c rate samples spec st t H T M1 M2.
  destruct (cf_enable_tempogram_multi_resolution c) eqn:Em.
  - destruct (C69_source _ _ _ _ _ _ _ _ H T Em) as (base & cands & mid & Sb & Hm & Hp & _ & _ & Cf & _).
    assert (SC : forall s e l, single_call P fuel c rate s = Some (Ok (e, l)) -> fle (cf_min_bpm c) (e_bpm e) = true /\ fle (e_bpm e) (cf_max_bpm c) = true).
    { intros s e l Q. apply C27_prefix in Q as (rest & Q & _). apply C27_range in Q as (A & B & _). auto. }
    destruct (SC _ _ _ Sb) as (B1 & B2).
    assert (Rm : fle (cf_min_bpm c) (e_bpm mid) = true /\ fle (e_bpm mid) (cf_max_bpm c) = true).
    { destruct Hm as [(-> & _) | (_ & _ & (l & Q) & _)]; [auto|]. exact (C28_range _ _ _ _ _ _ _ _ _ _ _ _ _ _ Q M1 M2). }
    destruct Hp as [(-> & _) | (_ & _ & _ & _ & _ & (h & p & l & _ & Q) & _)]; [tauto|]. destruct (SC _ _ _ Q). auto.
  - unfold tempogram_stage in H.
    destruct (cf_force_legacy_bpm c || (length spec =? 0)).
    { assert (X : no_tempo = st) by congruence. subst st. discriminate T. }
    rewrite Em in H. destruct (cf_emit_tempogram_candidates c).
    + apply rbind_ok in H as (b & Hb & H). destruct b as [[e l]|]; [|injection H as <-; discriminate T].
      assert (e = t) by (injection H as <-; cbn in T; congruence). subst e.
      destruct (tempogram_candidates _ _ _ _ _ _ _ _ _ _ _) as [[x| |]|] eqn:Q; try discriminate Hb. cbn in Hb.
      assert (x = (t, l)) by congruence. subst x.
      apply C27_prefix in Q as (rest & Q & _). apply C27_range in Q as (A & B & _ & _ & _ & _ & C). auto.
    + apply rbind_ok in H as (b & Hb & H). destruct b as [[e l]|]; [|injection H as <-; discriminate T].
      assert (e = t) by (injection H as <-; cbn in T; congruence). subst e.
      destruct (tempogram_impl _ _ _ _ _ _ _ _ _ _) as [[x| |]|] eqn:Q; try discriminate Hb. cbn in Hb.
      assert (x = (t, l)) by congruence. subst x. apply C27_range in Q as (A & B & _ & _ & _ & _ & C). auto.
Qed.
Print Assumptions C70_tempogram.

(** The reported tempo: 0 if there is no estimate; otherwise in the requested range (exactly if it is the tempogram's, up to
    the rounding of the average if it is the onset-based one). *)
Theorem C70_bpm : forall P fuel samples rate c r,
  analyze_audio P fuel samples rate c = Some (Ok r) ->
  fle f1 (cf_min_bpm c) = true -> fisfin (cf_max_bpm c) = true -> (B2R (cf_max_bpm c) <= bpow radix2 90)%R ->
  fle (cf_min_bpm c) (z2f 70) = true -> fle (z2f 180) (cf_max_bpm c) = true ->
  (tg_est (fr_tempo r) = None /\ ar_bpm (fr_core r) = f0 /\ ar_bpm_confidence (fr_core r) = f0) \/
  (fle (cf_min_bpm c) (ar_bpm (fr_core r)) = true /\ fle (ar_bpm (fr_core r)) (cf_max_bpm c) = true) \/
  (tg_est (fr_tempo r) = None /\ fisfin (ar_bpm (fr_core r)) = true /\
   (B2R (cf_min_bpm c) * (1 - / 8192) <= B2R (ar_bpm (fr_core r)) <= B2R (cf_max_bpm c) * (1 + / 8192))%R).
Proof.
  intros P fuel samples rate c r H M1 Fx Mx M2 M3.
  destruct (C44_precedence _ _ _ _ _ _ H) as (l & L & X). cbv zeta in X. destruct X as (X1 & X2 & X3 & X4).
  pose proof H as H'. apply analyze_stages in H as (tr & en & sp & o & l' & _ & _ & _ & _ & _ & _ & _ & G & _).
  destruct (tg_est (fr_tempo r)) as [t|] eqn:Te.
  - destruct (C70_tempogram _ _ _ _ _ _ _ _ G Te M2 M3) as (A & B & _). right. left.
    assert (Ps : fle (e_bpm t) f0 = false).
    { apply flt_fle_false. eapply flt_fle_trans; [|exact A]. eapply flt_fle_trans; [|exact M1]. reflexivity. }
    assert (Eb : ar_bpm (fr_core r) = e_bpm t).
    { destruct (cf_force_legacy_bpm c) eqn:Fo; [destruct (X1 eq_refl); congruence|].
      destruct (cf_enable_bpm_fusion c) eqn:Fu.
      - apply (C44_fusion _ _ _ _ _ _ _ H' Fo Fu Te Ps).
      - specialize (X3 t eq_refl eq_refl). congruence. }
    rewrite Eb. auto.
  - specialize (X2 eq_refl). destruct l as [l|].
    + right. right. split; [reflexivity|]. assert (Eb : ar_bpm (fr_core r) = e_bpm l) by congruence. rewrite Eb.
      destruct L as (? & ? & ? & os & _ & _ & _ & _ & L). unfold legacy_stage in L. destruct (2 <=? length os); [|discriminate].
      apply C54_in_range in L; auto. tauto.
    + left. split; [reflexivity|]. split; congruence.
Qed.
Print Assumptions C70_bpm.

(** The reported beat grid: finite times in order, downbeats among the beats, every beat within 54 ms of one of the onsets
    used, stability in [0,1] or NaN. *)
Theorem C70_grid : forall P fuel samples rate c r, exp_ok (m_exp (pf_libm P)) ->
  (forall x, fle x (lit (-37) (-4)) = true -> fle (m_exp (pf_libm P) x) (lit 13421773 (-27)) = true) ->
  analyze_audio P fuel samples rate c = Some (Ok r) ->
  exists onsets, onsets_of P samples rate c onsets /\ StronglySorted lt onsets /\
  let times := map (fun o => fdiv (n2f o) (n2f rate)) onsets in
  Forall (fun t => fisfin t = true) (g_beats (fr_grid r)) /\
  StronglySorted (fun a b => fle a b = true) (g_beats (fr_grid r)) /\
  g_bars (fr_grid r) = g_downbeats (fr_grid r) /\ subseq (g_downbeats (fr_grid r)) (g_beats (fr_grid r)) /\
  Forall (fun b => exists o, In o times /\ flt (fabs (fsub o b)) (lit 14495515 (-28)) = true) (g_beats (fr_grid r)) /\
  (fisnan (ar_grid_stability (fr_core r)) = true \/ in01 (ar_grid_stability (fr_core r))).
Proof.
  intros P fuel samples rate c r He Ht H.
  apply analyze_stages in H as (tr & e & s & o & l & _ & _ & H1 & H2 & H3 & H4 & _ & _ & _ & G & _).
  exists o. split; [exists tr, e, s; auto|]. split; [apply (C68_range _ _ _ _ _ _ _ H2 H4)|]. cbv zeta.
  assert (E : forall g st, (empty_grid, f0) = (g, st) -> Forall (fun t => fisfin t = true) (g_beats g) /\
     StronglySorted (fun a b => fle a b = true) (g_beats g) /\ g_bars g = g_downbeats g /\ subseq (g_downbeats g) (g_beats g) /\
     Forall (fun b => exists o0, In o0 (map (fun o => fdiv (n2f o) (n2f rate)) o) /\ flt (fabs (fsub o0 b)) (lit 14495515 (-28)) = true) (g_beats g) /\
     (fisnan st = true \/ in01 st)).
  { intros g st Q. assert (g = empty_grid) by congruence. assert (st = f0) by congruence. subst. cbn.
    do 5 (split; [constructor|]). right. apply in01_0. }
  unfold beat_stage in G. destruct (fgt (ar_bpm (fr_core r)) f0 && (2 <=? length o)); [|apply E; congruence].
  apply rbind_ok in G as (g & Hg & G). destruct g as [[g st]|]; [|apply E; congruence].
  assert (Eg : g = fr_grid r) by congruence. assert (Es : st = ar_grid_stability (fr_core r)) by congruence. rewrite <- Eg, <- Es.
  set (times := map _ o) in *.
  destruct (generate_beat_grid fuel (m_exp (pf_libm P)) (ar_bpm (fr_core r)) (ar_bpm_confidence (fr_core r)) times) as [[x| |]|] eqn:Q; try discriminate Hg.
  cbn in Hg. assert (x = (g, st)) by congruence. subst x.
  destruct (C33_grid _ _ _ _ _ _ _ He Q) as (A1 & A2 & A3 & A4 & _).
  split; [exact A1|]. split; [exact A2|]. split; [exact A3|]. split; [exact A4|]. split.
  - apply Forall_forall. intros b Hb. destruct (C33_near_onset _ _ _ _ _ _ _ _ He Ht Q Hb) as (x & I & _ & D). eauto.
  - exact (C33_stability _ _ _ _ _ _ _ He Q).
Qed.
Print Assumptions C70_grid.
