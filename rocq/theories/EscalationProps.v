(** C69: escalation from the single-resolution tempogram to the multi-resolution and percussive ones. *)
From Coq Require Import ZArith Reals Lra.
From Verif Require Import Rust F32 F32Facts F32More Libm Chroma CandidateFilter Tempogram TempogramProps MultiResolution MultiResolutionProps Hpss Bounds
  Config KeyStage Pipeline PipelineProofs.
Local Open Scope nat_scope.

(** s is the support of a tempo: the best score of the candidates within the tolerance, at least 0. *)
Definition support_of (cands : list cand) (bpm tol s : f32) : Prop :=
  fle f0 s = true /\
  (s = f0 \/ exists x, In x cands /\ fle (fabs (fsub (t_bpm x) bpm)) tol = true /\ t_score x = s) /\
  (forall x, In x cands -> fle (fabs (fsub (t_bpm x) bpm)) tol = true -> fisnan (t_score x) = false ->
     fle (t_score x) s = true).

Lemma cand_support_spec : forall cands b tol, support_of cands b tol (cand_support cands b tol).
Proof.
  intros cands b tol. unfold cand_support.
  set (step := fun best x => if fle (fabs (fsub (t_bpm x) b)) tol then fmax best (t_score x) else best).
  assert (G : forall l a, nneg a -> let s := fold_left step l a in
     fle a s = true /\ (s = a \/ exists x, In x l /\ fle (fabs (fsub (t_bpm x) b)) tol = true /\ t_score x = s) /\
     (forall x, In x l -> fle (fabs (fsub (t_bpm x) b)) tol = true -> fisnan (t_score x) = false -> fle (t_score x) s = true)).
  { induction l as [|y l IH]; intros a Ha; cbn [fold_left]; cbv zeta.
    - split; [apply fle_refl, nneg_nn, Ha|]. split; [now left | intros x []].
    - assert (A : nneg (step a y) /\ fle a (step a y) = true /\
        (step a y = a \/ (fle (fabs (fsub (t_bpm y) b)) tol = true /\ t_score y = step a y)) /\
        (fle (fabs (fsub (t_bpm y) b)) tol = true -> fisnan (t_score y) = false -> fle (t_score y) (step a y) = true)).
      { unfold step. destruct (fle (fabs (fsub (t_bpm y) b)) tol) eqn:E.
        - pose proof (nneg_nn _ Ha) as Na.
          assert (GL : fle a (fmax a (t_score y)) = true) by now apply fmax_ge_l.
          split; [eapply fle_trans; [exact Ha | exact GL]|]. split; [exact GL|]. split.
          + destruct (fmax_case a (t_score y)) as [->| ->]; auto.
          + intros _ N. now apply fmax_ge_r.
        - split; [exact Ha|]. split; [apply fle_refl, nneg_nn, Ha|]. split; [now left | discriminate]. }
      destruct A as (A1 & A2 & A3 & A4). destruct (IH _ A1) as (B1 & B2 & B3).
      split; [eapply fle_trans; eauto|]. split.
      + destruct B2 as [B2|(x & I & X1 & X2)].
        * rewrite B2. destruct A3 as [A3|(A3 & A5)]; [now left | right]. exists y. cbn [In]. auto.
        * right. exists x. cbn [In]. auto.
      + intros x [<-|I] X1 X2; [|now apply B3]. eapply fle_trans; [|exact B1]. now apply A4. }
  destruct (G cands f0 eq_refl) as (A & B & C). split; [exact A|]. split; [exact B | exact C].
Qed.

(** The band settings handed to the estimators, and when the single-resolution one gets them: if band fusion or mel novelty
    is on or the consensus bonus is positive. *)
Definition band_of (c : analysis_config) : band_config :=
  {| bc_enabled := cf_enable_tempogram_band_fusion c; bc_mel := cf_enable_tempogram_mel_novelty c;
     bc_low := cf_tempogram_band_low_max_hz c; bc_mid := cf_tempogram_band_mid_max_hz c; bc_high := cf_tempogram_band_high_max_hz c;
     bc_w_full := cf_tempogram_band_w_full c; bc_w_low := cf_tempogram_band_w_low c; bc_w_mid := cf_tempogram_band_w_mid c;
     bc_w_high := cf_tempogram_band_w_high c; bc_w_mel := cf_tempogram_mel_weight c;
     bc_seed_only := cf_tempogram_band_seed_only c; bc_support := cf_tempogram_band_support_threshold c;
     bc_bonus := cf_tempogram_band_consensus_bonus c;
     bc_n_mels := cf_tempogram_mel_n_mels c; bc_mel_fmin := cf_tempogram_mel_fmin_hz c; bc_mel_fmax := cf_tempogram_mel_fmax_hz c;
     bc_mel_filter := Z.of_nat (cf_tempogram_mel_max_filter_bins c); bc_filter := Z.of_nat (cf_tempogram_superflux_max_filter_bins c);
     bc_nov_s := cf_tempogram_novelty_w_spectral c; bc_nov_e := cf_tempogram_novelty_w_energy c; bc_nov_h := cf_tempogram_novelty_w_hfc c;
     bc_mean_window := cf_tempogram_novelty_local_mean_window c; bc_smooth_window := cf_tempogram_novelty_smooth_window c |}.
Definition aux_of (c : analysis_config) : option band_config :=
  if cf_enable_tempogram_band_fusion c then Some (band_of c)
  else if cf_enable_tempogram_mel_novelty c then Some (band_of c)
  else if flt f0 (cf_tempogram_band_consensus_bonus c) then Some (band_of c) else None.
Lemma aux_is : forall c, aux_cfg c = aux_of c.
Proof.
  intros c. unfold aux_cfg, aux_of. change (band_cfg c) with (band_of c). destruct (cf_enable_tempogram_band_fusion c), (cf_enable_tempogram_mel_novelty c); auto.
Qed.

(** The three estimators [analyze_audio] may consult. *)
Definition single_call (P : platform) fuel c rate spec : run (estimate * list cand) :=
  tempogram_candidates (pf_fft P) (pf_libm P) fuel spec rate (Z.to_nat (Z.of_nat (cf_hop_size c) mod 2 ^ 32)) (cf_min_bpm c) (cf_max_bpm c)
    (cf_bpm_resolution c) (Nat.max (Nat.max (cf_tempogram_candidates_top_n c) (cf_tempogram_multi_res_top_k c)) 10) (aux_of c).
Definition multi_call (P : platform) fuel c rate samples : run (estimate * list cand) :=
  multi_resolution_from_samples (pf_fft P) (pf_libm P) fuel samples rate (cf_frame_size c)
    (cf_min_bpm c) (cf_max_bpm c) (cf_bpm_resolution c) (cf_tempogram_multi_res_top_k c)
    {| fu_w512 := cf_tempogram_multi_res_w512 c; fu_w256 := cf_tempogram_multi_res_w256 c;
       fu_w1024 := cf_tempogram_multi_res_w1024 c; fu_double := cf_tempogram_multi_res_double_time_512_factor c;
       fu_margin := cf_tempogram_multi_res_margin_threshold c; fu_prior := cf_tempogram_multi_res_use_human_prior c |}
    (Some (band_of c)).

Definition between (a b x : f32) : Prop := fle a x = true /\ fle x b = true.
Definition conf_ok (x : f32) : Prop := in01 x \/ fisnan x = true.

Lemma between_iff : forall a b x, fge x a && fle x b = true <-> between a b x.
Proof. intros. unfold between. rewrite andb_true_iff. reflexivity. Qed.

Lemma in01_scale : forall x k, in01 x -> in01 k -> fle (fmul x k) x = true.
Proof.
  intros x k (X1 & X2) (K1 & K2). rewrite fmul_comm. apply fmul_le_r; auto. apply in01_fin. now split.
Qed.

(** A multi-resolution estimate that is taken has at least 0.88 times the confidence of the one it replaces and does not
    lift a tempo of at most 180 above 180. *)
Lemma mr_better_spec : forall base mr, conf_ok (e_conf base) -> mr_better base mr = true ->
  fle (fmul (e_conf base) (lit 7381975 (-23))) (e_conf mr) = true /\
  (fle (e_bpm base) (z2f 180) = true -> fgt (e_bpm mr) (z2f 180) = false).
Proof.
  intros base mr Cb H. unfold mr_better in H. cbv zeta in H. apply andb_true_iff in H as (Hp & H).
  split.
  2:{ intros B. unfold promotes_high in Hp. rewrite B in Hp. cbn [andb] in Hp. now apply negb_true_iff. }
  destruct Cb as [Cb | Cb].
  2:{ exfalso. destruct (e_conf base) eqn:Eb; try discriminate Cb. clear - H.
      assert (X : forall x, fge x (B754_nan : f32) = false) by (intros x; destruct x; reflexivity).
      cbn [fadd fmul] in H.
      repeat match type of H with context [fge (e_conf mr) ?y] => change y with (B754_nan : f32) in H; rewrite X in H end.
      rewrite !andb_false_r in H. discriminate. }
  assert (S1 := in01_scale (e_conf base) (lit 7381975 (-23)) Cb ltac:(now split)).
  apply orb_true_iff in H as [H|H]; [apply orb_true_iff in H as [H|H]|].
  - eapply fle_trans; [exact S1|].
    assert (F : nn (fadd (e_conf base) (lit 13421773 (-28)))).
    { destruct (is_nan (fadd (e_conf base) (lit 13421773 (-28)))) eqn:E; auto. exfalso.
      destruct (fadd (e_conf base) (lit 13421773 (-28))); discriminate. }
    eapply fle_trans; [|exact H]. apply fadd_ge_l; [apply nneg_nn, Cb | reflexivity | exact F].
  - apply andb_true_iff in H as (_ & H). eapply fle_trans; [|exact H].
    pose proof (in01_fin _ Cb). apply fmul_mono; try apply Cb; try reflexivity; [apply fle_refl, nneg_nn, Cb | |];
      apply nneg_nn, fmul_nneg_fin; auto; try apply Cb; reflexivity.
  - apply andb_true_iff in H as (H & _). apply andb_true_iff in H as (_ & H). exact H.
Qed.

Lemma p_better_spec : forall base mid p, conf_ok (e_conf mid) -> p_better base mid p = true ->
  fle (fmul (e_conf mid) (lit 7130317 (-23))) (e_conf p) = true /\ between (z2f 70) (z2f 180) (e_bpm p).
Proof.
  intros base mid p Cb H. unfold p_better in H. cbv zeta in H. apply andb_true_iff in H as (H0 & H).
  apply andb_true_iff in H0 as (H0 & Hc). apply between_iff in Hc. split; [|exact Hc]. clear H0 Hc.
  destruct Cb as [Cb | Cb].
  2:{ exfalso. destruct (e_conf mid) eqn:Eb; try discriminate Cb. clear - H.
      assert (X : forall x, fge x (B754_nan : f32) = false) by (intros x; destruct x; reflexivity).
      cbn [fadd fmul] in H.
      repeat match type of H with context [fge (e_conf p) ?y] => change y with (B754_nan : f32) in H; rewrite X in H end.
      rewrite !andb_false_r in H. discriminate. }
  assert (S1 := in01_scale (e_conf mid) (lit 7130317 (-23)) Cb ltac:(now split)).
  apply orb_true_iff in H as [H|H]; [apply orb_true_iff in H as [H|H]|].
  - eapply fle_trans; [exact S1|].
    assert (F : nn (fadd (e_conf mid) (lit 5368709 (-27)))).
    { apply nneg_nn, fadd_nneg; [apply Cb | reflexivity]. }
    eapply fle_trans; [|exact H]. apply fadd_ge_l; [apply nneg_nn, Cb | reflexivity | exact F].
  - apply andb_true_iff in H as (_ & H). exact H.
  - apply andb_true_iff in H as (_ & H). eapply fle_trans; [|exact H].
    pose proof (in01_fin _ Cb). apply fmul_mono; try apply Cb; try reflexivity; [apply fle_refl, nneg_nn, Cb | |];
      apply nneg_nn, fmul_nneg_fin; auto; try apply Cb; reflexivity.
Qed.

(** The stage's tempo is the single-resolution one, the multi-resolution one or the percussive one; the reported flags say
    which; a replacement keeps most of the confidence and never lifts a tempo above 180. *)
Theorem C69_source : forall P fuel c rate samples spec st final,
  tempogram_stage P fuel c rate samples spec = Some (Ok st) -> tg_est st = Some final ->
  cf_enable_tempogram_multi_resolution c = true ->
  exists base cands mid,
    single_call P fuel c rate spec = Some (Ok (base, cands)) /\
    ((mid = base /\ tg_mr_used st = Some false) \/
     (tg_mr_used st = Some true /\ tg_mr_triggered st = Some true /\
      (exists l, multi_call P fuel c rate samples = Some (Ok (mid, l))) /\
      fle (fmul (e_conf base) (lit 7381975 (-23))) (e_conf mid) = true)) /\
    ((final = mid /\ tg_p_used st <> Some true) \/
     (tg_p_used st = Some true /\ tg_p_triggered st = Some true /\ cf_enable_tempogram_percussive_fallback c = true /\
      between (z2f 55) (z2f 80) (e_bpm base) /\ between (z2f 70) (z2f 180) (e_bpm final) /\
      (exists h p l, hpss_decompose spec (cf_hpss_margin c) = Ok (h, p) /\ single_call P fuel c rate p = Some (Ok (final, l))) /\
      fle (fmul (e_conf mid) (lit 7130317 (-23))) (e_conf final) = true)) /\
    (tg_mr_triggered st = Some false -> final = base) /\
    (fle (e_bpm base) (z2f 180) = true -> fle (e_bpm final) (z2f 180) = true) /\
    conf_ok (e_conf final) /\
    (tg_cands st <> None <-> cf_emit_tempogram_candidates c = true).
Proof.
  intros P fuel c rate samples spec st final H T M. unfold tempogram_stage in H.
  destruct (cf_force_legacy_bpm c || (length spec =? 0)).
  { assert (X : no_tempo = st) by congruence. subst st. discriminate T. }
  rewrite M in H. unfold multi_res_stage in H. cbv zeta in H. rewrite aux_is in H. change (band_cfg c) with (band_of c) in H.
  apply rbind_ok in H as (b & Hb & H). unfold hop_u32 in *.
  destruct b as [[base cands]|]; [|assert (X : no_tempo = st) by congruence; subst st; discriminate T].
  cbn [fst snd] in H.
  assert (Sb : single_call P fuel c rate spec = Some (Ok (base, cands))).
  { unfold single_call. destruct (tempogram_candidates _ _ _ spec _ _ _ _ _ _ _) as [[x| |]|] eqn:E; try discriminate Hb. cbn in Hb. congruence. }
  clear Hb.
  assert (CB : forall s e l, single_call P fuel c rate s = Some (Ok (e, l)) -> conf_ok (e_conf e) /\ nn (e_bpm e)).
  { intros s e l Q. unfold single_call in Q. apply C27_prefix in Q as (rest & Q & _). apply C27_range in Q as (B & _ & _ & _ & _ & _ & Q).
    split; [exact Q|]. now apply fle_nn in B. }
  set (amb := ambiguous (cf_bpm_resolution c) base cands) in *.
  apply rbind_ok in H as (mr & Hm & H). fold (multi_call P fuel c rate samples) in Hm.
  destruct (after_multi_res (base, cands) mr) as [[mid mcands] used] eqn:Em.
  apply rbind_ok in H as (p & Hp & H). fold (single_call P fuel c rate) in Hp.
  cbn [fst snd] in H.
  destruct (after_percussive base (mid, mcands) p) as [[fin' fcands] pused] eqn:Ep.
  cbn [fst snd] in H.
  assert (MR : (mid = base /\ used = false) \/ (used = true /\ amb = true /\ (exists l, multi_call P fuel c rate samples = Some (Ok (mid, l))) /\
     mr_better base mid = true)).
  { unfold after_multi_res in Em. destruct mr as [[m ml]|]; [|left; split; congruence]. cbn [fst] in Em.
    destruct (mr_better base m) eqn:B; [|left; split; congruence]. right.
    assert (m = mid) by congruence. subst m. split; [congruence|].
    destruct amb; [|discriminate Hm]. split; [reflexivity|]. split; [|exact B]. exists ml.
    destruct (multi_call P fuel c rate samples) as [[x| |]|]; try discriminate Hm. cbn in Hm. congruence. }
  assert (MP : (fin' = mid /\ pused = false) \/ (pused = true /\ amb = true /\ trap_low (e_bpm base) = true /\
      cf_enable_tempogram_percussive_fallback c = true /\
      (exists h q l, hpss_decompose spec (cf_hpss_margin c) = Ok (h, q) /\ single_call P fuel c rate q = Some (Ok (fin', l))) /\
      p_better base mid fin' = true)).
  { unfold after_percussive in Ep. destruct p as [[q ql]|]; [|left; split; congruence]. cbn [fst] in Ep.
    destruct (p_better base mid q) eqn:B; [|left; split; congruence]. right.
    assert (q = fin') by congruence. subst q. split; [congruence|].
    destruct (cf_enable_tempogram_percussive_fallback c); [|discriminate Hp].
    destruct amb; [|discriminate Hp]. destruct (trap_low (e_bpm base)); [|discriminate Hp]. cbn [andb] in Hp.
    split; [reflexivity|]. split; [reflexivity|]. split; [reflexivity|]. split; [|exact B].
    destruct (hpss_decompose spec (cf_hpss_margin c)) as [[h q]| |] eqn:Hh; try discriminate Hp. cbn [rbind snd] in Hp.
    exists h, q, ql. split; [reflexivity|]. fold (single_call P fuel c rate q) in Hp.
    destruct (single_call P fuel c rate q) as [[x| |]|]; try discriminate Hp. cbn in Hp. congruence. }
  assert (St : {| tg_est := Some fin'; tg_cands := if cf_emit_tempogram_candidates c then Some fcands else None;
      tg_mr_triggered := Some amb; tg_mr_used := Some used; tg_p_triggered := Some (amb && trap_low (e_bpm base));
      tg_p_used := if cf_enable_tempogram_percussive_fallback c then Some pused else None |} = st) by congruence.
  clear H. subst st. cbn [tg_est tg_cands tg_mr_triggered tg_mr_used tg_p_triggered tg_p_used] in *.
  assert (fin' = final) by congruence. subst fin'. clear T Em Ep Hm Hp.
  destruct (CB _ _ _ Sb) as (Cb & Nb).
  exists base, cands, mid. split; [exact Sb|].
  assert (CM : conf_ok (e_conf mid) /\ nn (e_bpm mid) /\ (used = true -> fle (fmul (e_conf base) (lit 7381975 (-23))) (e_conf mid) = true) /\
     (fle (e_bpm base) (z2f 180) = true -> fle (e_bpm mid) (z2f 180) = true)).
  { destruct MR as [(-> & ->) | (-> & A & (l & Q) & B)]; [repeat split; auto; discriminate|].
    destruct (mr_better_spec _ _ Cb B) as (B1 & B2). apply C28_near_range in Q as (Q & _ & Q2 & _).
    assert (N : nn (e_bpm mid)).
    { destruct Q as [(Q & _)|(Q & _)]; now apply fle_nn in Q. }
    split; [exact Q2|]. split; [exact N|]. split; [auto|]. intros L. apply flt_false_fle; [reflexivity | exact N | now apply B2]. }
  destruct CM as (Cm & Nm & Km & Pm).
  split. { destruct MR as [(-> & ->) | (-> & -> & X & _)]; [left; auto | right; auto]. }
  assert (FP : (final = mid /\ pused = false) \/ (between (z2f 70) (z2f 180) (e_bpm final) /\ fle (fmul (e_conf mid) (lit 7130317 (-23))) (e_conf final) = true)).
  { destruct MP as [X | (_ & _ & _ & _ & _ & B)]; [now left | right]. destruct (p_better_spec _ _ _ Cm B). auto. }
  split.
  { destruct MP as [(-> & ->) | (-> & A & Tl & En & X & B)].
    - left. split; [reflexivity|]. destruct (cf_enable_tempogram_percussive_fallback c); discriminate.
    - right. rewrite En, A, Tl. cbn [andb]. split; [reflexivity|]. split; [reflexivity|]. split; [reflexivity|].
      split; [now apply between_iff|]. destruct (p_better_spec _ _ _ Cm B) as (B1 & B2). auto. }
  split.
  { intros A. assert (amb = false) by congruence. destruct MR as [(-> & _) | (_ & X & _)]; [|congruence].
    destruct MP as [(-> & _) | (_ & X & _)]; [reflexivity | congruence]. }
  split.
  { intros L. destruct FP as [(-> & _) | ((_ & X) & _)]; auto. }
  split.
  { destruct MP as [(-> & _) | (_ & _ & _ & _ & (h & q & l & _ & X) & _)]; [exact Cm|]. apply (CB _ _ _ X). }
  destruct (cf_emit_tempogram_candidates c); split; congruence.
Qed.
Print Assumptions C69_source.

(** When the escalation is triggered: a tempo in a zone of typical octave errors, a competing candidate at double or half
    tempo, or a weak result whose double is in the upper zone.  The percussive fallback needs the lower zone, too. *)
Theorem C69_trigger : forall P fuel c rate samples spec st final,
  tempogram_stage P fuel c rate samples spec = Some (Ok st) -> tg_est st = Some final ->
  cf_enable_tempogram_multi_resolution c = true ->
  exists base cands s s2 sh triggered,
    single_call P fuel c rate spec = Some (Ok (base, cands)) /\
    let b := e_bpm base in
    let tol := fmax (z2f 2) (cf_bpm_resolution c) in
    let competes x := flt f0 x = true /\ fle (fmul s (lit 7549747 (-23))) x = true in
    support_of cands b tol s /\ support_of cands (fmul b (z2f 2)) tol s2 /\ support_of cands (fmul b (lit 1 (-1))) tol sh /\
    tg_mr_triggered st = Some triggered /\
    (triggered = true <->
       between (z2f 55) (z2f 80) b \/ between (z2f 170) (z2f 200) b \/ competes s2 \/ competes sh \/
       ((e_agree base = 0 \/ flt (e_conf base) (lit 16106127 (-28)) = true) /\ between (z2f 170) (z2f 200) (fmul b (z2f 2)))) /\
    (tg_p_triggered st = Some true <-> triggered = true /\ between (z2f 55) (z2f 80) b).
Proof.
  intros P fuel c rate samples spec st final H T M. unfold tempogram_stage in H.
  destruct (cf_force_legacy_bpm c || (length spec =? 0)).
  { assert (X : no_tempo = st) by congruence. subst st. discriminate T. }
  rewrite M in H. unfold multi_res_stage in H. cbv zeta in H. rewrite aux_is in H. change (band_cfg c) with (band_of c) in H.
  apply rbind_ok in H as (b & Hb & H). unfold hop_u32 in *.
  destruct b as [[base cands]|]; [|assert (X : no_tempo = st) by congruence; subst st; discriminate T].
  cbn [fst snd] in H.
  assert (Sb : single_call P fuel c rate spec = Some (Ok (base, cands))).
  { unfold single_call. destruct (tempogram_candidates _ _ _ spec _ _ _ _ _ _ _) as [[x| |]|] eqn:E; try discriminate Hb. cbn in Hb. congruence. }
  clear Hb.
  apply rbind_ok in H as (mr & Hm & H). destruct (after_multi_res (base, cands) mr) as [[mid mcands] used].
  apply rbind_ok in H as (p & Hp & H). cbn [fst snd] in H.
  destruct (after_percussive base (mid, mcands) p) as [[fin' fcands] pused]. cbn [fst snd] in H.
  assert (E1 : tg_mr_triggered st = Some (ambiguous (cf_bpm_resolution c) base cands)).
  { injection H as <-. reflexivity. }
  assert (E2 : tg_p_triggered st = Some (ambiguous (cf_bpm_resolution c) base cands && trap_low (e_bpm base))).
  { injection H as <-. reflexivity. }
  clear H Hm Hp.
  set (tol := fmax (z2f 2) (cf_bpm_resolution c)).
  exists base, cands, (cand_support cands (e_bpm base) tol), (cand_support cands (fmul (e_bpm base) (z2f 2)) tol),
    (cand_support cands (fmul (e_bpm base) (lit 1 (-1))) tol), (ambiguous (cf_bpm_resolution c) base cands).
  split; [exact Sb|]. cbv zeta. split; [apply cand_support_spec|]. split; [apply cand_support_spec|]. split; [apply cand_support_spec|].
  split; [exact E1|]. split.
  - unfold ambiguous. cbv zeta. fold tol. change f2 with (z2f 2). change fhalf with (lit 1 (-1)). fold tol.
    unfold trap_low, trap_high. rewrite !orb_true_iff, !andb_true_iff, orb_true_iff, Nat.eqb_eq.
    unfold between, fgt, fge. change Bltb with flt. change Bleb with fle. tauto.
  - rewrite E2. split.
    + intros X. assert (Y : ambiguous (cf_bpm_resolution c) base cands && trap_low (e_bpm base) = true) by congruence.
      apply andb_true_iff in Y as (Y1 & Y2). split; [exact Y1 | now apply between_iff].
    + intros (X & Y). apply between_iff in Y. unfold trap_low. now rewrite X, Y.
Qed.
Print Assumptions C69_trigger.

(** Without multi-resolution the stage reports the single-resolution result, with its candidates if they are asked for;
    a failed estimate gives no tempo. *)
Theorem C69_single : forall P fuel c rate samples spec st,
  tempogram_stage P fuel c rate samples spec = Some (Ok st) -> cf_force_legacy_bpm c = false -> spec <> [] ->
  cf_enable_tempogram_multi_resolution c = false ->
  tg_mr_triggered st = None /\ tg_mr_used st = None /\ tg_p_triggered st = None /\ tg_p_used st = None /\
  let r := tempogram_impl (pf_fft P) (pf_libm P) fuel spec rate (Z.to_nat (Z.of_nat (cf_hop_size c) mod 2 ^ 32)) (cf_min_bpm c) (cf_max_bpm c)
             (cf_bpm_resolution c) (aux_of c) in
  (forall e l, r = Some (Ok (e, l)) -> tg_est st = Some e /\
     tg_cands st = if cf_emit_tempogram_candidates c then Some (firstn (cf_tempogram_candidates_top_n c) l) else None) /\
  (forall x, r = Some (Err x) -> tg_est st = None /\ tg_cands st = None) /\
  r <> Some Panic /\ r <> None.
Proof.
  intros P fuel c rate samples spec st H F N M. unfold tempogram_stage in H. rewrite F, M in H.
  destruct spec as [|x spec]; [congruence|]. cbn [length Nat.eqb orb] in H. rewrite aux_is in H. unfold hop_u32 in H. cbv zeta.
  unfold tempogram_candidates in H.
  destruct (tempogram_impl _ _ _ _ _ _ _ _ _ _) as [[(e & l)|x'|]|], (cf_emit_tempogram_candidates c); cbn [rbind run_catch fst snd option_map] in H;
    try discriminate H; injection H as <-; cbn [tg_est tg_cands tg_mr_triggered tg_mr_used tg_p_triggered tg_p_used];
    do 4 (split; [reflexivity|]); (split; [intros e0 l0 E; first [discriminate E|injection E as <- <-; auto]|]); (split; [intros y E; auto; discriminate E|]); split; discriminate.
Qed.
Print Assumptions C69_single.

(** 60 BPM is in the lower zone: its double is taken at slightly lower confidence, but not at 0.43 instead of 0.5; 100 BPM
    is never replaced by 190.  A candidate at the double with 0.9 times the score triggers the escalation for 100 BPM. *)
Example C69_case :
  let est b k := mkEst (z2f b) (fdiv (z2f k) (z2f 100)) 1 in
  let at_ b k := {| t_bpm := z2f b; t_score := fdiv (z2f k) (z2f 100); t_fft := f0; t_ac := f0; t_sel := false |} in
  map (fun m => mr_better (est 60%Z 50%Z) m) [est 120%Z 45%Z; est 120%Z 43%Z; est 190%Z 90%Z] = [true; false; false] /\
  mr_better (est 100%Z 50%Z) (est 190%Z 90%Z) = false /\
  map (ambiguous f1 (est 100%Z 50%Z)) [[at_ 100%Z 50%Z; at_ 200%Z 44%Z]; [at_ 100%Z 50%Z; at_ 201%Z 46%Z]; [at_ 100%Z 50%Z; at_ 210%Z 46%Z]]
    = [false; true; false].
Proof. vm_compute. repeat split; reflexivity. Qed.
