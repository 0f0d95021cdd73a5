(** C71: the key detection stage: edge trimming, frame weights, segment voting and the report. *)
From Coq Require Import ZArith Reals Lra Lia Sorted Permutation.
From Flocq Require Import Core.
From Verif Require Import Rust F32 F32Facts ListFacts Libm Sorting SortingFacts Bounds KeyNotation KeyTemplates KeyDetector
  KeyDetectorProofs KeyBoundsProofs KeyDetectorProps NoveltyProofs KeyVariantsProofs KeyScoresProofs KeyVariantsProps
  KeyScalesProofs KeyScalesProps Chroma ChromaProofs KeyFeatures HarmonicMaskProofs Config KeyStage KeyStageProofs.

(** Edge trimming cannot fail; it keeps everything, or the same run of more than 50 frames of chroma and energies. *)
Theorem C71_trim : forall c (cs : list (list f32)) (es : list f32),
  let r := trim_range c (length cs) (length es) in
  (trim_edges r cs = Ok cs /\ trim_edges r es = Ok es /\ r = None) \/
  (cf_enable_key_edge_trim c = true /\ length es = length cs /\ 200 <= length cs /\
   exists a b pre mid post pre' mid' post',
     cs = pre ++ mid ++ post /\ es = pre' ++ mid' ++ post' /\ length pre = a /\ length pre' = a /\
     length mid = b - a /\ length mid' = b - a /\ a + 50 < b <= length cs /\
     trim_edges r cs = Ok mid /\ trim_edges r es = Ok mid' /\
     let frac := fclamp_val (cf_key_edge_trim_fraction c) f0 (lit 2055209 (-22)) in
     Z.of_nat a = f2usize (fround (fmul (n2f (length cs)) frac)) /\
     Z.of_nat b = f2usize (fround (fmul (n2f (length cs)) (fsub f1 frac)))).
Proof.
  intros c cs es r. unfold r, trim_range.
  destruct (cf_enable_key_edge_trim c && (length cs =? length es) && (200 <=? length cs)) eqn:E; [|now left].
  apply andb_prop in E as (E & E3). apply andb_prop in E as (E1 & E2). apply Nat.eqb_eq in E2. apply Nat.leb_le in E3.
  cbv zeta. set (a := f2usize _). set (b := f2usize (fround (fmul _ (fsub f1 _)))).
  destruct ((a + 50 <? b) && (b <=? Z.of_nat (length cs)))%Z eqn:R; [|now left].
  apply andb_prop in R as (R1 & R2). apply Z.ltb_lt in R1. apply Z.leb_le in R2.
  assert (A0 : (0 <= a)%Z) by (unfold a; apply f2usize_bounds).
  right. split; [exact E1|]. split; [now symmetry|]. split; [exact E3|].
  exists (Z.to_nat a), (Z.to_nat b), (firstn (Z.to_nat a) cs), (slice cs (Z.to_nat a) (Z.to_nat b)), (skipn (Z.to_nat b) cs),
    (firstn (Z.to_nat a) es), (slice es (Z.to_nat a) (Z.to_nat b)), (skipn (Z.to_nat b) es).
  assert (B : Z.to_nat a + 50 < Z.to_nat b <= length cs) by lia.
  split; [apply slice_split; lia|]. split; [apply slice_split; lia|].
  rewrite !firstn_length_le by lia. rewrite !slice_length by lia. cbn [trim_edges]. rewrite !slice_chk_ok by lia.
  repeat (split; [reflexivity || exact B|]). rewrite !Z2Nat.id by lia. split; reflexivity.
Qed.
Print Assumptions C71_trim.

(** Tonalness of non-negative chroma is in [0, 1]: 0 for silence and 1 when a single pitch class sounds. *)
Theorem C71_tonalness : forall L k l, key_ln L -> (0 <= k <= 102)%Z -> Forall (fun y => nneg y /\ within k y) l ->
  in01 (tonalness L l) /\
  ((forall x, In x l -> x = f0) -> tonalness L l = f0) /\
  (forall l1 l2 x, l = l1 ++ x :: l2 -> (forall y, In y (l1 ++ l2) -> y = f0) -> flt eps12 x = true -> tonalness L l = f1).
Proof.
  intros L k l HL K F. split; [exact (tonalness_in01 L k l HL K F)|]. split.
  - intros Z. unfold tonalness. rewrite (OnsetsProofs.fsum_zeros l Z). reflexivity.
  - intros l1 l2 x -> Z X. apply tonalness_single; auto; [|intros y I; apply Z, in_app_iff; now left|intros y I; apply Z, in_app_iff; now right].
    assert (I : In x (l1 ++ x :: l2)) by (apply in_app_iff; right; now left).
    apply (proj1 (Forall_forall _ _) F) in I as (_ & W). now apply within_fin in W.
Qed.
Print Assumptions C71_tonalness.

(** Frame weights are used only when weighting is on and there is one energy per frame; they are then one per frame,
    non-negative, at least ten of them positive, and their sum is not negligible. *)
Theorem C71_weights : forall L c cs es w, frame_weights L c cs es = Some w ->
  cf_enable_key_frame_weighting c = true /\ es <> [] /\ length es = length cs /\ length w = length cs /\
  Forall (fun x => nneg x) w /\ 10 <= length (filter (fun x => flt f0 x) w) /\ fle (fsum w) eps12 = false /\
  exists med, (Forall (fun x => nn x) es -> In med es /\ 2 * length (filter (fun x => flt x med) es) <= length es /\
                length es < 2 * length (filter (fun x => fle x med) es)) /\
    forall i ch e, nth_error cs i = Some ch -> nth_error es i = Some e ->
      nth_error w i = Some (frame_weight L c (fmax med eps12) ch e).
Proof.
  intros L c cs es w H. unfold frame_weights in H.
  destruct (cf_enable_key_frame_weighting c && negb (length es =? 0) && (length es =? length cs)) eqn:E; [|discriminate].
  apply andb_prop in E as (E & E3). apply andb_prop in E as (E1 & E2). apply negb_true_iff, Nat.eqb_neq in E2. apply Nat.eqb_eq in E3.
  cbv zeta in H. change (nth (length es / 2) (sort_asc es) f0) with (median_mid es) in H. set (w0 := map _ _) in H.
  destruct (fle (fsum w0) (lit 2305843 (-61)) || (length (filter (fun x => fgt x f0) w0) <? 10)) eqn:Z; [discriminate|].
  injection H as <-. apply orb_false_iff in Z as (Z1 & Z2). apply Nat.ltb_ge in Z2.
  split; [exact E1|]. split; [intros X; rewrite X in E2; now apply E2|]. split; [exact E3|].
  split. { unfold w0. rewrite map_length, combine_length. lia. }
  split. { unfold w0. apply Forall_forall. intros x I. apply in_map_iff in I as (p & <- & _). apply frame_weight_nneg. }
  split; [exact Z2|]. split; [exact Z1|]. exists (median_mid es). split.
  { intros N. apply median_mid_spec; [|exact N]. intros X. rewrite X in E2. now apply E2. }
  intros i ch e Hc He. unfold w0. rewrite nth_error_map.
  assert (X : nth_error (combine cs es) i = Some (ch, e)).
  { clear - Hc He. revert es i Hc He. induction cs as [|a cs IH]; intros [|b es] [|i] Hc He; cbn in *; try discriminate.
    - congruence.
    - now apply IH. }
  rewrite X. reflexivity.
Qed.
Print Assumptions C71_weights.

(** A frame with more energy and no less tonal weighs no less. *)
Theorem C71_weight_order : forall L c med ch ch' e e', fin med -> pos med -> fin e -> fin e' ->
  (forall p x y, nneg p -> nneg x -> fle x y = true -> nneg (m_powf L x p) /\ fle (m_powf L x p) (m_powf L y p) = true) ->
  fin (m_powf L f1 (fmax (cf_key_tonalness_power c) f0)) ->
  (forall x, fin x -> nneg x -> fin (m_powf L x (fmax (cf_key_energy_power c) f0))) ->
  fin (fdiv e' med) -> in01 (tonalness L ch) -> in01 (tonalness L ch') ->
  fle (tonalness L ch) (tonalness L ch') = true -> fle e e' = true ->
  fle (frame_weight L c med ch e) (frame_weight L c med ch' e') = true.
Proof.
  intros L c med ch ch' e e' Fm Pm Fe Fe' Mo F1 F2 Fd T T' Ht He.
  assert (Nd : forall x, fin x -> nn (fdiv x med)).
  { intros x Fx. pose proof (B2R_pos _ Fm Pm). apply (fdiv_fx x med Fx Fm). lra. }
  unfold frame_weight. cbv zeta.
  set (t := if flt (tonalness L ch) (cf_key_min_tonalness c) then f0 else tonalness L ch).
  set (t' := if flt (tonalness L ch') (cf_key_min_tonalness c) then f0 else tonalness L ch').
  assert (X : in01 t /\ in01 t' /\ fle t t' = true).
  { unfold t, t'. destruct (flt (tonalness L ch) (cf_key_min_tonalness c)) eqn:A; destruct (flt (tonalness L ch') (cf_key_min_tonalness c)) eqn:B.
    - repeat split; reflexivity.
    - split; [apply in01_0|]. split; [exact T'|apply T'].
    - pose proof (fle_flt_trans _ _ _ Ht B). congruence.
    - auto. }
  clearbody t t'. destruct X as (T1 & T2 & Tt). clear T T' Ht.
  assert (E1 : nneg (fmax (fdiv e med) f0)) by apply fmax_0_nneg.
  assert (Ed : fle (fdiv e med) (fdiv e' med) = true) by (apply fdiv_mono_l; auto).
  assert (Ee : fle (fmax (fdiv e med) f0) (fmax (fdiv e' med) f0) = true).
  { apply fmax_lub; [intros _|intros _; apply fmax_0_nneg|right; reflexivity].
    eapply fle_trans; [exact Ed|]. apply fmax_ge_l. now apply Nd. }
  assert (Fx' : fin (fmax (fdiv e' med) f0)) by (destruct (fmax_case (fdiv e' med) f0) as [-> | ->]; [exact Fd|reflexivity]).
  assert (Fx : fin (fmax (fdiv e med) f0)) by (eapply (fin_between f0 _ (fmax (fdiv e' med) f0)); auto).
  set (x := fmax (fdiv e med) f0) in *. set (x' := fmax (fdiv e' med) f0) in *. clearbody x x'.
  assert (Pt : forall y, in01 y -> fin (m_powf L y (fmax (cf_key_tonalness_power c) f0))).
  { intros y (Y0 & Y1). destruct (Mo (fmax (cf_key_tonalness_power c) f0) y f1 (fmax_0_nneg _) Y0 Y1) as (A & B).
    eapply (fin_between f0 _ (m_powf L f1 (fmax (cf_key_tonalness_power c) f0))); auto. }
  assert (Nx' : nneg x') by (eapply fle_trans; eauto).
  destruct (Mo (fmax (cf_key_tonalness_power c) f0) t t' (fmax_0_nneg _) (proj1 T1) Tt) as (A1 & A2).
  destruct (Mo (fmax (cf_key_energy_power c) f0) x x' (fmax_0_nneg _) E1 Ee) as (B1 & B2).
  assert (Nm : forall a b, fin a -> fin b -> nn (fmul a b)) by (intros a b Fa Fb; now apply fmul_fx).
  assert (M : fle (fmul (m_powf L t (fmax (cf_key_tonalness_power c) f0)) (m_powf L x (fmax (cf_key_energy_power c) f0)))
                  (fmul (m_powf L t' (fmax (cf_key_tonalness_power c) f0)) (m_powf L x' (fmax (cf_key_energy_power c) f0))) = true).
  { apply fmul_mono; auto. }
  apply fmax_lub; [intros _|intros _; apply fmax_0_nneg|right; reflexivity].
  eapply fle_trans; [exact M|]. apply fmax_ge_l. apply Nm; auto.
Qed.
Print Assumptions C71_weight_order.

(** Segment voting: the segments start at every multiple of the hop at which they fit; each is analysed on its own, and
    the scores of those clear enough, each weighted by its clarity, are summed.  The best sum gives the key.  When no
    segment is clear enough the whole track is analysed. *)
Theorem C71_segments : forall O c cs w res, (forall s, honest (ko_segment O s)) ->
  (match w with Some l => length l = length cs | None => True end) ->
  cf_enable_key_ensemble c = false -> use_multi_scale c (length cs) = false -> use_segments c (length cs) = true ->
  key_call O c cs w = Ok res ->
  let seg := Nat.min (cf_key_segment_len_frames c) (length cs) in
  let hop := Nat.max (Nat.min (cf_key_segment_hop_frames c) seg) 1 in
  let t := new_templates (cf_key_template_set c) in
  exists starts bs,
  (forall s, In s starts <-> exists i, s = i * hop /\ s + seg <= length cs) /\ StronglySorted lt starts /\
  Forall2 (fun s b => casts (ko_segment O s) (mode_opts c) cs t w seg s f1 b) starts bs /\
  let used := filter (fun b => fge (bl_clarity b) (fclamp_val (cf_key_segment_min_clarity c) f0 f1)) bs in
  (used = [] /\ key_report (detect_segment (ko_track O) (mode_opts c) cs t w) = Ok res \/
   used <> [] /\ exists scores,
   once_each scores /\
   (forall k s, In (k, s) scores <-> In k all_keys /\
      s = fsum (map (fun b => fmul (find_score (key_eqb k) (bl_scores b) f0) (bl_clarity b)) used)) /\
   (forall k s, In (k, s) scores -> nn s) /\
   StronglySorted (fun a b => fle (snd b) (snd a) = true) scores /\
   (exists s, In (fst (fst res), s) scores /\ forall k' s', In (k', s') scores -> fle s' s = true) /\
   ((forall k s, In (k, s) scores -> fin s) -> in01 (snd (fst res))) /\
   key_clarity scores = Ok (snd res)).
Proof.
  intros O c cs w res Hh Hw E1 E2 E3 H seg hop t. unfold key_call in H. rewrite E1, E2, E3 in H.
  fold seg hop t in H. destruct (segment_votes _ _ _ _ _ _ _ _) as [st| |] eqn:V in H; [|discriminate|discriminate].
  cbn [obind] in H. unfold segment_votes in V. change (map (fun k => (k, f0)) all_keys, 0) with (seg_state []) in V.
  apply votes_spec in V as (bs & F & ->); [|exact Hh|exact Hw|apply starts_fit]. rewrite app_nil_l in H.
  exists (fitting_starts (length cs) seg hop), bs.
  assert (Hp : 1 <= hop) by (unfold hop; lia).
  split. { intros s. now apply fitting_iff. }
  split. { unfold fitting_starts. apply sorted_filter, starts_sorted. exact Hp. }
  split; [exact F|]. cbv zeta. set (used := filter _ bs) in *. cbn [fst snd seg_state] in H.
  destruct (length used =? 0) eqn:U.
  { left. split; [|exact H]. apply Nat.eqb_eq in U. now destruct used. }
  right. apply Nat.eqb_neq in U. split; [intros X; rewrite X in U; now apply U|].
  match type of H with context [map ?g all_keys] => set (f := g) in H end.
  assert (Tf : is_table (map f all_keys)) by apply (combined_table (fun x => snd (f x))).
  unfold sort_or_panic in H. destruct ((2 <=? length (map f all_keys)) && existsb (fun ks => fisnan (snd ks)) (map f all_keys)) eqn:Nx;
    [discriminate|]. cbn [obind] in H.
  assert (Nn : forall k s, In (k, s) (map f all_keys) -> nn s).
  { intros k s I. rewrite (is_table_length _ Tf) in Nx. cbn [Nat.leb andb] in Nx.
    destruct (fisnan s) eqn:E; [|exact E]. assert (X : existsb (fun ks => fisnan (snd ks)) (map f all_keys) = true); [|congruence].
    apply existsb_exists. exists (k, s). split; [exact I|exact E]. }
  destruct (report_spec _ Tf) as (r & E' & R). rewrite E' in H. cbn [key_report] in H.
  destruct (key_clarity (kr_scores r)) as [cl| |] eqn:C; [|discriminate|discriminate]. cbn [obind] in H.
  assert (Er : res = (kr_key r, kr_conf r, cl)) by congruence. subst res. cbn [fst snd]. clear H.
  destruct (reported_facts _ _ Tf R) as (Tr & Lr & K & S & Fr). destruct (S Nn) as (S1 & S2).
  assert (In' : forall x, In x (kr_scores r) <-> In x (map f all_keys)) by (intros x; rewrite (rp_scores _ _ R); apply sort_desc_in).
  exists (kr_scores r). split; [now apply table_once|]. split.
  { intros k s. rewrite In', in_map_iff. unfold f. split.
    - intros (x & Eq & I). injection Eq as -> <-. split; [exact I|reflexivity].
    - intros (I & ->). exists k. split; [reflexivity|exact I]. }
  split. { intros k s I. apply (Nn k s). now apply In'. }
  split; [exact S1|]. split; [exact S2|]. split; [|exact C].
  intros Fi. apply Fr. intros k s I. apply (Fi k s). now apply In'.
Qed.
Print Assumptions C71_segments.

(** Without chroma vectors the report is C major with confidence and clarity 0. *)
Theorem C71_empty : forall O c w, honest (ko_kk O) -> honest (ko_te O) -> honest (ko_track O) ->
  key_call O c [] w = Ok (Major 0, f0, f0).
Proof.
  intros O c w H1 H2 H3. unfold key_call.
  assert (D : forall h o t, detect_segment h o [] t w = Err InvalidInput).
  { intros h o t. unfold detect_segment, detect_key_mode. cbn. destruct (so_mode o || so_minor o); reflexivity. }
  destruct (cf_enable_key_ensemble c); [reflexivity|].
  destruct (use_multi_scale c (length [])).
  - rewrite C57_multi_errors by (now left). reflexivity.
  - unfold use_segments. replace (Nat.max (cf_key_segment_len_frames c) 1 <=? length []) with false
      by (symmetry; apply Nat.leb_gt; cbn [length]; lia).
    rewrite andb_false_r. cbn [andb]. rewrite D. reflexivity.
Qed.
Print Assumptions C71_empty.

(** The detector call cannot fail on sane chroma: 12 non-negative entries up to 2^k, weights up to 2^j, at most 2^p
    frames, a minor-key bonus up to 2^m and scale weights up to 2^q.  Confidence and clarity are in [0, 1]. *)
Theorem C71_call_total : forall O c cs w k j p m q,
  honest (ko_kk O) -> honest (ko_te O) -> honest (ko_track O) -> (forall s, honest (ko_segment O s)) ->
  (forall i s, honest (ko_scale O i s)) ->
  (0 <= k)%Z -> (0 <= j)%Z -> (0 <= p)%Z -> (0 <= m)%Z -> (0 <= q)%Z -> (k + j <= 70)%Z ->
  (j + 25 + m <= 125)%Z -> (p + m <= 125)%Z ->
  (cf_enable_key_minor_harmonic_bonus c = true -> (Z.max (j + 25) p + m + q + 2 <= 76)%Z) -> (q <= 71)%Z ->
  (Z.of_nat (length cs) <= 2 ^ p)%Z ->
  (2 * Z.of_nat (length cs) + Z.of_nat (Nat.max (cf_key_multi_scale_hop c) 1) <= usize_max)%Z ->
  Forall (fun ch => length ch = 12 /\ Forall (fun x => nneg x /\ within k x) ch) cs ->
  (match w with
   | None => True
   | Some ws => length ws = length cs /\ Forall (fun x => nneg x /\ within j x) ws
   end) ->
  within m (cf_key_minor_leading_tone_bonus_weight c) -> Forall (within q) (cf_key_multi_scale_weights c) ->
  fin (fadd (cf_key_ensemble_kk_weight c) (cf_key_ensemble_temperley_weight c)) ->
  nneg (cf_key_ensemble_kk_weight c) -> nneg (cf_key_ensemble_temperley_weight c) ->
  exists ky conf cl, key_call O c cs w = Ok (ky, conf, cl) /\ in01 conf /\ in01 cl.
Proof.
  intros O c cs w k j p m q H1 H2 H3 Hs Hi K J P M Q KJ JM PM Mi Q1 N U C W Mw Sw Fe N1 N2.
  destruct cs as [|c0 cs'] eqn:Ecs.
  { exists (Major 0), f0, f0. split; [apply C71_empty; auto|]. split; apply in01_0. }
  rewrite <- Ecs in *. assert (Nc : cs <> []) by (rewrite Ecs; discriminate). clear c0 cs' Ecs.
  set (o := mode_opts c). set (B := segment_bound o j p m).
  assert (HB : (0 <= B <= 76)%Z /\ (B + q <= 101)%Z).
  { unfold B, segment_bound. change (so_minor o) with (cf_enable_key_minor_harmonic_bonus c).
    destruct (cf_enable_key_minor_harmonic_bonus c); [specialize (Mi eq_refl)|]; lia. }
  assert (Rep : forall x B' r, x = Ok r -> in01 (kr_conf r) -> table_within B' (kr_scores r) -> (0 <= B' <= 101)%Z ->
    exists ky conf cl, key_report x = Ok (ky, conf, cl) /\ in01 conf /\ in01 cl).
  { intros x B' r -> I T HB'. destruct (clarity_in01 B' _ HB' T) as (cl & E & Ic).
    exists (kr_key r), (kr_conf r), cl. cbn [key_report]. rewrite E. split; [reflexivity|]. split; [exact I|exact Ic]. }
  assert (Whole : exists ky conf cl, key_report (detect_segment (ko_track O) o cs (new_templates (cf_key_template_set c)) w) =
    Ok (ky, conf, cl) /\ in01 conf /\ in01 cl).
  { destruct (segment_total (ko_track O) o cs (cf_key_template_set c) w k j p m H3 K J P M KJ JM PM Nc N C W Mw) as (r & E & I & T).
    apply (Rep _ B r E I T). lia. }
  unfold key_call. destruct (cf_enable_key_ensemble c) eqn:En.
  { assert (F1 : fin (cf_key_ensemble_kk_weight c) /\ fin (cf_key_ensemble_temperley_weight c)).
    { assert (A : fle (cf_key_ensemble_kk_weight c) (fadd (cf_key_ensemble_kk_weight c) (cf_key_ensemble_temperley_weight c)) = true)
        by (apply fadd_ge_l; auto using nneg_nn, fin_nn).
      assert (A' : fle (cf_key_ensemble_temperley_weight c) (fadd (cf_key_ensemble_kk_weight c) (cf_key_ensemble_temperley_weight c)) = true)
        by (rewrite fadd_comm; apply fadd_ge_l; auto using nneg_nn; rewrite fadd_comm; now apply fin_nn).
      split; eapply (fin_between f0); eauto. }
    destruct F1 as (F1 & F2).
    destruct (C57_ensemble_total (ko_kk O) (ko_te O) cs w _ _ k j H1 H2 K J KJ Nc C W F1 F2 N1 N2 Fe) as (r & E & I & T).
    apply (Rep _ 31%Z r E I T). lia. }
  fold o. destruct (use_multi_scale c (length cs)) eqn:Um.
  { assert (Ln : cf_key_multi_scale_lengths c <> []) by (unfold use_multi_scale in Um; destruct (cf_key_multi_scale_lengths c); [discriminate|discriminate]).
    assert (U' : (2 * Z.of_nat (length cs) + Z.max (Z.of_nat (Nat.max (cf_key_multi_scale_hop c) 1)) 1 <= usize_max)%Z) by lia.
    assert (Sw' : match (match cf_key_multi_scale_weights c with [] => None | ws => Some ws end) with None => True | Some l => Forall (within q) l end)
      by (destruct (cf_key_multi_scale_weights c); [exact I|exact Sw]).
    destruct (C57_multi_total (ko_scale O) (ko_track O) cs (cf_key_template_set c) w (cf_key_multi_scale_lengths c) _
      (fclamp_val (cf_key_multi_scale_min_clarity c) f0 f1) _ o k j p m q Hi H3 K J P M Q KJ JM PM (proj2 HB) Nc Ln N U' C W Mw Sw') as (r & E & I & T).
    apply (Rep _ B r E I T). lia. }
  destruct (use_segments c (length cs)) eqn:Us; [|exact Whole].
  set (seg := Nat.min _ _). set (hop := Nat.max _ 1). set (mc := fclamp_val _ f0 f1). set (t := new_templates _) in *.
  assert (Ps : 0 < seg).
  { unfold use_segments in Us. apply andb_prop in Us as (Us & _). apply andb_prop in Us as (Us & A). apply andb_prop in Us as (_ & A').
    apply Nat.leb_le in A, A'. unfold seg. lia. }
  assert (Cast : forall s, s + seg <= length cs ->
    exists b, casts (ko_segment O s) o cs t w seg s f1 b /\ in01 (bl_clarity b) /\ is_table (bl_scores b) /\ table_within B (bl_scores b)).
  { intros s L. destruct (slice_sane k j cs w s seg Ps L C W) as (S1 & S2 & S3 & S4).
    assert (Ns : (Z.of_nat (length (slice cs s (s + seg))) <= 2 ^ p)%Z) by (rewrite S2; lia).
    destruct (segment_total (ko_segment O s) o _ (cf_key_template_set c) _ k j p m (Hs s) K J P M KJ JM PM S1 Ns S3 S4 Mw) as (r & E & _ & T).
    assert (B1 : (0 <= B <= 101)%Z) by lia.
    destruct (clarity_in01 B _ B1 T) as (cl & Ec & I).
    exists {| bl_clarity := cl; bl_weight := f1; bl_scores := kr_scores r |}. cbn [bl_clarity bl_scores].
    split; [|split; [exact I|split; [|exact T]]].
    - split; [reflexivity|]. exists r. split; [exact E|]. split; [reflexivity|exact Ec].
    - eapply segment_table; [apply Hs|exact E]. }
  assert (Hw : match w with Some l => length l = length cs | None => True end) by (destruct w as [l|]; [apply W|exact I]).
  unfold segment_votes. change (map (fun k => (k, f0)) all_keys, 0) with (seg_state []).
  destruct (votes_ok (ko_segment O) o t seg mc cs w Hs Hw) with (starts := segment_starts (length cs) seg hop) (used := @nil ballot) as (st & E).
  { intros s L. destruct (Cast s L) as (b & X & _). exists b. exact X. }
  { apply starts_fit. }
  rewrite E. cbn [obind]. apply votes_spec in E as (bs & F & ->); [|exact Hs|exact Hw|apply starts_fit]. rewrite app_nil_l.
  set (used := filter _ bs). cbn [fst snd seg_state].
  assert (Ub : forall b, In b used -> in01 (bl_clarity b) /\ is_table (bl_scores b) /\ table_within B (bl_scores b)).
  { intros b Ib. apply filter_In in Ib as (Ib & _).
    pose proof (starts_fit (length cs) seg hop) as Fit. clearbody seg hop. clear - F Ib Fit Cast.
    induction F as [|s b' ss bs Cb F IH]; [destruct Ib|]. destruct Ib as [<-|Ib].
    - pose proof (Forall_inv Fit) as L. cbv beta in L. destruct (Cast s L) as (b2 & (_ & r2 & D2 & Es2 & Ec2) & X).
      destruct Cb as (_ & r & D & Es & Ec). assert (r2 = r) by congruence. subst r2. rewrite Es. rewrite <- Es2.
      assert (bl_clarity b2 = bl_clarity b') by congruence. rewrite <- H. exact X.
    - apply IH; [exact Ib|]. now apply Forall_inv_tail in Fit. }
  destruct (length used =? 0); [exact Whole|].
  match goal with |- context [map ?g all_keys] => set (f := g) end.
  assert (Tf : is_table (map f all_keys)) by apply (combined_table (fun x => snd (f x))).
  assert (Wf : forall kk, In kk all_keys -> within (B + 25) (snd (f kk))).
  { intros kk Ik. unfold f. cbn [snd]. apply within_sum; [lia|]. apply Forall_forall. intros x Ix. apply in_map_iff in Ix as (b & <- & Ib).
    destruct (Ub b Ib) as (I1 & T1 & T2). rewrite <- (Z.add_0_r B). apply within_mul; [lia| |now apply in01_within].
    unfold find_score. destruct (find _ (bl_scores b)) as [ks|] eqn:Fd; [|apply within_0].
    apply find_some in Fd as (Fd & _). exact (proj1 (Forall_forall _ _) T2 ks Fd). }
  assert (Nx : existsb (fun ks => fisnan (snd ks)) (map f all_keys) = false).
  { apply score_nan_false. apply Forall_forall. intros ks Ik. apply in_map_iff in Ik as (kk & <- & Ik). apply Wf in Ik. now apply within_nn in Ik. }
  unfold sort_or_panic. rewrite Nx, andb_false_r. cbn [obind].
  destruct (report_spec _ Tf) as (r & E' & R). destruct (reported_facts _ _ Tf R) as (_ & _ & _ & _ & Fr).
  assert (In' : forall x, In x (kr_scores r) <-> In x (map f all_keys)) by (intros x; rewrite (rp_scores _ _ R); apply sort_desc_in).
  apply (Rep _ (B + 25)%Z r E').
  - apply Fr. intros k' s Ik. apply in_map_iff in Ik as (kk & Eq & Ik). apply Wf in Ik. rewrite Eq in Ik. now apply within_fin in Ik.
  - apply Forall_forall. intros ks Ik. apply In', in_map_iff in Ik as (kk & <- & Ik). now apply Wf.
  - lia.
Qed.
Print Assumptions C71_call_total.

(** ** Concrete cases *)
(** [c] with edge trimming as given and other voting segments. *)
Definition key_options (trim : bool) (len hop : nat) (c : analysis_config) : analysis_config := {|
  cf_min_amplitude_db := cf_min_amplitude_db c; cf_normalization := cf_normalization c;
  cf_enable_normalization := cf_enable_normalization c; cf_enable_silence_trimming := cf_enable_silence_trimming c;
  cf_enable_onset_consensus := cf_enable_onset_consensus c;
  cf_onset_threshold_percentile := cf_onset_threshold_percentile c;
  cf_onset_consensus_tolerance_ms := cf_onset_consensus_tolerance_ms c;
  cf_onset_consensus_weights := cf_onset_consensus_weights c; cf_enable_hpss_onsets := cf_enable_hpss_onsets c;
  cf_hpss_margin := cf_hpss_margin c; cf_force_legacy_bpm := cf_force_legacy_bpm c;
  cf_enable_bpm_fusion := cf_enable_bpm_fusion c;
  cf_enable_legacy_bpm_guardrails := cf_enable_legacy_bpm_guardrails c;
  cf_enable_tempogram_multi_resolution := cf_enable_tempogram_multi_resolution c;
  cf_tempogram_multi_res_top_k := cf_tempogram_multi_res_top_k c;
  cf_tempogram_multi_res_w512 := cf_tempogram_multi_res_w512 c;
  cf_tempogram_multi_res_w256 := cf_tempogram_multi_res_w256 c;
  cf_tempogram_multi_res_w1024 := cf_tempogram_multi_res_w1024 c;
  cf_tempogram_multi_res_structural_discount := cf_tempogram_multi_res_structural_discount c;
  cf_tempogram_multi_res_double_time_512_factor := cf_tempogram_multi_res_double_time_512_factor c;
  cf_tempogram_multi_res_margin_threshold := cf_tempogram_multi_res_margin_threshold c;
  cf_tempogram_multi_res_use_human_prior := cf_tempogram_multi_res_use_human_prior c;
  cf_enable_tempogram_percussive_fallback := cf_enable_tempogram_percussive_fallback c;
  cf_enable_tempogram_band_fusion := cf_enable_tempogram_band_fusion c;
  cf_tempogram_band_low_max_hz := cf_tempogram_band_low_max_hz c;
  cf_tempogram_band_mid_max_hz := cf_tempogram_band_mid_max_hz c;
  cf_tempogram_band_high_max_hz := cf_tempogram_band_high_max_hz c;
  cf_tempogram_band_w_full := cf_tempogram_band_w_full c; cf_tempogram_band_w_low := cf_tempogram_band_w_low c;
  cf_tempogram_band_w_mid := cf_tempogram_band_w_mid c; cf_tempogram_band_w_high := cf_tempogram_band_w_high c;
  cf_tempogram_band_seed_only := cf_tempogram_band_seed_only c;
  cf_tempogram_band_support_threshold := cf_tempogram_band_support_threshold c;
  cf_tempogram_band_consensus_bonus := cf_tempogram_band_consensus_bonus c;
  cf_tempogram_novelty_w_spectral := cf_tempogram_novelty_w_spectral c;
  cf_tempogram_novelty_w_energy := cf_tempogram_novelty_w_energy c;
  cf_tempogram_novelty_w_hfc := cf_tempogram_novelty_w_hfc c;
  cf_tempogram_novelty_local_mean_window := cf_tempogram_novelty_local_mean_window c;
  cf_tempogram_novelty_smooth_window := cf_tempogram_novelty_smooth_window c;
  cf_enable_tempogram_mel_novelty := cf_enable_tempogram_mel_novelty c;
  cf_tempogram_mel_n_mels := cf_tempogram_mel_n_mels c; cf_tempogram_mel_fmin_hz := cf_tempogram_mel_fmin_hz c;
  cf_tempogram_mel_fmax_hz := cf_tempogram_mel_fmax_hz c;
  cf_tempogram_mel_max_filter_bins := cf_tempogram_mel_max_filter_bins c;
  cf_tempogram_mel_weight := cf_tempogram_mel_weight c;
  cf_tempogram_superflux_max_filter_bins := cf_tempogram_superflux_max_filter_bins c;
  cf_emit_tempogram_candidates := cf_emit_tempogram_candidates c;
  cf_tempogram_candidates_top_n := cf_tempogram_candidates_top_n c;
  cf_legacy_bpm_preferred_min := cf_legacy_bpm_preferred_min c;
  cf_legacy_bpm_preferred_max := cf_legacy_bpm_preferred_max c; cf_legacy_bpm_soft_min := cf_legacy_bpm_soft_min c;
  cf_legacy_bpm_soft_max := cf_legacy_bpm_soft_max c;
  cf_legacy_bpm_conf_mul_preferred := cf_legacy_bpm_conf_mul_preferred c;
  cf_legacy_bpm_conf_mul_soft := cf_legacy_bpm_conf_mul_soft c;
  cf_legacy_bpm_conf_mul_extreme := cf_legacy_bpm_conf_mul_extreme c; cf_min_bpm := cf_min_bpm c;
  cf_max_bpm := cf_max_bpm c; cf_bpm_resolution := cf_bpm_resolution c; cf_frame_size := cf_frame_size c;
  cf_hop_size := cf_hop_size c; cf_center_frequency := cf_center_frequency c;
  cf_soft_chroma_mapping := cf_soft_chroma_mapping c; cf_soft_mapping_sigma := cf_soft_mapping_sigma c;
  cf_chroma_sharpening_power := cf_chroma_sharpening_power c;
  cf_enable_key_spectrogram_time_smoothing := cf_enable_key_spectrogram_time_smoothing c;
  cf_key_spectrogram_smooth_margin := cf_key_spectrogram_smooth_margin c;
  cf_enable_key_frame_weighting := cf_enable_key_frame_weighting c; cf_key_min_tonalness := cf_key_min_tonalness c;
  cf_key_tonalness_power := cf_key_tonalness_power c; cf_key_energy_power := cf_key_energy_power c;
  cf_enable_key_harmonic_mask := cf_enable_key_harmonic_mask c;
  cf_key_harmonic_mask_power := cf_key_harmonic_mask_power c;
  cf_enable_key_hpss_harmonic := cf_enable_key_hpss_harmonic c; cf_key_hpss_frame_step := cf_key_hpss_frame_step c;
  cf_key_hpss_time_margin := cf_key_hpss_time_margin c; cf_key_hpss_freq_margin := cf_key_hpss_freq_margin c;
  cf_key_hpss_mask_power := cf_key_hpss_mask_power c; cf_enable_key_stft_override := cf_enable_key_stft_override c;
  cf_key_stft_frame_size := cf_key_stft_frame_size c; cf_key_stft_hop_size := cf_key_stft_hop_size c;
  cf_enable_key_log_frequency := cf_enable_key_log_frequency c;
  cf_enable_key_beat_synchronous := cf_enable_key_beat_synchronous c;
  cf_enable_key_multi_scale := cf_enable_key_multi_scale c; cf_key_template_set := cf_key_template_set c;
  cf_enable_key_ensemble := cf_enable_key_ensemble c; cf_key_ensemble_kk_weight := cf_key_ensemble_kk_weight c;
  cf_key_ensemble_temperley_weight := cf_key_ensemble_temperley_weight c;
  cf_enable_key_median := cf_enable_key_median c;
  cf_key_median_segment_length_frames := cf_key_median_segment_length_frames c;
  cf_key_median_segment_hop_frames := cf_key_median_segment_hop_frames c;
  cf_key_median_min_segments := cf_key_median_min_segments c;
  cf_key_multi_scale_lengths := cf_key_multi_scale_lengths c; cf_key_multi_scale_hop := cf_key_multi_scale_hop c;
  cf_key_multi_scale_min_clarity := cf_key_multi_scale_min_clarity c;
  cf_key_multi_scale_weights := cf_key_multi_scale_weights c;
  cf_enable_key_tuning_compensation := cf_enable_key_tuning_compensation c;
  cf_key_tuning_max_abs_semitones := cf_key_tuning_max_abs_semitones c;
  cf_key_tuning_frame_step := cf_key_tuning_frame_step c;
  cf_key_tuning_peak_rel_threshold := cf_key_tuning_peak_rel_threshold c; cf_enable_key_edge_trim := trim;
  cf_key_edge_trim_fraction := cf_key_edge_trim_fraction c;
  cf_enable_key_segment_voting := cf_enable_key_segment_voting c; cf_key_segment_len_frames := len;
  cf_key_segment_hop_frames := hop; cf_key_segment_min_clarity := cf_key_segment_min_clarity c;
  cf_enable_key_mode_heuristic := cf_enable_key_mode_heuristic c;
  cf_key_mode_third_ratio_margin := cf_key_mode_third_ratio_margin c;
  cf_key_mode_flip_min_score_ratio := cf_key_mode_flip_min_score_ratio c; cf_enable_key_hpcp := cf_enable_key_hpcp c;
  cf_key_hpcp_peaks_per_frame := cf_key_hpcp_peaks_per_frame c;
  cf_key_hpcp_num_harmonics := cf_key_hpcp_num_harmonics c;
  cf_key_hpcp_harmonic_decay := cf_key_hpcp_harmonic_decay c; cf_key_hpcp_mag_power := cf_key_hpcp_mag_power c;
  cf_enable_key_hpcp_whitening := cf_enable_key_hpcp_whitening c;
  cf_key_hpcp_whitening_smooth_bins := cf_key_hpcp_whitening_smooth_bins c;
  cf_enable_key_hpcp_bass_blend := cf_enable_key_hpcp_bass_blend c;
  cf_key_hpcp_bass_fmin_hz := cf_key_hpcp_bass_fmin_hz c; cf_key_hpcp_bass_fmax_hz := cf_key_hpcp_bass_fmax_hz c;
  cf_key_hpcp_bass_weight := cf_key_hpcp_bass_weight c;
  cf_enable_key_minor_harmonic_bonus := cf_enable_key_minor_harmonic_bonus c;
  cf_key_minor_leading_tone_bonus_weight := cf_key_minor_leading_tone_bonus_weight c |}.
Example C71_trim_case :
  trim_range (key_options true 1024 512 default_config) 1000 1000 = Some (150, 850)%Z /\ trim_range (key_options true 1024 512 default_config) 1000 999 = None /\
  trim_range (key_options true 1024 512 default_config) 199 199 = None /\ trim_range default_config 1000 1000 = None.
Proof. vm_compute. auto. Qed.

(** A logarithm that is only right at 1 and 12, and 1/2; four equal pitch classes, then one among four. *)
Definition rough_ln (x : f32) : f32 :=
  if feq x f1 then f0 else if feq x (z2f 12) then lit 5 (-1) else fneg f1.
Definition rough_libm : libm := {| m_powf := fun x _ => x; m_log10 := fun _ => f0; m_log2 := fun _ => f0; m_ln := rough_ln;
  m_exp := fun _ => f0; m_sin := fun _ => f0; m_cos := fun _ => f0 |}.
Lemma rough_key_ln : key_ln rough_libm.
Proof.
  split; [|repeat split; vm_compute; reflexivity]. intros p _ _. cbn [m_ln rough_libm]. unfold rough_ln.
  assert (A : within 8 (lit 5 (-1))) by (apply (within_mono 2), upto_within, upto_check; [lia|lia|vm_compute; reflexivity]).
  destruct (feq p f1); [apply within_0|]. destruct (feq p (z2f 12)); [exact A|].
  apply within_neg, (within_mono 0); [lia|]. apply in01_within, in01_1.
Qed.
Example C71_tonalness_case :
  f2i32 (fmul (z2f 100) (tonalness rough_libm [f1; f0; f0; f1; f0; f0; f1; f0; f0; f1; f0; f0])) = 60%Z /\
  f2i32 (fmul (z2f 100) (tonalness rough_libm [f0; f0; f0; f1; f0; f0; f0; f0; f0; f0; f0; f0])) = 100%Z /\
  f2i32 (fmul (z2f 100) (tonalness rough_libm (repeat f0 12))) = 0%Z.
Proof. vm_compute. auto. Qed.

(** Ten C triads of energy 4 and nine silent frames: the triads share the weight; with nine triads no weights are used. *)
Example C71_weights_case :
  match frame_weights rough_libm default_config (repeat triad 10 ++ repeat (repeat f0 12) 9) (repeat (z2f 4) 10 ++ repeat f0 9) with
  | Some w => map (fun x => f2i32 (fmul (z2f 100) x)) w = repeat 60%Z 10 ++ repeat 0%Z 9
  | None => False
  end /\
  frame_weights rough_libm default_config (repeat triad 9 ++ repeat (repeat f0 12) 9) (repeat (z2f 4) 9 ++ repeat f0 9) = None.
Proof. vm_compute. auto. Qed.

(** 180 frames, voting segments of 120 frames every 60: C triads first, then G triads.  Both segments vote. *)
Definition keep_all : key_orders :=
  {| ko_kk := keep; ko_te := keep; ko_segment := fun _ => keep; ko_scale := fun _ _ => keep; ko_track := keep |}.
Example C71_segments_case :
  let c := key_options false 120 60 default_config in
  let cs := repeat triad 130 ++ repeat triad_g 50 in
  use_segments c (length cs) = true /\ use_multi_scale c (length cs) = false /\
  segment_starts (length cs) 120 60 = [0; 60] /\
  match key_call keep_all c cs None with Ok (k, conf, cl) => Some (k, f2i32 (fmul (z2f 100) conf), f2i32 (fmul (z2f 100) cl)) | _ => None end =
    Some (Minor 4, 6%Z, 64%Z).
Proof. vm_compute. auto. Qed.
