(** C57 (continued): the multi-scale and median key detectors. *)
From Coq Require Import ZArith Reals Lra Lia Sorted Permutation.
From Flocq Require Import Core.
From Verif Require Import Rust F32 F32Facts ListFacts Sorting SortingFacts Bounds KeyNotation KeyTemplates KeyDetector
  KeyDetectorProofs KeyBoundsProofs KeyDetectorProps NoveltyProofs KeyVariantsProofs KeyScoresProofs KeyVariantsProps
  KeyScalesProofs KeyChangesProofs.

Notation eps12 := (lit 2305843 (-61)).

(** The multi-scale detector: every window of every usable scale (length between 1 and the number of frames, weight
    not <= 0) that starts at a multiple of the hop and fits casts a ballot; the ballots clear enough are averaged, each
    with weight clarity times scale weight.  Without such ballots, or with vanishing total weight, the whole sequence
    is analysed at once. *)
Theorem C57_multi_result : forall hs hg c t w lens hop mc sws o r, (forall i s, honest (hs i s)) ->
  detect_key_multi_scale hs hg c t w lens hop mc sws o = Ok r ->
  c <> [] /\ lens <> [] /\
  exists bs, Forall2 (window_casts hs o c t w) (windows (length c) (Z.to_nat (Z.max hop 1)) sws lens) bs /\
  let used := filter (fun b => fge (bl_clarity b) mc) bs in
  let total := fsum (map (fun b => fmul (bl_clarity b) (bl_weight b)) used) in
  ((used = [] \/ fle total eps12 = true) /\ detect_segment hg o c t w = Ok r \/
   (used <> [] /\ fle total eps12 = false) /\
   once_each (kr_scores r) /\
   (forall k s, In (k, s) (kr_scores r) <-> In k all_keys /\
      s = fdiv (fsum (map (fun b => fmul (find_score (key_eqb k) (bl_scores b) f0) (fmul (bl_clarity b) (bl_weight b))) used)) total) /\
   (forall k s, In (k, s) (kr_scores r) -> nn s) /\
   StronglySorted (fun a b => fle (snd b) (snd a) = true) (kr_scores r) /\
   kr_top r = firstn 3 (kr_scores r) /\
   (exists s, In (kr_key r, s) (kr_scores r) /\ forall k' s', In (k', s') (kr_scores r) -> fle s' s = true) /\
   ((forall k s, In (k, s) (kr_scores r) -> fin s) -> in01 (kr_conf r))).
Proof.
  intros hs hg c t w lens hop mc sws o r Hh H. unfold detect_key_multi_scale in H.
  destruct (length c =? 0) eqn:Lc; [discriminate|]. apply Nat.eqb_neq in Lc.
  destruct (length lens =? 0) eqn:Ll; [discriminate|]. apply Nat.eqb_neq in Ll.
  split; [intros ->; now apply Lc|]. split; [intros ->; now apply Ll|].
  destruct (scales_loop _ _ _ _ _ _ _ _ _ _ _) as [st| |] eqn:L in H; try discriminate. cbn [obind] in H.
  change (map (fun k => (k, f0)) all_keys, f0, 0) with (tally []) in L.
  apply scales_loop_spec in L as (bs & F & ->); [|exact Hh]. rewrite app_nil_l in H.
  exists bs. split; [exact F|]. cbv zeta. set (used := filter (fun b => fge (bl_clarity b) mc) bs) in *.
  unfold tally in H. set (total := fsum (map (fun b => fmul (bl_clarity b) (bl_weight b)) used)) in *.
  destruct ((length used =? 0) || fle total eps12) eqn:T.
  { left. split; [|exact H]. apply orb_true_iff in T as [T|T]; [left|now right].
    apply Nat.eqb_eq in T. now destruct used. }
  right. apply orb_false_iff in T as (T1 & T2). apply Nat.eqb_neq in T1.
  split. { split; [intros E; now rewrite E in T1|exact T2]. }
  rewrite map_map in H. cbn [fst snd] in H.
  match type of H with context [map ?g all_keys] => set (f := g) in H end.
  assert (Tf : is_table (map f all_keys)) by apply (combined_table (fun x => snd (f x))).
  unfold sort_or_panic in H. destruct ((2 <=? length (map f all_keys)) && existsb (fun ks => fisnan (snd ks)) (map f all_keys)) eqn:Nx;
    [discriminate|]. cbn [obind] in H.
  assert (Nn : forall k s, In (k, s) (map f all_keys) -> nn s).
  { intros k s I. rewrite (is_table_length _ Tf) in Nx. cbn [Nat.leb andb] in Nx.
    destruct (fisnan s) eqn:E; [|exact E]. assert (X : existsb (fun ks => fisnan (snd ks)) (map f all_keys) = true); [|congruence].
    apply existsb_exists. exists (k, s). split; [exact I|exact E]. }
  destruct (report_spec _ Tf) as (r' & E' & R). assert (r' = r) by congruence. subst r'.
  destruct (reported_facts _ _ Tf R) as (Tr & Lr & K & S & Fr). destruct (S Nn) as (S1 & S2).
  assert (In' : forall x, In x (kr_scores r) <-> In x (map f all_keys)) by (intros x; rewrite (rp_scores _ _ R); apply sort_desc_in).
  split; [now apply table_once|]. split.
  { intros k s. rewrite In', in_map_iff. unfold f. split.
    - intros (x & Eq & I). injection Eq as -> <-. split; [exact I|reflexivity].
    - intros (I & ->). exists k. split; [reflexivity|exact I]. }
  split. { intros k s I. apply (Nn k s). now apply In'. }
  split; [exact S1|]. split; [exact (rp_top _ _ R)|]. split; [exact S2|].
  intros Fi. apply Fr. intros k s I. apply (Fi k s). now apply In'.
Qed.
Print Assumptions C57_multi_result.

(** Which windows those are. *)
Theorem C57_multi_windows : forall n hop sws lens i sw seg s, 1 <= hop ->
  (In (i, sw, seg, s) (windows n hop sws lens) <->
   nth_error lens i = Some seg /\ sw = weight_at sws i /\ 1 <= seg <= n /\ fle sw f0 = false /\
   exists m, s = m * hop /\ s + seg <= n).
Proof.
  intros n hop sws lens i sw seg s Hp. unfold windows. rewrite in_flat_map.
  assert (C : forall l a, In (i, seg) (combine (seq a (length l)) l) <-> a <= i /\ nth_error l (i - a) = Some seg).
  { induction l as [|x l IH]; intros a; cbn [length seq combine].
    - split; [intros []|]. intros (_ & E). now destruct (i - a).
    - cbn [In]. rewrite IH. split.
      + intros [E|(L & E)]; [injection E as -> ->; rewrite Nat.sub_diag; auto|]. split; [lia|].
        replace (i - a) with (S (i - S a)) by lia. exact E.
      + intros (L & E). destruct (Nat.eq_dec i a) as [->|D].
        * rewrite Nat.sub_diag in E. injection E as ->. now left.
        * right. split; [lia|]. replace (i - a) with (S (i - S a)) in E by lia. exact E. }
  unfold scale_windows. split.
  - intros ((i' & seg') & I & J). cbn [fst snd] in J.
    destruct ((seg' =? 0) || (n <? seg') || fle (weight_at sws i') f0) eqn:D; [destruct J|].
    apply in_map_iff in J as (s' & E & J). injection E as <- <- <- <-.
    apply orb_false_iff in D as (D & D3). apply orb_false_iff in D as (D1 & D2). apply Nat.eqb_neq in D1. apply Nat.ltb_ge in D2.
    apply (C lens 0) in I as (_ & I). rewrite Nat.sub_0_r in I. apply fitting_iff in J; [|exact Hp].
    repeat split; auto; lia.
  - intros (I & -> & (S1 & S2) & D & J). exists (i, seg). split.
    + apply (C lens 0). rewrite Nat.sub_0_r. split; [lia|exact I].
    + cbn [fst snd]. rewrite D. replace (seg =? 0) with false by (symmetry; apply Nat.eqb_neq; lia).
      replace (n <? seg) with false by (symmetry; apply Nat.ltb_ge; lia). cbn [orb].
      apply in_map_iff. exists s. split; [reflexivity|]. now apply fitting_iff.
Qed.
Print Assumptions C57_multi_windows.

Theorem C57_multi_errors : forall hs hg c t w lens hop mc sws o, c = [] \/ lens = [] ->
  detect_key_multi_scale hs hg c t w lens hop mc sws o = Err InvalidInput.
Proof. intros hs hg c t w lens hop mc sws o [-> | ->]; [reflexivity|]. unfold detect_key_multi_scale. now destruct (length c =? 0). Qed.
Print Assumptions C57_multi_errors.

(** The size of a segment's scores. *)
Definition segment_bound (o : scale_opts) (j p m : Z) : Z :=
  if so_minor o then (Z.max 30 (Z.max (j + 25) p + m + 1) + 1)%Z else 30%Z.
Lemma segment_total : forall h o c ts w k j p m, honest h ->
  (0 <= k)%Z -> (0 <= j)%Z -> (0 <= p)%Z -> (0 <= m)%Z -> (k + j <= 70)%Z -> (j + 25 + m <= 125)%Z -> (p + m <= 125)%Z ->
  c <> [] -> (Z.of_nat (length c) <= 2 ^ p)%Z -> sane_frames k c -> sane_weights j (length c) w ->
  within m (so_minor_weight o) ->
  exists r, detect_segment h o c (new_templates ts) w = Ok r /\ in01 (kr_conf r) /\
    table_within (segment_bound o j p m) (kr_scores r).
Proof.
  intros h o c ts w k j p m Hh K J P M KJ JM PM Nc N C W Mw.
  assert (E : detect_segment h o c (new_templates ts) w =
    detect_key_mode h c (new_templates ts) w (so_margin o) (if so_mode o then so_flip o else f0) (so_minor o) (so_minor_weight o)).
  { unfold detect_segment. destruct (so_mode o), (so_minor o); cbn [orb]; try reflexivity. symmetry. now apply C57_mode_off. }
  rewrite E. exact (C57_mode_total h c ts w _ _ _ _ k j p m Hh K J P M KJ JM PM Nc N C W Mw).
Qed.

Lemma slice_sane : forall k j c w s seg, 0 < seg -> s + seg <= length c -> sane_frames k c -> sane_weights j (length c) w ->
  slice c s (s + seg) <> [] /\ length (slice c s (s + seg)) = seg /\ sane_frames k (slice c s (s + seg)) /\
  sane_weights j (length (slice c s (s + seg))) (weights_slice w s seg).
Proof.
  intros k j c w s seg P L C W. assert (Ls : length (slice c s (s + seg)) = seg) by (rewrite slice_length by lia; lia).
  split. { intros E. rewrite E in Ls. cbn in Ls. lia. }
  split; [exact Ls|]. split; [now apply slice_Forall|]. rewrite Ls.
  destruct w as [ws|]; [|exact I]. destruct W as (Lw & W). cbn [weights_slice].
  destruct (s + seg <=? length ws) eqn:E; [|exact I]. split; [rewrite slice_length; lia|now apply slice_Forall].
Qed.

Lemma in01_within : forall x, in01 x -> within 0 x.
Proof.
  intros x (A & B). apply within_le with f0 f1; auto; [apply within_0|]. split; [reflexivity|].
  assert (E : B2R f1 = 1%R) by (rewrite <- fx_fin by reflexivity; apply fx_f1). rewrite E, Rabs_R1. apply Rle_refl.
Qed.
Lemma eps12_pos : forall x, fle x eps12 = false -> nn x -> fgt x f0 = true.
Proof.
  intros x H N. rewrite fgt_flt. apply fle_false_flt in H; [|exact N|reflexivity].
  apply (fle_flt_trans _ eps12); [reflexivity|exact H].
Qed.

Lemma averaged_within : forall B q used k, (0 <= B)%Z -> (0 <= q)%Z -> (B + q <= 102)%Z ->
  (forall b, In b used -> nneg (bl_vote b) /\ within q (bl_vote b) /\ is_table (bl_scores b) /\ table_within B (bl_scores b)) ->
  fle (fsum (map (fun b => bl_vote b) used)) eps12 = false -> In k all_keys ->
  within B (fdiv (fsum (map (fun b => fmul (find_score (key_eqb k) (bl_scores b) f0) (bl_vote b)) used))
                 (fsum (map (fun b => bl_vote b) used))) /\
  ((forall b, In b used -> Forall (fun ks => nneg (snd ks)) (bl_scores b)) ->
   nneg (fdiv (fsum (map (fun b => fmul (find_score (key_eqb k) (bl_scores b) f0) (bl_vote b)) used))
              (fsum (map (fun b => bl_vote b) used)))).
Proof.
  intros B q used k HB Q BQ H T I.
  set (l := map (fun b => (find_score (key_eqb k) (bl_scores b) f0, bl_vote b)) used).
  assert (E : forall b, In b used -> In (k, find_score (key_eqb k) (bl_scores b) f0) (bl_scores b)).
  { intros b J. apply table_entry; [now apply H|exact I]. }
  assert (F : Forall (fun sc => within B (fst sc) /\ nneg (snd sc) /\ within q (snd sc)) l).
  { apply Forall_forall. intros sc J. unfold l in J. apply in_map_iff in J as (b & <- & J). cbn [fst snd].
    destruct (H b J) as (H1 & H2 & _ & H4). split; [exact (proj1 (Forall_forall _ _) H4 _ (E b J))|]. split; [exact H1|exact H2]. }
  assert (E1 : fsum (map (fun b => bl_vote b) used) = fsum (map snd l)) by (unfold l; now rewrite map_map).
  assert (E2 : fsum (map (fun b => fmul (find_score (key_eqb k) (bl_scores b) f0) (bl_vote b)) used) = fsum (map (fun sc => fmul (fst sc) (snd sc)) l))
    by (unfold l; now rewrite map_map).
  rewrite E1, E2. rewrite E1 in T. destruct (weighted_sums B q l HB Q BQ F) as (_ & _ & D & _).
  destruct (weighted_average B q l HB Q BQ F) as (W & Nn); [apply eps12_pos; [exact T|now apply within_nn in D]|].
  split; [exact W|]. intros P. apply Nn. apply Forall_forall. intros sc J. unfold l in J. apply in_map_iff in J as (b & <- & J). cbn [fst].
  exact (proj1 (Forall_forall _ _) (P b J) _ (E b J)).
Qed.

Theorem C57_multi_total : forall hs hg c ts w lens hop mc sws o k j p m q, (forall i s, honest (hs i s)) -> honest hg ->
  (0 <= k)%Z -> (0 <= j)%Z -> (0 <= p)%Z -> (0 <= m)%Z -> (0 <= q)%Z -> (k + j <= 70)%Z ->
  (j + 25 + m <= 125)%Z -> (p + m <= 125)%Z -> (segment_bound o j p m + q <= 101)%Z ->
  c <> [] -> lens <> [] -> (Z.of_nat (length c) <= 2 ^ p)%Z -> (2 * Z.of_nat (length c) + Z.max hop 1 <= usize_max)%Z ->
  Forall (fun ch => length ch = 12 /\ Forall (fun x => nneg x /\ within k x) ch) c ->
  (match w with
   | None => True
   | Some ws => length ws = length c /\ Forall (fun x => nneg x /\ within j x) ws
   end) ->
  within m (so_minor_weight o) -> (match sws with None => True | Some l => Forall (within q) l end) ->
  exists r, detect_key_multi_scale hs hg c (new_templates ts) w lens hop mc sws o = Ok r /\ in01 (kr_conf r) /\
    Forall (fun ks => within (segment_bound o j p m) (snd ks)) (kr_scores r).
Proof.
  intros hs hg c ts w lens hop mc sws o k j p m q Hh Hg K J P M Q KJ JM PM B Nc Nl N U C W Mw Sw.
  set (B0 := segment_bound o j p m) in *.
  assert (B30 : (0 <= B0)%Z) by (unfold B0, segment_bound; destruct (so_minor o); lia).
  assert (Cast : forall h sw seg s, honest h -> 0 < seg -> s + seg <= length c ->
    exists b, casts h o c (new_templates ts) w seg s sw b /\ in01 (bl_clarity b) /\ table_within B0 (bl_scores b)).
  { intros h sw seg s H P0 L. destruct (slice_sane k j c w s seg P0 L C W) as (S1 & S2 & S3 & S4).
    assert (Ns : (Z.of_nat (length (slice c s (s + seg))) <= 2 ^ p)%Z) by (rewrite S2; lia).
    destruct (segment_total h o _ ts _ k j p m H K J P M KJ JM PM S1 Ns S3 S4 Mw) as (r & E & _ & T).
    assert (B1 : (0 <= B0 <= 101)%Z) by lia.
    destruct (clarity_in01 B0 _ B1 T) as (cl & Ec & I).
    exists {| bl_clarity := cl; bl_weight := sw; bl_scores := kr_scores r |}. cbn [bl_clarity bl_scores]. split; [|split; [exact I|exact T]].
    split; [reflexivity|]. exists r. split; [exact E|]. split; [reflexivity|exact Ec]. }
  assert (Wt : forall i, within q (weight_at sws i)).
  { intros i. unfold weight_at. assert (W1 : within q f1) by (apply within_mono with 0%Z; [lia|apply in01_within, in01_1]).
    destruct sws as [l|]; [|exact W1]. destruct (Nat.lt_ge_cases i (length l)) as [Li|Li].
    - apply (proj1 (Forall_forall _ _) Sw). now apply nth_In.
    - now rewrite nth_overflow. }
  assert (Used : forall bs, Forall2 (window_casts hs o c (new_templates ts) w) (windows (length c) (Z.to_nat (Z.max hop 1)) sws lens) bs ->
    forall b, In b bs -> nneg (bl_vote b) /\ within q (bl_vote b) /\ is_table (bl_scores b) /\ table_within B0 (bl_scores b)).
  { assert (Hw : forall wd, In wd (windows (length c) (Z.to_nat (Z.max hop 1)) sws lens) -> forall b,
      window_casts hs o c (new_templates ts) w wd b -> nneg (bl_vote b) /\ within q (bl_vote b) /\ is_table (bl_scores b) /\ table_within B0 (bl_scores b)).
    { intros (((i & sw) & seg) & s) I b Cb. apply C57_multi_windows in I as (_ & -> & (S1 & S2) & Sp & (mm & _ & S3)); [|lia].
      cbn [window_casts] in Cb. destruct Cb as (Eb & r & D & Es & Ec).
      destruct (Cast (hs i s) (weight_at sws i) seg s (Hh i s) S1 S3) as (b' & (_ & r' & D' & Es' & Ec') & I' & T').
      assert (r' = r) by congruence. subst r'. rewrite <- Es, Es' in *. rewrite Es.
      assert (bl_clarity b = bl_clarity b') by congruence.
      assert (Wv : within q (bl_vote b)).
      { replace q with (0 + q)%Z by lia. apply within_mul; [lia|rewrite H; now apply in01_within|]. rewrite Eb. apply Wt. }
      split; [|split; [exact Wv|split; [eapply segment_table; [apply Hh|exact D]|rewrite <- Es; exact T']]].
      apply within_nn in Wv. apply fmul_nneg; [rewrite H; apply I'| |exact Wv]. rewrite Eb.
      apply fle_false_flt in Sp; [now apply flt_fle|apply within_nn with q; apply Wt|reflexivity]. }
    intros bs F. revert Hw. induction F as [|wd b l l' X F IH]; intros Hw b' I; [destruct I|].
    destruct I as [<-|I]; [apply (Hw wd); [now left|exact X]|]. apply IH; [|exact I]. intros wd' I'. apply Hw. now right. }
  assert (R : exists r, detect_key_multi_scale hs hg c (new_templates ts) w lens hop mc sws o = Ok r).
  { unfold detect_key_multi_scale. replace (length c =? 0) with false by (symmetry; apply Nat.eqb_neq; now destruct c).
    replace (length lens =? 0) with false by (symmetry; apply Nat.eqb_neq; now destruct lens).
    change (map (fun k => (k, f0)) all_keys, f0, 0) with (tally []).
    destruct (scales_loop_ok hs o c (new_templates ts) w hop mc sws Hh U) with (lens := lens) (i := 0) (used := @nil ballot) as (st & E).
    { intros i seg s Ps Ls. destruct (Cast (hs i s) (weight_at sws i) seg s (Hh i s) Ps Ls) as (b & X & _). exists b. exact X. }
    rewrite E. cbn [obind]. apply scales_loop_spec in E as (bs & F & ->); [|exact Hh]. rewrite app_nil_l. unfold tally.
    set (used := filter _ bs). destruct (_ || _) eqn:T.
    - destruct (segment_total hg o c ts w k j p m Hg K J P M KJ JM PM Nc N C W Mw) as (r & E & _). exists r. exact E.
    - apply orb_false_iff in T as (_ & T). rewrite map_map. cbn [fst snd].
      match goal with |- context [map ?g all_keys] => set (f := g) end.
      assert (Tf : is_table (map f all_keys)) by apply (combined_table (fun x => snd (f x))).
      assert (Nx : existsb (fun ks => fisnan (snd ks)) (map f all_keys) = false).
      { apply score_nan_false. apply Forall_forall. intros ks I. apply in_map_iff in I as (kk & <- & I). unfold f. cbn [snd].
        apply (within_nn B0). apply (averaged_within B0 q used kk B30 Q ltac:(lia)); [|exact T|exact I].
        intros b Ib. apply (Used bs F). unfold used in Ib. now apply filter_In in Ib as (Ib & _). }
      unfold sort_or_panic. rewrite Nx, andb_false_r. cbn [obind].
      destruct (report_spec _ Tf) as (r & E' & _). exists r. exact E'. }
  destruct R as (r & E). exists r. split; [exact E|].
  destruct (C57_multi_result _ _ _ _ _ _ _ _ _ _ _ Hh E) as (_ & _ & bs & F & [(_ & D)|((_ & T) & _ & Sc & _ & _ & _ & _ & Cf)]).
  - destruct (segment_total hg o c ts w k j p m Hg K J P M KJ JM PM Nc N C W Mw) as (r' & E' & I & Tw).
    assert (r' = r) by congruence. subst r'. split; [exact I|exact Tw].
  - assert (Fi : forall k' s, In (k', s) (kr_scores r) -> within B0 s).
    { intros k' s Ik. apply Sc in Ik as (Ik & ->). apply (averaged_within B0 q _ k' B30 Q ltac:(lia)); [|exact T|exact Ik].
      intros b Ib. apply (Used bs F). now apply filter_In in Ib as (Ib & _). }
    split; [apply Cf; intros k' s Ik; apply Fi in Ik; now apply within_fin in Ik|].
    apply Forall_forall. intros (k' & s) Ik. exact (Fi k' s Ik).
Qed.
Print Assumptions C57_multi_total.

(** ** Median *)
Definition window_result (hs : nat -> hash_order) (c : list (list f32)) (t : templates) (w : option (list f32)) (seg s : nat)
  : outcome key_result := detect_key_weighted (hs s) (slice c s (s + seg)) t (weights_slice w s seg).
(** The results of the windows whose analysis succeeds. *)
Definition window_results hs c t w seg (starts : list nat) : list key_result :=
  flat_map (fun s => match window_result hs c t w seg s with Ok r => [r] | _ => [] end) starts.

Lemma median_loop_spec : forall hs c t w seg hop fuel start rs,
  median_loop fuel hs c t w seg (Z.of_nat hop) (Z.of_nat start) = Ok rs ->
  rs = window_results hs c t w seg (starts_from fuel (length c) seg hop start).
Proof.
  intros hs c t w seg hop. induction fuel as [|f IH]; intros start rs H; [now injection H as <-|].
  cbn [median_loop starts_from] in *. destruct (usize_max <? Z.of_nat start + Z.of_nat seg)%Z; [discriminate|].
  replace (Z.of_nat start + Z.of_nat seg <=? Z.of_nat (length c))%Z with (start + seg <=? length c) in H.
  2:{ destruct (Nat.leb_spec (start + seg) (length c)); symmetry; [apply Z.leb_le|apply Z.leb_gt]; lia. }
  destruct (start + seg <=? length c) eqn:L; [|now injection H as <-].
  rewrite Nat2Z.id in H. unfold window_results. cbn [flat_map]. unfold window_result at 1.
  destruct (detect_key_weighted (hs start) (slice c start (start + seg)) t (weights_slice w start seg)) as [r|e|] eqn:D;
    [| |discriminate]; (destruct (usize_max <? Z.of_nat start + Z.of_nat hop)%Z; [discriminate|]);
    rewrite <- Nat2Z.inj_add in H;
    (destruct (median_loop f hs c t w seg (Z.of_nat hop) (Z.of_nat (start + hop))) as [rest| |] eqn:R; [|discriminate|discriminate]);
    cbn [obind] in H; injection H as <-; apply IH in R; rewrite R; reflexivity.
Qed.
Lemma median_loop_ok : forall hs c t w seg hop, (2 * Z.of_nat (length c) + Z.of_nat seg + Z.of_nat hop <= usize_max)%Z ->
  (forall s, s + seg <= length c -> window_result hs c t w seg s <> Panic) ->
  forall fuel start, start <= length c + hop -> exists rs, median_loop fuel hs c t w seg (Z.of_nat hop) (Z.of_nat start) = Ok rs.
Proof.
  intros hs c t w seg hop U Np. induction fuel as [|f IH]; intros start Hs; [eexists; reflexivity|].
  cbn [median_loop]. replace (usize_max <? Z.of_nat start + Z.of_nat seg)%Z with false by (symmetry; apply Z.ltb_ge; lia).
  destruct (Z.leb_spec (Z.of_nat start + Z.of_nat seg) (Z.of_nat (length c))) as [L|L]; [|eexists; reflexivity].
  rewrite Nat2Z.id. specialize (Np start ltac:(lia)). unfold window_result in Np.
  destruct (IH (start + hop) ltac:(lia)) as (rest & R). rewrite Nat2Z.inj_add in R.
  destruct (detect_key_weighted _ _ _ _) as [r|e|]; [| |now contradiction Np];
    (replace (usize_max <? Z.of_nat start + Z.of_nat hop)%Z with false by (symmetry; apply Z.ltb_ge; lia));
    rewrite R; cbn [obind]; eexists; reflexivity.
Qed.

Definition counted_for (k : key) (rs : list key_result) : list key_result := filter (fun r => key_eqb k (kr_key r)) rs.
Notation tie_gt := (fun a b : key * (nat * f32) => match Nat.compare (fst (snd a)) (fst (snd b)) with
                    | Gt => true | Lt => false | Eq => fgt (snd (snd a)) (snd (snd b)) end).
Lemma max_by_count : forall l x, max_by tie_gt l = Some x -> forall y, In y l ->
  fst (snd y) <= fst (snd x) /\
  (Forall (fun e => nn (snd (snd e))) l -> fst (snd y) = fst (snd x) -> fle (snd (snd y)) (snd (snd x)) = true).
Proof.
  intros [|z l] x H; [discriminate|]. cbn [max_by] in H.
  replace x with (fold_left (fun acc y => if tie_gt acc y then acc else y) l z) by congruence. clear H x.
  assert (Rf : forall z : key * (nat * f32), nn (snd (snd z)) -> fle (snd (snd z)) (snd (snd z)) = true) by (intros; now apply fle_refl).
  revert z. induction l as [|v l IH]; intros z y I; cbn [fold_left].
  - destruct I as [->|[]]. split; [lia|]. intros N _. apply Rf. now apply Forall_inv in N.
  - set (g := if tie_gt z v then z else v). specialize (IH g).
    assert (G : (fst (snd z) <= fst (snd g) /\ fst (snd v) <= fst (snd g)) /\
      (nn (snd (snd z)) -> nn (snd (snd v)) -> (fst (snd z) = fst (snd g) -> fle (snd (snd z)) (snd (snd g)) = true) /\
        (fst (snd v) = fst (snd g) -> fle (snd (snd v)) (snd (snd g)) = true)) /\ (g = z \/ g = v)).
    { unfold g. destruct (Nat.compare_spec (fst (snd z)) (fst (snd v))) as [E|E|E].
      - rewrite fgt_flt. destruct (flt (snd (snd v)) (snd (snd z))) eqn:F.
        + split; [lia|]. split; [|now left]. intros N1 N2. split; intros _; [now apply Rf|now apply flt_fle].
        + split; [lia|]. split; [|now right]. intros N1 N2. split; intros _; [now apply flt_false_fle|now apply Rf].
      - split; [lia|]. split; [|now right]. intros N1 N2. split; [lia|intros _; now apply Rf].
      - split; [lia|]. split; [|now left]. intros N1 N2. split; [intros _; now apply Rf|lia]. }
    clearbody g. destruct G as ((G1 & G2) & G3 & G4).
    set (res := fold_left _ l g) in *. clearbody res.
    assert (Ig : fst (snd g) <= fst (snd res) /\ (Forall (fun e => nn (snd (snd e))) (z :: v :: l) ->
      fst (snd g) = fst (snd res) -> fle (snd (snd g)) (snd (snd res)) = true)).
    { destruct (IH g (or_introl eq_refl)) as (A & B). split; [exact A|]. intros N. apply B.
      pose proof (Forall_inv N) as N1. pose proof (Forall_inv_tail N) as N2. constructor; [|now apply Forall_inv_tail in N2].
      destruct G4 as [->| ->]; [exact N1|now apply Forall_inv in N2]. }
    destruct Ig as (Ig1 & Ig2).
    assert (Z2 : forall u : key * (nat * f32), fst (snd u) <= fst (snd g) -> (nn (snd (snd z)) -> nn (snd (snd v)) -> fst (snd u) = fst (snd g) ->
       fle (snd (snd u)) (snd (snd g)) = true) -> fst (snd u) <= fst (snd res) /\
       (Forall (fun e => nn (snd (snd e))) (z :: v :: l) -> fst (snd u) = fst (snd res) -> fle (snd (snd u)) (snd (snd res)) = true)).
    { intros u U1 U2. split; [lia|]. intros N E. pose proof (Forall_inv N) as N1. pose proof (Forall_inv (Forall_inv_tail N)) as N2.
      eapply fle_trans; [apply U2; auto; lia|apply Ig2; auto; lia]. }
    destruct I as [<-|[<-|I]].
    + apply Z2; [exact G1|]. intros N1 N2. now apply (G3 N1 N2).
    + apply Z2; [exact G2|]. intros N1 N2. now apply (G3 N1 N2).
    + destruct (IH y (or_intror I)) as (A & B). split; [exact A|]. intros N. apply B.
      pose proof (Forall_inv N) as N1. pose proof (Forall_inv_tail N) as N2. constructor; [|now apply Forall_inv_tail in N2].
      destruct G4 as [->| ->]; [exact N1|now apply Forall_inv in N2].
Qed.

Lemma first_other : forall l k, is_table l -> exists k2 s2, k2 <> k /\ In (k2, s2) l /\
  find_score (fun x => negb (key_eqb x k)) l f0 = s2 /\
  (sorted_scores l -> Forall (fun ks => nn (snd ks)) l -> forall k' s', In (k', s') l -> k' <> k -> fle s' s2 = true).
Proof.
  intros l k T. unfold find_score. destruct (find (fun ks => negb (key_eqb (fst ks) k)) l) as [[k2 s2]|] eqn:F.
  - exists k2, s2. pose proof (find_some _ _ F) as (I & N). cbn [fst] in N. apply negb_true_iff, key_eqb_neq in N.
    split; [exact N|]. split; [exact I|]. split; [reflexivity|]. clear T I N. intros S Nn k' s' I' N'.
    induction l as [|[k1 s1] l IH]; [discriminate|]. cbn [find fst] in F. destruct (key_eqb k1 k) eqn:E; cbn [negb] in F.
    + apply key_eqb_iff in E. destruct I' as [X|I']; [injection X as -> ->; contradiction|].
      apply IH; auto; [now apply StronglySorted_inv in S as (S & _)|now apply Forall_inv_tail in Nn].
    + injection F as -> ->. destruct I' as [X|I']; [injection X as -> ->; apply fle_refl; now apply Forall_inv in Nn|].
      apply StronglySorted_inv in S as (_ & S). exact (proj1 (Forall_forall _ _) S _ I').
  - exfalso. set (k2 := if key_eqb (Major 0) k then Major 1%Z else Major 0%Z).
    assert (N2 : k2 <> k).
    { unfold k2. destruct (key_eqb (Major 0) k) eqn:E; [apply key_eqb_iff in E as <-; discriminate|now apply key_eqb_neq in E]. }
    assert (I2 : In k2 all_keys) by (unfold k2; destruct (key_eqb (Major 0) k); apply all_keys_iff; cbn; lia).
    apply (table_entry _ _ T) in I2. pose proof (find_none _ _ F _ I2) as X. cbn [fst] in X.
    apply negb_false_iff, key_eqb_iff in X. contradiction.
Qed.

(** The median detector: windows of max(min(seg_len, frames), 120) frames at multiples of the hop are analysed one by
    one.  With too few successes the whole sequence is analysed at once; otherwise the key named by most windows wins
    (ties by summed confidence), and the reported scores are the confidence-weighted averages. *)
Theorem C57_median_result : forall hs hg hc c t w seg_len hop ms r, (forall s, honest (hs s)) -> honest hc ->
  detect_key_median hs hg hc c t w seg_len hop ms = Ok r ->
  c <> [] /\
  let seg := Nat.max (Nat.min seg_len (length c)) 120 in
  let rs := window_results hs c t w seg (fitting_starts (length c) seg (Z.to_nat (Z.max hop 1))) in
  (length rs < Nat.max ms 1 /\ detect_key_weighted hg c t w = Ok r \/
   Nat.max ms 1 <= length rs /\
   (exists x, In x rs /\ kr_key x = kr_key r) /\
   (forall k, length (counted_for k rs) <= length (counted_for (kr_key r) rs)) /\
   ((forall k, nn (fsum (map kr_conf (counted_for k rs)))) ->
    forall k, length (counted_for k rs) = length (counted_for (kr_key r) rs) ->
      fle (fsum (map kr_conf (counted_for k rs))) (fsum (map kr_conf (counted_for (kr_key r) rs))) = true) /\
   once_each (kr_scores r) /\
   (forall k s, In (k, s) (kr_scores r) <-> In k all_keys /\
      s = let total := fsum (map kr_conf rs) in
          if fgt total f0 then fdiv (fsum (map (fun x => fmul (find_score (key_eqb k) (kr_scores x) f0) (kr_conf x)) rs)) total
          else f0) /\
   kr_top r = firstn 3 (kr_scores r) /\
   ((forall k s, In (k, s) (kr_scores r) -> nn s) ->
    StronglySorted (fun a b => fle (snd b) (snd a) = true) (kr_scores r)) /\
   exists s k2 s2, In (kr_key r, s) (kr_scores r) /\ In (k2, s2) (kr_scores r) /\ k2 <> kr_key r /\
     kr_conf r = margin_conf s s2 /\
     ((forall k s, In (k, s) (kr_scores r) -> nn s) -> forall k' s', In (k', s') (kr_scores r) -> k' <> kr_key r -> fle s' s2 = true) /\
     ((forall k s, In (k, s) (kr_scores r) -> fin s) -> in01 (kr_conf r))).
Proof.
  intros hs hg hc c t w seg_len hop ms r Hh Hc H. unfold detect_key_median in H.
  destruct (length c =? 0) eqn:Lc; [discriminate|]. apply Nat.eqb_neq in Lc.
  split; [intros ->; now apply Lc|]. cbv zeta in *. set (seg := Nat.max (Nat.min seg_len (length c)) 120) in *.
  destruct (median_loop _ _ _ _ _ _ _ _) as [rs| |] eqn:L in H; try discriminate. cbn [obind] in H.
  rewrite <- (Z2Nat.id (Z.max hop 1)) in L by lia. change 0%Z with (Z.of_nat 0) in L at 1.
  apply median_loop_spec in L. rewrite starts_from_0 in L. rewrite <- L.
  assert (Tb : forall x, In x rs -> is_table (kr_scores x)).
  { intros x I. rewrite L in I. unfold window_results in I. apply in_flat_map in I as (s & _ & I).
    destruct (window_result hs c t w seg s) as [y| |] eqn:E; [|destruct I..]. destruct I as [<-|[]].
    unfold window_result in E. destruct (detect_ok _ _ _ _ _ (Hh s) E) as (_ & _ & s' & _ & So & _). exact (so_table _ So). }
  assert (Kx : forall x, In x rs -> exists s, In (kr_key x, s) (kr_scores x)).
  { intros x I. rewrite L in I. unfold window_results in I. apply in_flat_map in I as (s & _ & I).
    destruct (window_result hs c t w seg s) as [y| |] eqn:E; [|destruct I..]. destruct I as [<-|[]].
    unfold window_result in E. destruct (detect_ok _ _ _ _ _ (Hh s) E) as (_ & _ & s' & _ & So & I & _). exists s'.
    rewrite (so_top _ So) in I. rewrite <- (firstn_skipn 3 (kr_scores y)). apply in_or_app. now left. }
  clear L. destruct (length rs <? Nat.max ms 1) eqn:Ms.
  { left. apply Nat.ltb_lt in Ms. split; [exact Ms|exact H]. }
  right. apply Nat.ltb_ge in Ms. split; [exact Ms|].
  set (l := map (fun x => (kr_key x, kr_conf x)) rs) in *.
  destruct (count_keys_spec l) as ([Cn Ce Ck] & Ck2).
  assert (Oc : forall k, occurrences k l = map kr_conf (counted_for k rs)).
  { intros k. unfold occurrences, counted_for, l. clear. induction rs as [|x rs IH]; [reflexivity|]. cbn [map filter fst].
    destruct (key_eqb k (kr_key x)); cbn [map snd]; now rewrite IH. }
  assert (Ol : forall k, length (occurrences k l) = length (counted_for k rs)) by (intros k; now rewrite Oc, map_length).
  destruct (max_by _ _) as [e|] eqn:Mx in H; [|discriminate].
  pose proof (max_by_in _ _ _ _ Mx) as Ie. pose proof (proj2 Hc (count_keys l)) as Pm.
  apply (Permutation_in _ Pm) in Ie. destruct e as (k0 & n0 & s0). cbn [fst snd] in H.
  destruct (Ce _ _ _ Ie) as (E1 & E2 & E3).
  set (f := fun x : key => (x, let total := fsum (map kr_conf rs) in
          if fgt total f0 then fdiv (fsum (map (fun r => fmul (find_score (key_eqb x) (kr_scores r) f0) (kr_conf r)) rs)) total
          else f0)).
  match type of H with context [sort_desc snd ?l0] => assert (Ea : l0 = map f all_keys) end.
  { apply map_ext_in. intros x Ix. unfold f. f_equal.
    assert (G : forall l0 a b, (forall x, In x l0 -> is_table (kr_scores x)) -> fold_left (fun acc r => match find (fun ks => key_eqb (fst ks) x) (kr_scores r) with
                | Some ks => (fadd (fst acc) (fmul (snd ks) (kr_conf r)), fadd (snd acc) (kr_conf r))
                | None => acc end) l0 (a, b) =
      (fold_left fadd (map (fun r => fmul (find_score (key_eqb x) (kr_scores r) f0) (kr_conf r)) l0) a, fold_left fadd (map kr_conf l0) b)).
    { induction l0 as [|y l0 IH]; intros a b Ht; cbn [fold_left map]; [reflexivity|].
      rewrite (find_same (kr_scores y) x (Ht y (or_introl eq_refl)) Ix). cbn [fst snd]. apply IH. intros z Iz. apply Ht. now right. }
    rewrite G by exact Tb. cbn [fst snd]. reflexivity. }
  rewrite Ea in H. clear Ea.
  assert (Ef : forall x, f x = (x, let total := fsum (map kr_conf rs) in
          if fgt total f0 then fdiv (fsum (map (fun r => fmul (find_score (key_eqb x) (kr_scores r) f0) (kr_conf r)) rs)) total
          else f0)) by reflexivity.
  assert (Tf : is_table (map f all_keys)) by apply (combined_table (fun x => snd (f x))).
  clearbody f. pose proof (is_table_sort _ Tf) as Ts.
  assert (In' : forall x, In x (sort_desc snd (map f all_keys)) <-> In x (map f all_keys)) by (intros x; apply sort_desc_in).
  assert (So : (forall k s, In (k, s) (sort_desc snd (map f all_keys)) -> nn s) -> sorted_scores (sort_desc snd (map f all_keys))).
  { intros N. apply sort_desc_sorted. apply Forall_forall. intros (k & s) I. apply (N k s). now apply In'. }
  set (sc := sort_desc snd (map f all_keys)) in *. clearbody sc.
  injection H as <-. cbn [kr_key kr_conf kr_scores kr_top].
  assert (K0 : In k0 (map fst l)) by (apply Ck2; apply in_map_iff; exists (k0, (n0, s0)); split; [reflexivity|exact Ie]).
  assert (Kr : exists x, In x rs /\ kr_key x = k0).
  { apply in_map_iff in K0 as (p & E & I). unfold l in I. apply in_map_iff in I as (x & <- & I). exists x. split; [exact I|exact E]. }
  split; [exact Kr|].
  assert (Mn : forall k, In k (map fst l) -> exists n s, In (k, (n, s)) (ho_counts hc (count_keys l)) /\
    n = length (counted_for k rs) /\ s = fsum (map kr_conf (counted_for k rs))).
  { intros k I. apply Ck in I. apply in_map_iff in I as ((k' & n & s) & E & I). cbn [fst] in E. subst k'.
    destruct (Ce _ _ _ I) as (_ & F1 & F2). exists n, s. split; [|split; [now rewrite F1, Ol|now rewrite F2, Oc]].
    apply (Permutation_in _ (Permutation_sym Pm)). exact I. }
  assert (No : forall k, ~ In k (map fst l) -> counted_for k rs = []).
  { intros k N. apply occurrences_none in N. rewrite Oc in N. now apply map_eq_nil in N. }
  assert (Dk : forall k : key, In k (map fst l) \/ ~ In k (map fst l)).
  { intros k. destruct (existsb (key_eqb k) (map fst l)) eqn:X.
    - left. apply existsb_exists in X as (k' & I & E). apply key_eqb_iff in E as ->. exact I.
    - right. intros I. assert (Y : existsb (key_eqb k) (map fst l) = true); [|congruence]. apply existsb_exists.
      exists k. split; [exact I|apply key_eqb_refl]. }
  split.
  { intros k. destruct (Dk k) as [I|I]; [|rewrite (No _ I); cbn; lia].
    destruct (Mn k I) as (n & s & J & -> & _). destruct (max_by_count _ _ Mx _ J) as (Le & _). cbn [fst snd] in Le.
    rewrite E2, Ol in Le. exact Le. }
  split.
  { intros Nn k El. destruct (Dk k) as [I|I].
    2:{ exfalso. rewrite (No _ I) in El. cbn [length] in El. rewrite E2, Ol in E1. lia. }
    destruct (Mn k I) as (n & s & J & F1 & F2). destruct (max_by_count _ _ Mx _ J) as (_ & Le). cbn [fst snd] in Le.
    rewrite <- F2. replace (fsum (map kr_conf (counted_for k0 rs))) with s0 by (rewrite E3, Oc; reflexivity).
    apply Le; [|rewrite F1, E2, Ol; exact El]. apply Forall_forall. intros (k' & n' & s') J'. cbn [snd].
    apply (Permutation_in _ Pm) in J'. destruct (Ce _ _ _ J') as (_ & _ & ->). rewrite Oc. apply Nn. }
  split; [now apply table_once|]. split.
  { intros k s. rewrite In', in_map_iff. split.
    - intros (x & Eq & I). rewrite Ef in Eq. injection Eq as -> <-. split; [exact I|reflexivity].
    - intros (I & ->). exists k. split; [apply Ef|exact I]. }
  split; [reflexivity|]. split; [exact So|].
  assert (Ik0 : In k0 all_keys).
  { destruct Kr as (x & I & <-). destruct (Kx x I) as (s & Ix). apply (is_table_in _ _ (Tb x I)). apply in_map_iff.
    exists (kr_key x, s). split; [reflexivity|exact Ix]. }
  destruct (first_other sc k0 Ts) as (k2 & s2 & N2 & I2 & F2 & G2). rewrite F2.
  exists (find_score (key_eqb k0) sc f0), k2, s2. pose proof (table_entry _ _ Ts Ik0) as I0.
  split; [exact I0|]. split; [exact I2|]. split; [exact N2|]. split; [reflexivity|]. split.
  - intros Nn. apply G2; [now apply So|]. apply Forall_forall. intros (k & s) I. exact (Nn k s I).
  - intros Fi. apply margin_in01.
    + intros X. apply Fi in I0. rewrite X in I0. discriminate I0.
    + apply fin_nn. exact (Fi _ _ I2).
Qed.
Print Assumptions C57_median_result.

Theorem C57_median_errors : forall hs hg hc t w seg_len hop ms, detect_key_median hs hg hc [] t w seg_len hop ms = Err InvalidInput.
Proof. reflexivity. Qed.
Print Assumptions C57_median_errors.

Theorem C57_median_total : forall hs hg hc c ts w seg_len hop ms k j, (forall s, honest (hs s)) -> honest hg -> honest hc ->
  (0 <= k)%Z -> (0 <= j)%Z -> (k + j <= 70)%Z -> c <> [] ->
  (3 * Z.of_nat (length c) + 120 + Z.max hop 1 <= usize_max)%Z ->
  Forall (fun ch => length ch = 12 /\ Forall (fun x => nneg x /\ within k x) ch) c ->
  (match w with
   | None => True
   | Some ws => length ws = length c /\ Forall (fun x => nneg x /\ within j x) ws
   end) ->
  exists r, detect_key_median hs hg hc c (new_templates ts) w seg_len hop ms = Ok r /\ in01 (kr_conf r) /\
    forall k' s, In (k', s) (kr_scores r) -> nneg s /\ within 30 s.
Proof.
  intros hs hg hc c ts w seg_len hop ms k j Hh Hg Hc K J KJ Nc U C W.
  set (seg := Nat.max (Nat.min seg_len (length c)) 120).
  assert (Win : forall s, s + seg <= length c -> exists r, window_result hs c (new_templates ts) w seg s = Ok r /\ good_scores 30 (kr_scores r)).
  { intros s L. destruct (slice_sane k j c w s seg) as (S1 & S2 & S3 & S4); auto; [unfold seg; lia|].
    apply (detect_total (hs s) _ ts _ k j (Hh s) K J KJ S1 S3 S4). }
  assert (Cf : forall h c w r, honest h -> detect_key_weighted h c (new_templates ts) w = Ok r -> good_scores 30 (kr_scores r) -> in01 (kr_conf r)).
  { intros h c' w' r H E G. destruct (detect_ok _ _ _ _ _ H E) as (_ & _ & s & _ & So & I & _ & _ & X). apply X.
    rewrite (so_top _ So) in I. assert (I2 : In (kr_key r, s) (kr_scores r)).
    { rewrite <- (firstn_skipn 3 (kr_scores r)). apply in_or_app. now left. }
    intros Y. apply (proj1 (Forall_forall _ _) G) in I2 as (_ & I2). apply within_fin in I2. cbn [snd] in I2. rewrite Y in I2. discriminate I2. }
  assert (R : exists r, detect_key_median hs hg hc c (new_templates ts) w seg_len hop ms = Ok r).
  { unfold detect_key_median. replace (length c =? 0) with false by (symmetry; apply Nat.eqb_neq; now destruct c).
    cbv zeta. fold seg.
    destruct (median_loop_ok hs c (new_templates ts) w seg (Z.to_nat (Z.max hop 1))) with (fuel := S (length c)) (start := 0) as (rs & E).
    { rewrite Z2Nat.id by lia. unfold seg. lia. }
    { intros s L X. destruct (Win s L) as (r & E & _). congruence. }
    { lia. }
    rewrite Z2Nat.id in E by lia. change (Z.of_nat 0) with 0%Z in E. rewrite E. cbn [obind].
    destruct (length rs <? Nat.max ms 1) eqn:Ms.
    - destruct (detect_total hg c ts w k j Hg K J KJ Nc C W) as (r & Er & _). exists r. exact Er.
    - apply Nat.ltb_ge in Ms. destruct rs as [|x rs]; [cbn in Ms; lia|].
      set (cs := count_keys _).
      assert (Nz : ho_counts hc cs <> []).
      { intros Z. pose proof (proj2 Hc cs) as Pm. rewrite Z in Pm. apply Permutation_nil in Pm.
        destruct (count_keys_spec (map (fun r => (kr_key r, kr_conf r)) (x :: rs))) as ([_ _ Ck] & _). fold cs in Ck. rewrite Pm in Ck.
        destruct (Ck (kr_key x)). now left. }
      destruct (max_by_some _ tie_gt _ Nz) as (e & Ee). rewrite Ee. eexists; reflexivity. }
  destruct R as (r & E). exists r. split; [exact E|].
  destruct (C57_median_result _ _ _ _ _ _ _ _ _ _ Hh Hc E) as (_ & [(_ & D)|(_ & _ & _ & _ & _ & Sc & _ & _ & s & k2 & s2 & _ & _ & _ & _ & _ & Ci)]).
  - destruct (detect_total hg c ts w k j Hg K J KJ Nc C W) as (r' & Er & G). assert (r' = r) by congruence. subst r'.
    split; [exact (Cf _ _ _ _ Hg Er G)|]. intros k' s I. exact (proj1 (Forall_forall _ _) G _ I).
  - fold seg in Sc. set (rs := window_results _ _ _ _ _ _) in Sc.
    assert (Good : forall x, In x rs -> is_table (kr_scores x) /\ good_scores 30 (kr_scores x) /\ in01 (kr_conf x)).
    { intros x I. unfold rs, window_results in I. apply in_flat_map in I as (st & Is & I).
      apply fitting_iff in Is as (_ & _ & Ls); [|lia]. destruct (Win st Ls) as (y & Ey & G). rewrite Ey in I. destruct I as [<-|[]].
      unfold window_result in Ey. split; [|split; [exact G|exact (Cf _ _ _ _ (Hh st) Ey G)]].
      destruct (detect_ok _ _ _ _ _ (Hh st) Ey) as (_ & _ & s' & _ & So & _). exact (so_table _ So). }
    assert (B : forall k' s, In (k', s) (kr_scores r) -> nneg s /\ within 30 s).
    { intros k' s' I. apply Sc in I as (I & ->). cbv zeta.
      destruct (fgt (fsum (map kr_conf rs)) f0) eqn:Gt; [|split; [reflexivity|apply within_0]].
      pose proof (weighted_average 30 0 (map (fun x => (find_score (key_eqb k') (kr_scores x) f0, kr_conf x)) rs)) as A.
      cbv zeta in A. rewrite !map_map in A. cbn [fst snd] in A.
      assert (P : forall x, In x rs -> nneg (find_score (key_eqb k') (kr_scores x) f0) /\ within 30 (find_score (key_eqb k') (kr_scores x) f0) /\ in01 (kr_conf x)).
      { intros x Ix. destruct (Good x Ix) as (Tx & Gx & Cx). pose proof (table_entry _ _ Tx I) as Ie.
        apply (proj1 (Forall_forall _ _) Gx) in Ie as (I1 & I2). split; [exact I1|]. split; [exact I2|exact Cx]. }
      destruct A as (A1 & A2); [lia|lia|lia| |exact Gt|].
      - apply Forall_forall. intros p Ip. apply in_map_iff in Ip as (x & <- & Ix). cbn [fst snd]. destruct (P x Ix) as (P1 & P2 & P3).
        split; [exact P2|]. split; [apply P3|now apply in01_within].
      - split; [|exact A1]. apply A2. apply Forall_forall. intros p Ip. apply in_map_iff in Ip as (x & <- & Ix). now apply P. }
    split; [|exact B]. apply Ci. intros k' s' I. apply B in I as (_ & I). now apply within_fin in I.
Qed.
Print Assumptions C57_median_total.

(** Six frames, scales 2, 3, 0 and 9 (the last two unusable), hop 2: five windows. *)
Definition plain_opts : scale_opts :=
  {| so_mode := false; so_margin := f0; so_flip := f0; so_minor := false; so_minor_weight := f0 |}.
Example C57_multi_example :
  map (fun wd => let '(i, _, seg, s) := wd in (i, seg, s)) (windows 6 2 (Some [f1; fhalf]) [2; 3; 0; 9]) =
    [(0, 2, 0); (0, 2, 2); (0, 2, 4); (1, 3, 0); (1, 3, 2)] /\
  match detect_key_multi_scale (fun _ _ => keep) keep [triad; triad; triad; triad; triad_g; triad_g]
          (new_templates KrumhanslKessler) None [2; 3; 0; 9] 2 f0 (Some [f1; fhalf]) plain_opts with
  | Ok r => (kr_key r, map fst (kr_top r), f2i32 (fmul (z2f 100) (kr_conf r))) | _ => (Minor 11, [], 0%Z) end =
    (Minor 4, [Minor 4; Major 0; Major 7], 4%Z).
Proof. split; vm_compute; reflexivity. Qed.

(** "The key a detector chooses is among its three reported candidates" fails for the median detector: one window of
    120 G major triads has two tied best keys, hence confidence zero, so all its averaged scores are zero; the key is
    G major but the candidates are C, C sharp and D major. *)
Theorem C57_median_top_refuted : exists c r, Forall (fun ch => length ch = 12 /\ Forall in01 ch) c /\
  detect_key_median (fun _ => keep) keep keep c (new_templates KrumhanslKessler) None 120 1 1 = Ok r /\
  kr_key r = Major 7 /\ map fst (kr_top r) = [Major 0; Major 1; Major 2] /\
  Forall (fun ks => feq (snd ks) f0 = true) (kr_scores r).
Proof.
  set (c := repeat triad_g 120). exists c.
  assert (V : match detect_key_median (fun _ => keep) keep keep c (new_templates KrumhanslKessler) None 120 1 1 with
    | Ok r => (kr_key r, map fst (kr_top r), forallb (fun ks => feq (snd ks) f0) (kr_scores r)) | _ => (Minor 0, [], false) end =
    (Major 7, [Major 0; Major 1; Major 2], true)) by (vm_compute; reflexivity).
  assert (C : Forall (fun ch => length ch = 12 /\ Forall in01 ch) c).
  { apply Forall_forall. intros ch I. apply repeat_spec in I as ->. split; [reflexivity|].
    unfold triad_g. repeat constructor. }
  clearbody c. destruct (detect_key_median _ _ _ _ _ _ _ _ _) as [r| |]; [|discriminate..].
  injection V as V1 V2 V3. exists r. split; [exact C|]. split; [reflexivity|]. split; [exact V1|]. split; [exact V2|].
  apply Forall_forall. now apply forallb_forall.
Qed.
Print Assumptions C57_median_top_refuted.
(** The same windows give the key the plain detector gives for one of them. *)
Example C57_median_example :
  key_of (detect_key_median (fun _ => keep) keep keep (repeat triad_g 120 ++ [triad; triad; triad]) (new_templates KrumhanslKessler)
    None 120 3 2) = Some (Major 7) /\
  fitting_starts 123 120 3 = [0; 3].
Proof. split; vm_compute; reflexivity. Qed.
