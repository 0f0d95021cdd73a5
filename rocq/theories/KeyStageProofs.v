(** Proofs about the key detection stage: edge trimming, frame weights and segment voting. *)
From Coq Require Import ZArith Reals Lra Lia Sorted Permutation.
From Flocq Require Import Core.
From Verif Require Import Rust F32 F32Facts ListFacts Libm Sorting SortingFacts Bounds KeyNotation KeyTemplates KeyDetector
  KeyDetectorProofs KeyBoundsProofs KeyDetectorProps NoveltyProofs KeyVariantsProofs KeyScoresProofs KeyVariantsProps
  KeyScalesProofs KeyScalesProps Chroma ChromaProofs CombFilterProofs ChromaValueProofs Config KeyStage.

(** ** Segment voting *)
Definition seg_state (used : list ballot) : list score * nat :=
  (map (fun k => (k, fsum (map (fun b => fmul (find_score (key_eqb k) (bl_scores b) f0) (bl_clarity b)) used))) all_keys, length used).

Lemma add_votes_state : forall mc b used, is_table (bl_scores b) ->
  add_votes mc (bl_clarity b) (bl_scores b) (seg_state used) = seg_state (used ++ (if fge (bl_clarity b) mc then [b] else [])).
Proof.
  intros mc b used T. unfold add_votes, seg_state. cbn [fst snd]. destruct (fge (bl_clarity b) mc); [|now rewrite app_nil_r].
  rewrite app_length. cbn [length]. rewrite Nat.add_1_r. f_equal. rewrite map_map. apply map_ext_in. intros k I. cbn [fst snd].
  rewrite (find_same _ _ T I). cbn [snd]. rewrite map_app. cbn [map]. now rewrite fsum_snoc.
Qed.

(** Slices of the weights: in range, the checked slice is what [weights_slice] gives. *)
Lemma weights_slice_chk : forall w start seg n, start + seg <= n -> (match w with Some l => length l = n | None => True end) ->
  match w with Some l => omap Some (slice_chk l start (start + seg)) | None => Ok None end = Ok (weights_slice w start seg).
Proof.
  intros [l|] start seg n L W; [|reflexivity]. cbn [weights_slice]. replace (start + seg <=? length l) with true by (symmetry; apply Nat.leb_le; lia).
  rewrite slice_chk_ok by lia. reflexivity.
Qed.

Lemma votes_spec : forall hs o t seg mc chroma w, (forall s, honest (hs s)) ->
  (match w with Some l => length l = length chroma | None => True end) ->
  forall starts used st, Forall (fun s => s + seg <= length chroma) starts ->
  fold_left (fun acc start =>
      let! st := acc in
      let! fs := slice_chk chroma start (start + seg) in
      let! ws := match w with
                 | Some l => omap Some (slice_chk l start (start + seg))
                 | None => Ok None
                 end in
      let! r := detect_segment (hs start) o fs t ws in
      let! cl := key_clarity (kr_scores r) in
      Ok (add_votes mc cl (kr_scores r) st)) starts (Ok (seg_state used)) = Ok st ->
  exists bs, Forall2 (fun s b => casts (hs s) o chroma t w seg s f1 b) starts bs /\
    st = seg_state (used ++ filter (fun b => fge (bl_clarity b) mc) bs).
Proof.
  intros hs o t seg mc chroma w Hh Hw. 
  set (step := fun (acc : outcome (list score * nat)) start => _).
  assert (Bad : forall l x, (forall st, x <> Ok st) -> forall st, fold_left step l x <> Ok st).
  { induction l as [|s l IH]; intros x X st; cbn [fold_left]; [apply X|]. apply IH. intros st' E.
    destruct x as [a| |]; [now apply (X a)|discriminate E..]. }
  induction starts as [|s starts IH]; intros used st F H.
  { injection H as <-. exists []. split; [constructor|]. cbn [filter]. now rewrite app_nil_r. }
  cbn [fold_left] in H. pose proof (Forall_inv F) as L. cbv beta in L. apply Forall_inv_tail in F.
  unfold step at 2 in H. cbn [obind] in H. rewrite slice_chk_ok in H by lia. cbn [obind] in H.
  rewrite (weights_slice_chk w s seg (length chroma) L Hw) in H. cbn [obind] in H.
  destruct (detect_segment (hs s) o (slice chroma s (s + seg)) t (weights_slice w s seg)) as [r| |] eqn:D;
    [|exfalso; eapply Bad; [|exact H]; discriminate..]. cbn [obind] in H.
  destruct (key_clarity (kr_scores r)) as [c| |] eqn:C; [|exfalso; eapply Bad; [|exact H]; discriminate..]. cbn [obind] in H.
  set (b := {| bl_clarity := c; bl_weight := f1; bl_scores := kr_scores r |}).
  change c with (bl_clarity b) in H. change (kr_scores r) with (bl_scores b) in H.
  rewrite add_votes_state in H by (cbn [b bl_scores]; eapply segment_table; [apply Hh|exact D]).
  apply IH in H as (bs & F2 & ->); [|exact F]. exists (b :: bs). split.
  - constructor; [|exact F2]. split; [reflexivity|]. exists r. split; [exact D|]. split; [reflexivity|exact C].
  - f_equal. rewrite <- app_assoc. f_equal. cbn [filter]. destruct (fge (bl_clarity b) mc); reflexivity.
Qed.
Lemma votes_ok : forall hs o t seg mc chroma w, (forall s, honest (hs s)) ->
  (match w with Some l => length l = length chroma | None => True end) ->
  (forall s, s + seg <= length chroma -> exists b, casts (hs s) o chroma t w seg s f1 b) ->
  forall starts used, Forall (fun s => s + seg <= length chroma) starts -> exists st,
  fold_left (fun acc start =>
      let! st := acc in
      let! fs := slice_chk chroma start (start + seg) in
      let! ws := match w with
                 | Some l => omap Some (slice_chk l start (start + seg))
                 | None => Ok None
                 end in
      let! r := detect_segment (hs start) o fs t ws in
      let! cl := key_clarity (kr_scores r) in
      Ok (add_votes mc cl (kr_scores r) st)) starts (Ok (seg_state used)) = Ok st.
Proof.
  intros hs o t seg mc chroma w Hh Hw Hc.
  induction starts as [|s starts IH]; intros used F; [eexists; reflexivity|].
  cbn [fold_left]. pose proof (Forall_inv F) as L. cbv beta in L. apply Forall_inv_tail in F.
  cbn [obind]. rewrite slice_chk_ok by lia. cbn [obind].
  rewrite (weights_slice_chk w s seg (length chroma) L Hw). cbn [obind].
  destruct (Hc s L) as (b & _ & r & D & Es & Ec). rewrite D. cbn [obind]. rewrite Ec. cbn [obind].
  rewrite <- Es. rewrite add_votes_state by (rewrite Es; eapply segment_table; [apply Hh|exact D]). apply IH. exact F.
Qed.
Lemma starts_fit : forall n seg hop, Forall (fun s => s + seg <= n) (segment_starts n seg hop).
Proof. intros n seg hop. apply Forall_forall. intros s I. apply filter_In in I as (_ & I). now apply Nat.leb_le in I. Qed.

Lemma sorted_filter : forall (p : nat -> bool) l, StronglySorted lt l -> StronglySorted lt (filter p l).
Proof.
  intros p l H. induction H as [|x l H IH F]; [constructor|]. cbn [filter]. destruct (p x); [|exact IH]. constructor; [exact IH|].
  apply Forall_forall. intros y I. apply filter_In in I as (I & _). now apply (proj1 (Forall_forall _ _) F).
Qed.
Lemma starts_sorted : forall n hop, 1 <= hop -> forall a, StronglySorted lt (map (fun i => i * hop) (seq a n)).
Proof.
  induction n as [|n IH]; intros hop H a; [constructor|]. cbn [seq map]. constructor; [now apply IH|].
  apply Forall_forall. intros y I. apply in_map_iff in I as (i & <- & I). apply in_seq in I. nia.
Qed.

(** ** Frame weights *)
Lemma fmax_0_nneg : forall x, nneg (fmax x f0).
Proof. intros x. apply fmax_ge_r. reflexivity. Qed.

(** What is assumed of the natural logarithm in [tonalness]. *)
Definition key_ln (L : libm) : Prop :=
  (forall p, pos p -> fle p f1 = true -> within 8 (m_ln L p)) /\ m_ln L f1 = f0 /\
  fle f1 (m_ln L (z2f 12)) = true /\ fle (m_ln L (z2f 12)) (z2f 3) = true.

Lemma key_ln12 : forall L, key_ln L -> fin (m_ln L (z2f 12)) /\ (1 <= B2R (m_ln L (z2f 12)))%R.
Proof.
  intros L (_ & _ & A & B). assert (F : fin (m_ln L (z2f 12))) by (eapply (fin_between f1 _ (z2f 3)); eauto).
  split; [exact F|]. apply fle_fx in A. rewrite fx_f1, fx_fin in A by exact F. exact A.
Qed.

Lemma share_in01 : forall k l x, (0 <= k <= 102)%Z -> Forall (fun y => nneg y /\ within k y) l -> In x l ->
  fle (fsum l) (lit 2305843 (-61)) = false -> in01 (fdiv x (fsum l)).
Proof.
  intros k l x K F I S.
  assert (Nn : Forall (fun y => nneg y) l) by (eapply Forall_impl; [|exact F]; now intros y (H & _)).
  assert (Wi : within (k + 25) (fsum l)). { apply within_sum; [lia|]. eapply Forall_impl; [|exact F]. now intros y (_ & H). }
  assert (G : fle x (fsum l) = true) by (apply fsum_ge_elem; auto).
  assert (P : pos (fsum l)).
  { apply (fle_flt_trans f0 (lit 2305843 (-61))); [reflexivity|]. apply fle_false_flt; [now apply within_nn in Wi|reflexivity|exact S]. }
  apply (proj1 (Forall_forall _ _) F) in I as (I & J).
  destruct (fdiv_le_1 x (fsum l) I P (within_fin _ _ Wi) G). now split.
Qed.

Lemma tonalness_in01 : forall L k l, key_ln L -> (0 <= k <= 102)%Z -> Forall (fun y => nneg y /\ within k y) l ->
  in01 (tonalness L l).
Proof.
  intros L k l HL K F. unfold tonalness. destruct (fle (fsum l) (lit 2305843 (-61))) eqn:Sm; [apply in01_0|].
  apply in01_clamp. set (h := fold_left _ l f0).
  assert (H : within 33 h).
  { apply fold_within; [apply within_0|]. intros a x I A. destruct (fgt (fdiv x (fsum l)) (lit 2305843 (-61))) eqn:G; [|exact A].
    pose proof (share_in01 k l x K F I Sm) as P. rewrite fsub_eq. apply (within_step 8 a _ ltac:(lia)); [|exact A]. apply within_neg.
    apply (within_mul 0 8); [lia|now apply in01_within|]. apply (proj1 HL); [|apply P].
    rewrite fgt_flt in G. eapply fle_flt_trans; [|exact G]. reflexivity. }
  destruct (key_ln12 L HL) as (F12 & B12).
  assert (D : within (33 - 0) (fdiv h (m_ln L (z2f 12)))).
  { apply within_div; [lia|exact H|exact F12|]. cbn [bpow]. rewrite Rabs_right; lra. }
  apply (within_nn 34). apply (within_sub 33); [lia| |exact D]. apply within_mono with 0%Z; [lia|]. apply in01_within, in01_1.
Qed.

Lemma fadd_f0_r : forall x, pos x -> fadd x f0 = x.
Proof. intros [[]|[]| |[] m e B] P; try discriminate P; reflexivity. Qed.
Lemma fadd_f0_l : forall x, pos x -> fadd f0 x = x.
Proof. intros [[]|[]| |[] m e B] P; try discriminate P; reflexivity. Qed.
Lemma fdiv_f0_l : forall x, fin x -> pos x -> fdiv f0 x = f0.
Proof. intros [[]|[]| |[] m e B] F P; try discriminate P; try discriminate F; reflexivity. Qed.
Lemma fold_zeros : forall (g : f32 -> f32 -> f32) a l, (forall x, In x l -> x = f0) -> g a f0 = a -> fold_left g l a = a.
Proof.
  intros g a l H G. induction l as [|x l IH]; [reflexivity|]. cbn [fold_left]. rewrite (H x) by now left. rewrite G.
  apply IH. intros y I. apply H. now right.
Qed.

(** A single sounding pitch class is fully tonal. *)
Lemma tonalness_single : forall L l1 l2 x, key_ln L -> fin x -> flt (lit 2305843 (-61)) x = true ->
  (forall y, In y l1 -> y = f0) -> (forall y, In y l2 -> y = f0) -> tonalness L (l1 ++ x :: l2) = f1.
Proof.
  intros L l1 l2 x HL Fx X H1 H2. assert (P : pos x) by (eapply fle_flt_trans; [|exact X]; reflexivity).
  assert (E : fsum (l1 ++ x :: l2) = x).
  { unfold fsum. rewrite fold_left_app, (fold_zeros _ f0 l1 H1 eq_refl). cbn [fold_left]. rewrite fadd_f0_l by exact P.
    apply fold_zeros; [exact H2|]. now apply fadd_f0_r. }
  unfold tonalness. rewrite E, (flt_fle_false _ _ X).
  set (g := fun h y : f32 => _).
  assert (G0 : forall a, g a f0 = a). { intros a. unfold g. cbv zeta. rewrite (fdiv_f0_l x Fx P). reflexivity. }
  assert (G1 : g f0 x = f0). { unfold g. cbv zeta. rewrite (fdiv_self x Fx P). rewrite (proj1 (proj2 HL)). reflexivity. }
  clearbody g. rewrite fold_left_app, (fold_zeros _ f0 l1 H1 (G0 f0)). cbn [fold_left]. rewrite G1, (fold_zeros _ f0 l2 H2 (G0 f0)).
  destruct (key_ln12 L HL) as (F12 & B12). rewrite fdiv_f0_l; [reflexivity|exact F12|].
  eapply flt_fle_trans; [|exact (proj1 (proj2 (proj2 HL)))]. reflexivity.
Qed.

(** ** Frame weights *)
Lemma frame_weight_nneg : forall L c m ch e, nneg (frame_weight L c m ch e).
Proof. intros. apply fmax_0_nneg. Qed.

(** Powers of shares and of finite energies. *)
Definition key_powf (L : libm) (c : analysis_config) (j : Z) : Prop :=
  (forall x, in01 x -> in01 (m_powf L x (fmax (cf_key_tonalness_power c) f0))) /\
  (forall x, fin x -> nneg x -> upto j (m_powf L x (fmax (cf_key_energy_power c) f0))).

Lemma frame_weight_upto : forall L c m ch e k j, key_ln L -> key_powf L c j -> (0 <= k <= 102)%Z -> (0 <= j < 128)%Z ->
  Forall (fun y => nneg y /\ within k y) ch -> fin (fdiv e m) -> upto j (frame_weight L c m ch e).
Proof.
  intros L c m ch e k j HL (P1 & P2) K J F Fe. unfold frame_weight. cbv zeta.
  assert (T : in01 (if flt (tonalness L ch) (cf_key_min_tonalness c) then f0 else tonalness L ch)).
  { destruct (flt _ _); [apply in01_0|]. exact (tonalness_in01 L k ch HL K F). }
  set (t := if flt (tonalness L ch) (cf_key_min_tonalness c) then f0 else tonalness L ch) in *. clearbody t. apply P1 in T.
  assert (E : fin (fmax (fdiv e m) f0)) by (destruct (fmax_case (fdiv e m) f0) as [-> | ->]; [exact Fe|reflexivity]).
  match goal with |- upto j (fmax ?x f0) => destruct (fmax_case x f0) as [-> | ->] end; [|apply upto_0].
  rewrite fmul_comm. apply upto_scale; [lia|apply P2; [exact E|apply fmax_0_nneg]|exact T].
Qed.
