(** Proofs about the multi-scale and median key detectors. *)
From Coq Require Import ZArith Reals Lra Lia Sorted Permutation.
From Flocq Require Import Core Plus_error Mult_error.
From Verif Require Import Rust F32 F32Facts ListFacts Sorting SortingFacts Bounds KeyNotation KeyTemplates
  KeyDetector KeyDetectorProofs KeyBoundsProofs KeyDetectorProps NoveltyProofs KeyVariantsProofs KeyScoresProofs KeyVariantsProps.

(** The starts 0, hop, 2 hop, ... of the windows of [seg] frames that fit into [n] frames. *)
Definition fitting_starts (n seg hop : nat) : list nat :=
  filter (fun s => s + seg <=? n) (map (fun i => i * hop) (seq 0 (S n))).
Lemma fitting_iff : forall n seg hop s, 1 <= hop -> (In s (fitting_starts n seg hop) <-> exists i, s = i * hop /\ s + seg <= n).
Proof.
  intros n seg hop s H. unfold fitting_starts. rewrite filter_In, in_map_iff, Nat.leb_le. split.
  - intros ((i & <- & I) & L). exists i. auto.
  - intros (i & -> & L). split; [|exact L]. exists i. split; [reflexivity|]. apply in_seq. nia.
Qed.

Fixpoint starts_from (fuel n seg hop start : nat) : list nat :=
  match fuel with
  | O => []
  | S f => if start + seg <=? n then start :: starts_from f n seg hop (start + hop) else []
  end.
Lemma starts_from_eq : forall n seg hop fuel start,
  starts_from fuel n seg hop start = filter (fun s => s + seg <=? n) (map (fun i => start + i * hop) (seq 0 fuel)).
Proof.
  intros n seg hop. induction fuel as [|f IH]; intros start; [reflexivity|].
  cbn [starts_from seq map filter]. rewrite Nat.mul_0_l, Nat.add_0_r.
  assert (E : map (fun i => start + i * hop) (seq 1 f) = map (fun i => (start + hop) + i * hop) (seq 0 f)).
  { rewrite <- seq_shift, map_map. apply map_ext. intros i. lia. }
  rewrite E. destruct (start + seg <=? n) eqn:L; [now rewrite IH|].
  symmetry. apply Nat.leb_gt in L. clear IH E. induction (seq 0 f) as [|i r IHr]; [reflexivity|]. cbn [map filter].
  replace (start + hop + i * hop + seg <=? n) with false by (symmetry; apply Nat.leb_gt; lia). exact IHr.
Qed.
Lemma starts_from_0 : forall n seg hop, starts_from (S n) n seg hop 0 = fitting_starts n seg hop.
Proof. intros. rewrite starts_from_eq. reflexivity. Qed.
Lemma starts_from_fit : forall fuel n seg hop start s, In s (starts_from fuel n seg hop start) -> s + seg <= n.
Proof. intros fuel n seg hop start s I. rewrite starts_from_eq in I. apply filter_In in I as (_ & I). now apply Nat.leb_le in I. Qed.

Lemma segment_table : forall h o c t w r, honest h -> detect_segment h o c t w = Ok r -> is_table (kr_scores r).
Proof.
  intros h o c t w r Hh E. unfold detect_segment in E.
  assert (P : forall b, detect_key_weighted h c t w = Ok b -> is_table (kr_scores b)).
  { intros b B. destruct (detect_ok h c t w b Hh B) as (_ & _ & s & _ & So & _). exact (so_table _ So). }
  destruct (so_mode o || so_minor o); [|now apply P].
  destruct (detect_key_weighted h c t w) as [b| |] eqn:B; [|unfold detect_key_mode in E; rewrite B in E; discriminate..].
  destruct (mode_cases h c t w (so_margin o) (if so_mode o then so_flip o else f0) (so_minor o) (so_minor_weight o) b Hh B) as [(E' & _)|(r' & E' & R)]; rewrite E' in E; injection E as <-; [now apply P|].
  rewrite (rf_scores _ _ _ _ _ _ _ _ R). apply is_table_sort, boosted_table. now apply P.
Qed.

(** A ballot: the clarity of a window, the weight of its scale and its 24 scores. *)
Record ballot := { bl_clarity : f32; bl_weight : f32; bl_scores : list score }.
Notation bl_vote b := (fmul (bl_clarity b) (bl_weight b)).
Definition tally (used : list ballot) : acc_state :=
  (map (fun k => (k, fsum (map (fun b => fmul (find_score (key_eqb k) (bl_scores b) f0) (bl_vote b)) used))) all_keys,
   fsum (map (fun b => bl_vote b) used), length used).

Lemma fsum_snoc : forall l x, fsum (l ++ [x]) = fadd (fsum l) x.
Proof. intros. unfold fsum. now rewrite fold_left_app. Qed.
Lemma find_same : forall l k, is_table l -> In k all_keys ->
  find (fun r => key_eqb (fst r) k) l = Some (k, find_score (key_eqb k) l f0).
Proof. intros l k T I. apply find_nodup; [now apply is_table_nodup|now apply table_entry]. Qed.

Lemma accumulate_tally : forall mc sw c res used, is_table res ->
  accumulate mc sw c res (tally used) =
  tally (used ++ (if fge c mc then [{| bl_clarity := c; bl_weight := sw; bl_scores := res |}] else [])).
Proof.
  intros mc sw c res used T. unfold accumulate, tally. destruct (fge c mc); [|now rewrite app_nil_r].
  rewrite app_length, !map_app. cbn [map bl_clarity bl_weight bl_scores length]. rewrite fsum_snoc, Nat.add_1_r.
  f_equal. f_equal. rewrite map_map. apply map_ext_in. intros k I. cbn [fst snd].
  rewrite (find_same _ _ T I). cbn [snd]. rewrite map_app. cbn [map bl_clarity bl_weight bl_scores]. now rewrite fsum_snoc.
Qed.

(** The window at [start] of length [seg] casts ballot [b]. *)
Definition casts (h : hash_order) (o : scale_opts) (chroma : list (list f32)) (t : templates) (w : option (list f32))
  (seg start : nat) (sw : f32) (b : ballot) : Prop :=
  bl_weight b = sw /\ exists r, detect_segment h o (slice chroma start (start + seg)) t (weights_slice w start seg) = Ok r /\
  bl_scores b = kr_scores r /\ key_clarity (kr_scores r) = Ok (bl_clarity b).
Notation clear mc := (filter (fun b => fge (bl_clarity b) mc)).

Lemma scale_loop_spec : forall hs o chroma t w seg hop mc sw, (forall s, honest (hs s)) ->
  forall fuel start used st,
  scale_loop fuel hs o chroma t w seg (Z.of_nat hop) mc sw (Z.of_nat start) (tally used) = Ok st ->
  exists bs, Forall2 (fun s b => casts (hs s) o chroma t w seg s sw b) (starts_from fuel (length chroma) seg hop start) bs /\
  st = tally (used ++ clear mc bs).
Proof.
  intros hs o chroma t w seg hop mc sw Hh. induction fuel as [|f IH]; intros start used st H.
  { injection H as <-. exists []. split; [constructor|]. cbn [filter]. now rewrite app_nil_r. }
  cbn [scale_loop starts_from] in *. destruct (usize_max <? Z.of_nat start + Z.of_nat seg)%Z; [discriminate|].
  replace (Z.of_nat start + Z.of_nat seg <=? Z.of_nat (length chroma))%Z with (start + seg <=? length chroma) in H.
  2:{ destruct (Nat.leb_spec (start + seg) (length chroma)); symmetry; [apply Z.leb_le|apply Z.leb_gt]; lia. }
  destruct (start + seg <=? length chroma) eqn:L.
  2:{ injection H as <-. exists []. split; [constructor|]. cbn [filter]. now rewrite app_nil_r. }
  rewrite Nat2Z.id in H.
  destruct (detect_segment (hs start) o (slice chroma start (start + seg)) t (weights_slice w start seg)) as [r| |] eqn:D;
    try discriminate. cbn [obind] in H.
  destruct (key_clarity (kr_scores r)) as [c| |] eqn:C; try discriminate. cbn [obind] in H.
  destruct (usize_max <? Z.of_nat start + Z.of_nat hop)%Z; [discriminate|].
  rewrite accumulate_tally in H by (eapply segment_table; [apply Hh|exact D]).
  rewrite <- Nat2Z.inj_add in H. apply IH in H as (bs & F & ->).
  set (b := {| bl_clarity := c; bl_weight := sw; bl_scores := kr_scores r |}).
  exists (b :: bs). split.
  - constructor; [|exact F]. split; [reflexivity|]. exists r. split; [exact D|]. split; [reflexivity|exact C].
  - f_equal. rewrite <- app_assoc. f_equal. cbn [filter]. change (bl_clarity b) with c. destruct (fge c mc); reflexivity.
Qed.

(** The windows of all scales, in the order they are visited: scale index, scale weight, length, start. *)
Definition weight_at (sws : option (list f32)) (i : nat) : f32 :=
  match sws with Some l => nth i l f1 | None => f1 end.
Definition scale_windows (n hop : nat) (sws : option (list f32)) (i seg : nat) : list (nat * f32 * nat * nat) :=
  if (seg =? 0) || (n <? seg) || fle (weight_at sws i) f0 then []
  else map (fun s => (i, weight_at sws i, seg, s)) (fitting_starts n seg hop).
Definition windows (n hop : nat) (sws : option (list f32)) (lens : list nat) : list (nat * f32 * nat * nat) :=
  flat_map (fun il => scale_windows n hop sws (fst il) (snd il)) (combine (seq 0 (length lens)) lens).
Definition window_casts hs o chroma t w (wd : nat * f32 * nat * nat) (b : ballot) : Prop :=
  let '(i, sw, seg, s) := wd in casts (hs i s) o chroma t w seg s sw b.

Lemma weight_at_eq : forall sws i, match sws with
    | Some l => match nth_error l i with Some x => x | None => f1 end
    | None => f1 end = weight_at sws i.
Proof.
  intros [l|] i; [|reflexivity]. unfold weight_at. revert i. induction l as [|a l IH]; intros [|i]; cbn [nth_error nth]; auto.
Qed.

Lemma scales_loop_spec : forall hs o chroma t w hop mc sws, (forall i s, honest (hs i s)) ->
  forall lens i used st,
  scales_loop hs o chroma t w hop mc sws i lens (tally used) = Ok st ->
  exists bs, Forall2 (window_casts hs o chroma t w)
    (flat_map (fun il => scale_windows (length chroma) (Z.to_nat (Z.max hop 1)) sws (fst il) (snd il)) (combine (seq i (length lens)) lens)) bs /\
  st = tally (used ++ clear mc bs).
Proof.
  intros hs o chroma t w hop mc sws Hh. induction lens as [|seg lens IH]; intros i used st H.
  { injection H as <-. exists []. split; [constructor|]. cbn [filter]. now rewrite app_nil_r. }
  cbn [scales_loop] in H. rewrite weight_at_eq in H. cbn [length seq combine flat_map fst snd]. unfold scale_windows at 1.
  destruct ((seg =? 0) || (length chroma <? seg)) eqn:Sk; cbn [orb]; [cbn [app]; now apply IH|].
  destruct (fle (weight_at sws i) f0) eqn:Wt; [cbn [app]; now apply IH|].
  destruct (scale_loop _ _ _ _ _ _ _ _ _ _ _ _) as [st'| |] eqn:L in H; try discriminate. cbn [obind] in H.
  rewrite <- (Z2Nat.id (Z.max hop 1)) in L by lia. change 0%Z with (Z.of_nat 0) in L at 1.
  apply scale_loop_spec in L as (b1 & F1 & ->); [|intros; apply Hh]. apply IH in H as (b2 & F2 & ->).
  exists (b1 ++ b2). split.
  - apply Forall2_app; [|exact F2]. rewrite starts_from_0 in F1. revert F1. generalize (fitting_starts (length chroma) seg (Z.to_nat (Z.max hop 1))).
    intros l F1. induction F1; cbn [map]; constructor; auto.
  - now rewrite filter_app, app_assoc.
Qed.

(** When every window casts a ballot and no index overflows, the loops run to the end. *)
Lemma scale_loop_ok : forall hs o chroma t w seg hop mc sw, (forall s, honest (hs s)) ->
  (2 * Z.of_nat (length chroma) + Z.of_nat hop <= usize_max)%Z -> seg <= length chroma ->
  (forall s, s + seg <= length chroma -> exists b, casts (hs s) o chroma t w seg s sw b) ->
  forall fuel start used, start <= length chroma + hop ->
  exists st, scale_loop fuel hs o chroma t w seg (Z.of_nat hop) mc sw (Z.of_nat start) (tally used) = Ok st.
Proof.
  intros hs o chroma t w seg hop mc sw Hh U Sg Hc. induction fuel as [|f IH]; intros start used Hs; [eexists; reflexivity|].
  cbn [scale_loop]. replace (usize_max <? Z.of_nat start + Z.of_nat seg)%Z with false by (symmetry; apply Z.ltb_ge; lia).
  destruct (Z.leb_spec (Z.of_nat start + Z.of_nat seg) (Z.of_nat (length chroma))) as [L|L]; [|eexists; reflexivity].
  rewrite Nat2Z.id. destruct (Hc start ltac:(lia)) as (b & _ & r & D & _ & C). rewrite D. cbn [obind]. rewrite C. cbn [obind].
  replace (usize_max <? Z.of_nat start + Z.of_nat hop)%Z with false by (symmetry; apply Z.ltb_ge; lia).
  rewrite accumulate_tally by (eapply segment_table; [apply Hh|exact D]). rewrite <- Nat2Z.inj_add. apply IH. lia.
Qed.
Lemma scales_loop_ok : forall hs o chroma t w hop mc sws, (forall i s, honest (hs i s)) ->
  (2 * Z.of_nat (length chroma) + Z.max hop 1 <= usize_max)%Z ->
  (forall i seg s, 0 < seg -> s + seg <= length chroma -> exists b, casts (hs i s) o chroma t w seg s (weight_at sws i) b) ->
  forall lens i used, exists st, scales_loop hs o chroma t w hop mc sws i lens (tally used) = Ok st.
Proof.
  intros hs o chroma t w hop mc sws Hh U Hc. induction lens as [|seg lens IH]; intros i used; [eexists; reflexivity|].
  cbn [scales_loop]. rewrite weight_at_eq.
  destruct ((seg =? 0) || (length chroma <? seg)) eqn:Sk; [apply IH|].
  destruct (fle (weight_at sws i) f0) eqn:Wt; [apply IH|].
  apply orb_false_iff in Sk as (Sk1 & Sk2). apply Nat.eqb_neq in Sk1. apply Nat.ltb_ge in Sk2.
  assert (E : exists st, scale_loop (S (length chroma)) (hs i) o chroma t w seg (Z.of_nat (Z.to_nat (Z.max hop 1))) mc
            (weight_at sws i) (Z.of_nat 0) (tally used) = Ok st).
  { apply scale_loop_ok; auto; [rewrite Z2Nat.id by lia; lia| |lia]. intros s L. apply Hc; [lia|exact L]. }
  destruct E as (st & E). pose proof E as E2. apply scale_loop_spec in E2 as (b1 & _ & ->); [|intros; apply Hh].
  rewrite Z2Nat.id in E by lia. change (Z.of_nat 0) with 0%Z in E. rewrite E. cbn [obind]. apply IH.
Qed.

(** Scaling by a power of two commutes with rounding a sum of two floats. *)
Lemma rnd_scale_sum : forall n (x y : f32), (0 <= n)%Z ->
  rnd (bpow radix2 n * (B2R x + B2R y)) = (bpow radix2 n * rnd (B2R x + B2R y))%R.
Proof.
  intros n x y Hn. set (z := (B2R x + B2R y)%R).
  destruct (Rle_or_lt (Rabs z) (bpow radix2 (24 + -149))) as [S|S].
  - assert (F : generic_format radix2 fexp32 z).
    { apply (FLT_format_plus_small radix2 (-149)%Z 24%Z); [apply (generic_format_B2R 24 128 x)|apply (generic_format_B2R 24 128 y)|exact S]. }
    assert (E : rnd z = z) by (apply round_generic; [apply valid_rnd_N|exact F]).
    rewrite E. apply round_generic; [apply valid_rnd_N|].
    rewrite Rmult_comm. apply (mult_bpow_pos_exact_FLT radix2 (-149)%Z 24%Z z n F Hn).
  - assert (Nz : z <> 0%R).
    { intros E. rewrite E, Rabs_R0 in S. pose proof (bpow_gt_0 radix2 (24 + -149)). lra. }
    assert (M : (-125 < mag radix2 z)%Z) by (apply mag_gt_bpow; left; exact S).
    assert (C : forall k, (-125 < k)%Z -> fexp32 k = (k - 24)%Z) by (intros k K; unfold SpecFloat.fexp, SpecFloat.emin; lia).
    unfold rnd, round, scaled_mantissa, cexp. rewrite (Rmult_comm (bpow radix2 n) z), mag_mult_bpow by exact Nz.
    rewrite !C by lia.
    assert (E : (z * bpow radix2 n * bpow radix2 (- (mag radix2 z + n - 24)) = z * bpow radix2 (- (mag radix2 z - 24)))%R).
    { rewrite Rmult_assoc, <- bpow_plus. do 2 f_equal. lia. }
    rewrite E. unfold F2R; cbn [Fnum Fexp]. replace (mag radix2 z + n - 24)%Z with (n + (mag radix2 z - 24))%Z by lia.
    rewrite bpow_plus. ring.
Qed.

Lemma rnd_abs : forall r, rnd (Rabs r) = Rabs (rnd r).
Proof. intros r. apply round_NE_abs. apply fexp_correct. reflexivity. Qed.

(** A weighted average of values of absolute value up to 2^m, with weights in 0..2^q, stays within 2^m. *)
Lemma weighted_sums : forall m q l, (0 <= m)%Z -> (0 <= q)%Z -> (m + q <= 102)%Z ->
  Forall (fun sc => within m (fst sc) /\ nneg (snd sc) /\ within q (snd sc)) l ->
  let num := fsum (map (fun sc => fmul (fst sc) (snd sc)) l) in let den := fsum (map snd l) in
  within (m + q + 25) num /\ nneg den /\ within (q + 25) den /\ (Rabs (B2R num) <= bpow radix2 m * B2R den)%R /\
  (Forall (fun sc => nneg (fst sc)) l -> nneg num).
Proof.
  intros m q l M Q MQ H. cbv zeta.
  assert (T : forall sc, In sc l -> within (m + q) (fmul (fst sc) (snd sc)) /\ nneg (snd sc) /\
    within q (snd sc) /\ (Rabs (B2R (fmul (fst sc) (snd sc))) <= bpow radix2 m * B2R (snd sc))%R /\
    (nneg (fst sc) -> nneg (fmul (fst sc) (snd sc)))).
  { intros sc I. apply (proj1 (Forall_forall _ _) H) in I as (W & Ns & Wc).
    assert (Wm : within (m + q) (fmul (fst sc) (snd sc))) by (apply within_mul; auto; lia).
    pose proof (B2R_fmul (fst sc) (snd sc) (within_fin _ _ Wm)) as Eb.
    assert (Sp : (0 <= B2R (snd sc))%R) by (apply nneg_fx in Ns; now rewrite fx_fin in Ns by now apply within_fin in Wc).
    split; [exact Wm|]. split; [exact Ns|]. split; [exact Wc|]. split.
    - rewrite Eb, <- rnd_abs.
      assert (Sc : rnd (bpow radix2 m * B2R (snd sc)) = (bpow radix2 m * B2R (snd sc))%R).
      { pose proof (rnd_scale_sum m (snd sc) f0 M) as R. assert (Z0 : B2R f0 = 0%R) by reflexivity. rewrite Z0, Rplus_0_r in R.
        rewrite R. f_equal. apply rnd_B2R. }
      rewrite <- Sc. apply rnd_mono. rewrite Rabs_mult, (Rabs_right (B2R (snd sc))) by lra.
      apply Rmult_le_compat_r; [exact Sp|]. now destruct W.
    - intros N. apply nneg_iff; [now apply within_nn in Wm|]. rewrite fx_fin by now apply within_fin in Wm.
      rewrite Eb, <- rnd_0. apply rnd_mono. apply nneg_fx in N. rewrite fx_fin in N by now apply within_fin in W. now apply Rmult_le_pos. }
  clear H. induction l as [|sc l IH] using rev_ind.
  - assert (Z0 : B2R f0 = 0%R) by reflexivity. cbn [map]. unfold fsum; cbn [fold_left]. rewrite Z0, Rabs_R0.
    split; [apply within_0|]. split; [reflexivity|]. split; [apply within_0|]. split; [lra|]. intros _. reflexivity.
  - destruct IH as (A2 & A3 & A4 & A5 & A6); [intros sc' I; apply T, in_or_app; now left|].
    destruct (T sc) as (B2 & B3 & B4 & B5 & B6); [apply in_or_app; right; now left|].
    rewrite !map_app. cbn [map]. rewrite !fsum_snoc.
    set (num := fsum (map (fun sc => fmul (fst sc) (snd sc)) l)) in *. set (den := fsum (map snd l)) in *.
    set (x := fmul (fst sc) (snd sc)) in *. set (y := snd sc) in *. clearbody num den x y.
    assert (N1 : within (m + q + 25) (fadd num x)) by (apply within_step; auto; lia).
    assert (N2 : within (q + 25) (fadd den y)) by (apply within_step; auto; lia).
    pose proof (B2R_fadd num x (within_fin _ _ A2) (within_fin _ _ B2) (within_fin _ _ N1)) as Ex.
    pose proof (B2R_fadd den y (within_fin _ _ A4) (within_fin _ _ B4) (within_fin _ _ N2)) as Ey.
    split; [exact N1|]. split; [apply fadd_nneg; auto; now apply within_nn in N2|]. split; [exact N2|]. split.
    + rewrite Ex, Ey, <- rnd_scale_sum, <- rnd_abs by exact M. apply rnd_mono. eapply Rle_trans; [apply Rabs_triang|]. lra.
    + intros F. apply Forall_app in F as (F1 & F2). apply Forall_inv in F2. apply fadd_nneg; auto.
Qed.
Lemma weighted_average : forall m q l, (0 <= m)%Z -> (0 <= q)%Z -> (m + q <= 102)%Z ->
  Forall (fun sc => within m (fst sc) /\ nneg (snd sc) /\ within q (snd sc)) l ->
  let num := fsum (map (fun sc => fmul (fst sc) (snd sc)) l) in let den := fsum (map snd l) in
  fgt den f0 = true -> within m (fdiv num den) /\ (Forall (fun sc => nneg (fst sc)) l -> nneg (fdiv num den)).
Proof.
  intros m q l M Q MQ H. destruct (weighted_sums m q l M Q MQ H) as (B & C & D & E & A). revert A B C D E. cbv zeta.
  generalize (fsum (map (fun sc => fmul (fst sc) (snd sc)) l)) (fsum (map snd l)). intros num den A B C D E G.
  rewrite fgt_flt in G. pose proof (within_fin _ _ B) as Fn. pose proof (within_fin _ _ D) as Fd.
  assert (P : (0 < B2R den)%R) by (apply flt_fx in G; now rewrite fx_f0, fx_fin in G by auto).
  assert (Iv : (0 < / B2R den)%R) by now apply Rinv_0_lt_compat.
  destruct (fdiv_fx num den Fn Fd) as (N & Eq); [lra|].
  assert (W : within m (fdiv num den)).
  { apply (within_of m _ (rnd (B2R num / B2R den))); [lia|exact N|exact Eq|]. apply rnd_within; [lia|].
    unfold Rdiv. rewrite Rabs_mult, (Rabs_right (/ B2R den)) by lra.
    apply (Rmult_le_reg_r (B2R den)); [exact P|]. rewrite Rmult_assoc, Rinv_l, Rmult_1_r by lra. exact E. }
  split; [exact W|]. intros F. specialize (A F). apply nneg_iff; [exact N|]. rewrite fx_fin by now apply within_fin in W.
  rewrite B2R_fdiv; [|now apply within_fin in W|lra]. rewrite <- rnd_0. apply rnd_mono.
  apply nneg_fx in A. rewrite fx_fin in A by exact Fn. apply Rmult_le_pos; lra.
Qed.
