(** Facts about the mode-heuristic, multi-scale, median and ensemble key detectors. *)
From Coq Require Import ZArith Reals Lra Lia Sorted.
From Flocq Require Import Core.
From Verif Require Import Rust F32 F32Facts F32More ListFacts Sorting SortingFacts Bounds KeyNotation KeyTemplates
  KeyDetector KeyDetectorProofs KeyBoundsProofs KeyDetectorProps.

Definition parallel (k : key) : key := match k with Major i => Minor i | Minor i => Major i end.

Lemma parallel_all : forall k, In k all_keys -> In (parallel k) all_keys.
Proof. intros [i|i] H; apply all_keys_iff; now apply all_keys_iff in H. Qed.

Lemma table_entry : forall l k, is_table l -> In k all_keys -> In (k, find_score (key_eqb k) l f0) l.
Proof.
  intros l k T I. apply (is_table_in l k T) in I. apply in_map_iff in I as ((k' & s) & E & J). cbn [fst] in E. subst k'.
  now rewrite (find_score_in _ k s f0 (is_table_nodup _ T) J).
Qed.
Lemma table_score : forall l k s, is_table l -> In (k, s) l -> find_score (key_eqb k) l f0 = s.
Proof. intros l k s T I. exact (find_score_in _ k s f0 (is_table_nodup _ T) I). Qed.

Lemma detect_ok : forall h c t w r, honest h -> detect_key_weighted h c t w = Ok r ->
  chroma_valid c w = true /\ Forall (fun ks => nn (snd ks)) (final_scores c t w) /\ exists s, good (final_scores c t w) r s.
Proof.
  intros h c t w r Hh H. destruct (detect_cases h c t w Hh) as [(_ & E)|[(_ & _ & E)|(V & N & r' & s & E & G)]];
    [congruence|congruence|].
  assert (r' = r) by congruence. subst r'. split; [exact V|]. split; [exact N|]. now exists s.
Qed.

(** The greatest score among the other keys. *)
Definition best_other (l : list score) (k : key) : f32 :=
  fold_left (fun acc ks => if key_eqb (fst ks) k then acc else fmax acc (snd ks)) l f0.
Lemma best_other_nn : forall l k, nn (best_other l k).
Proof.
  intros l k. unfold best_other.
  assert (G : forall l a, nn a -> nn (fold_left (fun acc ks => if key_eqb (fst ks) k then acc else fmax acc (snd ks)) l a)).
  { clear l. induction l as [|x l IH]; intros a A; cbn [fold_left]; [exact A|]. apply IH.
    destruct (key_eqb (fst x) k); [exact A|]. apply fmax_nn. now left. }
  apply G. reflexivity.
Qed.
Lemma best_other_ge : forall l k k' s, In (k', s) l -> k' <> k -> nn s -> fle s (best_other l k) = true.
Proof.
  intros l k. unfold best_other.
  set (f := fun acc ks => if key_eqb (fst ks) k then acc else fmax acc (snd ks)).
  assert (M : forall l a, nn a -> fle a (fold_left f l a) = true).
  { clear l. induction l as [|x l IH]; intros a A; cbn [fold_left]; [now apply fle_refl|]. unfold f at 2.
    destruct (key_eqb (fst x) k); [now apply IH|].
    apply fle_trans with (fmax a (snd x)); [now apply fmax_ge_l|]. apply IH. apply fmax_nn. now left. }
  assert (G : forall l a, nn a -> forall k' s, In (k', s) l -> k' <> k -> nn s -> fle s (fold_left f l a) = true).
  { clear l. induction l as [|x l IH]; intros a A k' s I D N; cbn [fold_left]; [destruct I|].
    assert (Nf : nn (f a x)). { unfold f. destruct (key_eqb (fst x) k); [exact A|]. apply fmax_nn. now left. }
    destruct I as [->|I]; [|now apply (IH (f a x) Nf k')].
    apply fle_trans with (f a (k', s)); [|now apply M]. unfold f. cbn [fst snd].
    apply key_eqb_neq in D. rewrite D. now apply fmax_ge_r. }
  intros k' s. apply G. reflexivity.
Qed.

(** What the mode-heuristic detector returns. *)
Definition boosted_scores (c : list (list f32)) (w : option (list f32)) (minor_on : bool) (mw : f32) (l : list score) : list score :=
  if minor_on then minor_bonus (fst (avg_chroma c w)) mw (snd (avg_chroma c w)) l else l.
Record refined (c : list (list f32)) (w : option (list f32)) (margin flip : f32) (minor_on : bool) (mw : f32)
    (base r : key_result) : Prop := {
  rf_on : minor_on = true \/ fgt (fclamp_val flip f0 f1) f0 = true;
  rf_weight : fle (fst (avg_chroma c w)) tiny9 = false;
  rf_scores : kr_scores r = sort_desc snd (boosted_scores c w minor_on mw (kr_scores base));
  rf_key : exists best s, hd_error (kr_scores r) = Some (best, s) /\
    (kr_key r = best \/
     kr_key r = parallel best /\ fgt (fclamp_val flip f0 f1) f0 = true /\
     (if is_major best then fst (mode_pref margin (snd (avg_chroma c w)) (tonic best))
      else snd (mode_pref margin (snd (avg_chroma c w)) (tonic best))) = true /\
     fgt s f0 = true /\
     fge (find_score (key_eqb (kr_key r)) (kr_scores r) f0) (fmul s (fclamp_val flip f0 f1)) = true);
  rf_conf : kr_conf r = margin_conf (find_score (key_eqb (kr_key r)) (kr_scores r) f0) (best_other (kr_scores r) (kr_key r));
  rf_top : let top := firstn 3 (kr_scores r) in
    kr_top r = if existsb (fun ks => key_eqb (fst ks) (kr_key r)) top then top
               else removelast top ++ [(kr_key r, find_score (key_eqb (kr_key r)) (kr_scores r) f0)] }.

Lemma boosted_table : forall c w m mw l, is_table l -> is_table (boosted_scores c w m mw l).
Proof.
  intros c w m mw l T. unfold boosted_scores. destruct m; [|exact T]. apply is_table_map with l; auto. apply minor_bonus_keys.
Qed.

Lemma mode_cases : forall h c t w margin flip minor_on mw base, honest h -> detect_key_weighted h c t w = Ok base ->
  (detect_key_mode h c t w margin flip minor_on mw = Ok base /\
   ((minor_on = false /\ fgt (fclamp_val flip f0 f1) f0 = false) \/ fle (fst (avg_chroma c w)) tiny9 = true)) \/
  exists r, detect_key_mode h c t w margin flip minor_on mw = Ok r /\ refined c w margin flip minor_on mw base r.
Proof.
  intros h c t w margin flip minor_on mw base Hh B. unfold detect_key_mode. rewrite B. cbn [obind].
  destruct (detect_ok h c t w base Hh B) as (_ & _ & s0 & _ & So & _).
  pose proof (so_table _ So) as T. fold (is_table (kr_scores base)) in T.
  set (fl := fclamp_val flip f0 f1). set (en := fgt fl f0).
  destruct (negb minor_on && negb en) eqn:On.
  { left. split; [reflexivity|]. left. destruct minor_on, en; try discriminate; auto. }
  pose proof (boosted_table c w minor_on mw _ T) as Tb. unfold boosted_scores in Tb.
  destruct (avg_chroma c w) as (ws, avg) eqn:Ea. cbn [fst snd] in Tb.
  destruct (fle ws tiny9) eqn:Ew. { left. split; [reflexivity|]. right. exact Ew. }
  set (bo := if minor_on then minor_bonus ws mw avg (kr_scores base) else kr_scores base) in *.
  pose proof (is_table_sort _ Tb) as Ts.
  destruct (table_shape _ Ts) as (a & b & d & rest & Es).
  right. cbv zeta.
  replace (get (sort_desc snd bo) 0) with (Ok a) by now rewrite Es.
  cbn [obind]. destruct (mode_pref margin avg (tonic (fst a))) as (mp, jp) eqn:Em.
  assert (Sa : find_score (key_eqb (fst a)) (sort_desc snd bo) f0 = snd a).
  { apply table_score; auto. rewrite Es. left. now destruct a. }
  rewrite Sa.
  eexists; split; [reflexivity|]. constructor; rewrite ?Ea; cbn [fst snd kr_scores kr_key kr_conf kr_top]; fold fl; fold en.
  - destruct minor_on, en; try discriminate; auto.
  - exact Ew.
  - unfold boosted_scores. rewrite Ea. reflexivity.
  - exists (fst a), (snd a). split; [rewrite Es; now destruct a|]. rewrite Em. cbn [fst snd].
    fold (parallel (fst a)).
    assert (P : (if is_major (fst a) then Minor (tonic (fst a)) else Major (tonic (fst a))) = parallel (fst a))
      by now destruct (fst a).
    rewrite P.
    destruct (en && (if is_major (fst a) then mp else jp) &&
      (fgt (snd a) f0 && fge (find_score (key_eqb (parallel (fst a))) (sort_desc snd bo) f0) (fmul (snd a) fl))) eqn:C; [|now left].
    right. apply andb_prop in C as (C & D). apply andb_prop in C as (C1 & C2). apply andb_prop in D as (D1 & D2).
    repeat (split; auto).
  - reflexivity.
  - reflexivity.
Qed.

(** Non-negative unless NaN. *)
Definition onn (x : f32) : Prop := nn x -> nneg x.
Lemma onn_0 : onn f0. Proof. intros _. reflexivity. Qed.
Lemma onn_of : forall x, nneg x -> onn x. Proof. intros x H _. exact H. Qed.
Lemma onn_add : forall x y, onn x -> onn y -> onn (fadd x y).
Proof. intros x y X Y N. destruct (fadd_nan_l x y N). apply fadd_nneg; auto. Qed.
Lemma onn_mul : forall x y, onn x -> onn y -> onn (fmul x y).
Proof. intros x y X Y N. destruct (fmul_nan_inv x y N). apply fmul_nneg; auto. Qed.
Lemma onn_abs : forall x, onn (fabs x).
Proof. intros x N. rewrite fabs_nn in N. now apply fabs_nneg. Qed.
Lemma onn_not_neg : forall x, onn x -> fgt f0 x = true -> False.
Proof.
  intros x X H. change (fgt f0 x) with (flt x f0) in H. assert (N : nn x) by (now apply flt_nn_l in H).
  pose proof (flt_fle_false _ _ H) as F. rewrite (X N) in F. discriminate.
Qed.

Lemma degree_cases : forall m w a b acc, onn w ->
  (fgt a (fmul b (fadd f1 m)) = true /\ exists x, onn x /\ degree m w a b acc = (fadd (fst acc) x, snd acc)) \/
  (fgt b (fmul a (fadd f1 m)) = true /\ exists x, onn x /\ degree m w a b acc = (fst acc, fadd (snd acc) x)) \/
  degree m w a b acc = acc.
Proof.
  intros m w a b acc W. unfold degree. cbv zeta. destruct (fgt a (fmul b (fadd f1 m))) eqn:A.
  - left. split; [reflexivity|]. eexists; split; [|reflexivity]. apply onn_mul; auto. apply onn_abs.
  - destruct (fgt b (fmul a (fadd f1 m))) eqn:B; [right; left|now right; right].
    split; [reflexivity|]. eexists; split; [|reflexivity]. apply onn_mul; auto. apply onn_abs.
Qed.

(** A mode is only preferred if one of the three distinguishing degrees speaks for it. *)
Definition at_degree (avg : list f32) (t j : Z) : f32 := nth (Z.to_nat ((t + j) mod 12)) avg f0.
Lemma pref_evidence : forall margin avg t,
  let over a b := fgt (at_degree avg t a) (fmul (at_degree avg t b) (fadd f1 (fmax margin f0))) = true in
  (fst (mode_pref margin avg t) = true -> over 3%Z 4%Z \/ over 8%Z 9%Z \/ over 10%Z 11%Z) /\
  (snd (mode_pref margin avg t) = true -> over 4%Z 3%Z \/ over 9%Z 8%Z \/ over 11%Z 10%Z).
Proof.
  intros margin avg t. cbv zeta. unfold mode_pref. cbv zeta.
  set (m := fmax margin f0).
  assert (M : nneg m). { unfold m. apply fmax_ge_r. reflexivity. }
  assert (K : onn (fadd f1 (fmul m fhalf))).
  { apply onn_add; [now apply onn_of|]. apply onn_mul; [now apply onn_of|]. apply onn_of. reflexivity. }
  set (k := fadd f1 (fmul m fhalf)) in *. clearbody k.
  fold (at_degree avg t 3). fold (at_degree avg t 4). fold (at_degree avg t 8). fold (at_degree avg t 9).
  fold (at_degree avg t 10). fold (at_degree avg t 11).
  generalize (at_degree avg t 3) (at_degree avg t 4) (at_degree avg t 8) (at_degree avg t 9) (at_degree avg t 10)
    (at_degree avg t 11).
  intros a3 a4 a8 a9 a10 a11. clearbody m.
  assert (One : onn f1) by (apply onn_of; reflexivity). assert (Two : onn f2) by (apply onn_of; reflexivity).
  pose proof onn_0 as O.
  set (d1 := degree m f2 a3 a4 (f0, f0)). set (d2 := degree m f1 a8 a9 d1). set (d3 := degree m f1 a10 a11 d2).
  destruct (degree_cases m f2 a3 a4 (f0, f0) Two) as [(A1 & x1 & X1 & E1)|[(A1 & x1 & X1 & E1)|E1]];
  destruct (degree_cases m f1 a8 a9 d1 One) as [(A2 & x2 & X2 & E2)|[(A2 & x2 & X2 & E2)|E2]];
  destruct (degree_cases m f1 a10 a11 d2 One) as [(A3 & x3 & X3 & E3)|[(A3 & x3 & X3 & E3)|E3]];
  fold d1 in E1; fold d2 in E2; fold d3 in E3; (split; intros H; apply andb_prop in H as (_ & H); auto);
  exfalso; rewrite E3, ?E2, ?E1 in H; cbn [fst snd] in H; revert H; apply onn_not_neg; apply onn_mul; auto;
  repeat (apply onn_add; auto).
Qed.

(** Bounds on the average chroma. *)
Definition sane_frames (k : Z) (c : list (list f32)) : Prop :=
  Forall (fun ch => length ch = 12 /\ Forall (fun x => nneg x /\ within k x) ch) c.
Definition sane_weights (j : Z) (n : nat) (w : option (list f32)) : Prop :=
  match w with None => True | Some ws => length ws = n /\ Forall (fun x => nneg x /\ within j x) ws end.

Lemma n2f_pow : forall p n, (0 <= p < 128)%Z -> (Z.of_nat n <= 2 ^ p)%Z -> within p (n2f n).
Proof.
  intros p n P H. unfold n2f. destruct (z2f_fx (Z.of_nat n)) as (N & E).
  apply (within_of p _ (rnd (IZR (Z.of_nat n)))); [lia|exact N|exact E|].
  apply rnd_within; [lia|]. rewrite <- (abs_IZR (Z.of_nat n)).
  rewrite <- (IZR_Zpower radix2 p) by lia. apply IZR_le. change (Zpower radix2 p) with (2 ^ p)%Z. lia.
Qed.

Lemma fold_upto : forall A (f : f32 -> A -> f32) k l acc, (-149 <= k <= 102)%Z -> nneg acc /\ within (k + 25) acc ->
  (forall a x, In x l -> f a x = a \/ exists y, nneg y /\ within k y /\ f a x = fadd a y) ->
  nneg (fold_left f l acc) /\ within (k + 25) (fold_left f l acc).
Proof.
  intros A f k l. induction l as [|x l IH]; intros acc K H F; cbn [fold_left]; [exact H|].
  apply IH; auto.
  - destruct (F acc x (or_introl eq_refl)) as [->|(y & N & W & ->)]; [exact H|]. destruct H as (Na & Wa).
    split; [now apply fadd_nneg|now apply within_step].
  - intros a y I. apply F. now right.
Qed.

(** The weight of all frames and the weighted energy of a pitch class. *)
Definition weight_of (c : list (list f32)) (w : option (list f32)) : f32 :=
  match w with
  | None => n2f (length c)
  | Some ws => fold_left (fun (acc : f32) (cw : list f32 * f32) => if fle (snd cw) f0 then acc else fadd acc (snd cw)) (combine c ws) f0
  end.
Definition energy_of (c : list (list f32)) (w : option (list f32)) (i : nat) : f32 :=
  match w with
  | None => fold_left (fun acc ch => fadd acc (nth i ch f0)) c f0
  | Some ws => fold_left (fun (acc : f32) (cw : list f32 * f32) => if fle (snd cw) f0 then acc
                                 else fadd acc (fmul (snd cw) (nth i (fst cw) f0))) (combine c ws) f0
  end.
Definition shares (l : list f32) : list f32 := if fgt (fsum l) tiny9 then map (fun x => fdiv x (fsum l)) l else l.
Lemma avg_eq : forall c w, avg_chroma c w = (weight_of c w, shares (map (energy_of c w) (seq 0 12))).
Proof. intros c w. unfold avg_chroma, weight_of, shares, energy_of. cbv zeta. reflexivity. Qed.

Lemma weight_bounds : forall j p c w, (0 <= j <= 77)%Z -> (0 <= p < 128)%Z -> sane_weights j (length c) w ->
  (Z.of_nat (length c) <= 2 ^ p)%Z -> nneg (weight_of c w) /\ within (Z.max (j + 25) p) (weight_of c w).
Proof.
  intros j p c w J P W N. unfold weight_of. destruct w as [l|].
  - destruct W as (_ & W). set (f := fun (acc : f32) (cw : list f32 * f32) => _).
    assert (G : nneg (fold_left f (combine c l) f0) /\ within (j + 25) (fold_left f (combine c l) f0)).
    { apply fold_upto; [lia|split; [reflexivity|apply within_0]|].
      intros a (ch & x) I. unfold f. cbn [snd]. destruct (fle x f0); [now left|right]. exists x.
      apply in_combine_r in I. apply (proj1 (Forall_forall _ _) W) in I. tauto. }
    destruct G as (G1 & G2). split; [exact G1|]. eapply within_mono; [|exact G2]. lia.
  - split; [unfold n2f; apply z2f_nneg; lia|]. eapply within_mono; [|now apply n2f_pow]. lia.
Qed.
Lemma energy_bounds : forall k j c w i, (0 <= k)%Z -> (0 <= j)%Z -> (k + j <= 77)%Z -> sane_frames k c ->
  sane_weights j (length c) w -> i < 12 -> nneg (energy_of c w i) /\ within (k + j + 25) (energy_of c w i).
Proof.
  intros k j c w i K J KJ C W Hi.
  assert (El : forall ch, In ch c -> nneg (nth i ch f0) /\ within k (nth i ch f0)).
  { intros ch Ic. apply (proj1 (Forall_forall _ _) C) in Ic as (L & F). apply (proj1 (Forall_forall _ _) F). apply nth_In. lia. }
  unfold energy_of. destruct w as [l|].
  - destruct W as (_ & W). set (f := fun (acc : f32) (cw : list f32 * f32) => _).
    apply fold_upto; [lia|split; [reflexivity|apply within_0]|].
    intros a (ch & x) Ic. unfold f. cbn [fst snd].
    pose proof (in_combine_r _ _ _ _ Ic) as Ix. apply (proj1 (Forall_forall _ _) W) in Ix as (X1 & X2).
    pose proof (in_combine_l _ _ _ _ Ic) as Ich. destruct (El _ Ich) as (Y1 & Y2).
    destruct (fle x f0); [now left|right]. exists (fmul x (nth i ch f0)). split; [|split; [|reflexivity]].
    + apply fmul_nneg_fin; auto; eapply within_fin; eauto.
    + replace (k + j)%Z with (j + k)%Z by lia. apply within_mul; auto. lia.
  - apply fold_upto; [lia|split; [reflexivity|apply within_0]|].
    intros a ch Ic. right. exists (nth i ch f0). destruct (El _ Ic) as (X & Y). split; [exact X|]. split; [|reflexivity].
    eapply within_mono; [|exact Y]. lia.
Qed.
Lemma shares_01 : forall k l, (-149 <= k <= 102)%Z -> Forall (fun x => nneg x /\ within k x) l -> Forall in01 (shares l).
Proof.
  intros k av K A.
  assert (Nn : Forall (fun x => nneg x) av) by (eapply Forall_impl; [|exact A]; now intros x (H & _)).
  assert (Wn : Forall (within k) av) by (eapply Forall_impl; [|exact A]; now intros x (_ & H)).
  assert (S : within (k + 25) (fsum av)) by (apply within_sum; auto; lia).
  assert (Le : forall x, In x av -> fle x (fsum av) = true).
  { intros x I. unfold fsum. apply fsum_ge_elem; auto. }
  unfold shares. apply within_fin in S. revert S Le. generalize (fsum av). intros s S Le.
  assert (T1 : nneg tiny9) by reflexivity. assert (T2 : fle tiny9 f1 = true) by reflexivity.
  assert (T3 : nn tiny9) by reflexivity. revert T1 T2 T3. generalize tiny9. intros t T1 T2 T3.
  destruct (fgt s t) eqn:G; unfold fgt in G; fold (flt t s) in G.
  - apply Forall_forall. intros y I. apply in_map_iff in I as (x & <- & I).
    assert (P : pos s) by exact (fle_flt_trans f0 _ _ T1 G).
    apply fdiv_le_1; auto. exact (proj1 (Forall_forall _ _) Nn _ I).
  - apply Forall_forall. intros x I.
    split; [exact (proj1 (Forall_forall _ _) Nn _ I)|].
    apply fle_trans with t; [|exact T2]. apply fle_trans with s; [now apply Le|].
    apply flt_false_fle; auto. now apply fin_nn.
Qed.
Lemma avg_bounds : forall k j p c w, (0 <= k)%Z -> (0 <= j)%Z -> (k + j <= 77)%Z -> (0 <= p < 128)%Z -> sane_frames k c ->
  sane_weights j (length c) w -> (Z.of_nat (length c) <= 2 ^ p)%Z ->
  nneg (fst (avg_chroma c w)) /\ within (Z.max (j + 25) p) (fst (avg_chroma c w)) /\
  Forall in01 (snd (avg_chroma c w)).
Proof.
  intros k j p c w K J KJ P C W N. rewrite avg_eq. cbn [fst snd].
  assert (J2 : (0 <= j <= 77)%Z) by lia. destruct (weight_bounds j p c w J2 P W N) as (A & B).
  split; [exact A|]. split; [exact B|]. apply shares_01 with (k + j + 25)%Z; [lia|].
  apply Forall_forall. intros x I. apply in_map_iff in I as (i & <- & I). apply in_seq in I.
  apply energy_bounds; auto. lia.
Qed.

Lemma boosted_within : forall k j p m q c w (mo : bool) mw l, (0 <= k)%Z -> (0 <= j)%Z -> (k + j <= 77)%Z -> (0 <= p)%Z ->
  sane_frames k c -> sane_weights j (length c) w -> (Z.of_nat (length c) <= 2 ^ p)%Z -> (0 <= m)%Z -> within m mw ->
  (0 <= q < 127)%Z -> (Z.max (j + 25) p + m + 1 < 127)%Z -> table_within q l ->
  table_within (if mo then (Z.max q (Z.max (j + 25) p + m + 1) + 1)%Z else q) (boosted_scores c w mo mw l).
Proof.
  intros k j p m q c w mo mw l K J KJ P0 C W N M Mw Q Q2 FW.
  assert (G : forall q', (q <= q')%Z -> table_within q' l).
  { intros q' H. eapply Forall_impl; [|exact FW]. intros ks X. eapply within_mono; eauto. }
  unfold boosted_scores. destruct mo; [|exact FW].
  assert (P : (0 <= p < 128)%Z) by lia.
  destruct (avg_bounds k j p c w K J KJ P C W N) as (A1 & A2 & A3).
  set (ws := fst (avg_chroma c w)) in *. set (av := snd (avg_chroma c w)) in *. clearbody ws av.
  unfold minor_bonus. cbv zeta. destruct (fgt (fmax mw f0) f0); [|apply G; lia].
  apply Forall_forall. intros ks I. apply in_map_iff in I as ((kk & s) & <- & I).
  pose proof (proj1 (Forall_forall _ _) FW _ I) as Ws. cbn [snd] in Ws.
  destruct kk as [i|i]; cbn [fst snd]; [eapply within_mono; [|exact Ws]; lia|].
  assert (Av : forall n, within 0 (nth n av f0)).
  { intros n. destruct (Nat.lt_ge_cases n (length av)) as [L|L]; [|rewrite nth_overflow by exact L; apply within_0].
    apply (nth_In av f0) in L. apply (proj1 (Forall_forall _ _) A3) in L as (L1 & L2).
    apply within_le with f0 f1; auto; [apply within_0|]. split; [reflexivity|].
    assert (E : B2R f1 = 1%R) by (rewrite <- fx_fin by reflexivity; apply fx_f1). rewrite E, Rabs_R1. apply Rle_refl. }
  apply within_add; [lia| |].
  - eapply within_mono; [|exact Ws]. lia.
  - eapply (within_mono (Z.max (j + 25) p + m + (0 + 1))); [lia|].
    apply within_mul; [lia| |apply within_sub; [lia|apply Av|apply Av]].
    apply within_mul; [lia|exact A2|]. destruct (fmax_case mw f0) as [->| ->]; [exact Mw|apply within_0].
Qed.

(** A key that does not beat the others has confidence zero. *)
Lemma margin_zero : forall s o, fin s -> fin o -> fle s o = true -> fle (margin_conf s o) f0 = true.
Proof.
  intros s o Fs Fo L. unfold margin_conf. destruct (fgt s f0) eqn:G; [|reflexivity].
  unfold fgt in G. fold (flt f0 s) in G.
  destruct (fsub_fx s o Fs Fo) as (N & E).
  assert (D : fle (fsub s o) f0 = true).
  { apply fle_intro; auto. rewrite E, fx_f0. rewrite <- sat_0. apply sat_mono. rewrite <- rnd_0. apply rnd_mono.
    apply fle_fx in L. rewrite !fx_fin in L by auto. lra. }
  assert (P : (0 < B2R s)%R). { apply flt_fx in G. rewrite fx_f0, fx_fin in G by auto. exact G. }
  assert (P' : B2R s <> 0%R) by lra.
  assert (Z0 : fin f0) by reflexivity.
  destruct (fdiv_fx f0 s Z0 Fs P') as (N0 & E0).
  assert (Q : fle (fdiv (fsub s o) s) f0 = true).
  { assert (N1 : nn (fdiv (fsub s o) s)).
    { destruct (nn_cases _ N) as [Fd|[Ed|Ed]]; [now destruct (fdiv_fx _ s Fd Fs P')| |].
      - rewrite Ed. now rewrite fdiv_inf_nn.
      - rewrite Ed. now rewrite fdiv_neg_nn. }
    pose proof (fdiv_mono_l _ _ s D G N1 N0) as M. apply fle_trans with (fdiv f0 s); [exact M|].
    apply fle_intro; auto. rewrite E0, fx_f0. cbn [B2R f0]. unfold Rdiv. rewrite Rmult_0_l, rnd_0, sat_0. apply Rle_refl. }
  unfold fclamp_val. destruct (flt (fdiv (fsub s o) s) f0) eqn:A; [reflexivity|].
  destruct (flt f1 (fdiv (fsub s o) s)) eqn:B; [|exact Q].
  pose proof (flt_fle_trans _ _ _ B Q) as C. discriminate C.
Qed.
Lemma best_other_fin : forall l k, Forall (fun ks => fin (snd ks)) l -> fin (best_other l k).
Proof.
  intros l k H. unfold best_other. assert (Z0 : fin f0) by reflexivity. revert Z0. generalize f0.
  induction H as [|x l X _ IH]; intros a A; cbn [fold_left]; [exact A|]. apply IH.
  destruct (key_eqb (fst x) k); [exact A|]. destruct (fmax_case a (snd x)) as [->| ->]; auto.
Qed.
Lemma hd_greatest : forall l (x : score), sorted_scores l -> hd_error l = Some x -> nn (snd x) ->
  forall k s, In (k, s) l -> fle s (snd x) = true.
Proof.
  intros l x S H N k s I. destruct l as [|y l]; [discriminate|]. injection H as ->. inversion S as [|? ? S' F]; subst.
  destruct I as [->|I]; [now apply fle_refl|]. exact (proj1 (Forall_forall _ _) F _ I).
Qed.

(** The report shared by the aggregating detectors. *)
Record reported (l : list score) (r : key_result) : Prop := {
  rp_scores : kr_scores r = sort_desc snd l;
  rp_top : kr_top r = firstn 3 (kr_scores r);
  rp_key : hd_error (map fst (kr_scores r)) = Some (kr_key r);
  rp_conf : exists a b c rest, kr_scores r = a :: b :: c :: rest /\ kr_conf r = margin_conf (snd a) (snd b) }.
Lemma report_spec : forall l, is_table l -> exists r, report (sort_desc snd l) = Ok r /\ reported l r.
Proof.
  intros l T. destruct (table_shape _ (is_table_sort _ T)) as (a & b & c & rest & E).
  unfold report. rewrite E. cbn [get nth_error obind]. eexists; split; [reflexivity|].
  constructor; cbn [kr_scores kr_top kr_key kr_conf map hd_error]; auto. exists a, b, c, rest. auto.
Qed.
Lemma reported_facts : forall l r, is_table l -> reported l r ->
  is_table (kr_scores r) /\ length (kr_top r) = 3 /\ (exists s, In (kr_key r, s) (kr_top r)) /\
  ((forall k s, In (k, s) l -> nn s) -> sorted_scores (kr_scores r) /\
     exists s, In (kr_key r, s) (kr_scores r) /\ forall k' s', In (k', s') (kr_scores r) -> fle s' s = true) /\
  ((forall k s, In (k, s) l -> fin s) -> in01 (kr_conf r)).
Proof.
  intros l r T R. pose proof (is_table_sort _ T) as Ts. rewrite <- (rp_scores _ _ R) in Ts.
  destruct (rp_conf _ _ R) as (a & b & c & rest & E & Cf). pose proof (rp_key _ _ R) as K. rewrite E in K. cbn in K. injection K as K.
  assert (In' : forall x, In x (kr_scores r) <-> In x l) by (intros x; rewrite (rp_scores _ _ R); apply sort_desc_in).
  split; [exact Ts|]. split; [rewrite (rp_top _ _ R), E; reflexivity|].
  split. { exists (snd a). rewrite (rp_top _ _ R), E, <- K. left. now destruct a. }
  split.
  - intros N. assert (S : sorted_scores (kr_scores r)).
    { rewrite (rp_scores _ _ R). apply sort_desc_sorted. apply Forall_forall. intros (k & s) I. exact (N k s I). }
    split; [exact S|]. exists (snd a). split; [rewrite E, <- K; left; now destruct a|].
    apply hd_greatest; auto; [now rewrite E|]. apply (N (fst a)). apply In'. rewrite E. left. now destruct a.
  - intros F. rewrite Cf. apply margin_in01.
    + intros X. assert (Y : fin (snd a)) by (apply (F (fst a)); apply In'; rewrite E; left; now destruct a).
      rewrite X in Y. discriminate.
    + apply fin_nn. apply (F (fst b)). apply In'. rewrite E. right. left. now destruct b.
Qed.

Lemma combined_table : forall f, is_table (map (fun x : key => (x, f x : f32)) all_keys).
Proof. intros f. unfold is_table. rewrite map_map. cbn [fst]. rewrite map_id. apply Permutation_refl. Qed.
