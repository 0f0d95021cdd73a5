(** C39: key change detection. *)
From Coq Require Import ZArith Reals Lra Lia Sorted.
From Flocq Require Import Core BinarySingleNaN.
From Verif Require Import Rust F32 F32Facts ListFacts Bounds Means KeyNotation KeyTemplates KeyDetector
  KeyDetectorProofs KeyBoundsProofs KeyTieProofs KeyDetectorProps KeyTieProps KeyChanges KeyChangesProofs.

Lemma fdiv_nn_pos : forall x y, fin x -> pos y -> nn (fdiv x y).
Proof.
  intros x y Fx Py. destruct (is_finite y) eqn:Fy; [now apply fdiv_nn_fin|].
  destruct y as [|[]| |]; try discriminate. destruct x as [| | |]; try discriminate; reflexivity.
Qed.

Lemma fps_pos : forall sr hop d, (0 <= sr)%Z -> (0 <= hop <= usize_max)%Z -> (sr < 2 ^ 32)%Z ->
  (1 <= f2usize (fmul d (fdiv (z2f sr) (z2f hop))))%Z -> pos (fdiv (z2f sr) (z2f hop)).
Proof.
  intros sr hop d S H S2 L. set (f := fdiv (z2f sr) (z2f hop)) in *. unfold usize_max in H.
  assert (Z : forall b, f <> B754_zero b).
  { intros b E. rewrite E in L. destruct d; cbv in L; destruct L; reflexivity. }
  assert (N : f <> B754_nan).
  { intros E. rewrite E in L. destruct d; cbv in L; destruct L; reflexivity. }
  assert (G : nneg f).
  { unfold f. destruct (Z.eq_dec hop 0) as [->|Q].
    - pose proof (z2f_nneg sr S) as P. pose proof (z2f_fin sr ltac:(lia)) as F.
      unfold f in N. destruct (z2f sr) as [[]|[]| |[] m e B]; try discriminate F; try discriminate P; try reflexivity;
        exfalso; apply N; reflexivity.
    - apply fdiv_nneg.
      + now apply z2f_nneg.
      + refine (flt_fle_trans f0 (z2f 1) _ _ _); [reflexivity|]. apply z2f_mono. lia.
      + apply fdiv_nn_pos; [apply z2f_fin; lia|].
        refine (flt_fle_trans f0 (z2f 1) _ _ _); [reflexivity|]. apply z2f_mono. lia. }
  destruct f as [b|[]| |[] m e B]; try discriminate G; try reflexivity.
  exfalso. now apply (Z b).
Qed.

Definition all_honest (hs : nat -> hash_order) (h : hash_order) : Prop := (forall i, honest (hs i)) /\ honest h.

(** The parts of a successful run. *)
Lemma kc_parts : forall hs h c sr hop t d o r, (0 <= sr < 2 ^ 32)%Z -> (0 <= hop <= usize_max)%Z ->
  all_honest hs h -> detect_key_changes hs h c sr hop t d o = Ok r ->
  let fps := fdiv (z2f sr) (z2f hop) in
  let seg := f2usize (fmul d fps) in
  let ovl := f2usize (fmul o fps) in
  (1 <= seg)%Z /\ (ovl < seg)%Z /\ pos fps /\
  (exists idx, segmented hs c t fps seg (seg - ovl) 0 (kcr_segments r) idx) /\
  kcr_segments r <> [] /\ kcr_changes r = changes_of (kcr_segments r) /\
  exists n s, counted (map (fun s => (sk_key s, sk_conf s)) (kcr_segments r))
                (count_keys (map (fun s => (sk_key s, sk_conf s)) (kcr_segments r))) /\
    In (kcr_key r, (n, s)) (count_keys (map (fun s => (sk_key s, sk_conf s)) (kcr_segments r))) /\
    kcr_conf r = fdiv s (z2f (Z.of_nat n)) /\
    forall k' n' s', In (k', (n', s')) (count_keys (map (fun s => (sk_key s, sk_conf s)) (kcr_segments r))) -> n' <= n.
Proof.
  intros hs h c sr hop t d o r S H (Hs & Hh) E. cbv zeta. unfold detect_key_changes in E.
  destruct (length c =? 0) eqn:Lc; [discriminate|]. cbv zeta in E.
  set (fps := fdiv (z2f sr) (z2f hop)) in *. set (seg := f2usize (fmul d fps)) in *.
  set (ovl := f2usize (fmul o fps)) in *.
  destruct (seg <? ovl)%Z eqn:U; [discriminate|]. apply Z.ltb_ge in U.
  destruct ((seg =? 0)%Z || (seg - ovl =? 0)%Z) eqn:V; [discriminate|].
  apply orb_false_iff in V as (V1 & V2). apply Z.eqb_neq in V1, V2.
  pose proof (f2usize_bounds (fmul d fps)) as B. fold seg in B.
  destruct (segment_loop (Datatypes.S (length c)) hs c t fps seg (seg - ovl) 0) as [segs|e|] eqn:L; cbn [obind] in E; [|discriminate|discriminate].
  destruct (length segs =? 0) eqn:Ls; [discriminate|]. apply Nat.eqb_neq in Ls.
  set (m := count_keys (map (fun s => (sk_key s, sk_conf s)) segs)) in *.
  destruct (max_by (fun a b => fst (snd b) <? fst (snd a)) (ho_counts h m)) as [[k [n s]]|] eqn:M; [|discriminate].
  cbn [fst snd] in E.
  assert (Er : r = {| kcr_key := k; kcr_conf := fdiv s (z2f (Z.of_nat n)); kcr_changes := changes_of segs; kcr_segments := segs |}) by congruence.
  subst r. cbn [kcr_key kcr_conf kcr_changes kcr_segments]. clear E.
  split; [lia|]. split; [lia|].
  split. { apply (fps_pos sr hop d); try lia; try exact H. unfold seg, fps in *. lia. }
  split. { apply (segment_loop_spec hs c t fps seg (seg - ovl) ltac:(lia) ltac:(lia) (Datatypes.S (length c)) 0 segs ltac:(lia) L). }
  split. { intros ->. apply Ls. reflexivity. }
  split; [reflexivity|]. exists n, s. fold m.
  split; [apply count_keys_spec|].
  assert (P : Permutation (ho_counts h m) m) by apply Hh.
  split. { apply (Permutation_in _ P). exact (max_by_in _ _ _ _ M). }
  split; [reflexivity|].
  intros k' n' s' I. apply (Permutation_in _ (Permutation_sym P)) in I.
  exact (max_by_nat _ (fun e : key * (nat * f32) => fst (snd e)) _ _ M _ I).
Qed.

Lemma Forall2_len : forall A B (R : A -> B -> Prop) l l', Forall2 R l l' -> length l = length l'.
Proof. intros A B R l l' H. induction H; cbn [length]; congruence. Qed.
Lemma filter_le : forall A (f : A -> bool) l, length (filter f l) <= length l.
Proof. intros A f l. induction l as [|a l IH]; cbn [filter length]; [lia|]. destruct (f a); cbn [length]; lia. Qed.
Lemma Forall2_in_r : forall A B (R : A -> B -> Prop) l l', Forall2 R l l' -> forall y, In y l' -> exists x, In x l /\ R x y.
Proof.
  intros A B R l l' H. induction H as [|x y l l' Hxy H IH]; intros z I; [destruct I|].
  destruct I as [<-|I]; [exists x; split; [now left|exact Hxy]|].
  destruct (IH z I) as (x' & I' & H'). exists x'. split; [now right|exact H'].
Qed.

Lemma sorted_times : forall hs c t fps seg hop lo segs idx, (1 <= hop)%Z -> (Z.of_nat (length c) <= usize_max)%Z ->
  (0 <= seg)%Z -> pos fps -> segmented hs c t fps seg hop lo segs idx ->
  StronglySorted (fun a b => fle (sk_time a) (sk_time b) = true) segs.
Proof.
  intros hs c t fps seg hop lo segs idx H Lc Sg P [S _ E _]. unfold usize_max in Lc. revert S. induction E as [|i s idx segs X E IH]; intros S; constructor.
  - apply IH. now inversion S.
  - apply Forall_forall. intros y I. destruct (Forall2_in_r _ _ _ _ _ E y I) as (i' & I' & L' & r' & _ & ->).
    destruct X as (L & r & _ & ->). cbn [sk_time].
    inversion S as [|? ? _ F]; subst. apply (proj1 (Forall_forall _ _) F) in I'.
    apply fdiv_mono_l; auto.
    + apply z2f_mono. nia.
    + apply fdiv_nn_pos; auto. apply z2f_fin. nia.
    + apply fdiv_nn_pos; auto. apply z2f_fin. nia.
Qed.

(** Structure of every successful result. *)
Theorem C39_result : forall hs h c sr hop t d o r, all_honest hs h -> (0 <= sr < 2 ^ 32)%Z ->
  (0 <= hop <= usize_max)%Z -> (Z.of_nat (length c) <= usize_max)%Z ->
  detect_key_changes hs h c sr hop t d o = Ok r ->
  (* segments and changes are in time order *)
  StronglySorted (fun a b => fle (sk_time a) (sk_time b) = true) (kcr_segments r) /\
  StronglySorted (fun a b => fle (kc_time a) (kc_time b) = true) (kcr_changes r) /\
  (* a change is exactly a pair of neighbouring segments with different keys and mean confidence
     above 0.2, reported at the start of the second *)
  (forall x, In x (kcr_changes r) <-> exists q a b p, kcr_segments r = q ++ a :: b :: p /\ sk_key a <> sk_key b /\
     kc_from x = sk_key a /\ kc_to x = sk_key b /\ kc_time x = sk_time b /\
     kc_conf x = fdiv (fadd (sk_conf a) (sk_conf b)) (z2f 2) /\ flt (lit 13421773 (-26)) (kc_conf x) = true) /\
  length (kcr_changes r) < length (kcr_segments r) /\
  (* the primary key is a most frequent one *)
  (In (kcr_key r) (map sk_key (kcr_segments r)) /\
   forall k, length (filter (fun s => key_eqb k (sk_key s)) (kcr_segments r)) <=
             length (filter (fun s => key_eqb (kcr_key r) (sk_key s)) (kcr_segments r))).
Proof.
  intros hs h c sr hop t d o r Hh S H Lc E.
  destruct (kc_parts hs h c sr hop t d o r S H Hh E) as (S1 & S2 & P & (idx & G) & Ne & Ec & n & s & C & I & _ & M).
  cbv zeta in *. clear E.
  set (fps := fdiv (z2f sr) (z2f hop)) in *. set (seg := f2usize (fmul d fps)) in *.
  set (ovl := f2usize (fmul o fps)) in *.
  assert (T : StronglySorted (fun a b => fle (sk_time a) (sk_time b) = true) (kcr_segments r)).
  { apply (sorted_times hs c t fps seg (seg - ovl) 0 _ idx); auto; lia. }
  rewrite Ec. split; [exact T|].
  assert (OC : forall k, length (occurrences k (map (fun s => (sk_key s, sk_conf s)) (kcr_segments r))) =
             length (filter (fun s => key_eqb k (sk_key s)) (kcr_segments r))).
  { intros k. unfold occurrences. rewrite map_length. generalize (kcr_segments r). intros l.
    induction l as [|a l IH]; auto. cbn [map filter fst]. destruct (key_eqb k (sk_key a)); cbn [length]; lia. }
  assert (PK : In (kcr_key r) (map sk_key (kcr_segments r)) /\
   forall k, length (filter (fun s => key_eqb k (sk_key s)) (kcr_segments r)) <=
             length (filter (fun s => key_eqb (kcr_key r) (sk_key s)) (kcr_segments r))).
  { split.
    - destruct (count_keys_spec (map (fun s => (sk_key s, sk_conf s)) (kcr_segments r))) as (_ & B).
      apply (in_map fst), B in I. rewrite map_map in I. exact I.
    - intros k. rewrite <- !OC. destruct C as [_ C2 C3]. destruct (C2 _ _ _ I) as (_ & En & _). rewrite <- En.
      destruct (occurrences k (map (fun s => (sk_key s, sk_conf s)) (kcr_segments r))) as [|a l] eqn:Q; [cbn [length]; lia|].
      assert (J : In k (map fst (map (fun s => (sk_key s, sk_conf s)) (kcr_segments r)))).
      { assert (J : In a (occurrences k (map (fun s => (sk_key s, sk_conf s)) (kcr_segments r)))) by (rewrite Q; now left).
        unfold occurrences in J. apply in_map_iff in J as (kc & _ & J). apply filter_In in J as (J & K).
        apply key_eqb_iff in K. rewrite K. now apply in_map. }
      apply C3, in_map_iff in J as ([k' [n' s']] & Ek & J). cbn [fst] in Ek. subst k'.
      rewrite <- Q. destruct (C2 _ _ _ J) as (_ & En' & _). rewrite <- En'. exact (M _ _ _ J). }
  destruct (kcr_segments r) as [|p l] eqn:Q; [congruence|]. cbn [changes_of].
  destruct (changes_times l p T) as (T1 & T2 & T3).
  split; [exact T1|]. split.
  - intros x. split.
    + intros J. destruct (changes_in l p x J) as (q & a & b & q' & E1 & E2 & E3 & E4).
      exists q, a, b, q'. split; [exact E1|]. split; [exact E2|]. subst x. cbn [kc_from kc_to kc_time kc_conf].
      split; [reflexivity|]. split; [reflexivity|]. split; [reflexivity|]. split; [reflexivity|]. exact E4.
    + intros (q & a & b & q' & E1 & E2 & E3 & E4 & E5 & E6 & E7).
      replace x with {| kc_time := sk_time b; kc_from := sk_key a; kc_to := sk_key b;
        kc_conf := fdiv (fadd (sk_conf a) (sk_conf b)) (z2f 2) |}
        by (destruct x as [x1 x2 x3 x4]; cbn [kc_from kc_to kc_time kc_conf] in *; rewrite E3, E4, E5, E6; reflexivity).
      apply (changes_complete l p q a b q' E1 E2). rewrite <- E6. exact E7.
  - split; [cbn [length]; lia|exact PK].
Qed.
Print Assumptions C39_result.

(** With 12-element frames there is one entry for every complete segment, at i * (seg - overlap) frames. *)
Theorem C39_segments : forall hs h c sr hop t d o r, all_honest hs h -> (0 <= sr < 2 ^ 32)%Z ->
  (0 <= hop <= usize_max)%Z -> Forall (fun ch => length ch = 12) c ->
  detect_key_changes hs h c sr hop t d o = Ok r ->
  let fps := fdiv (z2f sr) (z2f hop) in
  let seg := f2usize (fmul d fps) in
  let step := (seg - f2usize (fmul o fps))%Z in
  (1 <= step <= seg)%Z /\ (seg <= Z.of_nat (length c))%Z /\
  Z.of_nat (length (kcr_segments r)) = ((Z.of_nat (length c) - seg) / step + 1)%Z /\
  forall i s, nth_error (kcr_segments r) i = Some s ->
    sk_time s = fdiv (z2f (Z.of_nat i * step)) fps /\
    exists kr, detect_key (hs i) (slice c (Z.to_nat (Z.of_nat i * step)) (Z.to_nat (Z.of_nat i * step + seg))) t = Ok kr /\
      sk_key s = kr_key kr /\ sk_conf s = kr_conf kr.
Proof.
  intros hs h c sr hop t d o r Hh S H Fl E.
  destruct (kc_parts hs h c sr hop t d o r S H Hh E) as (S1 & S2 & P & (idx & [G1 G2 G3 G4]) & Ne & _).
  cbv zeta in *. clear E.
  set (fps := fdiv (z2f sr) (z2f hop)) in *. set (seg := f2usize (fmul d fps)) in *.
  pose proof (f2usize_bounds (fmul o fps)) as Bo.
  set (ovl := f2usize (fmul o fps)) in *. set (step := (seg - ovl)%Z) in *.
  assert (St : (1 <= step <= seg)%Z) by (unfold step; lia).
  assert (Lo : (seg <= Z.of_nat (length c))%Z).
  { destruct G3 as [|i s idx' segs' (L & _) _]; [congruence|]. nia. }
  set (N := ((Z.of_nat (length c) - seg) / step + 1)%Z).
  assert (Iff : forall i, (Z.of_nat i * step + seg <= Z.of_nat (length c))%Z <-> i < Z.to_nat N).
  { intros i. unfold N. pose proof (Z.div_mod (Z.of_nat (length c) - seg) step ltac:(lia)) as D.
    pose proof (Z.mod_pos_bound (Z.of_nat (length c) - seg) step ltac:(lia)) as B.
    assert (0 <= (Z.of_nat (length c) - seg) / step)%Z by (apply Z.div_pos; lia). split; intros X.
    - assert (Z.of_nat i <= (Z.of_nat (length c) - seg) / step)%Z by (apply Z.div_le_lower_bound; lia). lia.
    - assert (Z.of_nat i <= (Z.of_nat (length c) - seg) / step)%Z by lia. nia. }
  assert (Sq : idx = seq 0 (Z.to_nat N)).
  { apply sorted_full; auto. intros i. rewrite <- Iff. split.
    - intros I. clear -G3 I. induction G3 as [|a b l l' X G IH]; [destruct I|].
      destruct I as [<-|I]; [exact (proj1 X)|now apply IH].
    - intros X. destruct (G4 i ltac:(lia) X) as [Y|(e & Y)]; auto. exfalso.
      unfold detect_key in Y. pose proof (proj2 (C36_errors (hs i) _ t None (proj1 Hh i)) e Y) as ->.
      apply (proj1 (C36_errors (hs i) _ t None (proj1 Hh i))) in Y.
      destruct Y as [Y|[(ch & Y & Z)|(ws & Y & _)]]; [| |discriminate].
      + apply (f_equal (@length _)) in Y. rewrite slice_length in Y by lia. cbn [length] in Y. lia.
      + apply Z. apply (proj1 (Forall_forall _ _) Fl). unfold slice in Y.
        apply In_firstn in Y. rewrite <- (firstn_skipn (Z.to_nat (Z.of_nat i * step)) c). apply in_app_iff. now right. }
  split; [exact St|]. split; [exact Lo|]. split.
  - apply Forall2_len in G3. rewrite <- G3, Sq, seq_length. unfold N.
    assert (0 <= (Z.of_nat (length c) - seg) / step)%Z by (apply Z.div_pos; lia). lia.
  - intros i s I.
    assert (X : exists a, nth_error idx i = Some a /\ (Z.of_nat a * step + seg <= Z.of_nat (length c))%Z /\
      exists r, detect_key (hs a) (seg_at c seg step a) t = Ok r /\
        s = {| sk_time := fdiv (z2f (Z.of_nat a * step)) fps; sk_key := kr_key r; sk_conf := kr_conf r |}).
    { revert i I. clear -G3. induction G3 as [|a b l l' X G IH]; intros i I; [destruct i; discriminate|].
      destruct i as [|i]; cbn [nth_error] in *.
      - assert (b = s) by congruence. subst b. exists a. split; [reflexivity|exact X].
      - now apply IH. }
    destruct X as (a & Ia & _ & kr & D & ->).
    assert (a = i).
    { rewrite Sq in Ia. apply (nth_error_nth _ _ 0) in Ia.
      assert (i < Z.to_nat N). { apply Forall2_len in G3. rewrite Sq, seq_length in G3. rewrite G3. apply nth_error_Some. congruence. }
      rewrite seq_nth in Ia by assumption. lia. }
    subst a. cbn [sk_time sk_key sk_conf]. split; [reflexivity|]. exists kr. split; [exact D|]. split; reflexivity.
Qed.
Print Assumptions C39_segments.

Lemma segment_frames : forall (Q : list f32 -> Prop) c a b, Forall Q c -> Forall Q (slice c a b).
Proof.
  intros Q c a b H. apply Forall_forall. intros ch I. apply (proj1 (Forall_forall _ _) H). unfold slice in I.
  apply In_firstn in I. rewrite <- (firstn_skipn a c). apply in_app_iff. now right.
Qed.

(** Moderate frames are always analysed: a result when at least one segment fits and the overlap is
    shorter than the segment, an error otherwise, and all confidences are in [0,1].  Only an overlap
    longer than the segment makes it panic. *)
Theorem C39_total : forall hs h c s sr hop d o k, all_honest hs h -> (0 <= sr < 2 ^ 32)%Z ->
  (0 <= hop <= usize_max)%Z -> (0 <= k <= 46)%Z -> (Z.of_nat (length c) <= usize_max)%Z ->
  Forall (fun ch => length ch = 12 /\ Forall (within k) ch) c -> c <> [] ->
  let fps := fdiv (z2f sr) (z2f hop) in
  let seg := f2usize (fmul d fps) in
  let ovl := f2usize (fmul o fps) in
  (detect_key_changes hs h c sr hop (new_templates s) d o = Panic <-> (seg < ovl)%Z) /\
  ((exists r, detect_key_changes hs h c sr hop (new_templates s) d o = Ok r) <->
   (ovl < seg)%Z /\ (seg <= Z.of_nat (length c))%Z) /\
  forall r, detect_key_changes hs h c sr hop (new_templates s) d o = Ok r ->
    in01 (kcr_conf r) /\ Forall (fun x => in01 (sk_conf x)) (kcr_segments r) /\
    Forall (fun x => in01 (kc_conf x)) (kcr_changes r).
Proof.
  intros hs h c s sr hop d o k Hh S H K Lc C Nc. cbv zeta.
  assert (Dk : forall i a b, a < b -> b <= length c ->
    exists r, detect_key (hs i) (slice c a b) (new_templates s) = Ok r /\ in01 (kr_conf r)).
  { intros i a b Hab Hb. destruct (C36_total (hs i) (slice c a b) s None k 0 (proj1 Hh i)) as (r & R1 & R2 & _); try lia.
    - intros E. apply (f_equal (@length _)) in E. rewrite slice_length in E by lia. cbn [length] in E. lia.
    - now apply segment_frames.
    - exists r. split; [exact R1|exact R2]. }
  assert (C12 : Forall (fun ch => length ch = 12) c) by (eapply Forall_impl; [|exact C]; intros ch X; exact (proj1 X)).
  set (fps := fdiv (z2f sr) (z2f hop)) in *. set (seg := f2usize (fmul d fps)) in *.
  pose proof (f2usize_bounds (fmul o fps)) as Bo. set (ovl := f2usize (fmul o fps)) in *.
  assert (NP : forall i, (1 <= seg)%Z -> (0 <= seg - ovl)%Z -> (Z.of_nat i * (seg - ovl) + seg <= Z.of_nat (length c))%Z ->
    detect_key (hs i) (seg_at c seg (seg - ovl) i) (new_templates s) <> Panic).
  { intros i X1 X2 X3. assert (0 <= Z.of_nat i * (seg - ovl))%Z by nia. destruct (Dk i (Z.to_nat (Z.of_nat i * (seg - ovl))) (Z.to_nat (Z.of_nat i * (seg - ovl) + seg))) as (r & R & _); [lia|lia|].
    congruence. }
  assert (Cases : (seg < ovl)%Z /\ detect_key_changes hs h c sr hop (new_templates s) d o = Panic \/
    (ovl = seg \/ ovl < seg /\ Z.of_nat (length c) < seg)%Z /\ detect_key_changes hs h c sr hop (new_templates s) d o = Err InvalidInput \/
    (ovl < seg <= Z.of_nat (length c))%Z /\ exists r, detect_key_changes hs h c sr hop (new_templates s) d o = Ok r).
  { unfold detect_key_changes. assert (Lc' : (length c =? 0) = false) by (apply Nat.eqb_neq; intros E; apply Nc, length_zero_iff_nil, E).
    rewrite Lc'. cbv zeta. fold fps. fold seg. fold ovl.
    destruct (Z.ltb_spec seg ovl); [left; split; [lia|reflexivity]|right].
    destruct ((seg =? 0)%Z || (seg - ovl =? 0)%Z) eqn:V.
    - left. split; [|reflexivity]. apply orb_true_iff in V. rewrite !Z.eqb_eq in V. lia.
    - apply orb_false_iff in V as (V1 & V2). apply Z.eqb_neq in V1, V2.
      destruct (segment_loop_ok hs c (new_templates s) fps seg (seg - ovl) ltac:(lia) ltac:(lia)
        ltac:(intros i X; apply NP; lia) (Datatypes.S (length c)) 0) as (segs & L). rewrite L. cbn [obind].
      destruct (segment_loop_spec hs c (new_templates s) fps seg (seg - ovl) ltac:(lia) ltac:(lia) (Datatypes.S (length c)) 0 segs ltac:(lia) L) as (idx & [_ _ G3 G4]).
      destruct segs as [|x segs].
      + left. split; [|reflexivity]. right. split; [lia|].
        destruct (Z.ltb_spec (Z.of_nat (length c)) seg) as [|X]; auto. exfalso.
        destruct (G4 0 ltac:(lia) ltac:(lia)) as [I|(e & E)].
        * inversion G3; subst. destruct I.
        * destruct (Dk 0 (Z.to_nat (Z.of_nat 0 * (seg - ovl))) (Z.to_nat (Z.of_nat 0 * (seg - ovl) + seg)) ltac:(lia) ltac:(lia)) as (r & R & _). congruence.
      + right. split.
        * inversion G3 as [|i s' idx' segs' (Li & _) _]; subst. nia.
        * cbn [length Nat.eqb].
          destruct (max_by_some _ (fun a b : key * (nat * f32) => fst (snd b) <? fst (snd a))
            (ho_counts h (count_keys (map (fun s => (sk_key s, sk_conf s)) (x :: segs))))) as (e & Me).
          { intros Z. destruct (count_keys_spec (map (fun s => (sk_key s, sk_conf s)) (x :: segs))) as ([_ _ C3] & _).
            pose proof (proj2 (proj2 Hh) (count_keys (map (fun s => (sk_key s, sk_conf s)) (x :: segs)))) as Pm.
            rewrite Z in Pm. apply Permutation_nil in Pm. rewrite Pm in C3.
            apply (C3 (sk_key x)). now left. }
          rewrite Me. now eexists. }
  split; [|split].
  - destruct Cases as [(A & B)|[(A & B)|(A & r & B)]]; rewrite B; split; try discriminate; auto; intros; lia.
  - destruct Cases as [(A & B)|[(A & B)|(A & r & B)]]; rewrite B; split; try (intros (r' & E); discriminate); try (intros; lia).
    intros _. exists r. reflexivity.
  - intros r E.
    pose proof (C39_segments hs h c sr hop (new_templates s) d o r Hh S H C12 E) as (St & Lo & _ & Each). cbv zeta in *.
    fold fps seg ovl in St, Lo, Each.
    destruct (kc_parts hs h c sr hop (new_templates s) d o r S H Hh E) as (_ & _ & _ & (idx & G) & Ne & Ec & n & sm & Ct & I & Ek & _).
    cbv zeta in *. fold fps seg ovl in G.
    assert (SC : Forall (fun x => in01 (sk_conf x)) (kcr_segments r)).
    { apply Forall_forall. intros x X. destruct G as [_ _ G3 _].
      destruct (Forall2_in_r _ _ _ _ _ G3 x X) as (i & _ & Li & kr & D & ->). cbn [sk_conf].
      assert (0 <= Z.of_nat i * (seg - ovl))%Z by nia.
      destruct (Dk i (Z.to_nat (Z.of_nat i * (seg - ovl))) (Z.to_nat (Z.of_nat i * (seg - ovl) + seg)) ltac:(lia) ltac:(lia)) as (kr' & D' & B).
      assert (kr = kr') by congruence. now subst kr'. }
    split; [|split; [exact SC|]].
    + rewrite Ek. destruct Ct as [_ C2 _]. destruct (C2 _ _ _ I) as (N1 & En & ->). rewrite En.
      set (oc := occurrences (kcr_key r) (map (fun s => (sk_key s, sk_conf s)) (kcr_segments r))) in *.
      apply mean_in01.
      * intros Z. rewrite Z in En. cbn [length] in En. lia.
      * assert (length oc <= length (kcr_segments r)).
        { unfold oc, occurrences. rewrite map_length. eapply Nat.le_trans; [apply filter_le|]. now rewrite map_length. }
        pose proof (C39_segments hs h c sr hop (new_templates s) d o r Hh S H C12 E) as (_ & _ & Ln & _). cbv zeta in Ln.
        fold fps seg ovl in Ln.
        assert ((Z.of_nat (length c) - seg) / (seg - ovl) <= Z.of_nat (length c) - seg)%Z.
        { apply Z.div_le_upper_bound; nia. }
        unfold usize_max in Lc. lia.
      * apply Forall_forall. intros x X. unfold oc, occurrences in X. apply in_map_iff in X as ([k' x'] & <- & X).
        apply filter_In in X as (X & _). apply in_map_iff in X as (y & Ey & X).
        assert (x' = sk_conf y) by congruence. subst x'. cbn [snd]. exact (proj1 (Forall_forall _ _) SC _ X).
    + apply Forall_forall. intros x X.
      destruct (proj1 (proj1 (proj2 (proj2 (C39_result hs h c sr hop (new_templates s) d o r Hh S H Lc E))) x) X)
        as (q & a & b & p & Eq & _ & _ & _ & _ & -> & _).
      assert (Ia : In a (kcr_segments r)) by (rewrite Eq; apply in_app_iff; right; now left).
      assert (Ib : In b (kcr_segments r)) by (rewrite Eq; apply in_app_iff; right; right; now left).
      apply (proj1 (Forall_forall _ _) SC) in Ia, Ib.
      destruct Ia as (Ia0 & Ia1). destruct Ib as (Ib0 & Ib1).
      assert (Fa : fin (sk_conf a)) by (apply in01_fin; now split).
      assert (N2 : nneg (fadd (sk_conf a) (sk_conf b))) by now apply fadd_nneg.
      assert (L2 : fle (fadd (sk_conf a) (sk_conf b)) (z2f 2) = true).
      { refine (fle_trans _ (fadd f1 f1) _ _ _); [|vm_compute; reflexivity].
        apply fadd_mono; auto; [now apply nneg_nn]. }
      assert (P2 : pos (z2f 2)) by (vm_compute; reflexivity). assert (F2 : fin (z2f 2)) by (vm_compute; reflexivity).
      exact (fdiv_le_1 _ _ N2 P2 F2 L2).
Qed.
Print Assumptions C39_total.

(** For non-negative chroma with an audible entry in every frame no key change is ever reported: every
    segment's confidence is zero (C58), below the 0.2 threshold, whatever the keys are. *)
Theorem C39_never : forall hs h c s sr hop d o k r, all_honest hs h -> (0 <= sr < 2 ^ 32)%Z ->
  (0 <= hop <= usize_max)%Z -> (0 <= k <= 46)%Z ->
  Forall (fun ch => length ch = 12 /\ Forall (within k) ch /\ Forall (fun x => fle f0 x = true) ch /\
                    exists x, In x ch /\ fle (lit 8388608 (-43)) x = true) c ->
  detect_key_changes hs h c sr hop (new_templates s) d o = Ok r ->
  kcr_changes r = [] /\ Forall (fun x => sk_conf x = f0) (kcr_segments r).
Proof.
  intros hs h c s sr hop d o k r Hh S H K C E.
  destruct (kc_parts hs h c sr hop (new_templates s) d o r S H Hh E) as (S1 & S2 & _ & (idx & [_ _ G3 _]) & _ & Ec & _).
  cbv zeta in *.
  set (fps := fdiv (z2f sr) (z2f hop)) in *. set (seg := f2usize (fmul d fps)) in *. set (ovl := f2usize (fmul o fps)) in *.
  assert (Z : Forall (fun x => sk_conf x = f0) (kcr_segments r)).
  { apply Forall_forall. intros x X. destruct (Forall2_in_r _ _ _ _ _ G3 x X) as (i & _ & Li & kr & D & ->). cbn [sk_conf].
    assert (P0 : (0 <= Z.of_nat i * (seg - ovl))%Z) by nia.
    set (c' := seg_at c seg (seg - ovl) i) in *.
    assert (C' := segment_frames _ c (Z.to_nat (Z.of_nat i * (seg - ovl))) (Z.to_nat (Z.of_nat i * (seg - ovl) + seg)) C). fold c' in C'.
    assert (L' : 0 < length c') by (unfold c'; rewrite slice_length by lia; lia).
    destruct (proj1 (Forall_forall _ _) C' _ (nth_In c' [] L')) as (A1 & _ & _ & y & Iy & Ay).
    apply (In_nth _ _ f0) in Iy as (b & Lb & Ey). rewrite A1 in Lb. rewrite <- Ey in Ay.
    refine (proj1 (C58_zero_confidence (hs i) c' s None k 0 0 b kr (proj1 Hh i) ltac:(lia) ltac:(lia) ltac:(lia) _ I L' Lb Ay I D)).
    eapply Forall_impl; [|exact C']. intros ch (B1 & B2 & B3 & _). split; [exact B1|]. split; [exact B2|exact B3]. }
  split; [|exact Z]. rewrite Ec. destruct (kcr_segments r) as [|p l]; auto. cbn [changes_of].
  destruct (changes_from p l) as [|x q] eqn:Q; auto. exfalso.
  destruct (changes_in l p x) as (q1 & a & b & q2 & E1 & _ & _ & G); [rewrite Q; now left|].
  rewrite E1 in Z. assert (Za : sk_conf a = f0) by (apply (proj1 (Forall_forall _ _) Z), in_app_iff; right; now left).
  assert (Zb : sk_conf b = f0) by (apply (proj1 (Forall_forall _ _) Z), in_app_iff; right; right; now left).
  rewrite Za, Zb in G. vm_compute in G. discriminate G.
Qed.
Print Assumptions C39_never.

(** An overlap longer than the segment underflows the usize subtraction. *)
Theorem C39_overlap_refuted : exists c d o, Forall (fun ch => length ch = 12) c /\ c <> [] /\ flt f0 d = true /\ flt f0 o = true /\
  forall hs h, detect_key_changes hs h c 44100 512 (new_templates KrumhanslKessler) d o = Panic.
Proof.
  exists [triad], (z2f 2), (z2f 3). split; [repeat constructor|]. split; [discriminate|]. split; [reflexivity|]. split; [reflexivity|].
  intros hs h. unfold detect_key_changes. vm_compute. reflexivity.
Qed.
Print Assumptions C39_overlap_refuted.

(** Four frames of C major triad then four of F sharp major, at one frame per second, segments of two
    seconds without overlap: four segments, keys C, C, F#, F#, yet no change is reported. *)
Definition fsharp : list f32 := [f0; f1; f0; f0; f0; f0; f1; f0; f0; f0; f1; f0].
Example C39_example :
  match detect_key_changes (fun _ => keep) keep ([triad; triad; triad; triad; fsharp; fsharp; fsharp; fsharp])
          512 512 (new_templates KrumhanslKessler) (z2f 2) f0 with
  | Ok r => (map sk_key (kcr_segments r), map (fun s => f2usize (sk_time s)) (kcr_segments r), length (kcr_changes r))
  | _ => ([], [], 9) end = ([Major 0; Major 0; Major 6; Major 6], [0; 2; 4; 6]%Z, 0).
Proof. vm_compute; reflexivity. Qed.
(** Changes are reported when the confidences allow it. *)
Example C39_example_change :
  map (fun x => (kc_from x, kc_to x, f2usize (kc_time x)))
    (changes_of [ {| sk_time := f0; sk_key := Major 0; sk_conf := f1 |};
                  {| sk_time := z2f 6; sk_key := Major 0; sk_conf := f1 |};
                  {| sk_time := z2f 12; sk_key := Minor 9; sk_conf := fhalf |};
                  {| sk_time := z2f 18; sk_key := Major 0; sk_conf := f0 |} ]) = [(Major 0, Minor 9, 12%Z); (Minor 9, Major 0, 18%Z)].
Proof. vm_compute; reflexivity. Qed.
