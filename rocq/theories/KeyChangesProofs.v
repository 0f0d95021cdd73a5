(** Facts about the key change detector. *)
From Coq Require Import ZArith Reals Lra Lia Sorted.
From Verif Require Import Rust F32 F32Facts ListFacts Means KeyNotation KeyTemplates KeyDetector
  KeyDetectorProofs KeyChanges.

Definition occurrences (k : key) (l : list (key * f32)) : list f32 :=
  map snd (filter (fun kc => key_eqb k (fst kc)) l).

Record counted (l : list (key * f32)) (m : list (key * (nat * f32))) : Prop := {
  ct_nodup : NoDup (map fst m);
  ct_entry : forall k n s, In (k, (n, s)) m -> 1 <= n /\ n = length (occurrences k l) /\ s = fold_left fadd (occurrences k l) f0;
  ct_keys : forall k, In k (map fst l) -> In k (map fst m) }.

Lemma occurrences_snoc : forall k l x, occurrences k (l ++ [x]) =
  occurrences k l ++ (if key_eqb k (fst x) then [snd x] else []).
Proof.
  intros k l x. unfold occurrences. rewrite filter_app, map_app. f_equal. cbn [filter].
  now destruct (key_eqb k (fst x)).
Qed.
Lemma occurrences_none : forall k l, ~ In k (map fst l) -> occurrences k l = [].
Proof.
  intros k l H. unfold occurrences. induction l as [|a l IH]; auto. cbn [filter].
  destruct (key_eqb k (fst a)) eqn:E.
  - exfalso. apply H. apply key_eqb_iff in E. left. now symmetry.
  - apply IH. intros I. apply H. now right.
Qed.

Lemma counted_bump : forall l m k c, counted l m -> (forall k, In k (map fst m) -> In k (map fst l)) ->
  counted (l ++ [(k, c)]) (bump k c m) /\ (forall k', In k' (map fst (bump k c m)) -> In k' (map fst (l ++ [(k, c)]))).
Proof.
  intros l m k c [N E K] B. unfold bump. destruct (existsb (fun e => key_eqb (fst e) k) m) eqn:X.
  - assert (MF : map fst (map (fun e => if key_eqb (fst e) k then (fst e, (S (fst (snd e)), fadd (snd (snd e)) c)) else e) m) = map fst m).
    { rewrite map_map. apply map_ext. intros e. now destruct (key_eqb (fst e) k). }
    apply existsb_exists in X as (e0 & I0 & X). apply key_eqb_iff in X.
    assert (IK : In k (map fst m)) by (rewrite <- X; now apply in_map).
    split; [|rewrite MF; intros k' I; rewrite map_app, in_app_iff; left; now apply B].
    split.
    + now rewrite MF.
    + intros k' n s I. apply in_map_iff in I as ([k2 [n2 s2]] & Eq & I). cbn [fst snd] in Eq.
      destruct (E _ _ _ I) as (E1 & E2 & E3). rewrite occurrences_snoc. cbn [fst snd].
      destruct (key_eqb k2 k) eqn:Q.
      * assert (k' = k2) by congruence. assert (n = S n2) by congruence. assert (s = fadd s2 c) by congruence. subst k' n s.
        rewrite Q, app_length, fold_left_app. cbn [length fold_left]. rewrite <- E3. repeat split; lia.
      * assert (k' = k2) by congruence. assert (n = n2) by congruence. assert (s = s2) by congruence. subst k' n s.
        rewrite Q, app_nil_r. split; [exact E1|]. split; assumption.
    + intros k' I. rewrite MF. rewrite map_app, in_app_iff in I. destruct I as [I|[<-|[]]]; [now apply K|exact IK].
  - assert (NK : ~ In k (map fst m)).
    { intros I. apply in_map_iff in I as (e & Q & I).
      assert (existsb (fun e => key_eqb (fst e) k) m = true); [|congruence].
      apply existsb_exists. exists e. split; auto. now apply key_eqb_iff. }
    split; [split|].
    + rewrite map_app. cbn [map fst]. 
      apply (Permutation_NoDup (l := k :: map fst m)); [|constructor; assumption].
      apply Permutation_cons_append.
    + intros k' n s I. apply in_app_iff in I as [I|[I|[]]].
      * destruct (E _ _ _ I) as (E1 & E2 & E3). rewrite occurrences_snoc. cbn [fst snd].
        destruct (key_eqb k' k) eqn:Q.
        -- exfalso. apply key_eqb_iff in Q. subst k'. apply NK. now apply (in_map fst) in I.
        -- rewrite app_nil_r. split; [exact E1|]. split; assumption.
      * assert (k' = k) by congruence. assert (n = 1) by congruence. assert (s = fadd f0 c) by congruence. subst k' n s.
        rewrite occurrences_snoc. cbn [fst snd].
        rewrite (proj2 (key_eqb_iff k k) eq_refl).
        rewrite occurrences_none by (intros I'; apply NK, K, I').
        cbn [app length fold_left]. split; [lia|]. split; reflexivity.
    + intros k' I. rewrite map_app, in_app_iff in I |- *. destruct I as [I|[<-|[]]]; [left; now apply K|right; now left].
    + intros k' I. rewrite map_app, in_app_iff in I |- *. destruct I as [I|I]; [left; now apply B|now right].
Qed.

Lemma count_keys_spec : forall l, counted l (count_keys l) /\ (forall k, In k (map fst (count_keys l)) -> In k (map fst l)).
Proof.
  intros l. unfold count_keys.
  assert (G : forall r l0 m, counted l0 m -> (forall k, In k (map fst m) -> In k (map fst l0)) ->
    counted (l0 ++ r) (fold_left (fun m kc => bump (fst kc) (snd kc) m) r m) /\
    (forall k, In k (map fst (fold_left (fun m kc => bump (fst kc) (snd kc) m) r m)) -> In k (map fst (l0 ++ r)))).
  { intros r. induction r as [|[k c] r IH]; intros l0 m C B; cbn [fold_left fst snd].
    - rewrite app_nil_r. now split.
    - destruct (counted_bump l0 m k c C B) as (C' & B').
      specialize (IH (l0 ++ [(k, c)]) (bump k c m) C' B'). rewrite <- app_assoc in IH. exact IH. }
  apply (G l [] []).
  - split; [constructor|intros k n s []|intros k []].
  - intros k [].
Qed.

(** The last maximum by count. *)
Lemma max_by_nat : forall A (f : A -> nat) l x, max_by (fun a b => f b <? f a) l = Some x -> forall y, In y l -> f y <= f x.
Proof.
  intros A f [|z l] x H; [discriminate|]. cbn [max_by] in H.
  replace x with (fold_left (fun acc y => if f y <? f acc then acc else y) l z) by congruence. clear H x.
  revert z. induction l as [|w l IH]; intros z y I; cbn [fold_left].
  - destruct I as [->|[]]. reflexivity.
  - destruct (f w <? f z) eqn:E.
    + apply Nat.ltb_lt in E. destruct I as [->|[->|I]].
      * apply IH. now left.
      * apply Nat.le_trans with (f z); [lia|]. apply IH. now left.
      * apply IH. now right.
    + apply Nat.ltb_ge in E. destruct I as [->|[->|I]].
      * apply Nat.le_trans with (f w); [lia|]. apply IH. now left.
      * apply IH. now left.
      * apply IH. now right.
Qed.

(** ** Segments *)
Notation seg_at c seg hop i := (slice c (Z.to_nat (Z.of_nat i * hop)) (Z.to_nat (Z.of_nat i * hop + seg))).

Record segmented (hs : nat -> hash_order) (c : list (list f32)) (t : templates) (fps : f32) (seg hop : Z)
  (lo : nat) (segs : list segment_key) (idx : list nat) : Prop := {
  sg_sorted : StronglySorted lt idx;
  sg_lo : Forall (le lo) idx;
  sg_each : Forall2 (fun i s => (Z.of_nat i * hop + seg <= Z.of_nat (length c))%Z /\
      exists r, detect_key (hs i) (seg_at c seg hop i) t = Ok r /\
        s = {| sk_time := fdiv (z2f (Z.of_nat i * hop)) fps; sk_key := kr_key r; sk_conf := kr_conf r |}) idx segs;
  sg_all : forall i, lo <= i -> (Z.of_nat i * hop + seg <= Z.of_nat (length c))%Z ->
      In i idx \/ exists e, detect_key (hs i) (seg_at c seg hop i) t = Err e }.

Lemma segment_loop_spec : forall hs c t fps seg hop, (1 <= seg)%Z -> (1 <= hop)%Z ->
  forall fuel lo segs, length c < fuel + lo -> segment_loop fuel hs c t fps seg hop lo = Ok segs ->
  exists idx, segmented hs c t fps seg hop lo segs idx.
Proof.
  intros hs c t fps seg hop S1 H1 fuel. induction fuel as [|fuel IH]; intros lo segs F H; cbn [segment_loop] in H.
  - assert (segs = []) by congruence. subst segs. exists []. split; [constructor|constructor|constructor|].
    intros i L X. exfalso. nia.
  - cbv zeta in H. destruct (Z.of_nat lo * hop + seg <=? Z.of_nat (length c))%Z eqn:T.
    + apply Z.leb_le in T.
      destruct (detect_key (hs lo) (seg_at c seg hop lo) t) as [r|e|] eqn:D; [| |discriminate].
      * destruct (segment_loop fuel hs c t fps seg hop (S lo)) as [rest|e|] eqn:R; cbn [obind] in H; [|discriminate|discriminate].
        assert (E : segs = {| sk_time := fdiv (z2f (Z.of_nat lo * hop)) fps; sk_key := kr_key r; sk_conf := kr_conf r |} :: rest) by congruence.
        subst segs. clear H. destruct (IH (S lo) rest ltac:(lia) R) as (idx & [A1 A2 A3 A4]).
        exists (lo :: idx). split.
        -- constructor; [exact A1|]. eapply Forall_impl; [|exact A2]. intros a Ha. lia.
        -- constructor; [lia|]. eapply Forall_impl; [|exact A2]. intros a Ha. lia.
        -- constructor; [|exact A3]. split; [exact T|]. exists r. split; [exact D|reflexivity].
        -- intros i L X. destruct (Nat.eq_dec lo i) as [->|Q]; [left; now left|].
           destruct (A4 i ltac:(lia) X) as [Y|Y]; [left; now right|now right].
      * destruct (IH (S lo) segs ltac:(lia) H) as (idx & [A1 A2 A3 A4]).
        exists idx. split; auto.
        -- eapply Forall_impl; [|exact A2]. intros a Ha. lia.
        -- intros i L X. destruct (Nat.eq_dec lo i) as [->|Q]; [right; now exists e|].
           apply A4; [lia|exact X].
    + apply Z.leb_gt in T. assert (segs = []) by congruence. subst segs. exists [].
      split; [constructor|constructor|constructor|].
      intros i L X. exfalso. nia.
Qed.

Lemma segment_loop_ok : forall hs c t fps seg hop, (1 <= seg)%Z -> (0 <= hop)%Z ->
  (forall i, (Z.of_nat i * hop + seg <= Z.of_nat (length c))%Z -> detect_key (hs i) (seg_at c seg hop i) t <> Panic) ->
  forall fuel lo, exists segs, segment_loop fuel hs c t fps seg hop lo = Ok segs.
Proof.
  intros hs c t fps seg hop S1 H1 NP fuel. induction fuel as [|fuel IH]; intros lo; cbn [segment_loop]; [now eexists|].
  cbv zeta. destruct (Z.of_nat lo * hop + seg <=? Z.of_nat (length c))%Z eqn:T; [|now eexists].
  apply Z.leb_le in T. specialize (NP lo T). destruct (IH (S lo)) as (rest & R). rewrite R. cbn [obind].
  destruct (detect_key (hs lo) (seg_at c seg hop lo) t) as [r|e|]; [now eexists|now eexists|congruence].
Qed.

Lemma sorted_full : forall n idx, StronglySorted lt idx -> (forall i, In i idx <-> i < n) -> idx = seq 0 n.
Proof.
  assert (G : forall n lo idx, StronglySorted lt idx -> (forall i, In i idx <-> lo <= i < lo + n) -> idx = seq lo n).
  { induction n as [|n IH]; intros lo idx S H.
    - destruct idx as [|a idx]; auto. destruct (proj1 (H a) (or_introl eq_refl)). lia.
    - destruct idx as [|a idx].
      + destruct (proj2 (H lo) ltac:(lia)).
      + inversion S as [|? ? S' F]; subst. rewrite Forall_forall in F.
        assert (a = lo).
        { destruct (proj2 (H lo) ltac:(lia)) as [Q|Q]; auto. apply F in Q.
          pose proof (proj1 (H a) (or_introl eq_refl)). lia. }
        subst a. cbn [seq]. f_equal. apply IH; auto. intros i. split.
        * intros I. pose proof (F _ I). pose proof (proj1 (H i) (or_intror I)). lia.
        * intros L. destruct (proj2 (H i) ltac:(lia)) as [Q|Q]; [lia|exact Q]. }
  intros n idx S H. apply G; auto. intros i. rewrite H. lia.
Qed.

(** ** Changes *)
Lemma changes_in : forall l p x, In x (changes_from p l) -> exists q a b r, p :: l = q ++ a :: b :: r /\
  sk_key a <> sk_key b /\ x = {| kc_time := sk_time b; kc_from := sk_key a; kc_to := sk_key b;
    kc_conf := fdiv (fadd (sk_conf a) (sk_conf b)) (z2f 2) |} /\
  fgt (fdiv (fadd (sk_conf a) (sk_conf b)) (z2f 2)) change_threshold = true.
Proof.
  intros l. induction l as [|c l IH]; intros p x I; cbn [changes_from] in I; [destruct I|].
  cbv zeta in I.
  assert (R : In x (changes_from c l) -> exists q a b r, p :: c :: l = q ++ a :: b :: r /\
    sk_key a <> sk_key b /\ x = {| kc_time := sk_time b; kc_from := sk_key a; kc_to := sk_key b;
      kc_conf := fdiv (fadd (sk_conf a) (sk_conf b)) (z2f 2) |} /\
    fgt (fdiv (fadd (sk_conf a) (sk_conf b)) (z2f 2)) change_threshold = true).
  { intros J. destruct (IH c x J) as (q & a & b & r & E & H). exists (p :: q), a, b, r. split; [cbn [app]; congruence|exact H]. }
  destruct (key_eqb (sk_key p) (sk_key c)) eqn:K; [now apply R|].
  destruct (fgt _ change_threshold) eqn:G in I; [|now apply R].
  destruct I as [<-|I]; [|now apply R].
  exists [], p, c, l. split; [reflexivity|]. split; [|split; [reflexivity|exact G]].
  intros Q. apply key_eqb_iff in Q. congruence.
Qed.

(** Every adjacent pair of different keys with enough confidence is reported. *)
Lemma changes_complete : forall l p q a b r, p :: l = q ++ a :: b :: r -> sk_key a <> sk_key b ->
  fgt (fdiv (fadd (sk_conf a) (sk_conf b)) (z2f 2)) change_threshold = true ->
  In {| kc_time := sk_time b; kc_from := sk_key a; kc_to := sk_key b;
        kc_conf := fdiv (fadd (sk_conf a) (sk_conf b)) (z2f 2) |} (changes_from p l).
Proof.
  intros l. induction l as [|c l IH]; intros p q a b r E K G.
  - destruct q as [|? [|? q]]; discriminate.
  - cbn [changes_from]. cbv zeta. destruct q as [|z q].
    + assert (p = a) by (cbn [app] in E; congruence). assert (c = b) by (cbn [app] in E; congruence). subst p c.
      destruct (key_eqb (sk_key a) (sk_key b)) eqn:Q; [apply key_eqb_iff in Q; contradiction|]. rewrite G. now left.
    + assert (E' : c :: l = q ++ a :: b :: r) by (cbn [app] in E; congruence).
      pose proof (IH c q a b r E' K G) as J.
      destruct (key_eqb (sk_key p) (sk_key c)); auto. destruct (fgt (fdiv (fadd (sk_conf p) (sk_conf c)) (z2f 2)) change_threshold); auto. now right.
Qed.

Lemma changes_times : forall l p, StronglySorted (fun a b => fle (sk_time a) (sk_time b) = true) (p :: l) ->
  StronglySorted (fun a b => fle (kc_time a) (kc_time b) = true) (changes_from p l) /\
  length (changes_from p l) <= length l /\
  Forall (fun x => fle (sk_time p) (kc_time x) = true) (changes_from p l).
Proof.
  intros l. induction l as [|c l IH]; intros p S; cbn [changes_from length].
  - split; [constructor|]. split; [lia|constructor].
  - inversion S as [|? ? S' F]; subst. destruct (IH c S') as (A & B & C). cbv zeta.
    assert (C' : Forall (fun x => fle (sk_time p) (kc_time x) = true) (changes_from c l)).
    { eapply Forall_impl; [|exact C]. intros x X. exact (fle_trans _ _ _ (Forall_inv F) X). }
    destruct (key_eqb (sk_key p) (sk_key c)); [split; [exact A|split; [lia|exact C']]|].
    destruct (fgt (fdiv (fadd (sk_conf p) (sk_conf c)) (z2f 2)) change_threshold); [|split; [exact A|split; [lia|exact C']]].
    split; [|split].
    + constructor; auto.
    + cbn [length]. lia.
    + constructor; auto. cbn [kc_time]. exact (Forall_inv F).
Qed.
