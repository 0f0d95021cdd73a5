(** Proofs about Consensus.v. *)
From Coq Require Import ZArith Sorted Relations Relation_Operators Lra.
From Flocq Require Import IEEE754.BinarySingleNaN.
From Verif Require Import Rust F32 F32Facts ListFacts Sorting SortingFacts Consensus ConsensusSpec.
Local Open Scope Z_scope.

Definition rep (o : onset) : report := (os_sample o, os_method o).

Lemma collect_reported : forall c w, map rep (collect_onsets c w) = reported c.
Proof.
  intros c (((w0, w1), w2), w3). unfold collect_onsets, reported, mk_onsets.
  rewrite !map_app, !map_map. reflexivity.
Qed.

(** ** Clustering *)
Lemma add_onset_cases : forall tol o cs,
  (exists l c r, cs = l ++ c :: r /\ (forall d x, In d l -> In x d -> near tol o x = false) /\
     (exists x, In x c /\ near tol o x = true) /\ add_onset tol o cs = l ++ (c ++ [o]) :: r) \/
  ((forall d x, In d cs -> In x d -> near tol o x = false) /\ add_onset tol o cs = cs ++ [[o]]).
Proof.
  intros tol o. induction cs as [|c cs IH]; simpl.
  - right. split; auto. intros d x [].
  - destruct (existsb (near tol o) c) eqn:E.
    + left. exists [], c, cs. repeat split; auto. intros d x [].
      apply existsb_exists in E. exact E.
    + assert (NC : forall x, In x c -> near tol o x = false).
      { intros x Hx. destruct (near tol o x) eqn:X; auto.
        assert (existsb (near tol o) c = true) by (apply existsb_exists; eauto). congruence. }
      destruct IH as [(l & c' & r & -> & H1 & H2 & H3)|[H1 H2]].
      * left. exists (c :: l), c', r. simpl. rewrite H3. repeat split; auto.
        intros d x [<-|Hd]; eauto.
      * right. rewrite H2. split; auto. intros d x [<-|Hd]; eauto.
Qed.

Lemma add_onset_perm : forall tol o cs, Permutation (concat (add_onset tol o cs)) (o :: concat cs).
Proof.
  intros tol o cs. destruct (add_onset_cases tol o cs) as [(l & c & r & -> & _ & _ & ->)|[_ ->]];
    rewrite !concat_app; simpl.
  - rewrite <- app_assoc. simpl.
    apply Permutation_sym. eapply perm_trans; [apply Permutation_middle|].
    apply Permutation_app_head. eapply perm_trans; [apply Permutation_middle|]. auto.
  - apply Permutation_sym. apply Permutation_cons_append.
Qed.

Lemma add_onset_nonempty : forall tol o cs, Forall (fun c => c <> []) cs ->
  Forall (fun c => c <> []) (add_onset tol o cs).
Proof.
  intros tol o cs H. destruct (add_onset_cases tol o cs) as [(l & c & r & -> & _ & _ & ->)|[_ ->]].
  - apply Forall_app in H. destruct H as [H1 H2]. inversion H2; subst.
    apply Forall_app. split; auto. constructor; auto. intros E. apply app_eq_nil in E. now destruct E.
  - apply Forall_app. split; auto. constructor; auto. discriminate.
Qed.

Lemma cluster_gen : forall tol l cs, 
  Permutation (concat (fold_left (fun cs o => add_onset tol o cs) l cs)) (l ++ concat cs) /\
  (Forall (fun c => c <> []) cs -> Forall (fun c => c <> []) (fold_left (fun cs o => add_onset tol o cs) l cs)).
Proof.
  intros tol. induction l as [|o l IH]; intros cs; simpl; auto.
  destruct (IH (add_onset tol o cs)) as [H1 H2]. split.
  - eapply perm_trans; [exact H1|]. eapply perm_trans; [apply Permutation_app_head, add_onset_perm|].
    apply Permutation_sym, Permutation_middle.
  - intros H. apply H2. now apply add_onset_nonempty.
Qed.

Lemma cluster_perm : forall tol l, Permutation (concat (cluster_onsets tol l)) l.
Proof.
  intros. unfold cluster_onsets. destruct (cluster_gen tol l []) as [H _]. simpl in H.
  now rewrite app_nil_r in H.
Qed.
Lemma cluster_nonempty : forall tol l, Forall (fun c => c <> []) (cluster_onsets tol l).
Proof. intros. apply cluster_gen. constructor. Qed.

Definition small (o : onset) : Prop := 0 <= os_sample o < 2147483648.

Lemma as_i32_id : forall x, -2147483648 <= x < 2147483648 -> as_i32 x = x.
Proof. intros x H. unfold as_i32. rewrite Z.mod_small; lia. Qed.

Lemma near_small : forall tol a b, small a -> small b ->
  near tol a b = (Z.abs (os_sample a - os_sample b) <=? tol).
Proof.
  intros tol a b Ha Hb. unfold small in *. unfold near. rewrite (as_i32_id (os_sample a)), (as_i32_id (os_sample b)) by lia.
  rewrite as_i32_id by lia. reflexivity.
Qed.

(** Separation and chaining at the level of onsets. *)
Definition sep (tol : Z) (p q : list onset) : Prop :=
  forall a b, In a p -> In b q -> tol < Z.abs (os_sample a - os_sample b).
Definition step (tol : Z) (p : list onset) (x y : onset) : Prop :=
  In x p /\ In y p /\ Z.abs (os_sample x - os_sample y) <= tol.
Definition chn (tol : Z) (p : list onset) : Prop :=
  forall a b, In a p -> In b p -> clos_refl_trans _ (step tol p) a b.

Lemma rt_mono : forall A (R Q : A -> A -> Prop) x y, (forall a b, R a b -> Q a b) ->
  clos_refl_trans _ R x y -> clos_refl_trans _ Q x y.
Proof.
  induction 2. apply rt_step; auto. apply rt_refl. eapply rt_trans; eauto.
Qed.

Lemma chn_add : forall tol c o x, 0 <= tol -> chn tol c -> In x c ->
  Z.abs (os_sample o - os_sample x) <= tol -> chn tol (c ++ [o]).
Proof.
  intros tol c o x T H Hx D.
  assert (S1 : step tol (c ++ [o]) o x) by (repeat split; auto; apply in_or_app; simpl; auto).
  assert (S2 : step tol (c ++ [o]) x o).
  { repeat split; try (apply in_or_app; simpl; auto). lia. }
  assert (M : forall a b, clos_refl_trans _ (step tol c) a b -> clos_refl_trans _ (step tol (c ++ [o])) a b).
  { intros a b. apply rt_mono. intros u v (U & V & W). repeat split; auto; apply in_or_app; auto. }
  intros a b Ha Hb. apply in_app_or in Ha. apply in_app_or in Hb.
  destruct Ha as [Ha|[<-|[]]], Hb as [Hb|[<-|[]]].
  - apply M; auto.
  - eapply rt_trans; [apply M, (H a x); auto|apply rt_step; auto].
  - eapply rt_trans; [apply rt_step; exact S1|apply M, (H x b); auto].
  - apply rt_refl.
Qed.

Lemma add_onset_inv : forall tol o cs, 0 <= tol -> small o -> Forall small (concat cs) ->
  (forall x, In x (concat cs) -> os_sample x <= os_sample o) ->
  StronglySorted (sep tol) cs -> Forall (chn tol) cs ->
  StronglySorted (sep tol) (add_onset tol o cs) /\ Forall (chn tol) (add_onset tol o cs).
Proof.
  intros tol o cs T So Sc Le S C. rewrite Forall_forall in Sc.
  destruct (add_onset_cases tol o cs) as [(l & c & r & -> & H1 & (x & Hx & Nx) & ->)|[H1 ->]].
  - assert (INC : forall d y, In d (l ++ c :: r) -> In y d -> small y /\ os_sample y <= os_sample o).
    { intros d y Hd Hy. assert (In y (concat (l ++ c :: r))) by (apply in_concat; eauto). auto. }
    apply StronglySorted_app_inv in S. destruct S as (S1 & S2 & S3).
    inversion S2 as [|? ? S4 F4]; subst. rewrite Forall_forall in F4.
    apply Forall_app in C. destruct C as [C1 C2]. inversion C2 as [|? ? Cc Cr]; subst.
    destruct (INC c x) as [Sx Lx]; auto. { apply in_or_app; simpl; auto. }
    rewrite near_small in Nx by auto. apply Z.leb_le in Nx.
    split.
    + apply StronglySorted_app; auto.
      * constructor; auto. rewrite Forall_forall. intros d Hd a b Ha Hb.
        apply in_app_or in Ha. destruct Ha as [Ha|[<-|[]]]. now apply (F4 d Hd).
        pose proof (F4 d Hd x b Hx Hb) as G.
        destruct (INC d b) as [Sb Lb]; auto. { apply in_or_app; simpl; auto. }
        unfold small in *. destruct (Z_lt_le_dec tol (Z.abs (os_sample o - os_sample b))); auto. lia.
      * intros d e Hd [<-|He].
        -- intros a b Ha Hb. apply in_app_or in Hb. destruct Hb as [Hb|[<-|[]]].
           ++ apply (S3 d c); simpl; auto.
           ++ pose proof (S3 d c Hd (or_introl eq_refl) a x Ha Hx) as G.
              destruct (INC d a) as [Sa La]; auto. { apply in_or_app; simpl; auto. }
              pose proof (H1 d a Hd Ha) as Z1. rewrite near_small in Z1 by auto. apply Z.leb_gt in Z1. lia.
        -- apply S3; simpl; auto.
    + apply Forall_app. split; auto. constructor; auto. apply chn_add with x; auto.
  - split.
    + apply StronglySorted_app; auto. repeat constructor.
      intros d e Hd [<-|[]] a b Ha [<-|[]].
      assert (small a) by (apply Sc, in_concat; eauto).
      pose proof (H1 d a Hd Ha) as Z1. rewrite near_small in Z1 by auto. apply Z.leb_gt in Z1. lia.
    + apply Forall_app. split; auto. constructor; auto.
      intros a b [<-|[]] [<-|[]]. apply rt_refl.
Qed.

Lemma cluster_inv_gen : forall tol l cs, 0 <= tol -> Forall small (concat cs ++ l) ->
  StronglySorted (fun a b => os_sample a <= os_sample b) l ->
  (forall x y, In x (concat cs) -> In y l -> os_sample x <= os_sample y) ->
  StronglySorted (sep tol) cs -> Forall (chn tol) cs ->
  let r := fold_left (fun cs o => add_onset tol o cs) l cs in
  StronglySorted (sep tol) r /\ Forall (chn tol) r.
Proof.
  intros tol. induction l as [|o l IH]; intros cs T Sm Sl Le S C r; subst r; simpl; auto.
  inversion Sl as [|? ? Sl' Fo]; subst. rewrite Forall_forall in Fo.
  apply Forall_app in Sm. destruct Sm as [Sc Sol]. inversion Sol as [|? ? So Sml]; subst.
  destruct (add_onset_inv tol o cs) as [S' C']; auto.
  { intros x Hx. apply Le; simpl; auto. }
  pose proof (add_onset_perm tol o cs) as P.
  apply IH; auto.
  - apply Forall_app. split; auto. eapply Permutation_Forall; [apply Permutation_sym, P|]. constructor; auto.
  - intros x y Hx Hy. eapply Permutation_in in Hx; [|exact P]. destruct Hx as [<-|Hx]; auto.
    apply Le; simpl; auto.
Qed.

Lemma tol_nonneg : forall ms sr, 0 <= tolerance_samples ms sr.
Proof. intros. apply f2usize_bounds. Qed.

Lemma sorted_onsets : forall l,
  StronglySorted (fun a b => os_sample a <= os_sample b)
    (sort_by (fun a b => os_sample a <=? os_sample b) l).
Proof.
  intros l. eapply StronglySorted_weaken; [|apply sort_by_sorted with (P := fun _ => True)].
  - intros x y _ _ H. now apply Z.leb_le.
  - intros x y _ _. rewrite !Z.leb_le. lia.
  - intros x y z _ _ _. rewrite !Z.leb_le. lia.
  - now apply Forall_forall.
Qed.

Lemma cluster_inv : forall tol l, 0 <= tol -> Forall small l ->
  let cs := cluster_onsets tol (sort_by (fun a b => os_sample a <=? os_sample b) l) in
  StronglySorted (sep tol) cs /\ Forall (chn tol) cs.
Proof.
  intros tol l T H. apply cluster_inv_gen; auto.
  - simpl. now apply sort_by_Forall.
  - apply sorted_onsets.
  - intros x y [].
  - constructor.
Qed.

(** ** The candidate of a cluster *)
Lemma fold_add_right : forall l a, fold_left Z.add l a = a + fold_right Z.add 0 l.
Proof. induction l as [|x l IH]; intros a; simpl. lia. rewrite IH. lia. Qed.

Lemma sum_lo : forall (l : list report) lo, (forall r, In r l -> lo <= fst r) ->
  lo * Z.of_nat (length l) <= fold_right (fun r a => fst r + a) 0 l.
Proof.
  induction l as [|x l IH]; intros lo H1. { simpl. lia. }
  cbn [length fold_right]. rewrite Nat2Z.inj_succ.
  specialize (IH lo ltac:(intros; apply H1; simpl; auto)).
  specialize (H1 x ltac:(simpl; auto)). lia.
Qed.
Lemma sum_hi : forall (l : list report) hi, (forall r, In r l -> fst r <= hi) ->
  fold_right (fun r a => fst r + a) 0 l <= hi * Z.of_nat (length l).
Proof.
  induction l as [|x l IH]; intros lo H1. { simpl. lia. }
  cbn [length fold_right]. rewrite Nat2Z.inj_succ.
  specialize (IH lo ltac:(intros; apply H1; simpl; auto)).
  specialize (H1 x ltac:(simpl; auto)). lia.
Qed.

Lemma sum_samples : forall c, fold_right Z.add 0 (map os_sample c) =
  fold_right (fun r a => fst r + a) 0 (map rep c).
Proof. induction c as [|o c IH]; simpl; auto. now rewrite IH. Qed.

(** Vote counting. *)
Lemma voted_gen : forall c v m, length v = 4%nat -> (m < 4)%nat ->
  nth m (fold_left (fun v o => set_nth v (os_method o)) c v) false =
  nth m v false || existsb (fun o => Nat.eqb (os_method o) m) c.
Proof.
  assert (SL : forall v i, length (set_nth v i) = length v).
  { induction v as [|b v IH]; intros [|i]; simpl; auto. }
  assert (SN : forall v i m, (m < length v)%nat -> nth m (set_nth v i) false = nth m v false || Nat.eqb i m).
  { induction v as [|b v IH]; intros i m H; simpl in H. lia.
    destruct i as [|i], m as [|m]; simpl; try (now rewrite orb_comm); try (now rewrite orb_false_r).
    apply IH. lia. }
  induction c as [|o c IH]; intros v m H M; simpl. now rewrite orb_false_r.
  rewrite IH by (rewrite ?SL; auto). rewrite SN by lia. now rewrite orb_assoc.
Qed.

Lemma count4 : forall v, length v = 4%nat ->
  length (filter (fun b : bool => b) v) = length (filter (fun m => nth m v false) [0; 1; 2; 3]%nat).
Proof.
  intros [|a [|b [|c [|d [|e v]]]]] H; try discriminate.
  simpl. destruct a, b, c, d; reflexivity.
Qed.

Lemma voted_length : forall c v, length v = 4%nat ->
  length (fold_left (fun v o => set_nth v (os_method o)) c v) = 4%nat.
Proof.
  assert (SL : forall v i, length (set_nth v i) = length v).
  { induction v as [|b v IH]; intros [|i]; simpl; auto. }
  induction c as [|o c IH]; intros v H; simpl; auto. apply IH. now rewrite SL.
Qed.

Lemma voted_distinct : forall c, Forall (fun o => (os_method o < 4)%nat) c ->
  length (filter (fun b => b) (voted_methods c)) = distinct_methods (map rep c).
Proof.
  intros c H. unfold voted_methods. rewrite count4 by now apply voted_length.
  unfold distinct_methods. rewrite map_map. unfold rep. cbn [snd].
  apply Permutation_length. apply NoDup_Permutation.
  - apply NoDup_filter. repeat constructor; simpl; intuition discriminate.
  - apply NoDup_nodup.
  - intros m. rewrite filter_In, nodup_In, in_map_iff. split.
    + intros [H1 H2]. assert (M : (m < 4)%nat) by (simpl in H1; intuition lia).
      rewrite voted_gen in H2 by auto. 
      assert (E : existsb (fun o => Nat.eqb (os_method o) m) c = true).
      { destruct m as [|[|[|[|]]]]; simpl in H2; auto; lia. }
      apply existsb_exists in E. destruct E as (o & Ho & E). apply Nat.eqb_eq in E. eauto.
    + intros (o & <- & Ho). rewrite Forall_forall in H. specialize (H o Ho). split.
      * simpl. destruct (os_method o) as [|[|[|[|]]]]; auto; lia.
      * rewrite voted_gen by auto. apply orb_true_iff. right. apply existsb_exists.
        exists o. split; auto. apply Nat.eqb_refl.
Qed.

Lemma candidate_represents : forall w sr c cd, c <> [] ->
  Forall (fun o => (os_method o < 4)%nat) c ->
  cluster_candidate w sr c = Ok cd -> represents cd (map rep c).
Proof.
  intros (((w0, w1), w2), w3) sr c cd NE M H. unfold cluster_candidate in H.
  destruct (usize_max <? _); [discriminate|]. inversion H; subst cd; clear H. simpl.
  assert (P : (0 < Z.of_nat (length c))). { destruct c; [congruence|simpl; lia]. }
  unfold represents; cbn [cd_time_samples cd_voted_by].
  rewrite fold_add_right, Z.add_0_l, sum_samples, map_length.
  repeat split.
  - destruct c; [congruence|discriminate].
  - intros lo H. apply Z.div_le_lower_bound; auto.
    pose proof (sum_lo (map rep c) lo H) as L. rewrite map_length in L. lia.
  - intros hi H. apply Z.div_le_upper_bound; auto.
    pose proof (sum_hi (map rep c) hi H) as L. rewrite map_length in L. lia.
  - now apply voted_distinct.
Qed.

Lemma candidate_weighs : forall w sr c cd,
  Forall (fun o => os_weight o = weight_of w (os_method o)) c ->
  cluster_candidate w sr c = Ok cd -> weighs w sr cd (map rep c).
Proof.
  intros (((w0, w1), w2), w3) sr c cd M H. unfold cluster_candidate in H.
  destruct (usize_max <? _); [discriminate|]. inversion H; subst cd; clear H.
  unfold weighs; cbn [cd_confidence cd_time_seconds cd_time_samples]. split; auto.
  assert (E : forall a, fold_left (fun a o => fadd a (os_weight o)) c a =
              fold_left fadd (map (fun r => weight_of (w0, w1, w2, w3) (snd r)) (map rep c)) a).
  { induction c as [|o c IH]; intros a; [reflexivity|]. inversion M; subst. cbn [map fold_left].
    rewrite IH by auto. unfold rep at 2. cbn [snd]. now rewrite H1. }
  rewrite E. reflexivity.
Qed.

Lemma collect_weights : forall c w,
  Forall (fun o => os_weight o = weight_of w (os_method o)) (collect_onsets c w).
Proof.
  intros c (((w0, w1), w2), w3). unfold collect_onsets, mk_onsets.
  rewrite !Forall_app. repeat split; rewrite Forall_forall; intros o H; apply in_map_iff in H;
    destruct H as (s & <- & _); reflexivity.
Qed.

(** ** vote_onsets *)
Lemma vote_ok_inv : forall c w ms sr cands, vote_onsets c w ms sr = Ok cands ->
  cands = [] /\ collect_onsets c w = [] \/
  exists cs cds, cs = cluster_onsets (tolerance_samples ms sr)
                 (sort_by (fun a b => os_sample a <=? os_sample b) (collect_onsets c w)) /\
    map (cluster_candidate w sr) cs = map Ok cds /\ cands = sort_desc cd_confidence cds.
Proof.
  intros c (((w0, w1), w2), w3) ms sr cands H. unfold vote_onsets in H.
  destruct (sr =? 0); [discriminate|]. destruct (ms =? 0); [discriminate|].
  match type of H with (if ?b then _ else _) = _ => destruct b; [discriminate|] end.
  destruct (collect_onsets c (w0, w1, w2, w3)) as [|a l] eqn:E.
  - inversion H; auto.
  - right. rewrite <- E in *.
    destruct (oseq _) as [cds| |] eqn:O; simpl in H; try discriminate.
    inversion H; subst. apply oseq_Ok in O.
    eexists; exists cds. split; [reflexivity|]. split; auto.
Qed.

Lemma method_lt : forall c w, Forall (fun o => (os_method o < 4)%nat) (collect_onsets c w).
Proof.
  intros c (((w0, w1), w2), w3). unfold collect_onsets, mk_onsets. 
  rewrite !Forall_app. repeat split; rewrite Forall_forall; intros o H; apply in_map_iff in H;
    destruct H as (s & <- & _); simpl; lia.
Qed.

Lemma forall2_map_ok : forall A B C (f : A -> outcome B) (R : B -> C -> Prop) (g : A -> C) l r,
  (forall a b, In a l -> f a = Ok b -> R b (g a)) -> map f l = map Ok r ->
  Forall2 R r (map g l).
Proof.
  induction l as [|a l IH]; intros [|b r] H E; simpl in *; try discriminate; constructor.
  - inversion E. apply H; auto.
  - inversion E. apply IH; auto.
Qed.

Lemma FOP_of_SS : forall A (R : A -> A -> Prop) l, StronglySorted R l -> ForallOrdPairs R l.
Proof. induction 1; constructor; auto. Qed.

Theorem vote_partition : forall c w ms sr cands, vote_onsets c w ms sr = Ok cands ->
  exists parts cands', Permutation cands cands' /\ Permutation (concat parts) (reported c) /\
    Forall2 represents cands' parts /\ Forall2 (weighs w sr) cands' parts /\
    ((forall r, In r (reported c) -> 0 <= fst r < 2147483648) ->
       ForallOrdPairs (separated (tolerance_samples ms sr)) parts /\
       Forall (chained (tolerance_samples ms sr)) parts).
Proof.
  intros c w ms sr cands H. destruct (vote_ok_inv _ _ _ _ _ H) as [[-> E]|(cs & cds & Ecs & Em & ->)].
  - exists [], []. split; auto. assert (R : reported c = []) by (rewrite <- (collect_reported c w), E; auto).
    rewrite R. split; auto. split. constructor. split. constructor. intros _. split; constructor.
  - set (l := sort_by _ (collect_onsets c w)) in *. set (tol := tolerance_samples ms sr) in *.
    assert (PL : Permutation (concat cs) (collect_onsets c w)).
    { subst cs. eapply perm_trans; [apply cluster_perm|]. apply Permutation_sym, sort_by_perm. }
    assert (ML : forall d o, In d cs -> In o d -> (os_method o < 4)%nat).
    { intros d o Hd Ho. pose proof (method_lt c w) as M. rewrite Forall_forall in M. apply M.
      eapply Permutation_in; [exact PL|]. apply in_concat; eauto. }
    exists (map (map rep) cs), cds. split. apply Permutation_sym, sort_desc_perm. split.
    + rewrite <- concat_map. rewrite <- (collect_reported c w). now apply Permutation_map.
    + split.
      * apply (forall2_map_ok _ _ _ (cluster_candidate w sr)); auto.
        intros d cd Hd Hc. apply candidate_represents with w sr; auto.
        -- pose proof (cluster_nonempty tol l) as NE. rewrite <- Ecs in NE. rewrite Forall_forall in NE. auto.
        -- rewrite Forall_forall. eauto.
      * split.
        { apply (forall2_map_ok _ _ _ (cluster_candidate w sr)); auto.
          intros d cd Hd Hc. apply candidate_weighs; auto.
          rewrite Forall_forall. intros o Ho. pose proof (collect_weights c w) as M.
          rewrite Forall_forall in M. apply M. eapply Permutation_in; [exact PL|]. apply in_concat; eauto. }
        intros SM.
        assert (SMO : Forall small (collect_onsets c w)).
        { rewrite Forall_forall. intros o Ho. apply (SM (rep o)). rewrite <- (collect_reported c w).
          now apply in_map. }
        destruct (cluster_inv tol _ (tol_nonneg ms sr) SMO) as [S C]. fold l in S, C. rewrite <- Ecs in S, C.
        split.
        -- apply FOP_of_SS. apply StronglySorted_map with (R := sep tol); auto.
           intros p q Hpq a b Ha Hb. apply in_map_iff in Ha. apply in_map_iff in Hb.
           destruct Ha as (x & <- & Hx). destruct Hb as (y & <- & Hy). apply (Hpq x y); auto.
        -- rewrite Forall_forall in *. intros p Hp. apply in_map_iff in Hp. destruct Hp as (d & <- & Hd).
           intros a b Ha Hb. apply in_map_iff in Ha. apply in_map_iff in Hb.
           destruct Ha as (x & <- & Hx). destruct Hb as (y & <- & Hy).
           specialize (C d Hd x y Hx Hy). clear - C. induction C as [x y (U & V & W)| |].
           ++ apply rt_step. repeat split; auto; now apply in_map.
           ++ apply rt_refl.
           ++ eapply rt_trans; eauto.
Qed.

(** Totality: no overflow for fewer than 2^33 onsets below 2^31. *)
Theorem vote_total : forall c w0 w1 w2 w3 ms sr, sr <> 0 -> ms <> 0 ->
  flt w0 f0 = false -> flt w1 f0 = false -> flt w2 f0 = false -> flt w3 f0 = false ->
  (forall r, In r (reported c) -> 0 <= fst r < 2147483648) ->
  Z.of_nat (length (reported c)) < 8589934592 ->
  exists cands, vote_onsets c (w0, w1, w2, w3) ms sr = Ok cands.
Proof.
  intros c w0 w1 w2 w3 ms sr H1 H2 W0 W1 W2 W3 SM LN. unfold vote_onsets.
  apply Z.eqb_neq in H1. apply Z.eqb_neq in H2. rewrite H1, H2, W0, W1, W2, W3. simpl orb. cbn iota.
  destruct (collect_onsets c (w0, w1, w2, w3)) as [|a l] eqn:E; [eauto|]. rewrite <- E in *.
  set (cs := cluster_onsets _ _).
  assert (PL : Permutation (concat cs) (collect_onsets c (w0, w1, w2, w3))).
  { eapply perm_trans; [apply cluster_perm|]. apply Permutation_sym, sort_by_perm. }
  assert (OK : forall d, In d cs -> exists cd, cluster_candidate (w0, w1, w2, w3) sr d = Ok cd).
  { intros d Hd. unfold cluster_candidate.
    destruct (Z.ltb_spec usize_max (fold_left Z.add (map os_sample d) 0)) as [L|L]; [|eauto].
    exfalso. rewrite fold_add_right, Z.add_0_l, sum_samples in L.
    assert (B : fold_right (fun r a => fst r + a) 0 (map rep d) <= 2147483647 * Z.of_nat (length (map rep d))).
    { apply sum_hi. intros r Hr. apply in_map_iff in Hr. destruct Hr as (o & <- & Ho).
      assert (In (rep o) (reported c)).
      { rewrite <- (collect_reported c (w0, w1, w2, w3)). apply in_map.
        eapply Permutation_in; [exact PL|]. apply in_concat; eauto. }
      apply SM in H. lia. }
    assert (LL : (length d <= length (reported c))%nat).
    { rewrite <- (collect_reported c (w0, w1, w2, w3)), map_length. rewrite <- (Permutation_length PL).
      clearbody cs. clear - Hd. induction cs as [|e cs IH]; [destruct Hd|].
      destruct Hd as [->|Hd]; simpl; rewrite app_length. lia. specialize (IH Hd). lia. }
    rewrite map_length in B. unfold usize_max in L. lia. }
  assert (S : exists cds, oseq (map (cluster_candidate (w0, w1, w2, w3) sr) cs) = Ok cds).
  { apply oseq_map_total. auto. }
  destruct S as [cds ->]. simpl. eauto.
Qed.

(** ** Confidences *)
Lemma weight_nneg : forall c w0 w1 w2 w3, nneg w0 -> nneg w1 -> nneg w2 -> nneg w3 ->
  Forall (fun o => nneg (os_weight o)) (collect_onsets c (w0, w1, w2, w3)).
Proof.
  intros c w0 w1 w2 w3 H0 H1 H2 H3. unfold collect_onsets, mk_onsets.
  rewrite !Forall_app. repeat split; rewrite Forall_forall; intros o H; apply in_map_iff in H;
    destruct H as (s & <- & _); simpl; auto.
Qed.

Lemma total_nneg : forall c a, nneg a -> Forall (fun o => nneg (os_weight o)) c ->
  nneg (fold_left (fun a o => fadd a (os_weight o)) c a).
Proof.
  induction c as [|o c IH]; intros a Ha H; simpl; auto. inversion H; subst.
  apply IH; auto. now apply fadd_nneg.
Qed.

Lemma candidate_conf : forall w0 w1 w2 w3 sr d cd, fin (fsum [w0; w1; w2; w3]) ->
  Forall (fun o => nneg (os_weight o)) d ->
  cluster_candidate (w0, w1, w2, w3) sr d = Ok cd -> in01 (cd_confidence cd).
Proof.
  intros w0 w1 w2 w3 sr d cd FM H E. unfold cluster_candidate in E.
  destruct (usize_max <? _); [discriminate|]. inversion E; subst cd; clear E. simpl.
  change (fold_left fadd [w0; w1; w2; w3] f0) with (fsum [w0; w1; w2; w3]).
  destruct (fgt (fsum [w0; w1; w2; w3]) f0) eqn:G; [|apply in01_0].
  apply in01_clamp.
  pose proof (total_nneg d f0 eq_refl H) as T. set (t := fold_left _ d f0) in *.
  assert (PM : pos (fsum [w0; w1; w2; w3])) by exact G.
  destruct (nneg_cases t T) as [[F _]|I].
  - pose proof (B2R_pos _ FM PM). apply fdiv_fx; auto. lra.
  - rewrite I. destruct (fsum [w0; w1; w2; w3]) as [s|s| |s mm e B]; try discriminate; reflexivity.
Qed.

Theorem vote_confidence : forall c w0 w1 w2 w3 ms sr cands,
  nneg w0 -> nneg w1 -> nneg w2 -> nneg w3 -> fin (fsum [w0; w1; w2; w3]) ->
  vote_onsets c (w0, w1, w2, w3) ms sr = Ok cands ->
  Forall (fun cd => in01 (cd_confidence cd)) cands /\
  StronglySorted (fun a b => fle (cd_confidence b) (cd_confidence a) = true) cands.
Proof.
  intros c w0 w1 w2 w3 ms sr cands H0 H1 H2 H3 FM H.
  destruct (vote_ok_inv _ _ _ _ _ H) as [[-> _]|(cs & cds & Ecs & Em & ->)].
  - split; constructor.
  - assert (A : Forall (fun cd => in01 (cd_confidence cd)) cds).
    { rewrite Forall_forall. intros cd Hcd.
      assert (I : In (Ok cd) (map (cluster_candidate (w0, w1, w2, w3) sr) cs)).
      { rewrite Em. now apply in_map. }
      apply in_map_iff in I. destruct I as (d & E & Hd).
      apply candidate_conf with w0 w1 w2 w3 sr d; auto.
      pose proof (weight_nneg c w0 w1 w2 w3 H0 H1 H2 H3) as W. rewrite Forall_forall in *.
      intros o Ho. apply W. eapply Permutation_in.
      { eapply perm_trans; [apply cluster_perm|apply Permutation_sym, sort_by_perm]. }
      rewrite <- Ecs. apply in_concat; eauto. }
    split.
    + eapply Permutation_Forall; [apply sort_desc_perm|auto].
    + apply sort_desc_sorted. eapply Forall_impl; [|exact A].
      intros cd [X _]. now apply fle_nn in X.
Qed.
