(** Proofs about PeakPicking.v. *)
From Coq Require Import ZArith Reals Lra Lia Sorted.
From Flocq Require Import IEEE754.BinarySingleNaN.
From Verif Require Import Rust F32 F32Facts ListFacts Sorting SortingFacts PeakPicking PeakPickingSpec.

(** ** The running maximum *)
Lemma fmax_nn_l : forall x y, nn x -> nn (fmax x y). Proof. intros; apply fmax_nn; auto. Qed.

Lemma fold_fmax_spec : forall s a, nn a ->
  let m := fold_left fmax s a in
  nn m /\ fle a m = true /\ (m = a \/ In m s) /\ (forall x, In x s -> nn x -> fle x m = true).
Proof.
  induction s as [|y s IH]; intros a Na m; subst m; cbn [fold_left].
  - split; [auto|split; [now apply fle_refl|split; [auto|intros x []]]].
  - destruct (IH (fmax a y) (fmax_nn_l _ _ Na)) as (N & L & E & B). set (m := fold_left fmax s (fmax a y)) in *.
    split; auto. split. eapply fle_trans; [|exact L]. now apply fmax_ge_l.
    split.
    + destruct E as [E|E].
      * rewrite E. destruct (fmax_case a y) as [-> | ->]; simpl; auto.
      * simpl; auto.
    + intros x [<-|Hx] Nx; auto. eapply fle_trans; [|exact L]. now apply fmax_ge_r.
Qed.

Lemma max_value_spec : forall s, is_max0 s (max_value s).
Proof.
  intros s. destruct (fold_fmax_spec s f0 eq_refl) as (N & L & E & B). repeat split; auto.
Qed.

(** Any two values meeting [is_max0] compare equal; when positive they are equal data. *)
Lemma is_max0_unique : forall s m m', is_max0 s m -> is_max0 s m' -> fle m m' = true /\ fle m' m = true.
Proof.
  intros s m m' (A1 & B1 & C1) (A2 & B2 & C2).
  assert (N1 : nn m) by now apply nneg_nn. assert (N2 : nn m') by now apply nneg_nn.
  split.
  - destruct A1 as [-> |H]; auto.
  - destruct A2 as [-> |H]; auto.
Qed.

Lemma fle_antisym_pos : forall x y, fle x y = true -> fle y x = true -> flt f0 x = true -> x = y.
Proof.
  intros x y H1 H2 P. pose proof (fle_fx _ _ H1). pose proof (fle_fx _ _ H2). pose proof (pos_fx _ P).
  destruct (fle_nn _ _ H1) as [Nx Ny].
  assert (E : fx x = fx y) by (apply Rle_antisym; auto).
  assert (Py : flt f0 y = true) by (eapply flt_fle_trans; eauto).
  destruct (nn_cases x Nx) as [Fx|[->| ->]].
  - destruct (nn_cases y Ny) as [Fy|[->| ->]].
    + rewrite !fx_fin in E by auto. apply B2R_inj; auto.
      * destruct x as [[]| | |]; try discriminate; auto.
      * destruct y as [[]| | |]; try discriminate; auto.
    + exfalso. pose proof (proj1 (fin_iff _ Nx) Fx) as HH. change (fx finf) with big in E. lra.
    + discriminate.
  - apply fle_inf_inv in H1. now rewrite H1.
  - discriminate.
Qed.

Lemma actual_threshold_spec : forall s thr,
  effective_threshold (max_value s) thr (actual_threshold s thr).
Proof.
  intros s thr. unfold effective_threshold, actual_threshold, fgt.
  fold (flt f0 thr) (flt thr f1) (flt f0 (max_value s)).
  destruct (flt f0 thr), (flt thr f1), (flt f0 (max_value s)); simpl; split; auto; intros; intuition congruence.
Qed.

Lemma qualifies_iff : forall s thr i v,
  qualifies s thr i v <-> local_max s i v /\ fle (actual_threshold s thr) v = true.
Proof.
  intros s thr i v. unfold qualifies. split; intros [L H]; split; auto.
  - destruct H as (m & t & M & T & H).
    destruct (is_max0_unique s m (max_value s) M (max_value_spec s)) as [U1 U2].
    pose proof (actual_threshold_spec s thr) as A.
    assert (D : {flt f0 thr = true /\ flt thr f1 = true /\ flt f0 m = true} +
                {~ (flt f0 thr = true /\ flt thr f1 = true /\ flt f0 m = true)}).
    { destruct (flt f0 thr), (flt thr f1), (flt f0 m); auto; right; intuition congruence. }
    destruct D as [D|D].
    + assert (E : m = max_value s) by (apply fle_antisym_pos; tauto). subst m.
      destruct A as [A _], T as [T _]. rewrite (A D), <- (T D). exact H.
    + destruct A as [_ A], T as [_ T]. rewrite T in H by auto. rewrite A; auto.
      intros (P1 & P2 & P3). apply D. repeat split; auto. eapply flt_fle_trans; eauto.
  - exists (max_value s), (actual_threshold s thr). split. apply max_value_spec. split; auto.
    apply actual_threshold_spec.
Qed.

(** ** Raw peaks: exactly the qualifying local maxima, each once *)
Lemma nth_lt : forall A (l : list A) i x, nth_error l i = Some x -> i < length l.
Proof. intros. apply nth_error_Some. congruence. Qed.

Lemma nth_some : forall A (l : list A) i, i < length l -> exists x, nth_error l i = Some x.
Proof. intros A l i H. destruct (nth_error l i) eqn:E; eauto. apply nth_error_None in E. lia. Qed.

Lemma raw_peaks_in : forall s t i v, 3 <= length s ->
  (In (i, v) (raw_peaks s t) <-> local_max s i v /\ fle t v = true).
Proof.
  intros s t i v Hn. unfold raw_peaks. rewrite !in_app_iff, in_flat_map.
  destruct (nth_some _ s 0 ltac:(lia)) as [x0 E0]. destruct (nth_some _ s 1 ltac:(lia)) as [x1 E1].
  destruct (nth_some _ s (length s - 1) ltac:(lia)) as [xl El].
  destruct (nth_some _ s (length s - 1 - 1) ltac:(lia)) as [xp Ep].
  split.
  - intros [(j & Hj & H)|[H|H]].
    + apply in_seq in Hj. unfold interior_peak in H.
      destruct (nth_error s (j - 1)) as [a|] eqn:Ea; [|destruct H].
      destruct (nth_error s j) as [w|] eqn:Ew; [|destruct H].
      destruct (nth_error s (j + 1)) as [b|] eqn:Eb; [|destruct H].
      unfold fgt, fge in H. fold (flt a w) (flt b w) in H. fold (fle t w) in H.
      destruct (flt a w) eqn:L1, (flt b w) eqn:L2, (fle t w) eqn:L3; simpl in H; try tauto.
      destruct H as [H|[]]. inversion H; subst. split; auto. split; auto.
      split; intros u; [intros _|]; intros Hu; congruence.
    + unfold first_peak in H. rewrite E0, E1 in H. unfold fgt, fge in H.
      fold (flt x1 x0) (fle t x0) in H. destruct (flt x1 x0) eqn:L1, (fle t x0) eqn:L2; simpl in H; try tauto.
      destruct H as [H|[]]. inversion H; subst. split; auto. split; auto. split.
      * intros u C. now elim C.
      * change (0 + 1) with 1. intros u Hu. congruence.
    + unfold last_peak in H. cbv zeta in H. rewrite El, Ep in H. unfold fgt, fge in H.
      fold (flt xp xl) (fle t xl) in H. destruct (flt xp xl) eqn:L1, (fle t xl) eqn:L2; simpl in H; try tauto.
      destruct H as [H|[]]. inversion H; subst. split; auto. split; auto. split.
      * intros u _ Hu. congruence.
      * intros u Hu. apply nth_lt in Hu. lia.
  - intros [(E & L & R) T]. pose proof (nth_lt _ _ _ _ E) as Hi.
    destruct (Nat.eq_dec i 0) as [->|H0].
    + right; left. unfold first_peak. rewrite E, E1. unfold fgt, fge. fold (flt x1 v) (fle t v).
      rewrite (R x1 E1), T. simpl. auto.
    + destruct (Nat.eq_dec i (length s - 1)) as [->|H1].
      * right; right. unfold last_peak. cbv zeta. rewrite E, Ep. unfold fgt, fge. fold (flt xp v) (fle t v).
        rewrite (L xp H0 Ep), T. simpl. auto.
      * left. exists i. split. apply in_seq. lia. unfold interior_peak.
        destruct (nth_some _ s (i - 1) ltac:(lia)) as [a Ea]. destruct (nth_some _ s (i + 1) ltac:(lia)) as [b Eb].
        rewrite Ea, E, Eb. unfold fgt, fge. fold (flt a v) (flt b v). fold (fle t v).
        rewrite (L a H0 Ea), (R b Eb), T. simpl. auto.
Qed.

Lemma interior_idx : forall s t i p, In p (interior_peak s t i) -> fst p = i.
Proof.
  intros s t i p H. unfold interior_peak in H.
  destruct (nth_error s (i - 1)), (nth_error s i), (nth_error s (i + 1)); try destruct H.
  destruct (_ && _); [|destruct H]. destruct (fge _ _); [|destruct H]. destruct H as [<-|[]]. reflexivity.
Qed.
Lemma interior_len : forall s t i, length (interior_peak s t i) <= 1.
Proof.
  intros s t i. unfold interior_peak.
  destruct (nth_error s (i - 1)), (nth_error s i), (nth_error s (i + 1)); simpl; try lia.
  destruct (_ && _); simpl; try lia. destruct (fge _ _); simpl; lia.
Qed.

Lemma flat_idx_nodup : forall s t l, NoDup l -> NoDup (map fst (flat_map (interior_peak s t) l)) /\
  (forall i, In i (map fst (flat_map (interior_peak s t) l)) -> In i l).
Proof.
  intros s t. induction l as [|a l IH]; intros ND; simpl.
  - split. constructor. auto.
  - inversion ND as [|? ? NI ND']; subst. destruct (IH ND') as [I1 I2].
    rewrite map_app. pose proof (interior_len s t a) as L. pose proof (interior_idx s t a) as X.
    destruct (interior_peak s t a) as [|p [|q r]]; simpl in *.
    + split; auto.
    + specialize (X p (or_introl eq_refl)). rewrite X. split.
      * constructor; auto.
      * intros i [<-|H]; auto.
    + lia.
Qed.

Lemma raw_peaks_nodup : forall s t, 3 <= length s -> NoDup (map fst (raw_peaks s t)).
Proof.
  intros s t Hn. unfold raw_peaks. rewrite !map_app.
  destruct (flat_idx_nodup s t (seq 1 (length s - 2)) (seq_NoDup _ _)) as [ND IN].
  set (A := map fst (flat_map (interior_peak s t) (seq 1 (length s - 2)))) in *.
  assert (F : map fst (first_peak s t) = [] \/ map fst (first_peak s t) = [0]).
  { unfold first_peak. destruct (nth_error s 0), (nth_error s 1); simpl; auto. destruct (_ && _); auto. }
  assert (G : map fst (last_peak s t) = [] \/ map fst (last_peak s t) = [length s - 1]).
  { unfold last_peak. destruct (nth_error s (length s - 1)), (nth_error s (length s - 1 - 1)); simpl; auto.
    destruct (_ && _); auto. }
  assert (NA : forall x, In x A -> 1 <= x < length s - 1).
  { intros x Hx. apply IN in Hx. apply in_seq in Hx. lia. }
  assert (X : forall B, NoDup B -> (forall x, In x B -> x = 0 \/ x = length s - 1) -> NoDup (A ++ B)).
  { intros B NB HB. revert ND NA. generalize A. clear - NB HB.
    induction A as [|a A IH]; simpl; auto. intros ND NA. inversion ND; subst. constructor.
    - rewrite in_app_iff. intros [H|H]; auto. specialize (NA a (or_introl eq_refl)).
      apply HB in H. lia.
    - apply IH; auto. }
  apply X.
  - destruct F as [-> | ->], G as [-> | ->]; simpl; repeat constructor; simpl; intuition lia.
  - intros x Hx. destruct F as [F|F], G as [G|G]; rewrite F, G in Hx; simpl in Hx; lia.
Qed.

(** ** Suppression *)
Lemma suppress_incl : forall d l kept p, In p (suppress d kept l) -> In p kept \/ In p l.
Proof.
  induction l as [|[i v] l IH]; simpl; intros kept p H; auto.
  destruct (existsb _ _); apply IH in H; [tauto|].
  rewrite in_app_iff in H. simpl in H. tauto.
Qed.
Lemma suppress_keeps : forall d l kept p, In p kept -> In p (suppress d kept l).
Proof.
  induction l as [|[i v] l IH]; simpl; intros kept p H; auto.
  destruct (existsb _ _); apply IH; auto. apply in_or_app; auto.
Qed.

Definition spaced (d : Z) (l : list peak) : Prop :=
  forall k k' p q, k <> k' -> nth_error l k = Some p -> nth_error l k' = Some q ->
  too_close d (fst p) (fst q) = false.

Lemma too_close_sym : forall d i j, too_close d i j = too_close d j i.
Proof. intros. unfold too_close. f_equal. lia. Qed.

Lemma suppress_spaced : forall d l kept, spaced d kept -> spaced d (suppress d kept l).
Proof.
  induction l as [|[i v] l IH]; simpl; intros kept H; auto.
  destruct (existsb (fun p => too_close d i (fst p)) kept) eqn:E; auto.
  apply IH. intros k k' p q N Hp Hq.
  assert (F : forall x, In x kept -> too_close d i (fst x) = false).
  { intros x Hx. destruct (too_close d i (fst x)) eqn:T; auto.
    assert (existsb (fun p => too_close d i (fst p)) kept = true); [|congruence].
    apply existsb_exists. eauto. }
  destruct (Nat.lt_ge_cases k (length kept)), (Nat.lt_ge_cases k' (length kept)).
  - rewrite nth_error_app1 in Hp, Hq by auto. eauto.
  - rewrite nth_error_app1 in Hp by auto. rewrite nth_error_app2 in Hq by auto.
    destruct (k' - length kept) as [|[|]]; simpl in Hq; inversion Hq; subst; simpl.
    rewrite too_close_sym. apply F. eapply nth_error_In; eauto.
  - rewrite nth_error_app1 in Hq by auto. rewrite nth_error_app2 in Hp by auto.
    destruct (k - length kept) as [|[|]]; simpl in Hp; inversion Hp; subst; simpl.
    apply F. eapply nth_error_In; eauto.
  - rewrite nth_error_app2 in Hp, Hq by auto.
    destruct (k - length kept) as [|[|]] eqn:K; simpl in Hp; inversion Hp; subst.
    destruct (k' - length kept) as [|[|]] eqn:K'; simpl in Hq; inversion Hq; subst. lia.
Qed.

Lemma suppress_maximal : forall d l kept,
  StronglySorted (fun a b => fle (snd b) (snd a) = true) (kept ++ l) ->
  forall p, In p l -> In p (suppress d kept l) \/
    exists q, In q (suppress d kept l) /\ too_close d (fst p) (fst q) = true /\ fle (snd p) (snd q) = true.
Proof.
  induction l as [|[i v] l IH]; simpl; intros kept S p H; [tauto|].
  apply StronglySorted_app_inv in S as S'. destruct S' as (S1 & S2 & C).
  destruct (existsb (fun p => too_close d i (fst p)) kept) eqn:E.
  - destruct H as [<-|H].
    + right. apply existsb_exists in E. destruct E as (q & Hq & T). exists q.
      split. now apply suppress_keeps. split; auto. apply (C q (i, v)); simpl; auto.
    + apply IH; auto. inversion S2; subst. apply StronglySorted_app; auto.
      intros x y Hx Hy. apply C; simpl; auto.
  - destruct H as [<-|H].
    + left. apply suppress_keeps. apply in_or_app; simpl; auto.
    + apply IH; auto. rewrite <- app_assoc. exact S.
Qed.

Lemma suppress_nodup : forall d l kept, NoDup (map fst (kept ++ l)) -> NoDup (map fst (suppress d kept l)).
Proof.
  induction l as [|[i v] l IH]; simpl; intros kept H.
  - now rewrite app_nil_r in H.
  - destruct (existsb _ _).
    + apply IH. rewrite map_app in *. simpl in H. now apply NoDup_remove_1 in H.
    + apply IH. now rewrite <- app_assoc.
Qed.

(** ** find_peaks *)
Definition active (s : list f32) : Prop := 3 <= length s /\ flt (max_value s) eps10 = false.

Definition selected (s : list f32) (thr : f32) (d : Z) : list peak :=
  let p := raw_peaks s (actual_threshold s thr) in
  if (0 <? d)%Z && (1 <? length p) then suppress d [] (sort_desc snd p) else p.

Lemma find_peaks_cases : forall s thr d,
  (find_peaks s thr d = [] /\ ~ active s) \/
  (active s /\ find_peaks s thr d = sort_desc snd (selected s thr d)).
Proof.
  intros s thr d. unfold find_peaks, active, selected.
  destruct (Nat.ltb_spec (length s) 3). left; split; auto; lia.
  destruct (flt (max_value s) eps10). left; split; auto; intuition congruence.
  right. split; auto.
Qed.

Lemma raw_nn : forall s t p, 3 <= length s -> In p (raw_peaks s t) -> nn (snd p).
Proof.
  intros s t [i v] Hn H. apply raw_peaks_in in H; auto. destruct H as [(E & L & R) _]. simpl.
  destruct (Nat.eq_dec i 0) as [->|H0].
  - destruct (nth_some _ s 1 ltac:(lia)) as [x1 E1]. eapply flt_nn_r. apply (R x1). exact E1.
  - pose proof (nth_lt _ _ _ _ E). destruct (nth_some _ s (i - 1) ltac:(lia)) as [x1 E1].
    eapply flt_nn_r. apply (L x1); auto.
Qed.

Lemma selected_in : forall s thr d p, In p (selected s thr d) ->
  In p (raw_peaks s (actual_threshold s thr)).
Proof.
  intros s thr d p H. unfold selected in H. destruct (_ && _); auto.
  apply suppress_incl in H. destruct H as [[]|H]. now apply sort_desc_in in H.
Qed.

Lemma find_peaks_sound : forall s thr d i v, In (i, v) (find_peaks s thr d) ->
  qualifies s thr i v.
Proof.
  intros s thr d i v H. destruct (find_peaks_cases s thr d) as [[E _]|[A E]]; rewrite E in H.
  - destruct H.
  - apply sort_desc_in, selected_in in H. apply raw_peaks_in in H; [|apply A]. now apply qualifies_iff.
Qed.

Lemma find_peaks_sorted : forall s thr d,
  StronglySorted (fun p q => fle (snd q) (snd p) = true) (find_peaks s thr d).
Proof.
  intros s thr d. destruct (find_peaks_cases s thr d) as [[E _]|[A E]]; rewrite E.
  - constructor.
  - apply sort_desc_sorted. apply Forall_forall. intros p Hp. apply selected_in in Hp.
    eapply raw_nn; eauto. apply A.
Qed.

Lemma find_peaks_nodup : forall s thr d, NoDup (map fst (find_peaks s thr d)).
Proof.
  intros s thr d. destruct (find_peaks_cases s thr d) as [[E _]|[A E]]; rewrite E.
  - constructor.
  - eapply Permutation_NoDup. apply Permutation_map, sort_desc_perm.
    unfold selected. destruct (_ && _).
    + apply suppress_nodup. simpl. eapply Permutation_NoDup. apply Permutation_map, sort_desc_perm.
      apply raw_peaks_nodup, A.
    + apply raw_peaks_nodup, A.
Qed.

Lemma find_peaks_complete : forall s thr i v, active s -> qualifies s thr i v ->
  In (i, v) (find_peaks s thr 0).
Proof.
  intros s thr i v A Q. destruct (find_peaks_cases s thr 0) as [[E N]|[_ E]]; [tauto|]. rewrite E.
  apply sort_desc_in. unfold selected. simpl. apply raw_peaks_in. apply A. now apply qualifies_iff.
Qed.

Lemma as_i32_small : forall z, (0 <= z < 2147483648)%Z -> as_i32 z = z.
Proof. intros. unfold as_i32. rewrite Z.mod_small by lia. lia. Qed.

Lemma too_close_small : forall d i j,
  (0 <= d < 2147483648)%Z -> (Z.of_nat i < 2147483648)%Z -> (Z.of_nat j < 2147483648)%Z ->
  (too_close d i j = true <-> (Z.abs (Z.of_nat i - Z.of_nat j) < d)%Z).
Proof.
  intros. unfold too_close. rewrite !as_i32_small by lia. apply Z.ltb_lt.
Qed.

Lemma find_peaks_spacing : forall s thr d i v j w,
  (Z.of_nat (length s) < 2147483648)%Z -> (0 < d < 2147483648)%Z ->
  In (i, v) (find_peaks s thr d) -> In (j, w) (find_peaks s thr d) -> i <> j ->
  (d <= Z.abs (Z.of_nat i - Z.of_nat j))%Z.
Proof.
  intros s thr d i v j w Hs Hd Hi Hj Hij.
  assert (Ri : i < length s).
  { apply find_peaks_sound in Hi. destruct Hi as [[E _] _]. eapply nth_lt; eauto. }
  assert (Rj : j < length s).
  { apply find_peaks_sound in Hj. destruct Hj as [[E _] _]. eapply nth_lt; eauto. }
  destruct (find_peaks_cases s thr d) as [[E _]|[A E]]; rewrite E in Hi, Hj; [destruct Hi|].
  apply sort_desc_in in Hi. apply sort_desc_in in Hj. unfold selected in Hi, Hj.
  destruct (Z.ltb_spec 0 d); [|lia]. simpl in Hi, Hj.
  destruct (Nat.ltb_spec 1 (length (raw_peaks s (actual_threshold s thr)))).
  - assert (SP : spaced d (suppress d [] (sort_desc snd (raw_peaks s (actual_threshold s thr))))).
    { apply suppress_spaced. intros k k' p q _ Hp. destruct k; discriminate. }
    apply In_nth_error in Hi. apply In_nth_error in Hj. destruct Hi as [k Hk], Hj as [k' Hk'].
    assert (N : k <> k') by (intros ->; congruence).
    specialize (SP k k' _ _ N Hk Hk'). simpl in SP.
    destruct (Z_lt_le_dec (Z.abs (Z.of_nat i - Z.of_nat j)) d) as [L|L]; auto.
    apply (too_close_small d i j) in L; try lia. congruence.
  - destruct (raw_peaks s (actual_threshold s thr)) as [|p [|q r]]; simpl in *; try lia; try tauto.
    destruct Hi as [->|[]], Hj as [Hj|[]]. congruence.
Qed.

Lemma find_peaks_maximal : forall s thr d i v, active s ->
  (Z.of_nat (length s) < 2147483648)%Z -> (0 < d < 2147483648)%Z ->
  qualifies s thr i v -> ~ In (i, v) (find_peaks s thr d) ->
  exists j w, In (j, w) (find_peaks s thr d) /\
    (Z.abs (Z.of_nat i - Z.of_nat j) < d)%Z /\ fle v w = true.
Proof.
  intros s thr d i v A Hs Hd Q NI.
  apply qualifies_iff in Q. apply raw_peaks_in in Q; [|apply A].
  destruct (find_peaks_cases s thr d) as [[E N]|[_ E]]; [tauto|].
  assert (Ri : i < length s).
  { apply raw_peaks_in in Q; [|apply A]. destruct Q as [[E' _] _]. eapply nth_lt; eauto. }
  rewrite E in NI |- *. rewrite sort_desc_in in NI. unfold selected in *.
  destruct (Z.ltb_spec 0 d); [|lia]. simpl in *.
  destruct (Nat.ltb_spec 1 (length (raw_peaks s (actual_threshold s thr)))); [|tauto].
  set (R := sort_desc snd (raw_peaks s (actual_threshold s thr))) in *.
  destruct (suppress_maximal d R []) with (p := (i, v)) as [H1|([j w] & H1 & H2 & H3)].
  - apply sort_desc_sorted. apply Forall_forall. intros p Hp. eapply raw_nn; eauto. apply A.
  - now apply sort_desc_in.
  - tauto.
  - exists j, w. split. now apply sort_desc_in. simpl in *. split; auto.
    apply too_close_small in H2; try lia.
    apply suppress_incl in H1. destruct H1 as [[]|H1]. apply sort_desc_in in H1.
    apply raw_peaks_in in H1; [|apply A]. destruct H1 as [[E' _] _]. apply nth_lt in E'. lia.
Qed.
