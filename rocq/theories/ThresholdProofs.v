(** Proofs about Threshold.v. *)
From Coq Require Import ZArith Reals Lra Lia Sorted.
From Flocq Require Import Core IEEE754.BinarySingleNaN.
From Verif Require Import Rust F32 F32Facts ListFacts Sorting SortingFacts Threshold.

(** Number of values at or below t. *)
Definition count_le (l : list f32) (t : f32) : nat := length (filter (fun x => fle x t) l).
Definition count_lt (l : list f32) (t : f32) : nat := length (filter (fun x => flt x t) l).

Lemma filter_perm_length : forall A (f : A -> bool) l l', Permutation l l' ->
  length (filter f l) = length (filter f l').
Proof.
  induction 1; simpl; auto.
  - destruct (f x); simpl; auto.
  - destruct (f x), (f y); simpl; auto.
  - congruence.
Qed.

Lemma filter_all : forall A (f : A -> bool) l, (forall x, In x l -> f x = true) -> filter f l = l.
Proof.
  induction l as [|a l IH]; simpl; intros H; auto. rewrite H by auto. f_equal. auto.
Qed.
Lemma filter_none : forall A (f : A -> bool) l, (forall x, In x l -> f x = false) -> filter f l = [].
Proof. induction l as [|a l IH]; simpl; intros H; auto. rewrite H by auto. auto. Qed.

(** In an ascending list the element at index i has at least i+1 elements <= it and
    at most i elements < it. *)
Lemma sorted_rank : forall l i t, Forall (fun x => nn x) l ->
  StronglySorted (fun a b => fle a b = true) l -> nth_error l i = Some t ->
  i + 1 <= count_le l t /\ count_lt l t <= i.
Proof.
  intros l i t N S H.
  assert (Hi : i < length l) by (apply nth_error_Some; congruence).
  assert (Nt : nn t) by (rewrite Forall_forall in N; apply N; eapply nth_error_In; eauto).
  unfold count_le, count_lt. split.
  - rewrite <- (firstn_skipn (i + 1) l) at 1. rewrite filter_app, app_length.
    rewrite filter_all. rewrite firstn_length. lia.
    intros x Hx. apply In_nth_error in Hx. destruct Hx as [j Hj].
    rewrite nth_error_firstn in Hj. destruct (Nat.ltb_spec j (i + 1)); [|discriminate].
    destruct (Nat.eq_dec j i) as [->|D].
    + assert (x = t) by congruence. subst. now apply fle_refl.
    + apply (StronglySorted_nth _ _ _ S j i); auto. lia.
  - rewrite <- (firstn_skipn i l) at 1. rewrite filter_app, app_length.
    rewrite (filter_none _ _ (skipn i l)); simpl.
    + pose proof (firstn_le_length i l).
      assert (forall A (f : A -> bool) m, length (filter f m) <= length m) as FL.
      { clear. induction m; simpl; auto. destruct (f a); simpl; lia. }
      specialize (FL _ (fun x => flt x t) (firstn i l)). rewrite firstn_length in *. lia.
    + intros x Hx. apply In_nth_error in Hx. destruct Hx as [j Hj].
      rewrite nth_error_skipn in Hj. apply fle_flt_false.
      destruct (Nat.eq_dec j 0) as [->|D].
      * rewrite Nat.add_0_r in Hj. assert (x = t) by congruence. subst. now apply fle_refl.
      * apply (StronglySorted_nth _ _ _ S i (i + j)); auto. lia.
Qed.

Lemma sort_asc_nn : forall l, Forall (fun x => nn x) l -> Forall (fun x => nn x) (sort_asc l).
Proof. intros. now apply sort_by_Forall. Qed.

Lemma count_le_sort : forall l t, count_le (sort_asc l) t = count_le l t.
Proof. intros. apply filter_perm_length. apply Permutation_sym, sort_asc_perm. Qed.
Lemma count_lt_sort : forall l t, count_lt (sort_asc l) t = count_lt l t.
Proof. intros. apply filter_perm_length. apply Permutation_sym, sort_asc_perm. Qed.

(** ** percentile_threshold *)
Lemma percentile_index_lt : forall n p, 0 < n -> percentile_index n p < n.
Proof. intros n p H. unfold percentile_index. pose proof (f2usize_bounds (fmul (n2f n) p)). lia. Qed.

Lemma percentile_errors : forall values p,
  percentile_threshold values p = Err InvalidInput <->
  values = [] \/ ~ (fle f0 p = true /\ fle p f1 = true).
Proof.
  intros values p. unfold percentile_threshold. destruct values as [|v r].
  - split; auto.
  - destruct (fle f0 p) eqn:E1, (fle p f1) eqn:E2; simpl negb; cbn iota;
      try (split; auto; intros; right; intuition congruence).
    split; intros H.
    + unfold get in H. destruct (nth_error _ _); discriminate.
    + destruct H as [H|H]; [discriminate|]. tauto.
Qed.

Lemma percentile_ok : forall values p, values <> [] -> fle f0 p = true -> fle p f1 = true ->
  exists t, percentile_threshold values p = Ok t /\
    nth_error (sort_asc values) (percentile_index (length values) p) = Some t.
Proof.
  intros values p H1 H2 H3. unfold percentile_threshold. destruct values as [|v r]; [congruence|].
  rewrite H2, H3. simpl negb. cbn iota.
  destruct (get_lt _ (sort_asc (v :: r)) (percentile_index (length (v :: r)) p)) as [t Ht].
  { rewrite sort_asc_length. apply percentile_index_lt. simpl; lia. }
  exists t. split; auto. now apply get_Ok.
Qed.

Lemma percentile_no_panic : forall values p, percentile_threshold values p <> Panic.
Proof.
  intros values p. destruct values as [|v r]; [discriminate|].
  destruct (fle f0 p) eqn:E1, (fle p f1) eqn:E2;
    try (unfold percentile_threshold; rewrite E1, E2; discriminate);
    try (unfold percentile_threshold; rewrite E1; discriminate).
  destruct (percentile_ok (v :: r) p) as (t & H & _); try discriminate; auto. congruence.
Qed.

Lemma percentile_element : forall values p t, percentile_threshold values p = Ok t -> In t values.
Proof.
  intros values p t H. unfold percentile_threshold in H. destruct values as [|v r]; [discriminate|].
  destruct (negb _); [discriminate|]. apply get_Ok, nth_error_In in H.
  eapply Permutation_in; [apply Permutation_sym, sort_asc_perm|exact H].
Qed.

Lemma p01_fin : forall p, fle f0 p = true -> fle p f1 = true -> fin p.
Proof. intros. apply in01_fin. now split. Qed.

Lemma percentile_index_mono : forall n p q, (Z.of_nat n <= 2 ^ 64)%Z ->
  fle f0 p = true -> fle p q = true -> fle q f1 = true ->
  percentile_index n p <= percentile_index n q.
Proof.
  intros n p q Hn H1 H2 H3. unfold percentile_index.
  assert (Fn : fin (n2f n)) by (apply z2f_fin; lia).
  assert (Fp : fin p) by (apply p01_fin; auto; eapply fle_trans; eauto).
  assert (Fq : fin q) by (apply p01_fin; auto; eapply fle_trans; eauto).
  assert (L : fle (fmul (n2f n) p) (fmul (n2f n) q) = true).
  { assert (N0 : nneg (n2f n)) by (apply z2f_nneg; lia).
    apply fmul_mono; auto; try (apply fmul_fx; auto). apply fle_refl, fin_nn; auto. }
  apply f2usize_mono in L. lia.
Qed.

Lemma percentile_mono : forall values p q t u, (Z.of_nat (length values) <= 2 ^ 64)%Z ->
  Forall (fun x => nn x) values -> fle p q = true ->
  percentile_threshold values p = Ok t -> percentile_threshold values q = Ok u ->
  fle t u = true.
Proof.
  intros values p q t u Hn N L Ht Hu.
  assert (Hv : values <> []) by (intros ->; discriminate).
  assert (P : forall r w, percentile_threshold values r = Ok w -> fle f0 r = true /\ fle r f1 = true).
  { intros r w H. unfold percentile_threshold in H. destruct values; [congruence|].
    destruct (fle f0 r), (fle r f1); try discriminate; auto. }
  destruct (P _ _ Ht) as [P1 P2]. destruct (P _ _ Hu) as [Q1 Q2].
  destruct (percentile_ok values p Hv P1 P2) as (t' & E1 & I1).
  destruct (percentile_ok values q Hv Q1 Q2) as (u' & E2 & I2).
  assert (t' = t) by congruence. assert (u' = u) by congruence. subst t' u'.
  pose proof (percentile_index_mono (length values) p q Hn P1 L Q2) as M.
  destruct (Nat.eq_dec (percentile_index (length values) p) (percentile_index (length values) q)) as [E|D].
  - rewrite E in I1. assert (t = u) by congruence. subst. apply fle_refl.
    apply percentile_element in Ht. rewrite Forall_forall in N. auto.
  - eapply (StronglySorted_nth _ _ _ (sort_asc_sorted _ N)); [|exact I1|exact I2]. lia.
Qed.

(** For curves of at most 2^24 values the index is at least floor(n*p) unless capped. *)
Lemma percentile_index_exact : forall n p, (Z.of_nat n <= 16777216)%Z -> 0 < n ->
  fle f0 p = true -> fle p f1 = true ->
  (INR n * B2R p <= INR (percentile_index n p) + 1)%R.
Proof.
  intros n p Hn H0 H1 H2.
  pose proof (p01_fin p H1 H2) as Fp.
  destruct (z2f_exact (Z.of_nat n) ltac:(lia)) as [Fn En]. fold (n2f n) in *.
  apply fle_fx in H1 as G1. apply fle_fx in H2 as G2. rewrite fx_f0, fx_fin in G1 by auto.
  rewrite fx_f1, fx_fin in G2 by auto.
  rewrite INR_IZR_INZ in *.
  assert (N0 : (1 <= IZR (Z.of_nat n))%R) by (apply IZR_le; lia).
  set (x := (IZR (Z.of_nat n) * B2R p)%R).
  assert (X0 : (0 <= x)%R) by (unfold x; nra). assert (X1 : (x <= IZR (Z.of_nat n))%R) by (unfold x; nra).
  assert (Fm : fin (fmul (n2f n) p)).
  { apply fmul_fin_bound with (n2f n); auto. rewrite En. fold x. rewrite Rabs_pos_eq; auto. }
  pose proof (B2R_fmul _ _ Fm) as Em. rewrite En in Em. fold x in Em.
  assert (Hf : (IZR (Zfloor x) <= rnd x)%R).
  { rewrite <- (rnd_Z (Zfloor x)). apply rnd_mono. apply Zfloor_lb.
    assert (0 <= Zfloor x)%Z. { apply Zfloor_lub. auto. }
    assert (Zfloor x <= Z.of_nat n)%Z. { apply le_IZR. eapply Rle_trans; [apply Zfloor_lb|auto]. }
    lia. }
  assert (T : (Zfloor x <= f2usize (fmul (n2f n) p))%Z).
  { unfold f2usize. rewrite f2int_fin by auto. rewrite Em.
    assert (0 <= Zfloor x)%Z by (apply Zfloor_lub; auto).
    assert (Zfloor x <= Z.of_nat n)%Z by (apply le_IZR; eapply Rle_trans; [apply Zfloor_lb|auto]).
    assert (Zfloor x <= Ztrunc (rnd x))%Z.
    { rewrite Ztrunc_floor by (apply rnd_nonneg; auto). now apply Zfloor_lub. }
    unfold usize_max. lia. }
  pose proof (Zfloor_ub x) as UB. pose proof (f2usize_bounds (fmul (n2f n) p)) as UBD.
  unfold percentile_index. rewrite INR_IZR_INZ, Z2Nat.id by lia.
  destruct (Z.min_spec (f2usize (fmul (n2f n) p)) (Z.of_nat n - 1)) as [[_ ->]|[_ ->]].
  - apply IZR_le in T. lra.
  - rewrite minus_IZR. lra.
Qed.

Lemma percentile_fraction : forall values p t, (Z.of_nat (length values) <= 16777216)%Z ->
  Forall (fun x => nn x) values -> percentile_threshold values p = Ok t ->
  (INR (length values) * B2R p <= INR (count_le values t))%R.
Proof.
  intros values p t Hn N H.
  assert (Hv : values <> []) by (intros ->; discriminate).
  assert (P : fle f0 p = true /\ fle p f1 = true).
  { unfold percentile_threshold in H. destruct values; [congruence|].
    destruct (fle f0 p), (fle p f1); try discriminate; auto. }
  destruct (percentile_ok values p Hv (proj1 P) (proj2 P)) as (t' & E & I).
  assert (t' = t) by congruence. subst t'.
  destruct (sorted_rank _ _ _ (sort_asc_nn _ N) (sort_asc_sorted _ N) I) as [R _].
  rewrite count_le_sort in R.
  eapply Rle_trans. apply percentile_index_exact; try apply P; auto.
  destruct values; simpl; [congruence|lia].
  apply le_INR in R. rewrite plus_INR in R. simpl in R. exact R.
Qed.

(** ** median + MAD *)
Lemma median_sorted_ok : forall l, l <> [] -> exists m, median_sorted l = Ok m.
Proof.
  intros l H. unfold median_sorted.
  assert (L : 0 < length l) by (destruct l; simpl; [congruence|lia]).
  destruct (Nat.even (length l)) eqn:E.
  - destruct (Nat.eqb_spec (length l) 0); [lia|].
    destruct (get_lt _ l (length l / 2 - 1)) as [a ->].
    { pose proof (Nat.div_lt (length l) 2). lia. }
    destruct (get_lt _ l (length l / 2)) as [b ->]. { apply Nat.div_lt; lia. }
    simpl. eauto.
  - destruct (get_lt _ l (length l / 2)) as [b ->]. { apply Nat.div_lt; lia. }
    eauto.
Qed.

Lemma adaptive_total : forall values k,
  (values = [] \/ flt k f0 = true -> adaptive_threshold_median_mad values k = Err InvalidInput) /\
  (values <> [] -> flt k f0 = false -> exists t, adaptive_threshold_median_mad values k = Ok t).
Proof.
  intros values k. unfold adaptive_threshold_median_mad. split.
  - intros [-> | ->]; auto. destruct values; auto.
  - intros H ->. destruct values as [|v r]; [congruence|].
    destruct (median_sorted_ok (sort_asc (v :: r))) as [m Hm].
    { intros C. pose proof (sort_asc_length (v :: r)) as L. rewrite C in L. discriminate. }
    rewrite Hm. cbv beta iota delta [obind].
    destruct (median_sorted_ok (sort_asc (map (fun x => fabs (fsub x m)) (v :: r)))) as [d Hd].
    { intros C. pose proof (sort_asc_length (map (fun x => fabs (fsub x m)) (v :: r))) as L.
      rewrite C, map_length in L. discriminate. }
    rewrite Hd. eauto.
Qed.

(** At least half of the elements lie at or below the median, for finite values whose
    middle sum does not overflow. *)
Definition bound126 : f32 := lit 1 126.

Lemma half_sum_fin : forall a b, fle (fneg bound126) a = true -> fle a bound126 = true ->
  fle (fneg bound126) b = true -> fle b bound126 = true ->
  fin a /\ fin b /\ fin (fadd a b).
Proof.
  intros a b H1 H2 H3 H4.
  assert (Fa : fin a) by (apply fin_between with (fneg bound126) bound126; auto).
  assert (Fb : fin b) by (apply fin_between with (fneg bound126) bound126; auto).
  repeat split; auto.
  apply fin_between with (fadd (fneg bound126) (fneg bound126)) (fadd bound126 bound126);
    try reflexivity; apply fadd_mono; auto; apply fadd_nn_fin_l; auto using fin_nn.
Qed.

Definition bounded126 (x : f32) : Prop := fle (fneg bound126) x = true /\ fle x bound126 = true.

Lemma median_ge_half : forall l m, Forall bounded126 l ->
  StronglySorted (fun a b => fle a b = true) l -> median_sorted l = Ok m ->
  length l <= 2 * count_le l m /\ bounded126 m.
Proof.
  intros l m B S H. unfold median_sorted in H.
  assert (N : Forall (fun x => nn x) l).
  { eapply Forall_impl; [|exact B]. intros x [X _]. now apply fle_nn in X. }
  pose proof B as B'. rewrite Forall_forall in B'.
  destruct (Nat.even (length l)) eqn:E.
  - destruct (Nat.eqb_spec (length l) 0); [discriminate|].
    destruct (get l (length l / 2 - 1)) as [a| |] eqn:Ea; try discriminate.
    destruct (get l (length l / 2)) as [b| |] eqn:Eb; try discriminate.
    simpl in H. inversion H; subst m. clear H.
    apply get_Ok in Ea. apply get_Ok in Eb.
    apply Nat.even_spec in E. destruct E as [k Ek]. rewrite Ek in *.
    replace (2 * k) with (k * 2) in * by lia. rewrite Nat.div_mul in * by lia.
    destruct (B' a (nth_error_In _ _ Ea)) as [A1 A2]. destruct (B' b (nth_error_In _ _ Eb)) as [B1 B2].
    assert (AB : fle a b = true) by (apply (StronglySorted_nth _ _ _ S (k - 1) k); auto; lia).
    destruct (half_sum_fin a b) as (Fa & Fb & Fs); auto.
    assert (M : fle a (fmul (fadd a b) fhalf) = true /\ fle (fmul (fadd a b) fhalf) b = true).
    { apply midpoint_between; auto using fin_nn, fle_refl. }
    destruct M as [M1 M2]. split.
    + destruct (sorted_rank l (k - 1) a N S Ea) as [R _].
      assert (C : count_le l a <= count_le l (fmul (fadd a b) fhalf)).
      { clear - M1. unfold count_le. induction l as [|x l IH]; simpl; auto.
        destruct (fle x a) eqn:X; simpl.
        - rewrite (fle_trans _ _ _ X M1). simpl. lia.
        - destruct (fle x (fmul (fadd a b) fhalf)); simpl; lia. }
      lia.
    + split; [apply fle_trans with a|apply fle_trans with b]; auto.
  - apply get_Ok in H. destruct (sorted_rank l _ m N S H) as [R _]. split.
    + assert (length l = 2 * (length l / 2) + 1).
      { pose proof (Nat.div_mod (length l) 2 ltac:(lia)). pose proof (Nat.mod_upper_bound (length l) 2 ltac:(lia)).
        assert (length l mod 2 <> 0).
        { intros C. apply Nat.mod_divides in C; [|lia]. destruct C as [c C].
          assert (Nat.even (length l) = true). { apply Nat.even_spec. exists c. auto. } congruence. }
        lia. }
      lia.
    + apply B'. eapply nth_error_In; eauto.
Qed.


(** Values whose magnitude is at most 2^125 (deviations then stay below 2^126). *)
Definition bound125 : f32 := lit 1 125.
Definition bounded125 (x : f32) : Prop := fle (fneg bound125) x = true /\ fle x bound125 = true.

Lemma bounded125_126 : forall x, bounded125 x -> bounded126 x.
Proof.
  intros x [H1 H2]. split; eapply fle_trans; eauto; reflexivity.
Qed.

Lemma median_bounded : forall lo hi l m, fin lo -> fin hi -> fin (fadd lo lo) -> fin (fadd hi hi) ->
  fle lo (fmul (fadd lo lo) fhalf) = true -> fle (fmul (fadd hi hi) fhalf) hi = true ->
  Forall (fun x => fle lo x = true /\ fle x hi = true) l -> median_sorted l = Ok m ->
  fle lo m = true /\ fle m hi = true.
Proof.
  intros lo hi l m F1 F2 F3 F4 M1 M2 B H. unfold median_sorted in H. rewrite Forall_forall in B.
  destruct (Nat.even (length l)).
  - destruct (length l =? 0); [discriminate|].
    destruct (get l (length l / 2 - 1)) as [a| |] eqn:Ea; try discriminate.
    destruct (get l (length l / 2)) as [b| |] eqn:Eb; try discriminate.
    simpl in H. inversion H; subst m. apply get_Ok, nth_error_In in Ea. apply get_Ok, nth_error_In in Eb.
    destruct (B _ Ea) as [A1 A2]. destruct (B _ Eb) as [B1 B2].
    assert (Fa : fin a) by (eapply fin_between with lo hi; auto).
    assert (Fb : fin b) by (eapply fin_between with lo hi; auto).
    pose proof (fadd_nn_fin_l a b Fa (fin_nn _ Fb)) as NS.
    assert (S1 : fle (fadd lo lo) (fadd a b) = true) by (apply fadd_mono; auto using fin_nn).
    assert (S2 : fle (fadd a b) (fadd hi hi) = true) by (apply fadd_mono; auto using fin_nn).
    assert (Fs : fin (fadd a b)) by (eapply fin_between; [| |exact S1|exact S2]; auto).
    split.
    + eapply fle_trans; [exact M1|]. apply fmul_mono_const; auto; reflexivity.
    + eapply fle_trans; [|exact M2]. apply fmul_mono_const; auto; reflexivity.
  - apply get_Ok, nth_error_In in H. auto.
Qed.

Lemma adaptive_half : forall values k t, Forall bounded125 values -> fin k ->
  adaptive_threshold_median_mad values k = Ok t ->
  length values <= 2 * count_le values t.
Proof.
  intros values k t B Fk H. unfold adaptive_threshold_median_mad in H.
  destruct values as [|v0 r0] eqn:EV; [discriminate|]. rewrite <- EV in *. clear EV v0 r0.
  destruct (flt k f0) eqn:K; [discriminate|].
  destruct (median_sorted (sort_asc values)) as [m| |] eqn:Em; try discriminate. simpl in H.
  destruct (median_sorted (sort_asc (map _ values))) as [d| |] eqn:Ed; try discriminate. simpl in H.
  inversion H; subst t. clear H.
  assert (B6 : Forall bounded126 values) by (eapply Forall_impl; [|exact B]; apply bounded125_126).
  assert (N : Forall (fun x => nn x) values).
  { eapply Forall_impl; [|exact B]. intros x [X _]. now apply fle_nn in X. }
  destruct (median_ge_half (sort_asc values) m) as [HL _]; auto.
  { now apply sort_by_Forall. } { now apply sort_asc_sorted. }
  rewrite sort_asc_length, count_le_sort in HL.
  assert (HB : bounded125 m).
  { apply (median_bounded (fneg bound125) bound125 (sort_asc values)); try reflexivity; auto.
    now apply sort_by_Forall. }
  destruct HB as [M1 M2].
  assert (Fm : fin m) by (apply fin_between with (fneg bound125) bound125; auto).
  assert (DV : fle f0 d = true /\ fle d bound126 = true).
  { apply (median_bounded f0 bound126 (sort_asc (map (fun x => fabs (fsub x m)) values)));
      try reflexivity; auto.
    apply sort_by_Forall. rewrite Forall_forall in *. intros y Hy. apply in_map_iff in Hy.
    destruct Hy as (x & <- & Hx). destruct (B x Hx) as [X1 X2].
    assert (Fx : fin x) by (apply fin_between with (fneg bound125) bound125; auto).
    pose proof (fsub_nn_fin x m Fx Fm) as NS. split. now apply fabs_nneg.
    apply fle_intro; [now rewrite fabs_nn|reflexivity|]. rewrite fabs_fx by auto.
    assert (U : fle (fsub x m) bound126 = true).
    { apply fle_trans with (fsub bound125 (fneg bound125)); [|reflexivity].
      apply fsub_mono; auto. }
    assert (L : fle (fneg bound126) (fsub x m) = true).
    { apply fle_trans with (fsub (fneg bound125) bound125); [reflexivity|].
      apply fsub_mono; auto. }
    apply fle_fx in U. apply fle_fx in L. rewrite fneg_fx in L. apply Rabs_le. lra. }
  destruct DV as [D1 D2].
  assert (Fd : fin d) by (apply fin_between with f0 bound126; auto).
  assert (NK : nneg k) by (apply flt_false_fle; auto; now apply fin_nn).
  assert (MT : fle m (fadd m (fmul k d)) = true).
  { pose proof (fmul_nneg_fin k d Fk Fd NK D1) as NKD. apply fadd_ge_l; auto using fin_nn. apply fadd_nn_fin_l; auto. now apply nneg_nn. }
  assert (C : count_le values m <= count_le values (fadd m (fmul k d))).
  { clear - MT. unfold count_le. induction values as [|x l IH]; simpl; auto.
    destruct (fle x m) eqn:X; simpl.
    - rewrite (fle_trans _ _ _ X MT). simpl. lia.
    - destruct (fle x (fadd m (fmul k d))); simpl; lia. }
  lia.
Qed.
