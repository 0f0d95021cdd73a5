(** Proofs about the time smoothing and the harmonic masks of src/features/chroma/extractor.rs. *)
From Coq Require Import Reals Lra Lia Sorted.
From Flocq Require Import Core.
From Verif Require Import Rust F32 F32Facts F32More FloatSums ListFacts Sorting SortingFacts Threshold ThresholdProofs NoveltyProofs Bounds Libm Onsets
  Hpss HpssProofs CombFilterProofs Chroma KeyFeatures.
From Verif Require TempogramProofs.
Close Scope R_scope.

(** Every frame has [n] bins. *)
Definition shape (n : nat) (spec : list (list f32)) : Prop := Forall (fun fr => length fr = n) spec.

Lemma rectangular_shape : forall n spec, rectangular n spec = true <-> shape n spec.
Proof.
  intros n spec. unfold rectangular, shape. rewrite forallb_forall, Forall_forall.
  split; intros H x Hx; specialize (H x Hx); apply Nat.eqb_eq; assumption.
Qed.

Lemma check_shape_ok : forall spec n, check_shape spec = Ok n ->
  0 < n /\ n = length (nth 0 spec []) /\ shape n spec.
Proof.
  intros spec n. unfold check_shape. destruct (Nat.eqb_spec (length (nth 0 spec [])) 0); [discriminate|].
  destruct (rectangular _ spec) eqn:E; [|discriminate]. cbn [negb]. intros H. injection H as <-.
  apply rectangular_shape in E. repeat split; [lia|assumption].
Qed.
Lemma check_shape_run : forall spec n, spec <> [] -> 0 < n -> shape n spec -> check_shape spec = Ok n.
Proof.
  intros [|r spec] n N P S; [congruence|]. unfold check_shape. cbn [nth].
  assert (L : length r = n) by (inversion S; assumption). rewrite L.
  destruct (Nat.eqb_spec n 0); [lia|]. apply rectangular_shape in S. rewrite S. reflexivity.
Qed.
Lemma check_shape_err : forall spec, check_shape spec = Err InvalidInput \/ exists n, check_shape spec = Ok n.
Proof. intros spec. unfold check_shape. destruct (_ =? 0); auto. destruct (rectangular _ _); cbn; eauto. Qed.

(** ** Prefix sums *)

Lemma prefix_from_nth : forall l acc i, i <= length l -> nth i (prefix_from acc l) f0 = fold_left fadd (firstn i l) acc.
Proof.
  induction l as [|x l IH]; intros acc i H; cbn [length] in H.
  - replace i with 0 by lia. reflexivity.
  - destruct i as [|i]; [reflexivity|]. cbn [prefix_from nth firstn fold_left]. apply IH. lia.
Qed.
Lemma prefix_nth : forall l i, i <= length l -> nth i (prefix_sums l) f0 = fsum (firstn i l).
Proof. intros. apply prefix_from_nth. assumption. Qed.

Lemma firstn_Forall : forall A (P : A -> Prop) l n, Forall P l -> Forall P (firstn n l).
Proof. intros A P l. induction l; intros [|n] H; cbn; auto. inversion H; subst. auto. Qed.

Lemma firstn_split : forall A (l : list A) a b, a <= b -> firstn b l = firstn a l ++ firstn (b - a) (skipn a l).
Proof.
  intros A l. induction l as [|x l IH]; intros a b H.
  - rewrite !firstn_nil, skipn_nil, firstn_nil. reflexivity.
  - destruct a as [|a]; [cbn; f_equal; lia|]. destruct b as [|b]; [lia|]. cbn [firstn skipn app]. f_equal.
    replace (S b - S a) with (b - a) by lia. apply IH. lia.
Qed.

Lemma Rsum_app : forall l m, Rsum (l ++ m) = (Rsum l + Rsum m)%R.
Proof.
  induction l as [|x l IH]; intros m; [unfold Rsum at 2; cbn [app fold_right]; lra|].
  specialize (IH m). unfold Rsum in *. cbn [app fold_right]. lra.
Qed.

(** The difference of two prefix sums is non-negative. *)
Lemma prefix_diff : forall k l a b, (-149 <= k <= 101)%Z -> Forall (upto k) l -> a <= b -> b <= length l ->
  let d := fsub (nth b (prefix_sums l) f0) (nth a (prefix_sums l) f0) in
  upto (k + 26) d.
Proof.
  intros k l a b K H Hab Hb d. subst d. rewrite !prefix_nth by lia.
  assert (Fa := upto_sum k _ ltac:(lia) (firstn_Forall _ _ l a H)).
  assert (Fb := upto_sum k _ ltac:(lia) (firstn_Forall _ _ l b H)).
  assert (LE : fle (fsum (firstn a l)) (fsum (firstn b l)) = true).
  { rewrite (firstn_split _ l a b Hab). unfold fsum. rewrite fold_left_app. apply fsum_ge_acc.
    - apply (upto_nneg (k + 25)), Fa.
    - apply firstn_Forall. rewrite <- (firstn_skipn a l) in H. apply Forall_app in H as [_ H].
      eapply Forall_impl; [|exact H]. intros x X. eapply upto_nneg, X. }
  assert (W : within (k + 25 + 1) (fsub (fsum (firstn b l)) (fsum (firstn a l)))).
  { apply within_sub; [lia| |]; apply upto_within; assumption. }
  apply within_upto.
  - replace (k + 26)%Z with (k + 25 + 1)%Z by lia. exact W.
  - apply fsub_nneg; [exact LE|]. eapply within_nn, W.
Qed.

Lemma diff_real : forall ra rw sa sb ia ib, (0 <= ra -> 0 <= rw -> 0 <= ia <= ib -> ib * u <= / 2 ->
  ra * (1 - ia * u) <= sa <= ra * (1 + 2 * ia * u) -> (ra + rw) * (1 - ib * u) <= sb <= (ra + rw) * (1 + 2 * ib * u) ->
  Rabs (rnd (sb - sa) - rw) <= (ra + rw) * (4 * (ib + 1) * u) + bpow radix2 (-150))%R.
Proof.
  intros ra rw sa sb ia ib Pa Pw Hi Hu Ba Bb. assert (Hu0 : (0 < u)%R) by (rewrite u_val; lra).
  assert (Hm : (ra * (ia * u) <= (ra + rw) * (ib * u))%R).
  { apply Rmult_le_compat; try lra; [apply Rmult_le_pos; lra|apply Rmult_le_compat_r; lra]. }
  assert (Z : (0 <= (ra + rw) * (ib * u))%R) by (apply Rmult_le_pos; [lra|apply Rmult_le_pos; lra]).
  assert (E : (Rabs (sb - sa - rw) <= (ra + rw) * (3 * (ib * u)))%R).
  { apply Rabs_le. split; lra. }
  destruct (rnd_err (sb - sa)) as (e & t & He & Ht & _ & ->).
  assert (U : bpow radix2 (-24) = u) by reflexivity. rewrite U in He.
  apply Rabs_le_inv in Ht. apply Rabs_le_inv in E.
  assert (M : ((ra + rw) * (ib * u) <= (ra + rw) * / 2)%R) by (apply Rmult_le_compat_l; lra).
  assert (X : (Rabs (sb - sa) <= (ra + rw) * 4)%R).
  { apply Rabs_le. split; lra. }
  assert (Y : (Rabs ((sb - sa) * e) <= (ra + rw) * 4 * u)%R).
  { rewrite Rabs_mult. apply Rmult_le_compat; try apply Rabs_pos; assumption. }
  apply Rabs_le_inv in Y. apply Rabs_le. split; lra.
Qed.

(** Distance of a difference of prefix sums from the exact sum of the window. *)
Lemma prefix_diff_err : forall k l a b, (-149 <= k <= 101)%Z -> Forall (upto k) l -> a <= b -> b <= length l ->
  (INR b * u <= / 2)%R ->
  let d := fsub (nth b (prefix_sums l) f0) (nth a (prefix_sums l) f0) in
  (Rabs (B2R d - Rsum (firstn (b - a) (skipn a l))) <= Rsum (firstn b l) * (4 * INR (b + 1) * u) + bpow radix2 (-150))%R.
Proof.
  intros k l a b K H Hab Hb Hu d.
  assert (D := prefix_diff k l a b K H Hab Hb). fold d in D. cbv zeta in D.
  subst d. rewrite !prefix_nth in * by lia.
  assert (Fa := upto_sum k _ ltac:(lia) (firstn_Forall _ _ l a H)).
  assert (Fb := upto_sum k _ ltac:(lia) (firstn_Forall _ _ l b H)).
  assert (NN : forall n, Forall (fun x => nneg x) (firstn n l)).
  { intros n. apply firstn_Forall. eapply Forall_impl; [|exact H]. intros x X. eapply upto_nneg, X. }
  pose proof (fsum_bounds _ (NN a) (upto_fin _ _ Fa)) as Ba.
  pose proof (fsum_bounds _ (NN b) (upto_fin _ _ Fb)) as Bb.
  rewrite !firstn_length, !Nat.min_l in Ba by lia. rewrite !firstn_length, !Nat.min_l in Bb by lia.
  pose proof (Rsum_nonneg _ (NN a)) as Pa.
  assert (Pw : (0 <= Rsum (firstn (b - a) (skipn a l)))%R).
  { apply Rsum_nonneg. specialize (NN b). rewrite (firstn_split _ l a b Hab) in NN. apply Forall_app in NN as [_ N]. exact N. }
  assert (Sp : Rsum (firstn b l) = (Rsum (firstn a l) + Rsum (firstn (b - a) (skipn a l)))%R).
  { rewrite (firstn_split _ l a b Hab) at 1. apply Rsum_app. }
  rewrite (B2R_fsub _ _ (upto_fin _ _ Fb) (upto_fin _ _ Fa) (upto_fin _ _ D)).
  assert (Ia : (INR a <= INR b)%R) by (apply le_INR; lia).
  assert (Hu0 : (0 < u)%R) by (rewrite u_val; lra).
  pose proof (pow_le_1p b Hu) as U1. assert (Hua : (INR a * u <= / 2)%R) by nra.
  pose proof (pow_le_1p a Hua) as U2. pose proof (pow_ge_1m a) as L2. pose proof (pow_ge_1m b) as L1.
  rewrite plus_INR. change (INR 1) with 1%R. rewrite Sp. rewrite Sp in Bb.
  assert (Pp : forall n c, (0 <= c)%R -> (0 <= c * (1 + u) ^ n)%R).
  { intros n c Hc. apply Rmult_le_pos; [exact Hc|]. apply pow_le. lra. }
  apply (diff_real _ _ _ _ (INR a)); auto.
  - split; [apply pos_INR|exact Ia].
  - split; [eapply Rle_trans; [|apply Ba]|eapply Rle_trans; [apply Ba|]]; apply Rmult_le_compat_l; auto.
  - split; [eapply Rle_trans; [|apply Bb]|eapply Rle_trans; [apply Bb|]]; apply Rmult_le_compat_l; auto; lra.
Qed.

(** ** Smoothing over time *)

(** Bin [b] over time. *)
Definition column (spec : list (list f32)) (b : nat) : list f32 := map (fun row => nth b row f0) spec.

Lemma column_P : forall (P : f32 -> Prop) spec nb b, shape nb spec -> b < nb -> Forall (Forall P) spec -> Forall P (column spec b).
Proof.
  intros P spec nb b S B H. apply Forall_map, Forall_forall. intros row R.
  unfold shape in S. rewrite Forall_forall in S, H. specialize (S _ R). specialize (H _ R). rewrite Forall_forall in H.
  apply H, nth_In. lia.
Qed.

Lemma map_nth_slice : forall (l : list f32) n a, a + n <= length l ->
  map (fun j => nth j l f0) (seq a n) = firstn n (skipn a l).
Proof.
  intros l n. induction n as [|n IH]; intros a H; [reflexivity|]. cbn [seq map].
  rewrite IH by lia. destruct (skipn a l) as [|x r] eqn:E.
  - assert (length (skipn a l) = 0) by (rewrite E; reflexivity). rewrite skipn_length in *. lia.
  - cbn [firstn]. f_equal.
    + rewrite <- (firstn_skipn a l), app_nth2; rewrite firstn_length; [|lia]. rewrite Nat.min_l by lia.
      rewrite Nat.sub_diag, E. reflexivity.
    + f_equal. replace (S a) with (1 + a) by lia. clear -E. revert a E. induction l as [|y l IH]; intros a E.
      * rewrite skipn_nil in E. discriminate.
      * destruct a as [|a]; [cbn in *; congruence|]. cbn [skipn] in E. cbn [plus skipn]. apply IH in E. exact E.
Qed.

Lemma window_column : forall spec b m t, t < length spec ->
  map (fun j => nth b (nth j spec []) f0) (window m t (length spec)) =
  firstn (Nat.min (t + m + 1) (length spec) - (t - m)) (skipn (t - m) (column spec b)).
Proof.
  intros spec b m t H. unfold window. rewrite <- map_nth_slice by (unfold column; rewrite map_length; lia).
  apply map_ext_in. intros j J. apply in_seq in J. unfold column.
  rewrite (nth_indep (map _ spec) f0 (nth b [] f0)) by (rewrite map_length; lia).
  rewrite (map_nth (fun row => nth b row f0)). reflexivity.
Qed.

Lemma div_mean : forall k d c rw T e, (-149 <= k < 128)%Z -> upto k d -> 1 <= c -> (Z.of_nat c <= 16777216)%Z -> (0 <= rw)%R ->
  (0 <= T)%R -> (rw <= T)%R -> (0 <= e)%R -> (e <= 4)%R -> (u <= e)%R ->
  (Rabs (B2R d - rw) <= T * e + bpow radix2 (-150))%R ->
  (Rabs (B2R (fdiv d (n2f c)) - rw / INR c) <= T * (2 * e + 5 * u) / INR c + bpow radix2 (-148))%R.
Proof.
  intros k d c rw T e K D C C2 R PT RT E0 E4 UE H.
  destruct (CombFilterProofs.n2f_exact c C2) as [Fc Vc]. rewrite <- INR_IZR_INZ in Vc.
  assert (Pc : (1 <= INR c)%R) by (change 1%R with (INR 1); apply le_INR; exact C).
  assert (Fd := upto_fin _ _ (upto_div_count k d c K D C)).
  rewrite B2R_fdiv, Vc; [|exact Fd|rewrite Vc; lra].
  destruct D as (_ & D0 & _). set (x := B2R d) in *. clearbody x.
  assert (Hu0 : (0 < u)%R) by (rewrite u_val; lra).
  destruct (rnd_err (x / INR c)) as (a & t & Ha & Ht & _ & ->).
  assert (U : bpow radix2 (-24) = u) by reflexivity. rewrite U in Ha.
  assert (B : (bpow radix2 (-148) = 4 * bpow radix2 (-150))%R).
  { replace (-148)%Z with (2 + -150)%Z by lia. rewrite bpow_plus. f_equal. }
  rewrite B. assert (P150 := bpow_gt_0 radix2 (-150)). set (z := bpow radix2 (-150)) in *. clearbody z.
  assert (P : (0 < / INR c <= 1)%R).
  { split; [apply Rinv_0_lt_compat; lra|]. rewrite <- Rinv_1. apply Rinv_le_contravar; lra. }
  unfold Rdiv. set (i := (/ INR c)%R) in *. clearbody i. clear Pc Vc Fd Fc C2.
  replace (x * i * (1 + a) + t - rw * i)%R with ((x - rw) * i + x * i * a + t)%R by ring.
  eapply Rle_trans; [apply Rabs_triang|]. eapply Rle_trans; [apply Rplus_le_compat_r, Rabs_triang|].
  rewrite !Rabs_mult, (Rabs_pos_eq i) by lra. rewrite (Rabs_pos_eq x) by exact D0.
  assert (X : (x <= T * (1 + e) + z)%R) by (apply Rabs_le_inv in H; lra).
  assert (Z1 : (Rabs (x - rw) * i <= T * e * i + z)%R).
  { eapply Rle_trans; [apply Rmult_le_compat_r, H; lra|]. rewrite Rmult_plus_distr_r. apply Rplus_le_compat_l.
    rewrite <- (Rmult_1_r z) at 2. apply Rmult_le_compat_l; lra. }
  assert (Z2 : (x * i * Rabs a <= T * (5 * u) * i + z)%R).
  { eapply Rle_trans; [apply Rmult_le_compat_l, Ha; apply Rmult_le_pos; lra|].
    assert (Ti : (0 <= T * i)%R) by (apply Rmult_le_pos; lra).
    assert (X2 : (x * i <= (T * 5 + z) * i)%R) by (apply Rmult_le_compat_r; [lra|]; nra).
    eapply Rle_trans; [apply Rmult_le_compat_r, X2; lra|].
    assert (zi : (z * i * u <= z)%R).
    { rewrite <- (Rmult_1_r z) at 2. rewrite Rmult_assoc. apply Rmult_le_compat_l; [lra|]. rewrite u_val in *. nra. }
    lra. }
  assert (Te : (0 <= T * e * i)%R) by (apply Rmult_le_pos; [apply Rmult_le_pos|]; lra).
  lra.
Qed.

Lemma smooth_time_run : forall spec nb margin, spec <> [] -> 0 < nb -> shape nb spec -> 0 < margin ->
  smooth_time spec margin = Ok (tabulate (length spec) nb (fun t b =>
    let start := t - margin in
    let stop := Nat.min (t + margin + 1) (length spec) in
    fdiv (fsub (nth stop (prefix_sums (column spec b)) f0) (nth start (prefix_sums (column spec b)) f0))
      (n2f (Nat.max (stop - start) 1)))).
Proof.
  intros spec nb margin N P S M. unfold smooth_time. destruct (Nat.eqb_spec (length spec) 0) as [E|_].
  { apply length_zero_iff_nil in E. congruence. }
  destruct (Nat.eqb_spec margin 0); [lia|]. cbn [orb]. rewrite (check_shape_run _ _ N P S). cbn [obind]. f_equal.
  unfold tabulate. apply map_ext_in. intros t _. apply map_ext_in. intros b B. apply in_seq in B.
  cbv zeta. rewrite !(nth_map_seq _ (fun b => prefix_sums (map (fun row => nth b row f0) spec))) by lia. reflexivity.
Qed.

Lemma smooth_cell : forall spec nb margin k t b, shape nb spec -> (-149 <= k <= 101)%Z ->
  Forall (Forall (upto k)) spec -> (Z.of_nat (length spec) <= 2 ^ 22)%Z -> t < length spec -> b < nb ->
  let start := t - margin in
  let stop := Nat.min (t + margin + 1) (length spec) in
  let v := fdiv (fsub (nth stop (prefix_sums (column spec b)) f0) (nth start (prefix_sums (column spec b)) f0))
      (n2f (Nat.max (stop - start) 1)) in
  let win := map (fun j => nth b (nth j spec []) f0) (window margin t (length spec)) in
  upto (k + 26) v /\ length win = stop - start /\
  (Rabs (B2R v - Rsum win / INR (length win))
   <= Rsum (firstn stop (column spec b)) * (16 * INR (stop + 1) * u) / INR (length win) + bpow radix2 (-148))%R.
Proof.
  intros spec nb margin k t b S K H L T B start stop v win.
  assert (HC := column_P _ _ _ b S B H).
  assert (Lc : length (column spec b) = length spec) by (unfold column; apply map_length).
  assert (Hab : start <= stop) by (subst start stop; lia). assert (Hb : stop <= length (column spec b)) by (rewrite Lc; subst stop; lia).
  assert (D := prefix_diff k _ start stop K HC Hab Hb). cbv zeta in D.
  assert (LW : length win = stop - start).
  { subst win. rewrite map_length. unfold window. apply seq_length. }
  assert (C1 : 1 <= stop - start) by (subst start stop; lia).
  assert (Ev : v = fdiv (fsub (nth stop (prefix_sums (column spec b)) f0) (nth start (prefix_sums (column spec b)) f0))
      (n2f (stop - start))) by (unfold v; do 2 f_equal; lia).
  clearbody v. subst v.
  split; [apply upto_div_count; [lia|exact D|exact C1]|]. split; [exact LW|].
  assert (W : win = firstn (stop - start) (skipn start (column spec b))) by (apply window_column; exact T).
  assert (Is : (INR stop <= 4194304)%R).
  { rewrite INR_IZR_INZ. apply IZR_le. lia. }
  assert (Hu : (INR stop * u <= / 2)%R) by (rewrite u_val; lra).
  assert (E := prefix_diff_err k _ start stop K HC Hab Hb Hu). cbv zeta in E. rewrite <- W in E.
  assert (NN : Forall (fun x => nneg x) (column spec b)) by (eapply Forall_impl; [|exact HC]; intros x X; eapply upto_nneg, X).
  assert (Pw : (0 <= Rsum win)%R).
  { apply Rsum_nonneg. rewrite W. apply firstn_Forall. rewrite <- (firstn_skipn start (column spec b)) in NN. apply Forall_app in NN. apply NN. }
  assert (Ps : (0 <= Rsum (firstn start (column spec b)))%R) by (apply Rsum_nonneg, firstn_Forall, NN).
  assert (Sp : Rsum (firstn stop (column spec b)) = (Rsum (firstn start (column spec b)) + Rsum win)%R).
  { rewrite W, <- Rsum_app. f_equal. apply firstn_split. exact Hab. }
  rewrite LW. assert (Ip : (0 <= INR stop)%R) by apply pos_INR.
  rewrite plus_INR in *. change (INR 1) with 1%R in *.
  assert (PT : (0 <= Rsum (firstn stop (column spec b)))%R) by (rewrite Sp; lra).
  assert (RT : (Rsum win <= Rsum (firstn stop (column spec b)))%R) by (rewrite Sp; lra).
  eapply Rle_trans; [eapply (div_mean (k + 26)); [lia|exact D|exact C1|lia|exact Pw|exact PT|exact RT| | | |exact E]|].
  - rewrite u_val. lra.
  - rewrite u_val. lra.
  - rewrite u_val. lra.
  - apply Rplus_le_compat_r. unfold Rdiv. apply Rmult_le_compat_r.
    + apply Rlt_le, Rinv_0_lt_compat, lt_0_INR. lia.
    + apply Rmult_le_compat_l; [exact PT|]. rewrite u_val. lra.
Qed.

(** ** Masks *)

Lemma upto_check : forall k x, (0 <= k < 128)%Z -> fle f0 x && fle x (lit 1 k) = true -> upto k x.
Proof.
  intros k x K H. apply andb_prop in H as [H1 H2]. eapply upto_le; [exact H1|exact H2|]. apply TempogramProofs.upto_lit. exact K.
Qed.

Lemma eps12_upto : upto 0 (lit 2305843 (-61)) /\ pos (lit 2305843 (-61)).
Proof.
  split; [|vm_compute; reflexivity]. apply in01_upto. split; vm_compute; reflexivity.
Qed.

Lemma mask_01 : forall L p h r, upto 125 (m_powf L h p) -> upto 125 (m_powf L r p) -> in01 (mask_value L p h r).
Proof.
  intros L p h r H R. unfold mask_value. destruct eps12_upto as [E P]. cbv zeta.
  assert (A := upto_add 125 _ _ ltac:(lia) H R). change (125 + 1)%Z with 126%Z in A.
  assert (B := upto_add 126 _ _ ltac:(lia) A (upto_mono 0 126 _ ltac:(lia) E)).
  apply fdiv_le_1.
  - eapply upto_nneg, H.
  - eapply flt_fle_trans; [exact P|]. rewrite fadd_comm. apply fadd_ge_l; [eapply fin_nn, upto_fin, E|eapply upto_nneg, A|].
    rewrite fadd_comm. eapply fin_nn, upto_fin, B.
  - eapply upto_fin, B.
  - eapply fle_trans; [apply fadd_ge_l; [eapply fin_nn, upto_fin, H|eapply upto_nneg, R|eapply fin_nn, upto_fin, A]|].
    apply fadd_ge_l; [eapply fin_nn, upto_fin, A|eapply upto_nneg, E|eapply fin_nn, upto_fin, B].
Qed.

Lemma masked_le : forall x m, fin x -> nneg x -> in01 m -> nneg (fmul x m) /\ fle (fmul x m) x = true.
Proof.
  intros x m F N [M0 M1]. assert (Fm : fin m) by (apply in01_fin; split; assumption).
  split; [apply fmul_nneg_fin; assumption|]. rewrite fmul_comm. apply fmul_le_r; assumption.
Qed.

Lemma clean_ok : forall x, fin (clean x) /\ nneg (clean x).
Proof.
  intros x. unfold clean. destruct (fisfin x) eqn:F; [|split; vm_compute; reflexivity].
  destruct (fmax_case x f0) as [E|E]; rewrite E.
  - split; [exact F|]. rewrite <- E. apply fmax_ge_r. reflexivity.
  - split; vm_compute; reflexivity.
Qed.

Lemma median_mid_spec : forall w, w <> [] -> Forall (fun x => nn x) w ->
  let v := median_mid w in
  In v w /\ 2 * length (filter (fun x => flt x v) w) <= length w /\ length w < 2 * length (filter (fun x => fle x v) w).
Proof.
  intros w N H v.
  assert (L : 0 < length w) by (destruct w; [congruence|cbn; lia]).
  assert (HL : length w / 2 < length (sort_asc w)).
  { rewrite sort_asc_length. apply Nat.div_lt; lia. }
  assert (E : nth_error (sort_asc w) (length w / 2) = Some v) by (apply nth_error_nth'; exact HL).
  pose proof (sorted_rank _ _ _ (sort_asc_nn _ H) (sort_asc_sorted _ H) E) as [R1 R2].
  rewrite count_le_sort in R1. rewrite count_lt_sort in R2. unfold count_le, count_lt in *.
  pose proof (Nat.div_mod (length w) 2 ltac:(lia)). pose proof (Nat.mod_upper_bound (length w) 2 ltac:(lia)).
  split; [|lia]. eapply Permutation_in; [apply Permutation_sym, sort_asc_perm|]. eapply nth_error_In, E.
Qed.

(** ** Downsampling *)

Lemma multiples : forall s n, 0 < s ->
  filter (fun i => i mod s =? 0) (seq 0 n) = map (fun k => k * s) (seq 0 ((n + s - 1) / s)).
Proof.
  intros s n Hs. induction n as [|n IH].
  - cbn [seq filter]. rewrite Nat.div_small by lia. reflexivity.
  - rewrite seq_S, filter_app, IH, Nat.add_0_l. cbn [filter].
    pose proof (Nat.div_mod n s ltac:(lia)) as D. pose proof (Nat.mod_upper_bound n s ltac:(lia)) as M.
    replace (S n + s - 1) with (n + 1 * s) by lia. rewrite Nat.div_add by lia.
    destruct (Nat.eqb_spec (n mod s) 0) as [E|E].
    + replace ((n + s - 1) / s) with (n / s).
      * rewrite Nat.add_1_r, seq_S, map_app. cbn [map]. f_equal. f_equal. lia.
      * apply (Nat.div_unique _ _ _ (s - 1)); lia.
    + rewrite app_nil_r. f_equal. f_equal. symmetry. apply (Nat.div_unique _ _ _ (n mod s - 1)); lia.
Qed.

Lemma step_by_nth : forall A (d : A) s l, 0 < s ->
  step_by s l = map (fun k => nth (k * s) l d) (seq 0 ((length l + s - 1) / s)).
Proof.
  intros A d s l Hs. unfold step_by.
  assert (C : forall a (m : list A), combine (seq a (length m)) m = map (fun i => (i, nth (i - a) m d)) (seq a (length m))).
  { intros a m. revert a. induction m as [|x m IH]; intros a; [reflexivity|]. cbn [length seq combine map].
    rewrite Nat.sub_diag. f_equal. rewrite IH. apply map_ext_in. intros i I. apply in_seq in I.
    replace (i - a) with (S (i - S a)) by lia. reflexivity. }
  rewrite C. rewrite <- (map_map (fun k => k * s) (fun i => nth i l d)), <- multiples by exact Hs.
  generalize (seq 0 (length l)). intros idx. induction idx as [|i idx IH]; [reflexivity|].
  cbn [map filter fst]. destruct (i mod s =? 0); cbn [map snd]; [f_equal; [f_equal; lia|]|]; exact IH.
Qed.
