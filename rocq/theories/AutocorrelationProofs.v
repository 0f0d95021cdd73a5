From Coq Require Import ZArith Bool List Arith Lia Sorted Reals Lra.
From Flocq Require Import Core IEEE754.BinarySingleNaN.
From Verif Require Import Rust F32 F32Facts ListFacts Sorting SortingFacts PeakPicking PeakPickingSpec PeakPickingProofs
  Candidate Autocorrelation.
Import ListNotations.

Lemma fmax0_spec : forall l, is_max0 l (fmax0 l).
Proof. exact max_value_spec. Qed.
Lemma fmax0_nneg : forall l, nneg (fmax0 l).
Proof. intros l. destruct (fmax0_spec l) as (_ & H & _). exact H. Qed.
Lemma fmax0_ge : forall l x, In x l -> nn x -> fle x (fmax0 l) = true.
Proof. intros l x I N. destruct (fmax0_spec l) as (_ & _ & H). auto. Qed.

Lemma ratio01 : forall v m, nneg v -> pos m -> in01 (fmin (fdiv v m) f1).
Proof.
  intros v m V M. destruct (is_nan (fdiv v m)) eqn:N.
  - unfold fmin, fisnan. rewrite N. apply in01_1.
  - split.
    + apply fmin_glb; intros; [now apply fdiv_nneg|reflexivity|now left].
    + now apply fmin_le_r.
Qed.

Lemma acf_nneg : forall F s, Forall (fun x => nneg x) (autocorr_fft F s).
Proof.
  intros F s. unfold autocorr_fft. rewrite Forall_map. apply Forall_forall. intros z _. now apply fmax_ge_r.
Qed.
Lemma next_pow2_ge : forall n, n <= next_pow2 n.
Proof. intros [|n]; unfold next_pow2; [lia|]. destruct n; [simpl; lia|]. apply Nat.log2_up_spec. lia. Qed.
Lemma acf_length : forall F s, length (autocorr_fft F s) = length s.
Proof.
  intros F s. unfold autocorr_fft. rewrite map_length, firstn_length, fft_inverse_len, map_length, fft_forward_len.
  rewrite app_length, map_length, repeat_length. pose proof (next_pow2_ge (2 * length s)). lia.
Qed.

(** The test made at position i. *)
Definition peak_at (s : list f32) (mp : f32) (i : nat) : bool :=
  flt (nth (i - 1) s f0) (nth i s f0) && flt (nth (i + 1) s f0) (nth i s f0)
  && fle mp (fsub (nth i s f0) (fmax (nth (i - 1) s f0) (nth (i + 1) s f0))).
Definition tag (s : list f32) (offset i : nat) : nat * f32 := (i + offset, nth i s f0).

Lemma acf_step_eq : forall s offset mp peaks i,
  acf_step s offset mp peaks i =
  if peak_at s mp i then
    match peaks with
    | [] => [tag s offset i]
    | last :: rest =>
        if (2 <=? Z.abs (as_i32 (Z.of_nat (i + offset)) - as_i32 (Z.of_nat (fst last))))%Z
        then tag s offset i :: peaks
        else if fgt (nth i s f0) (snd last) then tag s offset i :: rest else peaks
    end
  else peaks.
Proof.
  intros. unfold acf_step, peak_at, fgt, fge, tag, flt, fle.
  destruct (Bltb _ _ && Bltb _ _); cbn [andb]; auto.
Qed.

(** Two neighbouring positions cannot both be peaks. *)
Lemma peak_at_spaced : forall s mp i, 0 < i -> peak_at s mp i = true -> peak_at s mp (i + 1) = true -> False.
Proof.
  intros s mp i Hi A B. unfold peak_at in A, B. rewrite !andb_true_iff in A, B.
  destruct A as ((_ & A) & _), B as ((B & _) & _).
  replace (i + 1 - 1) with i in B by lia. apply flt_asym in A. congruence.
Qed.

Lemma acf_fold_sound : forall s offset mp l peaks p, In p (fold_left (acf_step s offset mp) l peaks) ->
  In p peaks \/ exists i, In i l /\ peak_at s mp i = true /\ p = tag s offset i.
Proof.
  intros s offset mp l. induction l as [|i l IH]; intros peaks p H; cbn [fold_left] in H; auto.
  apply IH in H. destruct H as [H|(j & J & P & ->)].
  - rewrite acf_step_eq in H. destruct (peak_at s mp i) eqn:P; auto.
    destruct peaks as [|q peaks].
    + destruct H as [<-|[]]. right. exists i. simpl; auto.
    + destruct (2 <=? _)%Z; [|destruct (fgt _ _)]; try (simpl in H |- *; tauto);
      (destruct H as [<-|H]; [right; exists i; simpl; auto|simpl in H |- *; tauto]).
  - right. exists j. simpl; auto.
Qed.

Lemma acf_fold_eq : forall s offset mp k, (Z.of_nat (k + offset) < 2147483647)%Z ->
  fold_left (acf_step s offset mp) (seq 1 k) [] = rev (map (tag s offset) (filter (peak_at s mp) (seq 1 k))).
Proof.
  intros s offset mp k. induction k as [|k IH]; intros B; [reflexivity|].
  rewrite seq_S, fold_left_app, IH by lia. rewrite filter_app, map_app, rev_app_distr.
  cbn [fold_left filter]. rewrite acf_step_eq. replace (1 + k) with (S k) by lia.
  destruct (peak_at s mp (S k)) eqn:P; cbn [map rev app]; auto.
  set (r := rev (map (tag s offset) (filter (peak_at s mp) (seq 1 k)))).
  assert (R : forall q, In q r -> exists j, 1 <= j <= k /\ peak_at s mp j = true /\ q = tag s offset j).
  { intros q Q. unfold r in Q. rewrite <- in_rev, in_map_iff in Q. destruct Q as (j & <- & J).
    rewrite filter_In, in_seq in J. exists j. split; [lia|]. split; [apply J|reflexivity]. }
  destruct r as [|q r']; auto. destruct (R q (or_introl eq_refl)) as (j & J & Pj & ->).
  assert (j <> k). { intros ->. apply (peak_at_spaced s mp k); auto. lia. replace (k + 1) with (S k) by lia. auto. }
  cbn [tag fst]. rewrite !as_i32_small by lia.
  replace (2 <=? _)%Z with true; auto. symmetry. apply Z.leb_le. lia.
Qed.

Lemma find_acf_in : forall s offset p, In p (find_acf_peaks s offset) ->
  exists i, 1 <= i < length s - 1 /\ flt (fmax0 s) eps10 = false /\
     peak_at s (fmul (fmax0 s) (lit 13421773 (-27))) i = true /\ p = tag s offset i.
Proof.
  intros s offset p H. unfold find_acf_peaks in H. destruct s as [|x s]; [destruct H|].
  destruct (flt _ eps10) eqn:E; [destruct H|]. rewrite sort_desc_in, <- in_rev in H.
  apply acf_fold_sound in H. destruct H as [[]|(i & I & P & ->)].
  rewrite in_seq in I. exists i. split; [lia|]. auto.
Qed.
Lemma find_acf_complete : forall s offset i, (Z.of_nat (length s + offset) < 2147483647)%Z ->
  1 <= i < length s - 1 -> flt (fmax0 s) eps10 = false ->
  peak_at s (fmul (fmax0 s) (lit 13421773 (-27))) i = true -> In (tag s offset i) (find_acf_peaks s offset).
Proof.
  intros s offset i B I E P. unfold find_acf_peaks. destruct s as [|x s]; [simpl in I; lia|]. rewrite E.
  rewrite sort_desc_in, <- in_rev, acf_fold_eq by lia. rewrite <- in_rev. apply in_map.
  apply filter_In. split; auto. apply in_seq. lia.
Qed.

(** A significant peak of the autocorrelation at lag L, within the lags lo..hi. *)
Definition significant (acf : list f32) (lo hi L : nat) (v : f32) : Prop :=
  lo < L < hi /\ exists l r m,
    nth_error acf (L - 1) = Some l /\ nth_error acf L = Some v /\ nth_error acf (L + 1) = Some r /\
    flt l v = true /\ flt r v = true /\
    is_max0 (slice acf lo (hi + 1)) m /\ flt m eps10 = false /\
    fle (fmul m (lit 13421773 (-27))) (fsub v (fmax l r)) = true.

Lemma nth_slice : forall (acf : list f32) lo hi i, hi <= length acf -> i < hi - lo ->
  nth_error acf (lo + i) = Some (nth i (slice acf lo hi) f0).
Proof.
  intros acf lo hi i H I. rewrite <- nth_error_slice with (b := hi) by auto.
  apply nth_error_nth'. rewrite slice_length by auto. auto.
Qed.

Lemma peaks_iff : forall acf lo hi L v, hi < length acf -> lo < hi ->
  (In (L, v) (find_acf_peaks (slice acf lo (hi + 1)) lo) -> significant acf lo hi L v) /\
  ((Z.of_nat (length acf) < 2147483647)%Z -> significant acf lo hi L v ->
    In (L, v) (find_acf_peaks (slice acf lo (hi + 1)) lo)).
Proof.
  intros acf lo hi L v H LH. assert (Len : length (slice acf lo (hi + 1)) = hi + 1 - lo) by (apply slice_length; lia).
  split.
  - intros I. apply find_acf_in in I as (i & I & E & P & T). rewrite Len in I. injection T as -> ->.
    unfold peak_at in P. rewrite !andb_true_iff in P. destruct P as ((P1 & P2) & P3).
    split; [lia|]. set (s := slice acf lo (hi + 1)) in *.
    exists (nth (i - 1) s f0), (nth (i + 1) s f0), (fmax0 s).
    split; [|split; [|split]]; [| | |split; [|split; [|split; [|split]]]]; auto using fmax0_spec.
    + replace (i + lo - 1) with (lo + (i - 1)) by lia. unfold s; apply nth_slice; lia.
    + replace (i + lo) with (lo + i) by lia. unfold s; apply nth_slice; lia.
    + replace (i + lo + 1) with (lo + (i + 1)) by lia. unfold s; apply nth_slice; lia.
  - intros B (R & l & r & m & N1 & N2 & N3 & A & A' & Mx & M & P).
    assert (m = fmax0 (slice acf lo (hi + 1))) as ->.
    { destruct (is_max0_unique _ _ _ Mx (fmax0_spec (slice acf lo (hi + 1)))) as (U1 & U2).
      apply fle_antisym_pos; auto. apply flt_false_fle in M; [|apply (fle_nn _ _ U1)|reflexivity].
      eapply flt_fle_trans; [|exact M]. reflexivity. }
    pose proof (nth_slice acf lo (hi + 1) (L - lo - 1) ltac:(lia) ltac:(lia)) as S1.
    pose proof (nth_slice acf lo (hi + 1) (L - lo) ltac:(lia) ltac:(lia)) as S2.
    pose proof (nth_slice acf lo (hi + 1) (L - lo + 1) ltac:(lia) ltac:(lia)) as S3.
    replace (lo + (L - lo - 1)) with (L - 1) in S1 by lia. replace (lo + (L - lo)) with L in S2 by lia.
    replace (lo + (L - lo + 1)) with (L + 1) in S3 by lia.
    assert (T : (L, v) = tag (slice acf lo (hi + 1)) lo (L - lo)).
    { unfold tag. f_equal; [lia|congruence]. }
    rewrite T. apply find_acf_complete; auto; try lia.
    unfold peak_at. rewrite !andb_true_iff.
    replace (nth (L - lo - 1) (slice acf lo (hi + 1)) f0) with l by congruence.
    replace (nth (L - lo) (slice acf lo (hi + 1)) f0) with v by congruence.
    replace (nth (L - lo + 1) (slice acf lo (hi + 1)) f0) with r by congruence. auto.
Qed.

(** What an accepted call returns. *)
Definition ac_valid (onsets : list nat) (rate hop : nat) (min_bpm max_bpm : f32) : Prop :=
  onsets <> [] /\ rate <> 0 /\ hop <> 0 /\ fle min_bpm f0 = false /\ fle max_bpm f0 = false /\
  fle max_bpm min_bpm = false.

Lemma estimate_ok : forall F onsets rate hop mn mx cs, estimate_autocorr F onsets rate hop mn mx = Ok cs ->
  cs = [] \/
  (ac_valid onsets rate hop mn mx /\
   let acf := autocorr_fft F (beat_signal onsets hop) in
   exists lo hi, lo < hi /\ hi < length acf /\
     Z.of_nat lo = f2usize (fceil (fdiv (sixty_rate rate) (fmul mx (n2f hop)))) /\
     Z.of_nat hi = f2usize (ffloor (fdiv (sixty_rate rate) (fmul mn (n2f hop)))) /\
     cs = sort_desc c_conf (flat_map (acf_candidate acf rate hop mn mx) (find_acf_peaks (slice acf lo (hi + 1)) lo))).
Proof.
  intros F onsets rate hop mn mx cs H. unfold estimate_autocorr in H.
  destruct (Nat.eqb_spec (length onsets) 0); [discriminate|].
  destruct (Nat.eqb_spec rate 0); [discriminate|]. destruct (Nat.eqb_spec hop 0); [discriminate|].
  destruct (fle mn f0) eqn:E1; [discriminate|]. destruct (fle mx f0) eqn:E2; [discriminate|].
  cbn [orb] in H. unfold fge in H. change (Bleb mx mn) with (fle mx mn) in H.
  destruct (fle mx mn) eqn:E3; [discriminate|].
  destruct (length onsets <? 2); [injection H as <-; auto|].
  destruct (_ <? 2); [discriminate|].
  set (acf := autocorr_fft F (beat_signal onsets hop)) in *.
  set (a := f2usize (fceil (fdiv (sixty_rate rate) (fmul mx (n2f hop))))) in *.
  set (b := f2usize (ffloor (fdiv (sixty_rate rate) (fmul mn (n2f hop))))) in *.
  pose proof (f2usize_bounds (fceil (fdiv (sixty_rate rate) (fmul mx (n2f hop))))) as Ba. fold a in Ba.
  pose proof (f2usize_bounds (ffloor (fdiv (sixty_rate rate) (fmul mn (n2f hop))))) as Bb. fold b in Bb.
  destruct ((b <=? a)%Z || _ || _) eqn:G; [injection H as <-; auto|].
  rewrite !orb_false_iff, !Z.leb_gt in G. destruct G as ((G1 & G2) & G3).
  right. split; [repeat split; auto; destruct onsets; simpl in *; congruence|].
  exists (Z.to_nat a), (Z.to_nat b). unfold slice_chk in H.
  replace ((Z.to_nat a <=? Z.to_nat b + 1) && (Z.to_nat b + 1 <=? length acf)) with true in H.
  - cbn [obind] in H. injection H as <-. repeat split; auto; try lia; rewrite Z2Nat.id; auto; lia.
  - symmetry. apply andb_true_intro. split; apply Nat.leb_le; lia.
Qed.

Lemma acf_candidate_in : forall acf rate hop mn mx p c, In c (acf_candidate acf rate hop mn mx p) <->
  fle mn (lag_bpm rate hop (fst p)) = true /\ fle (lag_bpm rate hop (fst p)) mx = true /\
  c = mkCand (lag_bpm rate hop (fst p)) (if fgt (fmax0 acf) eps10 then fmin (fdiv (snd p) (fmax0 acf)) f1 else f0).
Proof.
  intros. unfold acf_candidate, fge. change (Bleb mn (lag_bpm rate hop (fst p))) with (fle mn (lag_bpm rate hop (fst p))).
  destruct (fle mn _); cbn [andb]; [|split; [intros []|intros ([=] & _)]].
  destruct (fle _ mx); [|split; [intros []|intros (_ & [=] & _)]].
  cbn [In]. split; [intros [<-|[]]; auto|intros (_ & _ & ->); auto].
Qed.
