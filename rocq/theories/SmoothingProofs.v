(** Proofs about chroma smoothing (src/features/chroma/smoothing.rs). *)
From Coq Require Import Reals Lra Sorted.
From Flocq Require Import Core.
From Verif Require Import Rust F32 F32Facts F32More ListFacts Sorting SortingFacts Threshold ThresholdProofs Means
  Hmm BeatGridProofs HpssProofs Chroma.
Close Scope R_scope.

(** A sequence of frames with [m] bins each. *)
Definition rect (m : nat) (c : list (list f32)) : Prop := Forall (fun r => length r = m) c.
(** Bin [s] of frame [j]. *)
Definition at_bin (c : list (list f32)) (s j : nat) : f32 := nth s (nth j c []) f0.
(** Frames of a window of [w] frames around [i] (starting w/2 frames before it) that exist. *)
Definition near_frames (n w i : nat) : list nat :=
  filter (fun j => (i <=? j + w / 2) && (j + w / 2 <? i + w)) (seq 0 n).

Lemma filter_range : forall n a b, filter (fun j => (a <=? j) && (j <? b)) (seq 0 n) = seq a (Nat.min n b - a).
Proof.
  induction n as [|n IH]; intros a b; [reflexivity|]. rewrite seq_S, filter_app, IH, Nat.add_0_l.
  cbn [filter]. destruct (Nat.leb_spec a n), (Nat.ltb_spec n b); cbn [andb].
  - replace (Nat.min n b - a) with (n - a) by lia. replace (Nat.min (S n) b - a) with (S (n - a)) by lia.
    rewrite seq_S. f_equal. f_equal. lia.
  - rewrite app_nil_r. f_equal. lia.
  - rewrite app_nil_r. f_equal. lia.
  - rewrite app_nil_r. f_equal. lia.
Qed.

Lemma near_seq : forall n w i, near_frames n w i = seq (i - w / 2) (Nat.min n (i + w - w / 2) - (i - w / 2)).
Proof.
  intros n w i. unfold near_frames. rewrite <- filter_range. apply filter_ext. intros j.
  assert (w / 2 <= w) by (apply Nat.div_le_upper_bound; lia). f_equal.
  - destruct (Nat.leb_spec i (j + w / 2)), (Nat.leb_spec (i - w / 2) j); lia || reflexivity.
  - destruct (Nat.ltb_spec (j + w / 2) (i + w)), (Nat.ltb_spec j (i + w - w / 2)); lia || reflexivity.
Qed.

Lemma offsets_seq : forall (A : Type) (v : nat -> A) n h i w, i < n -> h <= w ->
  concat (map (fun o => if (h <=? i + o) && (i + o - h <? n) then [v (i + o - h)] else []) (seq 0 w))
  = map v (seq (i - h) (Nat.min n (i + w - h) - (i - h))).
Proof.
  intros A v n h i w Hi Hw. clear Hw. induction w as [|w IH].
  - cbn [seq map concat]. replace (Nat.min n (i + 0 - h) - (i - h)) with 0 by lia. reflexivity.
  - rewrite seq_S, map_app, concat_app, IH, Nat.add_0_l. cbn [map concat]. rewrite app_nil_r.
    destruct (Nat.leb_spec h (i + w)), (Nat.ltb_spec (i + w - h) n); cbn [andb].
    + replace (Nat.min n (i + w - h) - (i - h)) with (i + w - h - (i - h)) by lia.
      replace (Nat.min n (i + S w - h) - (i - h)) with (S (i + w - h - (i - h))) by lia.
      rewrite seq_S, map_app. cbn [map]. do 3 f_equal. lia.
    + rewrite app_nil_r. do 2 f_equal. lia.
    + rewrite app_nil_r. do 2 f_equal. lia.
    + rewrite app_nil_r. do 2 f_equal. lia.
Qed.

Lemma as_i32_small : forall n : nat, (Z.of_nat n < 2 ^ 31)%Z -> as_i32 (Z.of_nat n) = Z.of_nat n.
Proof. intros n H. unfold as_i32. rewrite Z.mod_small; lia. Qed.
Lemma i32_chk_ok : forall z, (- 2 ^ 31 <= z < 2 ^ 31)%Z -> i32_chk z = Ok z.
Proof.
  intros z H. unfold i32_chk. replace (_ && _)%bool with true; [reflexivity|]. symmetry. apply andb_true_iff. lia.
Qed.

Lemma rect_row : forall m c j, rect m c -> j < length c -> exists r, nth_error c j = Some r /\ nth j c [] = r /\ length r = m.
Proof.
  intros m c j R J. destruct (nth_error c j) as [r|] eqn:E; [|apply nth_error_None in E; lia].
  exists r. split; auto. split; [now apply nth_error_nth|].
  apply nth_error_In in E. now apply (proj1 (Forall_forall _ _) R).
Qed.

Lemma window_values_ok : forall m c w i s, rect m c -> i < length c -> s < m ->
  (Z.of_nat (length c) < 2 ^ 30)%Z -> (Z.of_nat w < 2 ^ 30)%Z ->
  window_values c w (w / 2) i s = Ok (map (at_bin c s) (near_frames (length c) w i)).
Proof.
  intros m c w i s R Hi Hs Hn Hw. assert (Hh : w / 2 <= w) by (apply Nat.div_le_upper_bound; lia).
  unfold window_values.
  assert (E : oseq (map (offset_value c (w / 2) i s) (seq 0 w)) =
    Ok (map (fun o => if (w / 2 <=? i + o) && (i + o - w / 2 <? length c) then [at_bin c s (i + o - w / 2)] else [])
            (seq 0 w))).
  { apply oseq_Ok. rewrite map_map. apply map_ext_in. intros o Ho. apply in_seq in Ho. unfold offset_value.
    rewrite !as_i32_small, i32_chk_ok by lia. cbn [obind]. rewrite i32_chk_ok by lia. cbn [obind].
    destruct (Nat.leb_spec (w / 2) (i + o)), (Nat.ltb_spec (i + o - w / 2) (length c)); cbn [andb].
    - replace (_ && _)%bool with true by (symmetry; apply andb_true_iff; lia).
      replace (Z.to_nat _) with (i + o - w / 2) by lia.
      destruct (rect_row m c (i + o - w / 2) R ltac:(auto)) as (r & E1 & E2 & E3).
      unfold get at 1. rewrite E1. cbn [obind]. unfold at_bin. rewrite E2. unfold get.
      rewrite (nth_error_nth' r f0) by lia. reflexivity.
    - replace (_ && _)%bool with false by (symmetry; apply andb_false_iff; lia). reflexivity.
    - replace (_ && _)%bool with false by (symmetry; apply andb_false_iff; lia). reflexivity.
    - replace (_ && _)%bool with false by (symmetry; apply andb_false_iff; lia). reflexivity. }
  rewrite E. cbn [omap]. f_equal. rewrite near_seq. apply offsets_seq; auto.
Qed.

Lemma near_self : forall n w i, i < n -> 0 < w -> In i (near_frames n w i).
Proof.
  intros n w i H W. apply filter_In. split; [apply in_seq; lia|].
  assert (w / 2 < w) by (apply Nat.div_lt; lia). apply andb_true_iff. split; [apply Nat.leb_le|apply Nat.ltb_lt]; lia.
Qed.
Lemma near_lt : forall n w i j, In j (near_frames n w i) -> j < n.
Proof. intros n w i j H. apply filter_In in H. destruct H as (H & _). apply in_seq in H. lia. Qed.

(** The element at position len/2 of a sorted list: at most half are smaller, more than half are not larger. *)
Lemma upper_median : forall w l v, w <> [] -> Forall (fun x => nn x) w -> sort_times (fun x => x) w = Ok l ->
  get l (length l / 2) = Ok v ->
  In v w /\ 2 * length (filter (fun x => flt x v) w) <= length w /\ length w < 2 * length (filter (fun x => fle x v) w).
Proof.
  intros w l v NE N H G. apply sort_times_ok in H. destruct H as (P & S). apply get_Ok in G.
  assert (Il : In v w) by (apply nth_error_In in G; eapply Permutation_in; [symmetry; exact P|exact G]).
  split; auto. pose proof (Permutation_length P) as L.
  assert (Nl : Forall (fun x => nn x) l) by (eapply Permutation_Forall; eauto).
  destruct (sorted_rank l (length l / 2) v Nl S G) as (A & B). unfold count_lt, count_le in *.
  rewrite (filter_perm_length _ (fun x => flt x v) w l), (filter_perm_length _ (fun x => fle x v) w l) by auto.
  rewrite L. pose proof (Nat.div_mod (length l) 2 ltac:(lia)). pose proof (Nat.mod_upper_bound (length l) 2 ltac:(lia)).
  lia.
Qed.

Lemma smooth_cells_ok : forall cell c m (P : nat -> nat -> f32 -> Prop), rect m c -> c <> [] ->
  (forall i s, i < length c -> s < m -> exists v, cell i s = Ok v /\ P i s v) ->
  exists r, smooth_cells cell c = Ok r /\ length r = length c /\ rect m r /\
    forall i s, i < length c -> s < m -> P i s (at_bin r s i).
Proof.
  intros cell c m P R NE H. unfold smooth_cells.
  assert (M : length (nth 0 c []) = m).
  { destruct c as [|r c]; [congruence|]. now apply Forall_inv in R. }
  rewrite M.
  assert (Row : forall i, i < length c -> exists row, oseq (map (cell i) (seq 0 m)) = Ok row /\ length row = m /\
    forall s, s < m -> P i s (nth s row f0)).
  { intros i Hi. destruct (oseq_map_total _ _ (cell i) (seq 0 m)) as (row & E).
    { intros s Hs. apply in_seq in Hs. destruct (H i s Hi ltac:(lia)) as (v & -> & _). eauto. }
    exists row. split; auto. apply oseq_Ok in E.
    assert (Lr : length row = m) by (apply (f_equal (@length _)) in E; rewrite !map_length, seq_length in E; auto).
    split; auto. intros s Hs. apply (f_equal (fun l => nth_error l s)) in E.
    rewrite !nth_error_map, (nth_error_nth' _ 0), seq_nth in E by (rewrite ?seq_length; lia). cbn [option_map Nat.add] in E.
    rewrite (nth_error_nth' row f0) in E by lia. cbn [option_map] in E.
    destruct (H i s Hi Hs) as (v & Ev & Pv). rewrite Ev in E. injection E as <-. exact Pv. }
  destruct (oseq_map_total _ _ (fun i => oseq (map (cell i) (seq 0 m))) (seq 0 (length c))) as (r & E).
  { intros i Hi. apply in_seq in Hi. destruct (Row i ltac:(lia)) as (row & -> & _). eauto. }
  exists r. split; auto. apply oseq_Ok in E.
  assert (Lr : length r = length c) by (apply (f_equal (@length _)) in E; rewrite !map_length, seq_length in E; auto).
  assert (Nth : forall i, i < length c -> nth_error r i = Some (nth i r []) /\ length (nth i r []) = m /\
    forall s, s < m -> P i s (at_bin r s i)).
  { intros i Hi. pose proof E as E'. apply (f_equal (fun l => nth_error l i)) in E'.
    rewrite !nth_error_map, (nth_error_nth' _ 0), seq_nth in E' by (rewrite ?seq_length; lia). cbn [option_map Nat.add] in E'.
    rewrite (nth_error_nth' r []) in E' by lia. cbn [option_map] in E'.
    destruct (Row i Hi) as (row & Er & Lrow & Pr). rewrite Er in E'. injection E' as E'.
    split; [apply nth_error_nth'; lia|]. unfold at_bin. rewrite <- E'. auto. }
  split; auto. split.
  - apply Forall_forall. intros row Hrow. apply In_nth_error in Hrow. destruct Hrow as (i & Hi).
    assert (i < length c) by (rewrite <- Lr; apply nth_error_Some; congruence).
    destruct (Nth i ltac:(auto)) as (A & B & _). congruence.
  - intros i s Hi Hs. now apply Nth.
Qed.

(** Frames that existing code sees as a valid chroma sequence: no NaN. *)
Definition no_nan (c : list (list f32)) : Prop := Forall (Forall (fun x => nn x)) c.
Lemma at_bin_P : forall (P : f32 -> Prop) m c s j, Forall (Forall P) c -> rect m c -> j < length c -> s < m -> P (at_bin c s j).
Proof.
  intros P m c s j H R J S. destruct (rect_row m c j R J) as (r & E1 & E2 & E3). unfold at_bin. rewrite E2.
  apply nth_error_In in E1. apply (proj1 (Forall_forall _ _) H) in E1.
  apply (proj1 (Forall_forall _ _) E1). apply nth_In. lia.
Qed.

Lemma near_P : forall (P : f32 -> Prop) m c w i s, Forall (Forall P) c -> rect m c -> s < m ->
  Forall P (map (at_bin c s) (near_frames (length c) w i)).
Proof.
  intros P m c w i s H R S. apply Forall_map, Forall_forall. intros j Hj. apply near_lt in Hj. eapply at_bin_P; eauto.
Qed.
Lemma near_nonempty : forall (c : list (list f32)) w i s, i < length c -> 0 < w -> map (at_bin c s) (near_frames (length c) w i) <> [].
Proof.
  intros c w i s H W E. apply map_eq_nil in E. pose proof (near_self (length c) w i H W) as I. rewrite E in I. destruct I.
Qed.

Lemma odd_half : forall w, (if Nat.even w then w + 1 else w) / 2 = w / 2.
Proof.
  intros w. destruct (Nat.even w) eqn:E; auto. apply Nat.even_spec in E. destruct E as (k & ->).
  rewrite (Nat.mul_comm 2 k), Nat.div_add_l, Nat.div_mul by lia. reflexivity || (cbn; lia).
Qed.

(** Values of bin [s] in the frames from [lo] before to [hi] after frame [i]. *)
Definition window_bin (c : list (list f32)) (s i lo hi : nat) : list f32 :=
  map (fun j => nth s (nth j c []) f0) (filter (fun j => (i <=? j + lo) && (j <=? i + hi)) (seq 0 (length c))).

Lemma near_window : forall c s i w lo hi, 0 < w -> lo = w / 2 -> hi = w - 1 - w / 2 ->
  map (at_bin c s) (near_frames (length c) w i) = window_bin c s i lo hi.
Proof.
  intros c s i w lo hi W -> ->. unfold window_bin. change (fun j => nth s (nth j c []) f0) with (at_bin c s). f_equal.
  unfold near_frames. apply filter_ext. intros j. f_equal.
  assert (w / 2 < w) by (apply Nat.div_lt; lia).
  destruct (Nat.ltb_spec (j + w / 2) (i + w)), (Nat.leb_spec j (i + (w - 1 - w / 2))); lia || reflexivity.
Qed.
Lemma window_single : forall c s i, i < length c -> window_bin c s i 0 0 = [at_bin c s i].
Proof.
  intros c s i H. rewrite <- (near_window c s i 1 0 0) by (reflexivity || lia). rewrite near_seq.
  change (1 / 2) with 0. rewrite !Nat.sub_0_r. replace (Nat.min (length c) (i + 1) - i) with 1 by lia. reflexivity.
Qed.

Lemma flt_self_false : forall x, flt x x = false.
Proof. intros x. apply flt_irrefl. Qed.

Lemma median_ok : forall m c w, rect m c -> Forall (Forall (fun x => nn x)) c ->
  (Z.of_nat (length c) < 2 ^ 30)%Z -> (Z.of_nat w < 2 ^ 29)%Z ->
  exists r, smooth_chroma c w = Ok r /\ length r = length c /\ rect m r /\
    forall i s, i < length c -> s < m ->
      let v := at_bin r s i in let win := window_bin c s i (w / 2) (w / 2) in
      In v win /\ 2 * length (filter (fun x => flt x v) win) <= length win /\
      length win < 2 * length (filter (fun x => fle x v) win).
Proof.
  intros m c w R N Hn Hw. unfold smooth_chroma.
  destruct (Nat.eqb_spec (length c) 0) as [E|E].
  { destruct c; [|discriminate]. exists []. split; auto. split; auto. split; [constructor|]. intros i s Hi. simpl in Hi. lia. }
  destruct ((w =? 0) || (w =? 1)) eqn:E1.
  { exists c. split; auto. split; auto. split; auto. intros i s Hi Hs. cbv zeta.
    replace (w / 2) with 0 by (apply orb_true_iff in E1; destruct E1 as [E1|E1]; apply Nat.eqb_eq in E1; subst; reflexivity).
    rewrite window_single by auto. cbn [filter length].
    pose proof (at_bin_P _ m c s i N R Hi Hs) as Nv.
    rewrite flt_irrefl, fle_refl by auto. cbn [length]. split; [now left|lia]. }
  set (w' := if Nat.even w then w + 1 else w).
  assert (W0 : 0 < w').
  { unfold w'. apply orb_false_iff in E1. destruct E1 as (A & _). apply Nat.eqb_neq in A. destruct (Nat.even w); lia. }
  assert (W1 : (Z.of_nat w' < 2 ^ 30)%Z) by (unfold w'; destruct (Nat.even w); lia).
  assert (H2 : w' / 2 = w / 2) by apply odd_half.
  assert (H3 : w' - 1 - w' / 2 = w / 2).
  { rewrite H2. unfold w'. destruct (Nat.even w) eqn:Ev.
    - apply Nat.even_spec in Ev. destruct Ev as (k & ->). rewrite Nat.mul_comm, Nat.div_mul by lia. lia.
    - assert (Od : Nat.odd w = true) by (unfold Nat.odd; now rewrite Ev). apply Nat.odd_spec in Od. destruct Od as (k & ->).
      rewrite Nat.mul_comm, Nat.div_add_l by lia. change (1 / 2) with 0. lia. }
  apply (smooth_cells_ok (median_cell c w') c m (fun i s v => let win := window_bin c s i (w / 2) (w / 2) in
      In v win /\ 2 * length (filter (fun x => flt x v) win) <= length win /\
      length win < 2 * length (filter (fun x => fle x v) win))); auto.
  { intros ->. now apply E. }
  intros i s Hi Hs. unfold median_cell. rewrite (window_values_ok m) by auto. cbn [obind].
  rewrite (near_window c s i w' (w / 2) (w / 2)) by auto.
  assert (NE : window_bin c s i (w / 2) (w / 2) <> []).
  { rewrite <- (near_window c s i w') by auto. now apply near_nonempty. }
  assert (Nw : Forall (fun x => nn x) (window_bin c s i (w / 2) (w / 2))).
  { rewrite <- (near_window c s i w') by auto. now apply near_P with (m := m). }
  set (win := window_bin c s i (w / 2) (w / 2)) in *.
  destruct (Nat.eqb_spec (length win) 0) as [E2|E2]; [destruct win; [congruence|discriminate]|].
  destruct (sort_times_total _ (fun x => x) win Nw) as (l & El). rewrite El. cbn [obind].
  assert (Ll : length l = length win).
  { apply sort_times_ok in El. destruct El as (P & _). symmetry. now apply Permutation_length. }
  destruct (get_lt _ l (length l / 2)) as (v & Ev). { apply Nat.div_lt; lia. }
  exists v. split; auto. cbv zeta. eapply upper_median; eauto.
Qed.

Local Open Scope R_scope.
From Verif Require Import FloatSums.
(** Mean of at most 2^22 values in [0,1]. *)
Lemma mean_bounds : forall l, l <> [] -> (Z.of_nat (length l) <= 2 ^ 22)%Z -> Forall in01 l ->
  Rabs (B2R (fdiv (fsum l) (n2f (length l))) - Rsum l / INR (length l))
    <= Rsum l / INR (length l) * (2 * INR (length l + 1) * u) + eta.
Proof.
  intros l NE Ln H. pose proof u_val as U.
  assert (P1 : (1 <= length l)%nat) by (destruct l; [congruence|cbn [length]; lia]).
  set (n := length l) in *.
  assert (Hn : Forall (fun x => nneg x) l) by (eapply Forall_impl; [|exact H]; intros x (A & _); exact A).
  destruct (sum_cap l f0 0 ltac:(lia) H eq_refl eq_refl) as (Ns & Us).
  assert (Fs : fin (fsum l)).
  { apply (fin_between f0 _ (z2f (cap (0 + Z.of_nat (length l))))); auto.
    apply z2f_fin. unfold cap. lia. }
  destruct (fsum_bounds l Hn Fs) as (A & B). fold n in A, B.
  assert (Fn : fin (n2f n)) by (apply z2f_fin; lia).
  assert (Vn : B2R (n2f n) = INR n).
  { unfold n2f. destruct (z2f_exact (Z.of_nat n)) as (_ & E); [lia|]. rewrite E. symmetry. apply INR_IZR_INZ. }
  assert (N1 : 1 <= INR n) by (apply (le_INR 1); auto).
  assert (S0 : 0 <= Rsum l) by (now apply Rsum_nonneg).
  assert (Mp : 0 <= B2R (fsum l)) by (now apply nneg_B2R).
  assert (Q : fin (fdiv (fsum l) (n2f n))).
  { apply in01_fin. unfold n2f, n. apply mean_in01; auto. lia. }
  assert (Vq : B2R (fdiv (fsum l) (n2f n)) = rnd (B2R (fsum l) / INR n)).
  { rewrite <- Vn. apply B2R_fdiv; auto. rewrite Vn. lra. }
  rewrite Vq. set (s := B2R (fsum l)) in *. set (S := Rsum l) in *.
  assert (I0 : 0 < / INR n) by (apply Rinv_0_lt_compat; lra).
  assert (D0 : 0 <= s / INR n) by (apply Rmult_le_pos; lra).
  destruct (rnd_bounds (s / INR n) D0) as (C & D).
  assert (K : INR n * u <= / 2 - u).
  { rewrite U. assert (INR n <= 4194304). { rewrite INR_IZR_INZ. apply IZR_le. lia. } lra. }
  assert (Ku : INR (n + 1) * u <= / 2) by (rewrite plus_INR; simpl (INR 1); rewrite U in *; lra).
  assert (Kp : 0 <= INR (n + 1)) by apply pos_INR.
  pose proof (pow_le_1p (n + 1) Ku) as P. pose proof (pow_ge_1m (n + 1)) as M.
  rewrite Nat.add_1_r in P, M. cbn [pow] in P, M. rewrite <- Nat.add_1_r in P, M.
  set (k := INR (n + 1)) in *. set (x := S / INR n) in *.
  assert (X0 : 0 <= x) by (apply Rmult_le_pos; lra).
  assert (A' : x * (1 - u) ^ n <= s / INR n).
  { unfold x. replace (S / INR n * (1 - u) ^ n) with (S * (1 - u) ^ n * / INR n) by (unfold Rdiv; ring).
    apply Rmult_le_compat_r; lra. }
  assert (B' : s / INR n <= x * (1 + u) ^ n).
  { unfold x. replace (S / INR n * (1 + u) ^ n) with (S * (1 + u) ^ n * / INR n) by (unfold Rdiv; ring).
    apply Rmult_le_compat_r; lra. }
  assert (G1 : x * ((1 - u) * (1 - u) ^ n) <= s / INR n * (1 - u)).
  { replace (x * ((1 - u) * (1 - u) ^ n)) with (x * (1 - u) ^ n * (1 - u)) by ring. apply Rmult_le_compat_r; auto.
    rewrite U. lra. }
  assert (G2 : s / INR n * (1 + u) <= x * ((1 + u) * (1 + u) ^ n)).
  { replace (x * ((1 + u) * (1 + u) ^ n)) with (x * (1 + u) ^ n * (1 + u)) by ring. apply Rmult_le_compat_r; auto.
    rewrite U. lra. }
  assert (G3 : x * (1 - k * u) <= x * ((1 - u) * (1 - u) ^ n)) by (apply Rmult_le_compat_l; auto).
  assert (G4 : x * ((1 + u) * (1 + u) ^ n) <= x * (1 + 2 * k * u)) by (apply Rmult_le_compat_l; auto).
  assert (G5 : 0 <= x * (k * u)).
  { apply Rmult_le_pos; auto. apply Rmult_le_pos; auto. rewrite U. lra. }
  apply Rabs_le. lra.
Qed.
Close Scope R_scope.

Lemma average_ok : forall m c w, rect m c -> Forall (Forall in01) c ->
  (Z.of_nat (length c) < 2 ^ 30)%Z -> (2 <= w) -> (Z.of_nat w <= 2 ^ 22)%Z ->
  exists r, smooth_chroma_average c w = Ok r /\ length r = length c /\ rect m r /\
    forall i s, i < length c -> s < m ->
      let v := at_bin r s i in let win := window_bin c s i (w / 2) (w - 1 - w / 2) in
      in01 v /\ (Rabs (B2R v - Rsum win / INR (length win))
        <= Rsum win / INR (length win) * (2 * INR (length win + 1) * u) + eta)%R.
Proof.
  intros m c w R N Hn H2 Hw. unfold smooth_chroma_average.
  destruct (Nat.eqb_spec (length c) 0) as [E|E].
  { destruct c; [|discriminate]. exists []. split; auto. split; auto. split; [constructor|]. intros i s Hi. simpl in Hi. lia. }
  replace ((w =? 0) || (w =? 1)) with false.
  2:{ symmetry. apply orb_false_iff. split; apply Nat.eqb_neq; lia. }
  apply (smooth_cells_ok (mean_cell c w) c m (fun i s v => let win := window_bin c s i (w / 2) (w - 1 - w / 2) in
      in01 v /\ (Rabs (B2R v - Rsum win / INR (length win))
        <= Rsum win / INR (length win) * (2 * INR (length win + 1) * u) + eta)%R)); auto.
  { intros ->. now apply E. }
  intros i s Hi Hs. unfold mean_cell. rewrite (window_values_ok m) by (auto; lia). cbn [obind].
  rewrite (near_window c s i w (w / 2) (w - 1 - w / 2)) by (auto; lia).
  assert (NE : window_bin c s i (w / 2) (w - 1 - w / 2) <> []).
  { rewrite <- (near_window c s i w) by (auto; lia). apply near_nonempty; auto; lia. }
  assert (Nw : Forall in01 (window_bin c s i (w / 2) (w - 1 - w / 2))).
  { rewrite <- (near_window c s i w) by (auto; lia). now apply near_P with (m := m). }
  assert (Lw : length (window_bin c s i (w / 2) (w - 1 - w / 2)) <= w).
  { rewrite <- (near_window c s i w) by (auto; lia). rewrite map_length, near_seq, seq_length.
    assert (w / 2 < w) by (apply Nat.div_lt; lia). lia. }
  set (win := window_bin c s i (w / 2) (w - 1 - w / 2)) in *.
  destruct (Nat.eqb_spec (length win) 0) as [E2|E2]; [destruct win; [congruence|discriminate]|].
  eexists. split; [reflexivity|]. cbv zeta. split.
  - unfold fsum, n2f. apply mean_in01; auto. lia.
  - apply mean_bounds; auto. lia.
Qed.
