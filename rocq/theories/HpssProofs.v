(** Facts about HPSS. *)
From Coq Require Import ZArith Bool List Arith Lia Sorted Reals Lra Psatz.
From Flocq Require Import Core IEEE754.BinarySingleNaN.
From Verif Require Import Rust F32 F32Facts F32More ListFacts Sorting SortingFacts Threshold ThresholdProofs
  Onsets Hpss.
Import ListNotations.

Lemma nth_map_seq : forall A (g : nat -> A) n i d, i < n -> nth i (map g (seq 0 n)) d = g i.
Proof.
  intros A g n i d H. rewrite (nth_indep _ d (g 0)) by (rewrite map_length, seq_length; auto).
  rewrite map_nth, seq_nth by auto. reflexivity.
Qed.
Lemma cell_tabulate : forall nf nb g f b, f < nf -> b < nb -> cell (tabulate nf nb g) f b = g f b.
Proof.
  intros. unfold cell, tabulate. rewrite nth_map_seq by auto. now apply nth_map_seq.
Qed.
Definition shaped (nf nb : nat) (s : spectrogram) : Prop :=
  length s = nf /\ Forall (fun f => length f = nb) s.
Lemma tabulate_shaped : forall nf nb g, shaped nf nb (tabulate nf nb g).
Proof.
  intros. split. unfold tabulate. now rewrite map_length, seq_length.
  apply Forall_map, Forall_forall. intros. now rewrite map_length, seq_length.
Qed.

(** 0 <= x <= 2^126 *)
Definition small (x : f32) : Prop := fle f0 x = true /\ fle x bound126 = true.
Lemma small_fin : forall x, small x -> fin x.
Proof. intros x (A & B). apply (fin_between f0 x bound126); auto. Qed.

Lemma window_median_small : forall w, Forall small w -> small (window_median w).
Proof.
  intros w H. unfold window_median. destruct w as [|x w]. { split; reflexivity. }
  destruct (median_sorted_ok (sort_asc (x :: w))) as (m & E).
  { intros C. pose proof (sort_asc_length (x :: w)) as L. rewrite C in L. discriminate. }
  rewrite E. apply (median_bounded f0 bound126 (sort_asc (x :: w))); auto; try reflexivity.
  now apply sort_by_Forall.
Qed.

Definition cells (nf nb : nat) (P : f32 -> Prop) (s : spectrogram) : Prop :=
  forall f b, f < nf -> b < nb -> P (cell s f b).

Lemma window_in : forall margin i n j, In j (window margin i n) -> j < n.
Proof. intros margin i n j H. unfold window in H. apply in_seq in H. lia. Qed.
Lemma horizontal_small : forall nf nb m s, cells nf nb small s -> cells nf nb small (horizontal nf nb m s).
Proof.
  intros nf nb m s H f b Hf Hb. unfold horizontal. rewrite cell_tabulate by auto.
  apply window_median_small, Forall_map, Forall_forall. intros j Hj. apply H; auto.
  eapply window_in; eauto.
Qed.
Lemma vertical_small : forall nf nb m s, cells nf nb small s -> cells nf nb small (vertical nf nb m s).
Proof.
  intros nf nb m s H f b Hf Hb. unfold vertical. rewrite cell_tabulate by auto.
  apply window_median_small, Forall_map, Forall_forall. intros j Hj. apply H; auto.
  eapply window_in; eauto.
Qed.

Lemma small_sum : forall h p, small h -> small p -> fin (fadd h p) /\ nneg (fadd h p).
Proof.
  intros h p (A & B) (C & D).
  assert (E : fle (fneg bound126) f0 = true) by reflexivity.
  split. apply half_sum_fin; eauto using fle_trans. now apply fadd_nneg.
Qed.

(** What a masking step gives for one cell: both parts between 0 and the original. *)
Lemma soft_mask_bound : forall o mine other total, small o -> small mine -> small other ->
  (total = fadd mine other \/ total = fadd other mine) ->
  nneg (soft_mask o mine total) /\ fle (soft_mask o mine total) o = true.
Proof.
  intros o a b t Ho Ha Hb Et. pose proof (small_fin _ Ho) as Fo. unfold soft_mask.
  assert (Et' : t = fadd a b) by (destruct Et as [-> | ->]; auto; apply fadd_comm). clear Et. subst t.
  destruct (small_sum a b Ha Hb) as (Ft & Nt).
  set (t := fadd a b) in *. 
  assert (IN : in01 (if fgt t (lit 14411519 (-57)) then fdiv a t else fhalf)).
  { destruct (fgt t (lit 14411519 (-57))) eqn:G; [|split; reflexivity].
    assert (Pt : pos t) by (eapply flt_fle_trans with (y := lit 14411519 (-57)); [reflexivity|now apply flt_fle]).
    destruct Ha as (A0 & A1). destruct Hb as (B0 & B1).
    assert (L : fle a t = true). { apply fadd_ge_l; auto using nneg_nn. }
    assert (N : nn (fdiv a t)). { apply fdiv_nn_fin; auto. apply (fin_between f0 a bound126); auto. }
    split. now apply fdiv_nneg. now apply fdiv_le_1. }
  set (q := if fgt t (lit 14411519 (-57)) then fdiv a t else fhalf) in *.
  assert (E : (if fgt t (lit 14411519 (-57)) then fmul o (fdiv a t) else fmul o fhalf) = fmul o q).
  { unfold q. now destruct (fgt t (lit 14411519 (-57))). }
  rewrite E. pose proof (in01_fin _ IN) as Fq. destruct IN as (Q0 & Q1). destruct Ho as (O0 & O1).
  split. now apply fmul_nneg_fin. rewrite fmul_comm. now apply fmul_le_r.
Qed.

(** The loop keeps the components inside [0, original]. *)
Lemma hpss_loop_inv : forall spec nf nb margin n it h p,
  cells nf nb small spec -> cells nf nb small h -> cells nf nb small p ->
  let r := hpss_loop spec nf nb margin (S n) it h p in
  shaped nf nb (fst r) /\ shaped nf nb (snd r) /\
  (forall f b, f < nf -> b < nb ->
     nneg (cell (fst r) f b) /\ fle (cell (fst r) f b) (cell spec f b) = true /\
     nneg (cell (snd r) f b) /\ fle (cell (snd r) f b) (cell spec f b) = true /\
     exists hm pm, small hm /\ small pm /\
       cell (fst r) f b = soft_mask (cell spec f b) hm (fadd hm pm) /\
       cell (snd r) f b = soft_mask (cell spec f b) pm (fadd hm pm)).
Proof.
  intros spec nf nb margin n. induction n as [|n IH]; intros it h p Hs Hh Hp r.
  all: set (hf := horizontal nf nb margin h) in *; set (pf := vertical nf nb margin p) in *.
  all: set (h' := tabulate nf nb (fun f b => soft_mask (cell spec f b) (cell hf f b) (fadd (cell hf f b) (cell pf f b)))) in *.
  all: set (p' := tabulate nf nb (fun f b => soft_mask (cell spec f b) (cell pf f b) (fadd (cell hf f b) (cell pf f b)))) in *.
  all: assert (BASE : shaped nf nb h' /\ shaped nf nb p' /\
    (forall f b, f < nf -> b < nb ->
     nneg (cell h' f b) /\ fle (cell h' f b) (cell spec f b) = true /\
     nneg (cell p' f b) /\ fle (cell p' f b) (cell spec f b) = true /\
     exists hm pm, small hm /\ small pm /\
       cell h' f b = soft_mask (cell spec f b) hm (fadd hm pm) /\
       cell p' f b = soft_mask (cell spec f b) pm (fadd hm pm))).
  1,3: split; [apply tabulate_shaped|]; split; [apply tabulate_shaped|]; intros f b Hf Hb;
    unfold h', p'; rewrite !cell_tabulate by auto;
    pose proof (horizontal_small nf nb margin h Hh f b Hf Hb) as SH;
    pose proof (vertical_small nf nb margin p Hp f b Hf Hb) as SP;
    fold hf in SH; fold pf in SP; pose proof (Hs f b Hf Hb) as SO;
    destruct (soft_mask_bound (cell spec f b) (cell hf f b) (cell pf f b) _ SO SH SP (or_introl eq_refl)) as (A & B);
    destruct (soft_mask_bound (cell spec f b) (cell pf f b) (cell hf f b) _ SO SP SH (or_intror eq_refl)) as (C & D);
    repeat split; auto; exists (cell hf f b), (cell pf f b); auto.
  - unfold r. cbn [hpss_loop]. fold hf pf. fold h' p'. destruct (_ && _); exact BASE.
  - unfold r. change (hpss_loop spec nf nb margin (S (S n)) it h p) with
      (if (0 <? it) && flt (max_change nf nb h' h p' p) (lit 8796093 (-43)) then (h', p')
       else hpss_loop spec nf nb margin (S n) (S it) h' p').
    destruct (_ && _); [exact BASE|]. apply IH; auto.
    + intros f b Hf Hb. destruct BASE as (_ & _ & BASE). destruct (BASE f b Hf Hb) as (A & B & _).
      split; auto. eapply fle_trans; [exact B|]. now apply Hs.
    + intros f b Hf Hb. destruct BASE as (_ & _ & BASE). destruct (BASE f b Hf Hb) as (_ & _ & A & B & _).
      split; auto. eapply fle_trans; [exact B|]. now apply Hs.
Qed.

(** Rounding error of one operation. *)
Local Open Scope R_scope.
Definition u24 : R := / 16777216.
Definition eta : R := bpow radix2 (-150).
Lemma rnd_dist : forall x, 0 <= x -> x * (1 - u24) - eta <= rnd x <= x * (1 + u24) + eta.
Proof.
  intros x Hx. destruct (rnd_err x) as (e & n & E & N & _ & ->).
  replace (bpow radix2 (-24)) with u24 in E by (unfold u24; simpl; lra).
  fold eta in N. apply Rabs_le_inv in E, N. nra.
Qed.
Lemma eta_small : 0 < eta <= / 1152921504606846976.
Proof.
  unfold eta. split. apply bpow_gt_0. replace (/ 1152921504606846976) with (bpow radix2 (-60)) by (simpl; lra).
  apply bpow_le. lia.
Qed.

Lemma share_sum : forall o h p t a b H P,
  0 <= o -> 0 <= h -> 0 <= p -> / 17179869184 <= t ->
  (h + p) * (1 - u24) - eta <= t <= (h + p) * (1 + u24) + eta ->
  h / t * (1 - u24) - eta <= a <= h / t * (1 + u24) + eta ->
  p / t * (1 - u24) - eta <= b <= p / t * (1 + u24) + eta -> 0 <= a -> 0 <= b ->
  o * a * (1 - u24) - eta <= H <= o * a * (1 + u24) + eta ->
  o * b * (1 - u24) - eta <= P <= o * b * (1 + u24) + eta ->
  Rabs (H + P - o) <= o * / 2097152 + 2 * eta.
Proof.
  intros o h p t a b H P O0 H0 P0 T0 T A B A0 B0 EH EP. pose proof eta_small as (E0 & E1).
  assert (S1 : (h + p) / t <= 1 + 2 * u24).
  { apply Rmult_le_reg_r with t; [lra|]. unfold Rdiv. rewrite Rmult_assoc, Rinv_l, Rmult_1_r by lra.
    unfold u24 in *. nra. }
  assert (S0 : 1 - 2 * u24 <= (h + p) / t).
  { apply Rmult_le_reg_r with t; [lra|]. unfold Rdiv. rewrite Rmult_assoc, Rinv_l, Rmult_1_r by lra.
    unfold u24 in *. nra. }
  assert (AB : 1 - 4 * u24 <= a + b <= 1 + 4 * u24).
  { unfold Rdiv in *. unfold u24 in *. split; nra. }
  apply Rabs_le. 
  assert (OAB : o * (1 - 4 * u24) <= o * a + o * b <= o * (1 + 4 * u24)) by (split; nra).
  assert (HP : (o * a + o * b) * (1 - u24) - 2 * eta <= H + P <= (o * a + o * b) * (1 + u24) + 2 * eta) by lra.
  unfold u24 in *. split; nra.
Qed.

Lemma mask_sum : forall o h p, small o -> small h -> small p ->
  Rabs (B2R (soft_mask o h (fadd h p)) + B2R (soft_mask o p (fadd h p)) - B2R o)
    <= B2R o * / 2097152 + 2 * eta.
Proof.
  intros o h p So Sh Sp.
  pose proof (small_fin _ So) as Fo. pose proof (small_fin _ Sh) as Fh. pose proof (small_fin _ Sp) as Fp.
  assert (O0 : 0 <= B2R o) by (rewrite <- fx_fin by auto; apply nneg_fx, So).
  assert (H0 : 0 <= B2R h) by (rewrite <- fx_fin by auto; apply nneg_fx, Sh).
  assert (P0 : 0 <= B2R p) by (rewrite <- fx_fin by auto; apply nneg_fx, Sp).
  destruct (small_sum h p Sh Sp) as (Ft & Nt).
  destruct (soft_mask_bound o h p _ So Sh Sp (or_introl eq_refl)) as (MA & MB).
  destruct (soft_mask_bound o p h _ So Sp Sh (or_intror eq_refl)) as (MC & MD).
  assert (FA : fin (soft_mask o h (fadd h p))) by (apply (fin_between f0 _ o); auto).
  assert (FC : fin (soft_mask o p (fadd h p))) by (apply (fin_between f0 _ o); auto).
  revert MA MB MC MD FA FC. unfold soft_mask. destruct (fgt (fadd h p) (lit 14411519 (-57))) eqn:G; intros MA MB MC MD FA FC.
  - assert (T0 : / 17179869184 <= B2R (fadd h p)).
    { apply flt_fx in G. rewrite (fx_fin (fadd h p)) in G by auto.
      assert (L : fle (lit 1 (-34)) (lit 14411519 (-57)) = true) by (vm_compute; reflexivity).
      apply fle_fx in L. destruct (lit_fx 1 (-34)) as (_ & V). rewrite V in L.
      replace (F2R (Float radix2 1 (-34))) with (bpow radix2 (-34)) in L by (unfold F2R; simpl; lra).
      unfold rnd in L. rewrite round_generic in L.
      - rewrite sat_id in L. replace (/ 17179869184) with (bpow radix2 (-34)) by (simpl; lra). lra.
        pose proof (bpow_gt_0 radix2 (-34)). pose proof big_pos.
        assert (bpow radix2 (-34) < big) by (apply bpow_lt; lia). lra.
      - apply valid_rnd_N.
      - apply generic_format_bpow. unfold SpecFloat.fexp, SpecFloat.emin. lia. }
    pose proof (Rmult_lt_0_compat) as _.
    assert (TP : 0 < B2R (fadd h p)) by lra.
    assert (PT : pos (fadd h p)) by (apply flt_intro; auto using fin_nn; rewrite fx_f0, fx_fin; auto).
    assert (LH : fle h (fadd h p) = true).
    { apply fadd_ge_l. now apply fin_nn. apply Sp. now apply nneg_nn. }
    assert (LP : fle p (fadd h p) = true).
    { rewrite fadd_comm. apply fadd_ge_l. now apply fin_nn. apply Sh. rewrite fadd_comm. now apply nneg_nn. }
    assert (QA : in01 (fdiv h (fadd h p))).
    { split. apply fdiv_nneg; auto. apply Sh. now apply fdiv_nn_fin. apply fdiv_le_1; auto. apply Sh. }
    assert (QB : in01 (fdiv p (fadd h p))).
    { split. apply fdiv_nneg; auto. apply Sp. now apply fdiv_nn_fin. apply fdiv_le_1; auto. apply Sp. }
    pose proof (in01_fin _ QA) as FQA. pose proof (in01_fin _ QB) as FQB.
    assert (A0 : 0 <= B2R (fdiv h (fadd h p))) by (rewrite <- fx_fin by auto; apply nneg_fx, QA).
    assert (B0 : 0 <= B2R (fdiv p (fadd h p))) by (rewrite <- fx_fin by auto; apply nneg_fx, QB).
    eapply (share_sum (B2R o) (B2R h) (B2R p) (B2R (fadd h p))
              (B2R (fdiv h (fadd h p))) (B2R (fdiv p (fadd h p)))); auto.
    + rewrite B2R_fadd by auto. apply rnd_dist. lra.
    + rewrite B2R_fdiv by (auto; lra). apply rnd_dist. apply Rdiv_nn; lra.
    + rewrite B2R_fdiv by (auto; lra). apply rnd_dist. apply Rdiv_nn; lra.
    + rewrite B2R_fmul by auto. apply rnd_dist. now apply Rmult_le_pos.
    + rewrite B2R_fmul by auto. apply rnd_dist. now apply Rmult_le_pos.
  - rewrite !B2R_fmul by auto. rewrite B2R_fhalf.
    assert (D := rnd_dist (B2R o * / 2) ltac:(lra)). pose proof eta_small.
    apply Rabs_le. unfold u24 in *. lra.
Qed.

Close Scope R_scope.
(** ** The windows and their medians *)
Lemma window_filter : forall m i n, i < n ->
  window m i n = filter (fun j => (i - m <=? j) && (j <=? i + m)) (seq 0 n).
Proof.
  intros m i n Hi. unfold window.
  assert (G : forall a len, filter (fun j => (i - m <=? j) && (j <=? i + m)) (seq a len) =
     seq (Nat.max a (i - m)) (Nat.min (i + m + 1) (a + len) - Nat.max a (i - m))).
  { intros a len. revert a. induction len as [|len IH]; intros a; cbn [seq filter].
    - replace (Nat.min (i + m + 1) (a + 0) - Nat.max a (i - m)) with 0 by lia. reflexivity.
    - rewrite IH. destruct (Nat.leb_spec (i - m) a); destruct (Nat.leb_spec a (i + m)); cbn [andb].
      + replace (Nat.min (i + m + 1) (a + S len) - Nat.max a (i - m))
          with (S (Nat.min (i + m + 1) (S a + len) - Nat.max (S a) (i - m))) by lia.
        cbn [seq]. replace (Nat.max a (i - m)) with a by lia. now replace (Nat.max (S a) (i - m)) with (S a) by lia.
      + replace (Nat.min (i + m + 1) (S a + len) - Nat.max (S a) (i - m)) with 0 by lia.
        now replace (Nat.min (i + m + 1) (a + S len) - Nat.max a (i - m)) with 0 by lia.
      + replace (Nat.max (S a) (i - m)) with (Nat.max a (i - m)) by lia. f_equal. lia.
      + lia. }
  rewrite G. f_equal; lia.
Qed.

Lemma count_lt_mono : forall l a b, fle a b = true -> count_lt l a <= count_lt l b.
Proof.
  intros l a b H. unfold count_lt. induction l as [|x l IH]; cbn [filter length]; auto.
  destruct (flt x a) eqn:X; cbn [length].
  - rewrite (flt_fle_trans _ _ _ X H). cbn [length]. lia.
  - destruct (flt x b); cbn [length]; lia.
Qed.

Lemma median_lt_half : forall l m, Forall bounded126 l ->
  StronglySorted (fun a b => fle a b = true) l -> median_sorted l = Ok m -> 2 * count_lt l m <= length l.
Proof.
  intros l m B S H. unfold median_sorted in H.
  assert (N : Forall (fun x => nn x) l).
  { eapply Forall_impl; [|exact B]. intros x [X _]. now apply fle_nn in X. }
  pose proof B as B'. rewrite Forall_forall in B'.
  destruct (Nat.even (length l)) eqn:E.
  - destruct (Nat.eqb_spec (length l) 0); [discriminate|].
    destruct (get l (length l / 2 - 1)) as [a| |] eqn:Ea; try discriminate.
    destruct (get l (length l / 2)) as [b| |] eqn:Eb; try discriminate.
    cbn [obind] in H. assert (Em : m = fmul (fadd a b) fhalf) by congruence. rewrite Em. clear H Em m.
    apply get_Ok in Ea. apply get_Ok in Eb.
    destruct (B' a (nth_error_In _ _ Ea)) as [A1 A2]. destruct (B' b (nth_error_In _ _ Eb)) as [B1 B2].
    apply Nat.even_spec in E. destruct E as [k Ek]. rewrite Ek in *.
    replace (2 * k) with (k * 2) in * by lia. rewrite Nat.div_mul in * by lia.
    assert (AB : fle a b = true) by (apply (StronglySorted_nth _ _ _ S (k - 1) k); auto; lia).
    destruct (half_sum_fin a b) as (Fa & Fb & Fs); auto.
    destruct (midpoint_between a b a b) as [_ M2]; auto using fin_nn, fle_refl.
    destruct (sorted_rank l k b N S Eb) as [_ R]. pose proof (count_lt_mono l _ _ M2). lia.
  - apply get_Ok in H. destruct (sorted_rank l _ m N S H) as [_ R].
    pose proof (Nat.div_mod (length l) 2 ltac:(lia)). lia.
Qed.

Lemma filter_perm_len : forall A (p : A -> bool) l l', Permutation l l' -> length (filter p l) = length (filter p l').
Proof.
  intros A p l l' H. induction H; cbn [filter]; auto.
  - destruct (p x); cbn [length]; auto.
  - destruct (p x), (p y); reflexivity.
  - congruence.
Qed.

Lemma window_median_spec : forall w, w <> [] -> Forall small w ->
  2 * length (filter (fun x => flt x (window_median w)) w) <= length w /\
  length w <= 2 * length (filter (fun x => fle x (window_median w)) w).
Proof.
  intros w NE H. unfold window_median.
  destruct (median_sorted_ok (sort_asc w)) as (m & E).
  { intros C. pose proof (sort_asc_length w) as L. rewrite C in L. destruct w; [congruence|discriminate]. }
  rewrite E. pose proof (sort_asc_perm w) as P.
  assert (B : Forall bounded126 (sort_asc w)).
  { apply sort_by_Forall. eapply Forall_impl; [|exact H]. intros x (A1 & A2). split; auto.
    refine (fle_trans _ f0 _ _ A1). reflexivity. }
  assert (S : StronglySorted (fun a b => fle a b = true) (sort_asc w)).
  { apply sort_asc_sorted. eapply Forall_impl; [|exact H]. intros x X. now apply fin_nn, small_fin. }
  rewrite (filter_perm_len _ _ _ _ P), (filter_perm_len _ (fun x => fle x m) _ _ P), (Permutation_length P).
  split; [now apply median_lt_half|now apply median_ge_half].
Qed.
