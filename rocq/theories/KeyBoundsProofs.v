(** Magnitude bounds for key scores, the clarity value and the derived detectors. *)
From Coq Require Import ZArith Reals Lra Lia Sorted.
From Flocq Require Import Core.
From Verif Require Import Rust F32 F32Facts F32More ListFacts Sorting SortingFacts PeakPickingProofs
  NoveltyProofs Bounds KeyNotation KeyTemplates KeyTemplatesProofs KeyDetector KeyDetectorProofs.

(** Frames of magnitude at most 2^k, weights that are either ignored (not positive) or at most 2^j. *)
Definition bounded_frames (k : Z) (c : list (list f32)) : Prop := Forall (Forall (within k)) c.
Definition bounded_weights (j : Z) (w : option (list f32)) : Prop :=
  match w with None => True | Some ws => Forall (fun x => fgt x f0 = true -> within j x) ws end.
Definition bounded_templates (t : templates) : Prop := forall k, Forall (within 0) (template_of t k).

Lemma builtin_bounded : forall s, bounded_templates (new_templates s).
Proof.
  intros s k. apply Forall_forall. intros x I. apply template_range in I as (F & R). split; auto.
  cbn [bpow]. rewrite Rabs_right; lra.
Qed.

Lemma dot_within : forall k a b, (0 <= k <= 102)%Z -> Forall (within k) a -> Forall (within 0) b ->
  within (k + 25) (dot a b).
Proof.
  intros k a b K A B. unfold dot. apply within_sum; [lia|]. apply Forall_forall. intros x I.
  apply in_map_iff in I as ([p q] & <- & I). cbn [fst snd]. replace k with (k + 0)%Z by lia.
  apply within_mul; [lia| |].
  - apply in_combine_l in I. exact (proj1 (Forall_forall _ _) A _ I).
  - apply in_combine_r in I. exact (proj1 (Forall_forall _ _) B _ I).
Qed.

Lemma fold_within : forall A (f : f32 -> A -> f32) m l acc, within m acc ->
  (forall a x, In x l -> within m a -> within m (f a x)) -> within m (fold_left f l acc).
Proof.
  intros A f m l. induction l as [|x l IH]; intros acc W H; cbn [fold_left]; auto.
  apply IH; [apply H; [now left|auto]|]. intros a y I. apply H. now right.
Qed.

Lemma wsd_within : forall k j c w t, (0 <= k)%Z -> (0 <= j)%Z -> (k + j <= 77)%Z ->
  bounded_frames k c -> bounded_weights j w -> Forall (within 0) t ->
  within (k + j + 50) (weighted_sum_dot c w t).
Proof.
  intros k j c w t K J S C W T. unfold weighted_sum_dot.
  destruct w as [ws|].
  - apply fold_within; [apply within_0|]. intros a [ch x] I A. cbn [fst snd].
    destruct (fgt x f0) eqn:G; auto.
    pose proof (in_combine_l _ _ _ _ I) as I1. pose proof (in_combine_r _ _ _ _ I) as I2.
    pose proof (proj1 (Forall_forall _ _) C _ I1) as B1. pose proof (proj1 (Forall_forall _ _) W _ I2 G) as B2.
    replace (k + j + 50)%Z with ((j + (k + 25)) + 25)%Z by lia. apply within_step; [lia| |].
    + apply within_mul; auto; [lia|]. apply dot_within; auto. lia.
    + replace (j + (k + 25) + 25)%Z with (k + j + 50)%Z by lia. exact A.
  - apply fold_within; [apply within_0|]. intros a ch I A.
    pose proof (proj1 (Forall_forall _ _) C _ I) as B1.
    replace (k + j + 50)%Z with ((k + j + 25) + 25)%Z by lia. apply within_step; [lia| |].
    + apply within_mono with (k + 25)%Z; [lia|]. apply dot_within; auto. lia.
    + replace (k + j + 25 + 25)%Z with (k + j + 50)%Z by lia. exact A.
Qed.

Definition table_within (m : Z) (l : list score) : Prop := Forall (fun ks => within m (snd ks)) l.

Lemma tiny9_val : (bpow radix2 (-30) <= fx tiny9)%R.
Proof.
  rewrite fx_fin by reflexivity. rewrite <- SF2R_B2SF.
  replace (B2SF tiny9) with (SpecFloat.S754_finite false 9007199%positive (-53)%Z) by (vm_compute; reflexivity).
  cbn. unfold F2R; cbn. lra.
Qed.

Lemma mode_max_within : forall m b l, table_within m l -> within m (mode_max b l).
Proof.
  intros m b l H. unfold mode_max. apply fold_within; [apply within_0|]. intros a x I A.
  apply in_map_iff in I as (ks & <- & I). apply filter_In in I as (I & _).
  pose proof (proj1 (Forall_forall _ _) H _ I) as B. cbv beta in B.
  destruct (fmax_case a (snd ks)) as [->| ->]; auto.
Qed.

Lemma normalize_within : forall m l, (0 <= m <= 97)%Z -> table_within m l -> table_within (m + 30) (mode_normalize l).
Proof.
  intros m l M H. unfold mode_normalize. cbv zeta.
  destruct (fgt (mode_max true l) tiny9 && fgt (mode_max false l) tiny9) eqn:G.
  - apply andb_prop in G as (G1 & G2). unfold fgt in G1, G2.
    fold (flt tiny9 (mode_max true l)) in G1. fold (flt tiny9 (mode_max false l)) in G2.
    assert (D : forall b, flt tiny9 (mode_max b l) = true ->
      fin (mode_max b l) /\ (bpow radix2 (-30) <= Rabs (B2R (mode_max b l)))%R).
    { intros b L. pose proof (within_fin _ _ (mode_max_within m b l H)) as F. split; auto.
      apply flt_fx in L. rewrite (fx_fin (mode_max b l)) in L by auto. pose proof tiny9_val.
      pose proof (bpow_gt_0 radix2 (-30)). rewrite Rabs_right; lra. }
    apply Forall_forall. intros x I. apply in_map_iff in I as (ks & <- & I). cbn [snd].
    pose proof (proj1 (Forall_forall _ _) H _ I) as B. cbv beta in B.
    replace (m + 30)%Z with (m - -30)%Z by lia.
    destruct (is_major (fst ks)).
    + destruct (D true G1). apply within_div; auto. lia.
    + destruct (D false G2). apply within_div; auto. lia.
  - eapply Forall_impl; [|exact H]. intros ks B. apply within_mono with m; auto. lia.
Qed.

Lemma top_within : forall m b l, table_within m l -> within m (snd (top_of_mode b l)).
Proof.
  intros m b l H. unfold top_of_mode. destruct (max_by _ _) as [ks|] eqn:E.
  - apply max_by_in, filter_In in E as (I & _). exact (proj1 (Forall_forall _ _) H _ I).
  - cbn [snd]. apply within_0.
Qed.

Lemma position_lt : forall k l p, position k l = Some p -> p < length l.
Proof.
  intros k l. induction l as [|y l IH]; intros p Hp; cbn [position] in Hp; [discriminate|].
  cbn [length]. destruct (_ =? _)%Z; [assert (p = 0) by congruence; lia|].
  destruct (position k l) as [p'|]; cbn [option_map] in Hp; [|discriminate].
  specialize (IH _ eq_refl). assert (p = S p') by congruence. lia.
Qed.
Lemma circle_dist_nonneg : forall a b d, circle_dist a b = Some d -> (0 <= d)%Z.
Proof.
  intros a b d Ed. unfold circle_dist in Ed. destruct (position a circle_major) as [p|] eqn:Ep; [|discriminate].
  destruct (position b circle_major) as [q|] eqn:Eq; [|discriminate].
  apply position_lt in Ep, Eq. change (length circle_major) with 12 in Ep, Eq.
  assert (E : d = Z.min (Z.abs (Z.of_nat p - Z.of_nat q)) (12 - Z.abs (Z.of_nat p - Z.of_nat q)))
    by (cbv zeta in Ed; congruence). lia.
Qed.

Lemma bonus_within : forall m l, (0 <= m < 127)%Z -> table_within m l -> table_within (m + 1) (circle_bonus l).
Proof.
  intros m l M H. unfold circle_bonus. apply Forall_forall. intros x I.
  apply in_map_iff in I as (ks & <- & I). cbv zeta.
  pose proof (proj1 (Forall_forall _ _) H _ I) as B. cbv beta in B.
  assert (B' : within (m + 1) (snd ks)) by (apply within_mono with m; auto; lia).
  destruct (fgt _ _); auto. destruct (circle_dist _ _) as [d|] eqn:Ed; auto.
  destruct (d <=? 2)%Z eqn:L; auto. cbn [snd]. apply Z.leb_le in L.
  pose proof (circle_dist_nonneg _ _ _ Ed) as P.
  apply within_add; [lia|auto|]. replace m with (m + 0)%Z by lia. apply within_mul; [lia|now apply top_within|].
  apply upto_within, in01_upto.
  assert (D : d = 0%Z \/ d = 1%Z \/ d = 2%Z) by lia.
  destruct D as [->|[->| ->]]; split; vm_compute; reflexivity.
Qed.

Lemma final_within : forall k j c t w, (0 <= k)%Z -> (0 <= j)%Z -> (k + j <= 46)%Z ->
  bounded_frames k c -> bounded_weights j w -> bounded_templates t ->
  table_within (k + j + 81) (final_scores c t w).
Proof.
  intros k j c t w K J S C W T.
  replace (k + j + 81)%Z with (k + j + 50 + 30 + 1)%Z by lia.
  apply bonus_within; [lia|]. apply normalize_within; [lia|].
  unfold raw_scores. apply Forall_forall. intros x I. apply in_map_iff in I as (key & <- & _). cbn [snd].
  apply wsd_within; auto. lia.
Qed.

(** ** Clarity *)
Lemma within_div_count : forall k x n, (-149 <= k < 128)%Z -> within k x -> 1 <= n -> within k (fdiv x (n2f n)).
Proof.
  intros k x n K W Hn. unfold n2f. destruct (z2f_fx (Z.of_nat n)) as (N & E).
  assert (G : (1 <= rnd (IZR (Z.of_nat n)))%R).
  { rewrite <- (rnd_Z 1) by lia. apply rnd_mono, IZR_le. lia. }
  destruct (nn_cases _ N) as [F|[I|I]].
  - replace k with (k - 0)%Z by lia. apply within_div; auto; [lia|]. cbn [bpow].
    rewrite fx_fin in E by auto. apply sat_mono in G. rewrite sat_id in G.
    + rewrite E. rewrite Rabs_right; lra.
    + pose proof big_pos. assert (1 < big)%R by (change 1%R with (bpow radix2 0); apply bpow_lt; lia). lra.
  - rewrite I. destruct W as (F & W). destruct x as [s|s| |s m e]; try discriminate.
    + split; [reflexivity|]. cbn. rewrite Rabs_R0. apply bpow_ge_0.
    + split; [reflexivity|]. cbn. rewrite Rabs_R0. apply bpow_ge_0.
  - rewrite I in E. apply sat_mono in G. rewrite <- E in G. cbn in G.
    pose proof big_pos. rewrite sat_id in G; [|assert (1 < big)%R by (change 1%R with (bpow radix2 0); apply bpow_lt; lia); lra].
    exfalso. unfold fx in G. cbn in G. lra.
Qed.

Lemma clarity_in01 : forall k l, (0 <= k <= 101)%Z -> table_within k l ->
  exists c, key_clarity l = Ok c /\ in01 c.
Proof.
  intros k l K H. unfold key_clarity. destruct (length l <? 2) eqn:L; [exists f0; split; [reflexivity|apply in01_0]|].
  apply Nat.ltb_ge in L.
  assert (E : existsb (fun ks => fisnan (snd ks)) l = false).
  { apply score_nan_false. eapply Forall_impl; [|exact H]. intros ks W. now apply within_nn in W. }
  rewrite E. cbv zeta.
  assert (V : Forall (within k) (map snd l)).
  { apply Forall_forall. intros x I. apply in_map_iff in I as (ks & <- & I). exact (proj1 (Forall_forall _ _) H _ I). }
  assert (B : within k (nth 0 (map snd l) f0)).
  { destruct (map snd l) as [|x r]; cbn [nth]; [apply within_0|now apply Forall_inv in V]. }
  set (v := map snd l) in *. set (best := nth 0 v f0) in *.
  assert (Lv : 1 <= length v)
    by (unfold v; rewrite map_length; apply Nat.le_trans with 2; [auto|exact L]).
  assert (MX : within k (fold_left fmax v best)).
  { apply fold_within; auto. intros a x I A. destruct (fmax_case a x) as [->| ->]; auto. exact (proj1 (Forall_forall _ _) V _ I). }
  assert (MN : within k (fold_left fmin v best)).
  { apply fold_within; auto. intros a x I A. destruct (fmin_case a x) as [->| ->]; auto. exact (proj1 (Forall_forall _ _) V _ I). }
  eexists; split; [reflexivity|].
  destruct (fgt (fsub (fold_left fmax v best) (fold_left fmin v best)) (lit 14411519 (-57))) eqn:G; [|apply in01_0].
  unfold fgt in G. fold (flt (lit 14411519 (-57)) (fsub (fold_left fmax v best) (fold_left fmin v best))) in G.
  apply in01_clamp. apply fdiv_nn_fin.
  - apply (within_fin (k + 25 + 1)). apply within_sub; [lia|apply within_mono with k; auto; lia|].
    apply within_div_count; auto; [lia|]. apply within_sum; auto. lia.
  - apply (within_fin (k + 1)). apply within_sub; auto. lia.
  - refine (fle_flt_trans f0 _ _ _ G). reflexivity.
Qed.

(** ** NaN inputs *)
Lemma fdiv_nan_inv : forall x y, nn (fdiv x y) -> nn x.
Proof. intros x y H. now destruct x. Qed.
Lemma fold_nn_inv : forall A (f : f32 -> A -> f32) l acc, (forall a x, nn (f a x) -> nn a) ->
  nn (fold_left f l acc) -> nn acc.
Proof. intros A f l. induction l as [|x l IH]; intros acc H N; auto. cbn [fold_left] in N. apply IH in N; auto. now apply H in N. Qed.
Lemma fold_nn_elem : forall A (f : f32 -> A -> f32) l acc x, (forall a x, nn (f a x) -> nn a) ->
  nn (fold_left f l acc) -> In x l -> exists a, nn (f a x).
Proof.
  intros A f l. induction l as [|y l IH]; intros acc x H N I; [destruct I|]. cbn [fold_left] in N.
  destruct I as [->|I]; [|eauto]. exists acc. now apply fold_nn_inv in N.
Qed.
Lemma dot_nn_inv : forall a b, length a = length b -> nn (dot a b) -> Forall (fun x => nn x) a.
Proof.
  intros a b L N. apply Forall_forall. intros x I. apply (In_nth _ _ f0) in I as (i & Hi & E).
  unfold dot, fsum in N.
  assert (J : In (fmul x (nth i b f0)) (map (fun xy => fmul (fst xy) (snd xy)) (combine a b))).
  { apply in_map_iff. exists (x, nth i b f0). split; auto. rewrite <- E, <- combine_nth by auto.
    apply nth_In. rewrite combine_length, <- L. lia. }
  destruct (fold_nn_elem _ fadd _ _ _ (fun a x H => proj1 (fadd_nan_l a x H)) N J) as (p & Hp).
  apply fadd_nan_l in Hp as (_ & Hp). now apply fmul_nan_inv in Hp.
Qed.

Definition counted (w : option (list f32)) (i : nat) : Prop :=
  match w with None => True | Some ws => fgt (nth i ws f0) f0 = true end.
Lemma wsd_nn_inv : forall c w t, (match w with None => True | Some ws => length ws = length c end) ->
  Forall (fun ch => length ch = length t) c -> nn (weighted_sum_dot c w t) ->
  forall i, i < length c -> counted w i -> Forall (fun x => nn x) (nth i c []).
Proof.
  intros c w t Lw Lc N i Hi Ci. unfold weighted_sum_dot in N. unfold counted in Ci.
  assert (Li : length (nth i c []) = length t) by (apply (proj1 (Forall_forall _ _) Lc); now apply nth_In).
  destruct w as [ws|].
  - assert (J : In (nth i c [], nth i ws f0) (combine c ws)).
    { rewrite <- combine_nth by auto. apply nth_In. rewrite combine_length. lia. }
    refine (_ (fold_nn_elem _ _ _ _ _ _ N J)).
    + intros (a & Ha). cbn [fst snd] in Ha. rewrite Ci in Ha. apply fadd_nan_l in Ha as (_ & Ha).
      apply fmul_nan_inv in Ha as (_ & Ha). now apply dot_nn_inv in Ha.
    + intros a [ch x] Ha. cbn [fst snd] in Ha. destruct (fgt x f0); auto. now apply fadd_nan_l in Ha.
  - assert (J : In (nth i c []) c) by now apply nth_In.
    refine (_ (fold_nn_elem _ _ _ _ _ _ N J)).
    + intros (a & Ha). apply fadd_nan_l in Ha as (_ & Ha). now apply dot_nn_inv in Ha.
    + intros a ch Ha. now apply fadd_nan_l in Ha.
Qed.

Lemma map_nn_inv : forall (f : score -> score) l, (forall ks, nn (snd (f ks)) -> nn (snd ks)) ->
  Forall (fun ks => nn (snd ks)) (map f l) -> Forall (fun ks => nn (snd ks)) l.
Proof.
  intros f l H N. apply Forall_forall. intros ks I. apply H.
  apply (proj1 (Forall_forall _ _) N (f ks)). now apply in_map.
Qed.
Lemma bonus_nn_inv : forall l, Forall (fun ks => nn (snd ks)) (circle_bonus l) -> Forall (fun ks => nn (snd ks)) l.
Proof.
  intros l H. unfold circle_bonus in H. apply map_nn_inv in H; [exact H|]. clear H.
  intros ks. cbv zeta. destruct (fgt _ _); [|exact (fun N => N)]. destruct (circle_dist _ _) as [d|]; [|exact (fun N => N)].
  destruct (d <=? 2)%Z; [|exact (fun N => N)]. cbn [snd]. intros N. apply fadd_nan_l in N as (N & _). exact N.
Qed.
Lemma normalize_nn_inv : forall l, Forall (fun ks => nn (snd ks)) (mode_normalize l) -> Forall (fun ks => nn (snd ks)) l.
Proof.
  intros l H. unfold mode_normalize in H. cbv zeta in H. destruct (_ && _) in H; [|exact H].
  apply map_nn_inv in H; [exact H|]. intros ks N. cbn [snd] in N. apply fdiv_nan_inv in N. exact N.
Qed.
Lemma final_nn_raw : forall c t w, Forall (fun ks => nn (snd ks)) (final_scores c t w) ->
  forall k, In k all_keys -> nn (weighted_sum_dot c w (template_of t k)).
Proof.
  intros c t w H k Ik. apply bonus_nn_inv, normalize_nn_inv in H.
  unfold raw_scores in H. rewrite Forall_map in H. cbn [snd] in H. revert k Ik.
  exact (proj1 (Forall_forall _ _) H).
Qed.
