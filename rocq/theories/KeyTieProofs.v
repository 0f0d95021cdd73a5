(** The best major and the best minor key always tie after per-mode normalisation. *)
From Coq Require Import ZArith Reals Lra Lia Sorted.
From Flocq Require Import Core.
From Verif Require Import Rust F32 F32Facts F32More ListFacts Sorting SortingFacts PeakPickingProofs
  CombFilterProofs NoveltyProofs Bounds KeyNotation KeyTemplates KeyTemplatesProofs KeyDetector
  KeyDetectorProofs KeyBoundsProofs.

Lemma find_sorted : forall (p : key -> bool) l k v d, sorted_scores l -> In (k, v) l -> p k = true -> nn v ->
  fle v (find_score p l d) = true.
Proof.
  intros p l k v d S I P N. unfold find_score. induction l as [|a l IH]; [destruct I|]. cbn [find].
  inversion S as [|? ? S' F]; subst. destruct (p (fst a)) eqn:Pa.
  - destruct I as [->|I]; [now apply fle_refl|]. exact (proj1 (Forall_forall _ _) F _ I).
  - destruct I as [->|I]; [cbn [fst] in Pa; congruence|]. now apply IH.
Qed.

Lemma tie_conf : forall l r s v k1 k2, good l r s -> fin v -> pos v -> k1 <> k2 -> In (k1, v) l -> In (k2, v) l ->
  (forall k x, In (k, x) l -> fle x v = true) -> kr_conf r = margin_conf v v.
Proof.
  intros l r s v k1 k2 (Es & So & I & (M1 & M2) & C & _) F P Nk I1 I2 U.
  pose proof (fin_nn _ F) as Nv.
  assert (J : forall k x, In (k, x) (kr_scores r) <-> In (k, x) l).
  { intros k x. rewrite Es. apply sort_desc_in. }
  apply J in I1, I2.
  assert (U' : forall k x, In (k, x) (kr_scores r) -> fle x v = true) by (intros k x H; apply (U k), J; exact H).
  rewrite (so_top _ So) in I. apply In_firstn in I.
  assert (S := so_sorted _ So).
  assert (Hd : fle v (snd (hd (Major 0%Z, f0) (kr_scores r))) = true).
  { destruct (kr_scores r) as [|a q]; [destruct I1|]. cbn [hd]. inversion S as [|? ? _ G]; subst.
    destruct I1 as [->|I1]; [now apply fle_refl|]. exact (proj1 (Forall_forall _ _) G _ I1). }
  assert (EQ : forall x, fle x v = true -> fle v x = true -> x = v).
  { intros x A B. apply fle_antisym_pos; auto. exact (flt_fle_trans _ _ _ P B). }
  assert (Sv : s = v) by (apply EQ; [exact (U' _ _ I)|exact (fle_trans _ _ _ Hd M2)]).
  rewrite C, Sv. f_equal.
  set (p := fun x => negb (key_eqb x (kr_key r))).
  assert (X : exists k, In (k, v) (kr_scores r) /\ p k = true).
  { destruct (key_eqb k1 (kr_key r)) eqn:E1.
    - exists k2. split; auto. unfold p. apply negb_true_iff, key_eqb_neq. apply key_eqb_iff in E1. congruence.
    - exists k1. split; auto. unfold p. now rewrite E1. }
  destruct X as (k & Ik & Pk).
  pose proof (find_sorted p _ k v f0 S Ik Pk Nv) as L.
  apply EQ; auto. destruct (find_score_or p (kr_scores r) f0) as [Z|(k' & K')]; [|exact (U' _ _ K')].
  rewrite Z. exact (flt_fle _ _ P).
Qed.

(** ** After normalisation each mode peaks at exactly one. *)
Definition live (b : bool) (l : list score) : Prop := exists k s, In (k, s) l /\ is_major k = b /\ flt tiny9 s = true.

Lemma mode_max_spec : forall m b l, table_within m l -> live b l ->
  flt tiny9 (mode_max b l) = true /\ (exists k, is_major k = b /\ In (k, mode_max b l) l) /\
  (forall k s, In (k, s) l -> is_major k = b -> fle s (mode_max b l) = true).
Proof.
  intros m b l H (k & s & I & B & L). unfold mode_max.
  destruct (fold_fmax_spec (map snd (filter (fun ks => Bool.eqb (is_major (fst ks)) b) l)) f0 eq_refl) as (N & G & E & U).
  set (mx := fold_left fmax _ f0) in *.
  assert (U' : forall k s, In (k, s) l -> is_major k = b -> fle s mx = true).
  { intros k' s' I' B'. apply U.
    - apply in_map_iff. exists (k', s'). split; auto. apply filter_In. split; auto. cbn [fst]. rewrite B'. now destruct b.
    - apply (proj1 (Forall_forall _ _) H) in I'. now apply within_nn in I'. }
  assert (T : flt tiny9 mx = true) by exact (flt_fle_trans _ _ _ L (U' _ _ I B)).
  split; [exact T|]. split; [|exact U'].
  destruct E as [E|E]; [exfalso; rewrite E in T; discriminate T|].
  apply in_map_iff in E as ([k' s'] & Es & E). apply filter_In in E as (E & Eb). cbn [fst snd] in *.
  exists k'. split; [now apply Bool.eqb_prop|]. rewrite <- Es. exact E.
Qed.

Lemma normalized_peak : forall m l, table_within m l -> live true l -> live false l ->
  (forall b, exists k, is_major k = b /\ In (k, f1) (mode_normalize l)) /\
  (forall k x, In (k, x) (mode_normalize l) -> fle x f1 = true).
Proof.
  intros m l H LT LF.
  destruct (mode_max_spec m true l H LT) as (T1 & (k1 & B1 & I1) & U1).
  destruct (mode_max_spec m false l H LF) as (T2 & (k2 & B2 & I2) & U2).
  pose proof (within_fin _ _ (mode_max_within m true l H)) as F1.
  pose proof (within_fin _ _ (mode_max_within m false l H)) as F2.
  assert (Pt : forall x, flt tiny9 x = true -> pos x) by (intros x X; refine (fle_flt_trans f0 _ _ _ X); reflexivity).
  unfold mode_normalize. cbv zeta. unfold fgt. fold (flt tiny9 (mode_max true l)) (flt tiny9 (mode_max false l)).
  rewrite T1, T2. cbn [andb]. split.
  - intros b. destruct b; [exists k1|exists k2]; (split; [assumption|]); apply in_map_iff.
    + exists (k1, mode_max true l). split; auto. cbn [fst snd]. rewrite B1. f_equal. now apply fdiv_self; auto.
    + exists (k2, mode_max false l). split; auto. cbn [fst snd]. rewrite B2. f_equal. now apply fdiv_self; auto.
  - intros k x I. apply in_map_iff in I as ([k' s'] & E & I). cbn [fst snd] in E.
    assert (Ek : k' = k) by congruence. assert (Ex : fdiv s' (if is_major k' then mode_max true l else mode_max false l) = x) by congruence.
    subst k'. rewrite <- Ex. pose proof (proj1 (Forall_forall _ _) H _ I) as W. apply within_fin in W. cbn [snd] in W.
    assert (G : forall mx, fin mx -> pos mx -> fle s' mx = true -> fle (fdiv s' mx) f1 = true).
    { intros mx Fm Pm L. rewrite <- (fdiv_self mx Fm Pm). apply fdiv_mono_l; auto using fdiv_nn_fin. }
    destruct (is_major k) eqn:B; [apply G|apply G]; eauto.
Qed.

Lemma top_is_one : forall l b, (exists k, is_major k = b /\ In (k, f1) l) -> (forall k x, In (k, x) l -> fle x f1 = true) ->
  exists k, is_major k = b /\ In (k, f1) l /\ top_of_mode b l = (k, f1).
Proof.
  intros l b (k & B & I) U. unfold top_of_mode.
  set (fl := filter (fun ks => Bool.eqb (is_major (fst ks)) b) l).
  assert (J : In (k, f1) fl) by (apply filter_In; split; auto; cbn [fst]; rewrite B; now destruct b).
  destruct (max_by_some _ (fun a b : score => fgt (snd a) (snd b)) fl) as ([k' x] & E); [intros Z; rewrite Z in J; destruct J|].
  rewrite E. pose proof (max_by_in _ _ _ _ E) as J'. apply filter_In in J' as (I' & B'). cbn [fst] in B'.
  assert (N : Forall (fun a : score => nn (snd a)) fl).
  { apply Forall_forall. intros [k0 x0] K. apply filter_In in K as (K & _). apply U in K. now apply fle_nn in K. }
  pose proof (max_by_ge _ _ _ _ N E _ J) as G. cbn [snd] in G.
  assert (X : x = f1).
  { apply fle_antisym_pos; [exact (U k' x I')|exact G|]. refine (flt_fle_trans f0 f1 x _ G). vm_compute. reflexivity. }
  subst x. exists k'. split; [now apply Bool.eqb_prop|]. now split.
Qed.

(** 1 + 0.2, rounded. *)
Definition peak : f32 := fadd f1 (fmul f1 (fmul (lit 13421773 (-26)) (fsub f1 (fmul (z2f 0) fhalf)))).

Lemma circle_self : forall k, In k all_keys -> circle_dist (tonic k) (tonic k) = Some 0%Z.
Proof.
  intros k I. assert (A : forallb (fun k => match circle_dist (tonic k) (tonic k) with Some 0%Z => true | _ => false end) all_keys = true)
    by (vm_compute; reflexivity).
  rewrite forallb_forall in A. apply A in I. destruct (circle_dist _ _) as [[| |]|]; try discriminate. reflexivity.
Qed.

Lemma bonus_peak : forall l, (forall k x, In (k, x) l -> In k all_keys) ->
  (forall b, exists k, is_major k = b /\ In (k, f1) l) -> (forall k x, In (k, x) l -> fle x f1 = true) ->
  (forall b, exists k, is_major k = b /\ In (k, peak) (circle_bonus l)) /\
  (forall k x, In (k, x) (circle_bonus l) -> fle x peak = true).
Proof.
  intros l A P U. unfold circle_bonus. split.
  - intros b. destruct (top_is_one l b (P b) U) as (k & B & I & E). exists k. split; auto.
    apply in_map_iff. exists (k, f1). split; auto. cbv zeta. cbn [fst snd]. rewrite B, E. cbn [fst snd].
    rewrite (circle_self k (A _ _ I)). reflexivity.
  - intros k x I. apply in_map_iff in I as ([k' s] & E & I). cbv zeta in E. cbn [fst snd] in E.
    pose proof (U _ _ I) as L. pose proof (proj1 (fle_nn _ _ L)) as N.
    assert (L1 : fle f1 peak = true) by (vm_compute; reflexivity).
    assert (D : fle s peak = true) by exact (fle_trans _ _ _ L L1).
    destruct (top_is_one l (is_major k') (P _) U) as (kt & _ & _ & Et). rewrite Et in E. cbn [fst snd] in E.
    destruct (fgt f1 tiny9); [|assert (s = x) by congruence; subst; exact D].
    destruct (circle_dist _ _) as [d|] eqn:Ed; [|assert (s = x) by congruence; subst; exact D].
    destruct (d <=? 2)%Z eqn:Ld; [|assert (s = x) by congruence; subst; exact D].
    replace x with (fadd s (fmul f1 (fmul (lit 13421773 (-26)) (fsub f1 (fmul (z2f d) fhalf))))) by congruence.
    apply Z.leb_le in Ld. apply circle_dist_nonneg in Ed.
    assert (Dc : d = 0%Z \/ d = 1%Z \/ d = 2%Z) by lia. clear E.
    set (c := fmul f1 (fmul (lit 13421773 (-26)) (fsub f1 (fmul (z2f d) fhalf)))).
    assert (Lc : fle c (fmul f1 (fmul (lit 13421773 (-26)) (fsub f1 (fmul (z2f 0) fhalf)))) = true)
      by (unfold c; destruct Dc as [->|[->| ->]]; vm_compute; reflexivity).
    assert (Fc : fin c) by (unfold c; destruct Dc as [->|[->| ->]]; vm_compute; reflexivity).
    unfold peak. apply fadd_mono; auto. now apply fadd_nn_fin_r.
Qed.

Lemma margin_peak : margin_conf peak peak = f0.
Proof. apply B2SF_inj. vm_compute. reflexivity. Qed.

Lemma zero_conf : forall m h c t w r, (0 <= m <= 96)%Z -> honest h -> table_within m (raw_scores c t w) ->
  live true (raw_scores c t w) -> live false (raw_scores c t w) ->
  detect_key_weighted h c t w = Ok r ->
  kr_conf r = f0 /\ (exists i j, In (Major i, peak) (kr_scores r) /\ In (Minor j, peak) (kr_scores r)) /\
  (forall k x, In (k, x) (kr_scores r) -> fle x peak = true).
Proof.
  intros m h c t w r Hm Hh W LT LF H.
  destruct (normalized_peak m _ W LT LF) as (P & U).
  assert (A : forall k x, In (k, x) (mode_normalize (raw_scores c t w)) -> In k all_keys).
  { intros k x I. apply (in_map fst) in I. rewrite mode_normalize_keys, raw_keys in I. exact I. }
  destruct (bonus_peak _ A P U) as (P' & U').
  destruct (detect_cases h c t w Hh) as [(_ & E)|[(_ & _ & E)|(_ & _ & r' & s & E & G)]]; [congruence|congruence|].
  assert (r' = r) by congruence. subst r'. clear E H.
  revert G P' U'. generalize (circle_bonus (mode_normalize (raw_scores c t w))). intros l G P' U'.
  destruct (P' true) as (k1 & B1 & I1), (P' false) as (k2 & B2 & I2).
  assert (Nk : k1 <> k2) by (intros ->; congruence).
  split.
  - rewrite (tie_conf l r s peak k1 k2 G); [exact margin_peak|vm_compute; reflexivity|vm_compute; reflexivity|exact Nk|exact I1|exact I2|exact U'].
  - destruct G as (Es & _). split.
    + destruct k1 as [i|i]; [|discriminate]. destruct k2 as [j|j]; [discriminate|].
      exists i, j. rewrite Es. split; apply sort_desc_in; assumption.
    + intros k x I. rewrite Es in I. apply sort_desc_in in I. exact (U' _ _ I).
Qed.

(** ** Non-negative frames with one audible entry give both modes a live score. *)
Definition e20 : f32 := lit 8388608 (-43).
Definition e5 : f32 := lit 8388608 (-28).
Definition e4 : f32 := lit 8388608 (-27).

Lemma template_ge : forall s k x, In x (template_of (new_templates s) k) -> fle e4 x = true.
Proof.
  intros s k x I. apply template_range in I as (F & R).
  assert (Fe : fin e4) by reflexivity.
  apply (proj2 (fle_iff e4 x (fin_nn _ Fe) (fin_nn _ F))). rewrite !fx_fin by assumption.
  assert (E : B2R e4 = (/ 16)%R).
  { rewrite <- SF2R_B2SF. replace (B2SF e4) with (SpecFloat.S754_finite false 8388608 (-27)) by (vm_compute; reflexivity).
    cbn. unfold F2R; cbn. lra. }
  rewrite E. lra.
Qed.

Lemma dot_nneg : forall s k kk ch, (0 <= kk <= 102)%Z -> Forall (within kk) ch -> Forall (fun x => nneg x) ch ->
  Forall (fun x => nneg x) (map (fun xy => fmul (fst xy) (snd xy)) (combine ch (template_of (new_templates s) k))).
Proof.
  intros s k kk ch K W N. apply Forall_forall. intros x I. apply in_map_iff in I as ([p q] & <- & I). cbn [fst snd].
  pose proof (in_combine_l _ _ _ _ I) as I1. pose proof (in_combine_r _ _ _ _ I) as I2.
  apply fmul_nneg_fin.
  - exact (within_fin _ _ (proj1 (Forall_forall _ _) W _ I1)).
  - exact (proj1 (template_range _ _ _ I2)).
  - exact (proj1 (Forall_forall _ _) N _ I1).
  - refine (fle_trans f0 e4 _ _ (template_ge _ _ _ I2)). reflexivity.
Qed.

Lemma dot_audible : forall s k kk ch b, (0 <= kk <= 102)%Z -> Forall (within kk) ch -> Forall (fun x => nneg x) ch ->
  length ch = 12 -> b < 12 -> fle e20 (nth b ch f0) = true ->
  fle (fmul e20 e4) (dot ch (template_of (new_templates s) k)) = true.
Proof.
  intros s k kk ch b K W N L B E. unfold dot, fsum.
  set (t := template_of (new_templates s) k).
  assert (Lt : length t = 12) by apply template_len.
  assert (I : In (nth b ch f0, nth b t f0) (combine ch t)).
  { rewrite <- combine_nth by congruence. apply nth_In. rewrite combine_length. rewrite L, Lt. exact B. }
  pose proof (in_combine_l _ _ _ _ I) as I1. pose proof (in_combine_r _ _ _ _ I) as I2.
  assert (Fx : fin (nth b ch f0)) by exact (within_fin _ _ (proj1 (Forall_forall _ _) W _ I1)).
  assert (Ft : fin (nth b t f0)) by exact (proj1 (template_range _ _ _ I2)).
  refine (fle_trans _ (fmul (nth b ch f0) (nth b t f0)) _ _ _).
  - apply fmul_mono; [reflexivity|exact E|reflexivity|exact (template_ge _ _ _ I2)|reflexivity|].
    exact (proj1 (fmul_fx _ _ Fx Ft)).
  - apply fsum_ge_elem; [reflexivity|now apply (dot_nneg s k kk)|].
    apply in_map_iff. exists (nth b ch f0, nth b t f0). now split.
Qed.

Lemma fold_ge : forall A (f : f32 -> A -> f32) l acc, nneg acc ->
  (forall a x, In x l -> nneg a -> nneg (f a x) /\ fle a (f a x) = true) ->
  nneg (fold_left f l acc) /\ fle acc (fold_left f l acc) = true.
Proof.
  intros A f l. induction l as [|x l IH]; intros acc N H; cbn [fold_left].
  - split; auto. apply fle_refl, nneg_nn, N.
  - destruct (H acc x (or_introl eq_refl) N) as (N' & G).
    destruct (IH (f acc x) N') as (N2 & G2); [intros a y I; apply H; now right|].
    split; auto. exact (fle_trans _ _ _ G G2).
Qed.
Lemma fold_ge_elem : forall A (f : f32 -> A -> f32) l acc v x, nneg acc ->
  (forall a x, In x l -> nneg a -> nneg (f a x) /\ fle a (f a x) = true) -> In x l ->
  (forall a, nneg a -> fle v (f a x) = true) -> fle v (fold_left f l acc) = true.
Proof.
  intros A f l. induction l as [|y l IH]; intros acc v x N H I V; cbn [fold_left]; [destruct I|].
  destruct (H acc y (or_introl eq_refl) N) as (N' & G).
  destruct I as [->|I].
  - destruct (fold_ge A f l (f acc x) N') as (_ & G2); [intros a y I; apply H; now right|].
    exact (fle_trans _ _ _ (V acc N) G2).
  - apply (IH _ _ x); auto. intros a z J. apply H. now right.
Qed.

Lemma wsd_audible : forall s k kk j c w i b, (0 <= kk)%Z -> (0 <= j)%Z -> (kk + j <= 46)%Z ->
  Forall (fun ch => length ch = 12 /\ Forall (within kk) ch /\ Forall (fun x => nneg x) ch) c ->
  match w with None => True | Some ws => length ws = length c /\ Forall (fun x => fgt x f0 = true -> within j x) ws end ->
  i < length c -> b < 12 -> fle e20 (nth b (nth i c []) f0) = true ->
  match w with None => True | Some ws => fle e5 (nth i ws f0) = true end ->
  flt tiny9 (weighted_sum_dot c w (template_of (new_templates s) k)) = true.
Proof.
  intros s k kk j c w i b K J S C W Hi Hb A Wi.
  set (t := template_of (new_templates s) k).
  assert (Dn : forall ch, In ch c -> nneg (dot ch t) /\ fin (dot ch t)).
  { intros ch I. destruct (proj1 (Forall_forall _ _) C _ I) as (_ & C2 & C3). split.
    - unfold dot. apply fsum_nneg. apply (dot_nneg s k kk); auto. lia.
    - apply (within_fin (kk + 25)). apply dot_within; auto; [lia|]. apply builtin_bounded. }
  assert (D : fle (fmul e20 e4) (dot (nth i c []) t) = true).
  { destruct (proj1 (Forall_forall _ _) C _ (nth_In c [] Hi)) as (C1 & C2 & C3).
    apply (dot_audible s k kk _ b); auto. lia. }
  assert (Hi' : In (nth i c []) c) by (now apply nth_In).
  unfold weighted_sum_dot. destruct w as [ws|].
  - destruct W as (Lw & W).
    refine (flt_fle_trans tiny9 (fmul e5 (fmul e20 e4)) _ _ _); [vm_compute; reflexivity|].
    assert (H : forall ch x, In (ch, x) (combine c ws) -> fgt x f0 = true -> nneg (fmul x (dot ch t))).
    { intros ch x I G. pose proof (in_combine_l _ _ _ _ I) as I1. pose proof (in_combine_r _ _ _ _ I) as I2.
      destruct (Dn _ I1) as (N & F). apply fmul_nneg_fin; auto.
      - exact (within_fin _ _ (proj1 (Forall_forall _ _) W _ I2 G)).
      - apply flt_fle. exact G. }
    apply (fold_ge_elem _ _ _ _ _ (nth i c [], nth i ws f0)).
    + reflexivity.
    + intros a [ch x] I N. cbn [fst snd]. destruct (fgt x f0) eqn:G; [|split; [exact N|apply fle_refl, nneg_nn, N]].
      pose proof (H _ _ I G) as M. split; [now apply fadd_nneg|]. apply fadd_ge_l; auto using nneg_nn, nneg_fadd_nn.
    + rewrite <- combine_nth by congruence. apply nth_In. rewrite combine_length, Lw, Nat.min_id. exact Hi.
    + intros a N. cbn [fst snd].
      assert (G : fgt (nth i ws f0) f0 = true) by (refine (flt_fle_trans f0 e5 _ _ Wi); reflexivity).
      assert (I : In (nth i c [], nth i ws f0) (combine c ws)).
      { rewrite <- combine_nth by congruence. apply nth_In. rewrite combine_length, Lw, Nat.min_id. exact Hi. }
      rewrite G. pose proof (H _ _ I G) as M. destruct (Dn _ Hi') as (N2 & F2).
      refine (fle_trans _ (fmul (nth i ws f0) (dot (nth i c []) t)) _ _ _).
      * apply fmul_mono; [reflexivity|exact Wi|reflexivity|exact D|reflexivity|now apply nneg_nn].
      * rewrite fadd_comm. apply fadd_ge_l; auto using nneg_nn, nneg_fadd_nn.
  - refine (flt_fle_trans tiny9 (fmul e20 e4) _ _ _); [vm_compute; reflexivity|].
    apply (fold_ge_elem _ _ _ _ _ (nth i c [])).
    + reflexivity.
    + intros a ch I N. destruct (Dn _ I) as (M & _). split; [now apply fadd_nneg|].
      apply fadd_ge_l; auto using nneg_nn, nneg_fadd_nn.
    + exact Hi'.
    + intros a N. destruct (Dn _ Hi') as (M & _). refine (fle_trans _ _ _ D _).
      rewrite fadd_comm. apply fadd_ge_l; auto using nneg_nn, nneg_fadd_nn.
Qed.

Lemma raw_live : forall c t w b, (forall k, flt tiny9 (weighted_sum_dot c w (template_of t k)) = true) ->
  live b (raw_scores c t w).
Proof.
  intros c t w b H. exists (if b then Major 0%Z else Minor 0%Z), (weighted_sum_dot c w (template_of t (if b then Major 0%Z else Minor 0%Z))).
  split; [|split; [now destruct b|apply H]].
  unfold raw_scores. apply in_map_iff. exists (if b then Major 0%Z else Minor 0%Z). split; auto.
  destruct b; unfold all_keys; apply in_app_iff; [left|right]; apply in_map_iff; exists 0; (split; [reflexivity|apply in_seq; lia]).
Qed.
