(** Facts about onset picking. *)
From Coq Require Import ZArith Bool List Arith Lia Sorted Reals Lra.
From Flocq Require Import Core IEEE754.BinarySingleNaN.
From Verif Require Import Rust F32 F32Facts F32More ListFacts Sorting SortingFacts Threshold ThresholdProofs
  Onsets.
Import ListNotations.

(** Flux index k is a local maximum above thr: higher than its left neighbour, not lower than
    its right neighbour (where those exist). *)
Definition is_onset (flux : list f32) (thr : f32) (k : nat) : Prop :=
  2 <= length flux /\
  exists v, nth_error flux k = Some v /\ flt thr v = true /\
    (forall j p, k = S j -> nth_error flux j = Some p -> flt p v = true) /\
    (forall n, nth_error flux (S k) = Some n -> fle n v = true).

Lemma adj_length : forall A B (f : A -> A -> B) l, length (adj f l) = length l - 1.
Proof.
  intros A B f. induction l as [|a [|b l] IH]; auto.
  change (adj f (a :: b :: l)) with (f a b :: adj f (b :: l)). cbn [length] in *. lia.
Qed.
Lemma adj_nth : forall A B (f : A -> A -> B) l i y, nth_error (adj f l) i = Some y <->
  exists a b, nth_error l i = Some a /\ nth_error l (S i) = Some b /\ y = f a b.
Proof.
  intros A B f. induction l as [|a [|b l] IH]; intros i y.
  - split; [destruct i; discriminate|]. intros (? & ? & H & _). destruct i; discriminate.
  - split; [destruct i; discriminate|]. intros (? & ? & _ & H & _). destruct i as [|[]]; discriminate.
  - change (adj f (a :: b :: l)) with (f a b :: adj f (b :: l)). destruct i as [|i].
    + cbn [nth_error]. split.
      * intros [= <-]. eauto.
      * intros (x & z & [= <-] & [= <-] & ->). reflexivity.
    + cbn [nth_error]. rewrite IH. reflexivity.
Qed.
Lemma adj_Forall : forall A B (f : A -> A -> B) (P : B -> Prop) l, (forall a b, P (f a b)) ->
  Forall P (adj f l).
Proof.
  intros A B f P l H. apply Forall_forall. intros y Hy. apply In_nth_error in Hy.
  destruct Hy as (i & Hi). apply adj_nth in Hi. destruct Hi as (a & b & _ & _ & ->). auto.
Qed.

Lemma raw_onsets_in : forall flux thr k, In k (raw_onsets flux thr) <-> is_onset flux thr k.
Proof.
  intros flux thr k. unfold raw_onsets. rewrite !in_app_iff, in_flat_map. split.
  - intros [(i & Hi & H)|[H|H]].
    + apply in_seq in Hi. unfold interior_onset in H.
      destruct (nth_error flux (i - 1)) as [p|] eqn:P; [|destruct H].
      destruct (nth_error flux i) as [v|] eqn:V; [|destruct H].
      destruct (nth_error flux (i + 1)) as [n|] eqn:N; [|destruct H].
      destruct (fgt v thr && fgt v p && fge v n) eqn:E; [|destruct H].
      destruct H as [<- |[]]. apply andb_true_iff in E. destruct E as (E & E3).
      apply andb_true_iff in E. destruct E as (E1 & E2).
      split; [lia|]. exists v. repeat split; auto.
      * intros j q -> Hq. replace (S j - 1) with j in P by lia. rewrite Hq in P.
        injection P as ->. exact E2.
      * intros m Hm. replace (i + 1) with (S i) in N by lia. rewrite Hm in N.
        injection N as ->. exact E3.
    + unfold first_onset in H.
      destruct (nth_error flux 0) as [v|] eqn:V; [|destruct H].
      destruct (nth_error flux 1) as [n|] eqn:N; [|destruct H].
      destruct (fgt v thr && fge v n) eqn:E; [|destruct H]. destruct H as [<- |[]].
      apply andb_true_iff in E. destruct E as (E1 & E2).
      assert (1 < length flux) by (apply nth_error_Some; congruence).
      split; [lia|]. exists v. repeat split; auto.
      * intros; discriminate.
      * intros m Hm. rewrite Hm in N. injection N as ->. exact E2.
    + unfold last_onset in H. destruct (1 <? length flux) eqn:L; [|destruct H].
      apply Nat.ltb_lt in L.
      destruct (nth_error flux (length flux - 1)) as [v|] eqn:V; [|destruct H].
      destruct (nth_error flux (length flux - 1 - 1)) as [p|] eqn:P; [|destruct H].
      destruct (fgt v thr && fgt v p) eqn:E; [|destruct H]. destruct H as [<- |[]].
      apply andb_true_iff in E. destruct E as (E1 & E2).
      split; [lia|]. exists v. repeat split; auto.
      * intros j q Hj Hq. replace (length flux - 1 - 1) with j in P by lia. rewrite Hq in P.
        injection P as ->. exact E2.
      * intros m Hm. assert (S (length flux - 1) < length flux) by (apply nth_error_Some; congruence). lia.
  - intros (L & v & V & T & Pv & Nx).
    assert (K : k < length flux) by (apply nth_error_Some; congruence).
    destruct k as [|k].
    + right. left. unfold first_onset. rewrite V.
      destruct (nth_error flux 1) as [n|] eqn:N.
      * assert (A : fgt v thr && fge v n = true) by (apply andb_true_iff; split; auto; apply Nx; auto).
        rewrite A. now left.
      * apply nth_error_None in N. lia.
    + destruct (nth_error flux k) as [p|] eqn:P; [|apply nth_error_None in P; lia].
      assert (C : fgt v p = true) by (apply (Pv k); auto).
      destruct (nth_error flux (S (S k))) as [n|] eqn:N.
      * left. exists (S k). split. { apply in_seq. assert (S (S k) < length flux) by (apply nth_error_Some; congruence). lia. }
        unfold interior_onset. replace (S k - 1) with k by lia. replace (S k + 1) with (S (S k)) by lia.
        rewrite P, V, N.
        assert (A : fgt v thr && fgt v p && fge v n = true).
        { rewrite !andb_true_iff. repeat split; auto. apply Nx; auto. }
        rewrite A. now left.
      * right. right. unfold last_onset. apply nth_error_None in N.
        assert (E : (1 <? length flux) = true) by (apply Nat.ltb_lt; lia). rewrite E.
        replace (length flux - 1) with (S k) by lia. replace (S k - 1) with k by lia.
        rewrite V, P. assert (A : fgt v thr && fgt v p = true) by (apply andb_true_iff; auto).
        rewrite A. now left.
Qed.

(** Sorting and deduplicating naturals. *)
Lemma nat_sorted : forall l, StronglySorted le (sort_by Nat.leb l).
Proof.
  intros l. eapply StronglySorted_weaken with (R := fun x y => Nat.leb x y = true).
  2:{ apply sort_by_sorted with (P := fun _ => True).
      - intros x y _ _. destruct (Nat.leb x y) eqn:E; auto. right. apply Nat.leb_gt in E.
        apply Nat.leb_le. lia.
      - intros x y z _ _ _ H1 H2. apply Nat.leb_le in H1, H2. apply Nat.leb_le. lia.
      - now apply Forall_forall. }
  intros x y _ _ H. now apply Nat.leb_le.
Qed.
Lemma dedup_from_spec : forall l x, StronglySorted le (x :: l) ->
  StronglySorted lt (x :: dedup_from Nat.eqb x l) /\
  (forall y, In y (x :: dedup_from Nat.eqb x l) <-> In y (x :: l)).
Proof.
  induction l as [|y l IH]; intros x H. { split; [repeat constructor|reflexivity]. }
  apply StronglySorted_inv in H. destruct H as (Hs & Hx). cbn [dedup_from].
  pose proof (Forall_inv Hx) as Hxy. destruct (Nat.eqb x y) eqn:E.
  - apply Nat.eqb_eq in E. subst y. destruct (IH x Hs) as (A & B). split; auto.
    intros z. rewrite B. cbn [In]. tauto.
  - apply Nat.eqb_neq in E. destruct (IH y Hs) as (A & B). split.
    + constructor; auto. apply Forall_forall. intros z Hz. apply B in Hz.
      apply StronglySorted_inv in Hs. destruct Hs as (_ & Hy). rewrite Forall_forall in Hy.
      destruct Hz as [<- |Hz]; [lia|]. specialize (Hy z Hz). lia.
    + intros z. cbn [In]. specialize (B z). cbn [In] in B. tauto.
Qed.
Lemma dedup_spec : forall l, StronglySorted le l ->
  StronglySorted lt (dedup Nat.eqb l) /\ (forall y, In y (dedup Nat.eqb l) <-> In y l).
Proof.
  intros [|x l] H. { split; [constructor|reflexivity]. } now apply dedup_from_spec.
Qed.

Lemma pick_spec : forall flux thr,
  StronglySorted lt (pick_onsets flux thr) /\
  (forall i, In i (pick_onsets flux thr) <-> exists k, i = S k /\ is_onset flux thr k).
Proof.
  intros flux thr. unfold pick_onsets. destruct (dedup_spec _ (nat_sorted (map S (raw_onsets flux thr)))) as (A & B).
  split; auto. intros i. rewrite B, sort_by_in, in_map_iff. split.
  - intros (k & <- & H). exists k. split; auto. now apply raw_onsets_in.
  - intros (k & -> & H). exists k. split; auto. now apply raw_onsets_in.
Qed.

(** Two neighbouring flux indices are never both onsets. *)
Lemma onset_isolated : forall flux thr k, is_onset flux thr k -> ~ is_onset flux thr (S k).
Proof.
  intros flux thr k (_ & v & V & _ & _ & N) (_ & w & W & _ & P & _).
  specialize (N w W). specialize (P k v eq_refl V). apply fle_flt_false in N. congruence.
Qed.

Lemma rise_nneg : forall a b, nneg (rise a b).
Proof.
  intros a b. unfold rise. apply fmax_ge_r. reflexivity.
Qed.
Lemma rise_pos : forall a b, flt f0 (rise a b) = true -> flt a b = true.
Proof.
  intros a b H. unfold rise in H. destruct (fmax_case (fsub b a) f0) as [E|E]; rewrite E in H.
  2:{ discriminate. }
  clear E. pose proof (flt_nn _ _ H) as (_ & N). rewrite fsub_eq in N.
  pose proof (fadd_nan_l _ _ N) as (Nb & Na). rewrite fneg_nn in Na. rewrite <- fsub_eq in N.
  destruct (flt a b) eqn:E; auto. exfalso. apply flt_false_fle in E; auto.
  assert (L : fle (fsub b a) f0 = true).
  { destruct (nn_cases a Na) as [Fa|[-> | ->]]; destruct (nn_cases b Nb) as [Fb|[-> | ->]];
      try discriminate; try (destruct b; try discriminate; reflexivity);
      try (destruct a; try discriminate; reflexivity).
    destruct (fsub_fx b a Fb Fa) as (_ & V). apply fle_intro; auto. rewrite V, fx_f0.
    rewrite <- sat_0. apply sat_mono. rewrite <- rnd_0. apply rnd_mono.
    apply fle_fx in E. rewrite !fx_fin in E by auto. apply Rle_minus. exact E. }
  apply fle_flt_false in L. congruence.
Qed.

Lemma l2_rise_nneg : forall a b, nneg (l2_rise a b).
Proof.
  intros a b. unfold l2_rise. apply fsqrt_nneg, fsum_nneg. apply Forall_map, Forall_forall.
  intros (p, c) _. cbn [fst snd]. assert (M : nneg (fmax (fsub c p) f0)) by (apply fmax_ge_r; reflexivity).
  destruct (nneg_cases _ M) as [(F & _)| ->]; [|reflexivity].
  now apply fmul_nneg_fin.
Qed.

(** The shared tail of the three detectors. *)
Lemma tap_spec : forall flux p out, Forall (fun x => nneg x) flux ->
  threshold_and_pick flux p = Ok out ->
  exists thr, (flux = [] \/ nneg thr /\
     get (sort_asc flux) (percentile_index (length flux) p) = Ok thr) /\
  StronglySorted lt out /\
  (forall i, In i out <-> exists k, i = S k /\ is_onset flux thr k).
Proof.
  intros flux p out Hf H. unfold threshold_and_pick in H. destruct flux as [|x flux].
  - injection H as <-. exists f0. split; auto. split; [constructor|]. intros i. split; [easy|].
    intros (k & _ & L & _). simpl in L. lia.
  - destruct (get (sort_asc (x :: flux)) (percentile_index (length (x :: flux)) p)) as [thr| |] eqn:G; try discriminate. cbn [obind] in H.
    injection H as <-. exists thr. split.
    + right. split; auto. apply get_Ok in G. apply nth_error_In in G.
      apply sort_by_in in G. rewrite Forall_forall in Hf. now apply Hf.
    + destruct (pick_spec (x :: flux) thr) as (A & B). split; auto.
Qed.

Lemma tap_total : forall flux p, exists out, threshold_and_pick flux p = Ok out.
Proof.
  intros [|x flux] p; [now exists []|]. unfold threshold_and_pick.
  destruct (get_lt _ (sort_asc (x :: flux)) (percentile_index (length (x :: flux)) p)) as (t & ->).
  - rewrite sort_asc_length. apply percentile_index_lt. simpl. lia.
  - cbn [obind]. eauto.
Qed.

Lemma onset_range : forall flux thr k, is_onset flux thr k -> k < length flux.
Proof. intros flux thr k (_ & v & V & _). apply nth_error_Some. congruence. Qed.

Lemma NoDup_app_intro : forall A (l m : list A), NoDup l -> NoDup m ->
  (forall x, In x l -> ~ In x m) -> NoDup (l ++ m).
Proof.
  intros A l m Hl Hm H. induction Hl as [|x l Hx Hl IH]; auto. cbn [app].
  constructor.
  - rewrite in_app_iff. intros [C|C]; auto. apply (H x); auto. now left.
  - apply IH. intros y Hy. apply H. now right.
Qed.
Lemma flat_single_nodup : forall (f : nat -> list nat) l, (forall i, f i = [] \/ f i = [i]) ->
  NoDup l -> NoDup (flat_map f l) /\ incl (flat_map f l) l.
Proof.
  intros f l Hf. induction l as [|x l IH]; intros N; cbn [flat_map].
  - split; [constructor|easy].
  - apply NoDup_cons_iff in N. destruct N as (Nx & N). destruct (IH N) as (A & B).
    destruct (Hf x) as [-> | ->]; cbn [app].
    + split; auto. intros y Hy. right. auto.
    + split.
      * constructor; auto.
      * intros y [<- |Hy]; [now left|right; auto].
Qed.
Lemma raw_onsets_nodup : forall flux thr, NoDup (raw_onsets flux thr).
Proof.
  intros flux thr. unfold raw_onsets.
  assert (F0 : first_onset flux thr = [] \/ first_onset flux thr = [0] /\ 2 <= length flux).
  { unfold first_onset. destruct (nth_error flux 0); auto. destruct (nth_error flux 1) eqn:E; auto.
    destruct (_ && _); auto. right. split; auto.
    assert (1 < length flux) by (apply nth_error_Some; congruence). lia. }
  assert (L0 : last_onset flux thr = [] \/ last_onset flux thr = [length flux - 1] /\ 2 <= length flux).
  { unfold last_onset. destruct (Nat.ltb_spec 1 (length flux)); auto.
    destruct (nth_error flux (length flux - 1)); auto.
    destruct (nth_error flux (length flux - 1 - 1)); auto. destruct (_ && _); auto. }
  destruct (flat_single_nodup (interior_onset flux thr) (seq 1 (length flux - 1 - 1))) as (A & B).
  { intros i. unfold interior_onset. destruct (nth_error flux (i - 1)); auto.
    destruct (nth_error flux i); auto. destruct (nth_error flux (i + 1)); auto.
    destruct (_ && _); auto. }
  { apply seq_NoDup. }
  apply NoDup_app_intro; auto.
  - apply NoDup_app_intro.
    + destruct F0 as [-> |(-> & _)]; repeat constructor; auto.
    + destruct L0 as [-> |(-> & _)]; repeat constructor; auto.
    + intros x Hx Hy. destruct F0 as [F0|(F0 & L)]; rewrite F0 in Hx; [easy|].
      destruct L0 as [L0|(L0 & _)]; rewrite L0 in Hy; [easy|].
      destruct Hx as [<- |[]]. destruct Hy as [Hy|[]]. lia.
  - intros x Hx Hy. apply B in Hx. apply in_seq in Hx. apply in_app_iff in Hy.
    destruct Hy as [Hy|Hy].
    + destruct F0 as [F0|(F0 & _)]; rewrite F0 in Hy; [easy|]. destruct Hy as [Hy|[]]. lia.
    + destruct L0 as [L0|(L0 & _)]; rewrite L0 in Hy; [easy|]. destruct Hy as [Hy|[]]. lia.
Qed.

Lemma sorted_lt_nodup : forall l, StronglySorted lt l -> NoDup l.
Proof.
  induction 1 as [|x l H IH Hx]; constructor; auto. intros C. rewrite Forall_forall in Hx.
  specialize (Hx x C). lia.
Qed.
Lemma sorted_le_nodup_lt : forall l, StronglySorted le l -> NoDup l -> StronglySorted lt l.
Proof.
  induction 1 as [|x l H IH Hx]; intros N; constructor; apply NoDup_cons_iff in N; destruct N as (N1 & N2); auto.
  rewrite Forall_forall in *. intros y Hy. specialize (Hx y Hy).
  assert (x <> y) by (intros ->; auto). lia.
Qed.

Lemma space_from_id : forall gap l last, StronglySorted (fun a b => a + gap <= b) (last :: l) ->
  space_from gap last l = l.
Proof.
  induction l as [|x l IH]; intros last H; auto. apply StronglySorted_inv in H.
  destruct H as (H & Hl). apply Forall_inv in Hl. cbn [space_from].
  destruct (Nat.leb_spec (last + gap) x); [|lia]. f_equal. now apply IH.
Qed.
Lemma space_id : forall gap l, StronglySorted (fun a b => a + gap <= b) l -> space_onsets gap l = l.
Proof. intros gap [|x l] H; auto. unfold space_onsets. f_equal. now apply space_from_id. Qed.

Lemma filter_seq_nth : forall (f : f32 -> bool) l n,
  length (filter (fun k => match nth_error l (k - n) with Some v => f v | None => false end)
                 (seq n (length l))) = length (filter f l).
Proof.
  intros f. induction l as [|x l IH]; intros n; auto.
  cbn [length seq filter]. rewrite Nat.sub_diag. cbn [nth_error].
  assert (E : filter (fun k => match nth_error (x :: l) (k - n) with Some v => f v | None => false end) (seq (S n) (length l))
            = filter (fun k => match nth_error l (k - S n) with Some v => f v | None => false end) (seq (S n) (length l))).
  { apply filter_ext_in. intros k Hk. apply in_seq in Hk. replace (k - n) with (S (k - S n)) by lia. reflexivity. }
  rewrite E. specialize (IH (S n)). destruct (f x); cbn [length]; lia.
Qed.

Lemma count_split : forall l t, Forall (fun x => nn x) l -> nn t ->
  length (filter (flt t) l) + count_le l t = length l.
Proof.
  intros l t H Nt. unfold count_le. induction H as [|x l Nx H IH]; auto. cbn [filter length].
  rewrite (flt_negb_fle t x) by auto. destruct (fle x t); cbn [negb length]; lia.
Qed.

(** Number of onsets: at most the number of flux values above the threshold. *)
Lemma onset_count : forall flux thr out, StronglySorted lt out ->
  (forall i, In i out <-> exists k, i = S k /\ is_onset flux thr k) ->
  length out <= length (filter (flt thr) flux).
Proof.
  intros flux thr out Hs Hin. rewrite <- (filter_seq_nth (flt thr) flux 0).
  match goal with |- _ <= length ?l => rewrite <- (map_length S l) end.
  apply NoDup_incl_length. now apply sorted_lt_nodup.
  intros i Hi. apply Hin in Hi. destruct Hi as (k & -> & Hk). apply in_map.
  apply filter_In. split. { apply in_seq. apply onset_range in Hk. lia. }
  rewrite Nat.sub_0_r. destruct Hk as (_ & v & -> & T & _). exact T.
Qed.

Lemma onset_fraction : forall flux p out, (Z.of_nat (length flux) <= 16777216)%Z ->
  Forall (fun x => nneg x) flux -> fle f0 p = true -> fle p f1 = true ->
  threshold_and_pick flux p = Ok out ->
  (INR (length out) <= INR (length flux) * (1 - B2R p))%R.
Proof.
  intros flux p out Hn Hf P0 P1 H.
  assert (Hnn : Forall (fun x => nn x) flux) by (eapply Forall_impl; [|exact Hf]; intros; now apply nneg_nn).
  destruct (tap_spec flux p out Hf H) as (thr & T & Hs & Hin).
  destruct T as [-> |(T0 & T)].
  { unfold threshold_and_pick in H. injection H as <-. cbn [length INR]. rewrite Rmult_0_l. apply Rle_refl. }
  pose proof (onset_count _ _ _ Hs Hin) as C.
  pose proof (count_split flux thr Hnn (nneg_nn _ T0)) as E.
  assert (Fr : (INR (length flux) * B2R p <= INR (count_le flux thr))%R).
  { apply percentile_fraction; auto. unfold percentile_threshold. destruct flux as [|x flux].
    { apply get_Ok, nth_error_In in T. destruct T. }
    rewrite P0, P1. exact T. }
  rewrite <- E in Fr |- *. apply le_INR in C. rewrite plus_INR in *. lra.
Qed.

(** The rectified distance is 0 when no bin rises. *)
Lemma rise_flat : forall a b, flt a b = false ->
  fmul (fmax (fsub b a) f0) (fmax (fsub b a) f0) = f0.
Proof.
  intros a b H. change (fmax (fsub b a) f0) with (rise a b).
  destruct (flt f0 (rise a b)) eqn:E. { apply rise_pos in E. congruence. }
  pose proof (rise_nneg a b) as N. set (r := rise a b) in *. clearbody r.
  destruct r as [s|s| |s m e B]; try (destruct s); try discriminate; reflexivity.
Qed.
Lemma fsum_zeros : forall l, (forall x, In x l -> x = f0) -> fsum l = f0.
Proof.
  intros l H. unfold fsum. induction l as [|x l IH]; auto. cbn [fold_left].
  rewrite (H x) by now left. change (fadd f0 f0) with f0. apply IH. intros y Hy. apply H. now right.
Qed.
Lemma l2_flat : forall a b, (forall pc, In pc (combine a b) -> flt (fst pc) (snd pc) = false) ->
  l2_rise a b = f0.
Proof.
  intros a b H. unfold l2_rise. rewrite fsum_zeros; [reflexivity|].
  intros x Hx. apply in_map_iff in Hx. destruct Hx as (pc & <- & Hpc). cbv zeta.
  apply rise_flat. now apply H.
Qed.
Lemma nth_error_combine : forall A B (l : list A) (m : list B) i a b,
  nth_error (combine l m) i = Some (a, b) -> nth_error l i = Some a /\ nth_error m i = Some b.
Proof.
  intros A B. induction l as [|x l IH]; intros [|y m] i a b H; try (destruct i; discriminate).
  destruct i as [|i]; cbn [combine nth_error] in *; [injection H as <- <-; auto|now apply IH].
Qed.
