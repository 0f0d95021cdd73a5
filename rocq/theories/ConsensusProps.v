(** C12, C13, C14: onset voting. *)
From Coq Require Import ZArith Sorted.
From Verif Require Import Rust F32 F32Facts ListFacts Consensus ConsensusSpec ConsensusProofs.
Local Open Scope Z_scope.

(** Whenever voting succeeds the candidates correspond one-to-one to the groups of a
    partition of all reported onsets: nothing lost, nothing invented, every group
    non-empty, each candidate's time within its group, votes = distinct methods.
    Holds for every usize position. *)
Theorem C12_partition : forall c w ms sr cands, vote_onsets c w ms sr = Ok cands ->
  exists parts cands', Permutation cands cands' /\ Permutation (concat parts) (reported c) /\
    Forall2 represents cands' parts.
Proof.
  intros c w ms sr cands H. destruct (vote_partition _ _ _ _ _ H) as (p & k & H1 & H2 & H3 & _ & _). eauto.
Qed.
Print Assumptions C12_partition.

(** For positions below 2^31 the partition is exactly the connected components of the
    "within tolerance" relation: groups are chained by steps of at most the tolerance,
    and different groups are more than the tolerance apart. *)
Theorem C12_components : forall c w ms sr cands, vote_onsets c w ms sr = Ok cands ->
  (forall r, In r (reported c) -> 0 <= fst r < 2147483648) ->
  exists parts cands', Permutation cands cands' /\ Permutation (concat parts) (reported c) /\
    Forall2 represents cands' parts /\
    ForallOrdPairs (separated (tolerance_samples ms sr)) parts /\
    Forall (chained (tolerance_samples ms sr)) parts.
Proof.
  intros c w ms sr cands H S. destruct (vote_partition _ _ _ _ _ H) as (p & k & H1 & H2 & H3 & _ & H4).
  destruct (H4 S). exists p, k. auto.
Qed.
Print Assumptions C12_components.

(** No more candidates than onsets; no candidates exactly when there are no onsets. *)
Theorem C12_count : forall c w ms sr cands, vote_onsets c w ms sr = Ok cands ->
  (length cands <= length (reported c))%nat /\ (cands = [] <-> reported c = []).
Proof.
  intros c w ms sr cands H. destruct (vote_partition _ _ _ _ _ H) as (p & k & H1 & H2 & H3 & _ & _).
  assert (L : (length p <= length (concat p))%nat /\ (p = [] <-> concat p = [])).
  { clear - H3. induction H3 as [|cd q k p R F IH]; simpl. split; [lia|tauto].
    destruct R as [R _]. rewrite app_length. destruct q; [congruence|]. simpl. split. lia.
    split; discriminate. }
  rewrite (Permutation_length H1), (Forall2_len _ _ _ _ _ H3), <- (Permutation_length H2).
  split. apply L. split; intros E.
  - subst cands. apply Permutation_nil in H1. subst k. inversion H3; subst. simpl in H2.
    now apply Permutation_nil in H2.
  - rewrite E in H2. apply Permutation_sym, Permutation_nil in H2. apply L in H2. subst p.
    inversion H3; subst. now apply Permutation_sym, Permutation_nil in H1.
Qed.
Print Assumptions C12_count.

(** Accepted parameters always succeed (fewer than 2^33 onsets below 2^31), and the
    rejected ones are exactly zero rate, zero tolerance and a negative weight. *)
Theorem C12_total : forall c w0 w1 w2 w3 ms sr,
  (sr = 0 \/ ms = 0 \/ flt w0 f0 = true \/ flt w1 f0 = true \/ flt w2 f0 = true \/ flt w3 f0 = true ->
     vote_onsets c (w0, w1, w2, w3) ms sr = Err InvalidInput) /\
  (sr <> 0 -> ms <> 0 ->
     flt w0 f0 = false -> flt w1 f0 = false -> flt w2 f0 = false -> flt w3 f0 = false ->
     (forall r, In r (reported c) -> 0 <= fst r < 2147483648) ->
     Z.of_nat (length (reported c)) < 8589934592 ->
     exists cands, vote_onsets c (w0, w1, w2, w3) ms sr = Ok cands).
Proof.
  intros c w0 w1 w2 w3 ms sr. split; [|apply vote_total].
  intros H. unfold vote_onsets.
  destruct (Z.eqb_spec sr 0); auto. destruct (Z.eqb_spec ms 0); auto.
  destruct H as [H|[H|[H|[H|[H|H]]]]]; try contradiction; rewrite H; simpl; auto;
    rewrite ?orb_true_r; auto.
Qed.
Print Assumptions C12_total.

(** Confidence in [0,1], sorted by decreasing confidence. *)
Theorem C13_confidence : forall c w0 w1 w2 w3 ms sr cands,
  fle f0 w0 = true -> fle f0 w1 = true -> fle f0 w2 = true -> fle f0 w3 = true ->
  fisfin (fsum [w0; w1; w2; w3]) = true ->
  vote_onsets c (w0, w1, w2, w3) ms sr = Ok cands ->
  Forall (fun cd => fle f0 (cd_confidence cd) = true /\ fle (cd_confidence cd) f1 = true) cands /\
  StronglySorted (fun a b => fle (cd_confidence b) (cd_confidence a) = true) cands.
Proof. exact vote_confidence. Qed.
Print Assumptions C13_confidence.

(** The confidence is the weighted share of the reports grouped in the candidate. *)
Theorem C13_formula : forall c w ms sr cands, vote_onsets c w ms sr = Ok cands ->
  exists parts cands', Permutation cands cands' /\ Permutation (concat parts) (reported c) /\
    Forall2 represents cands' parts /\ Forall2 (weighs w sr) cands' parts.
Proof.
  intros c w ms sr cands H. destruct (vote_partition _ _ _ _ _ H) as (p & k & H1 & H2 & H3 & H4 & _).
  exists p, k. auto.
Qed.
Print Assumptions C13_formula.

(** Between one and four votes. *)
Theorem C13_votes : forall c w ms sr cands cd, vote_onsets c w ms sr = Ok cands ->
  In cd cands -> (1 <= cd_voted_by cd <= 4)%nat.
Proof.
  intros c w ms sr cands cd H Hcd. destruct (vote_partition _ _ _ _ _ H) as (p & k & H1 & H2 & H3 & _ & _).
  eapply Permutation_in in Hcd; [|exact H1].
  assert (M : forall r, In r (concat p) -> (snd r < 4)%nat).
  { intros r Hr. eapply Permutation_in in Hr; [|exact H2]. unfold reported in Hr.
    repeat (apply in_app_or in Hr; destruct Hr as [Hr|Hr]);
      apply in_map_iff in Hr; destruct Hr as (s & <- & _); simpl; lia. }
  clear - Hcd H3 M. induction H3 as [|cd' q k p R F IH]; [destruct Hcd|].
  destruct Hcd as [->|Hcd].
  - destruct R as (NE & _ & _ & _ & ->). unfold distinct_methods. split.
    + destruct q as [|r q]; [congruence|].
      assert (I : In (snd r) (nodup Nat.eq_dec (map snd (r :: q)))) by (apply nodup_In; simpl; auto).
      destruct (nodup Nat.eq_dec (map snd (r :: q))); [destruct I|simpl; lia].
    + change 4%nat with (length [0; 1; 2; 3]%nat). apply NoDup_incl_length. apply NoDup_nodup.
      intros m Hm. apply nodup_In, in_map_iff in Hm. destruct Hm as (r & <- & Hr).
      assert (snd r < 4)%nat by (apply M; simpl; apply in_or_app; auto).
      simpl. destruct (snd r) as [|[|[|[|]]]]; auto; lia.
  - apply IH; auto. intros r Hr. apply M. simpl. apply in_or_app; auto.
Qed.
Print Assumptions C13_votes.

(** NaN and infinite weights pass the validation and make the confidence NaN. *)
Theorem C13_nan_weight_refuted : exists c w ms sr,
  omap (map (fun cd => fisnan (cd_confidence cd))) (vote_onsets c w ms sr) = Ok [true].
Proof.
  exists {| oc_energy_flux := [100]; oc_spectral_flux := []; oc_hfc := []; oc_hpss := [] |},
    (finf, f1, f1, f1), 50, 44100.
  vm_compute. reflexivity.
Qed.
Print Assumptions C13_nan_weight_refuted.

(** Exactness: two reported onsets make one candidate exactly when they are within the
    tolerance.  True below 2^31 (for more onsets see C12_components); false for arbitrary usize positions because positions are
    truncated to 32 bits: 0 and 2^32 end up in one candidate. *)
Theorem C14_exact_below_2_31_partial : forall c w ms sr cands a b,
  0 <= fst a < 2147483648 -> 0 <= fst b < 2147483648 -> reported c = [a; b] ->
  vote_onsets c w ms sr = Ok cands ->
  (length cands = 1%nat <-> Z.abs (fst a - fst b) <= tolerance_samples ms sr).
Proof.
  intros c w ms sr cands a b Ha Hb R H.
  destruct (vote_partition _ _ _ _ _ H) as (p & k & H1 & H2 & H3 & _ & H4).
  destruct H4 as [S C]. { rewrite R. intros r [<-|[<-|[]]]; auto. }
  rewrite R in H2. rewrite (Permutation_length H1), (Forall2_len _ _ _ _ _ H3).
  assert (NE : Forall (fun q => q <> []) p).
  { clear - H3. induction H3 as [|x q ? ? X]; constructor; auto. apply X. }
  set (tol := tolerance_samples ms sr) in *. split.
  - intros L. destruct p as [|q [|]]; try discriminate. simpl in H2. rewrite app_nil_r in H2.
    destruct (Z_le_gt_dec (Z.abs (fst a - fst b)) tol) as [D|D]; auto. exfalso.
    inversion C as [|? ? Cq _]; subst.
    assert (Ia : In a q) by (eapply Permutation_in; [apply Permutation_sym, H2|simpl; auto]).
    assert (Ib : In b q) by (eapply Permutation_in; [apply Permutation_sym, H2|simpl; auto]).
    assert (M : forall r, In r q -> r = a \/ r = b).
    { intros r Hr. eapply Permutation_in in Hr; [|exact H2]. destruct Hr as [<-|[<-|[]]]; auto. }
    pose proof (Cq a b Ia Ib) as K.
    assert (G : forall x y, Relation_Operators.clos_refl_trans _ (fun x y => In x q /\ In y q /\ Z.abs (fst x - fst y) <= tol) x y ->
       fst x = fst y).
    { intros x y X. induction X as [x y (X1 & X2 & X3)| |]; auto; try congruence.
      destruct (M _ X1) as [-> | ->], (M _ X2) as [-> | ->]; auto; lia. }
    specialize (G a b K). pose proof (tol_nonneg ms sr). fold tol in H0. lia.
  - intros D. destruct p as [|q [|r p]].
    + apply Permutation_nil in H2. discriminate.
    + reflexivity.
    + exfalso. inversion NE as [|? ? N1 NE']; subst. inversion NE' as [|? ? N2 NE'']; subst.
      inversion S as [|? ? S1 _]; subst. inversion S1 as [|? ? S2 _]; subst.
      destruct q as [|x q]; [congruence|]. destruct r as [|y r]; [congruence|].
      specialize (S2 x y ltac:(simpl; auto) ltac:(simpl; auto)).
      assert (Ix : In x [a; b]) by (eapply Permutation_in; [exact H2|simpl; auto]).
      assert (Iy : In y [a; b]).
      { eapply Permutation_in; [exact H2|]. simpl. right. apply in_or_app. simpl; auto. }
      pose proof (tol_nonneg ms sr) as T. fold tol in T.
      destruct Ix as [<-|[<-|[]]], Iy as [<-|[<-|[]]]; lia.
Qed.
Print Assumptions C14_exact_below_2_31_partial.

Theorem C14_exact_refuted : exists c w ms sr,
  reported c = [(0, 0%nat); (4294967296, 1%nat)] /\ tolerance_samples ms sr = 2205 /\
  omap (map (fun cd => (cd_time_samples cd, cd_voted_by cd))) (vote_onsets c w ms sr)
    = Ok [(2147483648, 2%nat)].
Proof.
  exists {| oc_energy_flux := [0]; oc_spectral_flux := [4294967296]; oc_hfc := []; oc_hpss := [] |},
    (f1, f1, f1, f1), 50, 44100.
  split; [reflexivity|]. split; [vm_compute; reflexivity|]. vm_compute. reflexivity.
Qed.
Print Assumptions C14_exact_refuted.

(** Non-trivial instance: the documentation example (tolerance 50 ms = 2205 samples).
    Two groups; the four reports near 1000 and the four near 5000. *)
Example C12_case :
  tolerance_samples 50 44100 = 2205 /\
  omap (map (fun cd => (cd_time_samples cd, cd_voted_by cd, B2SF (cd_confidence cd))))
    (vote_onsets {| oc_energy_flux := [1000; 5000]; oc_spectral_flux := [1050; 5100; 90000];
                    oc_hfc := [980; 5020]; oc_hpss := [1020; 4990] |}
       (lit 1 (-2), lit 1 (-2), lit 1 (-2), lit 1 (-2)) 50 44100)
  = Ok [(1012, 4%nat, B2SF f1); (5027, 4%nat, B2SF f1); (90000, 1%nat, B2SF (lit 1 (-2)))].
Proof. vm_compute. auto. Qed.
