(** Lemmas for BeatGrid.v. *)
From Coq Require Import ZArith Reals Lra Lia Psatz Sorted.
From Flocq Require Import Core.
From Verif Require Import Rust F32 F32Facts F32More ListFacts PeakPicking PeakPickingProofs NoveltyProofs Bounds KeyBoundsProofs
  CombFilterProofs TimeSignature TimeSignatureProofs TempoVariation TempoVariationProofs Bayesian BayesianProofs
  Hmm HmmProofs HmmBeatsProofs BeatGrid TempoVariationProps TimeSignatureProps.

(** ** Sorting times *)
Lemma short_sorted : forall A (R : A -> A -> Prop) l, length l <= 1 -> StronglySorted R l.
Proof. intros A R [|x [|y l]] H; cbn [length] in H; try lia; repeat constructor. Qed.

Lemma sort_times_ok : forall A (key : A -> f32) l l', sort_times key l = Ok l' ->
  Permutation l l' /\ StronglySorted (fun a b => fle (key a) (key b) = true) l'.
Proof.
  intros A key l l' H. unfold sort_times in H.
  destruct ((2 <=? length l) && existsb (fun x => fisnan (key x)) l) eqn:E; [discriminate|].
  assert (El : l' = sort_by (fun a b => fle (key a) (key b)) l) by congruence. subst l'.
  split; [apply sort_by_perm|]. apply andb_false_iff in E. destruct E as [E|E].
  - apply Nat.leb_gt in E. apply short_sorted. rewrite sort_by_length. lia.
  - apply (sort_by_sorted (fun a b => fle (key a) (key b)) (fun a => nn (key a))).
    + intros x y X Y. now apply fle_total.
    + intros x y z _ _ _ H1 H2. exact (fle_trans _ _ _ H1 H2).
    + apply Forall_forall. intros x Hx. destruct (is_nan (key x)) eqn:N; [|reflexivity]. exfalso.
      assert (T : existsb (fun x => fisnan (key x)) l = true) by (apply existsb_exists; exists x; now split). congruence.
Qed.

Lemma sort_times_total : forall A (key : A -> f32) l, Forall (fun a => nn (key a)) l -> exists l', sort_times key l = Ok l'.
Proof.
  intros A key l H. unfold sort_times. replace (existsb _ l) with false; [rewrite andb_false_r; eauto|].
  symmetry. destruct (existsb _ l) eqn:E; [|reflexivity]. apply existsb_exists in E. destruct E as (x & Hx & N).
  apply (proj1 (Forall_forall _ _) H) in Hx. unfold fisnan in N. congruence.
Qed.

Lemma sort_times_id : forall A (key : A -> f32) l, StronglySorted (fun a b => fle (key a) (key b) = true) l ->
  Forall (fun a => nn (key a)) l -> sort_times key l = Ok l.
Proof.
  intros A key l S N. destruct (sort_times_total A key l N) as (l' & E). rewrite E. f_equal. unfold sort_times in E.
  destruct ((2 <=? length l) && _); [discriminate|]. rewrite sort_by_id in E by exact S. congruence.
Qed.

(** ** Subsequences *)
Inductive subseq {A} : list A -> list A -> Prop :=
| sub_nil : forall l, subseq [] l
| sub_take : forall x a b, subseq a b -> subseq (x :: a) (x :: b)
| sub_skip : forall x a b, subseq a b -> subseq a (x :: b).

Lemma next_subseq : forall bar tol last beats, subseq (next_downbeats bar tol last beats) beats.
Proof.
  intros bar tol last beats. revert last. induction beats as [|b r IH]; intros last; cbn [next_downbeats]; [constructor|].
  destruct (fle _ tol); [apply sub_take|apply sub_skip]; apply IH.
Qed.

(** Consecutive downbeats are one bar apart. *)
Fixpoint chain {A} (R : A -> A -> Prop) (x : A) (l : list A) : Prop :=
  match l with [] => True | y :: r => R x y /\ chain R y r end.

Lemma next_chain : forall bar tol last beats,
  chain (fun a b => fle (fabs (fsub b (fadd a bar))) tol = true) last (next_downbeats bar tol last beats).
Proof.
  intros bar tol last beats. revert last. induction beats as [|b r IH]; intros last; cbn [next_downbeats]; [exact I|].
  destruct (fle _ tol) eqn:E; [|apply IH]. cbn [chain]. split; [exact E|apply IH].
Qed.

Lemma last_cons : forall A (l : list A) x d, last (x :: l) d = last l x.
Proof.
  intros A l. induction l as [|y l IH]; intros x d; [reflexivity|]. change (last (y :: l) d = last (y :: l) x).
  now rewrite !IH.
Qed.

Lemma next_app : forall bar tol pre post lst, next_downbeats bar tol lst (pre ++ post) =
  next_downbeats bar tol lst pre ++ next_downbeats bar tol (last (next_downbeats bar tol lst pre) lst) post.
Proof.
  intros bar tol pre post. induction pre as [|b r IH]; intros lst; cbn [app next_downbeats]; [reflexivity|].
  destruct (fle _ tol); [|apply IH]. cbn [app]. rewrite last_cons. now rewrite IH.
Qed.

Lemma sorted_app_r : forall A (R : A -> A -> Prop) l r, StronglySorted R (l ++ r) -> StronglySorted R r.
Proof. intros A R l r. induction l as [|x l IH]; intros H; auto. inversion H. auto. Qed.

(** Once a beat lies beyond the window of the next downbeat there is no further downbeat. *)
Lemma next_missed : forall bar tol last b r, nneg tol -> fin last -> fin bar -> nneg bar ->
  StronglySorted (fun a b => fle a b = true) (b :: r) -> Forall (fun x => fin x) (b :: r) ->
  flt tol (fsub b (fadd last bar)) = true -> next_downbeats bar tol last (b :: r) = [].
Proof.
  intros bar tol last b r T Fl Fbar Pbar S F H.
  assert (Fe : fin (fadd last bar)).
  { destruct (fadd_fx last bar Fl Fbar) as (N & _). assert (G : fle last (fadd last bar) = true) by (apply fadd_ge_l; auto; now apply fin_nn).
    apply Forall_inv in F. destruct (nn_cases _ N) as [X|[X|X]]; [exact X| |]; rewrite X in *.
    - destruct b; try discriminate F; destruct tol as [|[]| |[]]; discriminate.
    - destruct last; try discriminate Fl; discriminate G. }
  assert (K : forall l, Forall (fun c => fin c /\ fle b c = true) l -> next_downbeats bar tol last l = []).
  { intros l. induction l as [|c l IH]; intros L; [reflexivity|]. cbn [next_downbeats].
    pose proof (Forall_inv L) as (Fc & Lc). apply Forall_inv_tail in L.
    assert (Nc : nn (fsub c (fadd last bar))) by now apply fsub_nn_fin.
    assert (G : flt tol (fsub c (fadd last bar)) = true).
    { refine (flt_fle_trans _ _ _ H _). apply fsub_mono; auto; [now apply fle_refl, fin_nn|now apply flt_nn in H]. }
    assert (G2 : flt tol (fabs (fsub c (fadd last bar))) = true).
    { apply flt_intro; [now apply nneg_nn|now rewrite fabs_nn|]. rewrite fabs_fx by exact Nc.
      apply flt_fx in G. apply Rlt_le_trans with (1 := G). apply Rle_abs. }
    rewrite (flt_fle_false _ _ G2). now apply IH. }
  apply K. apply Forall_forall. intros c Hc. split; [now apply (proj1 (Forall_forall _ _) F)|].
  destruct Hc as [<-|Hc]; [apply fle_refl, fin_nn; now apply Forall_inv in F|].
  inversion S as [|? ? _ Hb]. now apply (proj1 (Forall_forall _ _) Hb).
Qed.

Lemma subseq_incl : forall A (a b : list A), subseq a b -> incl a b.
Proof. intros A a b H. induction H; intros y Y; [contradiction|destruct Y as [<-|Y]; [now left|right; auto]|right; auto]. Qed.

Lemma last_in : forall A (l : list A) d, l <> [] -> In (last l d) l.
Proof. intros A l d H. destruct (exists_last H) as (l' & x & ->). rewrite last_last. apply in_or_app. right. now left. Qed.

(** A bar of a valid tempo. *)
Lemma bar_ok : forall bpm ts, fle bpm eps10 = false -> fgt bpm (z2f 300) = false -> nn bpm ->
  let bar := fmul (fdiv (z2f 60) bpm) (n2f (beats_per_bar ts)) in fin bar /\ nneg bar /\ nneg (fmul bar (lit 13421773 (-27))).
Proof.
  intros bpm ts V1 V2 N. cbv zeta. destruct (interval_ok bpm V1 V2 N) as (Fi & Li). unfold beat_interval in *.
  assert (Pi : nneg (fdiv (z2f 60) bpm)) by (refine (fle_trans f0 _ _ _ Li); reflexivity).
  assert (Ft : fin (n2f (beats_per_bar ts))) by (destruct ts; reflexivity).
  assert (Pt : nneg (n2f (beats_per_bar ts))) by (destruct ts; reflexivity).
  assert (Lt : fle (n2f (beats_per_bar ts)) (z2f 6) = true) by (destruct ts; reflexivity).
  assert (Pb : nneg (fmul (fdiv (z2f 60) bpm) (n2f (beats_per_bar ts)))) by now apply fmul_nneg_fin.
  assert (Ui : fle (fdiv (z2f 60) bpm) (fdiv (z2f 60) eps10) = true).
  { apply fle_false_flt in V1; auto. apply flt_fle in V1. apply fdiv_mono_r; auto; try reflexivity.
    now apply fin_nn. }
  assert (Fb : fin (fmul (fdiv (z2f 60) bpm) (n2f (beats_per_bar ts)))).
  { refine (fin_between f0 _ (fmul (fdiv (z2f 60) eps10) (z2f 6)) _ _ Pb _); [reflexivity|reflexivity|].
    apply fmul_mono; auto. now apply nneg_nn. }
  split; [exact Fb|]. split; [exact Pb|]. apply fmul_nneg_fin; auto; reflexivity.
Qed.

(** ** Stability *)
Lemma fsum_nneg : forall l acc, nneg acc -> Forall (fun x => nneg x) l -> nneg (fold_left fadd l acc).
Proof.
  intros l. induction l as [|x l IH]; intros acc A H; cbn [fold_left]; auto.
  apply IH; [apply fadd_nneg; auto; now apply Forall_inv in H|now apply Forall_inv_tail in H].
Qed.

Lemma variance_nneg : forall k l m, (-149 <= k < 127)%Z -> l <> [] -> Forall (within k) l -> within k m ->
  (Z.of_nat (length l) <= 2 ^ 64)%Z -> nneg (variance l m).
Proof.
  intros k l m K NE H W L. unfold variance.
  assert (S : nneg (fsum (map (fun x => let d := fsub x m in fmul d d) l))).
  { apply fsum_nneg; [reflexivity|]. apply Forall_forall. intros y Hy. apply in_map_iff in Hy.
    destruct Hy as (x & <- & Hx). apply (proj1 (Forall_forall _ _) H) in Hx. cbv zeta.
    pose proof (within_sub k x m ltac:(lia) Hx W) as Wd. apply within_fin in Wd. apply (sq_nnan (fsub x m)).
    now destruct (fmul_fx _ _ Wd Wd). }
  assert (P : pos (n2f (length l))) by (apply n2f_pos; destruct l; [congruence|cbn [length]; lia]).
  apply fdiv_nneg; auto. apply fdiv_nn_pos; auto; [now apply nneg_nn|]. apply z2f_fin. lia.
Qed.

Lemma stability_value : forall iv, fle (mean iv) eps10 = false -> iv <> [] -> nn (mean iv) ->
  nn (fdiv (fsqrt (variance iv (mean iv))) (mean iv)) ->
  in01 (fdiv f1 (fadd f1 (fdiv (fsqrt (variance iv (mean iv))) (mean iv)))).
Proof.
  intros iv H NE Nm N. apply recip1p_in01. apply fle_false_flt in H; auto.
  apply fdiv_nneg; auto.
  - apply (sqrt_nnan _ (variance_nnan _ _ NE)). now destruct (div_nan_inv _ _ N).
  - refine (fle_flt_trans f0 eps10 _ _ H). reflexivity.
Qed.

Lemma stability_spec : forall positions bpm s, grid_stability positions bpm = Ok s -> in01 s \/ is_nan s = true.
Proof.
  intros positions bpm s H. unfold grid_stability in H. assert (Z : in01 f0) by apply in01_0.
  destruct (length positions <? 2). { left. assert (E : s = f0) by congruence. now rewrite E. }
  destruct (fle bpm f0); [discriminate|]. cbv zeta in H.
  set (iv := intervals _) in *. destruct (length iv =? 0) eqn:L. { left. assert (E : s = f0) by congruence. now rewrite E. }
  destruct (fle (mean iv) eps10) eqn:M. { left. assert (E : s = f0) by congruence. now rewrite E. }
  assert (E : s = fdiv f1 (fadd f1 (fdiv (fsqrt (variance iv (mean iv))) (mean iv)))) by congruence. rewrite E. clear H E s.
  assert (NE : iv <> []) by (intros X; rewrite X in L; discriminate).
  destruct (is_nan (fdiv (fsqrt (variance iv (mean iv))) (mean iv))) eqn:N.
  - right. destruct (fdiv (fsqrt _) (mean iv)) as [x|x| |x m e b]; try discriminate N. reflexivity.
  - left. apply stability_value; auto. now destruct (div_nan_inv _ _ N).
Qed.

Lemma stability_in01 : forall positions bpm s, grid_stability positions bpm = Ok s ->
  (Z.of_nat (length positions) <= 2 ^ 64)%Z -> Forall (within 100) (map b_time positions) -> in01 s.
Proof.
  intros positions bpm s H Lp W. unfold grid_stability in H. assert (Z : in01 f0) by apply in01_0.
  destruct (length positions <? 2). { assert (E : s = f0) by congruence. now rewrite E. }
  destruct (fle bpm f0); [discriminate|]. cbv zeta in H.
  pose proof (intervals_spec 100 _ ltac:(lia) W) as I.
  pose proof (intervals_length (map b_time positions)) as Li. rewrite map_length in Li.
  set (iv := intervals _) in *. clearbody iv.
  destruct (length iv =? 0) eqn:L. { assert (E : s = f0) by congruence. now rewrite E. }
  destruct (fle (mean iv) eps10) eqn:M. { assert (E : s = f0) by congruence. now rewrite E. }
  assert (E : s = fdiv f1 (fadd f1 (fdiv (fsqrt (variance iv (mean iv))) (mean iv)))) by congruence. rewrite E. clear H E s.
  assert (NE : iv <> []) by (intros X; rewrite X in L; discriminate).
  assert (Wi : Forall (within 101) iv) by (eapply Forall_impl; [|exact I]; cbn beta; intros x (_ & X); exact X).
  pose proof (within_sum 101 iv ltac:(lia) Wi) as Ws.
  assert (Hp : pos (n2f (length iv))) by (apply n2f_pos; destruct iv; [congruence|cbn [length]; lia]).
  assert (Fp : fin (n2f (length iv))) by (apply z2f_fin; lia).
  assert (Wm : within 126 (mean iv)).
  { unfold mean. apply within_div_count; auto; try lia; destruct iv; cbn [length]; try lia; congruence. }
  assert (V : nneg (variance iv (mean iv))).
  { apply (variance_nneg 126); auto; try lia. eapply Forall_impl; [|exact Wi]. intros x X. apply (within_mono 101); [lia|exact X]. }
  apply within_fin in Wm. apply stability_value; auto; [now apply fin_nn|].
  apply fle_false_flt in M; [|now apply fin_nn|reflexivity].
  apply fdiv_nn_pos; auto.
  - apply nneg_nn. now apply fsqrt_nneg.
  - refine (fle_flt_trans f0 eps10 _ _ M). reflexivity.
Qed.

(** ** Beat positions *)
Definition good (b : beat) : Prop := fin (b_time b) /\ in01 (b_conf b).
Definition by_time (a b : beat) : Prop := fle (b_time a) (b_time b) = true.

(** The tracker's own beats, for any successful call. *)
Lemma track_ok : forall exp bpm onsets bs, exp_ok exp -> track_beats exp bpm onsets = Ok bs ->
  Forall good bs /\ StronglySorted by_time bs /\ (bs <> [] -> nn bpm) /\
  Forall (fun b => flt (lit 13421773 (-27)) (exp (exponent onsets (b_time b))) = true) bs.
Proof.
  intros exp bpm onsets bs He H. rewrite track_cases in H by auto.
  destruct (fle bpm eps10) eqn:V1; [discriminate|]. destruct (fgt bpm (z2f 300)) eqn:V2; [discriminate|]. cbn [orb] in H.
  destruct (length onsets =? 0); [discriminate|].
  destruct (num_frames_spec bpm onsets) as [E|(n & E & B)]; rewrite E in H; [discriminate|].
  assert (Eb : bs = beats_upto exp bpm onsets n) by congruence. rewrite Eb. clear Eb H bs.
  split; [|split; [apply beats_sorted; auto; lia|split]].
  - apply Forall_forall. intros b Hb. apply in_beats in Hb. destruct Hb as (t & _ & Hb). apply frame_beat_in in Hb; auto.
    destruct Hb as (_ & F & _ & C & _). split; auto. rewrite C. apply beat_conf_in01. apply He, exponent_le.
  - intros NE. destruct (beats_upto exp bpm onsets n) as [|b r] eqn:Eb; [congruence|].
    assert (Hb : In b (beats_upto exp bpm onsets n)) by (rewrite Eb; now left).
    apply in_beats in Hb. destruct Hb as (t & _ & Hb). apply frame_beat_in in Hb; auto. apply Hb.
  - apply Forall_forall. intros b Hb. apply in_beats in Hb. destruct Hb as (t & _ & Hb). apply frame_beat_in in Hb; auto.
    apply Hb.
Qed.

(** Any property shared by the given positions and by everything tracked in a part of the onsets holds of the refined
    beats. *)
Lemma refine_forall : forall (P : beat -> Prop) fuel exp onsets positions segs st l,
  Forall P positions ->
  (forall bpm os bs, incl os onsets -> track_beats exp bpm os = Ok bs -> Forall P bs) ->
  refine_beats fuel exp onsets positions st segs = Some (Ok l) -> Forall P l.
Proof.
  intros P fuel exp onsets positions segs. induction segs as [|s r IH]; intros st l HP HT H; cbn [refine_beats] in H.
  { assert (E : l = []) by congruence. rewrite E. constructor. }
  cbv zeta in H.
  assert (Pre : forall bs st', Forall P bs -> prepend bs (refine_beats fuel exp onsets positions st' r) = Some (Ok l) -> Forall P l).
  { intros bs st' Hb H'. destruct (refine_beats fuel exp onsets positions st' r) as [[l'| |]|] eqn:E; try discriminate H'.
    cbn [prepend] in H'. assert (El : l = bs ++ l') by congruence. rewrite El. apply Forall_app. split; auto. eapply IH; eauto. }
  destruct (ts_variable s).
  - destruct (length (filter _ onsets) =? 0); [eapply IH; eauto|].
    destruct (update fuel exp st _) as [(st' & [(b & c)| |])|]; try discriminate.
    destruct (track_beats exp b _) as [bs| |] eqn:T; [| |discriminate].
    + apply Pre in H; auto. eapply HT; [|exact T]. intros x Hx. now apply filter_In in Hx.
    + eapply IH; eauto.
  - apply Pre in H; auto. apply Forall_forall. intros b Hb. apply filter_In in Hb.
    now apply (proj1 (Forall_forall _ _) HP).
Qed.

Lemma map_sorted : forall l, StronglySorted by_time l -> StronglySorted (fun a b => fle a b = true) (map b_time l).
Proof.
  intros l H. induction H as [|b l S IH F]; cbn [map]; constructor; auto. apply Forall_map. exact F.
Qed.

Lemma refined_ok : forall (P : beat -> Prop) fuel exp bpm conf onsets positions l, exp_ok exp ->
  StronglySorted by_time positions -> Forall P positions -> positions <> [] ->
  (forall bpm os bs, incl os onsets -> track_beats exp bpm os = Ok bs -> Forall P bs) ->
  refined_positions fuel exp bpm conf onsets positions = Some (Ok l) ->
  l <> [] /\ StronglySorted by_time l /\ Forall P l.
Proof.
  intros P fuel exp bpm conf onsets positions l He S HP NE HT H. unfold refined_positions in H.
  destruct (detect_tempo_variations _ _ _) as [[segs| |]|]; try discriminate.
  assert (Same : Some (Ok positions) = Some (Ok l) -> l <> [] /\ StronglySorted by_time l /\ Forall P l).
  { intros E. assert (El : l = positions) by congruence. now rewrite El. }
  destruct (has_tempo_variation segs); auto.
  destruct (refine_beats _ _ _ _ _ _) as [[[|b r]| |]|] eqn:R; try discriminate; auto.
  assert (R' : sort_times b_time (b :: r) = Ok l) by congruence.
  apply sort_times_ok in R'. destruct R' as (Pm & So). split; [|split; auto].
  - intros El. rewrite El in Pm. apply Permutation_length in Pm. discriminate.
  - apply Permutation_Forall with (1 := Pm). eapply refine_forall; eauto.
Qed.

(** ** The grid of sorted positions *)
Lemma finish_ok : forall bpm positions grid s, finish_grid bpm positions = Ok (grid, s) -> positions <> [] ->
  StronglySorted by_time positions -> Forall (fun b => fin (b_time b)) positions ->
  exists ts c, g_beats grid = map b_time positions /\ g_bars grid = g_downbeats grid /\
  detect_time_signature (g_beats grid) bpm = Ok (ts, c) /\ detect_downbeats (g_beats grid) bpm ts = Ok (g_downbeats grid) /\
  grid_stability positions bpm = Ok s.
Proof.
  intros bpm positions grid s H NE S F. unfold finish_grid in H.
  destruct (detect_time_signature (map b_time positions) bpm) as [(ts & c)| |] eqn:D; try discriminate. cbn [obind fst] in H.
  unfold grid_from_positions in H. destruct (length positions =? 0) eqn:L; [discriminate|].
  rewrite (sort_times_id _ _ _ (map_sorted _ S)) in H.
  2:{ apply Forall_map. eapply Forall_impl; [|exact F]. intros b Hb. now apply fin_nn. }
  cbn [obind] in H. destruct (detect_downbeats (map b_time positions) bpm ts) as [d| |] eqn:Dd; try discriminate.
  cbn [obind] in H. destruct (grid_stability positions bpm) as [st| |] eqn:G; try discriminate. cbn [obind] in H.
  assert (Eg : grid = {| g_downbeats := d; g_beats := map b_time positions; g_bars := d |}) by congruence.
  assert (Es : s = st) by congruence. exists ts, c. rewrite Eg, Es. cbn [g_downbeats g_beats g_bars]. auto.
Qed.

(** The whole computation, for any property of the tracked beats. *)
Lemma generate_ok : forall (P : beat -> Prop) fuel exp bpm conf onsets grid s, exp_ok exp ->
  (forall bpm os bs, incl os onsets -> track_beats exp bpm os = Ok bs -> Forall P bs) ->
  generate_beat_grid fuel exp bpm conf onsets = Some (Ok (grid, s)) ->
  exists positions ts c, positions <> [] /\ StronglySorted by_time positions /\ Forall good positions /\ Forall P positions /\
  nn bpm /\ fle bpm eps10 = false /\ fgt bpm (z2f 300) = false /\
  g_beats grid = map b_time positions /\ g_bars grid = g_downbeats grid /\
  detect_time_signature (g_beats grid) bpm = Ok (ts, c) /\ detect_downbeats (g_beats grid) bpm ts = Ok (g_downbeats grid) /\
  grid_stability positions bpm = Ok s.
Proof.
  intros P fuel exp bpm conf onsets grid s He HT H. unfold generate_beat_grid in H.
  destruct (fle bpm f0 || fgt bpm (z2f 300)); [discriminate|]. destruct (length onsets =? 0); [discriminate|].
  destruct (sort_times (fun t => t) onsets) as [sorted| |] eqn:So; try discriminate.
  apply sort_times_ok in So. destruct So as (Pm & _).
  assert (HT' : forall bpm os bs, incl os sorted -> track_beats exp bpm os = Ok bs -> Forall (fun b => good b /\ P b) bs).
  { intros bpm' os bs I T. assert (I' : incl os onsets).
    { intros x Hx. apply Permutation_in with (1 := Permutation_sym Pm). now apply I. }
    apply Forall_and; [|eapply HT; eauto]. now apply track_ok in T. }
  destruct (track_beats exp bpm sorted) as [positions| |] eqn:T; try discriminate.
  pose proof (HT' _ _ _ (fun x Hx => Hx) T) as G.
  destruct (track_ok _ _ _ _ He T) as (_ & Sp & Nb & _).
  assert (V : fle bpm eps10 = false /\ fgt bpm (z2f 300) = false).
  { rewrite track_cases in T by auto. destruct (fle bpm eps10); [discriminate|]. destruct (fgt bpm (z2f 300)); [discriminate|]. auto. }
  assert (NE : positions <> []) by (intros E; rewrite E in H; discriminate).
  specialize (Nb NE).
  assert (H' : match refined_positions fuel exp bpm conf sorted positions with
    | Some (Ok refined) => Some (finish_grid bpm refined) | Some (Err e) => Some (Err e) | Some Panic => Some Panic
    | None => None end = Some (Ok (grid, s))) by (destruct positions; [congruence|exact H]).
  clear H. destruct (refined_positions _ _ _ _ _ _) as [[refined| |]|] eqn:R; try discriminate.
  apply refined_ok with (P := fun b => good b /\ P b) in R; auto. destruct R as (NE' & S' & G').
  apply Forall_and_inv in G'. destruct G' as (G1 & G2).
  assert (F : finish_grid bpm refined = Ok (grid, s)) by congruence.
  apply finish_ok in F; auto.
  - destruct F as (ts & c & F). exists refined, ts, c. split; [exact NE'|]. split; [exact S'|]. split; [exact G1|].
    split; [exact G2|]. split; [exact Nb|]. destruct V as (V1 & V2). split; [exact V1|]. split; [exact V2|]. exact F.
  - eapply Forall_impl; [|exact G1]. now intros b (Hb & _).
Qed.

(** ** Totality for bounded onsets *)
(** Further assumptions on the exponential: exact at zero, at most 0.1 from -2.3125 down. *)
Definition exp_tail (exp : f32 -> f32) : Prop :=
  forall x, fle x (lit (-37) (-4)) = true -> fle (exp x) (lit 13421773 (-27)) = true.

Definition onset_ok (o : f32) : Prop := fin o /\ (Rabs (B2R o) <= 4194304)%R.

Lemma near_real : forall o t, fin o -> fin t -> flt (fabs (fsub o t)) f1 = true -> (Rabs (B2R o - B2R t) <= 1)%R.
Proof.
  intros o t Fo Ft H. destruct (fsub_fx o t Fo Ft) as (N & E). apply flt_fx in H. rewrite fabs_fx in H by exact N.
  rewrite E in H. change (fx f1) with (fx (z2f 1)) in H. rewrite lit_val in H by lia.
  destruct (Rle_dec (Rabs (B2R o - B2R t)) 1) as [L|G]; [exact L|exfalso]. apply Rnot_le_gt in G.
  assert (R1 : rnd 1 = 1%R) by (apply (rnd_Z 1); lia).
  assert (Rm : rnd (-1) = (-1)%R) by (apply (rnd_Z (-1)); lia).
  assert (B : (1 < big)%R) by (rewrite big_val; apply IZR_lt; lia).
  destruct (Rcase_abs (B2R o - B2R t)) as [Neg|Pos'].
  - rewrite (Rabs_left _ Neg) in G. assert (L : (rnd (B2R o - B2R t) <= -1)%R) by (rewrite <- Rm; apply rnd_mono; lra).
    apply sat_mono in L. rewrite (sat_id (-1)) in L by lra. rewrite Rabs_left in H by lra. lra.
  - rewrite (Rabs_right _ Pos') in G. assert (L : (1 <= rnd (B2R o - B2R t))%R) by (rewrite <- R1; apply rnd_mono; lra).
    apply sat_mono in L. rewrite (sat_id 1) in L by lra. rewrite Rabs_right in H by lra. lra.
Qed.

(** Tracked beats are close to an onset. *)
Lemma track_near : forall exp bpm onsets bs, exp_ok exp -> exp_tail exp -> track_beats exp bpm onsets = Ok bs ->
  Forall (fun b => exists o, In o onsets /\ fin o /\ flt (fabs (fsub o (b_time b))) (lit 14495515 (-28)) = true) bs.
Proof.
  intros exp bpm onsets bs He Ht H. apply track_ok in H; auto. destruct H as (_ & _ & _ & H).
  eapply Forall_impl; [|exact H]. cbn beta. intros b K. pose proof K as K2. apply kept_near in K2; auto.
  destruct K2 as (_ & o & Ho & Fo & E). exists o. split; [exact Ho|]. split; [exact Fo|]. rewrite <- E.
  now apply kept_close with exp.
Qed.

Definition time_ok (b : beat) : Prop := good b /\ (Rabs (B2R (b_time b)) <= 8388608)%R.

Lemma track_time : forall exp bpm onsets bs, exp_ok exp -> exp_tail exp -> Forall onset_ok onsets ->
  track_beats exp bpm onsets = Ok bs -> Forall time_ok bs.
Proof.
  intros exp bpm onsets bs He Ht Ho H. pose proof (track_near _ _ _ _ He Ht H) as Nr.
  apply track_ok in H; auto. destruct H as (G & _). rewrite Forall_forall in *. intros b Hb.
  split; [now apply G|]. destruct (Nr b Hb) as (o & Io & Fo & L). destruct (Ho o Io) as (_ & Bo).
  assert (L1 : flt (fabs (fsub o (b_time b))) f1 = true) by (refine (flt_fle_trans _ _ _ L _); vm_compute; reflexivity).
  apply near_real in L1; auto; [|apply (G b Hb)].
  replace (B2R (b_time b)) with (B2R o - (B2R o - B2R (b_time b)))%R by ring.
  eapply Rle_trans; [apply Rabs_triang|]. rewrite Rabs_Ropp. lra.
Qed.

Lemma onset_within : forall o, onset_ok o -> within 22 o.
Proof. intros o (F & B). split; [exact F|]. replace (bpow radix2 22) with 4194304%R by (cbn; lra). exact B. Qed.

Definition valid_bpm (b : f32) : Prop := fle b eps10 = false /\ fgt b (z2f 300) = false.

Lemma num_frames_total : forall bpm onsets, onsets <> [] -> Forall onset_ok onsets -> valid_bpm bpm ->
  exists n, num_frames bpm onsets = Ok n.
Proof.
  intros bpm onsets NE H (V1 & V2). destruct (num_frames_spec bpm onsets) as [E|(n & E & _)]; [exfalso|eauto].
  unfold num_frames in E.
  enough (Q : (f2usize (fceil (fdiv (fsub (last onsets f0) (nth 0 onsets f0)) (beat_interval bpm))) <= 134217728)%Z).
  { revert E Q. set (q := f2usize _). clearbody q. intros E Q. pose proof E as E'.
    destruct (q + 1 >? usize_max)%Z eqn:G; [|destruct (q + 1 =? 0)%Z; discriminate].
    rewrite Z.gtb_ltb, Z.ltb_lt in G. unfold usize_max in G. lia. }
  clear E. assert (Hf : onset_ok (nth 0 onsets f0)).
  { apply (proj1 (Forall_forall _ _) H). apply nth_In. destruct onsets; [congruence|cbn [length]; lia]. }
  assert (Hl : onset_ok (last onsets f0)).
  { apply (proj1 (Forall_forall _ _) H). destruct (exists_last NE) as (l' & x & ->). rewrite last_last. apply in_or_app. right.
    now left. }
  apply onset_within in Hf, Hl. pose proof (within_sub 22 _ _ ltac:(lia) Hl Hf) as W. set (d := fsub _ _) in *. clearbody d.
  destruct (is_nan bpm) eqn:N.
  - destruct bpm; try discriminate N. replace (f2usize _) with 0%Z; [lia|]. destruct d; reflexivity.
  - destruct (interval_ok bpm V1 V2 N) as (F & L). set (iv := beat_interval bpm) in *. clearbody iv.
    assert (B : (bpow radix2 (-3) <= B2R iv)%R).
    { apply fle_fx in L. rewrite (fx_fin iv F) in L. refine (Rle_trans _ _ _ _ L). rewrite fx_fin by reflexivity.
      cbn. unfold F2R; cbn. lra. }
    assert (Wq : within (23 - -3) (fdiv d iv)).
    { apply within_div; auto; [lia|]. rewrite Rabs_pos_eq; auto. refine (Rle_trans _ _ _ _ B). apply bpow_ge_0. }
    destruct Wq as (Fq & Bq). destruct (fceil_spec _ Fq) as (Fc & Ec). set (q := fceil _) in *. clearbody q.
    replace 134217728%Z with (f2usize (z2f 134217728)) by (vm_compute; reflexivity). apply f2usize_mono.
    apply fle_intro; [now apply fin_nn|reflexivity|]. rewrite (fx_fin q Fc), Ec, fx_fin by reflexivity.
    replace (B2R (z2f 134217728)) with 134217728%R by (cbn; unfold F2R; cbn; lra). apply IZR_le.
    apply Zceil_glb. apply Rle_trans with (bpow radix2 (23 - -3)); [|cbn; lra]. refine (Rle_trans _ _ _ (Rle_abs _) Bq).
Qed.

Lemma track_total : forall exp bpm onsets, exp_ok exp -> onsets <> [] -> Forall onset_ok onsets -> valid_bpm bpm ->
  exists bs, track_beats exp bpm onsets = Ok bs.
Proof.
  intros exp bpm onsets He NE H V. destruct (num_frames_total bpm onsets NE H V) as (n & E). rewrite track_cases, E by auto.
  destruct V as (V1 & V2). rewrite V1, V2. cbn [orb]. destruct onsets; [congruence|]. cbn [length Nat.eqb]. eauto.
Qed.

Lemma candidate_valid : forall a b, candidate_of a b -> valid_bpm b.
Proof.
  intros a b (A & B & _). destruct (fle_nn _ _ B) as (N & _). split.
  - apply flt_fle_false. refine (flt_fle_trans eps10 (z2f 60) _ _ A). vm_compute. reflexivity.
  - unfold fgt. fold (flt (z2f 300) b). apply fle_flt_false. refine (fle_trans _ _ _ B _). vm_compute. reflexivity.
Qed.

Lemma refine_total : forall exp onsets positions segs st, exp_ok exp -> Forall onset_ok onsets -> valid_bpm (bt_bpm st) ->
  exists l, forall fuel, 242 <= fuel -> refine_beats fuel exp onsets positions st segs = Some (Ok l).
Proof.
  intros exp onsets positions segs. induction segs as [|s r IH]; intros st He Ho V; [now exists []|].
  cbn [refine_beats]. cbv zeta. destruct (ts_variable s).
  - set (os := filter _ onsets). assert (Hos : Forall onset_ok os).
    { apply Forall_forall. intros x Hx. apply filter_In in Hx. now apply (proj1 (Forall_forall _ _) Ho). }
    clearbody os. destruct (length os =? 0) eqn:L; [now apply IH|].
    assert (NE : os <> []) by (intros X; rewrite X in L; discriminate).
    destruct (update_cases exp st os) as (st' & o & U & C). destruct o as [(b & c)|e|]; [| |contradiction].
    + destruct C as (_ & _ & _ & E & _ & _ & _ & C).
      assert (Vb : valid_bpm b) by (destruct C as [->|C]; [exact V|now apply candidate_valid in C]).
      destruct (IH st' He Ho) as (l & Hl); [now rewrite E|].
      destruct (track_total exp b os He NE Hos Vb) as (bs & T). exists (bs ++ l). intros fuel Hf.
      rewrite (U fuel Hf), T, (Hl fuel Hf). reflexivity.
    + exfalso. destruct C as (_ & _ & C). destruct V as (V1 & V2). destruct C as [C|[C|C]]; congruence.
  - destruct (IH st He Ho V) as (l & Hl). eexists. intros fuel Hf. rewrite (Hl fuel Hf). reflexivity.
Qed.

Lemma time_ok_nn : forall l, Forall time_ok l -> Forall (fun b => nn (b_time b)) l.
Proof. intros l H. eapply Forall_impl; [|exact H]. intros b ((F & _) & _). now apply fin_nn. Qed.

Lemma refined_total : forall exp bpm conf onsets positions, exp_ok exp -> exp_tail exp -> Forall onset_ok onsets ->
  valid_bpm bpm -> Forall time_ok positions ->
  exists fuel0 l, forall fuel, fuel0 <= fuel -> refined_positions fuel exp bpm conf onsets positions = Some (Ok l).
Proof.
  intros exp bpm conf onsets positions He Ht Ho V P. unfold refined_positions.
  destruct (C32_terminates_partial (map b_time positions) bpm) as (f & r & Hr).
  { apply Forall_map. eapply Forall_impl; [|exact P]. intros b ((F & _) & B). auto. }
  pose proof (C32_result f _ _ _ (Hr f (le_n f))) as C. destruct C as [(_ & _ & C)|(segs & E & _)].
  { destruct V as (V & _). unfold eps10 in V. congruence. }
  destruct (refine_total exp onsets positions segs (new_tracker bpm conf) He Ho V) as (l & Hl).
  destruct (has_tempo_variation segs) eqn:Hv.
  - destruct l as [|b l].
    + exists (Nat.max f 242), positions. intros fuel Hf. rewrite Hr, E, Hv, Hl by lia. reflexivity.
    + assert (Pl : Forall time_ok (b :: l)).
      { eapply refine_forall; [exact P| |exact (Hl 242 (le_n 242))]. intros b' os bs I T.
        apply track_time in T; auto. apply Forall_forall. intros x Hx. now apply (proj1 (Forall_forall _ _) Ho), I. }
      destruct (sort_times_total _ b_time (b :: l) (time_ok_nn _ Pl)) as (l' & S).
      exists (Nat.max f 242), l'. intros fuel Hf. rewrite Hr, E, Hv, Hl, S by lia. reflexivity.
  - exists f, positions. intros fuel Hf. now rewrite Hr, E, Hv by lia.
Qed.

Lemma finish_total : forall bpm positions, positions <> [] -> fle bpm f0 = false -> fle bpm eps10 = false ->
  Forall (fun b => nn (b_time b)) positions -> exists r, finish_grid bpm positions = Ok r.
Proof.
  intros bpm positions NE V0 V1 P. unfold finish_grid.
  destruct (C35_total (map b_time positions) bpm V1) as (t & c & E & _). rewrite E. cbn [obind fst].
  unfold grid_from_positions. replace (length positions =? 0) with false by (destruct positions; [congruence|reflexivity]).
  destruct (sort_times_total _ (fun t => t) (map b_time positions)) as (l' & S); [now apply Forall_map|]. rewrite S. cbn [obind].
  unfold detect_downbeats, grid_stability. rewrite V0. cbv zeta.
  destruct l' as [|x l']; cbn [obind]; destruct (length positions <? 2); cbn [obind]; eauto;
    destruct (length (intervals _) =? 0); cbn [obind]; eauto; destruct (fle (mean _) eps10); cbn [obind]; eauto.
Qed.
