(** Properties C33, C34: the beat grid. *)
From Coq Require Import ZArith Reals Lra Lia Sorted.
From Flocq Require Import Core.
From Verif Require Import Rust F32 F32Facts ListFacts PeakPicking TimeSignature TimeSignatureProofs TempoVariation Bayesian
  Bounds Hmm HmmProofs HmmBeatsProofs HmmProps BeatGrid PeakPickingProofs TempoVariationProofs BeatGridProofs.

(** * C33 *)

(** Every grid that is produced: finite ascending beats; the bars are the downbeats; the downbeats are a subsequence of
    the beats that begins with the first beat, and each lies one bar (of the detected signature, at the given tempo) after
    its predecessor up to a tenth of a bar. *)
Theorem C33_grid : forall fuel exp bpm conf onsets grid s, exp_ok exp ->
  generate_beat_grid fuel exp bpm conf onsets = Some (Ok (grid, s)) ->
  Forall (fun t => fin t) (g_beats grid) /\ StronglySorted (fun a b => fle a b = true) (g_beats grid) /\
  g_bars grid = g_downbeats grid /\ subseq (g_downbeats grid) (g_beats grid) /\
  exists first beats downs ts c, g_beats grid = first :: beats /\ g_downbeats grid = first :: downs /\
  detect_time_signature (g_beats grid) bpm = Ok (ts, c) /\
  let bar := fmul (fdiv (z2f 60) bpm) (n2f (beats_per_bar ts)) in
  chain (fun a b => fle (fabs (fsub b (fadd a bar))) (fmul bar (lit 13421773 (-27))) = true) first downs.
Proof.
  intros fuel exp bpm conf onsets grid s He H.
  apply (generate_ok (fun _ => True)) in H; auto.
  2:{ intros _ _ bs _ _. apply Forall_forall. auto. }
  destruct H as (ps & ts & c & NE & S & G & _ & _ & _ & _ & Eb & Er & D & Dd & _).
  split. { rewrite Eb. apply Forall_map. eapply Forall_impl; [|exact G]. now intros b (F & _). }
  split. { rewrite Eb. now apply map_sorted. }
  split; [exact Er|].
  destruct (g_beats grid) as [|first beats] eqn:E.
  { destruct ps; [congruence|discriminate]. }
  cbn [detect_downbeats] in Dd. destruct (fle bpm f0); [discriminate|]. cbv zeta in Dd.
  assert (Ed : g_downbeats grid = first :: next_downbeats (fmul (fdiv (z2f 60) bpm) (n2f (beats_per_bar ts)))
     (fmul (fmul (fdiv (z2f 60) bpm) (n2f (beats_per_bar ts))) (lit 13421773 (-27))) first beats) by congruence.
  rewrite Ed. split; [apply sub_take, next_subseq|]. do 5 eexists. split; [reflexivity|]. split; [reflexivity|].
  split; [exact D|]. cbv zeta. apply next_chain.
Qed.
Print Assumptions C33_grid.

(** Which beats are downbeats: a beat is one exactly when it lies within a tenth of a bar of one bar after the latest
    downbeat before it. *)
Theorem C33_downbeat_iff : forall fuel exp bpm conf onsets grid s pre b post, exp_ok exp ->
  generate_beat_grid fuel exp bpm conf onsets = Some (Ok (grid, s)) -> g_beats grid = pre ++ b :: post -> pre <> [] ->
  exists ts c before after, detect_time_signature (g_beats grid) bpm = Ok (ts, c) /\
  g_downbeats grid = before ++ after /\ before <> [] /\ subseq before pre /\
  let bar := fmul (fdiv (z2f 60) bpm) (n2f (beats_per_bar ts)) in
  if fle (fabs (fsub b (fadd (last before f0) bar))) (fmul bar (lit 13421773 (-27)))
  then exists rest, after = b :: rest /\ subseq rest post else subseq after post.
Proof.
  intros fuel exp bpm conf onsets grid s pre b post He H Eg Np.
  apply (generate_ok (fun _ => True)) in H; auto.
  2:{ intros _ _ bs _ _. apply Forall_forall. auto. }
  destruct H as (ps & ts & c & _ & _ & _ & _ & _ & _ & _ & _ & _ & D & Dd & _).
  exists ts, c. rewrite Eg in Dd. destruct pre as [|first pre]; [congruence|].
  cbn [detect_downbeats app] in Dd. destruct (fle bpm f0); [discriminate|]. cbv zeta in *.
  set (bar := fmul (fdiv (z2f 60) bpm) (n2f (beats_per_bar ts))) in *. set (tol := fmul bar _) in *.
  assert (Ed : g_downbeats grid = first :: next_downbeats bar tol first (pre ++ b :: post)) by congruence.
  rewrite next_app in Ed.
  exists (first :: next_downbeats bar tol first pre), (next_downbeats bar tol (last (next_downbeats bar tol first pre) first) (b :: post)).
  split; [exact D|]. split; [exact Ed|]. split; [discriminate|]. split; [apply sub_take, next_subseq|].
  replace (last (first :: next_downbeats bar tol first pre) f0) with (last (next_downbeats bar tol first pre) first)
    by (symmetry; apply last_cons).
  cbn [next_downbeats]. destruct (fle _ tol); [|apply next_subseq]. eexists. split; [reflexivity|]. apply next_subseq.
Qed.
Print Assumptions C33_downbeat_iff.

(** A beat beyond that window ends the downbeats: the bars stop for the rest of the track. *)
Theorem C33_missed_bar_ends_bars : forall fuel exp bpm conf onsets grid s pre b post, exp_ok exp ->
  generate_beat_grid fuel exp bpm conf onsets = Some (Ok (grid, s)) -> g_beats grid = pre ++ b :: post -> pre <> [] ->
  exists ts c before after, detect_time_signature (g_beats grid) bpm = Ok (ts, c) /\
  g_downbeats grid = before ++ after /\ before <> [] /\ subseq before pre /\ subseq after (b :: post) /\
  let bar := fmul (fdiv (z2f 60) bpm) (n2f (beats_per_bar ts)) in
  (flt (fmul bar (lit 13421773 (-27))) (fsub b (fadd (last before f0) bar)) = true ->
   after = []).
Proof.
  intros fuel exp bpm conf onsets grid s pre b post He H Eg Np.
  apply (generate_ok (fun _ => True)) in H; auto.
  2:{ intros _ _ bs _ _. apply Forall_forall. auto. }
  destruct H as (ps & ts & c & _ & S & G & _ & Nb & V1 & V2 & Eb & _ & D & Dd & _).
  exists ts, c. apply map_sorted in S. rewrite <- Eb, Eg in S.
  assert (F : Forall (fun t => fin t) (pre ++ b :: post)).
  { rewrite <- Eg, Eb. apply Forall_map. eapply Forall_impl; [|exact G]. now intros x (X & _). }
  rewrite Eg in Dd. destruct pre as [|first pre]; [congruence|].
  cbn [detect_downbeats app] in Dd. destruct (fle bpm f0); [discriminate|]. cbv zeta in *.
  destruct (bar_ok bpm ts V1 V2 Nb) as (Fbar & Pbar & T). cbv zeta in *.
  set (bar := fmul (fdiv (z2f 60) bpm) (n2f (beats_per_bar ts))) in *. set (tol := fmul bar _) in *.
  assert (Ed : g_downbeats grid = first :: next_downbeats bar tol first (pre ++ b :: post)) by congruence.
  rewrite next_app in Ed.
  exists (first :: next_downbeats bar tol first pre), (next_downbeats bar tol (last (next_downbeats bar tol first pre) first) (b :: post)).
  split; [exact D|]. split; [exact Ed|]. split; [discriminate|]. split; [apply sub_take, next_subseq|].
  split; [apply next_subseq|].
  replace (last (first :: next_downbeats bar tol first pre) f0) with (last (next_downbeats bar tol first pre) first)
    by (symmetry; apply last_cons).
  intros L. apply next_missed; auto.
  - rewrite <- last_cons with (d := f0). assert (I : incl (first :: next_downbeats bar tol first pre) (first :: pre)).
    { apply subseq_incl, sub_take, next_subseq. }
    apply (proj1 (Forall_forall _ _) F). apply in_or_app. left. apply I. apply last_in. discriminate.
  - exact (sorted_app_r _ _ _ _ S).
  - apply Forall_app in F. apply F.
Qed.
Print Assumptions C33_missed_bar_ends_bars.

(** Every beat lies within 54 ms of an onset. *)
Theorem C33_near_onset : forall fuel exp bpm conf onsets grid s b, exp_ok exp ->
  (forall x, fle x (lit (-37) (-4)) = true -> fle (exp x) (lit 13421773 (-27)) = true) ->
  generate_beat_grid fuel exp bpm conf onsets = Some (Ok (grid, s)) -> In b (g_beats grid) ->
  exists o, In o onsets /\ fin o /\ flt (fabs (fsub o b)) (lit 14495515 (-28)) = true.
Proof.
  intros fuel exp bpm conf onsets grid s b He Ht H Hb.
  apply (generate_ok (fun b => exists o, In o onsets /\ fin o /\ flt (fabs (fsub o (b_time b))) (lit 14495515 (-28)) = true)) in H; auto.
  - destruct H as (ps & ts & c & _ & _ & _ & P & _ & _ & _ & Eb & _). rewrite Eb in Hb. apply in_map_iff in Hb.
    destruct Hb as (x & <- & Hx). now apply (proj1 (Forall_forall _ _) P).
  - intros bpm' os bs I T. apply track_near in T; auto. eapply Forall_impl; [|exact T]. cbn beta.
    intros x (o & Ho & F & L). exists o. auto.
Qed.
Print Assumptions C33_near_onset.

(** The stability is NaN or in [0,1]; in [0,1] whenever the beats stay below 2^100 seconds. *)
Theorem C33_stability : forall fuel exp bpm conf onsets grid s, exp_ok exp ->
  generate_beat_grid fuel exp bpm conf onsets = Some (Ok (grid, s)) -> is_nan s = true \/ in01 s.
Proof.
  intros fuel exp bpm conf onsets grid s He H. apply (generate_ok (fun _ => True)) in H; auto.
  2:{ intros _ _ bs _ _. apply Forall_forall. auto. }
  destruct H as (ps & ts & c & _ & _ & _ & _ & _ & _ & _ & _ & _ & _ & _ & G). apply stability_spec in G. tauto.
Qed.
Print Assumptions C33_stability.

Theorem C33_stability_partial : forall fuel exp bpm conf onsets grid s, exp_ok exp ->
  generate_beat_grid fuel exp bpm conf onsets = Some (Ok (grid, s)) ->
  (Z.of_nat (length (g_beats grid)) <= 2 ^ 64)%Z -> Forall (fun b => (Rabs (B2R b) <= bpow radix2 100)%R) (g_beats grid) ->
  in01 s.
Proof.
  intros fuel exp bpm conf onsets grid s He H L W. apply (generate_ok (fun _ => True)) in H; auto.
  2:{ intros _ _ bs _ _. apply Forall_forall. auto. }
  destruct H as (ps & ts & c & _ & _ & Gd & _ & _ & _ & _ & Eb & _ & _ & _ & G). rewrite Eb in *. rewrite map_length in L.
  eapply stability_in01; eauto. rewrite Forall_map in *. apply Forall_forall. intros b Hb. split.
  - now apply (proj1 (Forall_forall _ _) Gd).
  - now apply (proj1 (Forall_forall _ _) W).
Qed.
Print Assumptions C33_stability_partial.

(** Ascending, but not strictly, and not complete: with a gap in the onsets, overlapping segments list the same beats
    twice, and a beat found by the tracker exactly on an onset appears in no segment and is lost. *)
Definition gap_onsets : list f32 := map (fun z => fdiv (z2f z) f2) [0; 1; 2; 3; 4; 8; 10; 12; 16; 40; 41; 42; 43; 44; 60]%Z.

Lemma dup_of : forall (x : list f32) i, (S i <? length x) && feq (nth i x f0) (nth (S i) x f0) = true ->
  ~ StronglySorted (fun a b => flt a b = true) x.
Proof.
  intros x i H S. apply andb_true_iff in H. destruct H as (L & E). apply Nat.ltb_lt in L.
  pose proof (StronglySorted_nth _ _ _ S i (Datatypes.S i) _ _ ltac:(lia) (nth_error_nth' x f0 (n := i) ltac:(lia))
    (nth_error_nth' x f0 (n := Datatypes.S i) L)) as K. cbn beta in K.
  pose proof (flt_nn _ _ K) as (N1 & N2). apply flt_fx in K. apply feq_iff in E; auto. lra.
Qed.

Theorem C33_duplicate_and_lost_beats_refuted : exists onsets grid s b,
  generate_beat_grid 300 exp_steps (z2f 120) f1 onsets = Some (Ok (grid, s)) /\
  StronglySorted (fun a b => flt a b = true) onsets /\
  ~ StronglySorted (fun a b => flt a b = true) (g_beats grid) /\
  In b onsets /\ (exists bs, track_beats exp_steps (z2f 120) onsets = Ok bs /\ In b (map b_time bs)) /\ ~ In b (g_beats grid).
Proof.
  set (os := gap_onsets).
  assert (Q : match generate_beat_grid 300 exp_steps (z2f 120) f1 os with
    | Some (Ok (g, s)) => (7 <? length (g_beats g)) && feq (nth 6 (g_beats g) f0) (nth 7 (g_beats g) f0) &&
        negb (existsb (fun x => feq x (z2f 30)) (g_beats g)) | _ => false end = true) by (vm_compute; reflexivity).
  assert (T : match track_beats exp_steps (z2f 120) os with Ok bs => existsb (fun x => feq x (z2f 30)) (map b_time bs)
    | _ => false end = true) by (vm_compute; reflexivity).
  assert (I : In (z2f 30) os).
  { unfold os, gap_onsets. cbn [map]. do 14 apply in_cons. left. apply B2SF_inj. vm_compute. reflexivity. }
  assert (So : StronglySorted (fun a b => flt a b = true) os).
  { unfold os, gap_onsets. cbn [map]. repeat constructor; vm_compute; reflexivity. }
  clearbody os. destruct (generate_beat_grid _ _ _ _ os) as [[(g & s)| |]|] eqn:E; try discriminate.
  destruct (track_beats _ _ os) as [bs| |] eqn:Et; try discriminate.
  exists os, g, s, (z2f 30). apply andb_true_iff in Q. destruct Q as (Q1 & Q2).
  assert (EqI : forall x, feq x (z2f 30) = true -> x = z2f 30).
  { intros x Hx. destruct (is_nan x) eqn:N; [destruct x; discriminate|].
    apply feq_iff in Hx; auto. symmetry. apply fx_inj; auto. }
  split; [exact E|]. split; [exact So|]. split; [now apply dup_of with 6|]. split; [exact I|]. split.
  - exists bs. split; [exact Et|]. apply existsb_exists in T. destruct T as (x & Hx & Ex). apply EqI in Ex. now subst x.
  - intros Hin. apply negb_true_iff in Q2. assert (X : existsb (fun x => feq x (z2f 30)) (g_beats g) = true).
    { apply existsb_exists. exists (z2f 30). split; [exact Hin|reflexivity]. }
    congruence.
Qed.
Print Assumptions C33_duplicate_and_lost_beats_refuted.

(** An example of two bars; and one beat missing on a bar line stops the bars. *)
Definition show_grid (onsets : list Z) : option (list Z * list Z * Z) :=
  match generate_beat_grid 300 exp_steps (z2f 120) f1 (map (fun z => fdiv (z2f z) f2) onsets) with
  | Some (Ok (g, s)) => Some (map (fun x => f2i32 (fmul f2 x)) (g_beats g), map (fun x => f2i32 (fmul f2 x)) (g_downbeats g),
                              f2i32 (fmul (z2f 100) s))
  | _ => None
  end.
Example C33_example : show_grid [0; 1; 2; 3; 4; 5; 6]%Z = Some ([0; 1; 2; 3; 4; 5; 6], [0; 4], 100)%Z.
Proof. vm_compute. reflexivity. Qed.
Example C33_example_gap : omap (map (fun x => f2i32 (fmul f2 x)))
  (detect_downbeats (map (fun z => fdiv (z2f z) f2) [0; 1; 2; 3; 5; 6; 7; 8; 12]%Z) (z2f 120) FourFour) = Ok [0%Z].
Proof. vm_compute. reflexivity. Qed.

(** * C34 *)

(** For onsets up to 2^22 seconds (48 days), any tempo and any confidence the grid computation terminates without a panic:
    with a grid for every tempo in (1e-10, 300], with an error otherwise. *)
Theorem C34_total_partial : forall exp bpm conf onsets, exp_ok exp -> (forall s, exp (B754_zero s) = f1) ->
  (forall x, fle x (lit (-37) (-4)) = true -> fle (exp x) (lit 13421773 (-27)) = true) ->
  Forall (fun o => fin o /\ (Rabs (B2R o) <= 4194304)%R) onsets ->
  exists fuel0 r, (forall fuel, fuel0 <= fuel -> generate_beat_grid fuel exp bpm conf onsets = Some r) /\
  match r with
  | Panic => False
  | Err _ => onsets = [] \/ is_nan bpm = true \/ fle bpm (lit 14411519 (-57)) = true \/ flt (z2f 300) bpm = true
  | Ok _ => onsets <> [] /\ flt (lit 14411519 (-57)) bpm = true /\ fle bpm (z2f 300) = true
  end.
Proof.
  intros exp bpm conf onsets He Hz Ht Ho. fold eps10. unfold generate_beat_grid.
  destruct (fle bpm f0) eqn:V0.
  { exists 0, (Err InvalidInput). split; [reflexivity|]. right; right; left. refine (fle_trans _ _ _ V0 _). reflexivity. }
  destruct (fgt bpm (z2f 300)) eqn:V2; cbn [orb].
  { exists 0, (Err InvalidInput). split; [reflexivity|]. auto. }
  destruct (length onsets =? 0) eqn:L.
  { exists 0, (Err InvalidInput). split; [reflexivity|]. left. now apply length_zero_iff_nil, Nat.eqb_eq. }
  destruct (sort_times_total _ (fun t => t) onsets) as (sorted & So).
  { eapply Forall_impl; [|exact Ho]. intros o (F & _). now apply fin_nn. }
  rewrite So. destruct (sort_times_ok _ _ _ _ So) as (Pm & _).
  assert (Hs : Forall onset_ok sorted) by exact (Permutation_Forall Pm Ho).
  assert (NEs : sorted <> []).
  { intros E. rewrite E in Pm. apply Permutation_length in Pm. cbn [length] in Pm. rewrite Pm in L. discriminate. }
  destruct (fle bpm eps10) eqn:V1.
  { exists 0, (Err InvalidInput). split; [|auto]. intros fuel _. rewrite track_cases by auto. rewrite V1. reflexivity. }
  destruct (is_nan bpm) eqn:N.
  { exists 0, (Err ProcessingError). split; [|auto]. intros fuel _.
    destruct bpm; try discriminate N. fold fnan. rewrite (C30_nan_tempo exp sorted He NEs). reflexivity. }
  destruct (num_frames_total bpm sorted NEs Hs (conj V1 V2)) as (n & En).
  assert (Fs : fin (nth 0 sorted f0)).
  { apply (proj1 (Forall_forall _ _) Hs). apply nth_In. destruct sorted; [congruence|cbn [length]; lia]. }
  destruct (C30_first exp bpm sorted n He Hz NEs Fs N V1 V2 En) as (b & rest & T & _). rewrite T.
  pose proof (track_time _ _ _ _ He Ht Hs T) as P.
  destruct (refined_total exp bpm conf sorted (b :: rest) He Ht Hs (conj V1 V2) P) as (fuel0 & l & Hl).
  destruct (track_ok _ _ _ _ He T) as (_ & Sp & _).
  assert (NEl : l <> [] /\ Forall time_ok l).
  { pose proof (refined_ok time_ok fuel0 exp bpm conf sorted (b :: rest) l He Sp P ltac:(discriminate)) as R.
    destruct R as (R1 & _ & R2); auto. intros b' os bs I Tr. apply track_time in Tr; auto.
    apply Forall_forall. intros x Hx. now apply (proj1 (Forall_forall _ _) Hs), I. }
  destruct NEl as (NEl & Pl).
  destruct (finish_total bpm l NEl V0 V1 (time_ok_nn _ Pl)) as (r & Fr).
  exists fuel0, (Ok r). split.
  - intros fuel Hf. rewrite (Hl fuel Hf), Fr. reflexivity.
  - split; [intros E; rewrite E in L; discriminate|]. split; [now apply fle_false_flt|].
    apply flt_false_fle; auto.
Qed.
Print Assumptions C34_total_partial.

(** A NaN among two or more onsets panics in the sort, for every tempo. *)
Theorem C34_nan_onset_panics : forall fuel exp bpm conf onsets, fle bpm f0 = false -> flt (z2f 300) bpm = false ->
  2 <= length onsets -> In fnan onsets -> generate_beat_grid fuel exp bpm conf onsets = Some Panic.
Proof.
  intros fuel exp bpm conf onsets V0 V2 L I. unfold generate_beat_grid. rewrite V0.
  replace (fgt bpm (z2f 300)) with false by (symmetry; exact V2). cbn [orb].
  replace (length onsets =? 0) with false by (symmetry; apply Nat.eqb_neq; lia).
  unfold sort_times. replace (2 <=? length onsets) with true by (symmetry; apply Nat.leb_le; lia).
  replace (existsb _ onsets) with true; [reflexivity|]. symmetry. apply existsb_exists. exists fnan. auto.
Qed.
Print Assumptions C34_nan_onset_panics.

Theorem C34_nan_onset_refuted : exists bpm conf onsets, forall fuel exp,
  generate_beat_grid fuel exp bpm conf onsets = Some Panic.
Proof.
  exists (z2f 120), f1, [f1; fnan]. intros fuel exp. apply C34_nan_onset_panics; try (vm_compute; reflexivity); auto.
  right. now left.
Qed.
Print Assumptions C34_nan_onset_refuted.

(** Finite onsets can panic as well: the frame count overflows. *)
Theorem C34_huge_onset_refuted : exists onsets, Forall (fun o => fin o) onsets /\
  forall fuel exp conf, generate_beat_grid fuel exp (z2f 120) conf onsets = Some Panic.
Proof.
  exists [f0; lit 1 100]. split; [repeat constructor|]. intros fuel exp conf. unfold generate_beat_grid.
  replace (fle (z2f 120) f0 || fgt (z2f 120) (z2f 300)) with false by (vm_compute; reflexivity).
  cbn [length Nat.eqb]. rewrite sort_times_id.
  - assert (E : track_beats exp (z2f 120) [f0; lit 1 100] = Panic).
    { unfold track_beats. replace (fle (z2f 120) eps10 || fgt (z2f 120) (z2f 300)) with false by (vm_compute; reflexivity).
      cbn [length Nat.eqb]. cbv zeta. unfold compute_emissions.
      replace (num_frames (z2f 120) [f0; lit 1 100]) with (@Panic Z) by (vm_compute; reflexivity). reflexivity. }
    now rewrite E.
  - repeat constructor.
  - repeat constructor.
Qed.
Print Assumptions C34_huge_onset_refuted.

(** And finite onsets can make it run forever. *)
Theorem C34_hang_refuted : exists onsets, Forall (fun o => fin o) onsets /\
  forall fuel, generate_beat_grid fuel exp_steps (z2f 15) f1 onsets = None.
Proof.
  set (os := map z2f [33554432; 33554436; 33554440; 33554444]%Z).
  exists os. split; [repeat constructor|]. intros fuel. unfold generate_beat_grid.
  replace (fle (z2f 15) f0 || fgt (z2f 15) (z2f 300)) with false by (vm_compute; reflexivity).
  change (length os =? 0) with false. cbv iota. rewrite sort_times_id.
  2:{ repeat constructor; vm_compute; reflexivity. }
  2:{ repeat constructor. }
  assert (Q : match track_beats exp_steps (z2f 15) os with Ok l => map (fun b => B2SF (b_time b)) l = map (fun t => B2SF t) os
    | _ => False end) by (vm_compute; reflexivity).
  assert (N0 : os <> []) by discriminate.
  destruct (track_beats exp_steps (z2f 15) os) as [l| |] eqn:E; [|contradiction|contradiction].
  assert (El : map b_time l = os).
  { clear E N0. clearbody os. revert l Q. induction os as [|o os' IH]; intros [|b l] Q; try discriminate Q; [reflexivity|].
    cbn [map] in *. f_equal; [apply B2SF_inj; congruence|apply IH; congruence]. }
  destruct l as [|b l]; [cbn [map] in El; congruence|].
  unfold refined_positions. rewrite El.
  enough (K : detect_tempo_variations fuel os (z2f 15) = None) by now rewrite K.
  clear. unfold detect_tempo_variations, os. cbn [map nth last length]. cbv zeta.
  change (4 <? 4) with false. cbv iota.
  replace (fle (z2f 15) eps10) with false by (vm_compute; reflexivity).
  replace (flt (fsub (z2f 33554444) (z2f 33554432)) f2) with false by (vm_compute; reflexivity).
  set (dur := fclamp_val _ _ _).
  assert (Ed : dur = z2f 4) by (apply B2SF_inj; vm_compute; reflexivity). rewrite Ed. clear dur Ed.
  replace (fsub (z2f 4) (fmul (z2f 4) fhalf)) with (z2f 2) by (apply B2SF_inj; vm_compute; reflexivity).
  rewrite seg_stuck; auto; vm_compute; reflexivity.
Qed.
Print Assumptions C34_hang_refuted.
