(** C29, C30: the HMM beat tracker (src/features/beat_tracking/hmm.rs). *)
From Coq Require Import ZArith Reals Lra Lia Sorted.
From Flocq Require Import Core.
From Verif Require Import Rust F32 F32Facts F32More ListFacts Sorting PeakPicking PeakPickingProofs TimeSignatureProofs
  TempoVariationProofs Hmm HmmProofs HmmBeatsProofs.

(** Viterbi returns a path with one state per frame whose probability, evaluated frame by frame in f32, is at least that
    of every other path: all transition and emission tables with entries in [0,1]. *)
Theorem C29_optimal : forall tr em, prob_table tr -> prob_table em -> em <> [] ->
  exists path, viterbi tr em = Ok path /\ length path = length em /\ Forall (fun s => s < 5) path /\
  forall path', length path' = length em -> Forall (fun s => s < 5) path' ->
    fle (path_prob tr em path') (path_prob tr em path) = true.
Proof.
  intros tr em T E NE. destruct em as [|e er]; [congruence|]. rewrite viterbi_cons.
  pose proof (Forall_inv E) as E1. apply Forall_inv_tail in E. pose proof (start_in01 e (proj2 E1)) as V.
  pose proof (forward_in01 tr er _ T E V) as VF. destruct (final_spec _ VF) as (F1 & F2).
  destruct (forward_trace tr er _ _ T E V F1) as (s & ss & B & L & S1 & SS & Q). rewrite B.
  exists (s :: ss). split; [reflexivity|]. split; [cbn [length]; lia|]. split; [now constructor|].
  intros path' L' P'. destruct path' as [|s' ss']; [discriminate|]. cbn [length] in L'.
  pose proof (Forall_inv P') as P1. apply Forall_inv_tail in P'. cbn [path_prob].
  rewrite <- !start_nth by auto. refine (fle_trans _ _ _ _ Q).
  assert (Ls : last ss' s' < 5).
  { destruct ss' as [|x l] using rev_ind; [exact P1|]. rewrite last_last. apply Forall_app in P'. now apply proj2, Forall_inv in P'. }
  refine (fle_trans _ _ _ _ (F2 _ Ls)).
  apply forward_upper; auto; [apply row_in01; exact V|]. apply fle_refl, in01_nn, row_in01. exact V.
Qed.
Print Assumptions C29_optimal.

(** An empty table is an error. *)
Theorem C29_empty : forall tr, viterbi tr [] = Err ProcessingError.
Proof. reflexivity. Qed.
Print Assumptions C29_empty.

(** With the built transition matrix and emissions that do not depend on the state (the only kind the tracker computes,
    see C30), the optimal path is always "10 percent slower" throughout, whatever the onsets say: the boundary rows are
    normalised by 0.85, so staying at an edge state is the likeliest transition of all. *)
Theorem C29_always_slowest : forall em, prob_table em -> em <> [] ->
  Forall (fun row => forall s, s < 5 -> nth s row f0 = nth 0 row f0) em ->
  viterbi build_transition_matrix em = Ok (repeat 0 (length em)).
Proof.
  intros em E NE F. destruct em as [|e er]; [congruence|]. rewrite viterbi_cons.
  pose proof (Forall_inv E) as E1. apply Forall_inv_tail in E. pose proof (start_in01 e (proj2 E1)) as V.
  pose proof (Forall_inv F) as F1. apply Forall_inv_tail in F.
  assert (Ld : led (start_row e)).
  { intros s S. rewrite !start_nth by lia. rewrite (F1 s S). apply fle_refl, in01_nn, in01_mul; [apply in01_fifth|].
    apply row_in01, E1. }
  destruct (led_path er _ E F V Ld) as (P1 & P2). rewrite led_final; auto.
  - now rewrite P2.
  - apply forward_in01; auto. apply matrix_table.
Qed.
Print Assumptions C29_always_slowest.

(** Underflow: from 541 frames on, every path's probability is at most 2^-148, twice the smallest positive float. *)
Theorem C29_underflow : forall em path, prob_table em -> 541 <= length em -> length path = length em ->
  Forall (fun s => s < 5) path ->
  fle (path_prob build_transition_matrix em path) (lit 1 (-148)) = true.
Proof.
  intros em path E N L P. destruct em as [|e er]; [cbn in N; lia|]. destruct path as [|s ss]; [discriminate|].
  cbn [path_prob length] in *. pose proof (Forall_inv E) as E1. apply Forall_inv_tail in E.
  pose proof (Forall_inv P) as P1. apply Forall_inv_tail in P.
  assert (I : in01 (fmul (fdiv f1 (n2f 5)) (nth s e f0))) by (apply in01_mul; [apply in01_fifth|apply row_in01, E1]).
  refine (fle_trans _ _ _ (extend_decay er _ s ss 0 E I P1 P ltac:(lia) (proj2 I)) _).
  apply decay_long. cbn [Nat.add]. lia.
Qed.
Print Assumptions C29_underflow.

(** From then on a single frame far from every onset (emissions at most 1/5) makes every path's probability exactly
    zero, for the rest of the track. *)
Theorem C29_underflow_zero : forall em1 e em2 path, prob_table (em1 ++ e :: em2) -> 541 <= length em1 ->
  Forall (fun x => fle x (lit 13421773 (-26)) = true) e -> length path = length (em1 ++ e :: em2) ->
  Forall (fun s => s < 5) path ->
  fx (path_prob build_transition_matrix (em1 ++ e :: em2) path) = 0%R.
Proof.
  intros em1 e em2 path E N Q L P. set (k := length em1) in *.
  assert (Lk : k < length path) by (rewrite L, app_length; cbn [length]; fold k; lia).
  rewrite <- (firstn_skipn k path) in P |- *. apply Forall_app in P. destruct P as (P1 & P2).
  assert (L1 : length (firstn k path) = k) by (rewrite firstn_length; lia).
  assert (L2 : length (skipn k path) = S (length em2)) by (rewrite skipn_length, L, app_length; cbn [length]; fold k; lia).
  set (pa := firstn k path) in *. set (pb := skipn k path) in *. clearbody pa pb. clear L Lk path.
  apply Forall_app in E. destruct E as (E1 & E2). pose proof (Forall_inv E2) as Ee. apply Forall_inv_tail in E2.
  destruct em1 as [|e0 er]; [cbn in k; subst k; lia|]. destruct pa as [|s ss]; [cbn in L1; subst k; discriminate|].
  cbn [app path_prob]. pose proof (Forall_inv E1) as E0. apply Forall_inv_tail in E1.
  pose proof (Forall_inv P1) as S0. apply Forall_inv_tail in P1. destruct pb as [|s' sr]; [discriminate|].
  pose proof (Forall_inv P2) as S1. apply Forall_inv_tail in P2.
  assert (I : in01 (fmul (fdiv f1 (n2f 5)) (nth s e0 f0))) by (apply in01_mul; [apply in01_fifth|apply row_in01, E0]).
  set (v := fmul (fdiv f1 (n2f 5)) (nth s e0 f0)) in *. clearbody v. cbn [length] in *. unfold k in *.
  rewrite extend_app by lia.
  assert (D : fle (extend build_transition_matrix v s er ss) (lit 1 (-148)) = true).
  { refine (fle_trans _ _ _ (extend_decay er v s ss 0 E1 I S0 P1 ltac:(lia) (proj2 I)) _). apply decay_long. cbn. lia. }
  pose proof (extend_in01 build_transition_matrix er v s ss matrix_table E1 I) as J.
  set (w := extend build_transition_matrix v s er ss) in *. clearbody w. cbn [extend].
  assert (I1 := trans_in01 build_transition_matrix (last ss s) s' matrix_table).
  assert (I2 : in01 (nth s' e f0)) by apply row_in01, Ee.
  assert (I5 : in01 (lit 13421773 (-26))) by (split; vm_compute; reflexivity).
  assert (I6 : in01 (lit 1 (-148))) by (split; vm_compute; reflexivity).
  assert (Q' : fle (nth s' e f0) (lit 13421773 (-26)) = true).
  { apply (proj1 (Forall_forall _ _) Q). apply nth_In. destruct Ee as (-> & _). exact S1. }
  set (x := fmul (fmul w (trans build_transition_matrix (last ss s) s')) (nth s' e f0)) in *.
  assert (X : in01 x) by (repeat apply in01_mul; auto).
  assert (X0 : fle x f0 = true).
  { assert (Z : fle (fmul (lit 1 (-148)) (lit 13421773 (-26))) f0 = true) by (vm_compute; reflexivity).
    refine (fle_trans _ _ _ _ Z). apply mul01_mono; auto; [now apply in01_mul|].
    refine (fle_trans _ _ _ (mul01_le_l _ _ J I1) D). }
  clearbody x. pose proof (extend_le build_transition_matrix em2 x s' sr matrix_table E2 X) as Le.
  pose proof (extend_in01 build_transition_matrix em2 x s' sr matrix_table E2 X) as (Ge & _).
  apply fle_fx in Le, X0. apply nneg_fx in Ge. rewrite fx_f0 in X0. lra.
Qed.
Print Assumptions C29_underflow_zero.

Example C29_example : viterbi build_transition_matrix
  [[f0; f0; f1; f0; f0]; [f0; f0; f1; fhalf; f0]; [f0; f0; f0; f1; f0]; [f0; f0; f0; f0; f1]] = Ok [2; 2; 3; 4].
Proof. vm_compute. reflexivity. Qed.
Example C29_example_flat : viterbi build_transition_matrix (repeat (repeat f1 5) 7) = Ok (repeat 0 7).
Proof. vm_compute. reflexivity. Qed.

(** * C30 *)

(** What [track_beats] computes, with no reference to the state path: an error exactly for a tempo outside (1e-10, 300]
    or no onsets; a panic exactly when the number of frames overflows; otherwise the beats are the frames
    [first + t * 60/bpm], t = 0 .. n-1, whose emission exceeds 0.1, in this order; their times are finite, ascending, at
    least the first onset, and their confidences lie in [0,1]. *)
Theorem C30_beats : forall exp bpm onsets, exp_ok exp ->
  (track_beats exp bpm onsets = Err InvalidInput /\
   (onsets = [] \/ fle bpm (lit 14411519 (-57)) = true \/ flt (z2f 300) bpm = true)) \/
  (track_beats exp bpm onsets = Panic /\ num_frames bpm onsets = Panic /\ onsets <> []) \/
  (exists n beats, track_beats exp bpm onsets = Ok beats /\ onsets <> [] /\ num_frames bpm onsets = Ok n /\
   fle bpm (lit 14411519 (-57)) = false /\ flt (z2f 300) bpm = false /\
   map b_time beats = map (frame_time (nth 0 onsets f0) (fdiv (z2f 60) bpm))
     (filter (fun t => flt (lit 13421773 (-27))
        (exp (exponent onsets (frame_time (nth 0 onsets f0) (fdiv (z2f 60) bpm) t)))) (seq 0 (Z.to_nat n))) /\
   StronglySorted (fun a b => fle (b_time a) (b_time b) = true) beats /\
   Forall (fun b => fin (b_time b) /\ fle (nth 0 onsets f0) (b_time b) = true /\ in01 (b_conf b)) beats).
Proof.
  intros exp bpm onsets He. rewrite track_cases by auto.
  destruct (fle bpm eps10) eqn:V1; [left; cbn [orb]; auto|]. destruct (fgt bpm (z2f 300)) eqn:V2; [left; cbn [orb]; auto|].
  cbn [orb]. destruct (length onsets =? 0) eqn:L0.
  { left. split; [reflexivity|]. left. apply Nat.eqb_eq in L0. now destruct onsets. }
  apply Nat.eqb_neq in L0. assert (NE : onsets <> []) by (intros ->; cbn in L0; lia). right.
  destruct (num_frames_spec bpm onsets) as [E|(n & E & B)]; rewrite E; [left; auto|right].
  exists n, (beats_upto exp bpm onsets n). split; [reflexivity|]. split; [exact NE|]. split; [reflexivity|].
  split; [exact V1|]. split; [exact V2|]. split; [|split].
  - unfold beats_upto. generalize (seq 0 (Z.to_nat n)). intros l. induction l as [|t l IH]; [reflexivity|].
    cbn [flat_map filter]. rewrite map_app, IH. unfold frame_beat at 1. cbv zeta. unfold beat_interval, fgt.
    fold (flt (lit 13421773 (-27)) (exp (exponent onsets (frame_time (nth 0 onsets f0) (fdiv (z2f 60) bpm) t)))).
    destruct (flt (lit 13421773 (-27)) _); reflexivity.
  - apply beats_sorted; auto. lia.
  - apply Forall_forall. intros b Hb. apply in_beats in Hb. destruct Hb as (t & Ht & Hb).
    apply frame_beat_in in Hb; auto. destruct Hb as (B1 & B2 & B3 & B4 & B5). split; [exact B2|].
    destruct (interval_ok bpm V1 V2 B3) as (F & L). split.
    + rewrite B1 in *. apply frame_ge; auto; [|lia|now apply fin_nn]. refine (fle_trans f0 _ _ _ L). reflexivity.
    + rewrite B4. apply beat_conf_in01. apply He. apply exponent_le.
Qed.
Print Assumptions C30_beats.

(** Every reported beat lies within 54 ms of an onset (f32 distance), if exp(x) <= 0.1 for x <= -2.3125. *)
Theorem C30_near_onset : forall exp bpm onsets beats b, exp_ok exp ->
  (forall x, fle x (lit (-37) (-4)) = true -> fle (exp x) (lit 13421773 (-27)) = true) ->
  track_beats exp bpm onsets = Ok beats -> In b beats ->
  exists o, In o onsets /\ fin o /\ flt (fabs (fsub o (b_time b))) (lit 14495515 (-28)) = true.
Proof.
  intros exp bpm onsets beats b He H10 H Hb. rewrite track_cases in H by auto.
  destruct (fle bpm eps10 || fgt bpm (z2f 300)); [discriminate|]. destruct (length onsets =? 0); [discriminate|].
  destruct (num_frames bpm onsets) as [n| |]; try discriminate.
  assert (E : beats = beats_upto exp bpm onsets n) by congruence. rewrite E in Hb. clear H E.
  apply in_beats in Hb. destruct Hb as (t & _ & Hb). apply frame_beat_in in Hb; auto. destruct Hb as (_ & _ & _ & _ & K).
  destruct (kept_near _ _ _ He K) as (_ & o & Ho & Fo & Eo). exists o. split; [exact Ho|]. split; [exact Fo|].
  rewrite <- Eo. unfold fgt in K. now apply kept_close in K.
Qed.
Print Assumptions C30_near_onset.

(** Conversely a frame of the grid within 53 ms of an onset is reported, if exp(x) > 0.1 for x in [-2.25, 0]. *)
Theorem C30_complete : forall exp bpm onsets beats n t o, exp_ok exp ->
  (forall x, fle (lit (-9) (-2)) x = true -> fle x f0 = true -> flt (lit 13421773 (-27)) (exp x) = true) ->
  track_beats exp bpm onsets = Ok beats -> num_frames bpm onsets = Ok n -> t < Z.to_nat n -> In o onsets ->
  fle (fabs (fsub o (frame_time (nth 0 onsets f0) (fdiv (z2f 60) bpm) t))) (lit 14227079 (-28)) = true ->
  In (frame_time (nth 0 onsets f0) (fdiv (z2f 60) bpm) t) (map b_time beats).
Proof.
  intros exp bpm onsets beats n t o He H10 H Hn Ht Ho Hd. rewrite track_cases, Hn in H by auto.
  destruct (fle bpm eps10 || fgt bpm (z2f 300)); [discriminate|]. destruct (length onsets =? 0); [discriminate|].
  assert (E : beats = beats_upto exp bpm onsets n) by congruence. rewrite E. clear H E.
  apply in_map_iff. fold (beat_interval bpm) in *. set (time := frame_time _ _ t) in *.
  assert (K : flt (lit 13421773 (-27)) (exp (exponent onsets time)) = true).
  { apply close_kept; auto. refine (fle_trans _ _ _ _ Hd).
    destruct (nearest_spec onsets time finf eq_refl) as (_ & _ & _ & D). cbv zeta in D. fold (nearest onsets time) in D.
    apply D; auto. pose proof (fle_nn _ _ Hd) as (N & _). now rewrite fabs_nn in N. }
  exists {| b_time := time; b_conf := beat_conf onsets (exp (exponent onsets time)) time |}. split; [reflexivity|].
  apply in_beats. exists t. split; [exact Ht|]. unfold frame_beat. fold time. cbv zeta. unfold fgt.
  fold (flt (lit 13421773 (-27)) (exp (exponent onsets time))). rewrite K. now left.
Qed.
Print Assumptions C30_complete.

(** The first onset is always the first beat, with confidence exactly 1, if exp(0) = 1: the "no beats" error of the
    caller is unreachable for finite onsets. *)
Theorem C30_first : forall exp bpm onsets n, exp_ok exp -> (forall s, exp (B754_zero s) = f1) ->
  onsets <> [] -> fin (nth 0 onsets f0) -> nn bpm -> fle bpm (lit 14411519 (-57)) = false -> flt (z2f 300) bpm = false ->
  num_frames bpm onsets = Ok n ->
  exists b rest, track_beats exp bpm onsets = Ok (b :: rest) /\ fx (b_time b) = fx (nth 0 onsets f0) /\ b_conf b = f1.
Proof.
  intros exp bpm onsets n He H0 NE Fs Nb V1 V2 Hn. rewrite track_cases, Hn by auto. fold eps10 in V1. rewrite V1.
  assert (V2' : fgt bpm (z2f 300) = false) by exact V2. rewrite V2'. cbn [orb].
  replace (length onsets =? 0) with false by (symmetry; apply Nat.eqb_neq; destruct onsets; [congruence|discriminate]).
  destruct (num_frames_spec bpm onsets) as [E|(m & E & B)]; [congruence|]. assert (m = n) by congruence. subst m.
  destruct (interval_ok bpm V1 V2' Nb) as (Fi & Li).
  assert (Pi : nneg (beat_interval bpm)) by (refine (fle_trans f0 _ _ _ Li); reflexivity).
  destruct (frame_zero _ _ Fs Fi Pi) as (Ft & Et).
  destruct (nearest_zero onsets _ (or_intror (eq_sym Et)) NE Fs Ft) as (s & Hs).
  destruct (exponent_zero _ _ _ Hs) as (s' & Hs').
  unfold beats_upto. replace (Z.to_nat n) with (S (Z.to_nat n - 1)) by lia. cbn [seq flat_map].
  unfold frame_beat at 1. cbv zeta. rewrite Hs', H0.
  replace (fgt f1 (lit 13421773 (-27))) with true by (vm_compute; reflexivity). cbn [app].
  eexists _, _. split; [reflexivity|]. cbn [b_time b_conf]. split; [exact Et|]. now apply conf_zero with s.
Qed.
Print Assumptions C30_first.

(** A NaN tempo passes the validation and gives no beats instead of an error. *)
Theorem C30_nan_tempo : forall exp onsets, exp_ok exp -> onsets <> [] ->
  track_beats exp fnan onsets = Ok [] .
Proof.
  intros exp onsets He NE. rewrite track_cases by auto.
  replace (fle fnan eps10) with false by reflexivity. replace (fgt fnan (z2f 300)) with false by reflexivity. cbn [orb].
  replace (length onsets =? 0) with false by (symmetry; apply Nat.eqb_neq; destruct onsets; [congruence|discriminate]).
  assert (E : num_frames fnan onsets = Ok 1%Z).
  { unfold num_frames, beat_interval. replace (fdiv (z2f 60) fnan) with (fnan) by (apply B2SF_inj; vm_compute; reflexivity).
    destruct (fsub (last onsets f0) (nth 0 onsets f0)); reflexivity. }
  rewrite E. unfold beats_upto. cbn [seq flat_map Z.to_nat Pos.to_nat Pos.iter_op]. change (Pos.to_nat 1) with 1.
  cbn [seq flat_map]. rewrite nan_tempo; auto.
Qed.
Print Assumptions C30_nan_tempo.

(** The assumptions on the exponential are satisfiable, and an example: a track at 120 BPM with an extra onset. *)
Definition exp_steps (x : f32) : f32 := if fle (lit (-9) (-2)) x then f1 else f0.
Example C30_oracle : exp_ok exp_steps.
Proof.
  split; [|vm_compute; reflexivity]. intros x H. unfold exp_steps. destruct (fle _ x); [apply in01_1|apply in01_0].
Qed.
Example C30_example :
  match track_beats exp_steps (z2f 120) (map (fun z => fdiv (z2f z) (z2f 4)) [0; 2; 4; 5; 6; 10]%Z) with
  | Ok l => map (fun b => (f2i32 (fmul (z2f 4) (b_time b)), f2i32 (fmul (z2f 100) (b_conf b)))) l
  | _ => []
  end = [(0, 100); (2, 100); (4, 100); (6, 100); (10, 100)]%Z.
Proof. vm_compute. reflexivity. Qed.
