(** C35: time signature detection (src/features/beat_tracking/time_signature.rs). *)
From Coq Require Import ZArith Reals Lra Lia.
From Flocq Require Import Core.
From Verif Require Import Rust F32 F32Facts F32More ListFacts NoveltyProofs Bounds PeakPicking Onsets TimeSignature
  TimeSignatureProofs.

(** Whatever the beats (NaN and infinities included), a reported confidence lies in [0,1]. *)
Theorem C35_confidence : forall beats bpm t c, detect_time_signature beats bpm = Ok (t, c) -> in01 c.
Proof.
  intros beats bpm t c H. unfold detect_time_signature in H.
  assert (Half : in01 fhalf) by (split; reflexivity).
  destruct (length beats <? 8). { assert (c = fhalf) by congruence. now subst. }
  destruct (fle bpm eps10); [discriminate|]. cbv zeta in H.
  destruct (length (intervals beats) =? 0). { assert (c = fhalf) by congruence. now subst. }
  destruct (best_signature _ _ _) as [(t', s)| |] eqn:B; [|discriminate|discriminate].
  cbn [obind fst snd] in H. assert (E : c = fclamp_val s f0 f1) by congruence. subst c.
  apply in01_clamp. now apply best_ok in B.
Qed.
Print Assumptions C35_confidence.

(** Fewer than eight beats: 4/4 with confidence 0.5, whatever the tempo. *)
Theorem C35_short : forall beats bpm, length beats < 8 -> detect_time_signature beats bpm = Ok (FourFour, fhalf).
Proof. intros beats bpm H. unfold detect_time_signature. apply Nat.ltb_lt in H. now rewrite H. Qed.
Print Assumptions C35_short.

(** The only error is a non-positive tempo. *)
Theorem C35_error : forall beats bpm e, detect_time_signature beats bpm = Err e <->
  e = InvalidInput /\ 8 <= length beats /\ fle bpm (lit 14411519 (-57)) = true.
Proof.
  intros beats bpm e. unfold detect_time_signature. fold eps10. split.
  - intros H. destruct (length beats <? 8) eqn:L; [discriminate|]. apply Nat.ltb_ge in L.
    destruct (fle bpm eps10). { split; [congruence|auto]. }
    cbv zeta in H. destruct (length (intervals beats) =? 0); [discriminate|].
    destruct (best_signature _ _ _) as [r| |] eqn:B; try discriminate.
    unfold best_signature in B. destruct (_ || _)%bool; discriminate.
  - intros (-> & L & T). destruct (Nat.ltb_spec (length beats) 8); [lia|]. now rewrite T.
Qed.
Print Assumptions C35_error.

(** Every other input (NaN and infinities included) gives a result: the detector never panics. *)
Theorem C35_total : forall beats bpm, fle bpm (lit 14411519 (-57)) = false ->
  exists t c, detect_time_signature beats bpm = Ok (t, c) /\ in01 c.
Proof.
  intros beats bpm T. enough (E : exists r, detect_time_signature beats bpm = Ok r).
  { destruct E as ((t & c) & E). exists t, c. split; auto. now apply C35_confidence in E. }
  unfold detect_time_signature. fold eps10 in T. rewrite T.
  destruct (length beats <? 8); [eauto|]. cbv zeta.
  destruct (length (intervals beats) =? 0); [eauto|].
  destruct (best_total _ _ _ (score_nn (intervals beats) 4 (mean (intervals beats)))
              (score_nn (intervals beats) 3 (mean (intervals beats)))
              (score_nn (intervals beats) 6 (mean (intervals beats)))) as (r & E).
  rewrite E. cbn [obind]. eauto.
Qed.
Print Assumptions C35_total.

(** An exactly steady beat is always reported as 6/8: the three hypotheses score alike and [max_by] keeps the last
    maximum. *)
Theorem C35_steady_beat_is_six_eight : forall beats bpm d,
  Forall (fun t => fin t /\ (Rabs (B2R t) <= IZR (2 ^ 24))%R) beats -> 8 <= length beats ->
  (Z.of_nat (length beats) <= 2 ^ 24)%Z -> fle bpm (lit 14411519 (-57)) = false ->
  (forall i, S i < length beats -> fsub (nth (S i) beats f0) (nth i beats f0) = d) -> flt f0 d = true ->
  exists c, detect_time_signature beats bpm = Ok (SixEight, c).
Proof.
  intros beats bpm d H L8 L T Hd Pd. unfold detect_time_signature. fold eps10 in T. rewrite T.
  destruct (Nat.ltb_spec (length beats) 8); [lia|]. cbv zeta.
  assert (W : Forall (within 24) beats).
  { eapply Forall_impl; [|exact H]. intros x (F & B). split; auto. }
  pose proof (intervals_spec 24 beats ltac:(lia) W) as I.
  assert (Ei : intervals beats = repeat d (length beats - 1)).
  { unfold intervals. rewrite (adj_repeat _ _ (fun a b => fsub b a) d beats f0 Hd). now apply filter_repeat. }
  rewrite Ei in *. set (n := length beats - 1) in *. assert (N : 7 <= n) by lia.
  assert (Nz : (Z.of_nat n <= 16777216)%Z) by lia. clearbody n. clear Ei.
  rewrite repeat_length. destruct (n =? 0) eqn:E0; [apply Nat.eqb_eq in E0; lia|].
  destruct (mean_spec 25 (repeat d n) ltac:(lia)) as (Pm & Wm); auto.
  { destruct n; [lia|]. cbn [repeat]. discriminate. } { now rewrite repeat_length. }
  assert (Fd : fin d). { destruct n; [lia|]. cbn [repeat] in I. apply Forall_inv in I. destruct I as (_ & I). now apply within_fin in I. }
  pose proof (within_fin _ _ Wm) as Fm. set (m := mean (repeat d n)) in *. clearbody m.
  pose proof (score_nn (repeat d n) 4 m) as Ns.
  rewrite !steady_score in * by (auto; lia).
  match goal with |- context [best_signature ?x _ _] => set (s := x) in * end.
  clearbody s. unfold best_signature, fisnan. rewrite Ns. cbn [orb]. cbv zeta.
  unfold fgt. fold (flt s s). rewrite flt_irrefl. cbn [snd]. fold (flt s s). rewrite flt_irrefl.
  cbn [obind fst]. eauto.
Qed.
Print Assumptions C35_steady_beat_is_six_eight.

(** Overflowing intervals are reported as 6/8 with full confidence: NaN.min(1.0) is 1.0. *)
Theorem C35_garbage : exists beats, Forall (fun t => fin t) beats /\
  detect_time_signature beats (z2f 120) = Ok (SixEight, f1).
Proof.
  exists (flat_map (fun _ => [lit (-15) 124; lit 15 124]) (seq 0 8)).
  split; [repeat constructor|].
  enough (E : omap (fun r => (fst r, B2SF (snd r)))
     (detect_time_signature (flat_map (fun _ => [lit (-15) 124; lit 15 124]) (seq 0 8)) (z2f 120)) =
     Ok (SixEight, B2SF f1)) by (destruct (detect_time_signature _ _) as [(t & c)| |]; cbn [omap fst snd] in E;
       [|discriminate|discriminate]; f_equal; f_equal; [congruence|apply B2SF_inj; congruence]).
  vm_compute. reflexivity.
Qed.
Print Assumptions C35_garbage.

(** Four-beat bars with a long fourth beat: 4/4, and three-beat bars: a lag-6 tie with 3/4 goes to 6/8. *)
Definition bars (n : nat) (bar : list Z) : list f32 :=
  map (fun t => lit t (-2)) (fold_left (fun acc d => acc ++ [last acc 0 + d]%Z)
                                       (flat_map (fun _ => bar) (seq 0 n)) [0%Z]).
Definition signature_of (r : outcome (time_signature * f32)) : option time_signature :=
  match r with Ok x => Some (fst x) | _ => None end.
Example C35_example_44 : signature_of (detect_time_signature (bars 6 [2; 2; 2; 3]%Z) (z2f 120)) = Some FourFour.
Proof. vm_compute. reflexivity. Qed.
Example C35_example_waltz : signature_of (detect_time_signature (bars 8 [2; 2; 3]%Z) (z2f 120)) = Some SixEight.
Proof. vm_compute. reflexivity. Qed.
Example C35_example_metronome : signature_of (detect_time_signature (bars 16 [2]%Z) (z2f 120)) = Some SixEight.
Proof. vm_compute. reflexivity. Qed.
