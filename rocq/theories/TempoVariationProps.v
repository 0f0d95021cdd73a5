(** C32: tempo-variation analysis (src/features/beat_tracking/tempo_variation.rs). *)
From Coq Require Import ZArith Reals Lra Lia Sorted.
From Flocq Require Import Core.
From Verif Require Import Rust F32 F32Facts F32More ListFacts PeakPicking PeakPickingProofs TimeSignature TempoVariation
  TempoVariationProofs.

(** Whenever the analysis ends it does not panic; it fails exactly on four or more beats with a tempo of at most 1e-10;
    otherwise there is at least one segment, every confidence is in [0,1], and a segment is called variable only with a
    confidence of at most 1/2.  Either there is one steady segment from the first to the last beat, or the segments lie
    between the first and the last beat, end after they start, and start in strictly increasing order.  All inputs, NaN
    and unsorted beats included. *)
Theorem C32_result : forall fuel beats nominal r, detect_tempo_variations fuel beats nominal = Some r ->
  (r = Err InvalidInput /\ 4 <= length beats /\ fle nominal (lit 14411519 (-57)) = true) \/
  exists segs, r = Ok segs /\ segs <> [] /\ (length beats < 4 \/ fle nominal (lit 14411519 (-57)) = false) /\
  Forall (fun s => in01 (ts_conf s) /\ (ts_variable s = true -> fle (ts_conf s) fhalf = true) /\
                   (ts_bpm s = nominal \/ nneg (ts_bpm s) \/ is_nan (ts_bpm s) = true)) segs /\
  ((exists s, segs = [s] /\ ts_start s = nth 0 beats f0 /\ ts_end s = last beats f0 /\ ts_bpm s = nominal /\
              ts_variable s = false) \/
   Forall (fun s => fle (nth 0 beats f0) (ts_start s) = true /\ flt (ts_start s) (last beats f0) = true /\
                    flt (ts_start s) (ts_end s) = true /\ fle (ts_end s) (last beats f0) = true) segs /\
   StronglySorted (fun a b => flt (ts_start a) (ts_start b) = true) segs).
Proof.
  intros fuel beats nominal r H. unfold detect_tempo_variations in H. cbv zeta in H.
  assert (C5 : in01 fhalf) by now split. assert (C8 : in01 (lit 13421773 (-24))) by now split.
  destruct (length beats <? 4) eqn:L.
  { apply Nat.ltb_lt in L. right. eexists. split; [injection H as <-; reflexivity|]. split; [discriminate|].
    split; [now left|]. split.
    - constructor; [|constructor]. cbn [ts_conf ts_variable ts_bpm]. split; [exact C5|]. split; [discriminate|now left].
    - left. eexists. split; [reflexivity|]. cbn. auto. }
  apply Nat.ltb_ge in L. fold eps10.
  destruct (fle nominal eps10) eqn:E. { left. injection H as <-. auto. }
  right.
  set (whole := {| ts_start := nth 0 beats f0; ts_end := last beats f0; ts_bpm := nominal;
                   ts_conf := lit 13421773 (-24); ts_variable := false |}) in *.
  assert (W : forall q, q = [whole] -> q <> [] /\ (length beats < 4 \/ false = false) /\
     Forall (seg_ok nominal) q /\
     ((exists s, q = [s] /\ ts_start s = nth 0 beats f0 /\ ts_end s = last beats f0 /\ ts_bpm s = nominal /\
              ts_variable s = false) \/
      Forall (fun s => fle (nth 0 beats f0) (ts_start s) = true /\ flt (ts_start s) (last beats f0) = true /\
                    flt (ts_start s) (ts_end s) = true /\ fle (ts_end s) (last beats f0) = true) q /\
      StronglySorted (fun a b => flt (ts_start a) (ts_start b) = true) q)).
  { intros q ->. split; [discriminate|]. split; [now right|]. split.
    - constructor; [|constructor]. unfold seg_ok, whole. cbn [ts_conf ts_variable ts_bpm]. split; [exact C8|].
      split; [discriminate|now left].
    - left. exists whole. unfold whole. cbn. auto. }
  destruct (flt (fsub _ _) f2) eqn:T.
  { exists [whole]. split; [injection H as <-; reflexivity|]. now apply W. }
  destruct (segments_loop _ _ _ _ _ _ _) as [l|] eqn:Lo; [|discriminate].
  destruct (flt (nth 0 beats f0) (last beats f0)) eqn:F.
  2:{ destruct fuel; [discriminate|]. cbn [segments_loop] in Lo. rewrite F in Lo. injection Lo as <-.
      exists [whole]. split; [injection H as <-; reflexivity|]. now apply W. }
  destruct l as [|s l]. { exists [whole]. split; [injection H as <-; reflexivity|]. now apply W. }
  destruct (step_spec _ (total_nn _ _ F)) as (D1 & D2 & D3 & D4 & _).
  destruct (flt_nn _ _ F) as (Na & Nb).
  destruct (loop_windows _ _ _ _ _ D2 D4 D1 _ _ _ Na Nb Lo) as (A & B).
  exists (s :: l). split; [congruence|]. split; [discriminate|]. split; [now right|]. split; [|right; split; auto].
  - eapply Forall_impl; [|exact A]. intros q (_ & _ & _ & _ & K). exact K.
  - eapply Forall_impl; [|exact A]. intros q (K1 & K2 & K3 & K4 & _). auto.
Qed.
Print Assumptions C32_result.

(** Termination for beat times up to 2^23 seconds (97 days) in absolute value. *)
Theorem C32_terminates_partial : forall beats nominal,
  Forall (fun b => fin b /\ (Rabs (B2R b) <= 8388608)%R) beats ->
  exists fuel0 r, forall fuel, fuel0 <= fuel -> detect_tempo_variations fuel beats nominal = Some r.
Proof.
  intros beats nominal H. unfold detect_tempo_variations. cbv zeta.
  destruct (length beats <? 4) eqn:L; [exists 0; eauto|]. apply Nat.ltb_ge in L.
  destruct (fle nominal eps10); [exists 0; eauto|]. destruct (flt (fsub _ _) f2); [exists 0; eauto|].
  assert (Hf : In (nth 0 beats f0) beats) by (apply nth_In; lia).
  assert (Hl : In (last beats f0) beats).
  { destruct (exists_last (l := beats)) as (b' & x & ->). { intros ->. cbn in L. lia. }
    rewrite last_last. apply in_or_app. right. now left. }
  destruct (proj1 (Forall_forall _ _) H _ Hf) as (Ff & Bf). destruct (proj1 (Forall_forall _ _) H _ Hl) as (Fl & Bl).
  apply Rabs_le_inv in Bf, Bl.
  set (first := nth 0 beats f0) in *. set (final := last beats f0) in *. clearbody first final.
  destruct (flt first final) eqn:F.
  2:{ eexists 1, _. intros [|fuel] K; [lia|]. cbn [segments_loop]. rewrite F. reflexivity. }
  destruct (step_spec _ (total_nn _ _ F)) as (D1 & D2 & D3 & D4 & D5).
  set (dur := fclamp_val _ _ _) in *. set (step := fsub dur _) in *. clearbody dur step.
  destruct (seg_ends beats nominal final dur step D2 (proj1 D5) (proj2 D5) (Z.to_nat 67108864) first Ff Fl) as (l & E);
    try lra.
  { rewrite INR_IZR_INZ, Z2Nat.id by lia. lra. }
  exists (S (Z.to_nat 67108864)), (Ok (match l with [] => [{| ts_start := first; ts_end := final; ts_bpm := nominal;
     ts_conf := lit 13421773 (-24); ts_variable := false |}] | l => l end)).
  intros fuel K. rewrite (loop_mono_fuel _ _ _ _ _ _ _ _ E fuel K). destruct l; reflexivity.
Qed.
Print Assumptions C32_terminates_partial.

(** It does not terminate in general: ascending, finite beats from 2^25 s on, where advancing a window by two seconds no
    longer changes the time. *)
Definition late_beats : list f32 := map z2f [33554432; 33554432; 33554432; 33554436]%Z.

Theorem C32_terminates_refuted : exists beats nominal, Forall (fun b => fin b) beats /\
  Sorted (fun a b => fle a b = true) beats /\ forall fuel, detect_tempo_variations fuel beats nominal = None.
Proof.
  exists late_beats, (z2f 120). split; [|split].
  - repeat constructor.
  - repeat constructor; vm_compute; reflexivity.
  - intros fuel. unfold detect_tempo_variations, late_beats. cbn [map nth last length]. cbv zeta.
    change (4 <? 4) with false. cbv iota.
    replace (fle (z2f 120) eps10) with false by (vm_compute; reflexivity).
    replace (flt (fsub (z2f 33554436) (z2f 33554432)) f2) with false by (vm_compute; reflexivity).
    set (dur := fclamp_val _ _ _).
    assert (Ed : dur = z2f 4) by (apply B2SF_inj; vm_compute; reflexivity). rewrite Ed. clear dur Ed.
    replace (fsub (z2f 4) (fmul (z2f 4) fhalf)) with (z2f 2) by (apply B2SF_inj; vm_compute; reflexivity).
    rewrite seg_stuck; auto; vm_compute; reflexivity.
Qed.
Print Assumptions C32_terminates_refuted.

(** The segments need not cover the track: a beat after a long gap lies in no segment. *)
Theorem C32_cover_refuted : exists beats nominal segs b, detect_tempo_variations 100 beats nominal = Some (Ok segs) /\
  Sorted (fun a b => flt a b = true) beats /\ In b beats /\ existsb (fun s => fle (ts_start s) b && fle b (ts_end s)) segs = false.
Proof.
  set (beats := map z2f [0; 1; 2; 3; 60]%Z).
  assert (Q : match detect_tempo_variations 100 beats (z2f 60) with Some (Ok segs) =>
       negb (existsb (fun s => fle (ts_start s) (z2f 60) && fle (z2f 60) (ts_end s)) segs) | _ => false end = true)
    by (vm_compute; reflexivity).
  assert (Hin : In (z2f 60) beats) by (unfold beats; cbn [map]; do 4 apply in_cons; apply in_eq).
  assert (S : Sorted (fun a b => flt a b = true) beats) by (repeat constructor; vm_compute; reflexivity).
  clearbody beats. generalize dependent (z2f 60). intros n Q Hin.
  destruct (detect_tempo_variations 100 beats n) as [[segs|e|]|] eqn:E; try discriminate Q.
  exists beats, n, segs, n. split; [exact E|]. split; [exact S|]. split; [exact Hin|]. now apply negb_true_iff in Q.
Qed.
Print Assumptions C32_cover_refuted.

(** Examples: a steady track; a track speeding up from 60 to 120 BPM in the middle of a window. *)
Definition seg_view (r : option (outcome (list tempo_segment))) :=
  match r with
  | Some (Ok l) => map (fun s => (f2i32 (ts_start s), f2i32 (ts_end s), f2i32 (ts_bpm s), ts_variable s)) l
  | _ => []
  end.
Example C32_example : seg_view (detect_tempo_variations 100 (map z2f [0;1;2;3;4;5;6;7;8]%Z) (z2f 60))
  = [(0, 4, 60, false); (2, 6, 60, false); (4, 8, 60, false); (6, 8, 60, false)]%Z.
Proof. vm_compute. reflexivity. Qed.
Example C32_example_accel : seg_view (detect_tempo_variations 100
  (map (fun z => fdiv (z2f z) f2) [0;2;4;6;7;8;9;10;11;12]%Z) (z2f 60))
  = [(0, 4, 75, true); (2, 6, 104, true); (4, 6, 120, false)]%Z.
Proof. vm_compute. reflexivity. Qed.
