(** Model of src/features/beat_tracking/tempo_variation.rs. *)
From Coq Require Import ZArith.
From Verif Require Import Rust F32 PeakPicking TimeSignature.

(** tempo_variation.rs:57-72 TempoSegment. *)
Record tempo_segment := {
  ts_start : f32; ts_end : f32; ts_bpm : f32; ts_conf : f32; ts_variable : bool }.

(** tempo_variation.rs:140-207: the segment pushed for the window [start, stop], if any. *)
Definition segment_of (beats : list f32) (nominal start stop : f32) : list tempo_segment :=
  let inside := filter (fun b => fge b start && fle b stop) beats in
  if 3 <=? length inside then
    let iv := intervals inside in
    if length iv =? 0 then []
    else
      let m := mean iv in
      let sd := fsqrt (variance iv m) in
      let cv := if fgt m eps10 then fdiv sd m else f0 in
      [{| ts_start := start; ts_end := stop;
          ts_bpm := if fgt m eps10 then fdiv (z2f 60) m else nominal;
          ts_conf := fmax (fsub f1 (fmin (fdiv cv (lit 5033165 (-24))) f1)) f0;
          ts_variable := fgt cv (lit 5033165 (-25)) |}]
  else [].

(** tempo_variation.rs:137-211: the window loop; [None] = still running after [fuel] tests.  [final] is the last beat. *)
Fixpoint segments_loop (fuel : nat) (beats : list f32) (nominal final dur step cur : f32)
  : option (list tempo_segment) :=
  match fuel with
  | O => None
  | S fuel' =>
      if flt cur final then
        match segments_loop fuel' beats nominal final dur step (fadd cur step) with
        | Some r => Some (segment_of beats nominal cur (fmin (fadd cur dur) final) ++ r)
        | None => None
        end
      else Some []
  end.

(** tempo_variation.rs:95-220 detect_tempo_variations. *)
Definition detect_tempo_variations (fuel : nat) (beats : list f32) (nominal : f32)
  : option (outcome (list tempo_segment)) :=
  let first := nth 0 beats f0 in
  let final := last beats f0 in
  let whole conf := {| ts_start := first; ts_end := final; ts_bpm := nominal; ts_conf := conf; ts_variable := false |} in
  if length beats <? 4 then Some (Ok [whole fhalf])
  else if fle nominal eps10 then Some (Err InvalidInput)
  else
    let total := fsub final first in
    if flt total f2 then Some (Ok [whole (lit 13421773 (-24))])
    else
      let dur := fclamp_val (fdiv total (z2f 4)) (z2f 4) (z2f 8) in
      let overlap := fmul dur fhalf in
      match segments_loop fuel beats nominal final dur (fsub dur overlap) first with
      | None => None
      | Some [] => Some (Ok [whole (lit 13421773 (-24))])
      | Some l => Some (Ok l)
      end.

(** tempo_variation.rs:225-227 has_tempo_variation. *)
Definition has_tempo_variation (l : list tempo_segment) : bool := existsb ts_variable l.
