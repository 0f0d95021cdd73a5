(** Model of src/features/beat_tracking/mod.rs: the beat grid.  Logging is dropped. *)
From Coq Require Import ZArith.
From Verif Require Import Rust F32 PeakPicking TimeSignature TempoVariation Bayesian Hmm.

(** analysis/result.rs:145-154 BeatGrid. *)
Record beat_grid := { g_downbeats : list f32; g_beats : list f32; g_bars : list f32 }.

(** mod.rs:392-402: the downbeats after the one at [last]. *)
Fixpoint next_downbeats (bar tolerance last : f32) (beats : list f32) : list f32 :=
  match beats with
  | [] => []
  | b :: r =>
      if fle (fabs (fsub b (fadd last bar))) tolerance then b :: next_downbeats bar tolerance b r
      else next_downbeats bar tolerance last r
  end.

(** mod.rs:363-405 detect_downbeats_with_time_sig. *)
Definition detect_downbeats (beats : list f32) (bpm : f32) (ts : time_signature) : outcome (list f32) :=
  match beats with
  | [] => Ok []
  | first :: r =>
      if fle bpm f0 then Err InvalidInput
      else
        let bar := fmul (fdiv (z2f 60) bpm) (n2f (beats_per_bar ts)) in
        Ok (first :: next_downbeats bar (fmul bar (lit 13421773 (-27))) first r)
  end.

(** mod.rs:293-321 generate_beat_grid_from_positions_with_time_sig. *)
Definition grid_from_positions (positions : list beat) (bpm : f32) (ts : time_signature) : outcome beat_grid :=
  if length positions =? 0 then Err InvalidInput
  else
    let! beats := sort_times (fun t => t) (map b_time positions) in
    let! downbeats := detect_downbeats beats bpm ts in
    Ok {| g_downbeats := downbeats; g_beats := beats; g_bars := downbeats |}.

(** mod.rs:425-485 calculate_grid_stability. *)
Definition grid_stability (positions : list beat) (bpm : f32) : outcome f32 :=
  if length positions <? 2 then Ok f0
  else if fle bpm f0 then Err InvalidInput
  else
    let iv := intervals (map b_time positions) in
    if length iv =? 0 then Ok f0
    else
      let m := mean iv in
      if fle m eps10 then Ok f0
      else Ok (fdiv f1 (fadd f1 (fdiv (fsqrt (variance iv m)) m))).

(** mod.rs:164-208: beats refined segment by segment, threading the Bayesian tracker. *)
Definition prepend (bs : list beat) (r : option (outcome (list beat))) : option (outcome (list beat)) :=
  match r with Some (Ok l) => Some (Ok (bs ++ l)) | _ => r end.

Fixpoint refine_beats (fuel : nat) (exp : f32 -> f32) (onsets : list f32) (positions : list beat) (st : tracker)
    (segs : list tempo_segment) : option (outcome (list beat)) :=
  match segs with
  | [] => Some (Ok [])
  | s :: r =>
      let inside t := fge t (ts_start s) && fle t (ts_end s) in
      if ts_variable s then
        let seg_onsets := filter inside onsets in
        if length seg_onsets =? 0 then refine_beats fuel exp onsets positions st r
        else
          match update fuel exp st seg_onsets with
          | None => None
          | Some (_, Err e) => Some (Err e)
          | Some (_, Panic) => Some Panic
          | Some (st', Ok (bpm, _)) =>
              match track_beats exp bpm seg_onsets with
              | Ok bs => prepend bs (refine_beats fuel exp onsets positions st' r)
              | Err _ => refine_beats fuel exp onsets positions st' r
              | Panic => Some Panic
              end
          end
      else prepend (filter (fun b => inside (b_time b)) positions) (refine_beats fuel exp onsets positions st r)
  end.

(** mod.rs:148-219: steps 2 and 3. *)
Definition refined_positions (fuel : nat) (exp : f32 -> f32) (bpm conf : f32) (onsets : list f32) (positions : list beat)
  : option (outcome (list beat)) :=
  match detect_tempo_variations fuel (map b_time positions) bpm with
  | None => None
  | Some (Err e) => Some (Err e)
  | Some Panic => Some Panic
  | Some (Ok segs) =>
      if has_tempo_variation segs then
        match refine_beats fuel exp onsets positions (new_tracker bpm conf) segs with
        | Some (Ok []) => Some (Ok positions)
        | Some (Ok l) => Some (sort_times b_time l)
        | r => r
        end
      else Some (Ok positions)
  end.

(** mod.rs:221-246: steps 4 and 5. *)
Definition finish_grid (bpm : f32) (positions : list beat) : outcome (beat_grid * f32) :=
  let! ts := detect_time_signature (map b_time positions) bpm in
  let! grid := grid_from_positions positions bpm (fst ts) in
  let! stability := grid_stability positions bpm in
  Ok (grid, stability).

(** mod.rs:108-247 generate_beat_grid; [None]: a loop is still running after [fuel] tests. *)
Definition generate_beat_grid (fuel : nat) (exp : f32 -> f32) (bpm conf : f32) (onsets : list f32)
  : option (outcome (beat_grid * f32)) :=
  if fle bpm f0 || fgt bpm (z2f 300) then Some (Err InvalidInput)
  else if length onsets =? 0 then Some (Err InvalidInput)
  else
    match sort_times (fun t => t) onsets with
    | Err e => Some (Err e)
    | Panic => Some Panic
    | Ok sorted =>
        match track_beats exp bpm sorted with
        | Err e => Some (Err e)
        | Panic => Some Panic
        | Ok [] => Some (Err ProcessingError)
        | Ok positions =>
            match refined_positions fuel exp bpm conf sorted positions with
            | None => None
            | Some (Err e) => Some (Err e)
            | Some Panic => Some Panic
            | Some (Ok refined) => Some (finish_grid bpm refined)
            end
        end
    end.
