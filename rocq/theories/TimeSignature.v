(** Model of src/features/beat_tracking/time_signature.rs. *)
From Coq Require Import ZArith.
From Verif Require Import Rust F32 PeakPicking Onsets.

(** time_signature.rs:38-47 TimeSignature. *)
Inductive time_signature := FourFour | ThreeFour | SixEight.

(** time_signature.rs:51-57 beats_per_bar. *)
Definition beats_per_bar (t : time_signature) : nat :=
  match t with FourFour => 4 | ThreeFour => 3 | SixEight => 6 end.

(** Positive differences of consecutive beats: time_signature.rs:108-114, tempo_variation.rs:150-156. *)
Definition intervals (beats : list f32) : list f32 :=
  filter (fun d => fgt d f0) (adj (fun a b => fsub b a) beats).

(** iter().sum::<f32>() / len as f32: time_signature.rs:121, tempo_variation.rs:160. *)
Definition mean (l : list f32) : f32 := fdiv (fsum l) (n2f (length l)).
(** time_signature.rs:181-188, tempo_variation.rs:161-168. *)
Definition variance (l : list f32) (m : f32) : f32 :=
  fdiv (fsum (map (fun x => let d := fsub x m in fmul d d) l)) (n2f (length l)).

(** time_signature.rs:168-171: similarity of two intervals. *)
Definition similarity (m a b : f32) : f32 := fdiv f1 (fadd f1 (fdiv (fabs (fsub a b)) m)).

(** time_signature.rs:156-203 score_time_signature.  The i32 loop counter is not bounded here (it
    would overflow beyond 2^31 intervals). *)
Definition score_signature (iv : list f32) (lag : nat) (m : f32) : f32 :=
  if length iv <? lag then f0
  else
    let sims := map (fun ab => similarity m (fst ab) (snd ab)) (combine iv (skipn lag iv)) in
    if length sims =? 0 then f0
    else
      let autocorr := fdiv (fsum sims) (n2f (length sims)) in
      let cv := if fgt m eps10 then fdiv (fsqrt (variance iv m)) m else f1 in
      let consistency := fdiv f1 (fadd f1 cv) in
      fmin (fadd (fmul autocorr (lit 11744051 (-24))) (fmul consistency (lit 5033165 (-24)))) f1.

(** time_signature.rs:137-141: max_by with partial_cmp().unwrap(): the last maximum wins, NaN panics. *)
Definition best_signature (s44 s34 s68 : f32) : outcome (time_signature * f32) :=
  if fisnan s44 || fisnan s34 || fisnan s68 then Panic
  else
    let b := if fgt s44 s34 then (FourFour, s44) else (ThreeFour, s34) in
    Ok (if fgt (snd b) s68 then b else (SixEight, s68)).

(** time_signature.rs:90-147 detect_time_signature. *)
Definition detect_time_signature (beats : list f32) (bpm : f32) : outcome (time_signature * f32) :=
  if length beats <? 8 then Ok (FourFour, fhalf)
  else if fle bpm eps10 then Err InvalidInput
  else
    let iv := intervals beats in
    if length iv =? 0 then Ok (FourFour, fhalf)
    else
      let m := mean iv in
      let! b := best_signature (score_signature iv 4 m) (score_signature iv 3 m)
                  (score_signature iv 6 m) in
      Ok (fst b, fclamp_val (snd b) f0 f1).
