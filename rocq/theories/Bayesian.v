(** Model of src/features/beat_tracking/bayesian.rs.  Logging is dropped; [exp] is libm's f32 exponential. *)
From Coq Require Import ZArith.
From Verif Require Import Rust F32 PeakPicking BpmLoop.

(** bayesian.rs:54-65 BayesianBeatTracker. *)
Record tracker := { bt_bpm : f32; bt_conf : f32; bt_history : list f32 }.

(** bayesian.rs:78-84 new. *)
Definition new_tracker (bpm conf : f32) : tracker :=
  {| bt_bpm := bpm; bt_conf := fclamp_val conf f0 f1; bt_history := [bpm] |}.

(** bayesian.rs:183-195 generate_bpm_candidates; [None]: the loop is still running after [fuel] tests. *)
Definition bpm_candidates (fuel : nat) (current : f32) : option (list f32) :=
  let min_bpm := fmax (fsub current (z2f 5)) (z2f 60) in
  let max_bpm := fmin (fadd current (z2f 5)) (z2f 180) in
  match bpm_loop (fun _ => Ok tt) max_bpm fhalf fuel min_bpm with
  | Some (Ok l) => Some (map fst l)
  | _ => None
  end.

(** bayesian.rs:224-246: log-probability of one onset. *)
Definition likelihood_sigma : f32 := lit 13421773 (-28).
Definition log_prob (start interval onset : f32) : f32 :=
  let index := f2i32 (fround (fdiv (fsub onset start) interval)) in
  let expected := fadd start (fmul (z2f index) interval) in
  let distance := fabs (fsub onset expected) in
  fdiv (fneg (fmul distance distance)) (fmul f2 (fmul likelihood_sigma likelihood_sigma)).

(** bayesian.rs:203-255 compute_likelihood. *)
Definition likelihood (exp : f32 -> f32) (onsets : list f32) (bpm : f32) : outcome f32 :=
  if fle bpm eps10 then Err InvalidInput
  else
    match onsets with
    | [] => Ok f0
    | start :: _ =>
        if fle (fmul likelihood_sigma likelihood_sigma) eps10 then Err NumericalError
        else
          let interval := fdiv (z2f 60) bpm in
          let total := fold_left (fun acc o => fadd acc (log_prob start interval o)) onsets f0 in
          Ok (exp (fdiv total (n2f (length onsets))))
    end.

(** bayesian.rs:129-139: first candidate with the strictly largest likelihood. *)
Fixpoint best_candidate (exp : f32 -> f32) (onsets : list f32) (best : f32 * f32) (cands : list f32)
  : outcome (f32 * f32) :=
  match cands with
  | [] => Ok best
  | b :: r =>
      let! l := likelihood exp onsets b in
      best_candidate exp onsets (if fgt l (snd best) then (b, l) else best) r
  end.

(** bayesian.rs:155-164. *)
Definition change_penalty (change : f32) : f32 :=
  if flt change f1 then f1 else if flt change (z2f 3) then lit 13421773 (-24) else fhalf.

(** bayesian.rs:104-178 update_with_onsets: new state and returned value.  The prior of lines 141-148 only feeds a
    discarded value. *)
Definition update (fuel : nat) (exp : f32 -> f32) (st : tracker) (onsets : list f32)
  : option (tracker * outcome (f32 * f32)) :=
  if length onsets =? 0 then Some (st, Err InvalidInput)
  else if fle (bt_bpm st) eps10 || fgt (bt_bpm st) (z2f 300) then Some (st, Err InvalidInput)
  else
    match bpm_candidates fuel (bt_bpm st) with
    | None => None
    | Some cands =>
        match best_candidate exp onsets (bt_bpm st, f0) cands with
        | Err e => Some (st, Err e)
        | Panic => Some (st, Panic)
        | Ok best =>
            let penalty := change_penalty (fabs (fsub (fst best) (bt_bpm st))) in
            let conf := fmin (fmul (snd best) penalty) f1 in
            Some ({| bt_bpm := fst best; bt_conf := conf; bt_history := bt_history st ++ [fst best] |},
                  Ok (fst best, conf))
        end
    end.

(** A sequence of updates on one tracker; returned values in order. *)
Fixpoint run (fuel : nat) (exp : f32 -> f32) (st : tracker) (evs : list (list f32))
  : option (tracker * list (outcome (f32 * f32))) :=
  match evs with
  | [] => Some (st, [])
  | o :: r =>
      match update fuel exp st o with
      | None => None
      | Some (st', res) =>
          match run fuel exp st' r with
          | None => None
          | Some (st'', rs) => Some (st'', res :: rs)
          end
      end
  end.
