(** The tempo search loop shared by comb_filter.rs:160-182 and tempogram_autocorr.rs:125-164:
    [let mut bpm = min; while bpm <= stop { body; bpm += resolution }].

    [fuel] bounds the number of loop tests; [None] means the loop is still running.  The
    loop ends early when the body fails. *)
From Coq Require Import ZArith.
From Verif Require Import Rust F32.

Fixpoint bpm_loop {A} (body : f32 -> outcome A) (stop res : f32) (fuel : nat) (bpm : f32)
  : option (outcome (list (f32 * A))) :=
  match fuel with
  | O => None
  | S fuel' =>
      if fle bpm stop then
        match body bpm with
        | Ok a =>
            match bpm_loop body stop res fuel' (fadd bpm res) with
            | Some (Ok l) => Some (Ok ((bpm, a) :: l))
            | r => r
            end
        | Err e => Some (Err e)
        | Panic => Some Panic
        end
      else Some (Ok [])
  end.
