(** Specification vocabulary for silence detection. *)
From Verif Require Import Rust F32 Silence.

(** A maximal run of [true]: positions a..b-1 are true, and it cannot be extended. *)
Definition is_run (l : list bool) (a b : nat) : Prop :=
  a < b /\ b <= length l /\
  (forall i, a <= i < b -> nth_error l i = Some true) /\
  (a = 0 \/ nth_error l (a - 1) = Some false) /\
  (b = length l \/ nth_error l b = Some false).
