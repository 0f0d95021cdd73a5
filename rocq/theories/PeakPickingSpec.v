(** Specification vocabulary for peak picking (independent of the algorithm). *)
From Verif Require Import Rust F32.

(** v is the sample at i and is strictly larger than each existing neighbour. *)
Definition local_max (s : list f32) (i : nat) (v : f32) : Prop :=
  nth_error s i = Some v /\
  (forall u, i <> 0 -> nth_error s (i - 1) = Some u -> flt u v = true) /\
  (forall u, nth_error s (i + 1) = Some u -> flt u v = true).

(** The largest of 0 and all (non-NaN) samples. *)
Definition is_max0 (s : list f32) (m : f32) : Prop :=
  (m = f0 \/ In m s) /\ fle f0 m = true /\
  (forall x, In x s -> fisnan x = false -> fle x m = true).

(** Effective threshold: relative to the maximum when in (0,1), absolute otherwise. *)
Definition effective_threshold (m thr t : f32) : Prop :=
  (flt f0 thr = true /\ flt thr f1 = true /\ flt f0 m = true -> t = fmul m thr) /\
  (~ (flt f0 thr = true /\ flt thr f1 = true /\ flt f0 m = true) -> t = thr).

(** A qualifying peak: a strict local maximum that reaches the threshold. *)
Definition qualifies (s : list f32) (thr : f32) (i : nat) (v : f32) : Prop :=
  local_max s i v /\
  exists m t, is_max0 s m /\ effective_threshold m thr t /\ fle t v = true.
