(** src/features/period/mod.rs:72-80 BpmCandidate. *)
From Verif Require Import Rust F32.

Record candidate := mkCand { c_bpm : f32; c_conf : f32 }.

(** Iterator::copied().fold(0.0f32, f32::max). *)
Definition fmax0 (l : list f32) : f32 := fold_left fmax l f0.
