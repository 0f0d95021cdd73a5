(** Model of src/features/period/peak_picking.rs. *)
From Verif Require Import Rust F32 Sorting.

(** src/features/period/peak_picking.rs:6 EPSILON = 1e-10. *)
Definition eps10 : f32 := lit 14411519 (-57).

Notation peak := (nat * f32)%type.

(** src/features/period/peak_picking.rs:60 [signal.iter().copied().fold(0.0, f32::max)]. *)
Definition max_value (s : list f32) : f32 := fold_left fmax s f0.

(** src/features/period/peak_picking.rs:61-67 actual_threshold. *)
Definition actual_threshold (s : list f32) (thr : f32) : f32 :=
  if fgt thr f0 && flt thr f1 && fgt (max_value s) f0
  then fmul (max_value s) thr else thr.

(** src/features/period/peak_picking.rs:76-86: the loop body at interior index i.
    Indices i-1, i, i+1 are in range for 1 <= i < len-1, so the slice indexing
    never panics (the catch-all branch is unreachable there). *)
Definition interior_peak (s : list f32) (t : f32) (i : nat) : list peak :=
  match nth_error s (i - 1), nth_error s i, nth_error s (i + 1) with
  | Some a, Some v, Some b =>
      if fgt v a && fgt v b then if fge v t then [(i, v)] else [] else []
  | _, _, _ => []
  end.

(** src/features/period/peak_picking.rs:91-94 first element. *)
Definition first_peak (s : list f32) (t : f32) : list peak :=
  match nth_error s 0, nth_error s 1 with
  | Some v, Some b => if fgt v b && fge v t then [(0, v)] else []
  | _, _ => []
  end.

(** src/features/period/peak_picking.rs:97-100 last element. *)
Definition last_peak (s : list f32) (t : f32) : list peak :=
  let n := length s in
  match nth_error s (n - 1), nth_error s (n - 1 - 1) with
  | Some v, Some a => if fgt v a && fge v t then [(n - 1, v)] else []
  | _, _ => []
  end.

(** src/features/period/peak_picking.rs:73-101: all peaks, in push order. *)
Definition raw_peaks (s : list f32) (t : f32) : list peak :=
  flat_map (interior_peak s t) (seq 1 (length s - 2)) ++ first_peak s t ++ last_peak s t.

(** src/features/period/peak_picking.rs:111-113: i32 distance test, with the
    usize-to-i32 truncation of the source. *)
Definition too_close (d : Z) (i j : nat) : bool :=
  (Z.abs (as_i32 (Z.of_nat i) - as_i32 (Z.of_nat j)) <? as_i32 d)%Z.

(** src/features/period/peak_picking.rs:108-119: greedy suppression. *)
Fixpoint suppress (d : Z) (kept : list peak) (l : list peak) : list peak :=
  match l with
  | [] => kept
  | (i, v) :: r =>
      if existsb (fun p => too_close d i (fst p)) kept then suppress d kept r
      else suppress d (kept ++ [(i, v)]) r
  end.

(** src/features/period/peak_picking.rs:39-127 find_peaks (logging dropped). *)
Definition find_peaks (s : list f32) (thr : f32) (min_distance : Z) : list peak :=
  if length s <? 3 then []
  else
    let t := actual_threshold s thr in
    if flt (max_value s) eps10 then []
    else
      let p := raw_peaks s t in
      let p := if (0 <? min_distance)%Z && (1 <? length p)
               then suppress min_distance [] (sort_desc snd p) else p in
      sort_desc snd p.
