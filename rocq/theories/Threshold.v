(** Model of src/features/onset/threshold.rs. *)
From Coq Require Import ZArith.
From Verif Require Import Rust F32 Sorting.

(** The median idiom used at threshold.rs:52-56 and :63-67 (and elsewhere): mean of the
    two middle elements for even length, middle element otherwise.  Panics on []. *)
Definition median_sorted (l : list f32) : outcome f32 :=
  let n := length l in
  if Nat.even n then
    if n =? 0 then Panic  (* 0/2 - 1 underflows *)
    else
      let! a := get l (n / 2 - 1) in
      let! b := get l (n / 2) in
      Ok (fmul (fadd a b) fhalf)
  else get l (n / 2).

(** src/features/onset/threshold.rs:34-72 adaptive_threshold_median_mad. *)
Definition adaptive_threshold_median_mad (values : list f32) (k : f32) : outcome f32 :=
  match values with
  | [] => Err InvalidInput
  | _ =>
      if flt k f0 then Err InvalidInput
      else
        let! median := median_sorted (sort_asc values) in
        let deviations := sort_asc (map (fun v => fabs (fsub v median)) values) in
        let! mad := median_sorted deviations in
        Ok (fadd median (fmul k mad))
  end.

(** src/features/onset/threshold.rs:104-105: index of the percentile element. *)
Definition percentile_index (n : nat) (p : f32) : nat :=
  Z.to_nat (Z.min (f2usize (fmul (n2f n) p)) (Z.of_nat n - 1)).

(** src/features/onset/threshold.rs:88-109 percentile_threshold. *)
Definition percentile_threshold (values : list f32) (percentile : f32) : outcome f32 :=
  match values with
  | [] => Err InvalidInput
  | _ =>
      if negb (fle f0 percentile && fle percentile f1) then Err InvalidInput
      else get (sort_asc values) (percentile_index (length values) percentile)
  end.
