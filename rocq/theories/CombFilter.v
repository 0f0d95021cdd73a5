(** Model of src/features/period/comb_filter.rs. *)
From Coq Require Import ZArith.
From Verif Require Import Rust F32 Sorting PeakPicking Candidate BpmLoop Autocorrelation.

Definition isize_max : Z := 2 ^ 63 - 1.

(** comb_filter.rs:368-371: Iterator::min_by_key returns the first element with the smallest
    key; the key is the distance truncated to usize. *)
Definition onset_key (expected : f32) (onset : nat) : Z := f2usize (fabs (fsub (n2f onset) expected)).
Definition nearest (expected : f32) (o : nat) (os : list nat) : nat :=
  fold_left (fun best x => if (onset_key expected x <? onset_key expected best)%Z then x else best) os o.

(** comb_filter.rs:366-379: does a beat find an onset within the tolerance. *)
Definition aligned (period tol_samples : f32) (o : nat) (os : list nat) (beat : nat) : bool :=
  let expected := fmul (n2f beat) period in
  fle (fabs (fsub (n2f (nearest expected o os)) expected)) tol_samples.

(** comb_filter.rs:338-391 score_bpm_candidate.  [onsets] is sorted.  The usize addition
    [ceil(..) as usize + 1] panics on overflow (overflow checks on). *)
Definition score_bpm (onsets : list nat) (rate : nat) (bpm tolerance : f32) : outcome f32 :=
  match onsets with
  | [] => Ok f0
  | o :: os =>
      let period := fdiv (sixty_rate rate) bpm in
      if flt period f1 then Err NumericalError
      else
        let tol_samples := fmul period tolerance in
        let last_onset := n2f (last os o) in
        let beats := f2usize (fceil (fdiv last_onset period)) in
        if (usize_max <=? beats)%Z then Panic
        else
          let num := Z.to_nat (beats + 1) in
          let count := length (filter (aligned period tol_samples o os) (seq 0 num)) in
          Ok (if 0 <? num then fdiv (n2f count) (n2f num) else f0)
  end.

(** comb_filter.rs:166-167, constants :41-45. *)
Definition adaptive_tolerance (bpm : f32) : outcome f32 :=
  fclamp (fmul (lit 13421773 (-27)) (fdiv (z2f 120) bpm)) (lit 13421773 (-28)) (lit 5033165 (-25)).

(** comb_filter.rs:160-182, one candidate tempo. *)
Definition comb_body (onsets : list nat) (rate : nat) (bpm : f32) : outcome f32 :=
  let! tol := adaptive_tolerance bpm in score_bpm onsets rate bpm tol.

(** comb_filter.rs:174-176: running maximum with a strict comparison, from 0.0. *)
Definition best_score (l : list (f32 * f32)) : f32 :=
  fold_left (fun m p => if fgt (snd p) m then snd p else m) l f0.

(** comb_filter.rs:184-222: normalise, sort, drop weak candidates. *)
Definition comb_finish (l : list (f32 * f32)) : list candidate :=
  let m := best_score l in
  let norm := map (fun p => mkCand (fst p) (if fgt m eps10 then fdiv (snd p) m else f0)) l in
  filter (fun c => fge (c_conf c) (lit 13421773 (-27))) (sort_desc c_conf norm).

(** comb_filter.rs:96-231 estimate_bpm_from_comb_filter.  Vec::with_capacity of 8-byte
    pairs panics beyond isize::MAX bytes; running out of memory below that is not modelled.
    sort_unstable on usize is any sort.  [None]: the search loop has not ended within
    [fuel] tests. *)
Definition estimate_comb (fuel : nat) (onsets : list nat) (rate : nat) (min_bpm max_bpm res : f32)
  : option (outcome (list candidate)) :=
  if length onsets =? 0 then Some (Err InvalidInput)
  else if rate =? 0 then Some (Err InvalidInput)
  else if fle min_bpm f0 || fle max_bpm f0 || fge min_bpm max_bpm then Some (Err InvalidInput)
  else if fle res f0 then Some (Err InvalidInput)
  else if length onsets <? 2 then Some (Ok [])
  else
    let sorted := sort_by Nat.leb onsets in
    let capacity := (f2usize (fceil (fdiv (fsub max_bpm min_bpm) res)) + 1)%Z in
    if (usize_max <? capacity)%Z || (isize_max <? capacity * 8)%Z then Some Panic
    else
      match bpm_loop (comb_body sorted rate) (fadd max_bpm eps10) res fuel min_bpm with
      | None => None
      | Some r => Some (omap comb_finish r)
      end.

(** comb_filter.rs:267-332 coarse_to_fine_search. *)
Definition coarse_to_fine (fuel : nat) (onsets : list nat) (rate : nat) (min_bpm max_bpm range : f32)
  : option (outcome (list candidate)) :=
  match estimate_comb fuel onsets rate min_bpm max_bpm f2 with
  | None => None
  | Some (Ok []) => Some (Ok [])
  | Some (Ok (best :: coarse)) =>
      let fine_min := fmax (fsub (c_bpm best) range) min_bpm in
      let fine_max := fmin (fadd (c_bpm best) range) max_bpm in
      match estimate_comb fuel onsets rate fine_min fine_max fhalf with
      | Some (Ok fine) =>
          Some (Ok (sort_desc c_conf (match fine with [] => best :: coarse | _ => fine end)))
      | r => r
      end
  | Some (Err e) => Some (Err e)
  | Some Panic => Some Panic
  end.
