(** Model of src/features/onset/consensus.rs. *)
From Coq Require Import ZArith.
From Verif Require Import Rust F32 Sorting.
Local Open Scope Z_scope.

(** consensus.rs:39-48 OnsetConsensus: positions are usize values. *)
Record onset_consensus := {
  oc_energy_flux : list Z; oc_spectral_flux : list Z; oc_hfc : list Z; oc_hpss : list Z }.

(** consensus.rs:154-158 OnsetWithMethod. *)
Record onset := { os_sample : Z; os_method : nat; os_weight : f32 }.

(** src/features/onset/mod.rs OnsetCandidate. *)
Record candidate := {
  cd_time_samples : Z; cd_time_seconds : f32; cd_confidence : f32; cd_voted_by : nat }.

(** consensus.rs:149 tolerance in samples. *)
Definition tolerance_samples (tolerance_ms sample_rate : Z) : Z :=
  f2usize (fmul (fdiv (z2f tolerance_ms) (z2f 1000)) (z2f sample_rate)).

(** consensus.rs:160-197: all onsets, method by method. *)
Definition mk_onsets (m : nat) (w : f32) (l : list Z) : list onset :=
  map (fun s => {| os_sample := s; os_method := m; os_weight := w |}) l.
Definition collect_onsets (c : onset_consensus) (w : f32 * f32 * f32 * f32) : list onset :=
  let '(w0, w1, w2, w3) := w in
  mk_onsets 0 w0 (oc_energy_flux c) ++ mk_onsets 1 w1 (oc_spectral_flux c) ++
  mk_onsets 2 w2 (oc_hfc c) ++ mk_onsets 3 w3 (oc_hpss c).

(** consensus.rs:217: both positions are cast to i32 (low 32 bits), subtracted, and
    [unsigned_abs] taken.  The i32 subtraction wraps in release builds (in debug builds
    it panics on overflow); the model is the release behaviour. *)
Definition near (tol : Z) (a b : onset) : bool :=
  Z.abs (as_i32 (as_i32 (os_sample a) - as_i32 (os_sample b))) <=? tol.

(** consensus.rs:210-234: one step of the greedy clustering. *)
Fixpoint add_onset (tol : Z) (o : onset) (clusters : list (list onset)) : list (list onset) :=
  match clusters with
  | [] => [[o]]
  | c :: r => if existsb (near tol o) c then (c ++ [o]) :: r else c :: add_onset tol o r
  end.
Definition cluster_onsets (tol : Z) (l : list onset) : list (list onset) :=
  fold_left (fun cs o => add_onset tol o cs) l [].

(** consensus.rs:244-249: marking the methods of a cluster. *)
Fixpoint set_nth (l : list bool) (i : nat) : list bool :=
  match l, i with
  | [], _ => []
  | _ :: r, O => true :: r
  | b :: r, S j => b :: set_nth r j
  end.
Definition voted_methods (c : list onset) : list bool :=
  fold_left (fun v o => set_nth v (os_method o)) c [false; false; false; false].

(** consensus.rs:238-272: the candidate of one cluster.  The usize sum of the positions
    panics on overflow (debug) or wraps (release); the model uses panic. *)
Definition cluster_candidate (w : f32 * f32 * f32 * f32) (sample_rate : Z) (c : list onset)
  : outcome candidate :=
  let '(w0, w1, w2, w3) := w in
  let total := fold_left Z.add (map os_sample c) 0 in
  if usize_max <? total then Panic
  else
    let center := total / Z.of_nat (length c) in
    let total_weight := fold_left (fun a o => fadd a (os_weight o)) c f0 in
    let max_weight := fsum [w0; w1; w2; w3] in
    let confidence := if fgt max_weight f0 then fclamp_val (fdiv total_weight max_weight) f0 f1 else f0 in
    Ok {| cd_time_samples := center;
          cd_time_seconds := fdiv (z2f center) (z2f sample_rate);
          cd_confidence := confidence;
          cd_voted_by := length (filter (fun b => b) (voted_methods c)) |}.

(** consensus.rs:111-287 vote_onsets. *)
Definition vote_onsets (c : onset_consensus) (w : f32 * f32 * f32 * f32)
  (tolerance_ms sample_rate : Z) : outcome (list candidate) :=
  let '(w0, w1, w2, w3) := w in
  if sample_rate =? 0 then Err InvalidInput
  else if tolerance_ms =? 0 then Err InvalidInput
  else if flt w0 f0 || flt w1 f0 || flt w2 f0 || flt w3 f0 then Err InvalidInput
  else
    let all := collect_onsets c w in
    match all with
    | [] => Ok []
    | _ =>
        let sorted := sort_by (fun a b => os_sample a <=? os_sample b) all in
        let clusters := cluster_onsets (tolerance_samples tolerance_ms sample_rate) sorted in
        let! cands := oseq (map (cluster_candidate w sample_rate) clusters) in
        Ok (sort_desc cd_confidence cands)
    end.
