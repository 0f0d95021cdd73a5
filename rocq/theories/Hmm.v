(** Model of src/features/beat_tracking/hmm.rs.  Logging is dropped, [exp] is libm's f32 exponential, and memory is
    assumed sufficient for the tables ([num_frames] rows). *)
From Coq Require Import ZArith.
From Verif Require Import Rust F32 PeakPicking Sorting.

(** hmm.rs:52-58. *)
Definition num_states : nat := 5.
Definition timing_tolerance : f32 := lit 13421773 (-28).
Definition emission_sigma : f32 := fdiv timing_tolerance f2.

(** features/beat_tracking/mod.rs:55-64 BeatPosition; the beat_index, always 0 here, is dropped. *)
Record beat := { b_time : f32; b_conf : f32 }.

(** hmm.rs:165-174 build_state_space. *)
Definition build_state_space (bpm : f32) : list f32 :=
  map (fmul bpm) [lit 7549747 (-23); lit 15938355 (-24); f1; lit 4404019 (-22); lit 9227469 (-23)].

(** hmm.rs:188-204: one row before normalisation. *)
Definition raw_row (i : nat) : list f32 :=
  map (fun j => let distance := Z.to_nat (Z.abs (Z.of_nat i - Z.of_nat j)) in
                if distance =? 0 then lit 11744051 (-24)
                else if distance =? 1 then lit 5033165 (-25) else f0) (seq 0 num_states).

(** hmm.rs:184-219 build_transition_matrix. *)
Definition build_transition_matrix : list (list f32) :=
  map (fun i => let row := raw_row i in
                let sum := fsum row in
                if fgt sum eps10 then map (fun x => fdiv x sum) row else row) (seq 0 num_states).

(** hmm.rs:273-279 and 410-416: distance to the nearest onset. *)
Definition nearest (onsets : list f32) (t : f32) : f32 :=
  fold_left (fun m o => let d := fabs (fsub o t) in if flt d m then d else m) onsets finf.

(** hmm.rs:283-292: the emission of a frame at time [t]. *)
Definition emission (exp : f32 -> f32) (onsets : list f32) (t : f32) : outcome f32 :=
  let d := nearest onsets t in
  let distance_sq := fmul d d in
  let sigma_sq := fmul emission_sigma emission_sigma in
  if fle sigma_sq eps10 then Err NumericalError
  else Ok (exp (fdiv (fneg distance_sq) (fmul f2 sigma_sq))).

(** hmm.rs:247-254: number of frames; [+ 1] overflows for a saturated quotient. *)
Definition beat_interval (bpm : f32) : f32 := fdiv (z2f 60) bpm.
Definition num_frames (bpm : f32) (onsets : list f32) : outcome Z :=
  let n := f2usize (fceil (fdiv (fsub (last onsets f0) (nth 0 onsets f0)) (beat_interval bpm))) in
  if (n + 1 >? usize_max)%Z then Panic
  else if (n + 1 =? 0)%Z then Err ProcessingError else Ok (n + 1)%Z.

(** hmm.rs:261, 407: time of frame [t]. *)
Definition frame_time (start interval : f32) (t : nat) : f32 := fadd start (fmul (n2f t) interval).

(** hmm.rs:231-298 compute_emission_probabilities, called with at least one onset.  The state's own tempo (lines 265-266)
    only feeds an unused value. *)
Definition compute_emissions (exp : f32 -> f32) (bpm : f32) (onsets : list f32) (states : list f32)
  : outcome (list (list f32)) :=
  match onsets with
  | [] => Err InvalidInput
  | start :: _ =>
      let! n := num_frames bpm onsets in
      oseq (map (fun t => oseq (map (fun _ => emission exp onsets (frame_time start (beat_interval bpm) t)) states))
                (seq 0 (Z.to_nat n)))
  end.

(** hmm.rs:336-345: best predecessor of state [s] and its probability. *)
Definition best_prev (tr : list (list f32)) (prev : list f32) (s : nat) : f32 * nat :=
  fold_left (fun best p => let prob := fmul (nth p prev f0) (nth s (nth p tr []) f0) in
                           if fgt prob (fst best) then (prob, p) else best) (seq 0 num_states) (f0, 0).

(** hmm.rs:333-351: forward pass over the frames after the first; last row of probabilities and the backpointer rows.
    Indices are in range because all rows have [num_states] entries (the only caller builds them so). *)
Fixpoint forward (tr : list (list f32)) (v : list f32) (ems : list (list f32)) : list f32 * list (list nat) :=
  match ems with
  | [] => (v, [])
  | e :: r =>
      let best := map (best_prev tr v) (seq 0 num_states) in
      let v' := map (fun s => fmul (fst (nth s best (f0, 0))) (nth s e f0)) (seq 0 num_states) in
      let '(last_v, bps) := forward tr v' r in
      (last_v, map snd best :: bps)
  end.

(** hmm.rs:356-365: the final state. *)
Definition final_state (v : list f32) : nat :=
  snd (fold_left (fun best s => if fgt (nth s v f0) (fst best) then (nth s v f0, s) else best)
                 (seq 0 num_states) (f0, 0)).

(** hmm.rs:367-372: backtracking. *)
Definition backtrack (bps : list (list nat)) (final : nat) : list nat :=
  fold_left (fun path bp => nth (hd 0 path) bp 0 :: path) (rev bps) [final].

(** hmm.rs:308-375 viterbi_forward_pass. *)
Definition viterbi (tr em : list (list f32)) : outcome (list nat) :=
  match em with
  | [] => Err ProcessingError
  | e0 :: ems =>
      let v0 := map (fun s => fmul (fdiv f1 (n2f num_states)) (nth s e0 f0)) (seq 0 num_states) in
      let '(v, bps) := forward tr v0 ems in
      Ok (backtrack bps (final_state v))
  end.

(** hmm.rs:418-427: alignment score and confidence of a kept frame. *)
Definition beat_conf (onsets : list f32) (em t : f32) : f32 :=
  let d := nearest onsets t in
  let alignment := if flt d timing_tolerance then fsub f1 (fdiv d timing_tolerance) else f0 in
  fmin (fadd (fmul em (lit 11744051 (-24))) (fmul alignment (lit 5033165 (-24)))) f1.

(** [sort_by(partial_cmp().unwrap())] on times: comparing a NaN panics, and every element of a list of two or more is
    compared. *)
Definition sort_times {A} (key : A -> f32) (l : list A) : outcome (list A) :=
  if (2 <=? length l) && existsb (fun x => fisnan (key x)) l then Panic
  else Ok (sort_by (fun a b => fle (key a) (key b)) l).

(** hmm.rs:383-441 extract_beats_from_path, for a path as long as the emission table (as built above). *)
Definition extract_beats (bpm : f32) (onsets : list f32) (path : list nat) (em : list (list f32))
  : outcome (list beat) :=
  if (length path =? 0) || (length em =? 0) then Err ProcessingError
  else
    let start := nth 0 onsets f0 in
    sort_times b_time
      (flat_map (fun t => let e := nth (nth t path 0) (nth t em []) f0 in
                          let time := frame_time start (beat_interval bpm) t in
                          if fgt e (lit 13421773 (-27)) then [{| b_time := time; b_conf := beat_conf onsets e time |}]
                          else []) (seq 0 (length path))).

(** hmm.rs:121-160 track_beats. *)
Definition track_beats (exp : f32 -> f32) (bpm : f32) (onsets : list f32) : outcome (list beat) :=
  if fle bpm eps10 || fgt bpm (z2f 300) then Err InvalidInput
  else if length onsets =? 0 then Err InvalidInput
  else
    let states := build_state_space bpm in
    let! em := compute_emissions exp bpm onsets states in
    let! path := viterbi build_transition_matrix em in
    extract_beats bpm onsets path em.
