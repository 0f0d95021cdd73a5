(** Model of src/preprocessing/silence.rs. *)
From Coq Require Import ZArith.
From Verif Require Import Rust F32.

(** silence.rs:27-38 SilenceDetector.  min_duration_ms is a u32. *)
Record detector := { sd_threshold_db : f32; sd_min_duration_ms : Z; sd_frame_size : nat }.

(** silence.rs:159-165: RMS of one frame (0 for an empty one). *)
Definition frame_rms (frame : list f32) : f32 :=
  match frame with
  | [] => f0
  | _ => fsqrt (fdiv (fsum (map (fun x => fmul x x) frame)) (n2f (length frame)))
  end.

(** silence.rs:145-149. *)
Definition num_frames (len fs : nat) : nat :=
  if fs <=? len then (len - fs) / (fs / 2) + 1 else 1.

(** silence.rs:154-175: the silence decision of every frame. *)
Definition silent_flags (thr : f32) (samples : list f32) (fs : nat) : outcome (list bool) :=
  let len := length samples in
  let hop := fs / 2 in
  oseq (map (fun i =>
    let start := i * hop in
    let! fr := slice_chk samples start (Nat.min (start + fs) len) in
    Ok (fle (frame_rms fr) thr)) (seq 0 (num_frames len fs))).

(** silence.rs:179-181: minimum duration in frames (division by a zero hop panics). *)
Definition min_frames (d : detector) (sample_rate : Z) (hop : nat) : Z :=
  let ms := f2usize (fmul (fdiv (z2f (sd_min_duration_ms d)) (z2f 1000)) (z2f sample_rate)) in
  ((ms + Z.of_nat hop - 1) / Z.of_nat hop)%Z.

(** silence.rs:204-215 and :224-229: recording a region; the usize subtraction
    end - start panics when negative. *)
Definition push_region (starts : list nat) (regs : list (nat * nat)) (sframe e : nat)
  : outcome (list (nat * nat)) :=
  let! s := get starts sframe in
  if e <? s then Panic else Ok (regs ++ [(s, e)]).

(** silence.rs:184-218: the scan over the frames; [cur] is the start frame of the
    silence being scanned (in_silence / silence_start_frame). *)
Fixpoint scan (mf : Z) (num len : nat) (starts : list nat) (idx : nat) (flags : list bool)
  (regs : list (nat * nat)) (cur : option nat) : outcome (list (nat * nat) * option nat) :=
  match flags with
  | [] => Ok (regs, cur)
  | true :: r =>
      scan mf num len starts (S idx) r regs (match cur with None => Some idx | c => c end)
  | false :: r =>
      match cur with
      | None => scan mf num len starts (S idx) r regs None
      | Some s =>
          if (mf <=? Z.of_nat (idx - s))%Z || (s =? 0) || (idx =? num) then
            let e := match nth_error starts idx with Some x => x | None => len end in
            let! regs' := push_region starts regs s e in
            scan mf num len starts (S idx) r regs' None
          else scan mf num len starts (S idx) r regs None
      end
  end.

(** silence.rs:221-231: trailing silence. *)
Definition trailing (mf : Z) (num len : nat) (starts : list nat) (st : list (nat * nat) * option nat)
  : outcome (list (nat * nat)) :=
  let '(regs, cur) := st in
  match cur with
  | None => Ok regs
  | Some s =>
      if (mf <=? Z.of_nat (num - s))%Z || (s =? 0) then push_region starts regs s len else Ok regs
  end.

(** silence.rs:234-263: trimming.  The [else] of silence.rs:261 returns an empty vector. *)
Definition trim_bounds (len : nat) (regs : list (nat * nat)) : nat * nat :=
  let ts := match regs with
            | (s, e) :: _ => if s =? 0 then e else 0
            | [] => 0
            end in
  let te := match rev regs with
            | (s, e) :: _ => if e =? len then s else len
            | [] => len
            end in
  let ts := Nat.min ts te in
  (ts, Nat.max te ts).
Definition trim (samples : list f32) (regs : list (nat * nat)) : list f32 :=
  let '(ts, te) := trim_bounds (length samples) regs in
  if (ts <? te) && (te <=? length samples) then slice samples ts te else [].

(** silence.rs:102-279 detect_and_trim.  [powf] is the platform's f32::powf (any function). *)
Definition detect_and_trim (powf : f32 -> f32 -> f32) (samples : list f32) (sample_rate : Z)
  (d : detector) : outcome (list f32 * list (nat * nat)) :=
  match samples with
  | [] => Ok ([], [])
  | _ =>
      if (sample_rate =? 0)%Z then Err InvalidInput
      else if sd_frame_size d =? 0 then Err InvalidInput
      else
        let thr := powf (z2f 10) (fdiv (sd_threshold_db d) (z2f 20)) in
        let fs := sd_frame_size d in
        let hop := fs / 2 in
        let len := length samples in
        if hop =? 0 then Panic  (* division by zero at silence.rs:146 or :181 *)
        else
          let num := num_frames len fs in
          let! flags := silent_flags thr samples fs in
          let starts := map (fun i => i * hop) (seq 0 num) in
          let mf := min_frames d sample_rate hop in
          let! st := scan mf num len starts 0 flags [] None in
          let! regs := trailing mf num len starts st in
          Ok (trim samples regs, regs)
  end.
