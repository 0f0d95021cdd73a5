(** Model of src/features/onset/hpss.rs: hpss_decompose (detect_hpss_onsets is in Onsets.v). *)
From Coq Require Import ZArith.
From Verif Require Import Rust F32 Sorting Threshold Onsets.

Notation spectrogram := (list (list f32)).

(** spec[f][b]; all uses below are in range for rectangular spectrograms, the default is
    never read. *)
Definition cell (s : spectrogram) (f b : nat) : f32 := nth b (nth f s []) f0.
(** A matrix filled by two nested index loops. *)
Definition tabulate (nf nb : nat) (g : nat -> nat -> f32) : spectrogram :=
  map (fun i => map (g i) (seq 0 nb)) (seq 0 nf).

(** hpss.rs:194-202, :228-236: median of a window, 0.0 for an empty one.  [median_sorted]
    only fails on the empty list. *)
Definition window_median (w : list f32) : f32 :=
  match median_sorted (sort_asc w) with Ok m => m | _ => f0 end.

(** Indices start..end of a window of half-width margin around i, hpss.rs:189-190, :223-224.
    Unbounded arithmetic: the addition i + margin + 1 is assumed not to overflow usize. *)
Definition window (margin i n : nat) : list nat :=
  let start := i - margin in
  let stop := Nat.min (i + margin + 1) n in
  seq start (stop - start).

(** hpss.rs:179-209 apply_horizontal_median_filter. *)
Definition horizontal (nf nb margin : nat) (s : spectrogram) : spectrogram :=
  tabulate nf nb (fun f b => window_median (map (fun f' => cell s f' b) (window margin f nf))).
(** hpss.rs:213-243 apply_vertical_median_filter. *)
Definition vertical (nf nb margin : nat) (s : spectrogram) : spectrogram :=
  tabulate nf nb (fun f b => window_median (map (fun b' => cell s f b') (window margin b nb))).

(** hpss.rs:131-149 soft mask for one cell: the share of [mine] in mine + other. *)
Definition soft_mask (original mine total : f32) : f32 :=
  if fgt total (lit 14411519 (-57)) then fmul original (fdiv mine total)
  else fmul original fhalf.

(** hpss.rs:153-163 largest change. *)
Definition max_change (nf nb : nat) (h h0 p p0 : spectrogram) : f32 :=
  fold_left (fun m fb => fmax (fmax m (fabs (fsub (cell h (fst fb) (snd fb)) (cell h0 (fst fb) (snd fb)))))
                              (fabs (fsub (cell p (fst fb) (snd fb)) (cell p0 (fst fb) (snd fb)))))
    (flat_map (fun f => map (fun b => (f, b)) (seq 0 nb)) (seq 0 nf)) f0.

(** hpss.rs:112-170: [n] further iterations, [it] already done. *)
Fixpoint hpss_loop (spec : spectrogram) (nf nb margin n it : nat) (h p : spectrogram)
  : spectrogram * spectrogram :=
  match n with
  | O => (h, p)
  | S n' =>
      let hf := horizontal nf nb margin h in
      let pf := vertical nf nb margin p in
      let total f b := fadd (cell hf f b) (cell pf f b) in
      let h' := tabulate nf nb (fun f b => soft_mask (cell spec f b) (cell hf f b) (total f b)) in
      let p' := tabulate nf nb (fun f b => soft_mask (cell spec f b) (cell pf f b) (total f b)) in
      if (0 <? it) && flt (max_change nf nb h' h p' p) (lit 8796093 (-43)) then (h', p')
      else hpss_loop spec nf nb margin n' (S it) h' p'
  end.

(** hpss.rs:71-175 hpss_decompose; DEFAULT_ITERATIONS = 10 (hpss.rs:25). *)
Definition hpss_decompose (spec : spectrogram) (margin : nat) : outcome (spectrogram * spectrogram) :=
  match spec with
  | [] => Err InvalidInput
  | fr :: _ =>
      let nb := length fr in
      if nb =? 0 then Err InvalidInput
      else if negb (rectangular nb spec) then Err InvalidInput
      else Ok (hpss_loop spec (length spec) nb margin 10 0 spec spec)
  end.
