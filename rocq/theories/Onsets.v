(** Model of src/features/onset/{spectral_flux,hfc,energy_flux}.rs and of
    detect_hpss_onsets in hpss.rs.  Logging is dropped. *)
From Coq Require Import ZArith.
From Verif Require Import Rust F32 Sorting Libm Threshold.

(** EPSILON = 1e-10 in energy_flux.rs:25 and spectral_flux.rs:25. *)
Definition on_eps : f32 := lit 14411519 (-57).

(** [for i in 1..v.len() { push(f(v[i-1], v[i])) }] *)
Fixpoint adj {A B} (f : A -> A -> B) (l : list A) : list B :=
  match l with
  | a :: (b :: _) as r => f a b :: adj f r
  | _ => []
  end.

(** Half-wave rectified difference: hfc.rs:151-154, hpss.rs:314-317, energy_flux.rs:141-144. *)
Definition rise (prev cur : f32) : f32 := fmax (fsub cur prev) f0.

(** The peak-picking loop for interior points: spectral_flux.rs:183-193, hfc.rs:180-190,
    hpss.rs:341-351, energy_flux.rs:176-191; gives the flux indices i in push order. *)
Definition interior_onset (flux : list f32) (thr : f32) (i : nat) : list nat :=
  match nth_error flux (i - 1), nth_error flux i, nth_error flux (i + 1) with
  | Some p, Some v, Some n => if fgt v thr && fgt v p && fge v n then [i] else []
  | _, _, _ => []
  end.
(** First point: spectral_flux.rs:196-201, hfc.rs:193-195, hpss.rs:354-356, energy_flux.rs:195-205. *)
Definition first_onset (flux : list f32) (thr : f32) : list nat :=
  match nth_error flux 0, nth_error flux 1 with
  | Some v, Some n => if fgt v thr && fge v n then [0] else []
  | _, _ => []
  end.
(** Last point: spectral_flux.rs:204-210, hfc.rs:198-204, hpss.rs:358-364, energy_flux.rs:208-217. *)
Definition last_onset (flux : list f32) (thr : f32) : list nat :=
  let last := length flux - 1 in
  if 1 <? length flux then
    match nth_error flux last, nth_error flux (last - 1) with
    | Some v, Some p => if fgt v thr && fgt v p then [last] else []
    | _, _ => []
    end
  else [].
Definition raw_onsets (flux : list f32) (thr : f32) : list nat :=
  flat_map (interior_onset flux thr) (seq 1 (length flux - 1 - 1))
  ++ first_onset flux thr ++ last_onset flux thr.
(** onsets.sort_unstable(); onsets.dedup(); flux index i is reported as frame i+1. *)
Definition pick_onsets (flux : list f32) (thr : f32) : list nat :=
  dedup Nat.eqb (sort_by Nat.leb (map S (raw_onsets flux thr))).

(** The percentile threshold and picking: spectral_flux.rs:159-220, hfc.rs:156-214,
    hpss.rs:319-372. *)
Definition threshold_and_pick (flux : list f32) (p : f32) : outcome (list nat) :=
  match flux with
  | [] => Ok []
  | _ =>
      let! thr := get (sort_asc flux) (percentile_index (length flux) p) in
      Ok (pick_onsets flux thr)
  end.

Definition in_unit (p : f32) : bool := fle f0 p && fle p f1.
Definition rectangular (n : nat) (spec : list (list f32)) : bool :=
  forallb (fun f => length f =? n) spec.

(** spectral_flux.rs:118-132 per-frame normalization. *)
Definition norm_frame (frame : list f32) : list f32 :=
  let m := fold_left fmax frame f0 in
  if fgt m on_eps then map (fun x => fdiv x m) frame else map (fun _ => f0) frame.
(** spectral_flux.rs:143-155 rectified L2 distance. *)
Definition l2_rise (prev cur : list f32) : f32 :=
  fsqrt (fsum (map (fun pc => let d := fmax (fsub (snd pc) (fst pc)) f0 in fmul d d)
                   (combine prev cur))).
Definition spectral_flux (spec : list (list f32)) : list f32 := adj l2_rise (map norm_frame spec).

(** spectral_flux.rs:69-221 detect_spectral_flux_onsets. *)
Definition detect_spectral_flux_onsets (spec : list (list f32)) (p : f32) : outcome (list nat) :=
  match spec with
  | [] => Ok []
  | fr :: _ =>
      if negb (in_unit p) then Err InvalidInput
      else if length fr =? 0 then Err InvalidInput
      else if negb (rectangular (length fr) spec) then Err InvalidInput
      else if length spec <? 2 then Ok []
      else threshold_and_pick (spectral_flux spec) p
  end.

(** hfc.rs:132-140 sum over k of k * m * m. *)
Fixpoint hfc_from (k : nat) (acc : f32) (frame : list f32) : f32 :=
  match frame with
  | [] => acc
  | m :: r => hfc_from (S k) (fadd acc (fmul (fmul (n2f k) m) m)) r
  end.
Definition hfc (frame : list f32) : f32 := hfc_from 0 f0 frame.

(** hfc.rs:76-215 detect_hfc_onsets. *)
Definition detect_hfc_onsets (spec : list (list f32)) (sample_rate : Z) (p : f32)
  : outcome (list nat) :=
  match spec with
  | [] => Ok []
  | fr :: _ =>
      if (sample_rate =? 0)%Z then Err InvalidInput
      else if negb (in_unit p) then Err InvalidInput
      else if length fr =? 0 then Err InvalidInput
      else if negb (rectangular (length fr) spec) then Err InvalidInput
      else if length spec <? 2 then Ok []
      else threshold_and_pick (adj rise (map hfc spec)) p
  end.

(** hpss.rs:305-308 frame energy. *)
Definition frame_energy (frame : list f32) : f32 := fsum (map (fun x => fmul x x) frame).

(** hpss.rs:275-373 detect_hpss_onsets. *)
Definition detect_hpss_onsets (spec : list (list f32)) (p : f32) : outcome (list nat) :=
  match spec with
  | [] => Ok []
  | _ =>
      if negb (in_unit p) then Err InvalidInput
      else if length spec <? 2 then Ok []
      else threshold_and_pick (adj rise (map frame_energy spec)) p
  end.

(** energy_flux.rs:122-134 frame RMS. *)
Definition frame_rms (samples : list f32) (frame hop i : nat) : f32 :=
  let start := i * hop in
  let stop := Nat.min (start + frame) (length samples) in
  fsqrt (fdiv (fsum (map (fun x => fmul x x) (slice samples start stop))) (n2f (stop - start))).

(** energy_flux.rs:224-237: keep onsets at least hop/2 after the last kept one. *)
Fixpoint space_from (gap last : nat) (l : list nat) : list nat :=
  match l with
  | [] => []
  | x :: r => if last + gap <=? x then x :: space_from gap x r else space_from gap last r
  end.
Definition space_onsets (gap : nat) (l : list nat) : list nat :=
  match l with [] => [] | x :: r => x :: space_from gap x r end.

(** energy_flux.rs:67-243 detect_energy_flux_onsets; the slice bounds
    start <= stop <= len always hold, so [slice] does not need its panicking form. *)
Definition detect_energy_flux_onsets (powf : f32 -> f32 -> f32)
  (samples : list f32) (frame hop : nat) (threshold_db : f32) : outcome (list nat) :=
  match samples with
  | [] => Ok []
  | _ =>
      if frame =? 0 then Err InvalidInput
      else if hop =? 0 then Err InvalidInput
      else if length samples <? frame then Ok []
      else
        let num := (length samples - frame) / hop + 1 in
        if num <? 2 then Ok []
        else
          let flux := adj rise (map (frame_rms samples frame hop) (seq 0 num)) in
          let mx := fold_left fmax flux f0 in
          if fle mx on_eps then Ok []
          else
            let thr := fmul mx (powf (z2f 10) (fdiv threshold_db (z2f 20))) in
            let onsets := filter (fun o => o <? length samples)
                                 (map (fun i => (i + 1) * hop) (raw_onsets flux thr)) in
            Ok (space_onsets (hop / 2) (sort_by Nat.leb onsets))
  end.
