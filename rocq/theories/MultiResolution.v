(** Model of src/features/period/multi_resolution.rs.  Debug output (eprintln! blocks behind debug_track_id) is dropped. *)
From Coq Require Import ZArith.
From Verif Require Import Rust F32 Libm Sorting Autocorrelation TempoSpectra Novelty CandidateFilter Chroma Tempogram.

(** multi_resolution.rs:157-163: max_by keeps the last of the maximal elements; NaN compares equal. *)
Definition best_confidence (first : estimate) (l : list estimate) : estimate :=
  fold_left (fun acc x => if fgt (e_conf acc) (e_conf x) then acc else x) l first.

(** multi_resolution.rs:124-195: the consensus of the hop sizes that succeeded. *)
Definition consensus (l : list estimate) : outcome estimate :=
  match l with
  | [] => Err ProcessingError
  | [e] => Ok e
  | first :: r =>
      let n := n2f (length l) in
      if forallb (fun e => flt (fabs (fsub (e_bpm e) (e_bpm first))) f2) l then
        let avg_conf := fdiv (fsum (map e_conf l)) n in
        Ok (mkEst (fdiv (fsum (map e_bpm l)) n) (fmin (fmul avg_conf (lit 5033165 (-22))) f1) (length l))
      else
        let best := best_confidence first r in
        Ok (mkEst (e_bpm best) (fmul (e_conf best) (lit 7549747 (-23))) 1)
  end.

(** multi_resolution.rs:100-122: hop sizes whose analysis is an error are skipped. *)
Fixpoint successes (f : nat -> run (estimate * list cand)) (hops : list nat) : run (list estimate) :=
  match hops with
  | [] => Some (Ok [])
  | h :: r =>
      match f h with
      | None => None
      | Some Panic => Some Panic
      | Some (Err _) => successes f r
      | Some (Ok (e, _)) => let* l := successes f r in Some (Ok (e :: l))
      end
  end.
(** multi_resolution.rs:76-195 multi_resolution_analysis. *)
Definition multi_resolution_analysis (F : fft_oracle) (L : libm) (fuel : nat) (spec : list (list f32)) (rate : nat)
    (min_bpm max_bpm res : f32) : run estimate :=
  let* l := successes (fun hop => tempogram_impl F L fuel spec rate hop min_bpm max_bpm res None) [256; 512; 1024] in
  Some (consensus l).

(** multi_resolution.rs:290-301 lookup_nearest on candidate lists. *)
Definition support_at (l : list cand) (bpm tol : f32) : f32 :=
  lookup_nearest (map (fun c => (t_bpm c, t_score c)) l) bpm tol.

(** multi_resolution.rs:303-307 Hyp. *)
Record hyp := mkHyp { h_bpm : f32; h_score : f32 }.

(** multi_resolution.rs:203-219: the numeric parameters of the fusion. *)
Record fusion := {
  fu_w512 : f32; fu_w256 : f32; fu_w1024 : f32; fu_double : f32; fu_margin : f32; fu_prior : bool }.

(** multi_resolution.rs:484-492: tempo prior. *)
Definition hyp_prior (b s : f32) : f32 :=
  if fgt b (z2f 210) then fmul s (lit 13421773 (-24))
  else if fgt b (z2f 180) then fmul s (lit 7549747 (-23))
  else if flt b (z2f 60) then fmul s (lit 15435039 (-24)) else s.

(** multi_resolution.rs:455-477: discounts and guardrails on the score of 2T or T/2. *)
Definition discounted (h s_t_1024 s_alt_1024 ratio : f32) : f32 :=
  let h := if fgt s_t_1024 (fmul s_alt_1024 (lit 2139095 (-21))) then fmul h (lit 7549747 (-23)) else h in
  let h := if flt ratio (lit 9227469 (-23)) then fmul h f075 else h in
  if flt ratio f1 then fmul h f075 else h.

(** multi_resolution.rs:405-525: the hypothesis of one hop-512 candidate. *)
Definition hypothesis (c256 c512 c1024 : list cand) (min_bpm max_bpm tol : f32) (p : fusion) (t : f32) : option hyp :=
  if negb (fisfin t && fgt t f0) then None
  else
    let two_t := fmul t f2 in
    let half_t := fmul t fhalf in
    let mix alt := fmul (fu_w512 p) (fadd (fmul (fu_double p) (support_at c512 t tol))
                                          (fmul (fsub f1 (fu_double p)) (support_at c512 alt tol))) in
    let aux b := (fmul (fu_w256 p) (support_at c256 b tol), fmul (fu_w1024 p) (support_at c1024 b tol)) in
    let h_t := fadd (fadd (fmul (fu_w512 p) (support_at c512 t tol)) (fst (aux t))) (snd (aux t)) in
    let h_2t := fadd (fadd (mix two_t) (fst (aux two_t))) (snd (aux two_t)) in
    let h_half := fadd (fadd (mix half_t) (fst (aux half_t))) (snd (aux half_t)) in
    let eps := lit 8796093 (-43) in
    let ratio_2t := fdiv (fadd (support_at c256 two_t tol) eps) (fadd (support_at c256 t tol) eps) in
    let ratio_half := fdiv (fadd (support_at c1024 half_t tol) eps) (fadd (support_at c1024 t tol) eps) in
    let h_2t := discounted h_2t (support_at c1024 t tol) (support_at c1024 two_t tol) ratio_2t in
    let h_half := discounted h_half (support_at c1024 t tol) (support_at c1024 half_t tol) ratio_half in
    let locals := filter (fun h => fge (h_bpm h) min_bpm && fle (h_bpm h) max_bpm)
                    [mkHyp t h_t; mkHyp two_t h_2t; mkHyp half_t h_half] in
    match sort_desc h_score (map (fun h => mkHyp (h_bpm h) (hyp_prior (h_bpm h) (h_score h))) locals) with
    | [] => None
    | best :: r =>
        let second := match r with [] => f0 | s :: _ => h_score s end in
        let margin := fsub (h_score best) second in
        let unclear := flt margin (fu_margin p) in
        let chosen := if fgt (fabs (fsub (h_bpm best) t)) (lit 8589935 (-33)) && unclear then mkHyp t h_t else best in
        let bonus := unclear && fu_prior p && (fle (z2f 70) (h_bpm chosen) && fle (h_bpm chosen) (z2f 180)) &&
                     flt margin (lit 13421773 (-28)) in
        Some (if bonus then mkHyp (h_bpm chosen) (fadd (h_score chosen) (lit 13421773 (-28))) else chosen)
    end.

(** multi_resolution.rs:537-550: keep a hypothesis unless one within 0.75 BPM is kept already; stop at eight. *)
Fixpoint unique_from (acc l : list hyp) : list hyp :=
  match l with
  | [] => acc
  | h :: r =>
      if existsb (fun u => flt (fabs (fsub (h_bpm u) (h_bpm h))) f075) acc then unique_from acc r
      else if 8 <=? length (acc ++ [h]) then acc ++ [h] else unique_from (acc ++ [h]) r
  end.

(** multi_resolution.rs:559-583 total_support. *)
Definition total_support (c256 c512 c1024 : list cand) (bpm tol : f32) : f32 * nat :=
  let s256 := support_at c256 bpm tol in
  let s512 := support_at c512 bpm tol in
  let s1024 := support_at c1024 bpm tol in
  (fadd (fadd s256 s512) s1024,
   (if fgt s256 f0 then 1 else 0) + (if fgt s512 f0 then 1 else 0) + (if fgt s1024 f0 then 1 else 0)).

(** multi_resolution.rs:587-684 beat_contrast_score. *)
Definition window_max (nov : list f32) (i : nat) : f32 :=
  fold_left fmax (slice nov (i - 2) (Nat.min (i + 3) (length nov))) f0.
Definition mean_at (nov : list f32) (at_ : list nat) : f32 :=
  match at_ with [] => f0 | _ => fdiv (fold_left (fun acc i => fadd acc (window_max nov i)) at_ f0) (n2f (length at_)) end.
Definition phase_score (nov : list f32) (period phase : nat) : f32 :=
  let n := length nov in
  let beats := filter (fun i => i <? n) (map (fun k => phase + k * period) (seq 0 n)) in
  let halves := if 6 <=? period then filter (fun j => j <? n) (map (fun i => i + period / 2) beats) else [] in
  let thirds := if 9 <=? period
                then filter (fun j => j <? n) (flat_map (fun i => [i + period * 1 / 3; i + period * 2 / 3]) beats) else [] in
  let contrast := fsub (fsub (mean_at nov beats) (fmul (lit 5033165 (-23)) (mean_at nov halves)))
                       (fmul (lit 13421773 (-25)) (mean_at nov thirds)) in
  let total := fmax (fsum nov) (lit 8796093 (-43)) in
  fclamp_val (fdiv contrast (fmax (fdiv total (n2f n)) (lit 8796093 (-43)))) (z2f (-10)) (z2f 10).
Definition beat_contrast (nov : list f32) (rate hop : nat) (bpm : f32) : f32 :=
  if (length nov <? 16) || negb (fisfin bpm && fgt bpm f0) || (rate =? 0) || (hop =? 0) then f0
  else
    let fpb := fdiv (fmul (z2f 60) (n2f rate)) (fmul bpm (n2f hop)) in
    if negb (fisfin fpb) || flt fpb (z2f 3) then f0
    else
      let period := f2isize (fround fpb) in
      if negb ((3 <=? period)%Z && (period <=? 512)%Z) then f0
      else fold_left (fun b phase => fmax b (phase_score nov (Z.to_nat period) phase)) (seq 0 (Z.to_nat period)) (fneg (lit 1953125 9)).

(** multi_resolution.rs:704-767: fold-down, then fold-up. *)
Definition fold_down (sup : f32 -> f32 * nat) (best : hyp) : hyp :=
  let half := fmul (h_bpm best) fhalf in
  if fge (h_bpm best) (z2f 170) && (fle (z2f 70) half && fle half (z2f 120)) then
    let s_best := fst (sup (h_bpm best)) in
    let s_half := fst (sup half) in
    let ratio := if fgt s_best f0 then fdiv s_half s_best else f0 in
    if (3 <=? snd (sup half)) && fgt s_half f0 && fgt s_best f0 && fge ratio (lit 7549747 (-24))
    then mkHyp half s_half else best
  else best.
Definition fold_up (sup : f32 -> f32 * nat) (best : hyp) : hyp :=
  let dbl := fmul (h_bpm best) f2 in
  if fle (h_bpm best) (z2f 80) && (fle (z2f 70) dbl && fle dbl (z2f 180)) then
    let s_best := fst (sup (h_bpm best)) in
    let s_dbl := fst (sup dbl) in
    let ratio := if fgt s_best f0 then fdiv s_dbl s_best else f0 in
    if (2 <=? snd (sup dbl)) && fgt s_dbl f0 && fgt s_best f0 && fge ratio (lit 9227469 (-24))
    then mkHyp dbl s_dbl else best
  else best.

(** multi_resolution.rs:779-863: triplet family search; only with a band configuration. *)
Definition family_factors : list f32 :=
  [f1; fdiv (z2f 3) f2; fdiv f2 (z2f 3); fdiv (z2f 4) (z2f 3); fdiv (z2f 3) (z2f 4)].
Record fam := mkFam { fa_bpm : f32; fa_support : f32; fa_align : f32 }.
Definition families (sup : f32 -> f32 * nat) (nov : list f32) (rate : nat) (min_bpm max_bpm best : f32) : list fam :=
  map (fun b => mkFam b (fst (sup b)) (beat_contrast nov rate 512 b))
    (filter (fun b => fisfin b && fge b min_bpm && fle b max_bpm && (fle (z2f 70) b && fle b (z2f 180)) &&
                      negb ((snd (sup b) <? 2) || fle (fst (sup b)) f0))
            (map (fmul best) family_factors)).
Definition triplet (sup : f32 -> f32 * nat) (nov : list f32) (rate : nat) (min_bpm max_bpm : f32) (best : hyp) : hyp :=
  if negb (fge (h_bpm best) (z2f 70) && fle (h_bpm best) (z2f 180)) || (length nov =? 0) then best
  else
    match families sup nov rate min_bpm max_bpm (h_bpm best) with
    | (f :: _ :: _) as fams =>
        let best_support := fmax (fold_left fmax (map fa_support fams) f0) (lit 8796093 (-43)) in
        let alt := fold_left fmax (map (fun f => fdiv (fa_support f) best_support)
                     (filter (fun f => fgt (fabs (fsub (fa_bpm f) (h_bpm best))) f075) fams)) f0 in
        if fge alt (lit 7549747 (-24)) then
          let score f := fadd (fa_align f) (fmul (lit 11744051 (-25)) (fclamp_val (fdiv (fa_support f) best_support) f0 f1)) in
          let chosen := fst (fold_left (fun acc f => if fgt (score f) (snd acc) then (f, score f) else acc) fams
                               (f, fneg (lit 1953125 9))) in
          if fgt (fabs (fsub (fa_bpm chosen) (h_bpm best))) f075 &&
             fge (fa_align chosen) (fadd (beat_contrast nov rate 512 (h_bpm best)) (lit 13421773 (-25)))
          then mkHyp (fa_bpm chosen) (fa_support chosen) else best
        else best
    | _ => best
    end.

(** multi_resolution.rs:405-900: from the three candidate lists to the result; [nov] is the hop-512 novelty, computed
    only with a band configuration. *)
Definition fuse (c256 c512 c1024 : list cand) (rate : nat) (min_bpm max_bpm res : f32) (top_k : nat) (p : fusion)
    (nov : outcome (option (list f32))) : outcome (estimate * list cand) :=
  let tol := fmax f2 res in
  let hyps := flat_map (fun c => match hypothesis c256 c512 c1024 min_bpm max_bpm tol p (t_bpm c) with Some h => [h] | None => [] end)
                (firstn top_k c512) in
  match unique_from [] (sort_desc h_score hyps) with
  | [] => Err ProcessingError
  | first :: rest =>
      let! nov := nov in
      let sup b := total_support c256 c512 c1024 b tol in
      let best := fold_up sup (fold_down sup first) in
      let best := match nov with Some n => triplet sup n rate min_bpm max_bpm best | None => best end in
      let second := match rest with [] => f0 | h :: _ => h_score h end in
      Ok (mkEst (h_bpm best) (separation (lit 8796093 (-43)) (h_score best) second) (snd (sup (h_bpm best))),
          map (fun c => mkTc (t_bpm c) (t_score c) (t_fft c) (t_ac c) (flt (fabs (fsub (t_bpm c) (h_bpm best))) f075)) c512)
  end.

(** multi_resolution.rs:687-701: unwrap_or_default turns errors into empty curves. *)
Definition or_empty (x : outcome (list f32)) : outcome (list f32) :=
  match x with Err _ => Ok [] | _ => x end.
Definition novelty_512 (L : libm) (spec : list (list f32)) (rate : nat) (cfg : option band_config) : outcome (option (list f32)) :=
  match cfg with
  | None => Ok None
  | Some c =>
      let! sf := or_empty (superflux_novelty (m_ln L) spec (bc_filter c)) in
      let! en := or_empty (energy_flux_novelty spec) in
      let! hf := or_empty (hfc_novelty spec (Z.of_nat rate)) in
      Ok (Some (combine_novelty (Some c) sf en hf))
  end.

(** multi_resolution.rs:203-901 multi_resolution_tempogram_from_samples.  structural_discount only feeds debug output. *)
Definition multi_resolution_from_samples (F : fft_oracle) (L : libm) (fuel : nat) (samples : list f32) (rate frame : nat)
    (min_bpm max_bpm res : f32) (top_k : nat) (p : fusion) (cfg : option band_config) : run (estimate * list cand) :=
  if length samples <? frame then Some (Err InvalidInput)
  else
    let top_k := Nat.max top_k 1 in
    let aux_k := Nat.max 25 (Nat.min 200 (top_k * 4)) in
    let* s256 := Some (compute_stft F L samples frame 256) in
    let* s512 := Some (compute_stft F L samples frame 512) in
    let* s1024 := Some (compute_stft F L samples frame 1024) in
    let active := match cfg with
                  | Some c => if bc_enabled c || bc_mel c || fgt (bc_bonus c) f0 then Some c else None
                  | None => None
                  end in
    let call spec hop k := tempogram_candidates F L fuel spec rate hop min_bpm max_bpm res k active in
    let* r256 := call s256 256 aux_k in
    let* r512 := call s512 512 top_k in
    let* r1024 := call s1024 1024 aux_k in
    Some (fuse (snd r256) (snd r512) (snd r1024) rate min_bpm max_bpm res top_k p (novelty_512 L s512 rate cfg)).
