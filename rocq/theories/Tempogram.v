(** Model of src/features/period/tempogram.rs (combined tempogram estimator).  Logging and the debug_* fields, which
    only steer debug output, are dropped. *)
From Coq Require Import ZArith.
From Verif Require Import Rust F32 Libm Sorting PeakPicking BpmLoop Autocorrelation TempoSpectra Novelty CandidateFilter.

(** Computations containing a tempo loop: [None] means still running. *)
Definition run (A : Type) := option (outcome A).
Definition rbind {A B} (x : run A) (f : A -> run B) : run B :=
  match x with
  | None => None
  | Some (Ok a) => f a
  | Some (Err e) => Some (Err e)
  | Some Panic => Some Panic
  end.
Notation "'let*' x ':=' c1 'in' c2" := (rbind c1 (fun x => c2))
  (at level 61, x pattern, c1 at next level, right associativity).

(** tempogram.rs:44-97 TempogramBandFusionConfig. *)
Record band_config := {
  bc_enabled : bool; bc_low : f32; bc_mid : f32; bc_high : f32;
  bc_w_full : f32; bc_w_low : f32; bc_w_mid : f32; bc_w_high : f32;
  bc_seed_only : bool; bc_support : f32; bc_bonus : f32;
  bc_mel : bool; bc_n_mels : nat; bc_mel_fmin : f32; bc_mel_fmax : f32; bc_mel_filter : Z; bc_w_mel : f32;
  bc_nov_s : f32; bc_nov_e : f32; bc_nov_h : f32; bc_mean_window : nat; bc_smooth_window : nat; bc_filter : Z }.

(** tempogram.rs:296-304 Variant; of the name only "is it the full band" matters. *)
Record variant := mkVar {
  v_full : bool; v_w : f32; v_fft : list (f32 * f32); v_ac : list (f32 * f32); v_mfft : f32; v_mac : f32 }.
(** tempogram.rs:346-357 and later copies: the maxima are the first entries, at least 1e-12. *)
Definition top_value (t : list (f32 * f32)) : f32 :=
  fmax (match t with [] => f1 | (_, v) :: _ => v end) (lit 2305843 (-61)).
Definition make_variant (full : bool) (w : f32) (fft ac : list (f32 * f32)) : variant :=
  mkVar full w fft ac (top_value fft) (top_value ac).

(** tempogram.rs:282-294 hz_to_bin. *)
Definition hz_to_bin (hz res : f32) (n : nat) : nat :=
  if negb (fisfin hz) || fle hz f0 || negb (fisfin res) || fle res f0 then 0
  else Z.to_nat (Z.max 0 (Z.min (f2isize (fround (fdiv hz res))) (Z.of_nat n - 1))).

(** tempogram.rs:362-384: the three bands (first bin, end bin, weight). *)
Definition bands (c : band_config) (rate n : nat) : list (nat * nat * f32) :=
  let fft_size := Nat.max ((n - 1) * 2) 2 in
  let res := fdiv (n2f rate) (n2f fft_size) in
  let b0 := Nat.min 1 (n - 1) in
  let b_low := Nat.max (hz_to_bin (bc_low c) res n) b0 in
  let b_mid := Nat.max (hz_to_bin (bc_mid c) res n) (b_low + 1) in
  let b_hi := Nat.min (if fgt (bc_high c) f0 then Nat.max (hz_to_bin (bc_high c) res n) (b_mid + 1) else n) n in
  [(b0, b_low, bc_w_low c); (b_low, b_mid, bc_w_mid c); (b_mid, b_hi, bc_w_high c)].

Section Variants.
  Variable (F : fft_oracle) (L : libm) (fuel : nat) (spec : list (list f32)) (rate hop : nat) (min_bpm max_bpm res : f32).

  (** tempogram.rs:332-340, 413-422, 442-450: both tempograms of a novelty curve. *)
  Definition tempograms (nov : list f32) : run (list (f32 * f32) * list (f32 * f32)) :=
    let* fft := Some (fft_tempogram F L nov rate hop min_bpm max_bpm) in
    let* ac := autocorr_tempogram fuel nov rate hop min_bpm max_bpm res in
    Some (Ok (fft, ac)).

  (** tempogram.rs:390-411: novelty of a band. *)
  Definition combine_novelty (c : option band_config) (s e h : list f32) : list f32 :=
    match c with
    | Some c => combined_novelty_with_params s e h (bc_nov_s c) (bc_nov_e c) (bc_nov_h c) (bc_mean_window c) (bc_smooth_window c)
    | None => combined_novelty s e h
    end.

  (** tempogram.rs:386-429: variants of the bands with a usable weight and at least two bins. *)
  Fixpoint band_variants (c : band_config) (bs : list (nat * nat * f32)) : run (list variant) :=
    match bs with
    | [] => Some (Ok [])
    | (start, stop, w) :: r =>
        if negb (fisfin w && fgt w f0) then band_variants c r
        else if stop <=? start + 1 then band_variants c r
        else
          let* s := Some (superflux_novelty_band (m_ln L) spec (bc_filter c) start stop) in
          let* e := Some (energy_flux_novelty_band spec start stop) in
          let* h := Some (hfc_novelty_band spec start stop) in
          let nov := combine_novelty (Some c) s e h in
          if length nov =? 0 then band_variants c r
          else
            let* t := tempograms nov in
            let* rest := band_variants c r in
            Some (Ok (make_variant false w (fst t) (snd t) :: rest))
    end.

  (** tempogram.rs:431-460: the mel variant. *)
  Definition mel_variant (c : band_config) : run (list variant) :=
    if bc_mel c then
      let* m := Some (mel_superflux_novelty L spec (Z.of_nat rate) (bc_n_mels c) (bc_mel_fmin c) (bc_mel_fmax c) (bc_mel_filter c)) in
      if length m =? 0 then Some (Ok [])
      else let* t := tempograms m in Some (Ok [make_variant false (bc_w_mel c) (fst t) (snd t)])
    else Some (Ok []).

  (** tempogram.rs:268-460: all variants, the full-band one first. *)
  Definition variants (cfg : option band_config) : run (variant * list variant) :=
    let n := match spec with [] => 0 | f :: _ => length f end in
    if n =? 0 then Some (Err InvalidInput)
    else
      let* s := Some (superflux_novelty (m_ln L) spec (match cfg with Some c => bc_filter c | None => 4%Z end)) in
      let* e := Some (energy_flux_novelty spec) in
      let* h := Some (hfc_novelty spec (Z.of_nat rate)) in
      let nov := combine_novelty cfg s e h in
      if length nov =? 0 then Some (Err ProcessingError)
      else
        let* t := tempograms nov in
        let full := make_variant true (match cfg with Some c => bc_w_full c | None => f1 end) (fst t) (snd t) in
        match cfg with
        | None => Some (Ok (full, []))
        | Some c =>
            let* b := (if bc_enabled c then band_variants c (bands c rate n) else Some (Ok [])) in
            let* m := mel_variant c in
            Some (Ok (full, b ++ m))
        end.
End Variants.

(** tempogram.rs:515-526 lookup_nearest: value of the nearest tempo within the tolerance, the first of equals, else 0. *)
Definition lookup_nearest (t : list (f32 * f32)) (bpm tol : f32) : f32 :=
  snd (fold_left (fun acc bv => let d := fabs (fsub (fst bv) bpm) in
                                if fle d tol && flt d (fst acc) then (d, snd bv) else acc) t (finf, f0)).

(** tempogram.rs:548: folding factors. *)
Definition factors : list f32 := [f1; fhalf; f2; fdiv f1 (z2f 3); z2f 3; fdiv f2 (z2f 3); fdiv (z2f 3) f2].

(** tempogram.rs:528-556: seeds and folded candidates in range. *)
Definition seeds (vs : list variant) (fft_bpm ac_bpm : f32) : list f32 :=
  flat_map (fun v => map fst (firstn 8 (v_fft v)) ++ map fst (firstn 8 (v_ac v))) vs
  ++ (if fgt fft_bpm f0 then [fft_bpm] else []) ++ (if fgt ac_bpm f0 then [ac_bpm] else []).
Definition folded (seeds : list f32) (min_bpm max_bpm : f32) : list f32 :=
  filter (fun b => fisfin b && fge b min_bpm && fle b max_bpm) (flat_map (fun s => map (fmul s) factors) seeds).

(** tempogram.rs:558-569: keep a tempo only if it is at least 0.75 above the last one kept. *)
Definition f075 : f32 := lit 3 (-2).
Fixpoint spaced_from (last : f32) (l : list f32) : list f32 :=
  match l with
  | [] => []
  | b :: r => if flt (fabs (fsub b last)) f075 then spaced_from last r else b :: spaced_from b r
  end.
Definition spaced (l : list f32) : list f32 :=
  match l with [] => [] | b :: r => b :: spaced_from b r end.

(** tempogram.rs:577-583 ScoredCandidate. *)
Record scored := mkSc { s_bpm : f32; s_score : f32; s_fft : f32; s_ac : f32 }.

(** tempogram.rs:590-604 and 626-631: clamped share of the maximum. *)
Definition share (t : list (f32 * f32)) (top bpm tol : f32) : f32 :=
  fclamp_val (fdiv (lookup_nearest t bpm tol) top) f0 f1.
Definition weighted (sel : variant -> f32) (vs : list variant) (wsum : f32) : f32 :=
  fclamp_val (fdiv (fold_left (fun acc v => if fle (v_w v) f0 then acc else fadd acc (fmul (v_w v) (sel v))) vs f0) wsum) f0 f1.

(** tempogram.rs:586-660: score of one candidate; [bonus] is None unless band fusion is on and the bonus positive. *)
Definition score_candidate (score_vs seed_vs : list variant) (wsum res support : f32) (bonus : option f32) (bpm : f32) : scored :=
  let fft_share v := share (v_fft v) (v_mfft v) bpm f075 in
  let ac_share v := share (v_ac v) (v_mac v) bpm (fmax res fhalf) in
  let fft := weighted fft_share score_vs wsum in
  let ac := weighted ac_share score_vs wsum in
  let s0 := fadd (fmul (lit 9227469 (-24)) ac) (fmul (lit 7549747 (-24)) fft) in
  let s1 :=
    match bonus with
    | None => s0
    | Some b =>
        let n := length (filter (fun v => negb (v_full v) && fge (fmax (fft_share v) (ac_share v)) support) seed_vs) in
        if 2 <=? n then fmul s0 (fadd f1 (fmul b (fsub (n2f n) f1))) else s0
    end in
  let s2 := if fgt bpm (z2f 180) then fmul s1 (lit 13421773 (-24))
            else if flt bpm (z2f 60) then fmul s1 (lit 7549747 (-23)) else s1 in
  mkSc bpm s2 fft ac.

(** tempogram.rs:662-711: the winner, after the octave correction above 180 BPM. *)
Definition octave_fold (l : list scored) (min_bpm max_bpm : f32) (best : scored) : scored :=
  if fgt (s_bpm best) (z2f 180) then
    let half := fdiv (s_bpm best) f2 in
    if fge half min_bpm && fle half max_bpm then
      match find (fun c => flt (fabs (fsub (s_bpm c) half)) f075) l with
      | Some c =>
          let eps := lit 8796093 (-43) in
          let ra := fdiv (fadd (s_ac best) eps) (fadd (s_ac c) eps) in
          let rf := fdiv (fadd (s_fft best) eps) (fadd (s_fft c) eps) in
          if negb (fgt ra f2 && fgt rf f2) then c else best
      | None => best
      end
    else best
  else best.

(** tempogram.rs:99-112 TempogramCandidateDebug. *)
Record cand := mkTc { t_bpm : f32; t_score : f32; t_fft : f32; t_ac : f32; t_sel : bool }.

(** tempogram.rs:716-722: confidence from the two best scores. *)
Definition separation (floor best second : f32) : f32 :=
  if fgt best floor then fclamp_val (fdiv (fmax (fsub best second) f0) best) f0 f1 else f0.

(** tempogram.rs:462-501 and 544-775: scoring and selection. *)
Definition select_tempo (cfg : option band_config) (full : variant) (others : list variant) (min_bpm max_bpm res : f32)
  : outcome (estimate * list cand) :=
  let all := full :: others in
  let score_vs := if match cfg with Some c => bc_seed_only c | None => true end then filter v_full all else all in
  let support := fclamp_val (match cfg with Some c => bc_support c | None => lit 1 (-2) end) f0 f1 in
  let bonus := fmax (match cfg with Some c => bc_bonus c | None => f0 end) f0 in
  let use_bonus := fgt bonus f0 && match cfg with Some c => bc_enabled c || bc_mel c | None => false end in
  let wsum := fmax (fsum (map (fun v => fmax (v_w v) f0) score_vs)) (lit 8796093 (-43)) in
  let fft_bpm := match find_best (v_fft full) with Some (b, _, _) => b | None => f0 end in
  let ac_bpm := match find_best (v_ac full) with Some (b, _, _) => b | None => f0 end in
  if forallb (fun v => (length (v_fft v) =? 0) && (length (v_ac v) =? 0)) all then Err ProcessingError
  else
    let uniq := spaced (sort_asc (folded (seeds all fft_bpm ac_bpm) min_bpm max_bpm)) in
    let l := sort_desc s_score
      (map (score_candidate score_vs all wsum res support (if use_bonus then Some bonus else None)) uniq) in
    match l with
    | [] => Err ProcessingError
    | first :: r =>
        let best := octave_fold l min_bpm max_bpm first in
        let second := match r with [] => f0 | s :: _ => s_score s end in
        let conf := separation (lit 2305843 (-61)) (s_score best) second in
        let agrees b := fgt b f0 && flt (fabs (fsub b (s_bpm best))) f2 in
        let n := (if agrees fft_bpm then 1 else 0) + (if agrees ac_bpm then 1 else 0) in
        Ok (mkEst (s_bpm best) conf n,
            map (fun c => mkTc (s_bpm c) (s_score c) (s_fft c) (s_ac c) (flt (fabs (fsub (s_bpm c) (s_bpm best))) f075)) l)
    end.

(** tempogram.rs:256-775 estimate_bpm_tempogram_impl; estimate_bpm_tempogram (155-173) and _band_fusion (176-195) return
    the first component for None and Some. *)
Definition tempogram_impl (F : fft_oracle) (L : libm) (fuel : nat) (spec : list (list f32)) (rate hop : nat)
    (min_bpm max_bpm res : f32) (cfg : option band_config) : run (estimate * list cand) :=
  let* v := variants F L fuel spec rate hop min_bpm max_bpm res cfg in
  Some (select_tempo cfg (fst v) (snd v) min_bpm max_bpm res).

(** tempogram.rs:198-252 estimate_bpm_tempogram_with_candidates and _band_fusion: at most top_n candidates. *)
Definition tempogram_candidates (F : fft_oracle) (L : libm) (fuel : nat) (spec : list (list f32)) (rate hop : nat)
    (min_bpm max_bpm res : f32) (top_n : nat) (cfg : option band_config) : run (estimate * list cand) :=
  let* r := tempogram_impl F L fuel spec rate hop min_bpm max_bpm res cfg in
  Some (Ok (fst r, firstn top_n (snd r))).
