(** Model of src/features/period/candidate_filter.rs and of the onset-based estimator in
    src/features/period/mod.rs. *)
From Coq Require Import ZArith.
From Verif Require Import Rust F32 Sorting PeakPicking Candidate Autocorrelation CombFilter.

(** mod.rs:72-81 BpmEstimate.  The u32 agreement count is a natural number here: it cannot
    reach 2^32 because it counts candidates. *)
Record estimate := mkEst { e_bpm : f32; e_conf : f32; e_agree : nat }.

(** 60.0 <= bpm <= 180.0, used throughout. *)
Definition reasonable (bpm : f32) : bool := fge bpm (z2f 60) && fle bpm (z2f 180).

(** (x - y).abs() < tol. *)
Definition within (x y tol : f32) : bool := flt (fabs (fsub x y)) tol.

(** candidate_filter.rs:179-203: one autocorrelation tempo against the comb tempos; the
    first comb tempo at half the value (within [tol]) that may be trusted replaces it. *)
Fixpoint fix_double (tol bpm : f32) (combs : list candidate) : f32 :=
  match combs with
  | [] => bpm
  | c :: cs =>
      if within (fdiv (fdiv bpm (c_bpm c)) f2) f1 tol
         && (reasonable (c_bpm c) || (fgt bpm (z2f 200) || flt bpm (z2f 30)))
      then c_bpm c else fix_double tol bpm cs
  end.
(** candidate_filter.rs:207-228: likewise for comb tempos at twice the value. *)
Fixpoint fix_half (tol bpm : f32) (combs : list candidate) : f32 :=
  match combs with
  | [] => bpm
  | c :: cs =>
      if within (fdiv (fdiv (c_bpm c) bpm) f2) f1 tol && reasonable (c_bpm c)
      then c_bpm c else fix_half tol bpm cs
  end.
(** candidate_filter.rs:163-228: octave correction of the autocorrelation candidates with
    the three best comb candidates; [ratio] is octave_tolerance_ratio. *)
Definition correct_octaves (ratio : f32) (ac comb : list candidate) : list candidate :=
  let tol := fsub ratio f1 in
  let top := firstn 3 comb in
  map (fun a => mkCand (fix_half tol (fix_double tol (c_bpm a) top) top) (c_conf a)) ac.

(** candidate_filter.rs:231-239 has_significant_disagreement. *)
Definition disagreement (ac comb : list candidate) : bool :=
  match ac, comb with
  | a :: _, c :: _ =>
      let d := fabs (fsub (c_bpm a) (c_bpm c)) in fgt d (z2f 10) && flt d (z2f 50)
  | _, _ => false
  end.

(** candidate_filter.rs:244-263: the ten best, then every reasonable tempo not yet covered
    within 1 BPM. *)
Definition add_reasonable (lim : list candidate) (c : candidate) : list candidate :=
  if reasonable (c_bpm c) && negb (existsb (fun x => within (c_bpm x) (c_bpm c) f1) lim)
  then lim ++ [c] else lim.
Definition limit_autocorr (ac : list candidate) : list candidate :=
  fold_left add_reasonable ac (firstn 10 ac).

(** candidate_filter.rs:276-317: groups (bpm, total confidence, count, max confidence). *)
Record group := mkGroup { g_bpm : f32; g_total : f32; g_count : nat; g_max : f32 }.
Definition join (g : group) (c : candidate) : group :=
  mkGroup (fdiv (fadd (fmul (g_bpm g) (n2f (g_count g))) (c_bpm c)) (n2f (g_count g + 1)))
          (fadd (g_total g) (c_conf c)) (g_count g + 1) (fmax (g_max g) (c_conf c)).
Fixpoint add_to_groups (gs : list group) (c : candidate) : list group :=
  match gs with
  | [] => [mkGroup (c_bpm c) (c_conf c) 1 (c_conf c)]
  | g :: r => if fle (fabs (fsub (c_bpm c) (g_bpm g))) f2 then join g c :: r
              else g :: add_to_groups r c
  end.
Definition make_groups (cs : list candidate) : list group := fold_left add_to_groups cs [].

(** candidate_filter.rs:320-346: confidence of a group. *)
Definition to_estimate (dis : bool) (g : group) : estimate :=
  let conf :=
    if 2 <=? g_count g then
      fmin (fmul (fdiv (fadd (fdiv (g_total g) (n2f (g_count g))) (g_max g)) f2) (lit 5033165 (-22))) f1
    else fmin (g_total g) f1 in
  mkEst (g_bpm g) (if dis && (g_count g =? 1) then fmul conf (lit 11744051 (-24)) else conf) (g_count g).

(** candidate_filter.rs:69-77: tempo ratio near 2, 1.5 or 0.75. *)
Definition harmonic (a b : f32) : bool :=
  let r := fmax (fdiv a b) (fdiv b a) in
  let t := lit 13421773 (-27) in
  within r f2 t || within r (lit 3 (-1)) t || within r (lit 3 (-2)) t.

(** candidate_filter.rs:51-111 boost_consensus_candidates, one estimate. *)
Definition boost (ac5 comb5 : list candidate) (e : estimate) : estimate :=
  let near l := existsb (fun a => within (c_bpm a) (e_bpm e) (lit 5 (-1))) l in
  let harm l := existsb (fun a => harmonic (c_bpm a) (e_bpm e)) l in
  let c1 :=
    if near ac5 && near comb5 then fmul (e_conf e) (lit 3 (-1))
    else if near ac5 && harm comb5 || near comb5 && harm ac5 then fmul (e_conf e) (lit 5452595 (-22))
    else e_conf e in
  let c2 := if near comb5 && reasonable (e_bpm e) then fmul c1 (lit 11744051 (-23)) else c1 in
  mkEst (e_bpm e) c2 (e_agree e).

(** candidate_filter.rs:354-381: double the first reasonable estimate when the first five
    contain none. *)
Fixpoint double_first (l : list estimate) : list estimate :=
  match l with
  | [] => []
  | e :: r => if reasonable (e_bpm e) then mkEst (e_bpm e) (fmul (e_conf e) f2) (e_agree e) :: r
              else e :: double_first r
  end.
Definition safety_boost (l : list estimate) : list estimate :=
  if existsb (fun e => reasonable (e_bpm e)) (firstn 5 l) then l else double_first l.

(** candidate_filter.rs:385-432: the ranking comparator ([Lt]: the first one ranks higher).
    partial_cmp of an unordered pair counts as equal. *)
Definition effective (e : estimate) : f32 :=
  if reasonable (e_bpm e) then e_conf e else fmul (e_conf e) fhalf.
Definition fcmp (x y : f32) : comparison := if flt x y then Lt else if flt y x then Gt else Eq.
Definition rank_cmp (a b : estimate) : comparison :=
  let ca := effective a in let cb := effective b in
  let close := within ca cb fhalf in
  if close && reasonable (e_bpm a) && negb (reasonable (e_bpm b)) then Lt
  else if close && negb (reasonable (e_bpm a)) && reasonable (e_bpm b) then Gt
  else match fcmp cb ca with
       | Eq => Nat.compare (e_agree b) (e_agree a)
       | c => c
       end.
Definition rank_leb (a b : estimate) : bool := match rank_cmp a b with Gt => false | _ => true end.

(** candidate_filter.rs:147-443 merge_bpm_candidates (never fails).  [exp2] is libm's exp2f.
    The last step is Rust's stable sort, determined because rank_cmp is a total preorder on
    NaN-free confidences (C23). *)
Definition grouped (exp2 : f32 -> f32) (ac comb : list candidate) (cents : f32) : list candidate :=
  limit_autocorr (correct_octaves (exp2 (fdiv cents (z2f 1200))) ac comb) ++ firstn 10 comb.
Definition merge (exp2 : f32 -> f32) (ac comb : list candidate) (cents : f32) : list estimate :=
  match ac, comb with
  | [], [] => []
  | _, _ =>
      let ac' := correct_octaves (exp2 (fdiv cents (z2f 1200))) ac comb in
      let lim := limit_autocorr ac' in
      let clim := firstn 10 comb in
      let dis := disagreement ac' comb in
      let es := map (to_estimate dis) (make_groups (lim ++ clim)) in
      sort_by rank_leb (safety_boost (map (boost (firstn 5 lim) (firstn 5 clim)) es))
  end.

(** mod.rs:87-103 LegacyBpmGuardrails. *)
Record guardrails := mkGuard {
  gr_pmin : f32; gr_pmax : f32; gr_smin : f32; gr_smax : f32;
  gr_mul_pref : f32; gr_mul_soft : f32; gr_mul_ext : f32 }.

(** mod.rs:106-117 mul_for. *)
Definition mul_for (g : guardrails) (bpm : f32) : f32 :=
  if negb (fisfin bpm) then f0
  else if fge bpm (gr_pmin g) && fle bpm (gr_pmax g) then gr_mul_pref g
  else if fge bpm (gr_smin g) && fle bpm (gr_smax g) then gr_mul_soft g
  else gr_mul_ext g.

(** mod.rs:119-150 clamp_sane. *)
Definition sane_mul (m : f32) : f32 := if fisfin m then fmax m f0 else f0.
Definition clamp_sane (g : guardrails) : guardrails :=
  let pmin := fmin (gr_pmin g) (gr_pmax g) in
  let pmax := fmax (gr_pmin g) (gr_pmax g) in
  mkGuard pmin pmax
    (fmin (fmin (gr_smin g) (gr_smax g)) pmin) (fmax (fmax (gr_smin g) (gr_smax g)) pmax)
    (sane_mul (gr_mul_pref g)) (sane_mul (gr_mul_soft g)) (sane_mul (gr_mul_ext g)).

(** mod.rs:302-322: rescale the confidences and sort again. *)
Definition apply_guard (g : option guardrails) (l : list estimate) : list estimate :=
  match g with
  | None => l
  | Some g => sort_desc e_conf
      (map (fun e => mkEst (e_bpm e) (fmul (e_conf e) (mul_for g (e_bpm e))) (e_agree e)) l)
  end.

(** mod.rs:324-339: move the first estimate near the preferred autocorrelation tempo to the
    front. *)
Fixpoint extract (p : estimate -> bool) (l : list estimate) : option (estimate * list estimate) :=
  match l with
  | [] => None
  | e :: r => if p e then Some (e, r)
              else match extract p r with Some (x, r') => Some (x, e :: r') | None => None end
  end.
Definition prefer (target : option f32) (l : list estimate) : list estimate :=
  match target with
  | None => l
  | Some t => match extract (fun e => within (e_bpm e) t f2) l with
              | Some (x, r) => x :: r
              | None => l
              end
  end.

(** mod.rs:266-277: first autocorrelation tempo in the preferred range. *)
Definition preferred_target (g : option guardrails) (ac : list candidate) : option f32 :=
  let (lo, hi) := match g with Some g => (gr_pmin g, gr_pmax g) | None => (z2f 60, z2f 180) end in
  option_map c_bpm (find (fun c => fge (c_bpm c) lo && fle (c_bpm c) hi) ac).

(** mod.rs:264-341: selection from the two candidate lists. *)
Definition select_bpm (exp2 : f32 -> f32) (g : option guardrails) (ac comb : list candidate) : option estimate :=
  let g := option_map clamp_sane g in
  hd_error (prefer (preferred_target g ac) (apply_guard g (merge exp2 ac comb (z2f 50)))).

(** mod.rs:216-404 estimate_bpm_internal; estimate_bpm (mod.rs:173-190) is the case None and
    estimate_bpm_with_guardrails (mod.rs:196-214) the case Some.  [None]: still searching. *)
Definition estimate_bpm (F : fft_oracle) (exp2 : f32 -> f32) (fuel : nat) (onsets : list nat) (rate hop : nat)
  (min_bpm max_bpm res : f32) (g : option guardrails) : option (outcome (option estimate)) :=
  match estimate_autocorr F onsets rate hop min_bpm max_bpm with
  | Ok ac =>
      match estimate_comb fuel onsets rate min_bpm max_bpm res with
      | None => None
      | Some (Ok comb) => Some (Ok (select_bpm exp2 g ac comb))
      | Some (Err e) => Some (Err e)
      | Some Panic => Some Panic
      end
  | Err e => Some (Err e)
  | Panic => Some Panic
  end.
