(** Model of src/analysis/confidence.rs and the parts of src/analysis/result.rs it reads. *)
From Coq Require Import String Ascii.
From Verif Require Import Rust F32.
Local Open Scope string_scope.

(** src/analysis/result.rs:156-166 AnalysisFlag. *)
Inductive flag := MultimodalBpm | WeakTonality | TempoVariation | OnsetDetectionAmbiguous.

(** src/analysis/result.rs:184-218: the fields of AnalysisResult (and its
    metadata) read by compute_confidence; key, beat grid and the other metadata
    fields are not read there and not modelled here. *)
Record analysis_result := {
  ar_bpm : f32;
  ar_bpm_confidence : f32;
  ar_key_confidence : f32;
  ar_key_clarity : f32;
  ar_grid_stability : f32;
  ar_flags : list flag;
  ar_warnings : list string }.

(** src/analysis/confidence.rs:33-68 AnalysisConfidence. *)
Record analysis_confidence := {
  ac_bpm : f32; ac_key : f32; ac_grid : f32; ac_overall : f32; ac_flags : list flag }.

(** str::contains for a fixed needle. *)
Fixpoint starts_with (p s : string) : bool :=
  match p, s with
  | EmptyString, _ => true
  | String a p', String b s' => if Ascii.eqb a b then starts_with p' s' else false
  | String _ _, EmptyString => false
  end.
Fixpoint contains (s p : string) : bool :=
  starts_with p s || match s with EmptyString => false | String _ r => contains r p end.

(** Literals 0.7, 0.6, 0.85, 0.4, 0.3, 0.2, 0.5 of confidence.rs as f32. *)
Definition k07 : f32 := lit 11744051 (-24).
Definition k06 : f32 := lit 5033165 (-23).
Definition k085 : f32 := lit 7130317 (-23).
Definition k04 : f32 := lit 13421773 (-25).
Definition k03 : f32 := lit 5033165 (-24).
Definition k02 : f32 := lit 13421773 (-26).

(** [x.clamp(0.0, 1.0)]: constant bounds, cannot panic. *)
Definition clamp01 (x : f32) : f32 := fclamp_val x f0 f1.

(** src/analysis/confidence.rs:231-255 compute_bpm_confidence. *)
Definition compute_bpm_confidence (r : analysis_result) : f32 :=
  if fle (ar_bpm r) f0 then f0
  else
    let base := clamp01 (ar_bpm_confidence r) in
    if existsb (fun w => contains w "BPM") (ar_warnings r) then fmul base k07 else base.

(** src/analysis/confidence.rs:263-297 compute_key_confidence. *)
Definition compute_key_confidence (r : analysis_result) : f32 :=
  if fle (ar_key_confidence r) f0 then f0
  else
    let base := clamp01 (ar_key_confidence r) in
    let clarity_adjustment :=
      if flt (ar_key_clarity r) k02 then k06
      else if flt (ar_key_clarity r) fhalf then k085 else f1 in
    let has_key_warning :=
      existsb (fun w => contains w "key" || contains w "Key" || contains w "tonality") (ar_warnings r) in
    let warning_adjustment := if has_key_warning then k07 else f1 in
    fmul (fmul base clarity_adjustment) warning_adjustment.

(** src/analysis/confidence.rs:121-179 compute_confidence. *)
Definition compute_confidence (r : analysis_result) : analysis_confidence :=
  let b := compute_bpm_confidence r in
  let k := compute_key_confidence r in
  let g := clamp01 (ar_grid_stability r) in
  let overall :=
    if fgt b f0 && fgt k f0 then
      clamp01 (fadd (fadd (fmul b k04) (fmul k k03)) (fmul g k03))
    else if fgt b f0 then fmul b k06
    else if fgt k f0 then fmul k k06
    else f0 in
  let flags :=
    (ar_flags r ++ (if flt b k03 then [MultimodalBpm] else [])
                ++ (if flt k k02 then [WeakTonality] else [])
                ++ (if flt g k03 then [TempoVariation] else []))%list in
  {| ac_bpm := b; ac_key := k; ac_grid := g; ac_overall := overall; ac_flags := flags |}.

(** src/analysis/confidence.rs:187-206 is_high/low/medium_confidence. *)
Definition is_high (c : analysis_confidence) : bool := fge (ac_overall c) k07.
Definition is_low (c : analysis_confidence) : bool := flt (ac_overall c) fhalf.
Definition is_medium (c : analysis_confidence) : bool :=
  fge (ac_overall c) fhalf && flt (ac_overall c) k07.

(** src/analysis/confidence.rs:214-222 confidence_level. *)
Definition confidence_level (c : analysis_confidence) : string :=
  if is_high c then "High" else if is_low c then "Low" else "Medium".
