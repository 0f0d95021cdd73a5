(** Model of src/lib.rs analyze_audio (lines 86-1635), the composition of all stages.  Logging, debug output and
    processing_time_ms are dropped; compute_confidence (1623), whose result is only logged, is in Confidence.v. *)
From Coq Require Import ZArith String.
From Verif Require Import Rust F32 Libm Sorting Normalization Silence Onsets Consensus Hpss Autocorrelation Chroma
  CandidateFilter Tempogram MultiResolution BeatGrid KeyNotation KeyFeatures Confidence Config KeyStage.
Local Open Scope nat_scope.

(** Everything the pipeline takes from the platform: FFT, libm, exp2, the key functions, float formatting with two
    decimals, and hash orders. *)
Record platform := {
  pf_fft : fft_oracle; pf_libm : libm; pf_exp2 : f32 -> f32; pf_key : key_platform; pf_fmt2 : f32 -> string;
  pf_orders : key_orders }.

(** ** Preprocessing *)

(** lib.rs:112-147: normalisation and silence trimming. *)
Definition preprocess (P : platform) (c : analysis_config) (rate : nat) (samples : list f32) : outcome (list f32) :=
  let! s := if cf_enable_normalization c
            then omap fst (normalize (pf_libm P) samples
                   {| nc_method := cf_normalization c; nc_target_lufs := z2f (-14); nc_headroom_db := f1 |} (n2f rate))
            else Ok samples in
  let! t := if cf_enable_silence_trimming c
            then omap fst (detect_and_trim (m_powf (pf_libm P)) s (Z.of_nat rate)
                   {| sd_threshold_db := cf_min_amplitude_db c; sd_min_duration_ms := 500;
                      sd_frame_size := cf_frame_size c |})
            else Ok s in
  match t with
  | [] => Err ProcessingError
  | _ => Ok t
  end.

(** ** Onsets *)

(** sort_unstable + dedup on usize values (lib.rs:187-188, 266-267, 270-271). *)
Definition sort_dedup (l : list nat) : list nat := dedup Nat.eqb (sort_by Nat.leb l).

(** lib.rs:181-190 to_samples.  The multiplication saturates at 2^64 - 1, which no sample index reaches, so saturated
    values are filtered out like every other product beyond the last sample. *)
Definition to_samples (frames : list nat) (hop n : nat) : list nat :=
  sort_dedup (filter (fun s => s <? n) (map (fun f => f * hop) frames)).

(** lib.rs:192-250: the input of the vote; failing detectors contribute nothing. *)
Definition consensus_input (c : analysis_config) (rate n : nat) (spec : list (list f32)) (energy : list nat)
  : outcome onset_consensus :=
  let p := cf_onset_threshold_percentile c in
  let hop := cf_hop_size c in
  let! sf := on_error (detect_spectral_flux_onsets spec p) [] in
  let! hf := on_error (detect_hfc_onsets spec (Z.of_nat rate) p) [] in
  let! hp := if cf_enable_hpss_onsets c
             then on_error (let! hpss := hpss_decompose spec (cf_hpss_margin c) in
                            let! fs := detect_hpss_onsets (snd hpss) p in
                            Ok (to_samples fs hop n)) []
             else Ok [] in
  Ok {| oc_energy_flux := map Z.of_nat energy;
        oc_spectral_flux := map Z.of_nat (to_samples sf hop n);
        oc_hfc := map Z.of_nat (to_samples hf hop n);
        oc_hpss := map Z.of_nat hp |}.

(** lib.rs:261-285: onsets confirmed by two methods, else all clusters, else the energy-flux onsets. *)
Definition chosen_onsets (energy : list nat) (cands : list Consensus.candidate) : list nat :=
  let times l := sort_dedup (map (fun x => Z.to_nat (cd_time_samples x)) l) in
  let strong := times (filter (fun x => 2 <=? cd_voted_by x) cands) in
  let chosen := match strong with [] => times cands | _ => strong end in
  match chosen with [] => energy | _ => chosen end.

(** lib.rs:173-291: the onsets used by the legacy estimator and the beat tracker. *)
Definition choose_onsets (c : analysis_config) (rate n : nat) (spec : list (list f32)) (energy : list nat)
  : outcome (list nat) :=
  if cf_enable_onset_consensus c && negb (length spec =? 0) then
    let! input := consensus_input c rate n spec energy in
    match vote_onsets input (cf_onset_consensus_weights c) (cf_onset_consensus_tolerance_ms c) (Z.of_nat rate) with
    | Ok cands => Ok (chosen_onsets energy cands)
    | Err _ => Ok energy
    | Panic => Panic
    end
  else Ok energy.

(** ** Tempo *)

(** lib.rs:294-329: the legacy estimate; its errors leave analyze_audio. *)
Definition legacy_stage (P : platform) (fuel : nat) (c : analysis_config) (rate : nat) (onsets : list nat)
  : run (option estimate) :=
  if 2 <=? length onsets then
    estimate_bpm (pf_fft P) (pf_exp2 P) fuel onsets rate (cf_hop_size c) (cf_min_bpm c) (cf_max_bpm c)
      (cf_bpm_resolution c)
      (if cf_enable_legacy_bpm_guardrails c
       then Some {| gr_pmin := cf_legacy_bpm_preferred_min c; gr_pmax := cf_legacy_bpm_preferred_max c;
                    gr_smin := cf_legacy_bpm_soft_min c; gr_smax := cf_legacy_bpm_soft_max c;
                    gr_mul_pref := cf_legacy_bpm_conf_mul_preferred c; gr_mul_soft := cf_legacy_bpm_conf_mul_soft c;
                    gr_mul_ext := cf_legacy_bpm_conf_mul_extreme c |}
       else None)
  else Some (Ok None).

(** lib.rs:346-373. *)
Definition band_cfg (c : analysis_config) : band_config :=
  {| bc_enabled := cf_enable_tempogram_band_fusion c; bc_low := cf_tempogram_band_low_max_hz c;
     bc_mid := cf_tempogram_band_mid_max_hz c; bc_high := cf_tempogram_band_high_max_hz c;
     bc_w_full := cf_tempogram_band_w_full c; bc_w_low := cf_tempogram_band_w_low c;
     bc_w_mid := cf_tempogram_band_w_mid c; bc_w_high := cf_tempogram_band_w_high c;
     bc_seed_only := cf_tempogram_band_seed_only c; bc_support := cf_tempogram_band_support_threshold c;
     bc_bonus := cf_tempogram_band_consensus_bonus c; bc_mel := cf_enable_tempogram_mel_novelty c;
     bc_n_mels := cf_tempogram_mel_n_mels c; bc_mel_fmin := cf_tempogram_mel_fmin_hz c;
     bc_mel_fmax := cf_tempogram_mel_fmax_hz c; bc_mel_filter := Z.of_nat (cf_tempogram_mel_max_filter_bins c);
     bc_w_mel := cf_tempogram_mel_weight c; bc_nov_s := cf_tempogram_novelty_w_spectral c;
     bc_nov_e := cf_tempogram_novelty_w_energy c; bc_nov_h := cf_tempogram_novelty_w_hfc c;
     bc_mean_window := cf_tempogram_novelty_local_mean_window c;
     bc_smooth_window := cf_tempogram_novelty_smooth_window c;
     bc_filter := Z.of_nat (cf_tempogram_superflux_max_filter_bins c) |}.

(** lib.rs:375-377: the band configuration is passed on only if some auxiliary variant is on. *)
Definition aux_cfg (c : analysis_config) : option band_config :=
  if cf_enable_tempogram_band_fusion c || cf_enable_tempogram_mel_novelty c || fgt (cf_tempogram_band_consensus_bonus c) f0
  then Some (band_cfg c) else None.

(** hop_size as u32 (lib.rs:391 etc.). *)
Definition hop_u32 (c : analysis_config) : nat := Z.to_nat (Z.of_nat (cf_hop_size c) mod 2 ^ 32).

(** lib.rs:412-413. *)
Definition trap_low (bpm : f32) : bool := fge bpm (z2f 55) && fle bpm (z2f 80).
Definition trap_high (bpm : f32) : bool := fge bpm (z2f 170) && fle bpm (z2f 200).

(** lib.rs:420-432 cand_support. *)
Definition cand_support (cands : list cand) (bpm tol : f32) : f32 :=
  fold_left (fun best x => if fle (fabs (fsub (t_bpm x) bpm)) tol then fmax best (t_score x) else best) cands f0.

(** lib.rs:434-457: is the single-resolution result ambiguous? *)
Definition ambiguous (res : f32) (base : estimate) (cands : list cand) : bool :=
  let b := e_bpm base in
  let tol := fmax f2 res in
  let s_base := cand_support cands b tol in
  let s_2x := cand_support cands (fmul b f2) tol in
  let s_half := cand_support cands (fmul b fhalf) tol in
  let competes s := fgt s f0 && fge s (fmul s_base (lit 7549747 (-23))) in
  let fold_into_trap := trap_high (fmul b f2) in
  let weak := (e_agree base =? 0) || flt (e_conf base) (lit 16106127 (-28)) in
  trap_low b || trap_high b || (competes s_2x || competes s_half) || (weak && fold_into_trap).

(** lib.rs:515-519, 624-629: ratio of two tempi, at least 1 for positive tempi. *)
Definition tempo_ratio (base other : f32) : f32 :=
  if fgt base (lit 8796093 (-43)) then fmax (fdiv other base) (fdiv base other) else f1.
Definition near_ratio (rel target : f32) : bool := flt (fabs (fsub rel target)) (lit 13421773 (-28)).

(** lib.rs:527-528, 637-638. *)
Definition promotes_high (base other : f32) : bool := fle base (z2f 180) && fgt other (z2f 180).

(** lib.rs:515-539: is the multi-resolution estimate taken? *)
Definition mr_better (base mr : estimate) : bool :=
  let rel := tempo_ratio (e_bpm base) (e_bpm mr) in
  let related := near_ratio rel f2 || near_ratio rel (lit 3 (-1)) || near_ratio rel (fdiv (z2f 4) (z2f 3)) in
  negb (promotes_high (e_bpm base) (e_bpm mr))
  && (fge (e_conf mr) (fadd (e_conf base) (lit 13421773 (-28)))
      || ((e_agree base <? e_agree mr) && fge (e_conf mr) (fmul (e_conf base) (lit 7549747 (-23))))
      || ((trap_low (e_bpm base) || trap_high (e_bpm base)) && related
          && fge (e_conf mr) (fmul (e_conf base) (lit 7381975 (-23)))
          && ((fge (e_bpm mr) (z2f 70) && fle (e_bpm mr) (z2f 180)) || fgt (e_bpm base) (z2f 180)))).

(** lib.rs:624-657: is the percussive estimate taken? *)
Definition p_better (base chosen p : estimate) : bool :=
  let rel := tempo_ratio (e_bpm chosen) (e_bpm p) in
  let related := near_ratio rel f2 || near_ratio rel (lit 3 (-1)) || near_ratio rel (fdiv (z2f 4) (z2f 3))
                 || near_ratio rel (fdiv (z2f 3) f2) || near_ratio rel (fdiv f2 (z2f 3))
                 || near_ratio rel (fdiv (z2f 3) (z2f 4)) in
  let base_low := trap_low (e_bpm base) || flt (e_bpm base) (z2f 95) in
  let common := fge (e_bpm p) (z2f 70) && fle (e_bpm p) (z2f 180) in
  negb (promotes_high (e_bpm chosen) (e_bpm p)) && related && common
  && (fge (e_conf p) (fadd (e_conf chosen) (lit 5368709 (-27)))
      || (base_low && fge (e_conf p) (fmul (e_conf chosen) (lit 7130317 (-23))))
      || ((e_agree chosen <? e_agree p) && fge (e_conf p) (fmul (e_conf chosen) (lit 15435039 (-24))))).

(** What the tempogram stage leaves behind (lib.rs:331-337). *)
Record tempo_stage := {
  tg_est : option estimate; tg_cands : option (list cand);
  tg_mr_triggered : option bool; tg_mr_used : option bool; tg_p_triggered : option bool; tg_p_used : option bool }.
Definition no_tempo : tempo_stage :=
  {| tg_est := None; tg_cands := None; tg_mr_triggered := None; tg_mr_used := None; tg_p_triggered := None;
     tg_p_used := None |}.

(** A call whose error is only logged. *)
Definition run_catch {A} (x : run A) : run (option A) :=
  match x with
  | None => None
  | Some (Ok a) => Some (Ok (Some a))
  | Some (Err _) => Some (Ok None)
  | Some Panic => Some Panic
  end.

(** lib.rs:489-580: escalation to the multi-resolution tempogram ([None] if it was not run or failed). *)
Definition after_multi_res (base : estimate * list cand) (mr : option (estimate * list cand))
  : estimate * list cand * bool :=
  match mr with
  | Some m => if mr_better (fst base) (fst m) then (m, true) else (base, false)
  | None => (base, false)
  end.

(** lib.rs:587-683: the percussive fallback ([None] if it was not run or failed). *)
Definition after_percussive (base : estimate) (chosen : estimate * list cand) (p : option (estimate * list cand))
  : estimate * list cand * bool :=
  match p with
  | Some q => if p_better base (fst chosen) (fst q) then (q, true) else (chosen, false)
  | None => (chosen, false)
  end.

(** lib.rs:379-714: single resolution first, then the two escalations. *)
Definition multi_res_stage (P : platform) (fuel : nat) (c : analysis_config) (rate : nat) (samples : list f32)
    (spec : list (list f32)) : run tempo_stage :=
  let top_n := Nat.max (Nat.max (cf_tempogram_candidates_top_n c) (cf_tempogram_multi_res_top_k c)) 10 in
  let call s := tempogram_candidates (pf_fft P) (pf_libm P) fuel s rate (hop_u32 c) (cf_min_bpm c) (cf_max_bpm c)
                  (cf_bpm_resolution c) top_n (aux_cfg c) in
  let* b := run_catch (call spec) in
  match b with
  | None => Some (Ok no_tempo)
  | Some base =>
      let amb := ambiguous (cf_bpm_resolution c) (fst base) (snd base) in
      let* mr := if amb
                 then run_catch (multi_resolution_from_samples (pf_fft P) (pf_libm P) fuel samples rate (cf_frame_size c)
                        (cf_min_bpm c) (cf_max_bpm c) (cf_bpm_resolution c) (cf_tempogram_multi_res_top_k c)
                        {| fu_w512 := cf_tempogram_multi_res_w512 c; fu_w256 := cf_tempogram_multi_res_w256 c;
                           fu_w1024 := cf_tempogram_multi_res_w1024 c;
                           fu_double := cf_tempogram_multi_res_double_time_512_factor c;
                           fu_margin := cf_tempogram_multi_res_margin_threshold c;
                           fu_prior := cf_tempogram_multi_res_use_human_prior c |} (Some (band_cfg c)))
                 else Some (Ok None) in
      let '(chosen, used) := after_multi_res base mr in
      let needed := amb && trap_low (e_bpm (fst base)) in
      let* p := if cf_enable_tempogram_percussive_fallback c && needed
                then run_catch (let* hp := Some (hpss_decompose spec (cf_hpss_margin c)) in call (snd hp))
                else Some (Ok None) in
      let '(final, p_used) := after_percussive (fst base) chosen p in
      Some (Ok {| tg_est := Some (fst final);
                  tg_cands := if cf_emit_tempogram_candidates c then Some (snd final) else None;
                  tg_mr_triggered := Some amb; tg_mr_used := Some used; tg_p_triggered := Some needed;
                  tg_p_used := if cf_enable_tempogram_percussive_fallback c then Some p_used else None |})
  end.

(** lib.rs:337-812: the tempogram estimate. *)
Definition tempogram_stage (P : platform) (fuel : nat) (c : analysis_config) (rate : nat) (samples : list f32)
    (spec : list (list f32)) : run tempo_stage :=
  if cf_force_legacy_bpm c || (length spec =? 0) then Some (Ok no_tempo)
  else if cf_enable_tempogram_multi_resolution c then multi_res_stage P fuel c rate samples spec
  else if cf_emit_tempogram_candidates c then
    let* r := run_catch (tempogram_candidates (pf_fft P) (pf_libm P) fuel spec rate (hop_u32 c) (cf_min_bpm c)
                (cf_max_bpm c) (cf_bpm_resolution c) (cf_tempogram_candidates_top_n c) (aux_cfg c)) in
    Some (Ok {| tg_est := option_map fst r; tg_cands := option_map snd r; tg_mr_triggered := None; tg_mr_used := None;
                tg_p_triggered := None; tg_p_used := None |})
  else
    let* r := run_catch (tempogram_impl (pf_fft P) (pf_libm P) fuel spec rate (hop_u32 c) (cf_min_bpm c)
                (cf_max_bpm c) (cf_bpm_resolution c) (aux_cfg c)) in
    Some (Ok {| tg_est := option_map fst r; tg_cands := None; tg_mr_triggered := None; tg_mr_used := None;
                tg_p_triggered := None; tg_p_used := None |}).

(** Tempo and confidence of an optional estimate (lib.rs:815-818, 835-838, 895-899). *)
Definition tempo_or (d : f32 * f32) (e : option estimate) : f32 * f32 :=
  match e with
  | Some e => (e_bpm e, e_conf e)
  | None => d
  end.

(** lib.rs:844-856: does the legacy tempo confirm the tempogram tempo at some metrical level? *)
Definition confirms (t l : f32) : bool :=
  fgt l f0 &&
  existsb (fun d => fle d f2)
    [fabs (fsub l t); fabs (fsub l (fmul t fhalf)); fabs (fsub l (fmul t f2));
     fabs (fsub l (fmul t (fdiv f2 (z2f 3)))); fabs (fsub l (fmul t (fdiv (z2f 3) f2)))].

(** lib.rs:814-900: the reported tempo and confidence. *)
Definition choose_bpm (c : analysis_config) (tempogram legacy : option estimate) : f32 * f32 :=
  if cf_force_legacy_bpm c then tempo_or (f0, f0) legacy
  else if cf_enable_bpm_fusion c then
    let '(t, t_conf) := tempo_or (f0, f0) tempogram in
    let '(l, l_raw) := tempo_or (f0, f0) legacy in
    let l_conf := fclamp_val l_raw f0 f1 in
    if fle t f0 then tempo_or (f0, f0) legacy
    else
      let conf := fclamp_val t_conf f0 f1 in
      if confirms t l then (t, fclamp_val (fadd conf (fmul (lit 16106127 (-27)) l_conf)) f0 f1)
      else if fgt l f0 then (t, fclamp_val (fmul conf (lit 7549747 (-23))) f0 f1)
      else (t, conf)
  else tempo_or (tempo_or (f0, f0) legacy) tempogram.

(** ** Beats *)

Definition empty_grid : beat_grid := {| g_downbeats := []; g_beats := []; g_bars := [] |}.

(** lib.rs:913-958. *)
Definition beat_stage (P : platform) (fuel : nat) (rate : nat) (bpm conf : f32) (onsets : list nat)
  : run (beat_grid * f32) :=
  if fgt bpm f0 && (2 <=? length onsets) then
    let* r := run_catch (generate_beat_grid fuel (m_exp (pf_libm P)) bpm conf
                (map (fun i => fdiv (n2f i) (n2f rate)) onsets)) in
    Some (Ok (match r with Some g => g | None => (empty_grid, f0) end))
  else Some (Ok (empty_grid, f0)).

(** ** Result *)

Local Open Scope string_scope.
(** format!("..{:.2}..", x). *)
Definition with_value (before : string) (x : string) (after : string) : string := before ++ x ++ after.
(** lib.rs:1564-1589: warnings and flags. *)
Definition warnings_of (fmt2 : f32 -> string) (bpm stability key_conf clarity : f32) : list string :=
  ((if feq bpm f0 then ["BPM detection failed: insufficient onsets or estimation error"] else [])
   ++ (if flt stability fhalf
       then [with_value "Low beat grid stability: " (fmt2 stability) " (may indicate tempo variation)"] else [])
   ++ (if flt key_conf (lit 5033165 (-24))
       then [with_value "Low key detection confidence: " (fmt2 key_conf) " (may indicate ambiguous or atonal music)"] else [])
   ++ (if flt clarity (lit 13421773 (-26))
       then [with_value "Low key clarity: " (fmt2 clarity) " (track may be atonal or have weak tonality)"] else []))%list.
Definition flags_of (clarity : f32) : list flag := if flt clarity (lit 13421773 (-26)) then [WeakTonality] else [].
Local Close Scope string_scope.

(** src/analysis/result.rs AnalysisResult and AnalysisMetadata without processing_time_ms and the constant
    algorithm_version and methods_used (lib.rs:1592-1619). *)
Record full_result := {
  fr_core : analysis_result; fr_key : key; fr_grid : beat_grid; fr_duration : f32; fr_rate : nat;
  fr_onset_consensus : f32; fr_tempo : tempo_stage }.

(** lib.rs:86-1635 analyze_audio. *)
Definition analyze_audio (P : platform) (fuel : nat) (samples : list f32) (rate : nat) (c : analysis_config)
  : run full_result :=
  if length samples =? 0 then Some (Err InvalidInput)
  else if rate =? 0 then Some (Err InvalidInput)
  else
    let* trimmed := Some (preprocess P c rate samples) in
    let* energy := Some (detect_energy_flux_onsets (m_powf (pf_libm P)) trimmed (cf_frame_size c) (cf_hop_size c)
                           (z2f (-20))) in
    let* spec := Some (compute_stft (pf_fft P) (pf_libm P) trimmed (cf_frame_size c) (cf_hop_size c)) in
    let* onsets := Some (choose_onsets c rate (length trimmed) spec energy) in
    let* legacy := legacy_stage P fuel c rate onsets in
    let* tempo := tempogram_stage P fuel c rate trimmed spec in
    let '(bpm, conf) := choose_bpm c (tg_est tempo) legacy in
    let* grid := beat_stage P fuel rate bpm conf onsets in
    let* k := Some (key_stage (pf_fft P) (pf_libm P) (pf_key P) (pf_orders P) c rate trimmed spec
                      (g_beats (fst grid))) in
    let '(ky, key_conf, clarity) := k in
    Some (Ok {| fr_core := {| ar_bpm := bpm; ar_bpm_confidence := conf; ar_key_confidence := key_conf;
                              ar_key_clarity := clarity; ar_grid_stability := snd grid;
                              ar_flags := flags_of clarity;
                              ar_warnings := warnings_of (pf_fmt2 P) bpm (snd grid) key_conf clarity |};
                fr_key := ky; fr_grid := fst grid;
                fr_duration := fdiv (n2f (length trimmed)) (n2f rate); fr_rate := rate;
                fr_onset_consensus := if length energy =? 0 then f0 else f1;
                fr_tempo := tempo |}).
