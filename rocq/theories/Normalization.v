(** Model of src/preprocessing/normalization.rs. *)
From Coq Require Import ZArith.
From Verif Require Import Rust F32 Libm.

(** normalization.rs:30-38 NormalizationMethod. *)
Inductive norm_method := NPeak | NRms | NLoudness.
(** normalization.rs:41-50 NormalizationConfig. *)
Record norm_config := { nc_method : norm_method; nc_target_lufs : f32; nc_headroom_db : f32 }.
(** normalization.rs:64-73 LoudnessMetadata. *)
Record loudness_meta := {
  lm_lufs : option f32; lm_peak_db : f32; lm_rms_db : f32; lm_gain_db : f32 }.

(** normalization.rs:87 EPSILON = 1e-10. *)
Definition eps10 : f32 := lit 14411519 (-57).
Definition f10 : f32 := z2f 10.
Definition f20 : f32 := z2f 20.

(** Peak: normalization.rs:273, :352, :426. *)
Definition peak_of (s : list f32) : f32 := fold_left fmax (map fabs s) f0.
(** sqrt(mean square): normalization.rs:303, :337-338. *)
Definition rms_of (s : list f32) : f32 :=
  fsqrt (fdiv (fsum (map (fun x => fmul x x) s)) (n2f (length s))).
(** for sample in samples.iter_mut() { *sample *= gain } *)
Definition apply_gain (g : f32) (s : list f32) : list f32 := map (fun x => fmul x g) s.

Definition quiet_meta : loudness_meta :=
  {| lm_lufs := None; lm_peak_db := fninf; lm_rms_db := fninf; lm_gain_db := f0 |}.

Section Norm.
  Variable L : libm.
  (** 20.0 * x.log10() *)
  Definition to_db (x : f32) : f32 := fmul f20 (m_log10 L x).
  (** normalization.rs:304-308. *)
  Definition rms_db_of (s : list f32) : f32 :=
    let rms := rms_of s in if fgt rms eps10 then to_db rms else fninf.

  (** normalization.rs:262-322 normalize_peak; returns the modified samples. *)
  Definition normalize_peak (s : list f32) (headroom : f32) : outcome (list f32 * loudness_meta) :=
    match s with
    | [] => Err InvalidInput
    | _ =>
        let peak := peak_of s in
        if fle peak eps10 then Ok (s, quiet_meta)
        else
          let target := m_powf L f10 (fdiv (fsub f0 headroom) f20) in
          let gain0 := fdiv target peak in
          let gain := fmin gain0 (fdiv f1 peak) in
          let s' := apply_gain gain s in
          Ok (s', {| lm_lufs := None; lm_peak_db := to_db peak;
                     lm_rms_db := rms_db_of s'; lm_gain_db := to_db gain0 |})
    end.

  (** normalization.rs:325-398 normalize_rms. *)
  Definition normalize_rms (s : list f32) (target_db headroom : f32)
    : outcome (list f32 * loudness_meta) :=
    match s with
    | [] => Err InvalidInput
    | _ =>
        let rms := rms_of s in
        if fle rms eps10 then Ok (s, quiet_meta)
        else
          let rms_db := to_db rms in
          let peak := peak_of s in
          let peak_db := to_db peak in
          let target := m_powf L f10 (fdiv (fsub target_db headroom) f20) in
          let gain := fdiv target rms in
          if fgt (fmul peak gain) f1 then
            let g := fdiv f1 peak in
            Ok (apply_gain g s, {| lm_lufs := None; lm_peak_db := peak_db; lm_rms_db := rms_db;
                                   lm_gain_db := to_db g |})
          else
            Ok (apply_gain gain s, {| lm_lufs := None; lm_peak_db := peak_db; lm_rms_db := rms_db;
                                      lm_gain_db := to_db gain |})
    end.

  (** normalization.rs:112-158 KWeightingFilter::new: the coefficients (b0,b1,b2,a1,a2). *)
  Record kfilter := { kf_b0 : f32; kf_b1 : f32; kf_b2 : f32; kf_a1 : f32; kf_a2 : f32 }.
  Definition kweight (sr : f32) : kfilter :=
    let w0 := fdiv (fmul (fmul f2 (lit 13176795 (-22))) (lit 13778735 (-13))) sr in
    let c := m_cos L w0 in
    let alpha := fmul (fdiv (m_sin L w0) f2) (fsqrt (fdiv f1 (lit 2965373 (-22)))) in
    let b0 := fdiv (fadd f1 c) f2 in
    let b1 := fneg (fadd f1 c) in
    let a0 := fadd f1 alpha in
    let a1 := fmul (fneg f2) c in
    let a2 := fsub f1 alpha in
    {| kf_b0 := fdiv b0 a0; kf_b1 := fdiv b1 a0; kf_b2 := fdiv b0 a0;
       kf_a1 := fdiv a1 a0; kf_a2 := fdiv a2 a0 |}.
  (** normalization.rs:161-167 process, mapped over the samples with state (x1,x2). *)
  Fixpoint kprocess (k : kfilter) (x1 x2 : f32) (s : list f32) : list f32 :=
    match s with
    | [] => []
    | x :: r =>
        let o := fadd (fmul (kf_b0 k) x) x1 in
        let x1' := fsub (fadd (fmul (kf_b1 k) x) x2) (fmul (kf_a1 k) o) in
        let x2' := fsub (fmul (kf_b2 k) x) (fmul (kf_a2 k) o) in
        o :: kprocess k x1' x2' r
    end.

  (** normalization.rs:211-226: blocks of block_size samples (the last may be shorter). *)
  Fixpoint chunks (fuel bs : nat) (s : list f32) : list (list f32) :=
    match fuel, s with
    | _, [] => []
    | O, _ => []
    | S n, _ => firstn bs s :: chunks n bs (skipn bs s)
    end.
  (** normalization.rs:185-259 calculate_lufs. *)
  Definition calculate_lufs (s : list f32) (sr : f32) : outcome f32 :=
    match s with
    | [] => Err InvalidInput
    | _ =>
        if fle sr f0 then Err InvalidInput
        else
          let bs := f2usize (fdiv (fmul sr (z2f 400)) (z2f 1000)) in
          if (bs =? 0)%Z then Err InvalidInput
          else
            let filtered := kprocess (kweight sr) f0 f0 s in
            (* a block never needs more than length s samples *)
            let bn := Z.to_nat (Z.min bs (Z.of_nat (length s))) in
            let energies := map (fun b => fdiv (fsum (map (fun x => fmul x x) b)) (n2f (length b)))
                                (chunks (length s) bn filtered) in
            let gate := m_powf L f10 (fdiv (fadd (fneg (z2f 70)) (lit 362283 (-19))) f10) in
            let gated := filter (fun e => fgt e gate) energies in
            match gated with
            | [] => Ok fninf
            | _ =>
                let mean := fdiv (fsum gated) (n2f (length gated)) in
                if fle mean eps10 then Err NumericalError
                else Ok (fadd (fneg (lit 362283 (-19))) (fmul f10 (m_log10 L mean)))
            end
    end.

  (** normalization.rs:401-484 normalize_lufs. *)
  Definition normalize_lufs (s : list f32) (target_lufs headroom sr : f32)
    : outcome (list f32 * loudness_meta) :=
    match s with
    | [] => Err InvalidInput
    | _ =>
        let! measured := calculate_lufs s sr in
        if feq measured fninf then normalize_peak s headroom
        else
          let gain_db := fsub target_lufs measured in
          let gain := m_powf L f10 (fdiv gain_db f20) in
          let peak := peak_of s in
          let peak_db := to_db peak in
          let target := m_powf L f10 (fdiv (fsub f0 headroom) f20) in
          if fgt (fmul peak gain) target then
            let g := fdiv target peak in
            let s' := apply_gain g s in
            Ok (s', {| lm_lufs := Some measured; lm_peak_db := peak_db;
                       lm_rms_db := rms_db_of s'; lm_gain_db := to_db g |})
          else
            let s' := apply_gain gain s in
            Ok (s', {| lm_lufs := Some measured; lm_peak_db := peak_db;
                       lm_rms_db := rms_db_of s'; lm_gain_db := gain_db |})
    end.

  (** normalization.rs:520-547 normalize. *)
  Definition normalize (s : list f32) (c : norm_config) (sr : f32) : outcome (list f32 * loudness_meta) :=
    match nc_method c with
    | NPeak => normalize_peak s (nc_headroom_db c)
    | NRms => normalize_rms s (fadd (nc_target_lufs c) (z2f 3)) (nc_headroom_db c)
    | NLoudness => normalize_lufs s (nc_target_lufs c) (nc_headroom_db c) sr
    end.
End Norm.
