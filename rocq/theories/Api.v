(** The remaining public functions of the crate: wrappers with fixed arguments, accessors, the unused prior of the
    Bayesian tracker, the machine-learning placeholders (src/ml/, feature "ml") and the metadata default. *)
From Coq Require Import ZArith String.
From Verif Require Import Rust F32 Libm PeakPicking Autocorrelation Silence Confidence Bayesian Chroma KeyFeatures CandidateFilter
  Tempogram Pipeline.

(** tempogram.rs:155-173 estimate_bpm_tempogram. *)
Definition estimate_bpm_tempogram (F : fft_oracle) (L : libm) (fuel : nat) (spec : list (list f32)) (rate hop : nat)
    (min_bpm max_bpm res : f32) : Tempogram.run estimate :=
  let* r := tempogram_impl F L fuel spec rate hop min_bpm max_bpm res None in Some (Ok (fst r)).
(** tempogram.rs:176-195 estimate_bpm_tempogram_band_fusion. *)
Definition estimate_bpm_tempogram_band_fusion (F : fft_oracle) (L : libm) (fuel : nat) (spec : list (list f32))
    (rate hop : nat) (min_bpm max_bpm res : f32) (cfg : band_config) : Tempogram.run estimate :=
  let* r := tempogram_impl F L fuel spec rate hop min_bpm max_bpm res (Some cfg) in Some (Ok (fst r)).

(** extractor.rs:208-215 extract_chroma. *)
Definition extract_chroma_default (F : fft_oracle) (L : libm) (samples : list f32) (rate frame hop : nat)
  : outcome (list (list f32)) :=
  extract_chroma F L samples rate frame hop true fhalf.
(** extractor.rs:987-1025 extract_chroma_from_spectrogram_with_options (frame_to_chroma, 376-391, is the tuning 0). *)
Definition extract_chroma_plain (L : libm) (rate fft : nat) (soft : bool) (sigma : f32) (spec : list (list f32))
  : outcome (list (list f32)) :=
  if Nat.eqb (List.length spec) 0 then Ok []
  else
    let! _ := check_shape spec in
    oseq (map (frame_to_chroma L rate fft soft sigma f0) spec).
(** extractor.rs:1028-1043 extract_chroma_from_spectrogram_with_options_and_energy. *)
Definition extract_chroma_energy (L : libm) (rate fft : nat) (soft : bool) (sigma : f32) (spec : list (list f32))
  : outcome (list (list f32) * list f32) :=
  extract_chroma_spec L rate fft soft sigma f0 spec.

(** bayesian.rs:261-272 compute_prior. *)
Definition prior_sigma : f32 := f2.
Definition compute_prior (exp : f32 -> f32) (st : tracker) (bpm : f32) : f32 :=
  let bpm_diff := fabs (fsub bpm (bt_bpm st)) in
  let sigma_sq := fmul prior_sigma prior_sigma in
  if fle sigma_sq eps10 then f0
  else
    let diff_sq := fmul bpm_diff bpm_diff in
    exp (fdiv (fneg diff_sq) (fmul f2 sigma_sq)).
(** bayesian.rs:275-287 get_bpm, get_confidence, get_history are the projections of [tracker]. *)

(** src/ml/onnx_model.rs:9-40 OnnxModel: the struct has no fields; load and infer. *)
Inductive onnx_model := OnnxModel.
Definition onnx_load (path : string) : outcome onnx_model := Err NotImplemented.
Definition onnx_infer (m : onnx_model) (features : list f32) : outcome f32 := Err NotImplemented.
(** src/ml/refinement.rs:21-30 refine_with_ml. *)
Definition refine_with_ml (initial : full_result) (features : list f32) (m : onnx_model) : outcome full_result :=
  Err NotImplemented.
(** src/ml/edge_cases.rs:16-20 detect_edge_cases. *)
Definition detect_edge_cases (r : full_result) : list string := [].

(** src/analysis/metadata.rs:7-29 AnalysisMetadata and its default; the version string is the crate's and is left out. *)
Record analysis_metadata := { am_consensus : f32; am_methods : list string; am_flags : list flag }.
Definition default_metadata : analysis_metadata := {| am_consensus := f0; am_methods := []; am_flags := [] |}.

(** silence.rs:41-47 SilenceDetector::default. *)
Definition default_detector : detector :=
  {| sd_threshold_db := fneg (z2f 40); sd_min_duration_ms := 500%Z; sd_frame_size := 2048 |}.
