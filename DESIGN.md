# Formal model of stratum-dsp in Rocq (Coq 8.16.1)

`rocq/theories` holds an executable model of the whole `analyze_audio`
pipeline of /repo and the theorems about it. `properties.jsonl` states the
properties in English, `MANIFEST.json` maps each one to its theorems, and
`seeded/LOG.jsonl` records the wrong programs the theorems were tried on.

Per area there are three kinds of files: `<Area>.v` (model, follows the Rust
source), `<Area>Proofs.v` (lemmas) and `<Area>Props.v` (the theorems
`Cnn_...`, each followed by `Print Assumptions` and by concrete `Example`s).

## How the code is modelled

The model is a set of total, computable Gallina functions that follow the Rust
functions one by one. Every definition carries a comment with the file and the
lines it models; every deviation is stated in that comment.

* **f32** is IEEE-754 binary32 exactly: Flocq's `binary_float 24 128` (one
  NaN), round-to-nearest-even, with `+ - * / sqrt abs neg`, comparisons,
  `max/min` (NaN-ignoring), `clamp` (panics on bad bounds), `floor/ceil/round`
  and saturating casts (`F32.v`). Overflow to infinity, NaN propagation, signed
  zero and every rounding error are part of the model; nothing is idealised to
  the reals. Literals are written as `lit mantissa exponent`, the binary32
  number the Rust literal denotes.
* **Panics** are data: `outcome A := Ok a | Err e | Panic`. Out-of-range
  indexing, `unwrap` on `None`, division by zero, `clamp` with bad bounds and
  integer overflow or underflow at the places where the code can reach them are
  `Panic`. (The crate's release profile wraps on overflow; the model takes the
  debug behaviour, and the theorems about panics name the inputs.)
* **usize/u32** values are `nat`; bounds such as 2^64 appear where the code
  depends on them.
* **Loops** over slices are structural recursion and folds. `while` loops whose
  termination depends on floats are run on fuel and return `None` when it is
  exhausted (`run A := option (outcome A)`). Termination is a theorem, with an
  explicit fuel bound, or refuted (C20, C32, C34).
* **Platform functions** are parameters (see "Oracles").
* **Sorting** is a stable insertion sort for comparators that are total
  preorders on the data at hand (the stable result is then unique).
  `select_nth_unstable` is an oracle.
* **HashMap** iteration order is an oracle returning a permutation.
* Warning texts are modelled; error messages are not (only the error variant
  is). Log output, timing and memory use are not modelled.

### Source file to model file

| src/ | model | properties |
|------|-------|------------|
| lib.rs 86-959, 1560-1635 | Pipeline.v | C44 C45 C68 C69 C70 C72 |
| lib.rs 960-1559 (key stage) | KeyStage.v | C71 C72 C94 C97 |
| config.rs | Config.v | C72 and hypotheses elsewhere |
| preprocessing/channel_mixer.rs | ChannelMixer.v | C01 |
| preprocessing/silence.rs | Silence.v | C02 C03 C04 C47 C48 |
| preprocessing/normalization.rs | Normalization.v | C05 C06 C49 C74 |
| analysis/result.rs (keys) | KeyNotation.v | C07 C08 |
| analysis/confidence.rs | Confidence.v | C42 C43 C46 |
| analysis/metadata.rs, ml/* | Api.v | C75 |
| features/onset/threshold.rs | Threshold.v | C09 |
| features/onset/{spectral_flux,hfc,energy_flux}.rs | Onsets.v | C10 C11 C50 C80 |
| features/onset/hpss.rs | Hpss.v, Onsets.v | C15 C51 C84, C10 |
| features/onset/consensus.rs | Consensus.v | C12 C13 C14 C68 |
| features/period/peak_picking.rs | PeakPicking.v | C16 C17 |
| features/period/autocorrelation.rs | Autocorrelation.v | C18 C76 |
| features/period/comb_filter.rs | CombFilter.v, BpmLoop.v | C19 C20 C52 |
| features/period/candidate_filter.rs, mod.rs | CandidateFilter.v | C21 C22 C23 C24 C54 |
| features/period/novelty.rs | Novelty.v | C25 C55 C81 C82 |
| features/period/tempogram_{autocorr,fft}.rs | TempoSpectra.v | C20 C26 C53 C79 C83 |
| features/period/tempogram.rs | Tempogram.v | C27 C73 |
| features/period/multi_resolution.rs | MultiResolution.v | C28 C61 C77 |
| features/beat_tracking/hmm.rs | Hmm.v | C29 C30 |
| features/beat_tracking/bayesian.rs | Bayesian.v, Api.v | C31 C75 C85 |
| features/beat_tracking/tempo_variation.rs | TempoVariation.v | C32 C90 |
| features/beat_tracking/mod.rs | BeatGrid.v | C33 C34 C70 |
| features/beat_tracking/time_signature.rs | TimeSignature.v | C35 C87 |
| features/chroma/extractor.rs (STFT, plain chroma) | Chroma.v | C41 C59 C78 C88 C96 |
| features/chroma/extractor.rs (tuning, HPCP, log-frequency, beat-synchronous, masks) | KeyFeatures.v | C62-C67 C89 C91-C93 |
| features/chroma/{smoothing,normalization}.rs | Chroma.v | C40 C60 |
| features/key/templates.rs | KeyTemplates.v | C37 C86 C95 |
| features/key/{detector,key_clarity}.rs | KeyDetector.v | C36 C38 C56 C57 C58 C86 C95 |
| features/key/key_changes.rs | KeyChanges.v | C39 |

### Not modelled

* error message texts, `log::` output, the `eprintln!` dumps behind
  `debug_track_id` and the other `debug_*` settings, wall-clock measurements
  (`processing_time_ms`);
* everything outside `src/`: examples, benches, scripts, tests;
* memory exhaustion and stack overflow;
* the bodies of rustfft and of the platform's mathematics functions (oracles);
* the difference between debug and release builds on integer overflow (debug
  behaviour is taken).

## Oracles and what is assumed of them

Theorems quantify over all oracles. A fact about an oracle is needed only where
a theorem has it as a hypothesis; these are the only such predicates.

| predicate (file) | content |
|---|---|
| `exp_ok` (HmmBeatsProofs) | exp maps x <= 0 into [0,1], exp(-inf) = 0 |
| `powf_ok` (NormalizationProps) | 10^y is non-negative unless NaN |
| `unit_bound` (LoudnessProps) | a sine or cosine is finite and in [-1,1] |
| `cos_bounds` (TempogramValueProofs) | the cosine of a finite number is in [-1,1] |
| `ln_bounds` (NoveltyProps) | ln of a finite x >= 1 is in [0,100] |
| `log2_mono` (LogFrequencyProofs) | log2 is monotone on positive numbers |
| `chroma_libm` (ChromaValueProofs) | x^0.6, exp and log2 keep the stated magnitude bounds |
| `hpcp_libm`, `tuning_libm` (HpcpProps, TuningProps) | powf keeps magnitude bounds; atan2 in [-pi,pi]; powi maps [0,1] into itself |
| `HpcpProps.select_ok` | select_nth_unstable returns the k largest |
| `key_ln`, `key_powf` (KeyStageProofs) | ln on (0,1] is moderate, ln 1 = 0, ln 12 in [1,3]; powf keeps [0,1] |
| `fft_bounds`, `fft_sane`, `fft_upto` | the FFT of bounded input is bounded |
| `honest` (KeyDetectorProofs) | HashMap iteration visits every entry once |
| `accurate F N e` (AutocorrelationValueProofs) | both transforms of length N are within e times the sum of input magnitudes (plus 2^-100, for underflow) of the exact DFT |
| `cos_accurate L d` (SpectrumFacts) | the cosine of a finite x with abs x <= 7 is finite and within d of the exact one |
| `ln_accurate f e` (NoveltyStrengthFacts) | the logarithm of a finite x in [1,2^31] is finite, not negative and within e of the exact one |
| `exp_accurate f e` (BayesianLikelihoodProps) | the exponential of a finite x <= 0 is finite, not negative and within e of the exact one |
| `log2_accurate f e` (ChromaPitchFacts) | the binary logarithm of a finite x in [1/8,16] is finite and within e of the exact one |
| `pow_accurate f e` (ChromaPitchFacts) | x^0.6 for x in [0,2^50] is finite and has relative error at most e |
| `powf_accurate f e`, `powi_accurate f e` (HpcpPitchFacts) | x^p for x in [0,2^30], p in [0.05,1], and d^n for d in [0,1], n <= 15, are finite with relative error at most e plus 2^-149 |
| `sin_accurate L d` (TuningValueProps) | as `cos_accurate`, for the sine |
| `root_accurate L d` (TuningValueProps) | powf(x, 0.5) for x in [0,2^40] is finite and has relative error at most d |
| `atan2_accurate P d` (TuningValueProps) | atan2 of (r sin a, r cos a), r > 0, abs a < pi, is finite and within d of a |
| `gauss_exp` (ApiProps) | exp is monotone, in [0,1] for non-positive arguments, 1 at zero |
| `key_libm`, `key_math`, `key_ready` | conjunctions of the above plus size limits on the recording |

That none of these is contradictory is shown by the `Example`s, which
instantiate them with concrete functions (`PipelineCases.v` runs the complete
analysis with such toy platforms). `ExactPlatform.v` defines the platform that
rounds the exact transform and the exact elementary functions, and shows that it
is `accurate` at every length up to 2^40 and `cos_accurate`, both to 2^-23, and
`ln_accurate` to 2^-18, `exp_accurate` to 2^-23. For the other accuracy
predicates `C88_platform`, `C89_platform`, `C91_platform`, `C93_platform` and `C94_platform` show
the same of correctly rounded functions.

## Properties and proof methods

| id | method |
|----|--------|
| C01 | pointwise map lemma; bound via monotonicity of rounding |
| C02-C04, C47, C48 | invariant of the run-length scan; C04, C47, C48 have refuted remainders |
| C05, C06, C49 | the gain is one factor; `p * fl(1/p) <= 1` error analysis |
| C07, C08 | sweep over 24 keys lifted to u32 mod 12; parser on byte lists |
| C09 | order statistics of sorted lists |
| C10, C11, C50 | generic peak-pick skeleton, sortedness |
| C12-C14 | partition invariant of greedy clustering |
| C15, C51 | invariant through the iteration; masks sum to the input |
| C16, C17 | greedy suppression invariant |
| C18 | filter and sort; index to tempo conversion |
| C19, C20, C52, C53 | fuel loops with strict progress |
| C21-C24, C54 | grouping invariant; interval reasoning |
| C25, C55 | division by the maximum; magnitude budget |
| C26-C28, C61 | candidate-set invariants |
| C29, C30 | induction over frames, monotonicity of rounded products |
| C31 | invariant over operation sequences |
| C32-C35 | fuel loop progress, list invariants, rounding of means |
| C36-C39, C56, C57 | permutation and sortedness; magnitude bounds of scores |
| C58 | both modes are divided by their maximum, x/x = 1 |
| C40, C41, C59, C60 | shape lemmas; error analysis of Euclidean normalisation |
| C42, C43, C46 | interval reasoning, monotonicity of rounding |
| C44, C45, C68-C70 | decision tables over the stage outcomes |
| C62-C67 | scatter and prefix-sum views; error bounds |
| C71 | magnitude budget through all paths of the key stage |
| C72 | non-interference: equality of two runs, setting by setting |
| C73 | the score of a candidate as an explicit expression; arg max |
| C74 | the filter as its difference equation; gate as a filter of blocks |
| C75 | the wrappers and stubs of the public interface |
| C76 | discrete Fourier transform over the reals, Wiener-Khinchin theorem (FourierFacts.v), error analysis of power and inverse |
| C77 | readings as lists of factors, nearest-candidate relation, first-best relation, positions modulo the period |
| C80 | error analysis of the four onset strengths (OnsetStrengthFacts.v); rank of the percentile threshold |
| C81 | vectors with relative and absolute coordinate errors, window maxima, log compression and triangular sums (NoveltyStrengthFacts.v) |
| C82 | stage by stage over the reals |
| C83 | error analysis of lag and mean product; lags that are no multiple of the pulse period have product 0 |
| C84 | a value held by more than half of a window is its median; loop invariant on tone and click cells |
| C85 | off_beat (distance to the nearest multiple); rounding error of every operation of the grid distance; sums of negated terms; Sterbenz for the tempo change |
| C86 | rounding of the weighted dot products; the circle bonus keeps the order at the top; templates against the published ratings and the leads of all 24 keys by integer evaluation |
| C87 | relative error of the interval means and of 1/(1+q); root mean square is 1-Lipschitz in the deviations, so the cancelling variance costs only the error of the mean |
| C88 | error of log2 of the bin frequency, so that rounding finds the note; f32 remainder proved exact; Gaussian is Lipschitz with constant 0.71/sigma; relative error of the sums; normalisation is 1-Lipschitz in the Euclidean norm |
| C89 | as C88, for the pairs of a peak and a harmonic; absolute error terms for underflowing powers; for a single tone, the octave harmonics keep the class and the third lands nineteen semitones up |
| C90 | the beats of a window are one piece of the list (at most 80 of them); mean and deviation as in C87; window starts by induction over the loop; least squares around the mean for steady tracks |
| C91 | each bin's share is a 1-Lipschitz triangle of its pitch, so the error of the pitch (C88) bounds the error of the share; relative error of the sums; an absolute term for underflow |
| C92 | from C91 by summing the semitone bins of a class; the triangles add up to one, so the total magnitude is at most sqrt 12 times the length of the class vector; normalisation as in C88 |
| C93 | from C64: sums of signed terms with a relative bound on the total weight, rotation of the weighted mean by the detuning, and the direction of a vector near an axis through atan; sine and cosine forget which note was rounded to |
| C94 | C93 for the offset, a clamp that never increases distances, and C88 for the chroma: the compensated bins round to their own notes |
| C95 | from C86: the published ratings depend on the interval from the tonic only, and a sum around the circle of twelve may start anywhere |
| C96 | from C88: strengths are homogeneous in the magnitudes, and the factor cancels in the normalisation |
| C97 | C94 composed with C86: the errors of the frames add up to less than the distance of a key's profile from the others |
| C78, C79 | error analysis of window, transform and magnitude (SpectrumFacts.v); trigonometric sums and the leakage of the Hann window over the reals (ToneFacts.v) |

A claim is `partial` when its full statement is false of the model. The
theorem then covers the stated part, and the rest is refuted by a concrete
input (`_refuted`) in the same file; the manifest note says which part.

## What the proofs found in the code

Behaviour that follows from the theorems and that a user might not expect:

* Silence: frame size 1 divides by zero (C04); the tail after the last whole
  frame is cut even if loud (C47); trailing silence shorter than the minimum
  duration is kept (C48).
* Loudness: the "K weighting" is a high-pass with zero gain at DC, not a shelf,
  and the filter is unstable below 3364 Hz (C74). Negative headroom makes the
  reported peak gain differ from the applied one (C49).
* Keys: `from_numerical` panics on strings that end in a multi-byte character
  (C08).
* Novelty: the centre bin of every mel filter counts twice (C81); the moving
  average is taken over fewer frames at the ends and can move the maximum (C82).
* Autocorrelation tempogram: the strength depends only on the number of whole
  frames in a beat, so neighbouring tempi tie, the lowest of them is reported
  and its confidence is 0 (C83).
* Onset voting: NaN weights pass validation (C13); positions beyond 2^31 are
  truncated (C14).
* Tempo loops: with a resolution below one ulp of the tempo the search never
  ends (C20); the same holds for tempo variation and beat tracking beyond
  2^25 s (C32, C34).
* Tempo choice: consensus boosts lift confidences above 1 (C22); the final
  octave fold of the multi-resolution estimator ignores the requested range
  (C28); a tempo kept because the alternative leads too little escapes the
  penalty for extreme tempi (C77); with a candidate limit the reported tempo may be missing from the
  candidate list (C27).
* Beat tracking: the HMM always decodes the slowest state, and its beats do not
  depend on the path (C29, C30); a single onset always slows the Bayesian
  tracker down (C31); a steady beat is reported as 6/8 (C35), and so is every exact three-beat pattern: 3/4 needs a drift (C87).
* Key detection: the best major and the best minor key always tie, so the
  confidence is always zero (C58) and the mode depends on hash order (C56);
  key changes are never reported on audible chroma (C39); mode flips report
  confidence 0 (C57); the key chosen by the median detector may be missing from
  its own list (C57).
* Key features: inverted bands, a NaN `key_tuning_max_abs` and sample rates
  too low for the band panic (C63, C64, C66, C72); frames after the last beat
  are never used (C67); a NaN bin counts as a spectral peak (C65).
* Settings: `enable_key_median`, `key_median_*`, `center_frequency` and
  `tempogram_multi_res_structural_discount` have no effect (C72).

## Trusted base

* The kernel of Coq 8.16.1, including `vm_compute`.
* The axioms that `Print Assumptions` lists after each theorem. All come from
  the standard library, and most theorems use exactly these four, through
  Flocq's real numbers:
  `ClassicalDedekindReals.sig_forall_dec`, `ClassicalDedekindReals.sig_not_dec`,
  `Classical_Prop.classic`,
  `FunctionalExtensionality.functional_extensionality_dep`.
  Theorems that do not touch floats are closed under the global context (C07,
  C08, C29_empty, C40_nan_refuted, C57_median_errors). The development adds no
  axiom.
* That Flocq's binary32 operations are those of the target, and that the oracle
  hypotheses above hold of the target's mathematics library and of rustfft.
* The reading of the Rust source that the comments cite: the correspondence
  between a definition and the lines it names is by inspection.
