{"id": "C01", "title": "Stereo down-mix is sample-wise, length preserving and bounded", "statement": "stereo_to_mono(l,r,mode) fails with InvalidInput exactly when the channels differ in length; otherwise it returns one output per input frame, output i depending only on l[i], r[i] and the mode: the rounded mid value (l+r)*0.5 for Mono/MidSide/Center and the louder of the two samples (left on ties) for Dominant. If all inputs lie in [-1,1], so do all outputs, and Mono is symmetric in its channels.", "quantifier": "all pairs of f32 slices of any length (incl. NaN/inf samples) and all four modes", "why_tests_cant": "the claim ranges over all 2^64 sample pairs and all lengths; rounding and special values cannot be enumerated", "anchors": ["src/preprocessing/channel_mixer.rs: stereo_to_mono"]}
{"id": "C02", "title": "Silence trimming returns one contiguous piece of the input", "statement": "When detect_and_trim succeeds, the returned samples are a contiguous sub-slice of the input, in order and unmodified, and removed samples are only at the front and the back.", "quantifier": "all sample vectors, all sample rates, all detector settings", "why_tests_cant": "slice arithmetic over frame/hop/length combinations; off-by-one faults occur only for particular remainders", "anchors": ["src/preprocessing/silence.rs: detect_and_trim"]}
{"id": "C03", "title": "Silence map is ordered, disjoint and inside the track", "statement": "The silence regions returned by detect_and_trim are non-empty, lie within [0, samples.len()], are strictly increasing and do not overlap, and the removed prefix/suffix are exactly regions of that map that touch the beginning/end.", "quantifier": "all sample vectors and all settings with frame_size >= 2", "why_tests_cant": "region bookkeeping depends on every run-length pattern of silent frames", "anchors": ["src/preprocessing/silence.rs: detect_and_trim"]}
{"id": "C04", "title": "Silence detection rejects bad settings instead of crashing", "statement": "detect_and_trim never panics: zero sample rate or frame size is reported as InvalidInput and every other setting yields Ok.", "quantifier": "all inputs and settings", "why_tests_cant": "a single boundary setting (frame_size = 1) is enough to break it; tests use 1024/2048", "anchors": ["src/preprocessing/silence.rs: detect_and_trim"]}
{"id": "C05", "title": "Normalisation is one uniform gain", "statement": "Peak and RMS normalisation never change the number of samples and multiply every sample by one and the same factor (1 for quiet/empty audio), so silence stays silence and no sample is reordered.", "quantifier": "all sample vectors, targets and headroom settings", "why_tests_cant": "needs all vectors of all lengths", "anchors": ["src/preprocessing/normalization.rs: normalize_peak, normalize_rms, normalize"]}
{"id": "C06", "title": "Normalised audio never clips", "statement": "After peak normalisation (and after RMS normalisation) of finite audio whose peak does not exceed 2^126 every sample has absolute value at most 1.0, whatever the target level or headroom.", "quantifier": "all finite sample vectors with peak <= 2^126, all targets/headrooms (including NaN/inf)", "why_tests_cant": "one-ulp rounding overshoot of peak*(1/peak) has to be excluded for every f32 peak", "anchors": ["src/preprocessing/normalization.rs: normalize_peak, normalize_rms"]}
{"id": "C07", "title": "Key notation round-trips", "statement": "For every key produced by the library, parsing its numerical (circle-of-fifths) notation gives the key back; the 24 codes are pairwise distinct, have a number in 1..12 and an 'A' (major) or 'B' (minor) suffix; the 24 names are pairwise distinct as well.", "quantifier": "all 24 keys, and all u32 tonic values (mod 12)", "why_tests_cant": "the u32 tonic space is too large to enumerate in tests; injectivity is a statement about pairs", "anchors": ["src/analysis/result.rs: Key::numerical, Key::from_numerical, Key::name"]}
{"id": "C08", "title": "Key parsing accepts exactly number+A/B and never crashes", "statement": "from_numerical returns Some only for strings <n>A / <n>B with 1<=n<=12 and None for every other string, without panicking.", "quantifier": "all UTF-8 strings", "why_tests_cant": "infinite string space; multi-byte characters are the corner case", "anchors": ["src/analysis/result.rs: Key::from_numerical"]}
{"id": "C09", "title": "Adaptive thresholds", "statement": "percentile_threshold of a non-empty NaN-free curve is an element of the curve, is monotone in the percentile and is at least as large as the given fraction of the curve; out-of-range percentiles and empty curves are rejected/handled without panic.", "quantifier": "all curves and percentiles", "why_tests_cant": "order-statistic claim over all vectors", "anchors": ["src/features/onset/threshold.rs: percentile_threshold, adaptive_threshold_median_mad"]}
{"id": "C10", "title": "Spectral onset detectors report strictly increasing in-range frames", "statement": "detect_spectral_flux_onsets, detect_hfc_onsets and detect_hpss_onsets return strictly increasing frame indices, each between 1 and n_frames-1, for any rectangular spectrogram; short or empty spectrograms give an empty list; ragged/empty frames and bad percentiles are errors.", "quantifier": "all spectrograms (any number of frames/bins, any magnitudes) and thresholds", "why_tests_cant": "index/edge handling over all lengths and all plateau shapes", "anchors": ["src/features/onset/spectral_flux.rs: detect_spectral_flux_onsets", "src/features/onset/hfc.rs: detect_hfc_onsets", "src/features/onset/hpss.rs: detect_hpss_onsets"]}
{"id": "C11", "title": "Energy-flux onsets are strictly increasing sample positions inside the track", "statement": "detect_energy_flux_onsets returns strictly increasing sample positions, each a multiple of the hop size and smaller than the number of samples.", "quantifier": "all sample vectors, frame/hop sizes and thresholds accepted by the function", "why_tests_cant": "depends on the arithmetic of all frame/hop/length combinations", "anchors": ["src/features/onset/energy_flux.rs: detect_energy_flux_onsets"]}
{"id": "C12", "title": "Onset voting loses and invents nothing", "statement": "vote_onsets groups all reported onsets: every input onset belongs to exactly one cluster, every candidate represents at least one input onset, its time lies between the smallest and largest onset of its cluster, and the number of candidates is at most the number of onsets.", "quantifier": "all onset lists (positions below 2^31), tolerances and rates", "why_tests_cant": "a partition property over all multi-lists and merge orders", "anchors": ["src/features/onset/consensus.rs: vote_onsets"]}
{"id": "C13", "title": "Onset candidate confidences", "statement": "For finite non-negative weights every candidate has confidence in [0,1], voted_by equal to the number of distinct methods in its cluster (1..4), and candidates are sorted by decreasing confidence.", "quantifier": "all onset lists and weights", "why_tests_cant": "float normalisation over all weight vectors", "anchors": ["src/features/onset/consensus.rs: vote_onsets"]}
{"id": "C14", "title": "Onset voting is exact for long recordings", "statement": "Two onsets farther apart than the tolerance are never considered adjacent, for any usize sample positions.", "quantifier": "all usize positions", "why_tests_cant": "fails only beyond 2^31 samples (i32 truncation), unreachable for unit tests", "anchors": ["src/features/onset/consensus.rs: vote_onsets"]}
{"id": "C15", "title": "HPSS never creates energy", "statement": "hpss_decompose returns two spectrograms of the same shape as the input, and for non-negative finite magnitudes each harmonic/percussive magnitude lies between 0 and the input magnitude.", "quantifier": "all rectangular non-negative spectrograms, margins; any number of refinement iterations", "why_tests_cant": "holds through an iteration whose length depends on the data", "anchors": ["src/features/onset/hpss.rs: hpss_decompose"]}
{"id": "C16", "title": "Peak picking is sound", "statement": "Every (index,value) returned by find_peaks is in range, value = signal[index], is a strict local maximum, reaches the threshold; results are sorted by decreasing value and no index occurs twice.", "quantifier": "all NaN-free signals, thresholds, distances", "why_tests_cant": "all signal shapes incl. plateaus and edges", "anchors": ["src/features/period/peak_picking.rs: find_peaks"]}
{"id": "C17", "title": "Peak picking respects spacing and keeps the best peaks", "statement": "With min_distance = d > 0 any two returned peaks are at least d samples apart, and every qualifying local maximum that is not returned is closer than d to a returned peak that is at least as high (greedy maximality).", "quantifier": "all NaN-free signals shorter than 2^31", "why_tests_cant": "greedy-suppression maximality is a for-all/exists statement", "anchors": ["src/features/period/peak_picking.rs: find_peaks"]}
{"id": "C18", "title": "Legacy autocorrelation candidates are within the requested range", "statement": "estimate_bpm_from_autocorrelation returns only candidates with min_bpm <= bpm <= max_bpm and confidence in [0,1], sorted by decreasing confidence, for whatever values the FFT delivers (excluding NaN).", "quantifier": "all onset lists, rates, hops, ranges; any FFT result", "why_tests_cant": "FFT output cannot be controlled by tests", "anchors": ["src/features/period/autocorrelation.rs: estimate_bpm_from_autocorrelation"]}
{"id": "C19", "title": "Comb filter candidates", "statement": "Whenever estimate_bpm_from_comb_filter returns, all candidates have min_bpm <= bpm <= max_bpm (+1e-10), confidence in [0.1,1], are sorted by decreasing confidence and, if non-empty, the best has confidence exactly 1.", "quantifier": "all onset lists, rates, ranges, resolutions", "why_tests_cant": "accumulated rounding of bpm += resolution", "anchors": ["src/features/period/comb_filter.rs: estimate_bpm_from_comb_filter"]}
{"id": "C20", "title": "BPM search loops terminate", "statement": "For every accepted parameter set the tempo search loops (comb filter, autocorrelation tempogram) finish, visiting at most about (max-min)/resolution+2 tempos.", "quantifier": "all accepted min/max/resolution", "why_tests_cant": "violated only when the resolution is below half an ulp of the BPM: non-termination cannot be tested", "anchors": ["src/features/period/comb_filter.rs: estimate_bpm_from_comb_filter", "src/features/period/tempogram_autocorr.rs: autocorrelation_tempogram"]}
{"id": "C21", "title": "Merging BPM candidates accounts for every candidate", "statement": "merge_bpm_candidates returns a non-empty list iff one of its inputs is non-empty; the agreement counts are positive and add up to the number of candidates grouped (top 10 of each method plus extra in-range autocorrelation ones).", "quantifier": "all candidate lists; any stable or unstable sort", "why_tests_cant": "conservation law over all groupings", "anchors": ["src/features/period/candidate_filter.rs: merge_bpm_candidates"]}
{"id": "C22", "title": "Merged BPM confidence stays a confidence", "statement": "merge_bpm_candidates' documented contract: confidences are in [0,1].", "quantifier": "all candidate lists with confidences in [0,1]", "why_tests_cant": "boosts multiply (1.5*1.4*2); needs a universally valid bound", "anchors": ["src/features/period/candidate_filter.rs: merge_bpm_candidates, boost_consensus_candidates"]}
{"id": "C23", "title": "Merged BPM ordering is a real ordering", "statement": "The comparison used to rank merged BPM estimates is a total preorder (transitive), so that the ranking is well defined.", "quantifier": "all triples of estimates", "why_tests_cant": "transitivity is a for-all statement over triples of floats", "anchors": ["src/features/period/candidate_filter.rs: merge_bpm_candidates"]}
{"id": "C24", "title": "Guardrails only rescale", "statement": "Legacy guardrails are sanitised to soft_min<=preferred_min<=preferred_max<=soft_max and finite non-negative multipliers; applying them never changes a BPM value, only the confidence, and the final answer is one of the merged estimates.", "quantifier": "all guardrail settings incl. NaN/inf and reversed bounds", "why_tests_cant": "7 free floats", "anchors": ["src/features/period/mod.rs: LegacyBpmGuardrails, estimate_bpm_internal"]}
{"id": "C25", "title": "Novelty curves are normalised", "statement": "spectral/energy/HFC/superflux novelty curves have one value per frame transition and all values are in [0,1] for finite non-negative spectrograms whose flux does not overflow; combined_novelty output is in [0,1] with the length of the shortest input.", "quantifier": "all rectangular spectrograms and weights", "why_tests_cant": "float division x/max <= 1 for all floats", "anchors": ["src/features/period/novelty.rs"]}
{"id": "C26", "title": "Autocorrelation tempogram", "statement": "autocorrelation_tempogram returns exactly the visited tempos, all in [min_bpm,max_bpm], sorted by decreasing strength; find_best_bpm_* returns the first entry and a confidence in [0,1].", "quantifier": "all novelty curves and parameters", "why_tests_cant": "all curves", "anchors": ["src/features/period/tempogram_autocorr.rs", "src/features/period/tempogram_fft.rs"]}
{"id": "C27", "title": "Tempogram BPM stays in the requested range", "statement": "estimate_bpm_tempogram* returns min_bpm <= bpm <= max_bpm, confidence in [0,1], method_agreement <= 2; all reported candidates are in range and pairwise at least 0.75 BPM apart, sorted by decreasing score, and the chosen tempo is one of them and flagged as selected.", "quantifier": "all FFT/autocorrelation tempograms, ranges, resolutions, band configurations", "why_tests_cant": "folding/dedup over arbitrary candidate sets", "anchors": ["src/features/period/tempogram.rs: estimate_bpm_tempogram_impl"]}
{"id": "C28", "title": "Multi-resolution BPM stays in the requested range", "statement": "multi_resolution_tempogram_from_samples returns a BPM within [min_bpm,max_bpm], confidence in [0,1] and agreement <= 3.", "quantifier": "all candidate lists from the three hops and all fusion weights", "why_tests_cant": "fold-up/fold-down corner cases at the edge of the range", "anchors": ["src/features/period/multi_resolution.rs: multi_resolution_tempogram_from_samples"]}
{"id": "C29", "title": "Viterbi decoding is optimal", "statement": "The tempo-state path chosen by the HMM beat tracker has one state per frame and no state sequence has a larger (floating-point) probability.", "quantifier": "all observation matrices with probabilities in [0,1], any number of frames", "why_tests_cant": "exponentially many paths", "anchors": ["src/features/beat_tracking/hmm.rs: viterbi_forward_pass"]}
{"id": "C30", "title": "HMM beats do not depend on the decoded path", "statement": "The beat positions reported by track_beats are determined by the frames whose emission exceeds the threshold; they are non-decreasing and start no earlier than the first onset, with confidence in [0,1].", "quantifier": "all onset lists and tempi", "why_tests_cant": "data-dependent path", "anchors": ["src/features/beat_tracking/hmm.rs: track_beats, extract_beats_from_path"]}
{"id": "C31", "title": "Bayesian tempo tracker invariant", "statement": "After any sequence of updates, failed or successful: confidence is in [0,1] (once updated), the tempo history grows by exactly one entry per successful update and ends with the current tempo, a failed update changes nothing, and one update moves the tempo by at most 5 BPM and keeps it in [60,180] or leaves it unchanged.", "quantifier": "all initial states and all update sequences of any length", "why_tests_cant": "statement about every history of operations", "anchors": ["src/features/beat_tracking/bayesian.rs: BayesianBeatTracker::update_with_onsets"]}
{"id": "C32", "title": "Tempo-variation analysis terminates and covers the track", "statement": "detect_tempo_variations terminates for all beat lists, returns at least one segment, segments start in increasing order and end after they start.", "quantifier": "all beat lists", "why_tests_cant": "non-termination for large time stamps cannot be found by running", "anchors": ["src/features/beat_tracking/tempo_variation.rs: detect_tempo_variations"]}
{"id": "C33", "title": "Beat grid consistency", "statement": "For every successfully generated grid: beats are in ascending order, downbeats are a subsequence of the beats, the first downbeat is the first beat, bars equal the downbeats, stability is in [0,1].", "quantifier": "all onset lists and tempi", "why_tests_cant": "all grids", "anchors": ["src/features/beat_tracking/mod.rs: generate_beat_grid, generate_beat_grid_from_positions_with_time_sig, detect_downbeats_with_time_sig, calculate_grid_stability"]}
{"id": "C34", "title": "Beat tracking never crashes", "statement": "generate_beat_grid reports errors for unusable input and never panics.", "quantifier": "all f32 inputs incl. NaN", "why_tests_cant": "NaN and huge inputs", "anchors": ["src/features/beat_tracking/mod.rs: generate_beat_grid"]}
{"id": "C35", "title": "Time signature detection", "statement": "detect_time_signature returns one of 4/4, 3/4, 6/8 with confidence in [0,1]; fewer than 8 beats give 4/4 with 0.5; for finite input it never panics.", "quantifier": "all beat lists and tempi", "why_tests_cant": "all lists", "anchors": ["src/features/beat_tracking/time_signature.rs: detect_time_signature"]}
{"id": "C36", "title": "Key detection ranks all 24 keys", "statement": "For any non-empty list of 12-bin chroma vectors without NaN scores, key detection returns each of the 24 keys exactly once in all_scores, sorted by decreasing score, top_keys is its 3-element prefix and the confidence is in [0,1].", "quantifier": "all chroma sequences and weights", "why_tests_cant": "all vectors of floats", "anchors": ["src/features/key/detector.rs: detect_key_weighted, detect_key"]}
{"id": "C37", "title": "Key templates are transpositions of one profile", "statement": "The template of tonic k is the tonic-0 template rotated by k semitones, for major and minor; templates have 12 bins.", "quantifier": "all tonics and template sets", "why_tests_cant": "pairs (k, bin)", "anchors": ["src/features/key/templates.rs: KeyTemplates"]}
{"id": "C38", "title": "Key clarity is a confidence", "statement": "compute_key_clarity is in [0,1] for finite scores, 0 for fewer than two scores, and never panics on scores produced by key detection.", "quantifier": "all score lists", "why_tests_cant": "overflow/NaN corner cases", "anchors": ["src/features/key/key_clarity.rs: compute_key_clarity"]}
{"id": "C39", "title": "Key changes are chronological", "statement": "detect_key_changes reports segment boundaries in ascending order, each change has different old and new keys, and segment counts match the track length.", "quantifier": "all chroma sequences, segment lengths and overlaps", "why_tests_cant": "window arithmetic", "anchors": ["src/features/key/key_changes.rs: detect_key_changes"]}
{"id": "C40", "title": "Chroma smoothing preserves shape and range", "statement": "smooth_chroma and smooth_chroma_average return one 12-bin vector per frame; each smoothed value is between the minimum and maximum of that bin over the window (median case: equals such a value or the mean of two).", "quantifier": "all chroma sequences and window sizes", "why_tests_cant": "window edge cases", "anchors": ["src/features/chroma/smoothing.rs"]}
{"id": "C41", "title": "STFT shape", "statement": "compute_stft returns (n-frame)/hop+1 frames of frame/2+1 bins when n >= frame and no frame otherwise; all magnitudes are non-negative or NaN.", "quantifier": "all signals and sizes", "why_tests_cant": "FFT is external", "anchors": ["src/features/chroma/extractor.rs: compute_stft"]}
{"id": "C42", "title": "Overall confidence is a convex combination", "statement": "For component inputs in [0,1], all scores of compute_confidence are in [0,1], BPM<=0 gives zero BPM confidence and the result flags contain the input's flags as a prefix.", "quantifier": "all results", "why_tests_cant": "float rounding of the weighted sum must not exceed 1", "anchors": ["src/analysis/confidence.rs: compute_confidence"]}
{"id": "C43", "title": "Confidence classes partition", "statement": "Exactly one of low/medium/high holds for any non-NaN overall confidence and confidence_level agrees with it.", "quantifier": "all f32", "why_tests_cant": "boundaries", "anchors": ["src/analysis/confidence.rs: is_low_confidence, is_medium_confidence, is_high_confidence, confidence_level"]}
{"id": "C44", "title": "BPM fusion never overrides the tempogram", "statement": "In analyze_audio with fusion enabled, the reported BPM is the tempogram BPM whenever that is positive, confidence is in [0,1] then; legacy is used only as fallback; without fusion the precedence is tempogram, legacy, (0,0).", "quantifier": "all estimator outcomes", "why_tests_cant": "all combinations of optional estimates and floats", "anchors": ["src/lib.rs: analyze_audio (BPM selection)"]}
{"id": "C45", "title": "Warnings and flags match the result", "statement": "analyze_audio's warnings and WeakTonality flag are present exactly when their thresholds are violated, empty input or zero sample rate is InvalidInput, the beat grid is empty unless bpm>0 and at least two onsets exist.", "quantifier": "all results", "why_tests_cant": "decision table over floats", "anchors": ["src/lib.rs: analyze_audio"]}
{"id": "C46", "title": "Overall confidence is monotone in its components", "statement": "If every component score returned by compute_confidence is at least as high for one result as for another, the overall confidence is at least as high too.", "quantifier": "all pairs of analysis results with non-NaN confidences", "why_tests_cant": "It compares arbitrary pairs of results over all float values and all branch combinations.", "anchors": ["src/analysis/confidence.rs:compute_confidence"]}
{"id": "C47", "title": "Trimming only removes silence", "statement": "Every sample that detect_and_trim removes from the signal lies in an analysis frame that was judged silent.", "quantifier": "all samples, sample rates and detector configurations", "why_tests_cant": "It relates the dropped prefix and suffix to frame decisions for all signals; fixtures only exercise a handful of patterns.", "anchors": ["src/preprocessing/silence.rs:SilenceDetector::detect_and_trim"]}
{"id": "C48", "title": "Leading and trailing silence is trimmed whatever its duration", "statement": "If the signal starts (or ends) with silent frames they are trimmed even when the silent stretch is shorter than min_duration_ms, as the code comment promises.", "quantifier": "all samples, sample rates and detector configurations", "why_tests_cant": "Tests use fixed silences longer than the minimum duration.", "anchors": ["src/preprocessing/silence.rs:SilenceDetector::detect_and_trim"]}
{"id": "C49", "title": "Reported gain is the applied gain", "statement": "The gain_db reported in the loudness metadata is 20*log10 of the factor by which the samples were multiplied (0 when they are left alone).", "quantifier": "all sample vectors, methods, targets and headroom settings", "why_tests_cant": "Tests use a positive headroom; the clamp that separates computed from applied gain needs other settings.", "anchors": ["src/preprocessing/normalization.rs: normalize_peak, normalize_rms"]}
{"id": "C50", "title": "Onset frames are isolated and limited by the percentile", "statement": "The spectrogram onset detectors never report two neighbouring frames, and with threshold percentile p they report at most the fraction 1-p of the frame transitions.", "quantifier": "all spectrograms (up to 2^24 transitions for the fraction) and percentiles", "why_tests_cant": "A counting bound over all curves with ties, infinities and NaN inputs.", "anchors": ["src/features/onset/spectral_flux.rs", "src/features/onset/hfc.rs", "src/features/onset/hpss.rs"]}
{"id": "C51", "title": "Harmonic plus percussive is the input", "statement": "The harmonic and percussive components returned by hpss_decompose add up, cell by cell, to the input spectrogram with relative error at most 2^-21 (plus one subnormal quantum 2^-149).", "quantifier": "all rectangular spectrograms with magnitudes in [0, 2^126], all margins", "why_tests_cant": "A rounding-error bound for every cell value and every median the iteration can produce.", "anchors": ["src/features/onset/hpss.rs: hpss_decompose"]}
{"id": "C52", "title": "Exact pulse trains get full confidence at their tempo", "statement": "If the onsets are an exact pulse train (0, P, 2P, ..., nP) and one of the tempos the comb filter tries has exactly the period P, then that tempo is among the candidates with confidence 1.", "quantifier": "all periods, train lengths, sample rates, tempo ranges and resolutions with positions up to 2^24", "why_tests_cant": "Depends on every rounding step of the period and phase arithmetic for every period and train length.", "anchors": ["src/features/period/comb_filter.rs: estimate_bpm_from_comb_filter", "src/features/period/comb_filter.rs: score_bpm_candidate"]}
{"id": "C53", "title": "Tempogram strengths of normalised novelty are normalised", "statement": "If every novelty value is in [0,1], every strength in the autocorrelation tempogram is in [0,1].", "quantifier": "all novelty curves up to 2^24 frames with values in [0,1], all tempo ranges, resolutions, sample rates and hop sizes", "why_tests_cant": "needs that f32 summation of up to 2^24 terms never rounds above the term count", "anchors": ["src/features/period/tempogram_autocorr.rs: autocorrelation_tempogram"]}
{"id": "C54", "title": "The onset-based tempo lies in the requested range", "statement": "estimate_bpm and estimate_bpm_with_guardrails report a tempo between min_bpm and max_bpm, up to a relative averaging error of 2^-13.", "quantifier": "all onset lists, FFT behaviours, guardrails and ranges with 1 <= min_bpm, max_bpm <= 2^90", "why_tests_cant": "combines octave correction, grouping and running means whose rounding accumulates over every possible group", "anchors": ["src/features/period/mod.rs: estimate_bpm_internal", "src/features/period/candidate_filter.rs: merge_bpm_candidates"]}
{"id": "C55", "title": "Novelty extraction is total", "statement": "The spectral, energy and HFC novelty functions (and their band variants) never panic and reject exactly the ragged or zero-width spectrograms (and a zero sample rate for HFC); SuperFlux panics only when n_bins + max_filter overflows usize; mel SuperFlux does not panic.", "quantifier": "all spectrograms, bands, filter widths, sample rates and mel ranges", "why_tests_cant": "the order of validation steps and the panicking corner cases need every input shape", "anchors": ["src/features/period/novelty.rs: validate_spectrogram", "src/features/period/novelty.rs: MelFilterbank::new"]}
{"id": "C56", "title": "The detected key has the best score", "statement": "detect_key_weighted returns a key whose final score is maximal although close calls are put to a vote; the score table never depends on hash-map iteration order, and key and confidence do not when the best score is strict.", "quantifier": "all chroma sequences, templates, weights and hash-map iteration orders", "why_tests_cant": "the iteration order of a HashMap is random per process and the vote runs only for near-ties", "anchors": ["src/features/key/detector.rs: detect_key_weighted"]}
{"id": "C58", "title": "Best major and best minor key always tie and confidence is zero", "statement": "For non-negative chroma with at least one audible counted entry, per-mode normalisation gives one major and one minor key the same best score 1.2, so the reported key confidence is exactly 0; the reported mode then depends on hash-map order when the vote runs.", "quantifier": "all non-negative chroma sequences of magnitude at most 2^46, both template sets, all weights and hash orders", "why_tests_cant": "existing tests accept confidence 0; an exact float equality over all inputs cannot be sampled", "anchors": ["src/features/key/detector.rs: detect_key_weighted"]}
{"id": "C59", "title": "Chroma vectors are unit vectors of pitch-class energies", "statement": "frame_to_chroma returns twelve entries in [0,1] whose squares add up to 1 (within 2^-18) unless the frame is silent; before normalisation class j holds exactly the energies of the in-band bins whose nearest semitone is j (hard mapping) or the Gaussian-weighted energies of the bins within one class of j (soft mapping); a pure tone yields a one-hot vector.", "quantifier": "all finite spectrogram frames, sample rates below 2^32, FFT sizes, tunings up to 2^13 semitones, sigmas (NaN and infinities included); platform powf/exp/log2 bounded as stated", "why_tests_cant": "needs exact accounting of rounding in all accumulation orders and of every band edge", "anchors": ["src/features/chroma/extractor.rs: frame_to_chroma_tuned"]}
{"id": "C60", "title": "Chroma normalisation and sharpening", "statement": "l2_normalize_chroma and sharpen_chroma keep the length, return entries of magnitude at most 1 in the same order, with squares adding up to 1 within 2^-18; vectors of norm at most 1e-10 become the uniform vector 1/sqrt(n).", "quantifier": "all finite vectors (all [0,1] vectors for sharpening), all powers for which the platform powf maps [0,1] into [0,1]", "why_tests_cant": "rounding could push entries above 1 for some vector; only a proof covers all of them", "anchors": ["src/features/chroma/normalization.rs: l2_normalize_chroma", "src/features/chroma/normalization.rs: sharpen_chroma"]}
{"id": "C61", "title": "Consensus of the hop sizes", "statement": "multi_resolution_analysis passes a single success through; if two or three hop sizes agree within 2 BPM of the first it reports their mean tempo and a confidence at least their mean and at most 1, with agreement equal to their number; otherwise it reports the tempo of the most confident one with 0.9 times its confidence and agreement 1. The tempo lies in the searched range and the confidence in [0,1].", "quantifier": "all spectrograms, sample rates, tempo ranges and resolutions; platform FFT, cos and ln bounded as stated for the numeric part", "why_tests_cant": "agreement and disagreement depend on three full tempogram runs; rounding of the mean and NaN confidences cannot be sampled exhaustively", "anchors": ["src/features/period/multi_resolution.rs: multi_resolution_analysis"]}
{"id": "C62", "title": "Time smoothing is a bounded moving average", "statement": "smooth_spectrogram_time keeps the shape, rejects malformed spectrograms, never panics, and for non-negative bounded magnitudes each output is finite, non-negative and equals the mean over the frames at most margin away up to a rounding error proportional to the sum of everything before the window's end (so it may leave the window's value range).", "quantifier": "all spectrograms of up to 2^22 frames, all margins", "why_tests_cant": "prefix-sum cancellation only shows for particular magnitude orders", "anchors": ["src/features/chroma/extractor.rs: smooth_spectrogram_time"]}
{"id": "C63", "title": "Harmonic masks only attenuate", "statement": "harmonic_spectrogram_time_mask and harmonic_spectrogram_hpss_median_mask keep the shape; every output lies between 0 and the (cleaned) input magnitude and equals it times H^p/(H^p+P^p+1e-12) for the stated time average / time and frequency medians; bins outside the band become 0; errors and panics occur exactly for malformed spectrograms and for fmin+1 above the Nyquist frequency.", "quantifier": "all spectrograms, margins, steps, powers", "why_tests_cant": "all magnitudes, band limits and window positions", "anchors": ["src/features/chroma/extractor.rs: harmonic_spectrogram_time_mask", "src/features/chroma/extractor.rs: harmonic_spectrogram_hpss_median_mask"]}
{"id": "C68", "title": "Onsets used by the analysis", "statement": "The onsets analyze_audio works with are exactly the mean positions of the voting clusters confirmed by two methods, of all clusters if no cluster is confirmed, and the energy-flux onsets if there is no vote; they are strictly ascending, lie between the second frame and the end of the signal, and are non-empty whenever the energy detector found something.", "quantifier": "all detector outputs, configurations and sample rates", "why_tests_cant": "the choice depends on the joint output of four detectors; tests fix a few recordings", "anchors": ["src/lib.rs: analyze_audio (onset consensus)", "src/features/onset/consensus.rs: vote_onsets"]}
{"id": "C69", "title": "Tempo escalation is traceable and safe", "statement": "With the multi-resolution escalation on, the tempogram stage reports the single-resolution, multi-resolution or percussive estimate, its flags say which; the escalation is triggered exactly by octave-error zones, competing double/half candidates or weak results; a replacement keeps at least 88% (85%) of the confidence and never lifts a tempo of at most 180 BPM above 180.", "quantifier": "all estimator outcomes, candidate lists and configurations", "why_tests_cant": "decision logic over many float thresholds and three estimators", "anchors": ["src/lib.rs: analyze_audio (tempogram escalation, lines 379-714)"]}
{"id": "C70", "title": "End-to-end tempo and beat grid", "statement": "Every successful analyze_audio reports tempo 0 with confidence 0 or a tempo within the configured range (exactly for the tempogram, up to averaging error for the onset-based estimate); the beat grid consists of finite ordered times, downbeats are beats, every beat is within 54 ms of an onset used, and stability is in [0,1] or NaN.", "quantifier": "all inputs, all configurations whose range contains [70,180], all platform functions", "why_tests_cant": "needs the composition of all stages for arbitrary audio", "anchors": ["src/lib.rs: analyze_audio", "src/features/beat_tracking/mod.rs: generate_beat_grid"]}
{"id": "C65", "title": "Harmonic pitch class profiles: content and range", "statement": "frame_to_hpcp_tuned_band collects exactly the num_peaks strongest local maxima of the (optionally whitened) frame inside the band; each of them, weighted by max(magnitude,0)^power, adds decay^(h-1)/h times a Gaussian weight to the three classes next to the pitch class of every harmonic h that stays inside the band; the result has 12 entries in [0,1] with unit norm (within 2^-18) unless everything is at most 1e-10, is all zeros when there is no peak or the band is empty, and the spectrogram versions (full band and bass blend) return one such vector and one energy per frame, refusing ragged input.", "quantifier": "all frames with magnitudes up to 2^50, all sample rates, FFT sizes, bands and option values (no NaN decay, power or weight), every selection routine that keeps k of the best, every powf/log2/exp/powi within the stated bounds", "why_tests_cant": "The tests build a few synthetic frames; they cannot cover every arrangement of peaks, ties between equal peaks, harmonics leaving the band and arbitrary option values.", "anchors": ["src/features/chroma/extractor.rs:498-692", "src/features/chroma/extractor.rs:1097-1239"]}
{"id": "C64", "title": "Tuning estimate: which bins count, range and outcomes", "statement": "estimate_tuning_offset_semitones_from_spectrogram is the angle, as a part of a turn, of the mean direction of the deviations from the nearest semitone of exactly the bins that lie in the band of every frame_step-th frame and reach peak_rel_threshold times that frame's largest in-band magnitude, weighted by the square root of the magnitude; it is 0 for empty input, zero rate or FFT size, silence, total weight at most 1e-6 or a mean shorter than 0.05, lies in [-0.5, 0.5], refuses ragged input, and panics exactly when max(fmin,20)+1 exceeds the Nyquist frequency.", "quantifier": "all spectrograms with finite magnitudes (up to 2^50 for the range), all rates, FFT sizes, bands, steps and thresholds (no NaN), every log2/sin/cos/powf/atan2 within the stated bounds", "why_tests_cant": "No test calls the tuning estimator with odd bands, steps or thresholds; a test cannot show that bins outside the band or skipped frames never influence the result.", "anchors": ["src/features/chroma/extractor.rs:66-175"]}
{"id": "C67", "title": "Beat-synchronous chroma: every frame goes to one beat interval", "statement": "extract_beat_synchronous_chroma returns one chroma vector and one energy per pair of consecutive beats: the mean of the chroma vectors of exactly the frames starting in the half-open interval, divided by its norm, and the sum of their energies; zeros for an interval without frames; all entries lie in [0,1]; with ascending beats each frame starting between the first and last beat is in exactly one interval and the others in none; an empty spectrogram gives empty lists and missing beats are refused.", "quantifier": "all spectrograms with finite magnitudes, all rates, hop sizes, beat lists and mapping options, every log2/powf/exp within the stated bounds", "why_tests_cant": "No test covers the function; tests could only sample beat positions, not show that no frame is lost or counted twice for any beat grid.", "anchors": ["src/features/chroma/extractor.rs:830-922"]}
{"id": "C66", "title": "Log-frequency spectrogram: every magnitude is shared between two semitones", "statement": "convert_linear_to_log_frequency_spectrogram gives every frame one bin per semitone from floor(semitone(fmin)) to ceil(semitone(fmax)); each positive magnitude inside the band is shared between the semitone at or below its frequency and the one above it with weights 1-w and w in [0,1], and nothing else contributes; values stay non-negative; empty input gives empty output, ragged frames and zero rate or FFT size are refused, and an inverted band gives silent frames, an error or a panic according to the number of semitones.  extract_chroma_from_log_frequency_spectrogram folds the bins by (offset + bin) mod 12 into 12 entries in [0,1] divided by their norm.", "quantifier": "all spectrograms with finite magnitudes (up to 2^50 for the ranges), all rates, FFT sizes and bands with fmin < min(fmax, Nyquist - 1), every monotone log2 within the stated bounds; the special cases for all inputs", "why_tests_cant": "No test exercises the conversion on arbitrary bands; a test cannot show that no contribution falls outside the allocated bins for every rate and band.", "anchors": ["src/features/chroma/extractor.rs:701-810", "src/features/chroma/extractor.rs:937-981"]}
{"id": "C57", "title": "Key detector variants aggregate what they claim", "statement": "Mode heuristic / minor bonus: disabled, it equals the plain detector; enabled, the key is the best-scoring key or, only when the scale-degree evidence prefers it and the score ratio allows, its parallel key (then with confidence 0). Ensemble: each score is the weight-normalised blend of the two template sets' scores. Multi-scale: exactly the windows of usable scales that start at multiples of the hop and fit vote, each with weight clarity times scale weight, and each score is the weighted mean of the clear windows' scores, with the whole-sequence fallback otherwise. Median: the key named by most windows wins, ties by summed confidence, scores are confidence-weighted means. Each reports 24 scores in descending order and a confidence in [0,1], and never panics on finite non-negative chroma.", "quantifier": "all chroma sequences, weights, windows, hops, options and hash orders", "why_tests_cant": "the aggregation loops, tie-breaks and overflow points depend on every window's scores; tests look at a few songs and only at the final key", "anchors": ["src/features/key/detector.rs:300-540", "src/features/key/detector.rs:546-700", "src/features/key/detector.rs:721-863", "src/features/key/detector.rs:881-976"]}
{"id": "C71", "title": "The key detection stage reports a sound result on every ordinary track", "statement": "Edge trimming never fails and keeps either everything or the same run of more than 50 frames of chroma vectors and frame energies. Tonalness lies in [0,1], is 0 for silence and 1 for a single pitch class. Frame weights, when used, are one per frame, non-negative, at least ten of them positive, measured against the median energy, and grow with energy and tonalness. Segment voting sums the clarity-weighted scores of exactly the segments that start at a multiple of the hop, fit, and are clear enough, and reports the key with the best sum; without such segments the whole track is analysed. With audio within [-1,1] and whichever spectrogram conditioning, log-frequency, tuning, beat-synchronous, harmonic or plain chroma path and detector the configuration selects, the whole stage never panics or fails, and the reported key confidence and clarity lie in [0,1], also in the final result of a complete analysis.", "quantifier": "for all configurations of the stated kind, all chroma, energies, weights and audio, all hash orders, and all mathematical functions and FFTs within the stated bounds", "why_tests_cant": "Overflow, NaN and slice failures need particular combinations of hundreds of configuration values, track lengths and energies; tests run a few files with the default configuration.", "anchors": ["src/lib.rs:960-1559"]}
{"id": "C72", "title": "Settings of switched-off features are inert", "statement": "Two configurations that agree on all switches and on every setting whose feature is switched on give the same analysis (same result, error or panic): e.g. the HPSS margin matters only with HPSS onsets or the percussive fallback on, band edges only with band fusion on, nothing of the tempogram with the legacy estimator forced, only the ensemble weights with the key ensemble on. center_frequency, tempogram_multi_res_structural_discount, enable_key_median and key_median_* never matter.", "quantifier": "for all platforms, signals, sample rates and pairs of configurations", "why_tests_cant": "Ninety settings under thirty switches: the pairs of configurations cannot be enumerated, and a leak of one inert setting changes results only on some signals.", "anchors": ["src/config.rs:8-592", "src/lib.rs:86-1635"]}
{"id": "C73", "title": "The tempogram estimator scores and chooses candidates as specified", "statement": "The full-band tempogram is always built; each of the low, mid and high bands contributes one iff band fusion is on, its weight is positive and finite, it has two bins or more, and its novelty curve is not empty; the bands partition the bins from 1 at the bins nearest to the configured frequencies. A candidate's evidence is the weighted mean of its shares of the strongest peak, taken at the nearest entry within 0.75 BPM (FFT) or the larger of the resolution and 0.5 (autocorrelation), 0 if there is none. Its score is 0.55 and 0.45 of the two, raised by the bonus per supporting band beyond the first, times 0.8 above 180 and 0.9 below 60 BPM. The best candidate is reported, except that one above 180 BPM gives way to the listed one at its half unless both evidence values more than double. The confidence is the relative lead over the second listed candidate; agreement counts the full-band tempograms within 2 BPM. There is no result iff no simple multiple of a leading tempo is in range.", "quantifier": "for all spectrograms, platforms, sample rates, hops, tempo ranges, resolutions and band settings, NaN and infinities included", "why_tests_cant": "The score combines up to ten tables by nearest-neighbour lookups and thresholds; a wrong table, weight or tolerance only shifts scores slightly and tests with tolerance on one tempo pass.", "anchors": ["src/features/period/tempogram.rs:256-775", "src/lib.rs:345-377"]}
{"id": "C74", "title": "Measured loudness is the gated mean block energy of the high-passed signal", "statement": "The loudness of a signal is -0.691 + 10 log10 of the mean of those block energies that exceed the gate of -70 LUFS, and minus infinity if none does; the blocks are the consecutive runs of 400 ms of the filtered signal, the last one possibly shorter, each with its mean square over its own length; the filter is the second-order high-pass at 1681.9745 Hz started from rest. Empty audio, a sample rate that is not positive and one too low for a block are rejected; nothing panics. The feed-forward coefficients sum to exactly 0 in spite of rounding, so a constant offset is removed, and all coefficients are finite. When the sine of the filter's angle is negative (sample rates below 3364 Hz) the filter is unstable.", "quantifier": "for all signals, sample rates and mathematical functions (sine and cosine within [-1,1] for the coefficient claims)", "why_tests_cant": "A wrong block boundary, gate or filter register changes the loudness by fractions of a dB for most signals; exact cancellation of rounded coefficients cannot be sampled over all sample rates.", "anchors": ["src/preprocessing/normalization.rs:111-259"]}
{"id": "C75", "title": "The convenience functions of the public interface agree with the pipeline's, and the tempo prior is a 2 BPM Gaussian", "statement": "Both tempogram estimators return exactly the tempo that their diagnostic versions report, whatever number of candidates is asked for, and fail or diverge with them. The chroma of a recording is the chroma of its spectrogram with the same options; the default entry point is soft mapping with sigma 0.5; the version that also returns energies returns the same chroma and per frame the sum of squared magnitudes. The prior of the Bayesian tracker is exp(-(d*d)/8) for distance d from the current tempo: in [0,1], 1 at the current tempo, never growing with the distance.", "quantifier": "for all inputs; for the prior, all finite tempi and every monotone exponential with values in [0,1] on non-positive arguments and value 1 at zero", "why_tests_cant": "Wrappers that duplicate code drift apart only for option values nobody tests; monotonicity of a rounded expression is a statement about all pairs of floats.", "anchors": ["src/features/period/tempogram.rs", "src/features/chroma/extractor.rs", "src/features/beat_tracking/bayesian.rs"]}
{"id": "C76", "title": "The onset autocorrelation counts pairs of onsets", "statement": "For a finite signal x of length n, value k < n of the FFT-based autocorrelation is the sum over t of x(t)*x(t+k), or 0 if that is negative, within (7e + 2^-20) A^2 + 2^-137, where A bounds the sum of the magnitudes of x and e is the relative error of the FFT (at most 1/8). Hence the zero padding is long enough that no lag is contaminated by circular wrap-around, and for an onset list the value at lag k is, within that error, the number of onset frames that have another onset exactly k frames later.", "quantifier": "for all signals with A up to 2^30 and length up to 2^50, all onset lists and hop sizes, all lags, and every FFT accurate to e at the padded length", "why_tests_cant": "A test compares a few lags of a few signals; wrap-around contaminates only some lags of signals that are long relative to the padding, and rounding of the transform hides small errors.", "anchors": ["src/features/period/autocorrelation.rs:145-163", "src/features/period/autocorrelation.rs:223-263"]}
{"id": "C77", "title": "The multi-resolution estimator scores readings, folds octaves and moves to related tempi exactly as documented", "statement": "Each hop-512 candidate T is read as T, 2T and T/2. The score of a reading is the weighted sum of the strengths found at it at the three hop sizes (for 2T and T/2 the hop-512 part mixes in the strength at T), lowered by 0.9 if hop 1024 prefers T, by 0.75 and again 0.75 if the ratio of strengths is below 1.1 and 1, and by the tempo factor above 210, above 180 and below 60 BPM. The best reading in range is taken unless it is not T and leads by less than the threshold; then T is kept, with its unlowered sum. The estimate starts from the best verdict, is halved from 170 BPM up or doubled from 80 BPM down exactly if the stated support conditions hold, and with a novelty curve moves to the multiple by 3/2, 2/3, 4/3 or 3/4 that leads in beat contrast plus support exactly if its contrast is better by 0.4. The confidence is the relative lead over the best verdict at least 0.75 BPM away; the agreement is the number of hop sizes with a candidate at the tempo. The beat contrast is the maximum over phases of the normalised difference between the mean novelty at beats and at half and third beats.", "quantifier": "for all candidate lists, ranges, weights, thresholds, novelty curves, sample rates and hop sizes; order statements for scores that are not NaN, which strengths up to 2^40 and weights up to 2^20 guarantee", "why_tests_cant": "The result depends on dozens of thresholds at which neighbouring inputs take different branches; tests see a handful of songs and cannot tell an off-by-one offset or a swapped ratio that only matters near a threshold.", "anchors": ["src/features/period/multi_resolution.rs:290-301", "src/features/period/multi_resolution.rs:405-900"]}
{"id": "C78", "title": "The spectrogram holds the amplitudes of the frequencies in each windowed frame", "statement": "Bin b of frame j of the short-time Fourier transform equals the amplitude, at b cycles per frame, of the samples j*hop .. j*hop+frame-1 weighted with the Hann window, up to (5/2 e + 5/4 d + 2^-17) times the sum of the absolute samples, where e and d are the accuracies of the FFT and of the cosine. Hence for a recording that is a tone of k cycles per frame within one percent of its amplitude, in every frame bin k exceeds every bin at least three bins away by at least one half and is at least a sixth of amplitude times frame length.", "quantifier": "for all finite recordings, frame lengths from 2 to 2^24, hops, frames and bins; all FFTs accurate to e <= 1/8 and cosines accurate to d <= 1/8 (1/1024 for the tone); all tones, amplitudes from 2^-40 to 1 and phases", "why_tests_cant": "A test compares a few frames of a few signals with loose tolerances; a window of the wrong length, a frame offset or a wrong bin shows up only for particular frequencies and hops, and no test covers every tone and phase.", "anchors": ["src/features/chroma/extractor.rs:301-359"]}
{"id": "C79", "title": "The FFT tempogram measures how strongly the novelty pulses at each tempo", "statement": "For a novelty curve in [0,1] the FFT tempogram has exactly one entry for every bin k whose tempo 60 k rate / (hop size) lies in the range (size is the next power of two; a bin within 2^-21 relative of a limit may fall on either side). The entry's tempo is that tempo to 2^-21 relative, and its strength is the squared correlation of the mean-free, Hann-weighted curve with a beat of that tempo, up to (8 e + 4 d + 1/50000) n^2. The entries are sorted by descending strength. If the curve pulses k times over its length (a power of two) within a tolerance of 1/400, the first tempo is at most two bins from the tempo of the pulse.", "quantifier": "for all novelty curves of 2 to 2^20 values in [0,1], sample rates and hops up to 2^24, tempo ranges, FFTs accurate to e and cosines accurate to d (up to 1/8; 2^-16 for the pulse), all pulse rates from 3 per curve, amplitudes from 1/4 and phases", "why_tests_cant": "Tests use a handful of synthetic pulse trains; an error in the bin-to-tempo conversion, the window or the padding shifts or blurs the tempo by amounts that only matter for other lengths, rates or tempi.", "anchors": ["src/features/period/tempogram_fft.rs:78-203"]}
{"id": "C80", "title": "Onset detectors report exactly the local maxima of their documented onset strength", "statement": "For every spectrogram the spectral-flux, high-frequency-content and percussive-energy detectors measure each frame transition by its documented strength over the reals (length of the vector of rises of the peak-normalized bins; rise of sum k m_k^2; rise of the energy), up to a stated rounding tolerance. They report exactly the frames where that strength is a local maximum (strictly above the left neighbour, at least the right one) above a threshold that is itself one of the strengths, with at least the fraction p of transitions at or below it and at most p (F-1) + 1 below it. A frame that clearly exceeds its neighbours and more than p (F-1) + 1 transitions is reported, and no reported frame is clearly weaker than a neighbour. The energy-flux detector reports exactly the frame starts where the rise of the frame RMS is a local maximum above 10^(dB/20) times the largest rise, and nothing if that largest rise is at most 1e-10 or there are fewer than three frames.", "quantifier": "for all spectrograms of 2 to 2^24+1 frames of up to 2^20 finite magnitudes in [0,2^30], all percentiles; for all recordings of finite samples up to 2^30, frame sizes up to 2^20, hops and thresholds", "why_tests_cant": "Unit tests feed a few kick patterns with one loud frame; an index shift in the weighting, a missing rectification, a wrong normalization or an off-by-one in the percentile still finds those kicks and only misplaces or drops onsets in other material.", "anchors": ["src/features/onset/spectral_flux.rs:69-221", "src/features/onset/hfc.rs:76-215", "src/features/onset/hpss.rs:275-373", "src/features/onset/energy_flux.rs:67-243"]}
{"id": "C81", "title": "Novelty curves are the documented onset strengths divided by their maximum", "statement": "Before normalization, every novelty curve holds for each frame transition its documented strength over the reals, up to a stated rounding tolerance: spectral flux is the length of the vector of rises of the peak-normalized bins; energy and HFC novelty are the rises of the energy and of the bin-weighted energy, over all bins or over the given band with absolute bin numbers; SuperFlux is the length of the vector by which ln(1+x) of each bin exceeds the largest ln(1+x) within max(k,1) bins of it, inside the band, in the previous frame; the mel variant does the same on triangular sums of ln(1+x), the centre bin of each triangle counting twice. The result is that sequence divided by its maximum, or unchanged if the maximum is at most 1e-10, and it preserves the order of the strengths.", "quantifier": "for all spectrograms of at least two frames with 1 to 2^19 finite magnitudes in [0,2^30], all bands keeping at least two bins, all filter widths and mel settings, every logarithm accurate to e <= 2^-10", "why_tests_cant": "The unit tests look only at the length and range of a curve and at one onset in silence; a missing rectification, a band applied to one frame only, a relative instead of an absolute bin weight, or a max filter on the wrong frame keep all of that and change the beat emphasis of real music.", "anchors": ["src/features/period/novelty.rs:133-190", "src/features/period/novelty.rs:222-315", "src/features/period/novelty.rs:336-467", "src/features/period/novelty.rs:477-660", "src/features/period/novelty.rs:687-838"]}
{"id": "C82", "title": "Combined novelty is the weighted mean, minus its local mean, smoothed, relative to its maximum", "statement": "For every triple of curves and weights the combined novelty passes through the documented stages, each within a stated tolerance of its value over the reals: the mean of the three curves with the weights clamped at 0 (0.5, 0.3, 0.2 by default, divisor at least 1e-10); division by the maximum; if the first window exceeds 1, the positive part of the value minus its local mean over half a window to each side; if the second window exceeds 1 and there are at least three frames, the local mean; division by the maximum. Windows are cut at the ends and a window of w frames covers 2(w/2)+1 of them.", "quantifier": "for all curves with values in [0,1] and common length up to 2^20, all finite weights up to 2^100, all window sizes", "why_tests_cant": "Tests check that the output stays in [0,1] and that its length matches; swapping two weights, smoothing before subtracting the mean, or reading already smoothed values in the moving average go unnoticed.", "anchors": ["src/features/period/novelty.rs:865-932", "src/features/period/novelty.rs:935-990"]}
{"id": "C83", "title": "The autocorrelation tempogram measures values one beat apart and finds the period of a pulse train", "statement": "Every strength in the autocorrelation tempogram is the mean product of the novelty values L frames apart, up to a stated tolerance, L being the number of whole frames in a beat of the tempo (0 when the curve is not longer than L). For a curve that is zero except at one phase of a period of P frames, with two sufficiently strong pulses P frames apart, searched over tempi whose beats last at least one and less than 2P frames including one whose beats contain P whole frames, the reported tempo has beats of P whole frames. Since the strength depends on L only, the reported confidence is 0 whenever another tempo of the grid has the same number of whole frames in a beat as the reported one.", "quantifier": "for all novelty curves with values in [0,1] and up to 2^20 frames, all sample rates and hop sizes up to 2^24, all tempo ranges within [1,2^20] and all resolutions", "why_tests_cant": "A test track has one tempo and one grid; a wrong divisor, an off-by-one lag or a rounded instead of truncated lag moves the reported tempo by less than the tests' tolerance, and no test looks at the confidence of a clear pulse train.", "anchors": ["src/features/period/tempogram_autocorr.rs:79-179", "src/features/period/tempogram_autocorr.rs:192-222"]}
{"id": "C84", "title": "HPSS puts steady tones into the harmonic and clicks into the percussive component", "statement": "Take a spectrogram made of steady tones (bins whose level does not change over time) and clicks (frames with one level in all bins), with arbitrary values where a tone and a click meet. If within the margin of every frame fewer than half of the frames are clicks, and within the margin of every bin fewer than half of the bins are tones, then the harmonic component is exactly the tones and the percussive component exactly the clicks everywhere outside the meeting points; a meeting point is shared in proportion to the tone and click levels, up to a relative error of 1/4000000. This holds whether the loop stops by convergence or after ten passes.", "quantifier": "for all spectrograms with magnitudes in [0,2^126] of that form with levels above 1e-10, all margins, any number of tones and clicks", "why_tests_cant": "The unit tests use constant spectrograms, for which both components are half of the input; swapping the two filters, the two ratios, or stopping on the wrong component passes them.", "anchors": ["src/features/onset/hpss.rs:71-175", "src/features/onset/hpss.rs:179-209", "src/features/onset/hpss.rs:213-243"]}
{"id": "C85", "title": "The Bayesian tracker reports the tempo whose beat grid lies closest to the onsets", "statement": "The likelihood of a tempo is exp(-M), M being the mean squared distance of the onsets from the nearest beat of the grid anchored at the first onset, in units of 2 sigma^2 with sigma = 50 ms, up to an explicit rounding tolerance. From a tempo on the half-BPM grid the candidates are exactly the multiples of 0.5 BPM within 5 BPM and inside [60,180]. No candidate fits better than the reported tempo by more than the tolerances, and the confidence is the fit times 1, 0.8 or 0.5 for changes below 1, below 3 and from 3 BPM. If the onsets lie within d of the beats of a candidate, the reported tempo has a fit of at least exp(-200 d^2) up to the tolerances.", "quantifier": "for all onset lists with times in [0,T], T <= 4096 s, up to 2^20 onsets, all tracker states, every exponential with absolute error at most e on the negative numbers", "why_tests_cant": "The unit tests feed one or two onset lists and only check that the tempo moved in a range; using the second onset as the anchor, truncating instead of rounding the beat index, or a wrong sigma still passes them.", "anchors": ["src/features/beat_tracking/bayesian.rs:104-178", "src/features/beat_tracking/bayesian.rs:183-195", "src/features/beat_tracking/bayesian.rs:203-255"]}
{"id": "C86", "title": "The detected key is the key of its mode whose published profile fits the track best", "statement": "Let E_b be the weighted energy of pitch class b summed over the frames, and the correlation of a key the sum over b of E_b times the published Krumhansl-Kessler or Temperley rating of the interval from the key's tonic to b. Of the twelve keys of the reported key's mode none has a correlation above the reported key's, up to the relative tolerance (n+100)/4000000 for n frames. If the energies follow the profile of a key K up to half a rating point and the reported key has K's mode, it is K; if they follow it up to a twentieth of a point, the reported key is K or K's relative minor or major.", "quantifier": "for all chromagrams of up to 65536 (30000) frames with non-negative entries and weights up to 2^20 and an energy of at least 2^-20, both template sets, all 24 keys, all hash orders", "why_tests_cant": "The unit tests use a handful of chords and check one key name; a profile rotated the wrong way, a wrong rating, a template divided by the wrong norm or a bonus that lifts a neighbour over the best key shows only on particular energies.", "anchors": ["src/features/key/detector.rs:68-313", "src/features/key/detector.rs:979-1001", "src/features/key/templates.rs:64-215"]}
{"id": "C87", "title": "The reported time signature is the one whose bar length best repeats the pattern of beat intervals", "statement": "Let the likeness of a signature be the mean over i of 1/(1 + |g_i - g_(i+k)| / mean) where g_i is the i-th interval between beats and k its beats per bar (4, 3, 6), and the regularity 1/(1 + standard deviation / mean) of the intervals. For n intervals, no signature has a likeness above the reported one's by more than (n+40)/1300000, a signature that leads the other two by more than that is reported, and the confidence is 0.7 times the likeness plus 0.3 times the regularity up to the same tolerance. A pattern that repeats exactly every three beats is always reported as 6/8, never as 3/4, because it also repeats every six and the tie goes to 6/8.", "quantifier": "for all finite beat lists of 8 to 4097 beats with intervals between 1/8 s and 4 s, all tempi above the detector's epsilon", "why_tests_cant": "The unit tests check that steady beats give some signature with a confidence in range; a wrong lag, swapped weights or a comparison with the wrong neighbour changes the answer only on particular patterns, and no test has a pattern that separates the three signatures.", "anchors": ["src/features/beat_tracking/time_signature.rs:90-147", "src/features/beat_tracking/time_signature.rs:156-203"]}
{"id": "C88", "title": "The chroma vector measures how strongly each of the twelve notes sounds", "statement": "Let the frequency of bin k be k*rate/fft, its position on the semitone scale 12*log2(f/440)+57 minus the tuning offset, its note the nearest integer, its pitch class the note modulo 12 (C is 0, A is 9), and its strength the 0.6th power of its magnitude. In hard mode the value of each class is the sum of the strengths of the bins between 100 Hz and 5 kHz and below half the sample rate whose note lies in that class, divided by the Euclidean length of the twelve sums, to within n/2700000 + 1/30000 for n bins. In soft mode each bin gives the class of its note and the two beside it the share exp(-d^2/(2*sigma^2)), d its distance in semitones, to within n/2700000 + 1/300. A frame whose audible bins all lie in one pitch class, in whatever octaves, gives 1 there and 0 elsewhere.", "quantifier": "for all frames of up to 65536 finite magnitudes up to 2^50, sample rates from 1 kHz to 200 kHz, tuning offsets up to one semitone, spreads from 0.5 to 4 semitones; audible bins not exactly on a band edge or a quarter tone; log2, powf and exp accurate to about 2^-20", "why_tests_cant": "The unit tests compare a few sine waves by their largest class; a shifted reference pitch, a wrong wrap at the octave, linear instead of compressed magnitudes or a misplaced neighbour share changes values the tests never read, and only at particular frequencies.", "anchors": ["src/features/chroma/extractor.rs:393-490"]}
{"id": "C89", "title": "The harmonic pitch class profile adds up the strongest peaks and their harmonics, and a single tone gives its own note the largest value", "statement": "Let mag be the magnitudes of one frame, a peak a bin above its lower and not below its upper neighbour, and top the configured number of strongest peaks between 100 Hz and 5 kHz and below half the sample rate (all of them if there are fewer). Without whitening, value j of the profile is, to within (peaks * harmonics)/2700000 + 1/300, the sum over the peaks b in top and the harmonics h of b that stay in the band of mag(b)^power * decay^(h-1)/h * exp(-d^2/(2*sigma^2)), where d is the distance in semitones of h times the frequency of b from the note of class j nearest to it (only the nearest note and the two beside it count), divided by the Euclidean length of the twelve sums. If the frame has a single peak in the band, at most a quarter of a semitone from note p, then with up to four harmonics and a spread of at most one semitone the class of p has the largest value, by at least 0.01, whatever the decay and power.", "quantifier": "for all frames of up to 65536 finite non-negative magnitudes up to 2^30, sample rates from 1 kHz to 200 kHz, tuning offsets up to one semitone, spreads from 0.5 to 4 semitones, powers from 0.06 to 1, decays from 0 to 1, up to 16 harmonics and 1000 peaks, any selection that keeps the strongest; harmonics of peaks not exactly on a band edge or a quarter tone; log2, powf, powi and exp accurate to about 2^-20", "why_tests_cant": "No unit test looks at the values of the profile: a harmonic weighted by its number instead of divided by it, a decay with the wrong exponent, a harmonic placed at f + h instead of f * h, the weakest peaks kept or a wrapped class off by one still gives unit vectors of twelve numbers.", "anchors": ["src/features/chroma/extractor.rs:529-680"]}
{"id": "C90", "title": "Tempo segments report the mean tempo and the variation of exactly the beats in their window, and a steady track is never called variable", "statement": "Let d be a quarter of the time from the first to the last beat, at least 4 and at most 8 seconds. Of four or more beats over more than two seconds, every three neighbouring beats that span at most d/2 (less 10 ms) lie together in one segment returned by detect_tempo_variations, segments start at least d/2 apart, and each is d long or ends at the last beat. The tempo of a segment is 60 over the mean distance g of the beats in it (at least three, and none left out) to within 0.005 %; its confidence is max(1 - cv/0.3, 0) to within 1/3000, cv being the standard deviation of the distances over g; it is variable if cv >= 0.1501 and steady if cv <= 0.1499. Otherwise there is one steady segment with the nominal tempo, and no three neighbouring beats span less than d/2. If every distance is within 13 % of T, no segment is variable and every tempo lies between 60/T/1.14 and 60/T/0.86 (or is the nominal one, only with fewer than four beats, about two seconds or less, or T > 0.88 s).", "quantifier": "for all lists of beats from 0 to 16384 seconds, 1/8 to 4 seconds apart, any number of them, all nominal tempi", "why_tests_cant": "Unit tests check that a 120 BPM click track is not variable and make no claim about a changing one; a sample instead of population deviation, windows that skip beats, a tempo from the median or from the wrong beats, or a threshold applied to the variance would pass them.", "anchors": ["src/features/beat_tracking/tempo_variation.rs:95-227"]}
{"id": "C91", "title": "The log-frequency spectrogram is a bank of triangular filters centred on the semitones from note 31 upwards", "statement": "For the band that analyze_audio asks for (100 to 5000 Hz), convert_linear_to_log_frequency_spectrogram returns one frame per input frame, each with a bin for every semitone from note 31 (C0 = 0, A4 = 57) up to the first note at or above the upper edge of the band, which is 5000 Hz or 1 Hz below half the sample rate. Semitone bin j holds the sum, over the input bins k from 100 Hz to below that edge, of magnitude_k * max(0, 1 - |p_k - (31 + j)|), where p_k = 12 log2(f_k/440) + 57 is the pitch of the bin's frequency f_k = k * rate / fft_size. The error is at most (bins/6000000 + 1/15000) times the sum of the magnitudes within 1.001 semitones of note 31 + j, plus 10^-40.", "quantifier": "for all spectrograms of any number of frames with non-negative magnitudes up to 2^50, sample rates from 1000 to 200000, FFT sizes up to 65536, and mathematics libraries whose log2 is monotone and accurate to 2^-20", "why_tests_cant": "Unit tests of the conversion check lengths and that a tone gives some energy; swapped interpolation weights, a bin range starting at the wrong note, rounding instead of interpolating, or an octave reference that is off by one would pass them.", "anchors": ["src/features/chroma/extractor.rs:701-810", "src/lib.rs:1060-1075"]}
{"id": "C92", "title": "Key detection on the log-frequency path sees each pitch class's share of the magnitudes in the band", "statement": "With enable_key_log_frequency set, the key stage converts the spectrogram without failing, numbers the first semitone bin 31, and the chroma vector it computes for each frame holds twelve values c_j within bins/340000 + 1/450 of E_j / |E|. Here E_j is the sum, over the input bins from 100 Hz to below the upper edge of the band, of the magnitude times the triangular share of class j: the sum over all notes m with m mod 12 = j (C = 0, A = 9) of max(0, 1 - |p - m|), p being the pitch 12 log2(f/440) + 57 of the bin; |E| is the Euclidean length, at least 2^-30.", "quantifier": "for all spectrograms of any number of frames with up to 16384 bins and non-negative magnitudes up to 2^30, all configurations with the log-frequency path on, sample rates from 1000 to 200000, FFT sizes up to 65536, and mathematics libraries whose log2 is monotone and accurate to 2^-20", "why_tests_cant": "No test runs the log-frequency path of the key stage; an offset that does not match the first bin of the conversion, a rounded instead of floored first note, or folding by the bin index alone would rotate every key estimate and nothing would fail.", "anchors": ["src/features/chroma/extractor.rs:701-810", "src/features/chroma/extractor.rs:937-981", "src/lib.rs:1064-1147"]}
{"id": "C93", "title": "The tuning estimate recovers the common detuning of the strong bins", "statement": "Called as lib.rs calls it (80 to 2000 Hz), the tuning estimate succeeds and is within e + 1/300 semitone of d, whenever every strong bin of the frames looked at lies within e of d semitones above some note of the equal-tempered scale on A = 440 Hz (e at most 1/16, |d| + e at most 0.49) and at least one magnitude in the band reaches 1e-6. A bin is strong if it lies in the band, is not silent, and reaches the given part of the largest magnitude in the band of its frame. It does not matter which notes sound, in which octaves, how loud they are relative to each other, or on which side of a half-semitone a bin is rounded.", "quantifier": "for all spectrograms of any size with non-negative magnitudes up to 2^40 and at most 32768 strong bins, all frame steps, thresholds from 0 to 1, sample rates from 4200 to 200000, FFT sizes up to 65536, detunings d and spreads e in the stated range, and mathematics libraries accurate to 2^-20 (square root 2^-10)", "why_tests_cant": "No test calls the tuning estimate; and one that did would try single spectra, while a swapped atan2, a sign error, radians for turns, or a wrong reference pitch shows only on detuned input and would then shift every chroma vector of such a recording the wrong way.", "anchors": ["src/features/chroma/extractor.rs:66-170", "src/lib.rs:1096-1113"]}
{"id": "C94", "title": "Tuning compensation brings a detuned recording back onto its notes", "statement": "With tuning compensation on, if every audible bin of a recording between 79 Hz and 5 kHz lies within e semitones of its own note raised by d, then the key stage applies an offset within e + 1/300 of d limited to plus or minus the configured maximum; measured against that offset every audible bin lies within 2e + 1/300 of its own note, plus whatever part of d exceeds the maximum; and with hard assignment, without HPCP and without beat-synchronous frames, the chroma vector the key stage receives for every frame is, to within n/2700000 + 1/30000 for n bins, the normalised vector of the strengths of those notes, so it does not depend on d.", "quantifier": "for all spectrograms of any size with magnitudes from 0 to 2^40, of which the frames looked at hold at most 32768 audible bins from 79 to 2001 Hz and one of at least 1e-6 from 81 to 1999 Hz, all configurations with compensation on and a threshold from 0 to 1, sample rates from 4200 to 200000, FFT sizes up to 65536, detunings and spreads with |d| + 2e at most 0.49 and e at most 1/16, and mathematics libraries accurate to 2^-20 (square root 2^-10)", "why_tests_cant": "The estimate and the offset taken off in the chroma extraction are written in different files; with the wrong sign at either end compensation doubles the detuning, and in-tune test signals cannot show it.", "anchors": ["src/lib.rs:1096-1195", "src/features/chroma/extractor.rs:66-170", "src/features/chroma/extractor.rs:393-490", "src/features/chroma/extractor.rs:1047-1091"]}
{"id": "C95", "title": "Transposing a track transposes its key", "statement": "If a second track's energies per pitch class are those of a first track moved up by t semitones and multiplied by a positive factor, the key reported for the second is t semitones above a key that, of its mode, fits the first track best up to the relative tolerance (n+100)/4000000 for n frames. If both reported keys have the same mode and one key of that mode fits the first track better than all others of the mode by more than that tolerance, then it is the key reported for the first track, and the key t semitones above it is the one reported for the second.", "quantifier": "for all pairs of chromagrams of up to 65536 frames, of equal or different lengths, with non-negative entries and weights up to 2^20 and an energy of at least 2^-20, all t, all factors, both template sets, all hash orders (of the two runs independently)", "why_tests_cant": "A test transposes a few chords; the key names wrap around at B, the templates are built by rotation, and the bonus for neighbours on the circle of fifths uses modular arithmetic, so that a slip shows only for some tonics and some energies.", "anchors": ["src/features/key/detector.rs:68-313", "src/features/key/templates.rs:64-215"]}
{"id": "C96", "title": "The chroma vector does not depend on the volume", "statement": "If all magnitudes of a frame are multiplied by a positive factor and both frames are loud enough to be normalised, then every value of the two chroma vectors agrees to within n/1350000 + 1/15000 for n bins with hard assignment, and to within n/1350000 + 1/150 with soft assignment.", "quantifier": "for all frames with finite magnitudes up to 2^50 whose audible bins stay clear of the band edges and of the quarter tones, factors, sample rates from 1000 to 200000, FFT sizes up to 65536, tunings up to a semitone, sigma from 1/2 to 4, and (possibly different) mathematics libraries accurate to 2^-20", "why_tests_cant": "Tests use signals of one level. An absolute threshold on a magnitude, a logarithm with an offset, or a missing normalisation changes the mix of quiet and loud notes only when the level changes.", "anchors": ["src/features/chroma/extractor.rs:393-490"]}
{"id": "C97", "title": "A detuned recording is reported in its own key", "statement": "Take a recording every audible bin of which lies within e semitones of its own note raised by d, with tuning compensation on, hard assignment, no HPCP and no beat-synchronous frames. If the normalised note strengths, summed over the frames, follow the published profile of a key K up to a fortieth of a rating point, then the offset is estimated, the chroma vectors are extracted with it, and the key detector run on them reports K or K's relative minor or major, whatever d is.", "quantifier": "for all spectrograms as in C94 of up to 30000 frames whose frames are all loud enough to be normalised, with a number of frames and bins small against the profile's scale, all 24 keys, both template sets, all hash orders, and mathematics libraries accurate to 2^-20 (square root 2^-10)", "why_tests_cant": "The claim runs through the tuning estimate, the clamp, the pitch assignment, the normalisation and the template matching; a sign error or a unit mismatch between any two of them moves detuned recordings, and only those, to a neighbouring key.", "anchors": ["src/lib.rs:1096-1195", "src/features/chroma/extractor.rs:66-170", "src/features/chroma/extractor.rs:393-490", "src/features/key/detector.rs:68-313"]}
