-Q theories Verif
theories/Api.v
theories/ApiProps.v
theories/Autocorrelation.v
theories/AutocorrelationProofs.v
theories/AutocorrelationProps.v
theories/AutocorrelationValueProofs.v
theories/AutocorrelationValueProps.v
theories/Bayesian.v
theories/BayesianLikelihoodProps.v
theories/BayesianProofs.v
theories/BayesianProps.v
theories/BeatChromaProps.v
theories/BeatContrastProps.v
theories/BeatDistanceFacts.v
theories/BeatGrid.v
theories/BeatGridProofs.v
theories/BeatGridProps.v
theories/Bounds.v
theories/BpmLoop.v
theories/BpmLoopProofs.v
theories/Candidate.v
theories/CandidateFilter.v
theories/CandidateFilterProofs.v
theories/CandidateFilterProps.v
theories/ChannelMixer.v
theories/ChannelMixerProofs.v
theories/ChannelMixerProps.v
theories/Chroma.v
theories/ChromaPitchFacts.v
theories/ChromaPitchProps.v
theories/ChromaProofs.v
theories/ChromaProps.v
theories/ChromaSpreadFacts.v
theories/ChromaValueProofs.v
theories/ChromaVolumeProps.v
theories/CombFilter.v
theories/CombFilterProofs.v
theories/CombFilterProps.v
theories/Confidence.v
theories/ConfidenceProofs.v
theories/ConfidenceProps.v
theories/Config.v
theories/Consensus.v
theories/ConsensusProofs.v
theories/ConsensusProps.v
theories/ConsensusSpec.v
theories/CountSums.v
theories/EndToEndProps.v
theories/EscalationProps.v
theories/ExactPlatform.v
theories/F32.v
theories/F32Facts.v
theories/F32More.v
theories/FloatSums.v
theories/FourierFacts.v
theories/FusionScoreProps.v
theories/HarmonicMaskProofs.v
theories/HarmonicMaskProps.v
theories/Hmm.v
theories/HmmBeatsProofs.v
theories/HmmProofs.v
theories/HmmProps.v
theories/HopConsensusProofs.v
theories/HopConsensusProps.v
theories/HpcpPitchFacts.v
theories/HpcpPitchProps.v
theories/HpcpProofs.v
theories/HpcpProps.v
theories/Hpss.v
theories/HpssProofs.v
theories/HpssProps.v
theories/HpssSeparationProps.v
theories/KeyBoundsProofs.v
theories/KeyChanges.v
theories/KeyChangesProofs.v
theories/KeyChangesProps.v
theories/KeyDetector.v
theories/KeyDetectorProofs.v
theories/KeyDetectorProps.v
theories/KeyFeatures.v
theories/KeyNotation.v
theories/KeyNotationProofs.v
theories/KeyNotationProps.v
theories/KeyPathsProofs.v
theories/KeyPathsProps.v
theories/KeyProfileFacts.v
theories/KeyProfileProps.v
theories/KeyScalesProofs.v
theories/KeyScalesProps.v
theories/KeyScoresProofs.v
theories/KeyStage.v
theories/KeyStageProofs.v
theories/KeyStageProps.v
theories/KeyStageTotalProps.v
theories/KeyTemplates.v
theories/KeyTemplatesProofs.v
theories/KeyTemplatesProps.v
theories/KeyTieProofs.v
theories/KeyTieProps.v
theories/KeyTranspositionProps.v
theories/KeyTuningProps.v
theories/KeyVariantsProofs.v
theories/KeyVariantsProps.v
theories/L2Proofs.v
theories/Libm.v
theories/ListFacts.v
theories/LogChromaValueProps.v
theories/LogFrequencyProofs.v
theories/LogFrequencyProps.v
theories/LogFrequencyValueProps.v
theories/LoudnessProps.v
theories/Means.v
theories/MultiResolution.v
theories/MultiResolutionProofs.v
theories/MultiResolutionProps.v
theories/Normalization.v
theories/NormalizationProofs.v
theories/NormalizationProps.v
theories/Novelty.v
theories/NoveltyMixProps.v
theories/NoveltyProofs.v
theories/NoveltyProps.v
theories/NoveltyStrengthFacts.v
theories/NoveltyStrengthProps.v
theories/OnsetChoiceProps.v
theories/OnsetStrengthFacts.v
theories/OnsetStrengthProps.v
theories/Onsets.v
theories/OnsetsProofs.v
theories/OnsetsProps.v
theories/PeakPicking.v
theories/PeakPickingProofs.v
theories/PeakPickingProps.v
theories/PeakPickingSpec.v
theories/Pipeline.v
theories/PipelineCases.v
theories/PipelineProofs.v
theories/PipelineProps.v
theories/Rust.v
theories/SettingsProps.v
theories/Silence.v
theories/SilenceProofs.v
theories/SilenceProps.v
theories/SilenceSpec.v
theories/SmoothingProofs.v
theories/SmoothingProps.v
theories/Sorting.v
theories/SortingFacts.v
theories/SpectrumFacts.v
theories/SpectrumProps.v
theories/TempoConfidenceProps.v
theories/TempoLagProps.v
theories/TempoSegmentFacts.v
theories/TempoSegmentProps.v
theories/TempoSpectra.v
theories/TempoSpectraProps.v
theories/TempoSpectrumFacts.v
theories/TempoSpectrumProps.v
theories/TempoVariation.v
theories/TempoVariationProofs.v
theories/TempoVariationProps.v
theories/Tempogram.v
theories/TempogramProofs.v
theories/TempogramProps.v
theories/TempogramScoreProps.v
theories/TempogramValueProofs.v
theories/Threshold.v
theories/ThresholdProofs.v
theories/ThresholdProps.v
theories/TimeSignature.v
theories/TimeSignatureProofs.v
theories/TimeSignatureProps.v
theories/TimeSignatureScoreFacts.v
theories/TimeSignatureScoreProps.v
theories/ToneFacts.v
theories/TripletProps.v
theories/TuningProofs.v
theories/TuningProps.v
theories/TuningStageProps.v
theories/TuningValueProps.v
