-Q theories Verif
theories/Base.v
theories/GraphModel.v
theories/OperatorsModel.v
theories/GraphSpec.v
theories/GraphProofs.v
theories/TopoProofs.v
theories/OperatorsSpec.v
theories/OperatorsProofs.v
theories/EvolutionProofs.v
theories/TypingProofs.v
theories/ScriptModel.v
theories/EffectsProofs.v
theories/InitSpec.v
theories/InitProofs.v
theories/EvolutionExamples.v
theories/EvolutionProperties.v
theories/ParamsModel.v
theories/ParamsSpec.v
theories/ParamsProofs.v
theories/SamplingProofs.v
theories/EvolverModel.v
theories/MatrixProofs.v
theories/EvolverSpec.v
theories/EvolverProofs.v
theories/HessianProofs.v
theories/ChoiceProofs.v
theories/EvolveSpec.v
theories/EvolveProofs.v
theories/LineageProofs.v
theories/HessianEvolverProofs.v
theories/BuildProofs.v
theories/EvolverExamples.v
theories/EvolverProperties.v
theories/ScoreSpec.v
theories/ScoreProofs.v
theories/ScoreProperties.v
theories/SaveModel.v
theories/SaveSpec.v
theories/RebuildProofs.v
theories/SaveProofs.v
theories/LoadProofs.v
theories/SessionSaveProofs.v
theories/ResaveProofs.v
theories/SaveProperties.v
theories/PropagateModel.v
theories/PropagateSpec.v
theories/PropagateProofs.v
theories/SimulateModel.v
theories/SimulateSpec.v
theories/SimulateProofs.v
theories/SwitchProofs.v
theories/SimulateProperties.v
theories/FlowSpec.v
theories/FlowProofs.v
theories/FlowProperties.v
theories/LayoutModel.v
theories/LayoutSpec.v
theories/LayoutProofs.v
theories/LayoutProperties.v
theories/FloatModel.v
theories/HofModel.v
theories/HofSpec.v
theories/HofProofs.v
theories/HofBestProofs.v
theories/HofProperties.v
theories/PopulationModel.v
theories/TopologyModel.v
theories/PopulationSpec.v
theories/PopulationProofs.v
theories/RouletteProofs.v
theories/PreferentialProofs.v
theories/PopulationProperties.v
theories/TopologySpec.v
theories/TopologyProofs.v
theories/TopologyProperties.v
theories/SpeciationModel.v
theories/SpeciationSpec.v
theories/SpeciationProofs.v
theories/DistanceModel.v
theories/DistanceSpec.v
theories/DistanceProofs.v
theories/SpeciationProperties.v
theories/GAModel.v
theories/GASpec.v
theories/GAProofs.v
theories/FloatArith.v
theories/AdamModel.v
theories/AdamSpec.v
theories/AdamProofs.v
theories/LoggerModel.v
theories/LoggerSpec.v
theories/LoggerProofs.v
theories/OptimiseModel.v
theories/OptimiseSpec.v
theories/OptimiseProofs.v
theories/OptProperties.v
theories/Complex.v
theories/ArrayModel.v
theories/FourierProofs.v
theories/ComponentModel.v
theories/ComponentSpec.v
theories/FilterProofs.v
theories/ComponentProofs.v
theories/ShaperProofs.v
theories/SplitterProofs.v
theories/GridProofs.v
theories/ComponentProperties.v
theories/DetectorModel.v
theories/DetectorSpec.v
theories/ButterworthProofs.v
theories/DetectorProofs.v
theories/NoiseModel.v
theories/NoiseProofs.v
theories/DetectorProperties.v
theories/MoreComponentsModel.v
theories/MoreComponentsSpec.v
theories/MoreComponentsProofs.v
theories/MoreComponentsProperties.v
theories/OpticsModel.v
theories/OpticsSpec.v
theories/OpticsSessionProofs.v
theories/OpticsComponentProofs.v
theories/OpticsProofs.v
theories/StrengthProofs.v
theories/NetworkProofs.v
theories/OpticsBoundProofs.v
theories/OpticsProperties.v
theories/EvaluatorModel.v
theories/EvaluatorSpec.v
theories/EvaluatorProofs.v
theories/PulseProofs.v
theories/RadioProofs.v
theories/EvaluatorProperties.v
theories/PowerProofs.v
theories/PowerProperties.v
theories/PhaseModel.v
theories/PhaseSpec.v
theories/LinearProofs.v
theories/LinearNetworkProofs.v
theories/PhaseProofs.v
theories/PhaseRunProofs.v
theories/PhaseExamples.v
theories/PhaseProperties.v
theories/SpeciatedModel.v
theories/SpeciatedSpec.v
theories/SpeciatedProofs.v
theories/SpeciatedRunProofs.v
theories/SpeciatedProperties.v
theories/NoisyModel.v
theories/NoisySpec.v
theories/NoisyProofs.v
theories/NoisyProperties.v
theories/SearchModel.v
theories/SearchSpec.v
theories/SearchProofs.v
theories/SearchProperties.v
theories/TransformModel.v
theories/TransformSpec.v
theories/TransformProofs.v
theories/TransformProperties.v
theories/LinewidthModel.v
theories/LinewidthSpec.v
theories/LinewidthProofs.v
theories/LinewidthProperties.v
theories/ViewerModel.v
theories/ViewerSpec.v
theories/ViewerProofs.v
theories/ViewerProperties.v
theories/FilesModel.v
theories/FilesSpec.v
theories/FilesProofs.v
theories/FilesRunProofs.v
theories/TeeProofs.v
theories/FilesProperties.v
theories/SearchMoreModel.v
theories/SearchMoreProperties.v
theories/ScaleModel.v
theories/ScaleSpec.v
theories/ScaleProofs.v
theories/ScaleProperties.v
theories/PlacesSpec.v
theories/PlacesProperties.v
theories/PropagatorModel.v
theories/PropagatorSpec.v
theories/PropagatorProofs.v
theories/PropagatorProperties.v
theories/ProgressSpec.v
theories/ProgressProofs.v
theories/ProgressProperties.v
theories/SettingsModel.v
theories/SettingsSpec.v
theories/SettingsProofs.v
theories/SettingsProperties.v
theories/TuningModel.v
theories/TuningSpec.v
theories/TuningProofs.v
theories/TuningProperties.v
theories/TracerModel.v
theories/TracerSpec.v
theories/TracerProofs.v
theories/TracerExamples.v
theories/TracerProperties.v
theories/LocalModel.v
theories/LocalSpec.v
theories/LocalProofs.v
theories/LocalProperties.v
theories/BenchModel.v
theories/BenchSpec.v
theories/BenchProofs.v
theories/BenchProperties.v
theories/LandscapeModel.v
theories/LandscapeSpec.v
theories/LandscapeProofs.v
theories/LandscapeProperties.v
theories/AverageModel.v
theories/AverageSpec.v
theories/AverageProofs.v
theories/AverageProperties.v
theories/SensitivityModel.v
theories/SensitivitySpec.v
theories/SensitivityProofs.v
theories/SensitivityProperties.v
theories/CompareModel.v
theories/CompareSpec.v
theories/CompareProofs.v
theories/CompareProperties.v
theories/LogPlotModel.v
theories/LogPlotSpec.v
theories/LogPlotProofs.v
theories/LogPlotProperties.v
theories/RedundantSpec.v
theories/RedundantProofs.v
theories/RedundantProperties.v
theories/CommuteSpec.v
theories/CommuteProofs.v
theories/CommuteProperties.v
theories/InvariantProofs.v
theories/InvariantProperties.v
