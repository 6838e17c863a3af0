-Q theories Verif
theories/AutodiffModel.v
theories/AutodiffProofs.v
theories/AutodiffProps.v
theories/AutodiffSpec.v
theories/AutoregressiveModel.v
theories/AutoregressiveProofs.v
theories/AutoregressiveProps.v
theories/AutoregressiveSpec.v
theories/AxisModel.v
theories/AxisProofs.v
theories/AxisProps.v
theories/AxisSpec.v
theories/Base.v
theories/BatchesModel.v
theories/BatchesProofs.v
theories/BatchesProps.v
theories/BatchesSpec.v
theories/BenchmarkModel.v
theories/BenchmarkProofs.v
theories/BenchmarkProps.v
theories/BenchmarkSpec.v
theories/CallbackModel.v
theories/CallbackProofs.v
theories/CallbackProps.v
theories/CallbackSpec.v
theories/CheckpointModel.v
theories/CheckpointProofs.v
theories/CheckpointProps.v
theories/CheckpointSpec.v
theories/CommandLineModel.v
theories/CommandLinePbcProps.v
theories/CommandLineProofs.v
theories/CommandLineProps.v
theories/CommandLineSpec.v
theories/ComplexConvModel.v
theories/ComplexConvProofs.v
theories/ComplexConvProps.v
theories/ComplexConvSpec.v
theories/ComplexModel.v
theories/ComplexProofs.v
theories/ComplexProps.v
theories/ComplexSpec.v
theories/ConfigModel.v
theories/ConfigProofs.v
theories/ConfigProps.v
theories/ConfigSpec.v
theories/Cplx.v
theories/CustomGraphProofs.v
theories/DescentModel.v
theories/DescentPathProofs.v
theories/DescentProofs.v
theories/DescentProps.v
theories/DescentSpec.v
theories/EigenAverageProps.v
theories/EigenStoppingProofs.v
theories/EigenStoppingProps.v
theories/EigenStoppingSpec.v
theories/EigenWorkersProps.v
theories/EncodingModel.v
theories/EncodingProofs.v
theories/EncodingProps.v
theories/EncodingSpec.v
theories/EqualSpinsModel.v
theories/EqualSpinsProofs.v
theories/EqualSpinsProps.v
theories/EqualSpinsSpec.v
theories/ErgodicCodeProofs.v
theories/ErgodicProofs.v
theories/ErgodicProps.v
theories/ErgodicSamplerProofs.v
theories/ErgodicSectorProps.v
theories/ErgodicSpec.v
theories/ExactCallbackModel.v
theories/ExactCallbackProofs.v
theories/ExactCallbackProps.v
theories/ExactCallbackSpec.v
theories/ExactCallbackTrainProofs.v
theories/ExactFinalProofs.v
theories/ExactGeneratorProofs.v
theories/ExactGradientProofs.v
theories/ExactModel.v
theories/ExactOperatorProofs.v
theories/ExactProofs.v
theories/ExactProps.v
theories/ExactSamplerProofs.v
theories/ExactSpec.v
theories/ExactTrainingModel.v
theories/ExactTrainingProofs.v
theories/ExactTrainingProps.v
theories/ExactTrainingSpec.v
theories/ExactUtilsModel.v
theories/ExactUtilsProofs.v
theories/ExactUtilsProps.v
theories/ExactUtilsSpec.v
theories/ExactVectorModel.v
theories/ExactVectorProps.v
theories/ExamplesModel.v
theories/ExamplesProofs.v
theories/ExamplesProps.v
theories/ExamplesSpec.v
theories/FastMachineBuildProofs.v
theories/FastMachineEndProofs.v
theories/FastMachineModel.v
theories/FastMachineProofs.v
theories/FastMachineProps.v
theories/FastMachineSpec.v
theories/GradientExamples.v
theories/GradientLossProofs.v
theories/GradientModel.v
theories/GradientProofs.v
theories/GradientProps.v
theories/GradientSpec.v
theories/GraphModel.v
theories/GraphProofs.v
theories/GraphProps.v
theories/GraphSpec.v
theories/HeisenbergModel.v
theories/HeisenbergProofs.v
theories/HeisenbergProps.v
theories/HeisenbergStateModel.v
theories/HeisenbergStateProps.v
theories/HistogramsModel.v
theories/HistogramsProps.v
theories/InitializersModel.v
theories/InitializersProofs.v
theories/InitializersProps.v
theories/InitializersSpec.v
theories/IsingModel.v
theories/IsingProofs.v
theories/IsingProps.v
theories/J1J2Model.v
theories/J1J2OperatorModel.v
theories/J1J2OperatorProofs.v
theories/J1J2OperatorProps.v
theories/J1J2Proofs.v
theories/J1J2Props.v
theories/J1J2SamplerProofs.v
theories/J1J2Spec.v
theories/J1J2SymmetryProofs.v
theories/JacobianModel.v
theories/JacobianProofs.v
theories/JacobianProps.v
theories/JacobianSpec.v
theories/LatticeSpec.v
theories/LayerRelationProofs.v
theories/LineGradientProofs.v
theories/LineGradientProps.v
theories/LineGradientSpec.v
theories/MachinesModel.v
theories/MachinesProofs.v
theories/MachinesProps.v
theories/MachinesSpec.v
theories/McmcStatsModel.v
theories/McmcStatsProofs.v
theories/McmcStatsProps.v
theories/McmcStatsSpec.v
theories/MetropolisFloatModel.v
theories/MetropolisFloatProofs.v
theories/MetropolisFloatProps.v
theories/MetropolisFloatSpec.v
theories/MetropolisGlobalProofs.v
theories/MetropolisModel.v
theories/MetropolisNextProofs.v
theories/MetropolisOperatorProofs.v
theories/MetropolisProofs.v
theories/MetropolisProps.v
theories/MetropolisSpec.v
theories/MetropolisUniqueProofs.v
theories/MixingExchangeProofs.v
theories/MixingHamiltonianProofs.v
theories/MixingProofs.v
theories/MixingProps.v
theories/MixingSamplerProofs.v
theories/MixingSpec.v
theories/MixingTrajectoryProofs.v
theories/MonitorModel.v
theories/MonitorProofs.v
theories/MonitorProps.v
theories/MonitorSpec.v
theories/MonteCarloModel.v
theories/MonteCarloProofs.v
theories/MonteCarloProps.v
theories/MonteCarloSamplerProofs.v
theories/MonteCarloSpec.v
theories/NetketModel.v
theories/NetketOldModel.v
theories/NetketOldProofs.v
theories/NetketOldProps.v
theories/NetketOldSpec.v
theories/NetketProofs.v
theories/NetketProps.v
theories/NetketSamplerModel.v
theories/NetketSamplerProofs.v
theories/NetketSamplerProps.v
theories/NetketSamplerSpec.v
theories/ObservableModel.v
theories/ObservableProofs.v
theories/ObservableProps.v
theories/ObservableSpec.v
theories/OrderingModel.v
theories/OrderingProofs.v
theories/OrderingProps.v
theories/OrderingSpec.v
theories/PipelineModel.v
theories/PipelineProofs.v
theories/PipelineProps.v
theories/PipelineSpec.v
theories/RbmCalculusProofs.v
theories/RbmMachineProofs.v
theories/RbmModel.v
theories/RbmProofs.v
theories/RbmSpec.v
theories/RbmStepProps.v
theories/Receptive2dProofs.v
theories/ReceptiveProofs.v
theories/ReceptiveProps.v
theories/ReceptiveSpec.v
theories/ReconfigurationCgProofs.v
theories/ReconfigurationModel.v
theories/ReconfigurationProofs.v
theories/ReconfigurationProps.v
theories/ReconfigurationSpec.v
theories/ReconfigurationVecProofs.v
theories/RotationProofs.v
theories/RotationProps.v
theories/RotationSpec.v
theories/RotationWitnessProofs.v
theories/RunnerModel.v
theories/RunnerProofs.v
theories/RunnerProps.v
theories/RunnerSpec.v
theories/SolverMatrixProofs.v
theories/SolverModel.v
theories/SolverProofs.v
theories/SolverProps.v
theories/SolverSpec.v
theories/StageTrainingModel.v
theories/StageTrainingProofs.v
theories/StageTrainingProps.v
theories/StageTrainingSpec.v
theories/StagesModel.v
theories/StagesProofs.v
theories/StagesProps.v
theories/StagesSpec.v
theories/SymmetricBondsProofs.v
theories/SymmetricEvaluationModel.v
theories/SymmetricEvaluationProofs.v
theories/SymmetricEvaluationProps.v
theories/SymmetricEvaluationSpec.v
theories/SymmetricLibraryProofs.v
theories/SymmetricWitnessProofs.v
theories/SymmetryEnsembleProofs.v
theories/SymmetryModel.v
theories/SymmetryProofs.v
theories/SymmetryProps.v
theories/SymmetrySpec.v
theories/TensorModel.v
theories/TensorboardModel.v
theories/TensorboardProofs.v
theories/TensorboardProps.v
theories/TensorboardSpec.v
theories/TopologyModel.v
theories/TopologyProofs.v
theories/TopologyProps.v
theories/TopologySpec.v
theories/TotalSpinModel.v
theories/TotalSpinProofs.v
theories/TotalSpinProps.v
theories/TotalSpinSpec.v
theories/TrainingModel.v
theories/TrainingProofs.v
theories/TrainingProps.v
theories/TrainingSpec.v
theories/Vec.v
theories/WeightNormModel.v
theories/WeightNormProofs.v
theories/WeightNormProps.v
theories/WeightNormSpec.v
theories/WrapperModel.v
theories/WrapperProofs.v
theories/WrapperProps.v
