-Q theories Verif
theories/Base/Exc.v
theories/Base/Num.v
theories/Base/Key.v
theories/Base/Dual.v
theories/Model/Stepsize.v
theories/Model/TimeLoop.v
theories/Model/Paths.v
theories/Model/Exports.v
theories/Model/TxtTimes.v
theories/Model/Materials.v
theories/Model/Mesh1D.v
theories/Model/Lists.v
theories/Model/Filter.v
theories/Model/Sources.v
theories/Model/Bcs.v
theories/Model/Fields.v
theories/Model/Laws.v
theories/Model/Theta.v
theories/Model/Forms.v
theories/Model/Quantities.v
theories/Model/TxtRows.v
theories/Model/Expressions.v
theories/Model/Simulation.v
theories/Model/SympyAst.v
theories/Model/Steady.v
theories/Model/XdmfInit.v
theories/Model/Checkpoint.v
theories/Model/CheckpointFile.v
theories/Model/Csv.v
theories/Model/PostProcess.v
theories/Model/NonlinearProblem.v
theories/Model/StartTemperature.v
theories/Model/Sharing.v
theories/Model/Solvers.v
theories/Model/Inputs.v
theories/Model/TrapDensity.v
theories/Model/TrapInputs.v
theories/Model/ExtrinsicDensity.v
theories/Model/Display.v
theories/Model/Run.v
theories/Model/Imposed.v
theories/Model/TimedInputs.v
theories/Spec/TimeSpec.v
theories/Spec/ExportSpec.v
theories/Spec/MeshSpec.v
theories/Spec/FieldSpec.v
theories/Spec/LayoutSpec.v
theories/Spec/PhysSpec.v
theories/Spec/ThetaSpec.v
theories/Spec/BalanceSpec.v
theories/Spec/QuantitySpec.v
theories/Spec/TxtRowSpec.v
theories/Spec/ExpressionSpec.v
theories/Spec/SimSpec.v
theories/Spec/SympySpec.v
theories/Spec/SteadySpec.v
theories/Spec/SplitSpec.v
theories/Spec/BuildSpec.v
theories/Spec/XdmfInitSpec.v
theories/Spec/TitleSpec.v
theories/Spec/StabilitySpec.v
theories/Spec/EulerSpec.v
theories/Spec/UnitSpec.v
theories/Spec/SurfaceSpec.v
theories/Spec/NameSpec.v
theories/Spec/BudgetSpec.v
theories/Spec/FluxSpec.v
theories/Spec/WeakSpec.v
theories/Spec/StartSpec.v
theories/Spec/NeedSpec.v
theories/Spec/SharingSpec.v
theories/Spec/SolverSpec.v
theories/Spec/NeutralSpec.v
theories/Spec/VariableSpec.v
theories/Spec/MergeSpec.v
theories/Spec/RestSpec.v
theories/Spec/SuperposeSpec.v
theories/Spec/TurnSpec.v
theories/Spec/RoundSpec.v
theories/Spec/AgreeSpec.v
theories/Spec/NewtonSpec.v
theories/Spec/InputSpec.v
theories/Spec/MaximumSpec.v
theories/Spec/CcodeSpec.v
theories/Spec/ErrorSpec.v
theories/Spec/WriteSpec.v
theories/Spec/TrapDensitySpec.v
theories/Spec/OrderSpec.v
theories/Spec/TrapInputSpec.v
theories/Spec/PermeationSpec.v
theories/Spec/ExtrinsicSpec.v
theories/Spec/RelaxSpec.v
theories/Spec/ConductionSpec.v
theories/Spec/DisplaySpec.v
theories/Spec/CompositeSpec.v
theories/Spec/TrapSteadySpec.v
theories/Spec/AccuracySpec.v
theories/Spec/ExactSpec.v
theories/Spec/ConvergeSpec.v
theories/Spec/AdaptSpec.v
theories/Spec/ImposedSpec.v
theories/Spec/TimedInputsSpec.v
theories/Proofs/NumQ.v
theories/Proofs/StepsizeProofs.v
theories/Proofs/TimeLoopProofs.v
theories/Proofs/TimeChain.v
theories/Proofs/TimeQ.v
theories/Proofs/TimeQ2.v
theories/Proofs/TimeTerm.v
theories/Proofs/TimeFloor.v
theories/Proofs/TimeRuns.v
theories/Proofs/TimeGrid.v
theories/Proofs/TimeWitness.v
theories/Proofs/ExportProofs.v
theories/Proofs/ExportTrack.v
theories/Proofs/ExportDerived.v
theories/Proofs/ExportRuns.v
theories/Proofs/TxtRuns.v
theories/Proofs/MaterialProofs.v
theories/Proofs/MeshProofs.v
theories/Proofs/KeyProofs.v
theories/Proofs/SourceProofs.v
theories/Proofs/BcProofs.v
theories/Proofs/FieldProofs.v
theories/Proofs/LawProofs.v
theories/Proofs/ThetaProofs.v
theories/Proofs/FormProofs.v
theories/Proofs/TrapProofs.v
theories/Proofs/QuantityProofs.v
theories/Proofs/TxtRowProofs.v
theories/Proofs/ExpressionProofs.v
theories/Proofs/BorderProofs.v
theories/Proofs/SimProofs.v
theories/Proofs/RerunProofs.v
theories/Proofs/SympyProofs.v
theories/Proofs/SteadyProofs.v
theories/Proofs/SplitProofs.v
theories/Proofs/StabilityProofs.v
theories/Proofs/EulerProofs.v
theories/Proofs/UnitProofs.v
theories/Proofs/SurfaceProofs.v
theories/Proofs/NameProofs.v
theories/Proofs/BudgetProofs.v
theories/Proofs/WeakProofs.v
theories/Proofs/TimeResume.v
theories/Proofs/SharingProofs.v
theories/Proofs/NeutralProofs.v
theories/Proofs/VariableProofs.v
theories/Proofs/MergeProofs.v
theories/Proofs/RestProofs.v
theories/Proofs/SuperposeProofs.v
theories/Proofs/TurnProofs.v
theories/Proofs/FloatProofs.v
theories/Proofs/RoundProofs.v
theories/Proofs/AgreeProofs.v
theories/Proofs/NewtonProofs.v
theories/Proofs/MaximumProofs.v
theories/Proofs/CcodeProofs.v
theories/Proofs/WriteProofs.v
theories/Proofs/TrapDensityProofs.v
theories/Proofs/OrderProofs.v
theories/Proofs/TrapInputProofs.v
theories/Proofs/PermeationProofs.v
theories/Proofs/ExtrinsicProofs.v
theories/Proofs/RelaxProofs.v
theories/Proofs/ConductionProofs.v
theories/Proofs/DisplayProofs.v
theories/Proofs/CompositeProofs.v
theories/Proofs/TrapSteadyProofs.v
theories/Proofs/AccuracyProofs.v
theories/Proofs/ExactProofs.v
theories/Proofs/ConvergeProofs.v
theories/Proofs/GrammarProofs.v
theories/Proofs/HeatSegment.v
theories/Properties/TimeProps.v
theories/Properties/ExportProps.v
theories/Properties/MaterialProps.v
theories/Properties/ListProps.v
theories/Properties/BcProps.v
theories/Properties/FieldProps.v
theories/Properties/LawProps.v
theories/Properties/ThetaProps.v
theories/Properties/FormProps.v
theories/Properties/TrapProps.v
theories/Properties/QuantityProps.v
theories/Properties/TxtRowProps.v
theories/Properties/ExpressionProps.v
theories/Properties/SimProps.v
theories/Properties/RerunProps.v
theories/Properties/SteadyProps.v
theories/Properties/SteadyRunProps.v
theories/Properties/SplitProps.v
theories/Properties/BuildProps.v
theories/Properties/XdmfInitProps.v
theories/Properties/CheckpointProps.v
theories/Properties/TitleProps.v
theories/Properties/CsvProps.v
theories/Properties/StabilityProps.v
theories/Properties/EulerProps.v
theories/Properties/UnitProps.v
theories/Properties/SurfaceProps.v
theories/Properties/NameProps.v
theories/Properties/BudgetProps.v
theories/Properties/FluxProps.v
theories/Properties/WeakProps.v
theories/Properties/StartProps.v
theories/Properties/NeedProps.v
theories/Properties/ResumeProps.v
theories/Properties/SharingProps.v
theories/Properties/SolverProps.v
theories/Properties/NeutralProps.v
theories/Properties/VariableProps.v
theories/Properties/MergeProps.v
theories/Properties/RestProps.v
theories/Properties/SuperposeProps.v
theories/Properties/TurnProps.v
theories/Properties/RoundProps.v
theories/Properties/AgreeProps.v
theories/Properties/NewtonProps.v
theories/Properties/InputProps.v
theories/Properties/MaximumProps.v
theories/Properties/SuitedProps.v
theories/Properties/CcodeProps.v
theories/Properties/ErrorProps.v
theories/Properties/WriteProps.v
theories/Properties/TrapDensityProps.v
theories/Properties/OrderProps.v
theories/Properties/TrapInputProps.v
theories/Properties/PermeationProps.v
theories/Properties/ExtrinsicProps.v
theories/Properties/RelaxProps.v
theories/Properties/ConductionProps.v
theories/Properties/DisplayProps.v
theories/Properties/CompositeProps.v
theories/Properties/TrapSteadyProps.v
theories/Properties/AccuracyProps.v
theories/Properties/ExactProps.v
theories/Properties/ConvergeProps.v
theories/Properties/AcceptedProps.v
theories/Properties/WholeProps.v
theories/Properties/AdaptProps.v
theories/Properties/RefusalProps.v
theories/Properties/ImposedProps.v
theories/Properties/TimedInputsProps.v
theories/Properties/HeatOrderProps.v
