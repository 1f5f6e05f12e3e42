-Q theories Verif
theories/BaseModel.v
theories/NumModel.v
theories/CostModel.v
theories/StopModel.v
theories/OptionsModel.v
theories/SolverModel.v
theories/OptimizerModel.v
theories/RunModel.v
theories/ExampleModel.v
theories/RealModel.v
theories/RealExampleModel.v
theories/NumSpec.v
theories/HistorySpec.v
theories/RunSpec.v
theories/StopSpec.v
theories/LmSpec.v
theories/ReuseSpec.v
theories/IeeeProofs.v
theories/OptimizerProofs.v
theories/LoopProofs.v
theories/TerminationProofs.v
theories/RunProofs.v
theories/HistoryProofs.v
theories/StopProofs.v
theories/EvalProofs.v
theories/TraceProofs.v
theories/SummaryProofs.v
theories/RefuteProofs.v
theories/OptimizeExamples.v
theories/OptimizeProps.v
theories/TraceExamples.v
theories/StopProps.v
theories/RoundProofs.v
theories/StateProofs.v
theories/LmProofs.v
theories/LmRangeProofs.v
theories/UndampedProofs.v
theories/ReuseProofs.v
theories/LmExamples.v
theories/LmProps.v
theories/ReuseExamples.v
theories/ReuseProps.v
theories/CostSpec.v
theories/GradSpec.v
theories/MathModel.v
theories/MathSpec.v
theories/ClipExampleModel.v
theories/CostProofs.v
theories/SimProofs.v
theories/UpperProofs.v
theories/GradProofs.v
theories/CostExamples.v
theories/CostProps.v
theories/MathProofs.v
theories/OutputProofs.v
theories/MathExamples.v
theories/MathProps.v
theories/TraitsModel.v
theories/TraitsSpec.v
theories/TraitsProofs.v
theories/TraitsExamples.v
theories/TraitsProps.v
theories/FunModel.v
theories/JetModel.v
theories/JetSpec.v
theories/DerivProofs.v
theories/JetProofs.v
theories/DynProofs.v
theories/JetExamples.v
theories/JetProps.v
theories/SumSpec.v
theories/SumProofs.v
theories/DiffModel.v
theories/DiffSpec.v
theories/DiffRealSpec.v
theories/DiffProofs.v
theories/DiffRealProofs.v
theories/DiffAccProofs.v
theories/DiffExamples.v
theories/DiffProps.v
theories/AutoModel.v
theories/AutoSpec.v
theories/AutoProofs.v
theories/NumFuncProofs.v
theories/AutoExamples.v
theories/AutoProps.v
theories/DispatchModel.v
theories/DispatchSpec.v
theories/DispatchProofs.v
theories/DispatchExamples.v
theories/DispatchProps.v
theories/LossModel.v
theories/LossSpec.v
theories/LossProofs.v
theories/LinfProofs.v
theories/RobustProofs.v
theories/ClassifProofs.v
theories/NormProofs.v
theories/LossExamples.v
theories/LossProps.v
theories/DistModel.v
theories/DistSpec.v
theories/DistProofs.v
theories/CosineProofs.v
theories/MahaProofs.v
theories/WhitenProofs.v
theories/DistExamples.v
theories/DistProps.v
theories/StepSpec.v
theories/StepProofs.v
theories/StepLastProofs.v
theories/AffineProofs.v
theories/AffineRunProofs.v
theories/StepExamples.v
theories/StepProps.v
theories/FormatModel.v
theories/FormatSpec.v
theories/FormatProofs.v
theories/FormatProps.v
theories/JetFloatModel.v
theories/JetFloatSpec.v
theories/JetFloatProofs.v
theories/JetFloatProps.v
theories/TimeModel.v
theories/TimeSpec.v
theories/TimeProofs.v
theories/TimeRoundProofs.v
theories/TimeExamples.v
theories/TimeProps.v
theories/LogModel.v
theories/LogSpec.v
theories/LogProofs.v
theories/LogRunProofs.v
theories/LogExamples.v
theories/LogProps.v
theories/UserModel.v
theories/UserSpec.v
theories/UserProofs.v
theories/LieProofs.v
theories/LieRunProofs.v
theories/UserExamples.v
theories/UserProps.v
theories/LmAffineSpec.v
theories/LinearProofs.v
theories/LmStepProofs.v
theories/RankProofs.v
theories/LmAffineProofs.v
theories/LmConvProofs.v
theories/LmAffineExamples.v
theories/LmAffineProps.v
theories/StoreSpec.v
theories/StoreProofs.v
theories/StoreRunProofs.v
theories/EndSpec.v
theories/EndProofs.v
theories/EndStepProofs.v
theories/EndExamples.v
theories/EndRunProofs.v
theories/EndProps.v
theories/RollSpec.v
theories/RollProofs.v
theories/RollExamples.v
theories/RollProps.v
theories/OutlierProofs.v
theories/OutlierProps.v
theories/GdSpec.v
theories/GdProofs.v
theories/GdAffineProofs.v
theories/GdExamples.v
theories/GdProps.v
theories/GdEndSpec.v
theories/GdEndProofs.v
theories/GdEndExamples.v
theories/GdEndProps.v
theories/NewtonSpec.v
theories/NewtonProofs.v
theories/NewtonLoopProofs.v
theories/NewtonRunProofs.v
theories/NewtonExamples.v
theories/NewtonProps.v
theories/DownhillSpec.v
theories/DownhillProofs.v
theories/DownhillStuckProofs.v
theories/DownhillExamples.v
theories/DownhillProps.v
theories/UnitsSpec.v
theories/UnitsSimProofs.v
theories/UnitsProofs.v
theories/UnitsRunProofs.v
theories/UnitsChainProofs.v
theories/UnitsExamples.v
theories/UnitsProps.v
theories/OperandModel.v
theories/OperandSpec.v
theories/OperandProofs.v
theories/OperandProps.v
theories/NestModel.v
theories/NestSpec.v
theories/NestProofs.v
theories/NestMainProofs.v
theories/NestFlatProofs.v
theories/NestSymProofs.v
theories/NestSchwarzProofs.v
theories/NestExamples.v
theories/NestProps.v
theories/SpecialModel.v
theories/SpecialSpec.v
theories/SpecialRoundProofs.v
theories/SpecialProofs.v
theories/SpecialFunctionProofs.v
theories/SpecialAverageProofs.v
theories/SpecialExamples.v
theories/SpecialProps.v
theories/JetRealSpec.v
theories/JetRealProofs.v
theories/JetLinProofs.v
theories/JetRealProps.v
theories/InvCovModel.v
theories/InvCovSpec.v
theories/InvCovProofs.v
theories/InvCovMatProofs.v
theories/InvCovLastProofs.v
theories/InvCovExamples.v
theories/InvCovProps.v
theories/EndNewtonSpec.v
theories/EndNewtonProofs.v
theories/EndNewtonExamples.v
theories/EndNewtonProps.v
theories/BesselModel.v
theories/BesselSpec.v
theories/BesselProofs.v
theories/BesselProps.v
theories/DiffFloatSpec.v
theories/DiffFloatProofs.v
theories/DiffFloatErrorProofs.v
theories/DiffFloatRunProofs.v
theories/DiffFloatExamples.v
theories/DiffFloatProps.v
theories/LossFloatModel.v
theories/LossFloatSpec.v
theories/LossFloatProofs.v
theories/LossFloatSoftmaxProofs.v
theories/LossFloatRobustProofs.v
theories/LossFloatOtherProofs.v
theories/LossFloatExamples.v
theories/LossFloatProps.v
theories/ApproxSpec.v
theories/ApproxProofs.v
theories/NumEndSpec.v
theories/NumEndProofs.v
theories/NumEndExamples.v
theories/NumEndProps.v
theories/NumNewtonProofs.v
theories/NumNewtonExamples.v
theories/NumNewtonProps.v
theories/RankSpec.v
theories/RankEndProofs.v
theories/RankExamples.v
theories/RankProps.v
theories/AccumModel.v
theories/AccumSpec.v
theories/AccumProofs.v
theories/AccumSysProofs.v
theories/AccumTrailProofs.v
theories/AccumRunProofs.v
theories/AccumExactSpec.v
theories/AccumExactProofs.v
theories/AccumStepSpec.v
theories/AccumStepProofs.v
theories/AccumBridgeProofs.v
theories/AccumExamples.v
theories/AccumProps.v
theories/AccurSpec.v
theories/AccurStepProofs.v
theories/AccurRunProofs.v
theories/AccurExamples.v
theories/AccurProps.v
theories/AccurLmSpec.v
theories/AccurLmStepProofs.v
theories/AccurLmRunProofs.v
theories/AccurLmExamples.v
theories/AccurLmProps.v
theories/AccurGdSpec.v
theories/AccurGdProofs.v
theories/AccurGdExamples.v
theories/AccurGdProps.v
theories/ThrowModel.v
theories/ThrowSpec.v
theories/ThrowProofs.v
theories/ThrowPlaceProofs.v
theories/ThrowExactProofs.v
theories/ThrowStateProofs.v
theories/ThrowExamples.v
theories/ThrowProps.v
theories/ContProofs.v
theories/ContRunProofs.v
theories/ContExamples.v
theories/ContProps.v
theories/JetErrSpec.v
theories/JetErrProofs.v
theories/JetErrExamples.v
theories/JetErrProps.v
theories/JetSysSpec.v
theories/JetSysProofs.v
theories/JetSysExamples.v
theories/JetSysProps.v
theories/NumSysSpec.v
theories/NumSysProofs.v
theories/NumSysExamples.v
theories/NumSysProps.v
theories/GdSysSpec.v
theories/GdSysProofs.v
theories/GdSysExamples.v
theories/GdSysProps.v
theories/ScaleSpec.v
theories/ScaleSimProofs.v
theories/ScaleRunProofs.v
theories/ScaleExamples.v
theories/ScaleExProofs.v
theories/ScaleProps.v
theories/CmpProofs.v
theories/CmpProps.v
