-Q theories Verif
theories/Base.v
theories/F64.v
theories/Rng.v
theories/IndividualModel.v
theories/CrossoverModel.v
theories/CrossoverSpec.v
theories/CrossoverProofs.v
theories/CrossoverMultiProofs.v
theories/CrossoverPermProofs.v
theories/PropsCrossover.v
theories/MutationModel.v
theories/MutationSpec.v
theories/MutationProofs.v
theories/MutationReproProofs.v
theories/PropsMutation.v
theories/F64R.v
theories/SelectionModel.v
theories/SelectionSpec.v
theories/SelectionProofs.v
theories/SelectionRProofs.v
theories/SusProofs.v
theories/PropsSelection.v
theories/ReplacementModel.v
theories/ReplacementSpec.v
theories/ReplacementProofs.v
theories/GaModel.v
theories/GaSpec.v
theories/GaProofs.v
theories/PropsReplacement.v
theories/PropsGa.v
theories/PopulationModel.v
theories/PopulationSpec.v
theories/PopulationProofs.v
theories/PropsPopulation.v
theories/BuilderModel.v
theories/BuilderSpec.v
theories/BuilderProofs.v
theories/PresetSpec.v
theories/PresetProofs.v
theories/PropsBuilder.v
theories/ProbeModel.v
theories/ProbeSpec.v
theories/ProbeProofs.v
theories/PropsProbe.v
theories/AcoModel.v
theories/AcoSpec.v
theories/AcoAntProofs.v
theories/AcoChoiceProofs.v
theories/AcoPheromoneProofs.v
theories/AcoGradeProofs.v
theories/AcoGroupProofs.v
theories/AcoRunProofs.v
theories/AcoDepositProofs.v
theories/AcoTspProofs.v
theories/AcoUtilProofs.v
theories/PropsAcoAnts.v
theories/PropsAcoPheromone.v
theories/PropsAcoRun.v
theories/PsoModel.v
theories/PsoSpec.v
theories/PsoProofs.v
theories/PsoRunProofs.v
theories/PsoBestProofs.v
theories/PsoBoundsProofs.v
theories/PsoProbeProofs.v
theories/PropsPso.v
theories/FfModel.v
theories/FfSpec.v
theories/FfProofs.v
theories/FfRunProofs.v
theories/FfProbeProofs.v
theories/PropsFf.v
theories/TfModel.v
theories/TfSpec.v
theories/TfProofs.v
theories/TfFixProofs.v
theories/TfDimProofs.v
theories/TfDim2Proofs.v
theories/TfDocProofs.v
theories/TfDoc2Proofs.v
theories/TfDoc3Proofs.v
theories/TfDoc4Proofs.v
theories/TfDoc5Proofs.v
theories/TfShapeProofs.v
theories/TfDocNotProofs.v
theories/TfF64Proofs.v
theories/TfFormulaProofs.v
theories/PropsTf.v
theories/BoltzmannProofs.v
theories/JsspModel.v
theories/JsspFloatProofs.v
theories/JsspListProofs.v
theories/JsspSchedProofs.v
theories/JsspGraphProofs.v
theories/JsspSpec.v
theories/JsspInstProofs.v
theories/JsspKeepProofs.v
theories/JsspEvalProofs.v
theories/JsspRunProofs.v
theories/JsspBoundProofs.v
theories/JsspTheorems.v
theories/JsspOrderProofs.v
theories/JsspSearchProofs.v
theories/JsspOpsProofs.v
theories/JsspSolverProofs.v
theories/JsspLimitProofs.v
theories/PropsJssp.v
theories/PropsJsspDecoder.v
theories/FfDistanceProofs.v
theories/PropsFfDistance.v
theories/AcoProbeModel.v
theories/AcoProbeSpec.v
theories/AcoProbeProofs.v
theories/PropsAcoProbe.v
theories/JsspMainModel.v
theories/JsspMainSpec.v
theories/JsspStringProofs.v
theories/JsspMainProofs.v
theories/JsspProgramProofs.v
theories/JsspShareProofs.v
theories/JsspFinalProofs.v
theories/PropsJsspMain.v
theories/AcoTspGenModel.v
theories/AcoTspGenSpec.v
theories/AcoTspGenProofs.v
theories/PropsAcoGen.v
theories/GaEvalModel.v
theories/GaEvalSpec.v
theories/GaEvalProofs.v
theories/PropsGaEval.v
theories/WeakRunSpec.v
theories/WeakRunProofs.v
theories/PropsWeakRun.v
theories/CocoModel.v
theories/CocoSpec.v
theories/CocoProofs.v
theories/PropsCoco.v
theories/GaLogModel.v
theories/GaLogSpec.v
theories/GaLogProofs.v
theories/PropsGaLog.v
theories/GaAssembleModel.v
theories/GaAssembleSpec.v
theories/GaAssembleProofs.v
theories/GaAssembleRunProofs.v
theories/PropsGaAssemble.v
theories/TfFormula2Proofs.v
theories/TfFormula3Proofs.v
theories/TfFormula4Proofs.v
theories/PropsTfFormula.v
theories/GaOrderSpec.v
theories/GaOrderProofs.v
theories/PropsGaOrder.v
theories/PsoOrderSpec.v
theories/PsoOrderProofs.v
theories/PropsSwarmOrder.v
theories/FfOrderSpec.v
theories/FfOrderProofs.v
theories/PropsFfOrder.v
theories/GaFitSelSpec.v
theories/GaFitSelProofs.v
theories/PropsGaFitSel.v
theories/ExampleModel.v
theories/ExampleSpec.v
theories/IntervalProofs.v
theories/ExampleProofs.v
theories/PropsExample.v
theories/PsoExampleModel.v
theories/PsoExampleProofs.v
theories/FfExampleModel.v
theories/FfExampleProofs.v
theories/PropsPsoExample.v
theories/PropsFfExample.v
theories/DecimalProofs.v
theories/PropsDecimal.v
theories/AcoLocalSpec.v
theories/AcoLocalProofs.v
theories/PropsAcoLocal.v
theories/TfFormula5Proofs.v
theories/PropsTfFormula2.v
theories/TournamentProofs.v
theories/AcoCostProofs.v
theories/PropsAcoCost.v
theories/CrossoverEdgeProofs.v
theories/PropsCrossoverEdge.v
theories/ChanceSpec.v
theories/ChanceProofs.v
theories/ChanceRateProofs.v
theories/ChanceRankProofs.v
theories/PropsChance.v
theories/AcoWheelProofs.v
theories/PropsAcoWheel.v
theories/SusChanceProofs.v
theories/PropsSusChance.v
theories/EvenProofs.v
theories/EvenPointProofs.v
theories/PropsEven.v
theories/AcoBoundSpec.v
theories/AcoBoundProofs.v
theories/PropsAcoBound.v
theories/AcoAcsBoundProofs.v
theories/MutReachSpec.v
theories/MutReachProofs.v
theories/PropsMutReach.v
theories/PsoRangeSpec.v
theories/PsoRangeProofs.v
theories/PropsPsoRange.v
theories/PropsFfConst.v
theories/XoverReachSpec.v
theories/XoverReachProofs.v
theories/PropsXoverReach.v
theories/AcoReachSpec.v
theories/AcoReachProofs.v
theories/PropsAcoReach.v
theories/PropsJsspShare.v
theories/FileModel.v
theories/FileSpec.v
theories/FileProofs.v
theories/PropsFile.v
theories/AcoTrailSpec.v
theories/AcoTrailProofs.v
theories/PropsAcoTrail.v
theories/AcoCasesSpec.v
theories/AcoCasesProofs.v
theories/PropsAcoCases.v
theories/GaReachProofs.v
theories/GaReachPresetProofs.v
theories/PropsGaReach.v
theories/SelectReachProofs.v
theories/PropsSelectReach.v
theories/JsspWindowProofs.v
theories/JsspReachProofs.v
theories/JsspMissProofs.v
theories/PropsJsspReach.v
theories/FfBenchModel.v
theories/FfBenchProofs.v
theories/PropsFfBench.v
theories/AcoBenchModel.v
theories/AcoBenchProofs.v
theories/PropsAcoBench.v
