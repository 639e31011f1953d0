-Q theories Verif
theories/ApproxRatioExamples.v
theories/ApproxRatioProofs.v
theories/ApproxRatioProps.v
theories/ApproxRatioSpec.v
theories/ApproxSearchModel.v
theories/ApproxSearchProofs.v
theories/BalancedCompete.v
theories/BalancedCosts.v
theories/BalancedCount.v
theories/BalancedExamples.v
theories/BalancedModel.v
theories/BalancedProofs.v
theories/BalancedProps.v
theories/BalancedRatio.v
theories/BalancedRatioExamples.v
theories/BalancedRatioProps.v
theories/BalancedRatioSpec.v
theories/BalancedRun.v
theories/BalancedSearch.v
theories/BalancedSlots.v
theories/BalancedSpec.v
theories/BudgetCover.v
theories/BudgetExamples.v
theories/BudgetLanes.v
theories/BudgetModel.v
theories/BudgetProofs.v
theories/BudgetProps.v
theories/BudgetRun.v
theories/BudgetSpec.v
theories/CapacityBrcp.v
theories/CapacityChain.v
theories/CapacityExamples.v
theories/CapacityModel.v
theories/CapacityProofs.v
theories/CapacityProps.v
theories/CapacitySpec.v
theories/CapacityWindow.v
theories/CapacityWork.v
theories/ClientsExamples.v
theories/ClientsLive.v
theories/ClientsModel.v
theories/ClientsProofs.v
theories/ClientsProps.v
theories/ClientsSpec.v
theories/ConvertCosts.v
theories/ConvertExamples.v
theories/ConvertModel.v
theories/ConvertObjective.v
theories/ConvertProofs.v
theories/ConvertProps.v
theories/ConvertSpec.v
theories/CostExamples.v
theories/CostModel.v
theories/CostProofs.v
theories/CostProps.v
theories/CostSpec.v
theories/DataCenterExamples.v
theories/DataCenterImages.v
theories/DataCenterInstances.v
theories/DataCenterModel.v
theories/DataCenterParts.v
theories/DataCenterProofs.v
theories/DataCenterProps.v
theories/DataCenterSpec.v
theories/DescentAlgorithms.v
theories/DescentBounds.v
theories/DescentExamples.v
theories/DescentModel.v
theories/DescentMore.v
theories/DescentProofs.v
theories/DescentProps.v
theories/DescentSpec.v
theories/ExpectExamples.v
theories/ExpectLane.v
theories/ExpectLive.v
theories/ExpectLiveExamples.v
theories/ExpectLiveProps.v
theories/ExpectModel.v
theories/ExpectProofs.v
theories/ExpectProps.v
theories/ExpectRun.v
theories/ExpectSpec.v
theories/ExpectStep.v
theories/ExpectedCosts.v
theories/ExpectedExamples.v
theories/ExpectedProofs.v
theories/ExpectedProps.v
theories/ExpectedSpec.v
theories/Float1DExact.v
theories/Float1DExamples.v
theories/Float1DModel.v
theories/Float1DProofs.v
theories/Float1DProps.v
theories/Float1DTop.v
theories/FloatDP.v
theories/FloatExamples.v
theories/FloatInteger.v
theories/FloatModel.v
theories/FloatPick.v
theories/FloatProofs.v
theories/FloatProps.v
theories/FloatRound.v
theories/FloatSearch.v
theories/FloatSpec.v
theories/FloatWalk.v
theories/ForesightBudget.v
theories/ForesightDescent.v
theories/ForesightExamples.v
theories/ForesightModel.v
theories/ForesightProps.v
theories/ForesightRelax.v
theories/ForesightSolvers.v
theories/ForesightSpec.v
theories/ForesightStream.v
theories/ForesightWindow.v
theories/GraphSearchCosts.v
theories/GraphSearchDP.v
theories/GraphSearchExamples.v
theories/GraphSearchModel.v
theories/GraphSearchOrder.v
theories/GraphSearchPick.v
theories/GraphSearchProofs.v
theories/GraphSearchProps.v
theories/GraphSearchSpec.v
theories/GraphSearchWalk.v
theories/GridCapEnd.v
theories/GridCapExamples.v
theories/GridCapModel.v
theories/GridCapOneType.v
theories/GridCapProofs.v
theories/GridCapProps.v
theories/GridCapRestart.v
theories/GridCapSpec.v
theories/GridCapWave.v
theories/GuessExamples.v
theories/GuessProofs.v
theories/GuessProps.v
theories/GuessSpec.v
theories/HorizonExamples.v
theories/HorizonModel.v
theories/HorizonProofs.v
theories/HorizonProps.v
theories/HorizonRunAveraging.v
theories/HorizonRunExamples.v
theories/HorizonRunModel.v
theories/HorizonRunProofs.v
theories/HorizonRunProps.v
theories/HorizonRunSpec.v
theories/HorizonSpec.v
theories/JointEnd.v
theories/JointExamples.v
theories/JointModel.v
theories/JointProps.v
theories/JointSlot.v
theories/JointSolver.v
theories/JointSpec.v
theories/LiveBalanced.v
theories/LiveCompete.v
theories/LiveExamples.v
theories/LiveLoads.v
theories/LiveModel.v
theories/LiveProps.v
theories/LiveSpec.v
theories/LiveStream.v
theories/LoadExamples.v
theories/LoadModel.v
theories/LoadObjective.v
theories/LoadProofs.v
theories/LoadProps.v
theories/LoadSpec.v
theories/MemorylessExamples.v
theories/MemorylessProofs.v
theories/MemorylessProps.v
theories/MemorylessSpec.v
theories/NormDual.v
theories/NormExamples.v
theories/NormModel.v
theories/NormProofs.v
theories/NormProps.v
theories/NormSpec.v
theories/Num.v
theories/NumLemmas.v
theories/ObjectiveExamples.v
theories/ObjectiveProofs.v
theories/ObjectiveProps.v
theories/ObjectiveSpec.v
theories/Offline1DModel.v
theories/Offline1DProofs.v
theories/OfflineApprox.v
theories/OfflineDefault.v
theories/OfflineEnd.v
theories/OfflineEndLoads.v
theories/OfflineExamples.v
theories/OfflineFail.v
theories/OfflineLoads.v
theories/OfflineModel.v
theories/OfflineMore.v
theories/OfflineProofs.v
theories/OfflineProps.v
theories/OfflineRounding.v
theories/OfflineSpec.v
theories/OfflineStatic.v
theories/OneTypeConvex.v
theories/OneTypeCosts.v
theories/OneTypeEnd.v
theories/OneTypeExamples.v
theories/OneTypeInstances.v
theories/OneTypeProps.v
theories/OneTypeSpec.v
theories/OptimizeBrute.v
theories/OptimizeExamples.v
theories/OptimizeModel.v
theories/OptimizeProofs.v
theories/OptimizeProps.v
theories/OptimizeSpec.v
theories/OutputSpec.v
theories/OverflowExamples.v
theories/OverflowModel.v
theories/OverflowProofs.v
theories/OverflowProps.v
theories/PiecewiseExamples.v
theories/PiecewiseModel.v
theories/PiecewiseProofs.v
theories/PiecewiseProps.v
theories/PiecewiseSpec.v
theories/ProbabilisticExamples.v
theories/ProbabilisticModel.v
theories/ProbabilisticProofs.v
theories/ProbabilisticProps.v
theories/ProbabilisticSpec.v
theories/ProblemModel.v
theories/QuadratureExamples.v
theories/QuadratureModel.v
theories/QuadratureProofs.v
theories/QuadratureProps.v
theories/QuadratureSpec.v
theories/RandomizedExamples.v
theories/RandomizedModel.v
theories/RandomizedProofs.v
theories/RandomizedProps.v
theories/RandomizedSpec.v
theories/ResumeExamples.v
theories/ResumeProofs.v
theories/ResumeProps.v
theories/Search1DExamples.v
theories/Search1DExchange.v
theories/Search1DLevels.v
theories/Search1DModel.v
theories/Search1DProofs.v
theories/Search1DProps.v
theories/Search1DTop.v
theories/SessionCompete.v
theories/SessionDay.v
theories/SessionEnd.v
theories/SessionExamples.v
theories/SessionLcp.v
theories/SessionModel.v
theories/SessionProps.v
theories/SessionRefused.v
theories/SessionSpec.v
theories/SessionStream.v
theories/SessionTop.v
theories/SloRatioExamples.v
theories/SloRatioLane.v
theories/SloRatioProofs.v
theories/SloRatioProps.v
theories/SloRatioRun.v
theories/StaticExamples.v
theories/StaticModel.v
theories/StaticProofs.v
theories/StaticProps.v
theories/StaticSeparable.v
theories/StaticSpec.v
theories/StreamExamples.v
theories/StreamModel.v
theories/StreamProofs.v
theories/StreamProps.v
theories/StreamSpec.v
theories/TerminalDay.v
theories/TerminalExamples.v
theories/TerminalModel.v
theories/TerminalProofs.v
theories/TerminalProps.v
theories/TerminalSession.v
theories/TerminalSpec.v
theories/VerifyExamples.v
theories/VerifyModel.v
theories/VerifyProofs.v
theories/VerifyProps.v
theories/VerifySpec.v
theories/WindowEnd.v
theories/WindowExamples.v
theories/WindowModel.v
theories/WindowOneType.v
theories/WindowOrder.v
theories/WindowProofs.v
theories/WindowProps.v
theories/WindowSpec.v
theories/WireExamples.v
theories/WireModel.v
theories/WireProofs.v
theories/WireProps.v
theories/WireSpec.v
theories/WorkCacheExamples.v
theories/WorkCacheModel.v
theories/WorkCacheProofs.v
theories/WorkCacheProps.v
