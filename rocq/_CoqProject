-Q theories Verif
theories/Base/Prelude.v
theories/Base/Sums.v
theories/Base/Arrays.v
theories/Model/Discretization.v
theories/Proofs/Rouwenhorst.v
theories/Spec/Markov.v
theories/Proofs/DivMod.v
theories/Proofs/Markov.v
theories/Proofs/Multidim.v
theories/Proofs/RouwStationary.v
theories/Proofs/DiscretizationFinal.v
theories/Props/P_Discretization.v
theories/Spec/LinearAlgebra.v
theories/Model/LinearSolve.v
theories/Proofs/Gauss.v
theories/Proofs/GaussFinal.v
theories/Props/P_LinearSolve.v
theories/Base/Ext.v
theories/Spec/Complementarity.v
theories/Model/Complementarity.v
theories/Proofs/FischerBurmeister.v
theories/Base/Norms.v
theories/Base/Banach.v
theories/Model/Newton.v
theories/Spec/Newton.v
theories/Proofs/NewtonProofs.v
theories/Proofs/ComplementarityFinal.v
theories/Props/P_Complementarity.v
theories/Model/Lmmcp.v
theories/Proofs/LmmcpProofs.v
theories/Spec/LmmcpState.v
theories/Proofs/LmmcpFinal.v
theories/Props/P_Lmmcp.v
theories/Model/LmmcpDirection.v
theories/Spec/LeastSquares.v
theories/Proofs/LmmcpDirectionProofs.v
theories/Props/P_LmmcpStep.v
theories/Spec/Calculus.v
theories/Model/NumDiff.v
theories/Proofs/NumDiffProofs.v
theories/Props/P_NumDiff.v
theories/Spec/Product.v
theories/Model/Grids.v
theories/Proofs/GridProofs.v
theories/Props/P_Grids.v
theories/Model/Distributions.v
theories/Spec/Law.v
theories/Proofs/LawProofs.v
theories/Proofs/LawFinal.v
theories/Proofs/NormalProofs.v
theories/Props/P_Distributions.v
theories/Model/Processes.v
theories/Proofs/ProcessProofs.v
theories/Props/P_Processes.v
theories/Model/Ergodic.v
theories/Spec/StateGrid.v
theories/Proofs/ErgodicProofs.v
theories/Props/P_Ergodic.v
theories/Model/DecisionRule.v
theories/Spec/Interpolation.v
theories/Proofs/DecisionRuleProofs.v
theories/Props/P_DecisionRule.v
theories/Model/TimeIteration.v
theories/Model/ImprovedTimeIteration.v
theories/Spec/Euler.v
theories/Spec/TimeIteration.v
theories/Proofs/TimeIterationProofs.v
theories/Spec/NewtonStep.v
theories/Spec/ImprovedTimeIteration.v
theories/Proofs/ImprovedTimeIterationProofs.v
theories/Props/P_TimeIteration.v
theories/Proofs/ItiJacobian.v
theories/Props/P_ImprovedTimeIteration.v
theories/Model/ValueIteration.v
theories/Spec/Bellman.v
theories/Spec/ValueIteration.v
theories/Proofs/ValueIterationProofs.v
theories/Props/P_ValueIteration.v
theories/Model/Egm.v
theories/Spec/Egm.v
theories/Proofs/EgmProofs.v
theories/Props/P_Egm.v
theories/Model/SteadyState.v
theories/Model/PerfectForesight.v
theories/Spec/PerfectForesight.v
theories/Spec/PerfectForesightRun.v
theories/Proofs/PerfectForesightProofs.v
theories/Proofs/PerfectForesightFinal.v
theories/Props/P_PerfectForesight.v
theories/Model/Simulation.v
theories/Spec/Simulation.v
theories/Proofs/SimulationProofs.v
theories/Proofs/SimulationFinal.v
theories/Props/P_Simulation.v
theories/Model/Perturbation.v
theories/Proofs/MatrixAlgebra.v
theories/Spec/Perturbation.v
theories/Proofs/PerturbationProofs.v
theories/Proofs/PerturbationFinal.v
theories/Props/P_Perturbation.v
theories/Base/Nda.v
theories/Model/Tensor.v
theories/Spec/Tensor.v
theories/Model/MatrixEquations.v
theories/Model/Taylor.v
theories/Proofs/TensorProofs.v
theories/Proofs/MatrixEquationsProofs.v
theories/Proofs/TaylorProofs.v
theories/Props/P_Tensor.v
theories/Spec/Filters.v
theories/Model/Filters.v
theories/Proofs/FiltersProofs.v
theories/Props/P_Filters.v
theories/Model/Caching.v
theories/Spec/Caching.v
theories/Proofs/CachingProofs.v
theories/Props/P_Caching.v
theories/Model/Groot.v
theories/Spec/Groot.v
theories/Proofs/GrootProofs.v
theories/Props/P_Groot.v
theories/Model/Multimethod.v
theories/Spec/Multimethod.v
theories/Proofs/MultimethodProofs.v
theories/Props/P_Multimethod.v
theories/Base/Dict.v
theories/Model/CompilerMisc.v
theories/Spec/CompilerMisc.v
theories/Proofs/CompilerMiscProofs.v
theories/Props/P_CompilerMisc.v
theories/Base/Strings.v
theories/Model/ModelObject.v
theories/Spec/ModelObject.v
theories/Proofs/ModelObjectProofs.v
theories/Proofs/ModelObjectFinal.v
theories/Props/P_ModelObject.v
theories/Model/Factories.v
theories/Model/FormulaCall.v
theories/Spec/Factories.v
theories/Spec/FormulaCall.v
theories/Proofs/FactoriesProofs.v
theories/Proofs/FactoriesFinal.v
theories/Proofs/FormulaCallProofs.v
theories/Props/P_Factories.v
theories/Props/P_FormulaCall.v
theories/Model/Bruteforce.v
theories/Spec/Bruteforce.v
theories/Proofs/BruteforceProofs.v
theories/Proofs/BruteforceFinal.v
theories/Props/P_Bruteforce.v
theories/Model/HigherOrder.v
theories/Spec/HigherOrder.v
theories/Proofs/Jets.v
theories/Proofs/HigherOrderAlgebra.v
theories/Proofs/HigherOrderOps.v
theories/Proofs/HigherOrderProofs.v
theories/Proofs/HigherOrderFinal.v
theories/Proofs/HigherOrderThird.v
theories/Props/P_HigherOrder.v
theories/Model/Overload.v
theories/Spec/Overload.v
theories/Proofs/OverloadProofs.v
theories/Props/P_Overload.v
theories/Model/ModelGrid.v
theories/Spec/ModelGrid.v
theories/Proofs/ModelGridProofs.v
theories/Props/P_ModelGrid.v
theories/Model/CustomDR.v
theories/Spec/CustomDR.v
theories/Proofs/CustomDRProofs.v
theories/Props/P_CustomDR.v
theories/Model/GdpDiscretization.v
theories/Proofs/GdpProofs.v
theories/Props/P_Gdp.v
theories/Spec/Convergence.v
theories/Proofs/TiConvergence.v
theories/Proofs/ViConvergence.v
theories/Proofs/Howard.v
theories/Proofs/EgmConvergence.v
theories/Props/P_Convergence.v
theories/Spec/Stationary.v
theories/Proofs/StationaryLaws.v
theories/Proofs/RouwUnique.v
theories/Spec/NewtonRoot.v
theories/Proofs/NewtonConvergence.v
theories/Props/P_Stationary.v
theories/Props/P_NewtonConvergence.v
theories/Model/ModelCaches.v
theories/Spec/ModelCaches.v
theories/Proofs/ModelCachesProofs.v
theories/Props/P_ModelCaches.v
theories/Proofs/Refusals.v
theories/Proofs/SecondCall.v
theories/Proofs/PerfectForesightFlat.v
theories/Props/P_Calls.v
theories/Spec/Quadrature.v
theories/Proofs/Hermite.v
theories/Proofs/HermiteRoots.v
theories/Proofs/HermiteRule.v
theories/Proofs/HermiteThree.v
theories/Props/P_Quadrature.v
theories/Proofs/HigherOrderCubic.v
theories/Proofs/HigherOrderRun3.v
theories/Proofs/HigherOrderTri.v
theories/Proofs/HigherOrderOrder4.v
theories/Proofs/HigherOrderExamples.v
theories/Proofs/HigherOrderTwoStates.v
theories/Model/Sampling.v
theories/Spec/Sampling.v
theories/Proofs/SamplingProofs.v
theories/Props/P_Sampling.v
theories/Model/Examples.v
theories/Spec/Examples.v
theories/Proofs/ExamplesProofs.v
theories/Proofs/TriangularSolver.v
theories/Proofs/DefinitionOrder.v
theories/Proofs/ExamplesFinal.v
theories/Proofs/ExamplesCalib.v
theories/Proofs/ExamplesRun.v
theories/Proofs/ExamplesEnd.v
theories/Props/P_Examples.v
theories/Spec/Subdifferential.v
theories/Proofs/LmmcpKinks.v
theories/Proofs/LmmcpClarke.v
theories/Proofs/LmmcpTerms.v
theories/Proofs/LmmcpRows.v
theories/Proofs/LmmcpKinkEnd.v
theories/Props/P_LmmcpKinks.v
theories/Proofs/Refusals2.v
theories/Proofs/DrivingPaths.v
theories/Props/P_Calls2.v
theories/Model/Discretize.v
theories/Spec/Discretize.v
theories/Proofs/DiscretizeKinds.v
theories/Proofs/DiscretizeLaws.v
theories/Proofs/DiscretizeDims.v
theories/Proofs/DiscretizeCounts.v
theories/Props/P_Discretize.v
theories/Model/ErgodicDispatch.v
theories/Spec/ErgodicDispatch.v
theories/Proofs/ErgodicDispatchProofs.v
theories/Props/P_ErgodicDispatch.v
theories/Spec/ItiRegular.v
theories/Proofs/ItiConvergence.v
theories/Spec/AffineModel.v
theories/Proofs/ItiAffine.v
theories/Props/P_ItiConvergence.v
theories/Proofs/DiscretizeMoments.v
theories/Model/Response.v
theories/Spec/Response.v
theories/Proofs/ResponseProofs.v
theories/Props/P_Response.v
theories/Model/TimeIterationCall.v
theories/Spec/TiCall.v
theories/Proofs/TiCallProofs.v
theories/Proofs/TiCallSim.v
theories/Spec/RuleTomorrow.v
theories/Proofs/RuleTomorrowProofs.v
theories/Props/P_TiCall.v
theories/Proofs/HigherOrderErrors.v
theories/Model/ItiCall.v
theories/Spec/ItiCall.v
theories/Proofs/ItiCallProofs.v
theories/Proofs/ItiGmres.v
theories/Props/P_ItiCall.v
theories/Model/CompiledFunctions.v
theories/Spec/CompiledFunctions.v
theories/Proofs/CompiledFunctionsProofs.v
theories/Props/P_CompiledFunctions.v
theories/Model/EvaluateCall.v
theories/Spec/EvaluateCall.v
theories/Proofs/EvaluateCallProofs.v
theories/Props/P_EvaluateCall.v
theories/Model/EgmCall.v
theories/Spec/EgmCall.v
theories/Proofs/EgmCallProofs.v
theories/Props/P_EgmCall.v
theories/Model/PfTable.v
theories/Spec/PfTable.v
theories/Proofs/PfTableProofs.v
theories/Props/P_PfTable.v
theories/Spec/NcpRegular.v
theories/Proofs/NcpConvergence.v
theories/Props/P_NcpConvergence.v
theories/Model/Verbose.v
theories/Spec/Verbose.v
theories/Proofs/VerboseProofs.v
theories/Props/P_Verbose.v
theories/Model/ModelPrint.v
theories/Spec/ModelPrint.v
theories/Proofs/ModelPrintProofs.v
theories/Props/P_ModelPrint.v
theories/Model/ViCall.v
theories/Spec/ViCall.v
theories/Proofs/ViCallProofs.v
theories/Props/P_ViCall.v
theories/Model/YamlImport.v
theories/Spec/YamlImport.v
theories/Proofs/YamlImportProofs.v
theories/Props/P_YamlImport.v
theories/Model/VerboseAlgos.v
theories/Spec/VerboseAlgos.v
theories/Proofs/VerboseAlgosProofs.v
theories/Props/P_VerboseAlgos.v
