-Q theories Verif
theories/Base/Cube.v
theories/Base/Dist.v
theories/Base/MH.v
theories/Base/RSum.v
theories/Base/XFloat.v
theories/Spec/AisRunSpec.v
theories/Spec/BertSpec.v
theories/Spec/BleuSpec.v
theories/Spec/Chain.v
theories/Spec/CoReportSpec.v
theories/Spec/ConfigSpec.v
theories/Spec/ConvertSpec.v
theories/Spec/CutSpec.v
theories/Spec/Datasets.v
theories/Spec/Ergodic.v
theories/Spec/EssReportSpec.v
theories/Spec/EvalSpec.v
theories/Spec/GraphData.v
theories/Spec/GraphRunSpec.v
theories/Spec/GraphSpec.v
theories/Spec/Grid.v
theories/Spec/InfillRunSpec.v
theories/Spec/InfillSpec.v
theories/Spec/InitField.v
theories/Spec/KeysSpec.v
theories/Spec/Latent.v
theories/Spec/LaunchSpec.v
theories/Spec/Learning.v
theories/Spec/Padding.v
theories/Spec/Partition.v
theories/Spec/ProposalSpec.v
theories/Spec/ReportSpec.v
theories/Spec/ResnetSpec.v
theories/Spec/RunTargetSpec.v
theories/Spec/SamplerRun.v
theories/Spec/SatSpec.v
theories/Spec/Selection.v
theories/Spec/StartSpec.v
theories/Spec/TempSpec.v
theories/Spec/ToolSpec.v
theories/Spec/TrainSpec.v
theories/Model/AdaptiveRun.v
theories/Model/AisRun.v
theories/Model/Annealing.v
theories/Model/BernEval.v
theories/Model/Bert.v
theories/Model/Bleu.v
theories/Model/CoCurve.v
theories/Model/CoReport.v
theories/Model/CombOpt.v
theories/Model/Config.v
theories/Model/Convert.v
theories/Model/CutReport.v
theories/Model/Datasets.v
theories/Model/EssEval.v
theories/Model/EssReport.v
theories/Model/Experiment.v
theories/Model/FHMM.v
theories/Model/Factorised.v
theories/Model/FullRun.v
theories/Model/GWG.v
theories/Model/Gibbs.v
theories/Model/GraphGen.v
theories/Model/GraphIter.v
theories/Model/GraphRun.v
theories/Model/HammingBall.v
theories/Model/Infill.v
theories/Model/InfillRun.v
theories/Model/Keys.v
theories/Model/Langevin.v
theories/Model/Lattice.v
theories/Model/LatticeRun.v
theories/Model/Launch.v
theories/Model/Learning.v
theories/Model/Loaders.v
theories/Model/LocallyBalanced.v
theories/Model/MathUtil.v
theories/Model/PathAux.v
theories/Model/RBM.v
theories/Model/RandomWalk.v
theories/Model/Report.v
theories/Model/Resnet.v
theories/Model/RunConfigs.v
theories/Model/RunTarget.v
theories/Model/SavedChains.v
theories/Model/Start.v
theories/Model/TempReport.v
theories/Model/Tools.v
theories/Model/Training.v
theories/Model/Utils.v
theories/Proof/AdaptiveInformed.v
theories/Proof/AdaptiveRunProof.v
theories/Proof/AffineProof.v
theories/Proof/AisAny.v
theories/Proof/AisBias.v
theories/Proof/AisChains.v
theories/Proof/AisConsequences.v
theories/Proof/AisExperiment.v
theories/Proof/AisProduct.v
theories/Proof/AisRefute.v
theories/Proof/AisRunProof.v
theories/Proof/AisShipped.v
theories/Proof/AisWalk.v
theories/Proof/AnnealProof.v
theories/Proof/BernEvalProof.v
theories/Proof/BertProof.v
theories/Proof/BleuFacts.v
theories/Proof/BleuProof.v
theories/Proof/BleuRun.v
theories/Proof/CatGWGProof.v
theories/Proof/ChainProof.v
theories/Proof/CoCurveProof.v
theories/Proof/CoOptProof.v
theories/Proof/CoOptRun.v
theories/Proof/CoReportProof.v
theories/Proof/CombOptProof.v
theories/Proof/CombProof.v
theories/Proof/ConfigProof.v
theories/Proof/ConvertProof.v
theories/Proof/CutReportProof.v
theories/Proof/DatasetsProof.v
theories/Proof/ErgodicCat.v
theories/Proof/ErgodicMore.v
theories/Proof/ErgodicPath.v
theories/Proof/ErgodicProof.v
theories/Proof/ErgodicSamplers.v
theories/Proof/EssEvalProof.v
theories/Proof/EssReportProof.v
theories/Proof/ExperimentProof.v
theories/Proof/FHMMProof.v
theories/Proof/FactorisedProof.v
theories/Proof/FullRunInvar.v
theories/Proof/FullRunProof.v
theories/Proof/GWGProof.v
theories/Proof/GibbsProof.v
theories/Proof/GraphGenProof.v
theories/Proof/GraphIterProof.v
theories/Proof/GraphProof.v
theories/Proof/GraphRunDemo.v
theories/Proof/GraphRunJob.v
theories/Proof/GraphRunProof.v
theories/Proof/GraphRunShipped.v
theories/Proof/GuardRun.v
theories/Proof/HammingBallGeneral.v
theories/Proof/HammingBallProof.v
theories/Proof/InfillGibbs.v
theories/Proof/InfillLimit.v
theories/Proof/InfillProof.v
theories/Proof/InfillRunLaw.v
theories/Proof/InfillRunProof.v
theories/Proof/InfillShipped.v
theories/Proof/InitFieldProof.v
theories/Proof/KeysProof.v
theories/Proof/KeysRun.v
theories/Proof/LBProof.v
theories/Proof/LangevinAdapt.v
theories/Proof/LangevinProof.v
theories/Proof/LangevinRows.v
theories/Proof/LatticeGrad.v
theories/Proof/LatticeProof.v
theories/Proof/LaunchAccept.v
theories/Proof/LaunchProof.v
theories/Proof/LaunchShipped.v
theories/Proof/LearningProof.v
theories/Proof/LoadersProof.v
theories/Proof/MHKernel.v
theories/Proof/MathUtilProof.v
theories/Proof/NoReplProof.v
theories/Proof/NormCutProof.v
theories/Proof/PaddingCases.v
theories/Proof/PaddingProof.v
theories/Proof/PartitionProof.v
theories/Proof/PathAuxCatProof.v
theories/Proof/PathAuxProof.v
theories/Proof/PathAuxRefute.v
theories/Proof/ProposalProof.v
theories/Proof/RBMProof.v
theories/Proof/RandomWalkProof.v
theories/Proof/ReportMore.v
theories/Proof/ReportNames.v
theories/Proof/ReportRun.v
theories/Proof/ReportSheets.v
theories/Proof/ReportShipped.v
theories/Proof/ReportText.v
theories/Proof/ResnetImage.v
theories/Proof/ResnetProof.v
theories/Proof/ResnetTorch.v
theories/Proof/RunTargetProof.v
theories/Proof/RunTargetRefuted.v
theories/Proof/RunTargetShipped.v
theories/Proof/SameTargetProof.v
theories/Proof/SavedChainsProof.v
theories/Proof/ScanProof.v
theories/Proof/StartProof.v
theories/Proof/StepsProof.v
theories/Proof/TempProof.v
theories/Proof/ToolsProof.v
theories/Proof/ToolsProof2.v
theories/Proof/TrainingProof.v
theories/Proof/UtilsProof.v
theories/Thm/T01_MathUtil.v
theories/Thm/T02_Gibbs.v
theories/Thm/T03_RandomWalk.v
theories/Thm/T04_GWG.v
theories/Thm/T05_PathAux.v
theories/Thm/T06_Langevin.v
theories/Thm/T07_HammingLB.v
theories/Thm/T08_Lattice.v
theories/Thm/T09_Factorised.v
theories/Thm/T10_CombOpt.v
theories/Thm/T11_Experiment.v
theories/Thm/T12_RBM_FHMM.v
theories/Thm/T13_GraphGen.v
theories/Thm/T14_Utils.v
theories/Thm/T15_Training.v
theories/Thm/T16_Tools.v
theories/Thm/T17_Infill.v
theories/Thm/T18_Proposals.v
theories/Thm/T19_Ergodic.v
theories/Thm/T20_SameTarget.v
theories/Thm/T21_Adaptive.v
theories/Thm/T22_Config.v
theories/Thm/T23_Evaluators.v
theories/Thm/T24_Annealing.v
theories/Thm/T25_Learning.v
theories/Thm/T26_Datasets.v
theories/Thm/T27_Partition.v
theories/Thm/T28_InitField.v
theories/Thm/T29_Padding.v
theories/Thm/T30_CoOpt.v
theories/Thm/T31_FullRun.v
theories/Thm/T32_Loaders.v
theories/Thm/T33_Bert.v
theories/Thm/T34_Guard.v
theories/Thm/T35_Ess.v
theories/Thm/T36_Resnet.v
theories/Thm/T37_Launch.v
theories/Thm/T38_RunTarget.v
theories/Thm/T39_Bleu.v
theories/Thm/T40_Keys.v
theories/Thm/T41_GraphRun.v
theories/Thm/T42_AisRun.v
theories/Thm/T43_InfillRun.v
theories/Thm/T44_Report.v
theories/Thm/T45_CutReport.v
theories/Thm/T46_EssReport.v
theories/Thm/T47_CoReport.v
theories/Thm/T48_TempReport.v
theories/Thm/T49_CoCurve.v
