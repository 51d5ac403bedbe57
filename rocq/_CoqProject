-Q theories Verif
theories/Base.v
theories/Hier.v
theories/Algos.v
theories/Spec.v
theories/MargFacts.v
theories/NealFacts.v
theories/Run.v
theories/InitFacts.v
theories/Demo.v
theories/MargMore.v
theories/MargProps.v
theories/P_Marginal.v
theories/SplitMerge.v
theories/SMFacts.v
theories/SMProps.v
theories/P_SplitMerge.v
theories/XReal.v
theories/Stick.v
theories/Cond.v
theories/CondFacts.v
theories/SliceFacts.v
theories/StickFacts.v
theories/CondProps.v
theories/CondDraws.v
theories/P_Conditional.v
theories/PartSpec.v
theories/Mixings.v
theories/MixFacts.v
theories/MixMore.v
theories/LogitFacts.v
theories/MfmFacts.v
theories/P_Mixing.v
theories/GibbsSpec.v
theories/GibbsComb.v
theories/GibbsPost.v
theories/GibbsFacts.v
theories/GibbsSweep.v
theories/Gibbs8.v
theories/Univ.v
theories/UnivFacts.v
theories/UnivMore.v
theories/UnivInit.v
theories/GibbsState.v
theories/RealInst.v
theories/RealFacts.v
theories/RealMore.v
theories/P_Gibbs.v
theories/P_Univ.v
theories/StatFacts.v
theories/RealField.v
theories/MatLib.v
theories/Multi.v
theories/MultiFacts.v
theories/NnwFacts.v
theories/LinFacts.v
theories/Fa.v
theories/FaFacts.v
theories/NwHyper.v
theories/P_Multi.v
theories/MultiInst.v
theories/MultiReal.v
theories/P_MultiAlg.v
theories/Collect.v
theories/CollectFacts.v
theories/CollectMore.v
theories/P_Collect.v
theories/Utils.v
theories/UtilsFacts.v
theories/UtilsMore.v
theories/ClusterFacts.v
theories/P_Utils.v
theories/Eval.v
theories/EvalFacts.v
theories/EvalMore.v
theories/P_Eval.v
theories/SMPost.v
theories/SMRatio.v
theories/SMSim.v
theories/SMBalance.v
theories/SMReverse.v
theories/SMReal.v
theories/SMRealEx.v
theories/P_SMRatio.v
theories/Semi.v
theories/SemiWp.v
theories/SemiSpec.v
theories/SemiCount.v
theories/SemiInv.v
theories/SemiInv2.v
theories/SemiInv3.v
theories/SemiInv4.v
theories/SemiRelabel.v
theories/SemiUnique.v
theories/SemiInit.v
theories/SemiStep.v
theories/SemiTwice.v
theories/SemiEx.v
theories/P_Semi.v
theories/SemiLaw.v
theories/SemiLawFacts.v
theories/SemiLawFacts2.v
theories/P_SemiLaw.v
theories/GaussInt.v
theories/Dist.v
theories/DistFacts.v
theories/P_Dist.v
theories/MDist.v
theories/MDistFacts.v
theories/P_MDist.v
theories/Clones.v
theories/CloneFacts.v
theories/CloneEx.v
theories/P_Clones.v
theories/Plots.v
theories/PlotFacts.v
theories/P_Plots.v
theories/RRead.v
theories/RReadFacts.v
theories/P_RRead.v
theories/Main.v
theories/MainFacts.v
theories/P_Main.v
theories/Args.v
theories/ArgsFacts.v
theories/Launch.v
theories/LaunchFacts.v
theories/LaunchMore.v
theories/WrapFacts.v
theories/P_Launch.v
theories/GammaInt.v
theories/UnivInt.v
theories/StudentInt.v
theories/EvalInt.v
theories/P_MargInt.v
theories/ConeInt.v
theories/MultiInt.v
theories/P_MultiInt.v
theories/Gam.v
theories/GamFacts.v
theories/P_Gam.v
theories/EscFacts.v
theories/P_Esc.v
theories/ValidRun.v
theories/UnivInst.v
theories/UnivRun.v
theories/P_Valid.v
theories/LogitLib.v
theories/LogitLibFacts.v
theories/LogitUp.v
theories/LogitUpFacts.v
theories/P_Logit.v
theories/CondInst.v
theories/CondRun.v
theories/CondStick.v
theories/P_Blocked.v
theories/CondLgInst.v
theories/CondLogit.v
theories/P_BlockedLogit.v
theories/SliceInst.v
theories/SliceRun.v
theories/SliceEnds.v
theories/SliceStuck.v
theories/P_SliceRun.v
theories/MeanFacts.v
theories/P_Start.v
theories/WishMode.v
theories/P_StartMulti.v
theories/CovInst.v
theories/CovRun.v
theories/CovCond.v
theories/MultiRun.v
theories/P_ValidMulti.v
theories/P_BlockedMulti.v
theories/SMInst.v
theories/SMRun.v
theories/P_SMRun.v
theories/P_SMRunMulti.v
theories/MfmInst.v
theories/MfmRun.v
theories/MfmProg.v
theories/MfmGibbs.v
theories/P_MfmRun.v
theories/Markov.v
theories/ConvSpec.v
theories/GibbsConv.v
theories/P_Conv.v
theories/ConvProg.v
theories/P_ConvMulti.v
theories/BlockSpec.v
theories/BlockFacts.v
theories/CondGibbs.v
theories/BlockNorm.v
theories/BlockRun.v
theories/P_BlockGibbs.v
theories/P_Init.v
theories/P_InitMulti.v
theories/PlotMain.v
theories/PlotMainFacts.v
theories/P_PlotMain.v
theories/NumText.v
theories/NumTextFacts.v
theories/NumTextFacts2.v
theories/P_NumText.v
theories/P_NumRun.v
theories/Aux8.v
theories/Aux8Facts.v
theories/Aux8Step.v
theories/Aux8Disc.v
theories/P_Aux8.v
theories/Uncon.v
theories/UnconFacts.v
theories/P_Uncon.v
theories/P_NumText2.v
theories/IterSpec.v
theories/IterFacts.v
theories/IterCond.v
theories/P_Iter.v
theories/Schema.v
theories/Wire.v
theories/WireSpec.v
theories/WireFacts.v
theories/WireRead.v
theories/WireBack.v
theories/WireInst.v
theories/P_Wire.v
theories/WireMore.v
theories/P_Wire2.v
theories/Text.v
theories/Shipped.v
theories/TextSpec.v
theories/TextFacts.v
theories/TextLex.v
theories/P_Text.v
theories/Settings.v
theories/SettingsSpec.v
theories/SettingsFacts.v
theories/P_Settings.v
theories/StateMsg.v
theories/StateMsgSpec.v
theories/StateMsgFacts.v
theories/Program.v
theories/ProgramFacts.v
theories/ProgramSpec.v
theories/P_Program.v
theories/SetVec.v
theories/SetLoad.v
theories/SetVecSpec.v
theories/SetVecFacts.v
theories/TextEx.v
theories/P_SetVec.v
theories/ProgramDens.v
theories/ProgramDensSpec.v
theories/ProgramDensFacts.v
theories/P_ProgramDens.v
theories/P_Front.v
theories/FaData.v
theories/FaDataFacts.v
theories/P_FaData.v
theories/Build.v
theories/P_Build.v
theories/Bench.v
theories/P_Bench.v
theories/SMTally.v
theories/P_SMTally.v
