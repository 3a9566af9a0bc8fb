-Q theories Verif
theories/PyBase.v
theories/PyFacts.v
theories/Toposort.v
theories/ToposortFacts.v
theories/Signature.v
theories/Expr.v
theories/Model.v
theories/SignatureFacts.v
theories/ModelSpec.v
theories/ModelFacts.v
theories/CallFacts.v
theories/LayerFacts.v
theories/InitFacts.v
theories/ConstraintFacts.v
theories/AsConstraint.v
theories/ModelMisc.v
theories/ExprR.v
theories/Decide.v
theories/PropLemmas.v
theories/Prop_Model.v
theories/JacFacts.v
theories/Jacobian.v
theories/JacAnalysis.v
theories/Twice.v
theories/JacSecond.v
theories/JacLemmas.v
theories/DerModel.v
theories/Prop_Jacobian.v
theories/NumPy.v
theories/Objective.v
theories/NumFacts.v
theories/ObjSpec.v
theories/ObjFacts.v
theories/ObjLS.v
theories/ObjLeast.v
theories/ObjDiff.v
theories/ObjMore.v
theories/ObjLL.v
theories/ObjVec.v
theories/ObjCommon.v
theories/ObjExample.v
theories/Prop_Objective.v
theories/Minimizer.v
theories/MinSpec.v
theories/MinFacts.v
theories/MinLemmas.v
theories/Prop_Minimizer.v
theories/Fit.v
theories/FitSpec.v
theories/FitFacts.v
theories/FitData.v
theories/FitCov.v
theories/FitThm.v
theories/FitMain.v
theories/FitLik.v
theories/FitExample.v
theories/Prop_Fit.v
theories/Results.v
theories/ResultsSpec.v
theories/ResultsFacts.v
theories/ResultsMore.v
theories/ResultsExample.v
theories/Prop_Results.v
theories/FiniteDiff.v
theories/FDSpec.v
theories/FDFacts.v
theories/FDAnalysis.v
theories/FDMain.v
theories/FDExample.v
theories/Prop_FiniteDiff.v
theories/Cached.v
theories/CachedSpec.v
theories/CachedFacts.v
theories/Pickle.v
theories/PickleFacts.v
theories/PickleMain.v
theories/PickleMore.v
theories/Prop_Cached.v
theories/Ode.v
theories/OdeSpec.v
theories/OdeTimes.v
theories/OdeFacts.v
theories/OdeMain.v
theories/OdeExample.v
theories/OdeMore.v
theories/Prop_Ode.v
theories/Args.v
theories/ArgsSpec.v
theories/ArgsFacts.v
theories/ArgsMain.v
theories/ArgsPars.v
theories/Prop_Args.v
theories/ExprCall.v
theories/ExprCallFacts.v
theories/DerNames.v
theories/Printing.v
theories/PrintingFacts.v
theories/Distributions.v
theories/DistSpec.v
theories/DistFacts.v
theories/Prop_Support.v
theories/NumModel.v
theories/NumSpec.v
theories/NumMain.v
theories/Prop_NumModel.v
theories/Cast.v
theories/ArrModel.v
theories/ArrSpec.v
theories/ArrFacts.v
theories/ArrGen.v
theories/ArrCall.v
theories/ArrObj.v
theories/ArrMain.v
theories/ArrCon.v
theories/Prop_ArrModel.v
theories/ConModel.v
theories/EndSpec.v
theories/EndMain.v
theories/Prop_End.v
theories/Prop_EndMore.v
theories/Prop_EndCls.v
theories/EndCon.v
theories/Prop_EndCon.v
theories/EndConJac.v
theories/Prop_EndConJac.v
theories/Guess.v
theories/GuessSpec.v
theories/GuessFacts.v
theories/GuessMain.v
theories/GuessSym.v
theories/Prop_Guess.v
theories/GenSpec.v
theories/GenFit.v
theories/OdeModel.v
theories/OdeFitSpec.v
theories/OdeFit.v
theories/Prop_OdeFit.v
theories/NumFitSpec.v
theories/NumFit.v
theories/Prop_NumFit.v
theories/MinObj.v
theories/MinObjSpec.v
theories/MinObjFacts.v
theories/MinObjMain.v
theories/MinObjCopy.v
theories/MinObjThm.v
theories/MinObjNew.v
theories/Prop_MinObj.v
theories/MinExec.v
theories/MinExecSpec.v
theories/MinExecFacts.v
theories/MinExecMain.v
theories/MinExecBasin.v
theories/MinExecAgain.v
theories/MinExecChain.v
theories/MinExecRun.v
theories/Prop_MinExec.v
theories/Report.v
theories/ReportSpec.v
theories/ReportFacts.v
theories/ReportMain.v
theories/ReportModel.v
theories/Prop_Report.v
theories/Chain.v
theories/ChainSpec.v
theories/ChainMain.v
theories/Prop_Chain.v
theories/Prop_Basin.v
theories/Later.v
theories/LaterSpec.v
theories/LaterMain.v
theories/Prop_Later.v
theories/PointsSpec.v
theories/PointsMain.v
theories/Prop_Points.v
theories/SameSpec.v
theories/SameMain.v
theories/Prop_Same.v
theories/RenameSpec.v
theories/RenameMain.v
theories/Prop_Rename.v
theories/GlobSpec.v
theories/GlobMain.v
theories/GlobFit.v
theories/GlobDiff.v
theories/Prop_Glob.v
theories/VecSpec.v
theories/GenVec.v
theories/Prop_Vec.v
theories/OdeErrSpec.v
theories/Prop_OdeErr.v
theories/NumDepthSpec.v
theories/NumDepth.v
theories/TwinSpec.v
theories/TwinMain.v
theories/Prop_Twin.v
