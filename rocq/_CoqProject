-Q theories Verif
theories/Mem.v
theories/Scalar.v
theories/Lique.v
theories/MemSpec.v
theories/MemLemmas.v
theories/LiqueProofs.v
theories/LiqueProofs2.v
theories/PropLique.v
theories/Lifecycle.v
theories/LifecycleProofs.v
theories/PropLifecycle.v
theories/LiqueSpec.v
theories/Linear.v
theories/LinearProofs.v
theories/RSum.v
theories/InverseProofs.v
theories/PropLinear.v
theories/Tool.v
theories/PropTool.v
theories/Container.v
theories/PropContainer.v
theories/ContProgram.v
theories/ContProgramSpec.v
theories/ContProgramProofs.v
theories/PropContProgram.v
theories/Conformance.v
theories/Functions.v
theories/FunctionSpec.v
theories/FunctionProofs.v
theories/RealSpec.v
theories/ActivationProofs.v
theories/LossProofs.v
theories/PropFunctions.v
theories/Skel.v
theories/Bufs.v
theories/Optimizer.v
theories/OptimizerProofs.v
theories/OptimizerSpec.v
theories/OptimizerHist.v
theories/PropOptimizers.v
theories/Layer.v
theories/LayerSpec.v
theories/FCProofs.v
theories/Cells.v
theories/ConvSpec.v
theories/ConvProofs.v
theories/ConvProofs2.v
theories/NetSpec.v
theories/Vjp.v
theories/PropFC.v
theories/ConvVjp.v
theories/PropConv.v
theories/PoolSpec.v
theories/PoolProofs.v
theories/PoolProofs2.v
theories/PropPool.v
theories/Net.v
theories/NetPlan.v
theories/NetProofs.v
theories/NetBack.v
theories/PropNet.v
theories/Schedule.v
theories/PropTraining.v
theories/Misc.v
theories/PropMisc.v
theories/Checker.v
theories/PropChecker.v
theories/Regression.v
theories/LeastSquares.v
theories/RegressionProofs.v
theories/PropRegression.v
theories/Copying.v
theories/CopyingProofs.v
theories/PropCopying.v
theories/Serial.v
theories/SerialProofs.v
theories/PropSerial.v
theories/NetReal.v
theories/NetGrad.v
theories/PropNetGrad.v
theories/Descent.v
theories/NetTotal.v
theories/DescentSpec.v
theories/DescentReal.v
theories/PropDescent.v
theories/Init.v
theories/InitSpec.v
theories/PropInit.v
theories/Float.v
theories/FloatSpec.v
theories/FloatLemmas.v
theories/FloatLib.v
theories/PropFloatRandom.v
theories/FloatAct.v
theories/PropFloatAct.v
theories/FloatError.v
theories/PropFloatSoftmax.v
theories/FloatAcc.v
theories/FloatStat.v
theories/PropFloatLinear.v
theories/PropFloatTool.v
theories/PropFloatLayers.v
theories/FloatLoss.v
theories/PropFloatLoss.v
theories/OptTrain.v
theories/OptTrainSpec.v
theories/OptTrainReal.v
theories/PropOptTrain.v
theories/SessionSpec.v
theories/Session.v
theories/PropSession.v
theories/Order.v
theories/PropOrder.v
theories/PropStale.v
theories/Resume.v
theories/PropResume.v
theories/FloatOpt.v
theories/PropFloatOpt.v
theories/AnyDescentSpec.v
theories/AnyDescent.v
theories/PropAnyDescent.v
theories/FloatNetSpec.v
theories/FloatNetAct.v
theories/FloatNetSoft.v
theories/PropFloatNet.v
theories/Locker.v
theories/LockerProofs.v
theories/PropLocker.v
theories/ConvexSpec.v
theories/Convex.v
theories/PropConverge.v
theories/PropConstruct.v
theories/PropFreeFunctions.v
theories/PropProgram.v
theories/FloatTrainSpec.v
theories/FloatTrain.v
theories/FloatSteps.v
theories/PropFloatTrain.v
theories/FloatAdam.v
theories/PropFloatAdam.v
theories/RegSolve.v
theories/RegSession.v
theories/PropRegSession.v
theories/PropDistribution.v
theories/FloatGradSpec.v
theories/FloatDer.v
theories/PropFloatGrad.v
theories/FloatDescentSpec.v
theories/FloatDescent.v
theories/PropFloatDescent.v
theories/FloatCheckSpec.v
theories/PropFloatCheck.v
theories/FloatReportSpec.v
theories/PropFloatReport.v
