-Q theories Verif

theories/Model_Result.v
theories/Proof_Result.v
theories/Model_Loop.v
theories/Spec_Loop.v
theories/Proof_LoopBasic.v
theories/Proof_LoopSave.v
theories/Proof_LoopFinish.v
theories/Proof_LoopTs.v
theories/Proof_LoopEvent.v
theories/Proof_LoopCore.v
theories/Proof_LoopRoot.v
theories/Proof_PropLoop.v
theories/Proof_PropLoop2.v
theories/Proof_LoopResume.v
theories/Model_Clip.v
theories/Spec_Clip.v
theories/Proof_Clip.v
theories/Proof_ClipLoop.v
theories/Proof_ClipRej.v
theories/Ex_Loop.v
theories/Model_Fixed.v
theories/Spec_Fixed.v
theories/Proof_Fixed.v
theories/Proof_FixedQ.v
theories/Ex_Clip.v
theories/Ex_Fixed.v
theories/Model_Float.v
theories/Model_PID.v
theories/Spec_PID.v
theories/Proof_PID.v
theories/Ex_PID.v
theories/Model_Dense.v
theories/Spec_Dense.v
theories/Proof_Dense.v
theories/Model_Direction.v
theories/Model_Front.v
theories/Model_FrontFloat.v
theories/Spec_Front.v
theories/Proof_Front.v
theories/Spec_Direction.v
theories/Proof_Direction.v
theories/Proof_Batch.v
theories/Prop_Direction.v
theories/Prop_Dense.v
theories/Prop_PID.v
theories/Prop_Fixed.v
theories/Prop_Clip.v
theories/Prop_Loop.v
theories/Prop_Save.v
theories/Prop_Event.v
theories/Model_Interp.v
theories/Spec_Interp.v
theories/Proof_Interp.v
theories/Proof_InterpGlobal.v
theories/Proof_InterpFill.v
theories/Proof_InterpHermite.v
theories/Proof_InterpEx.v
theories/Prop_Interp.v
theories/Model_RK.v
theories/Model_Tableaus.v
theories/Model_Terms.v
theories/Spec_RK.v
theories/Spec_RKLoop.v
theories/Proof_RKStep.v
theories/Proof_RK.v
theories/Proof_RKProp.v
theories/Proof_RKCache.v
theories/Proof_RKLoop.v
theories/Proof_RKShipped.v
theories/Spec_Terms.v
theories/Proof_Terms.v
theories/Ex_RK.v
theories/Prop_RK.v
theories/Prop_Terms.v
theories/Model_Orders.v
theories/Spec_Order.v
theories/Proof_BSeries.v
theories/Proof_BSeries2.v
theories/Proof_Order.v
theories/Proof_OrderStep.v
theories/Proof_OrderCheck.v
theories/Ex_Order.v
theories/Proof_OrderShipped.v
theories/Proof_OrderDopri8.v
theories/Proof_OrderSolvers.v
theories/Prop_Order.v
theories/Model_Solvers.v
theories/Spec_Solvers.v
theories/Proof_Solvers.v
theories/Proof_SolverLoop.v
theories/Ex_Solvers.v
theories/Prop_Solvers.v
theories/Model_RootFinder.v
theories/Spec_RootFinder.v
theories/Proof_RootFinder.v
theories/Prop_RootFinder.v
theories/Model_Brownian.v
theories/Spec_Brownian.v
theories/Proof_Brownian.v
theories/Proof_Levy.v
theories/Proof_Covariance.v
theories/Proof_CovLeaf.v
theories/Proof_CovPath.v
theories/Proof_CovLevy.v
theories/Proof_CovLevyPath.v
theories/Proof_CovLevyInc.v
theories/Ex_Brownian.v
theories/Ex_Levy.v
theories/Prop_Brownian.v
theories/Model_Meter.v
theories/Spec_Meter.v
theories/Proof_Meter.v
theories/Proof_MeterLoop.v
theories/Ex_Meter.v
theories/Prop_Meter.v
theories/Model_Backsolve.v
theories/Spec_Backsolve.v
theories/Proof_Backsolve.v
theories/Ex_Backsolve.v
theories/Prop_Backsolve.v
theories/Model_SRK.v
theories/Spec_SRK.v
theories/Proof_SRK.v
theories/Proof_SRKProps.v
theories/Proof_SRKTest.v
theories/Proof_SRKAdd.v
theories/Ex_SRK.v
theories/Prop_SRK.v
theories/Model_Langevin.v
theories/Spec_Langevin.v
theories/Proof_LangevinCoeffs.v
theories/Proof_LangevinFresh.v
theories/Proof_LangevinHist.v
theories/Proof_LangevinExact.v
theories/Proof_LangevinJets.v
theories/Proof_LangevinOrder.v
theories/Ex_Langevin.v
theories/Prop_Langevin.v
theories/Spec_Lipschitz.v
theories/Proof_StageLipschitz.v
theories/Model_DenseOutput.v
theories/Spec_DenseOrder.v
theories/Proof_DenseOrder.v
theories/Proof_DenseCheck.v
theories/Proof_DenseMethods.v
theories/Proof_DenseSolvers.v
theories/Proof_DenseStep.v
theories/Spec_Slope.v
theories/Proof_Slope.v
theories/Model_DenseDeriv.v
theories/Spec_DenseDeriv.v
theories/Proof_DenseDeriv.v
theories/Proof_DenseIntegral.v
theories/Prop_DenseDeriv.v
theories/Proof_DenseEnds.v
theories/Proof_DenseRefuted.v
theories/Ex_DenseOutput.v
theories/Prop_DenseOutput.v
theories/Prop_Lipschitz.v
theories/Model_InitialStep.v
theories/Proof_InitialStep.v
theories/Prop_InitialStep.v
theories/Spec_Convergence.v
theories/Proof_Product.v
theories/Proof_StageExist.v
theories/Proof_Convergence.v
theories/Proof_ConvergeLoop.v
theories/Proof_ConvergeShipped.v
theories/Ex_Convergence.v
theories/Prop_Convergence.v
theories/Spec_Stability.v
theories/Proof_Poly.v
theories/Proof_PolyBall.v
theories/Proof_StabilityPoly.v
theories/Proof_Stability.v
theories/Proof_StabilityShipped.v
theories/Ex_Stability.v
theories/Prop_Stability.v
theories/Proof_FrontRun.v
theories/Proof_FrontFloat.v
theories/Ex_Front.v
theories/Proof_FrontRefuted.v
theories/Prop_Front.v
theories/Model_Typing.v
theories/Spec_Typing.v
theories/Proof_Typing.v
theories/Model_Compat.v
theories/Spec_Compat.v
theories/Proof_Compat.v
theories/Proof_TypingProps.v
theories/Ex_Typing.v
theories/Proof_TypingRefuted.v
theories/Prop_Typing.v
theories/Model_Implicit.v
theories/Spec_Implicit.v
theories/Proof_Implicit.v
theories/Ex_Implicit.v
theories/Prop_Implicit.v
theories/Model_Tangent.v
theories/Spec_Tangent.v
theories/Proof_Tangent.v
theories/Proof_TangentProps.v
theories/Ex_Tangent.v
theories/Proof_TangentRefuted.v
theories/Prop_Tangent.v
theories/Model_PyTree.v
theories/Model_AdjointTerm.v
theories/Spec_AdjointTerm.v
theories/Proof_PyTree.v
theories/Proof_AdjointTerm.v
theories/Ex_AdjointTerm.v
theories/Prop_AdjointTerm.v
theories/Model_LangevinTerm.v
theories/Spec_LangevinTerm.v
theories/Proof_LangevinTerm.v
theories/Ex_LangevinTerm.v
theories/Proof_LangevinTermRefuted.v
theories/Prop_LangevinTerm.v
theories/Spec_Strong.v
theories/Spec_StrongEuler.v
theories/Proof_Strong.v
theories/Proof_StrongEuler.v
theories/Proof_StrongProps.v
theories/Ex_Strong.v
theories/Prop_Strong.v
theories/Spec_Milstein.v
theories/Proof_MilsteinFamily.v
theories/Proof_Milstein.v
theories/Proof_MilsteinProps.v
theories/Ex_Milstein.v
theories/Prop_Milstein.v
theories/Spec_PidEnd.v
theories/Proof_PidEnd.v
theories/Ex_PidEnd.v
theories/Prop_PidEnd.v
theories/Spec_RKError.v
theories/Proof_RKError.v
theories/Prop_RKError.v
theories/Spec_Tolerance.v
theories/Proof_Tolerance.v
theories/Ex_Tolerance.v
theories/Prop_Tolerance.v
theories/Spec_Frame.v
theories/Proof_Frame.v
theories/Proof_FrameTime.v
theories/Ex_Frame.v
theories/Prop_Frame.v
theories/Spec_Related.v
theories/Proof_Related.v
theories/Spec_RelatedRK.v
theories/Proof_RelatedRK.v
theories/Spec_Invariant.v
theories/Proof_Invariant.v
theories/Ex_Related.v
theories/Prop_Related.v
theories/Spec_Conserve.v
theories/Proof_Conserve.v
theories/Ex_Conserve.v
theories/Prop_Conserve.v
theories/Spec_Superpose.v
theories/Proof_Superpose.v
theories/Prop_Superpose.v
theories/Spec_SuperposeMethods.v
theories/Proof_SuperposeMethods.v
theories/Ex_SuperposeMethods.v
theories/Prop_SuperposeMethods.v
theories/Spec_MethodOrder.v
theories/Proof_MethodOrder.v
theories/Model_MethodOrders.v
theories/Proof_DeclaredOrder.v
theories/Ex_MethodOrder.v
theories/Prop_MethodOrder.v
theories/Proof_MethodSolve.v
theories/Proof_MethodDense.v
theories/Ex_MethodSolve.v
theories/Prop_MethodSolve.v
theories/Model_ArrayTerm.v
theories/Spec_ArrayTerm.v
theories/Proof_ArrayTerm.v
theories/Ex_ArrayTerm.v
theories/Prop_ArrayTerm.v
theories/Spec_Units.v
theories/Proof_Units.v
theories/Ex_Units.v
theories/Prop_Units.v
theories/Model_Seminorm.v
theories/Spec_Seminorm.v
theories/Proof_Seminorm.v
theories/Ex_Seminorm.v
theories/Prop_Seminorm.v
theories/Proof_ContractSolve.v
theories/Ex_ContractSolve.v
theories/Prop_ContractSolve.v
theories/Proof_DecaySolve.v
theories/Prop_DecaySolve.v
theories/Proof_DenseRange.v
theories/Prop_DenseRange.v
