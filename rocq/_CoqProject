-Q theories Verif
theories/Num.v
theories/Arr.v
theories/Csc.v
theories/ArrFacts.v
theories/RSum.v
theories/CscSpec.v
theories/CscFacts.v
theories/CscFacts2.v
theories/Scatter.v
theories/CscFacts3.v
theories/CscFacts4.v
theories/CscApi.v
theories/CscFacts5.v
theories/CscExamples.v
theories/Props_Csc.v
theories/Vec.v
theories/Types.v
theories/Kkt.v
theories/Linsys.v
theories/Scaling.v
theories/Validate.v
theories/Auxil.v
theories/Polish.v
theories/Api.v
theories/VecFacts.v
theories/Placed.v
theories/KktFacts.v
theories/KktFacts2.v
theories/KktFacts3.v
theories/KktSpec.v
theories/KktDense.v
theories/LinsysFacts.v
theories/LinsysSolve.v
theories/Inv.v
theories/RecSimp.v
theories/InvStep.v
theories/InvApi.v
theories/InvScale.v
theories/InvPolish.v
theories/ValidFacts.v
theories/InvSolve.v
theories/InvUpd.v
theories/InvSetup.v
theories/History.v
theories/ExEnv.v
theories/RealVec.v
theories/RealStep.v
theories/Frame.v
theories/FrameSolve.v
theories/ProbSpec.v
theories/ScaleReal.v
theories/FrameUpd.v
theories/UserSpec.v
theories/Refine.v
theories/Ldl.v
theories/LdlEnv.v
theories/Session.v
theories/ExReal.v
theories/DataFacts.v
theories/Obs.v
theories/DataClaims.v
theories/Props_Data.v
theories/ApiClaims.v
theories/Props_Api.v
theories/Runs.v
theories/Props_Runs.v
theories/KktClaims.v
theories/Props_Kkt.v
theories/QpSpec.v
theories/PolishLin.v
theories/AdmmSpec.v
theories/PolishSpec.v
theories/Mid.v
theories/Trace.v
theories/AdmmClaims.v
theories/PassFacts.v
theories/TermSpec.v
theories/TermFacts.v
theories/TermCheck.v
theories/PolishReal.v
theories/KktErr.v
theories/AtyFacts.v
theories/SolveEnd.v
theories/TimeFacts.v
theories/TermSolve.v
theories/SolveClaims.v
theories/SolveUser.v
theories/PolishUser.v
theories/SolveEx.v
theories/PolishEx.v
theories/SolveRho.v
theories/LiveSpec.v
theories/Live.v
theories/LiveEx.v
theories/Props_Live.v
theories/SetupClaims.v
theories/Props_Admm.v
theories/Props_Solve.v
theories/Props_Polish.v
theories/Props_Setup.v
theories/Reduced.v
theories/ReducedFacts.v
theories/ReducedEx.v
theories/Props_Reduced.v
theories/Codegen.v
theories/Decimal.v
theories/CodegenFacts.v
theories/CodegenReach.v
theories/CodegenEx.v
theories/Props_Codegen.v
theories/Alloc.v
theories/AllocCheck.v
theories/AllocSpec.v
theories/AllocFacts.v
theories/AllocRuns.v
theories/Props_Alloc.v
theories/AllocDeriv.v
theories/AllocDerivSpec.v
theories/AllocDerivRuns.v
theories/Props_AllocDeriv.v
theories/Deriv.v
theories/DerivAsm.v
theories/DerivNorm.v
theories/DerivLin.v
theories/DerivRows.v
theories/DerivRun.v
theories/DerivApi.v
theories/DerivSpec.v
theories/DerivBlock.v
theories/DerivClaims.v
theories/DerivGrad.v
theories/DerivMain.v
theories/DerivPath.v
theories/DerivReach.v
theories/DerivEx.v
theories/Props_Deriv.v
theories/ConvexClaims.v
theories/Props_Convex.v
theories/MachineSpec.v
theories/MachineTerm.v
theories/MachineInfo.v
theories/MachineSolve.v
theories/MachineClaims.v
theories/MachineEx.v
theories/MachineFound.v
theories/FoundEx.v
theories/Props_Machine.v
theories/KktEx.v
theories/Props_KktErr.v
theories/Props_Estimate.v
theories/TwinKer.v
theories/TwinStep.v
theories/TwinTerm.v
theories/TwinSolve.v
theories/TwinFinish.v
theories/LinFrame.v
theories/SolLen.v
theories/TwinInit.v
theories/TwinHist.v
theories/TwinClaims.v
theories/TwinReset.v
theories/TwinEx.v
theories/MachineCalls.v
theories/CallsEx.v
theories/Props_Twin.v
theories/MachineMat.v
theories/MatEx.v
theories/Props_Calls.v
theories/TwinAgain.v
theories/AgainEx.v
theories/Props_Again.v
