-Q theories Verif
theories/Prelude.v
theories/Scalar.v
theories/LinAlg.v
theories/BoxQP.v
theories/Chol.v
theories/BoxQPProofs.v
theories/BoxQPTerm.v
theories/QPCor.v
theories/P_QP.v
theories/DDP.v
theories/DDPSpec.v
theories/DDPProofs.v
theories/DDPCor.v
theories/ExDDP.v
theories/P_DDP_run.v
theories/RLin.v
theories/CholProofs.v
theories/P_Chol.v
theories/QPReal.v
theories/QPReal2.v
theories/RQ.v
theories/ExQPR.v
theories/P_QPReal.v
theories/DDPReal.v
theories/DDPF64.v
theories/ExDiv.v
theories/P_DDP_real.v
theories/DDPSafe.v
theories/DDPHist.v
theories/P_DDP_safe.v
theories/DDPLimits.v
theories/P_DDP_limits.v
theories/DDPWarm.v
theories/P_DDP_warm.v
theories/LQ.v
theories/LQ2.v
theories/LQ3.v
theories/P_DDP_lq.v
theories/Gmres.v
theories/GmresLin.v
theories/GmresReal.v
theories/GmresReal2.v
theories/GmresReal3.v
theories/GmresSpec.v
theories/GmresCor.v
theories/GmresCor2.v
theories/P_Gmres.v
theories/P_GmresSafe.v
theories/Cgmres.v
theories/P_Ode.v
theories/CgmresProofs.v
theories/CgmresGrad.v
theories/P_Cgmres.v
theories/CgmresRun.v
theories/P_CgmresRun.v
theories/QPClamp.v
theories/P_CgmresCont.v
theories/Fmpc.v
theories/FmpcProofs.v
theories/FmpcStep.v
theories/FmpcSpec.v
theories/FmpcReal.v
theories/FmpcNewton.v
theories/FmpcMerit.v
theories/ExFmpc.v
theories/P_FmpcRun.v
theories/FmpcSafe.v
theories/P_FmpcReal.v
theories/P_FmpcMerit.v
theories/FmpcAffine.v
theories/FmpcLQ.v
theories/P_FmpcNewton.v
theories/FmpcRows.v
theories/P_FmpcAffine.v
theories/FmpcHist.v
theories/P_FmpcHist.v
theories/Problems.v
theories/ProbSpec.v
theories/ProbProofs.v
theories/ProbProofs2.v
theories/ProbProofs3.v
theories/P_Problems.v
theories/LQ4.v
theories/LQ5.v
theories/P_DDP_reg.v
theories/ProbSolve.v
theories/P_ProblemsRun.v
theories/MpcLoops.v
theories/MpcProofs.v
theories/P_Mpc.v
theories/P_FmpcRows.v
theories/FmpcLoop.v
theories/P_FmpcLoop.v
theories/P_CartLoop.v
theories/P_Physics.v
theories/QPPath.v
theories/P_QPPath.v
theories/P_QPStall.v
theories/DDPDescent.v
theories/P_DDP_descent.v
theories/FmpcConvex.v
theories/P_FmpcConvex.v
theories/DDPBoxDescent.v
theories/P_DDP_box.v
theories/FmpcDescent.v
theories/P_FmpcDescent.v
theories/B64.v
theories/FmpcF64.v
theories/FmpcStep64.v
theories/P_FmpcF64.v
theories/DDPLimits64.v
theories/DDPTerm64.v
theories/P_DDP_F64.v
theories/TraceText.v
theories/P_TraceText.v
theories/P_QPOne.v
theories/P_DDP_one.v
theories/P_FmpcTerm64.v
theories/QPF64.v
theories/P_QPF64.v
theories/P_OdeGlobal.v
theories/P_QPDiag.v
theories/MathTest.v
theories/P_MathTest.v
theories/GmresTest.v
theories/P_GmresTest.v
theories/FmpcConvex64.v
theories/P_FmpcConvex64.v
theories/DDPCost64.v
theories/P_DDP_Cost64.v
theories/P_FmpcNan64.v
