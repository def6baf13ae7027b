-Q theories Verif
theories/M_Base.v
theories/M_Tables.v
theories/M_Const.v
theories/M_Time.v
theories/M_Bunch.v
theories/M_Options.v
theories/M_Lib.v
theories/M_Slvinit.v
theories/M_Harmonics.v
theories/M_Select.v
theories/M_Ellipse.v
theories/M_Robust.v
theories/M_Period.v
theories/M_Conf.v
theories/M_Diag.v
theories/M_Solve.v
theories/M_Recon.v
theories/L_Base.v
theories/S_Dict.v
theories/L_Bunch.v
theories/P_Bunch.v
theories/S_Options.v
theories/L_Options.v
theories/L_SolveInv.v
theories/L_OptSolve.v
theories/P_Options.v
theories/S_Time.v
theories/L_Calendar.v
theories/L_Time.v
theories/L_Epoch.v
theories/P_Time.v
theories/S_Slv.v
theories/L_Slv.v
theories/L_Slv2.v
theories/P_Slv.v
theories/S_Tables.v
theories/L_Tables.v
theories/P_Tables.v
theories/S_Order.v
theories/L_Order.v
theories/S_Select.v
theories/L_Select.v
theories/L_Select2.v
theories/S_Fit.v
theories/L_Fit.v
theories/L_Align.v
theories/L_SelOrder.v
theories/L_Select3.v
theories/L_Order2.v
theories/L_Order3.v
theories/L_Order4.v
theories/L_Example.v
theories/P_Select.v
theories/P_Order.v
theories/S_Basis.v
theories/L_Basis.v
theories/S_Harm.v
theories/L_Harm.v
theories/L_Harm2.v
theories/L_Harm3.v
theories/L_Bands.v
theories/L_Basis2.v
theories/S_Recon.v
theories/L_Recon.v
theories/L_Recon2.v
theories/L_Recon3.v
theories/L_Recon4.v
theories/L_Recon5.v
theories/L_Example2.v
theories/L_Recon6.v
theories/S_Nodal.v
theories/L_Nodal.v
theories/L_Nodal2.v
theories/L_Nodal3.v
theories/P_Nodal.v
theories/P_Harm.v
theories/P_Recon.v
theories/S_Ellipse.v
theories/L_Angle.v
theories/L_Ellipse.v
theories/L_Core.v
theories/L_Ellipse2.v
theories/P_Ellipse.v
theories/S_Model.v
theories/L_Model.v
theories/L_Lsq.v
theories/L_Model2.v
theories/L_Model3.v
theories/L_Model4.v
theories/L_Model5.v
theories/L_Model6.v
theories/L_Model7.v
theories/L_Model8.v
theories/L_Sub.v
theories/L_Model9.v
theories/L_Model10.v
theories/L_Model11.v
theories/L_Model12.v
theories/L_Model13.v
theories/L_Model14.v
theories/L_Model15.v
theories/L_Example3.v
theories/L_Example4.v
theories/L_Model16.v
theories/L_Example5.v
theories/L_Example6.v
theories/P_Model.v
theories/S_Robust.v
theories/L_Robust.v
theories/L_Robust2.v
theories/L_Robust3.v
theories/L_Robust4.v
theories/L_Robust5.v
theories/P_Robust.v
theories/S_RobustKw.v
theories/L_Robust6.v
theories/L_RobustKw.v
theories/P_RobustKw.v
theories/S_Conf.v
theories/L_Conf.v
theories/L_Conf2.v
theories/L_Conf3.v
theories/L_Conf4.v
theories/L_Conf5.v
theories/L_Conf6.v
theories/P_Conf.v
theories/S_Period.v
theories/L_Period.v
theories/L_Period2.v
theories/L_Period3.v
theories/L_Period4.v
theories/L_Period5.v
theories/L_Period6.v
theories/L_Period7.v
theories/L_Period8.v
theories/L_Period9.v
theories/P_Period.v
theories/M_Float.v
theories/S_Float.v
theories/L_Float.v
theories/P_Float.v
theories/S_Errors.v
theories/L_Gauss.v
theories/L_Errors.v
theories/L_Errors2.v
theories/L_Errors3.v
theories/L_Errors4.v
theories/L_Errors5.v
theories/L_Errors6.v
theories/L_Example7.v
theories/P_Errors.v
theories/S_Sampled.v
theories/S_Noise.v
theories/L_Noise.v
theories/L_Noise2.v
theories/L_Noise3.v
theories/L_Noise4.v
theories/L_Example8.v
theories/L_Sampled.v
theories/L_Sampled2.v
theories/P_Noise.v
theories/L_Example9.v
theories/L_Example10.v
theories/P_Sampled.v
theories/M_Load.v
theories/S_Load.v
theories/L_Load.v
theories/L_Load2.v
theories/L_Load3.v
theories/P_Load.v
theories/S_RobustErr.v
theories/L_RobErr.v
theories/L_RobErr2.v
theories/L_RobErr3.v
theories/L_Example11.v
theories/L_Example12.v
theories/L_RobErr4.v
theories/P_RobustErr.v
theories/L_Affine.v
theories/L_Affine2.v
theories/L_Homog.v
theories/L_Affine3.v
theories/L_Example13.v
theories/P_Affine.v
theories/S_Inferred.v
theories/L_Inferred.v
theories/L_Example14.v
theories/P_Inferred.v
theories/S_RobustEq.v
theories/L_RobEq.v
theories/L_RobEq2.v
theories/L_Example15.v
theories/S_Units.v
theories/L_Units.v
theories/L_Units2.v
theories/L_Units3.v
theories/P_RobEq.v
theories/P_Units.v
theories/S_RobNoise.v
theories/L_RobNoise.v
theories/L_RobNoise2.v
theories/L_Example16.v
theories/P_RobNoise.v
theories/S_Super.v
theories/L_Super.v
theories/L_Super2.v
theories/L_Super3.v
theories/L_Super4.v
theories/L_Example17.v
theories/P_Super.v
theories/S_Perm.v
theories/L_Perm.v
theories/L_Example18.v
theories/P_Perm.v
theories/S_Choice.v
theories/L_Carry.v
theories/L_Choice.v
theories/L_Example19.v
theories/P_Choice.v
theories/S_Turn.v
theories/L_Turn.v
theories/L_Example20.v
theories/P_Turn.v
theories/S_Equal.v
theories/L_Equal.v
theories/L_Example21.v
theories/P_Equal.v
theories/L_Fill.v
theories/L_Example22.v
theories/P_Fill.v
theories/M_State.v
theories/M_Memory.v
theories/S_State.v
theories/L_State.v
theories/L_StateEx.v
theories/L_StateP.v
theories/P_State.v
theories/S_Accept.v
theories/L_Accept.v
theories/L_Accept2.v
theories/L_Accept3.v
theories/L_LombEx.v
theories/L_Example23.v
theories/P_Accept.v
theories/S_Output.v
theories/L_Output.v
theories/P_Output.v
theories/S_Nested.v
theories/L_Nested.v
theories/L_Example24.v
theories/P_Nested.v
theories/L_Name.v
theories/P_Name.v
theories/L_Output2.v
theories/P_Output2.v
theories/M_FloatTime.v
theories/S_FloatTime.v
theories/L_FloatTime.v
theories/L_FloatTime2.v
theories/L_FloatTime3.v
theories/P_FloatTime.v
theories/S_RobustAccept.v
theories/L_RobustAccept.v
theories/L_RobustAccept2.v
theories/L_RobustAccept3.v
theories/L_Exact.v
theories/L_Example25.v
theories/P_RobustAccept.v
theories/S_Range.v
theories/L_Range.v
theories/P_Range.v
theories/S_Stable.v
theories/L_Stable.v
theories/L_Chance.v
theories/L_Example26.v
theories/P_Stable.v
theories/S_McAccept.v
theories/L_Mc.v
theories/L_McAccept.v
theories/L_McAccept2.v
theories/L_McAccept3.v
theories/L_Example27.v
theories/P_McAccept.v
theories/S_WeightAccept.v
theories/L_WeightAccept.v
theories/L_WeightAccept2.v
theories/L_Example28.v
theories/P_WeightAccept.v
theories/S_Memory.v
theories/L_Memory.v
theories/L_Memory2.v
theories/L_Memory3.v
theories/L_Memory4.v
theories/L_Memory5.v
theories/P_Memory.v
theories/S_InferAccept.v
theories/L_InferAccept.v
theories/L_InferAccept2.v
theories/L_InferAccept3.v
theories/L_InferAccept4.v
theories/L_InferAccept5.v
theories/L_Example29.v
theories/P_InferAccept.v
theories/S_Usable.v
theories/L_Usable.v
theories/L_Usable2.v
theories/S_Equator.v
theories/L_Equator.v
theories/L_Equator2.v
theories/L_Equator3.v
theories/L_Example30.v
theories/P_Usable.v
theories/S_InferLinear.v
theories/L_InferLinear.v
theories/L_Example31.v
theories/P_InferLinear.v
theories/S_Approx.v
theories/L_Approx.v
theories/L_Example32.v
theories/P_Approx.v
theories/M_PyFile.v
theories/S_PyFile.v
theories/L_PyFile.v
theories/P_PyFile.v
