-Q theories Verif
theories/Base.v
theories/Num.v
theories/Spec.v
theories/Model_Stats.v
theories/P_Lists.v
theories/P_Stats.v
theories/Prop_Stats.v
theories/Prop_Float.v
theories/Model_Utils.v
theories/Model_Core.v
theories/P_Utils.v
theories/P_Core.v
theories/Prop_Utils.v
theories/Prop_Core.v
theories/Model_Eval.v
theories/P_Eval.v
theories/Prop_Eval.v
theories/Model_Post.v
theories/P_Post.v
theories/Prop_Post.v
theories/Model_Trans.v
theories/P_Trans.v
theories/Prop_Trans.v
theories/Prop_Season.v
theories/Model_Simple.v
theories/P_Models.v
theories/Prop_Simple.v
theories/Model_Integrations.v
theories/Prop_Integrations.v
theories/Model_Sketch.v
theories/Prop_Sketch.v
theories/Prop_RSHash.v
theories/Model_HST.v
theories/Prop_HST.v
theories/Model_XStream.v
theories/Prop_XStream.v
theories/Model_Loda.v
theories/Prop_Loda.v
theories/Model_KNN.v
theories/Prop_KNN.v
theories/Model_KitNET.v
theories/Prop_KitNET.v
theories/Prop_KitNET2.v
theories/Prop_KitFloat.v
theories/Model_SESD.v
theories/Prop_SESD.v
theories/Model_Inqmad.v
theories/Prop_Inqmad.v
theories/Prop_Memory.v
theories/Prop_KitGrad.v
theories/Prop_Hyper.v
theories/Prop_Forget.v
theories/Prop_JL.v
theories/Prop_Units.v
theories/P_Float.v
theories/Prop_Ratio.v
theories/Prop_Rounding.v
theories/Prop_Atomic.v
theories/Model_Alias.v
theories/Prop_Alias.v
theories/Prop_Sketch2.v
theories/Prop_Pipeline.v
theories/Model_DA.v
theories/Prop_DA.v
theories/Prop_KitUtils.v
theories/Prop_Condensed.v
theories/Model_Metrics.v
theories/P_Metrics.v
theories/Prop_Metrics.v
theories/Prop_Baselines.v
theories/Prop_Projection.v
theories/Prop_Conformal.v
theories/Prop_AliasTrans.v
theories/Prop_KitMap.v
theories/Prop_Direction.v
theories/Prop_Cap.v
theories/Prop_WinAUROC.v
theories/Model_Examples.v
theories/Prop_Alert.v
theories/Prop_PostAUROC.v
theories/Prop_Drift.v
theories/Prop_Poison.v
theories/Prop_Examples.v
theories/Prop_Ensemble.v
theories/Prop_Features.v
theories/Prop_Shuffle.v
theories/Prop_Arity.v
theories/Prop_VarFloat.v
theories/Prop_Shift.v
theories/Prop_Nan.v
theories/Model_Seed.v
theories/Prop_Seed.v
theories/Prop_StdArity.v
theories/Prop_Quant.v
theories/Prop_Batch.v
theories/Prop_Familiar.v
theories/Prop_Draws.v
theories/Prop_Constant.v
theories/Prop_Whole.v
theories/Prop_Turn.v
theories/Model_Params.v
theories/Prop_Params.v
theories/Prop_Total.v
theories/Prop_Level.v
theories/Prop_HSTFloat.v
theories/Model_Cast.v
theories/Prop_Cast.v
theories/Prop_ScaleFloat.v
theories/Prop_Limits.v
theories/Model_Int.v
theories/Prop_Int.v
theories/Prop_HSTInt.v
theories/Model_Zero.v
theories/Prop_Zero.v
theories/Model_Window.v
theories/Prop_Window.v
theories/Model_Lazy.v
theories/Prop_Lazy.v
theories/Prop_Total2.v
theories/Model_Finite.v
theories/Prop_Finite.v
theories/Model_Period.v
theories/Prop_Period.v
theories/Prop_Period2.v
theories/Model_NanMax.v
theories/Prop_NanMax.v
