-Q theories Verif
theories/Base.v
theories/M_Alias.v
theories/M_Average.v
theories/M_Bayesnet.v
theories/M_Buckets.v
theories/M_Build.v
theories/M_ClipTop.v
theories/M_Corr.v
theories/M_Ctor.v
theories/M_Date.v
theories/M_Dists.v
theories/M_Double.v
theories/M_DoubleConj.v
theories/M_DoubleExpr.v
theories/M_DoubleMean.v
theories/M_DoubleParams.v
theories/M_DoublePct.v
theories/M_DoubleProb.v
theories/M_DoubleRound.v
theories/M_Float.v
theories/M_Formulas.v
theories/M_Ieee.v
theories/M_IeeeParams.v
theories/M_IeeePct.v
theories/M_Iman.v
theories/M_IntText.v
theories/M_Kelly.v
theories/M_Kinds.v
theories/M_LogPercentiles.v
theories/M_OneIn.v
theories/M_Ops.v
theories/M_Percentiles.v
theories/M_Pick.v
theories/M_Progress.v
theories/M_SampleApi.v
theories/M_Sampler.v
theories/M_Shared.v
theories/M_Spearman.v
theories/M_Steps.v
theories/M_Str.v
theories/M_Values.v
theories/M_Weights.v
theories/P_Accuracy.v
theories/P_Algebra.v
theories/P_Alias.v
theories/P_Api.v
theories/P_Average.v
theories/P_Batches.v
theories/P_Batches2.v
theories/P_BayesRule.v
theories/P_Bayesnet.v
theories/P_BetaArea.v
theories/P_BucketMoves.v
theories/P_Buckets.v
theories/P_Buckets2.v
theories/P_Build.v
theories/P_Cache.v
theories/P_Cache2.v
theories/P_CacheText.v
theories/P_Call.v
theories/P_CallRound.v
theories/P_Cast.v
theories/P_Chernoff.v
theories/P_Clip.v
theories/P_ClipOut.v
theories/P_ClipTop.v
theories/P_Columns.v
theories/P_Columns2.v
theories/P_Compare.v
theories/P_Conversation.v
theories/P_Corr.v
theories/P_CorrEx.v
theories/P_CorrSample.v
theories/P_CorrScalar.v
theories/P_Count.v
theories/P_Ctor.v
theories/P_Ctor2.v
theories/P_Date.v
theories/P_Dice.v
theories/P_DiceShare.v
theories/P_DieRun.v
theories/P_Discrete.v
theories/P_Discrete2.v
theories/P_Dists.v
theories/P_DistsSat.v
theories/P_Dominance.v
theories/P_Double.v
theories/P_DoubleConj.v
theories/P_DoubleLearn.v
theories/P_DoubleMean.v
theories/P_DoubleParams.v
theories/P_DoubleParams2.v
theories/P_DoublePct.v
theories/P_DoublePctOrder.v
theories/P_DoubleProb.v
theories/P_DoubleRound.v
theories/P_Eigen.v
theories/P_Example.v
theories/P_Float.v
theories/P_Floor.v
theories/P_Formulas.v
theories/P_Formulas2.v
theories/P_Gauss.v
theories/P_Geomean.v
theories/P_Geomean2.v
theories/P_GeomeanMono.v
theories/P_GeomeanOdds.v
theories/P_GeomeanX.v
theories/P_Ieee.v
theories/P_Ieee2.v
theories/P_IeeeParams.v
theories/P_IeeePct.v
theories/P_Iman.v
theories/P_ImanEx.v
theories/P_ImanRank.v
theories/P_Indep.v
theories/P_Induce.v
theories/P_IntText.v
theories/P_Kelly.v
theories/P_KellyGain.v
theories/P_KellyOpt.v
theories/P_KellyOrder.v
theories/P_Kinds.v
theories/P_Large.v
theories/P_Limits.v
theories/P_LogOrder.v
theories/P_Mean.v
theories/P_Mixture.v
theories/P_Moments.v
theories/P_Multicore.v
theories/P_NewUnits.v
theories/P_Normal.v
theories/P_NormalUse.v
theories/P_OneIn.v
theories/P_OpText.v
theories/P_Ops.v
theories/P_Ops2.v
theories/P_PctNear.v
theories/P_PctOrder.v
theories/P_PctSharp.v
theories/P_PctTotal.v
theories/P_PctUnits.v
theories/P_Percentiles.v
theories/P_Percentiles2.v
theories/P_Percentiles3.v
theories/P_Percentiles4.v
theories/P_Percentiles5.v
theories/P_PertArea.v
theories/P_Pick.v
theories/P_Pooling.v
theories/P_PowCmp.v
theories/P_Power.v
theories/P_Predict.v
theories/P_Program.v
theories/P_Program2.v
theories/P_Progress.v
theories/P_Psd.v
theories/P_Pure.v
theories/P_PwvMap.v
theories/P_Raised.v
theories/P_Readme.v
theories/P_Request.v
theories/P_Rising.v
theories/P_RisingMix.v
theories/P_Round.v
theories/P_Sampler.v
theories/P_Sampler2.v
theories/P_Script.v
theories/P_Share.v
theories/P_ShareRun.v
theories/P_ShareRun2.v
theories/P_Shared.v
theories/P_SimpleBayes.v
theories/P_Single.v
theories/P_Spearman.v
theories/P_Standard.v
theories/P_Steps.v
theories/P_Steps2.v
theories/P_Steps3.v
theories/P_Stochastic.v
theories/P_Str.v
theories/P_Summary.v
theories/P_Support.v
theories/P_TDist.v
theories/P_Tilt.v
theories/P_Tilt2.v
theories/P_Unbiased.v
theories/P_Units.v
theories/P_Update.v
theories/P_Update2.v
theories/P_Weights.v
theories/P_Weights2.v
theories/P_ZeroWeight.v
theories/Props_Accuracy.v
theories/Props_Algebra.v
theories/Props_Batches.v
theories/Props_Bayes.v
theories/Props_BayesRule.v
theories/Props_BucketMoves.v
theories/Props_Buckets.v
theories/Props_Build.v
theories/Props_Cache.v
theories/Props_Chernoff.v
theories/Props_ClipTop.v
theories/Props_Columns.v
theories/Props_Compare.v
theories/Props_Conversation.v
theories/Props_Corr.v
theories/Props_Ctor.v
theories/Props_Date.v
theories/Props_Discrete.v
theories/Props_Dists.v
theories/Props_Dominance.v
theories/Props_Double.v
theories/Props_DoubleConj.v
theories/Props_DoubleLearn.v
theories/Props_DoubleMean.v
theories/Props_DoubleParams.v
theories/Props_DoublePct.v
theories/Props_DoublePctOrder.v
theories/Props_DoubleProb.v
theories/Props_DoubleRound.v
theories/Props_Float.v
theories/Props_Formulas.v
theories/Props_Geomean.v
theories/Props_Ieee.v
theories/Props_IeeeParams.v
theories/Props_IeeePct.v
theories/Props_Iman.v
theories/Props_Indep.v
theories/Props_Kelly.v
theories/Props_KellyGain.v
theories/Props_KellyOrder.v
theories/Props_Kinds.v
theories/Props_Large.v
theories/Props_Limits.v
theories/Props_Moments.v
theories/Props_NewUnits.v
theories/Props_Normal.v
theories/Props_Ops.v
theories/Props_PctNear.v
theories/Props_PctOrder.v
theories/Props_PctSharp.v
theories/Props_PctUnits.v
theories/Props_Percentiles.v
theories/Props_Pert.v
theories/Props_Pick.v
theories/Props_Predict.v
theories/Props_Program.v
theories/Props_Progress.v
theories/Props_Raised.v
theories/Props_Readme.v
theories/Props_Rising.v
theories/Props_RisingMix.v
theories/Props_Sampler.v
theories/Props_Script.v
theories/Props_Share.v
theories/Props_Shared.v
theories/Props_Spearman.v
theories/Props_Standard.v
theories/Props_Steps.v
theories/Props_Stochastic.v
theories/Props_Summary.v
theories/Props_TDist.v
theories/Props_Text.v
theories/Props_Tilt.v
theories/Props_Unbiased.v
theories/Props_Update.v
theories/Props_Weights.v
theories/SpecAccuracy.v
theories/SpecAlgebra.v
theories/SpecBatches.v
theories/SpecBayes.v
theories/SpecBayesRule.v
theories/SpecBucketMoves.v
theories/SpecBuckets.v
theories/SpecBuild.v
theories/SpecCache.v
theories/SpecCacheText.v
theories/SpecCall.v
theories/SpecCast.v
theories/SpecChernoff.v
theories/SpecColumns.v
theories/SpecCompare.v
theories/SpecConversation.v
theories/SpecCorr.v
theories/SpecCtor.v
theories/SpecDate.v
theories/SpecDiceShare.v
theories/SpecDiscrete.v
theories/SpecDists.v
theories/SpecDominance.v
theories/SpecDouble.v
theories/SpecDoubleConj.v
theories/SpecDoubleLearn.v
theories/SpecDoubleMean.v
theories/SpecDoubleParams.v
theories/SpecEigen.v
theories/SpecFloat.v
theories/SpecFormulas.v
theories/SpecGeomean.v
theories/SpecIeee.v
theories/SpecIeeeParams.v
theories/SpecIman.v
theories/SpecIndep.v
theories/SpecIntText.v
theories/SpecKelly.v
theories/SpecKellyOrder.v
theories/SpecKinds.v
theories/SpecLarge.v
theories/SpecLimits.v
theories/SpecLogOrder.v
theories/SpecMixture.v
theories/SpecMoments.v
theories/SpecNormal.v
theories/SpecOneIn.v
theories/SpecOpText.v
theories/SpecOps.v
theories/SpecPctNear.v
theories/SpecPctOrder.v
theories/SpecPctSharp.v
theories/SpecPctUnits.v
theories/SpecPercentiles.v
theories/SpecPredict.v
theories/SpecProgram.v
theories/SpecRaised.v
theories/SpecReadme.v
theories/SpecRising.v
theories/SpecRound.v
theories/SpecSampler.v
theories/SpecSampler2.v
theories/SpecScript.v
theories/SpecShare.v
theories/SpecShared.v
theories/SpecStandard.v
theories/SpecSteps.v
theories/SpecStochastic.v
theories/SpecStr.v
theories/SpecSummary.v
theories/SpecT.v
theories/SpecTilt.v
theories/SpecUnbiased.v
theories/SpecWeights.v
theories/T_Bayes.v
theories/T_Ctor.v
theories/T_Formulas.v
theories/T_Samplers.v
theories/T_Texts.v
theories/T_Utils.v
