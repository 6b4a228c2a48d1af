-Q theories Verif

theories/Py.v
theories/Num.v
theories/NumR.v
theories/Sorting.v
theories/Frame.v
theories/PdCalc.v
theories/EngineFacts.v
theories/PdSpec.v
theories/PdFacts.v
theories/PdProofs.v
theories/PdTheorems.v
theories/PdErrors.v
theories/PdApi.v
theories/Props_Pd.v
theories/Rng.v
theories/PdMethods.v
theories/MethodSpec.v
theories/PdMethodFacts.v
theories/PdMethodRun.v
theories/PdMethodReal.v
theories/PdMethodReal2.v
theories/GreenwellFacts.v
theories/Props_Methods.v
theories/Props_Methods2.v
theories/Additivity.v
theories/Props_Additivity.v
theories/Perm.v
theories/PermFacts.v
theories/PermRun.v
theories/Props_Perm.v
theories/CondDepth.v
theories/TreeFacts.v
theories/CondDepthFacts.v
theories/ForestFacts.v
theories/CompareFacts.v
theories/Props_Forest.v
theories/SplitScore.v
theories/SplitFacts.v
theories/SplitTables.v
theories/SplitImp.v
theories/Props_Split.v
theories/Props_Split2.v
theories/Comparator.v
theories/Props_Compare.v
theories/Visual.v
theories/VisualFacts.v
theories/Props_Visual.v
theories/Props_Visual2.v
theories/Props_Visual3.v
theories/Props_Visual4.v
theories/Props_Visual5.v
theories/Props_Visual6.v
theories/Zenplot.v
theories/ZenFacts.v
theories/Props_Zen.v
theories/Props_Zen2.v
theories/Props_Zen3.v
theories/Props_Standalone.v
theories/Helpers.v
theories/Props_Helpers.v
theories/Views.v
theories/Props_Views.v
theories/Props_Visual7.v
theories/Cost.v
theories/Props_Budget.v
theories/Float.v
theories/Props_Float.v
theories/Props_Strong.v
theories/FloatRound.v
theories/Props_Strong2.v
theories/Props_Share.v
theories/Props_Refit.v
theories/FloatMono.v
theories/FloatOps.v
theories/Props_Widths.v
theories/NpSum.v
theories/FloatErr.v
theories/Props_Float2.v
theories/Nodes.v
theories/Props_Nodes.v
theories/Props_Lollipop.v
theories/Props_Float3.v
theories/Keywords.v
theories/Props_Keywords.v
theories/Props_Metrics.v
theories/Compared.v
theories/Props_EndToEnd.v
theories/Props_Keywords2.v
theories/Props_EndToEnd2.v
theories/Props_EndToEnd3.v
theories/Props_EndToEnd4.v
theories/Props_EndToEnd5.v
theories/Printed.v
theories/Props_EndToEnd6.v
theories/Props_Ranks.v
theories/Props_Ranks2.v
theories/Props_Budget2.v
theories/FloatInt.v
theories/Props_ForestFloat.v
theories/Props_SplitFloat.v
theories/Props_Terms.v
theories/Props_TreeOrder.v
theories/Props_Recode.v
theories/GbHandler.v
theories/Props_GbHandler.v
theories/PdAny.v
theories/Props_Any.v
theories/Props_Stable.v
theories/Props_Noise.v
theories/Props_Anova.v
theories/FloatReal.v
theories/Props_Accuracy.v
theories/Props_Accuracy2.v
theories/Props_Accuracy3.v
theories/Props_Draws.v
theories/Props_Equiv.v
theories/Props_Outcome.v
theories/Messages.v
theories/Props_Messages.v
theories/Failing.v
theories/Props_Failing.v
theories/Props_Lengths.v
theories/Props_Surplus.v
theories/Props_Stable2.v
theories/Props_Noise2.v
theories/Props_Stable3.v
theories/Props_Stable4.v
theories/Props_Scale2.v
theories/PermAny.v
theories/Props_Noise3.v
theories/Props_Noise4.v
theories/Props_Failing2.v
theories/Props_Share2.v
theories/Props_Lollipop2.v
theories/Props_Noise5.v
theories/Props_Failing3.v
