-Q theories Verif
theories/Base_Q.v
theories/Model_Binarizer.v
theories/Model_Bitset.v
theories/Model_Cache.v
theories/Model_Colors.v
theories/Model_Container.v
theories/Model_CostComplex.v
theories/Model_CostFile.v
theories/Model_CostSensitive.v
theories/Model_Data.v
theories/Model_DatasetIter.v
theories/Model_EquivPoints.v
theories/Model_Estimator.v
theories/Model_Fairness.v
theories/Model_FeatureVector.v
theories/Model_FileReader.v
theories/Model_Front.v
theories/Model_GlmNet.v
theories/Model_Heap.v
theories/Model_Kmeans.v
theories/Model_KmeansBound.v
theories/Model_LinFit.v
theories/Model_Node.v
theories/Model_ParamPrint.v
theories/Model_Params.v
theories/Model_Pareto.v
theories/Model_Policy.v
theories/Model_PolicyTable.v
theories/Model_Predict.v
theories/Model_Preproc.v
theories/Model_Printed.v
theories/Model_Proba.v
theories/Model_PyData.v
theories/Model_RegFit.v
theories/Model_Regression.v
theories/Model_Session.v
theories/Model_Similarity.v
theories/Model_SimpleLinear.v
theories/Model_Solver.v
theories/Model_Splits.v
theories/Model_SurvFit.v
theories/Model_SurvLeaf.v
theories/Model_SurvPredict.v
theories/Model_Survival.v
theories/Model_Tasks.v
theories/Model_TermReg.v
theories/Model_TermSurv.v
theories/Model_Terminal.v
theories/Model_Text.v
theories/Model_TuneEnd.v
theories/Model_TunePhases.v
theories/Model_Tuning.v
theories/Proofs_Base.v
theories/Proofs_Bitset.v
theories/Proofs_Budget.v
theories/Proofs_Cache.v
theories/Proofs_Calc.v
theories/Proofs_Clock.v
theories/Proofs_Construct.v
theories/Proofs_Container.v
theories/Proofs_Custom.v
theories/Proofs_Diff.v
theories/Proofs_F1.v
theories/Proofs_Fairness.v
theories/Proofs_Feature.v
theories/Proofs_Fit.v
theories/Proofs_Front.v
theories/Proofs_FrontRoot.v
theories/Proofs_FrontTwo.v
theories/Proofs_Heap.v
theories/Proofs_Keep.v
theories/Proofs_KeepLow.v
theories/Proofs_Kmeans.v
theories/Proofs_Near.v
theories/Proofs_NearFit.v
theories/Proofs_NonEmpty.v
theories/Proofs_One.v
theories/Proofs_Outer.v
theories/Proofs_ParamPrint.v
theories/Proofs_Params.v
theories/Proofs_Pareto.v
theories/Proofs_Path.v
theories/Proofs_Plain.v
theories/Proofs_PlainFit.v
theories/Proofs_Predict.v
theories/Proofs_Preproc.v
theories/Proofs_Printed.v
theories/Proofs_RecCalc.v
theories/Proofs_RecTree.v
theories/Proofs_RegFit.v
theories/Proofs_Rows.v
theories/Proofs_Score.v
theories/Proofs_Search.v
theories/Proofs_Session.v
theories/Proofs_Small.v
theories/Proofs_Smawk.v
theories/Proofs_Splits.v
theories/Proofs_Task.v
theories/Proofs_TermBuild.v
theories/Proofs_TermBuildSurv.v
theories/Proofs_TermFull.v
theories/Proofs_TermGap.v
theories/Proofs_TermReg.v
theories/Proofs_TermSound.v
theories/Proofs_TermState.v
theories/Proofs_TermSurv.v
theories/Proofs_Terminal.v
theories/Proofs_Three.v
theories/Proofs_View.v
theories/Props_Binarizer.v
theories/Props_Bitset.v
theories/Props_CacheHistory.v
theories/Props_Colors.v
theories/Props_Container.v
theories/Props_CostFile.v
theories/Props_CostSensitive.v
theories/Props_Costs.v
theories/Props_Data.v
theories/Props_DataCache.v
theories/Props_EquivPoints.v
theories/Props_Estimator.v
theories/Props_Fairness.v
theories/Props_Feature.v
theories/Props_FileReader.v
theories/Props_Findings.v
theories/Props_Front.v
theories/Props_FrontSound.v
theories/Props_FrontTwo.v
theories/Props_GlmNet.v
theories/Props_Heap.v
theories/Props_Kmeans.v
theories/Props_Limits.v
theories/Props_LinFit.v
theories/Props_Near.v
theories/Props_ParamPrint.v
theories/Props_Params.v
theories/Props_Pareto.v
theories/Props_Policy.v
theories/Props_PolicyFit.v
theories/Props_PolicyTable.v
theories/Props_Predict.v
theories/Props_Preproc.v
theories/Props_Printed.v
theories/Props_Proba.v
theories/Props_PyData.v
theories/Props_RegFit.v
theories/Props_Regression.v
theories/Props_Session.v
theories/Props_Similarity.v
theories/Props_SimpleLinear.v
theories/Props_Solver.v
theories/Props_Sparse.v
theories/Props_Splits.v
theories/Props_SurvFit.v
theories/Props_SurvLeaf.v
theories/Props_SurvPredict.v
theories/Props_Survival.v
theories/Props_Tasks.v
theories/Props_TermReg.v
theories/Props_TermSize.v
theories/Props_TermSurv.v
theories/Props_Terminal.v
theories/Props_Text.v
theories/Props_TuneEnd.v
theories/Props_TunePhases.v
theories/Props_Tuning.v
theories/Spec_Data.v
theories/Spec_Examples.v
theories/Spec_F1.v
theories/Spec_Fair.v
theories/Spec_Lin.v
theories/Spec_ParamPrint.v
theories/Spec_Params.v
theories/Spec_Printed.v
theories/Spec_Reg.v
theories/Spec_Rows.v
theories/Spec_Splits.v
theories/Spec_Tasks.v
theories/Spec_TermReg.v
theories/Spec_TermSurv.v
theories/Spec_Tree.v
