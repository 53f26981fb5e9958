-Q theories Verif
theories/Base.v
theories/F32.v
theories/Column.v
theories/ColumnSpec.v
theories/Base_proofs.v
theories/F32_proofs.v
theories/ColumnStr_proofs.v
theories/ColumnHist_proofs.v
theories/ColumnBucket_proofs.v
theories/ColumnProps_proofs.v
theories/ColumnCount_proofs.v
theories/Prop_Column.v
theories/DataStore.v
theories/DataStoreSpec.v
theories/DataStore_proofs.v
theories/Prop_DataStore.v
theories/Strings.v
theories/StringsSpec.v
theories/Strings_proofs.v
theories/StringsText_proofs.v
theories/Prop_Strings.v
theories/Tsv.v
theories/TsvSpec.v
theories/Tsv_proofs.v
theories/TsvLoad_proofs.v
theories/TsvProps_proofs.v
theories/Prop_Tsv.v
theories/Subsampling.v
theories/Subsampling_proofs.v
theories/Prop_Subsampling.v
theories/ThreadPool.v
theories/ThreadPool_proofs.v
theories/Prop_ThreadPool.v
theories/Flatfiles.v
theories/FlatSpec.v
theories/Flat_proofs.v
theories/FlatConc_proofs.v
theories/Prop_Flatfiles.v
theories/Par.v
theories/Par_proofs.v
theories/Num.v
theories/Forest.v
theories/Score.v
theories/ScoreSpec.v
theories/Score_proofs.v
theories/Eval.v
theories/EvalSpec.v
theories/Eval_proofs.v
theories/Prop_Score.v
theories/Prop_Eval.v
theories/Config.v
theories/ConfigSpec.v
theories/Config_proofs.v
theories/Prop_Config.v
theories/Split.v
theories/SplitSpec.v
theories/Split_proofs.v
theories/FloatReal_proofs.v
theories/Threshold_proofs.v
theories/Hist_proofs.v
theories/Gain_proofs.v
theories/Divide_proofs.v
theories/Search_proofs.v
theories/Category_proofs.v
theories/Prop_Split.v
theories/Tree.v
theories/TreeSpec.v
theories/Sum_proofs.v
theories/Feature_proofs.v
theories/Total_proofs.v
theories/Tree_proofs.v
theories/Prop_Tree.v
theories/Typed_proofs.v
theories/Train.v
theories/TrainSpec.v
theories/Train_proofs.v
theories/Loss.v
theories/LossSpec.v
theories/Loss_proofs.v
theories/Binary_proofs.v
theories/Calculus_proofs.v
theories/Mse_proofs.v
theories/Prop_Train.v
theories/Prop_Loss.v
theories/Pairwise.v
theories/PairSpec.v
theories/Volatile_proofs.v
theories/Group_proofs.v
theories/GroupCol_proofs.v
theories/Pairwise_proofs.v
theories/PairExact_proofs.v
theories/PairFinal_proofs.v
theories/Prop_Pair.v
theories/Python.v
theories/PythonSpec.v
theories/Python_proofs.v
theories/Slice_proofs.v
theories/AccuracySpec.v
theories/Accuracy_proofs.v
theories/Prop_Accuracy.v
theories/Threads_proofs.v
theories/Prop_Threads.v
theories/PyTrain_proofs.v
theories/Prop_Python.v
theories/PyPlot.v
theories/ValueSpec.v
theories/Value_proofs.v
theories/Prop_Value.v
theories/Driver.v
theories/DriverSpec.v
theories/Driver_proofs.v
theories/TsvSource.v
theories/TextSpec.v
theories/Text_proofs.v
theories/Prop_Text.v
theories/Stopwatch.v
theories/StopwatchSpec.v
theories/Stopwatch_proofs.v
theories/Prop_Stopwatch.v
theories/Prop_Driver.v
theories/FactorySpec.v
theories/Factory_proofs.v
theories/Prop_Factory.v
theories/MergeSpec.v
theories/Merge_proofs.v
theories/Prop_Merge.v
theories/PyScores.v
theories/PyScoresSpec.v
theories/PyScores_proofs.v
theories/Prop_PyScores.v
theories/Print.v
theories/PrintSpec.v
theories/Print_proofs.v
theories/Prop_Print.v
theories/Bagging.v
theories/BaggingSpec.v
theories/Bagging_proofs.v
theories/Prop_Bagging.v
theories/UnitsSpec.v
theories/Units_proofs.v
theories/Prop_Units.v
theories/OrderSpec.v
theories/Order_proofs.v
theories/OrderBuckets_proofs.v
theories/OrderPower_proofs.v
theories/OrderTrain_proofs.v
theories/Prop_Order.v
theories/Convert.v
theories/ConvertSpec.v
theories/Convert_proofs.v
theories/Prop_Convert.v
theories/Draw.v
theories/DrawSpec.v
theories/Draw_proofs.v
theories/Prop_Draw.v
theories/MetricsSpec.v
theories/Metrics.v
theories/Metrics_proofs.v
theories/Prop_Metrics.v
theories/PaddedSpec.v
theories/Padded_proofs.v
theories/Prop_Padded.v
theories/RowsSpec.v
theories/Rows_proofs.v
theories/Prop_Rows.v
theories/Range_proofs.v
theories/Prop_Range.v
theories/NamesSpec.v
theories/Names_proofs.v
theories/Prop_Names.v
theories/PyTsv.v
theories/PyTsvSpec.v
theories/PyTsv_proofs.v
theories/Prop_PyTsv.v
theories/PyView.v
theories/PyViewSpec.v
theories/PyView_proofs.v
theories/Prop_PyView.v
theories/ConstantSpec.v
theories/Constant_proofs.v
theories/Prop_Constant.v
theories/StepSpec.v
theories/Step_proofs.v
theories/Prop_Step.v
theories/Saved.v
theories/SavedSpec.v
theories/Saved_proofs.v
theories/SpellingSpec.v
theories/Spelling_proofs.v
theories/Prop_Saved.v
theories/TrainedSpec.v
theories/Doubles_proofs.v
theories/Trained_proofs.v
theories/Prop_Trained.v
theories/JsonText.v
theories/JsonSpec.v
theories/Options.v
theories/JsonText_proofs.v
theories/JsonSound_proofs.v
theories/JsonWrite_proofs.v
theories/Loaded_proofs.v
theories/Prop_JsonText.v
theories/OptionsSpec.v
theories/Options_proofs.v
theories/Prop_Options.v
theories/ReloadSpec.v
theories/Reload_proofs.v
theories/Prop_Reload.v
theories/Report.v
theories/ReportSpec.v
theories/Report_proofs.v
theories/PairStepSpec.v
theories/PairStep_proofs.v
theories/Prop_PairStep.v
theories/Prop_Report.v
theories/PairReport.v
theories/PairReportSpec.v
theories/PairReport_proofs.v
theories/Prop_PairReport.v
theories/TargetsSpec.v
theories/Targets_proofs.v
theories/Prop_Targets.v
theories/BaseShiftSpec.v
theories/BaseShift_proofs.v
theories/Prop_BaseShift.v
theories/PairUnitsSpec.v
theories/PairUnits_proofs.v
theories/Prop_PairUnits.v
theories/TargetUnitsSpec.v
theories/TargetUnits_proofs.v
theories/Prop_TargetUnits.v
theories/OtherUnitsSpec.v
theories/OtherUnits_proofs.v
theories/Prop_OtherUnits.v
