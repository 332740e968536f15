-Q theories Verif
theories/Base.v
theories/Model_Agents.v
theories/Model_Trade.v
theories/Model_Prices.v
theories/Model_Market.v
theories/Model_Ascending.v
theories/Model_TradeReduction.v
theories/Model_McAfee.v
theories/Spec_Agents.v
theories/Proof_Agents.v
theories/Props_Agents.v
theories/Spec_Market.v
theories/Proof_Market.v
theories/Spec_Trade.v
theories/Proof_Trade.v
theories/Props_Market.v
theories/Props_Trade.v
theories/Proof_Prices.v
theories/Props_Prices.v
theories/Proof_Ascending.v
theories/Spec_Ascending.v
theories/Proof_Ascending2.v
theories/Proof_Strategy.v
theories/Proof_Ascending3.v
theories/Proof_Ascending4.v
theories/Proof_Ascending5.v
theories/Props_Ascending.v
theories/Proof_Deals.v
theories/Proof_TR.v
theories/Proof_TR2.v
theories/Proof_TR3.v
theories/Spec_TradeReduction.v
theories/Proof_TR4.v
theories/Proof_TR5.v
theories/Proof_TR6.v
theories/Proof_TR7.v
theories/Proof_TR8.v
theories/Props_TradeReduction.v
theories/Props_TradeReduction2.v
theories/Spec_McAfee.v
theories/Proof_McAfee.v
theories/Proof_McAfee2.v
theories/Proof_McAfee3.v
theories/Proof_McAfee4.v
theories/Props_McAfee.v
theories/Model_RecipeTree.v
theories/Spec_RecipeTree.v
theories/Proof_Tree.v
theories/Proof_Tree2.v
theories/Proof_Tree3.v
theories/Props_RecipeTree.v
theories/Model_TreeAuction.v
theories/Spec_TreeAuction.v
theories/Proof_TA1.v
theories/Proof_TA2.v
theories/Proof_TA3.v
theories/Proof_TA4.v
theories/Proof_TA5.v
theories/Proof_TA6.v
theories/Proof_TA7.v
theories/Proof_TA8.v
theories/Proof_TA9.v
theories/Proof_TA10.v
theories/Props_TreeAuction.v
theories/Proof_TA11.v
theories/Proof_TA12.v
theories/Proof_TA13.v
theories/Props_TreeEff.v
theories/Model_IntPrices.v
theories/Model_IntTree.v
theories/Model_IntAuction.v
theories/Spec_Int.v
theories/Proof_Int1.v
theories/Proof_Int2.v
theories/Proof_Int3.v
theories/Proof_Int4.v
theories/Proof_Int5.v
theories/Proof_Int6.v
theories/Proof_Int7.v
theories/Props_Int.v
theories/Spec_Order.v
theories/Props_Order.v
theories/Model_TreeCalc.v
theories/Spec_TreeCalc.v
theories/Proof_TreeCalc.v
theories/Props_TreeCalc.v
theories/Spec_Int2.v
theories/Proof_Int8.v
theories/Props_Int2.v
theories/Model_Heap.v
theories/Spec_Heap.v
theories/Proof_Heap.v
theories/Proof_Heap2.v
theories/Proof_Heap3.v
theories/Props_Heap.v
theories/Model_Float.v
theories/Props_Float.v
theories/Spec_Float.v
theories/Proof_Float.v
theories/Proof_Float2.v
theories/Proof_Float3.v
theories/Props_Float2.v
theories/Model_Experiment.v
theories/Spec_Experiment.v
theories/Proof_Exp1.v
theories/Proof_Exp2.v
theories/Proof_Exp3.v
theories/Proof_Exp4.v
theories/Proof_Exp5.v
theories/Proof_Exp6.v
theories/Proof_Exp7.v
theories/Props_Experiment.v
theories/Model_StockExperiment.v
theories/Spec_StockExperiment.v
theories/Proof_Stock.v
theories/Props_Stock.v
theories/Spec_Path.v
theories/Proof_Path1.v
theories/Proof_Path2.v
theories/Proof_Path3.v
theories/Proof_Path4.v
theories/Proof_Path5.v
theories/Proof_Path6.v
theories/Props_Path.v
theories/Spec_Regroup.v
theories/Proof_Rg1.v
theories/Proof_Rg2.v
theories/Proof_Rg3.v
theories/Proof_Rg4.v
theories/Props_Regroup.v
theories/Model_OldMulti.v
theories/Spec_OldMulti.v
theories/Proof_Om1.v
theories/Proof_Om2.v
theories/Proof_Om3.v
theories/Proof_Om4.v
theories/Props_OldMulti.v
theories/Proof_Om5.v
theories/Proof_Om6.v
theories/Proof_Om7.v
theories/Proof_Om8.v
theories/Props_OldMulti2.v
theories/Model_Multibuyer.v
theories/Spec_Multibuyer.v
theories/Proof_Mb1.v
theories/Proof_Mb2.v
theories/Proof_Mb3.v
theories/Props_Multibuyer.v
theories/Model_OldPrices.v
theories/Spec_OldPrices.v
theories/Proof_OldPrices.v
theories/Props_OldPrices.v
theories/Spec_Group.v
theories/Proof_Gsp1.v
theories/Proof_Gsp2.v
theories/Props_Group.v
theories/Proof_Gsp3.v
theories/Proof_Gsp4.v
theories/Props_Group2.v
theories/Proof_Gsp5.v
theories/Proof_Gsp6.v
theories/Proof_Gsp7.v
theories/Props_Group3.v
theories/Proof_TR9.v
theories/Proof_TR11.v
theories/Proof_TR12.v
theories/Proof_TR13.v
theories/Proof_TR14.v
theories/Props_TR2.v
theories/Spec_Stable.v
theories/Proof_Stable.v
theories/Proof_Stable2.v
theories/Proof_Stable3.v
theories/Proof_Stable4.v
theories/Props_Stable.v
theories/Spec_Market2.v
theories/Proof_Market2.v
theories/Props_Market2.v
theories/Proof_TR10.v
theories/Proof_Mb4.v
theories/Proof_Contracts.v
theories/Props_Contracts.v
theories/Model_StockData.v
theories/Spec_StockData.v
theories/Proof_StockData.v
theories/Proof_StockData2.v
theories/Proof_StockData3.v
theories/Proof_StockData4.v
theories/Props_StockData.v
theories/Model_CompareStock.v
theories/Spec_CompareStock.v
theories/Proof_CompareStock.v
theories/Proof_CompareStock2.v
theories/Proof_CompareStock3.v
theories/Proof_CompareStock4.v
theories/Proof_CompareStock5.v
theories/Proof_CompareStock6.v
theories/Proof_CompareStock7.v
theories/Proof_CompareStock8.v
theories/Proof_CompareStock9.v
theories/Props_CompareStock.v
theories/Model_Report.v
theories/Model_StockTables.v
theories/Spec_Report.v
theories/Proof_Report.v
theories/Proof_Report2.v
theories/Props_Report.v
theories/Spec_StockTables.v
theories/Proof_StockTables.v
theories/Proof_StockTables2.v
theories/Proof_StockTables3.v
theories/Proof_StockTables4.v
theories/Proof_StockTables5.v
theories/Props_StockTables.v
theories/Spec_Units.v
theories/Proof_Units.v
theories/Proof_Units2.v
theories/Proof_Units3.v
theories/Spec_MaxValue.v
theories/Proof_MaxValue.v
theories/Proof_Units4.v
theories/Props_Units.v
theories/Model_OldTree.v
theories/Spec_Threshold.v
theories/Proof_Threshold.v
theories/Proof_Threshold2.v
theories/Proof_Threshold3.v
theories/Proof_Threshold4.v
theories/Props_Threshold.v
theories/Spec_OldTree.v
theories/Proof_OldTree.v
theories/Props_OldTree.v
theories/Spec_Statics.v
theories/Proof_Statics.v
theories/Proof_Statics2.v
theories/Proof_Statics3.v
theories/Props_Statics.v
theories/Model_Search.v
theories/Spec_Search.v
theories/Proof_Flag.v
theories/Proof_Search.v
theories/Proof_Search2.v
theories/Props_Search.v
theories/Spec_Ties.v
theories/Proof_TA14.v
theories/Proof_TA15.v
theories/Props_Ties.v
theories/Model_Drivers.v
theories/Model_StockDrivers.v
theories/Spec_Drivers.v
theories/Props_Drivers.v
theories/Proof_IntHang.v
theories/Props_IntHang.v
theories/Model_FloatMcAfee.v
theories/Spec_FloatMcAfee.v
theories/Proof_FM1.v
theories/Proof_FM2.v
theories/Proof_FM3.v
theories/Proof_FM4.v
theories/Proof_FM5.v
theories/Proof_FM6.v
theories/Props_FloatMcAfee.v
theories/Props_Pins.v
theories/Spec_StockDrivers.v
theories/Proof_StockDrivers.v
theories/Props_StockDrivers.v
theories/Model_TreeStock.v
theories/Spec_TreeStock.v
theories/Proof_TreeStock.v
theories/Props_TreeStock.v
theories/Spec_FloatBudget.v
theories/Proof_FB1.v
theories/Proof_FB2.v
theories/Proof_FB3.v
theories/Props_FloatBudget.v
theories/Model_FloatTradeReduction.v
theories/Spec_FloatTradeReduction.v
theories/Proof_FT1.v
theories/Proof_FT2.v
theories/Proof_FT3.v
theories/Proof_FT4.v
theories/Proof_FT5.v
theories/Proof_FT6.v
theories/Props_FloatTradeReduction.v
theories/Spec_FloatTruth.v
theories/Proof_FU1.v
theories/Proof_FU2.v
theories/Proof_FU3.v
theories/Proof_FU4.v
theories/Props_FloatTruth.v
theories/Conformance.v
theories/Model_Demos.v
theories/Spec_Demos.v
theories/Proof_Two.v
theories/Proof_Lemonade.v
theories/Props_Demos.v
theories/Proof_Many.v
theories/Spec_Reorder.v
theories/Proof_Reorder.v
theories/Proof_Reorder2.v
theories/Proof_Reorder3.v
theories/Proof_Reorder4.v
theories/Props_Reorder.v
theories/Conformance_Demos.v
theories/Spec_Renumber.v
theories/Proof_Renumber.v
theories/Props_Renumber.v
theories/Proof_Initial.v
theories/Proof_Initial2.v
theories/Props_Initial.v
theories/Proof_Better.v
theories/Proof_Better2.v
theories/Spec_Better.v
theories/Proof_Better3.v
theories/Proof_Better4.v
theories/Props_Better.v
theories/Spec_Lipschitz.v
theories/Proof_Lipschitz.v
theories/Proof_Lipschitz2.v
theories/Proof_Lipschitz3.v
theories/Props_Lipschitz.v
theories/Spec_Outsiders.v
theories/Proof_Outsiders.v
theories/Proof_Outsiders2.v
theories/Proof_Outsiders3.v
theories/Props_Outsiders.v
theories/Spec_Winners.v
theories/Proof_Winners.v
theories/Proof_Winners2.v
theories/Proof_Winners3.v
theories/Proof_Winners4.v
theories/Props_Winners.v
theories/Spec_FloatMcAfeeTruth.v
theories/Proof_FMT.v
theories/Props_FloatMcAfeeTruth.v
theories/Spec_FloatReductionTruth.v
theories/Proof_FTT.v
theories/Proof_FTT2.v
theories/Props_FloatReductionTruth.v
theories/Proof_FMS.v
theories/Props_FloatOrder.v
theories/Spec_ThresholdHeuristic.v
theories/Proof_Threshold5.v
theories/Props_ThresholdHeuristic.v
theories/Proof_FMW.v
theories/Proof_FTW.v
theories/Props_FloatInfluence.v
theories/Proof_FUW.v
theories/Props_FloatStay.v
theories/Spec_FloatGroup.v
theories/Proof_FUG.v
theories/Props_FloatGroup.v
theories/Spec_FloatOrder.v
theories/Proof_FPerm.v
theories/Props_FloatRelist.v
theories/Spec_FloatEnvy.v
theories/Proof_FEnvy.v
theories/Props_FloatEnvy.v
