-Q theories Verif

theories/QcTac.v
theories/Num.v
theories/ModelBase.v
theories/ModelCurves.v
theories/ModelHuang.v
theories/ModelMuda.v
theories/ModelP2P.v
theories/ModelMerge.v
theories/ModelMarket.v
theories/ModelStats.v
theories/ModelDatasets.v
theories/Sorter.v
theories/Conform.v
theories/NumFacts.v
theories/ListFacts.v
theories/Spec.v
theories/CurveFacts.v
theories/IntersectFacts.v
theories/SpecMarket.v
theories/StoreFacts.v
theories/PropertiesStore.v
theories/PropertiesCurves.v
theories/UpdateFacts.v
theories/SpecTrade.v
theories/TradeFacts.v
theories/HuangFacts.v
theories/PropertiesHuang.v
theories/SpecMerge.v
theories/MergeFacts.v
theories/HuangMarketFacts.v
theories/PropertiesMerge.v
theories/P2PFacts.v
theories/SpecAlloc.v
theories/P2PTrades.v
theories/AllocFacts.v
theories/CoverFacts.v
theories/LPFacts.v
theories/PropertiesP2P.v
theories/FillFacts.v
theories/SpecMuda.v
theories/MudaSide.v
theories/MudaHalf.v
theories/MudaSolve.v
theories/MudaOutcome.v
theories/MudaFacts.v
theories/MudaTruth.v
theories/MudaPrice.v
theories/MudaErrors.v
theories/MudaTop.v
theories/SortFacts.v
theories/MudaWitness.v
theories/PropertiesMuda.v
theories/SpecStats.v
theories/StatsFacts.v
theories/FairFacts.v
theories/FairRuns.v
theories/StatsTop.v
theories/Solver.v
theories/MarketFacts.v
theories/DatasetFacts.v
theories/StatsWitness.v
theories/PropertiesStats.v
theories/CurveTop.v
theories/SpecHuang.v
theories/HuangTop.v
theories/HuangTruth.v
theories/HuangMarketTop.v
theories/HuangMarketTruth.v
theories/HuangWitness.v
theories/PropertiesHuangMore.v
theories/SpecP2P.v
theories/P2PSchedule.v
theories/PropertiesP2PMore.v
theories/PriceExact.v
theories/SpecFee.v
theories/MudaIndex.v
theories/MoreFacts.v
theories/PropertiesMore.v
theories/ConformDocs.v
theories/ModelUniform.v
theories/UniformFacts.v
theories/UniformTop.v
theories/UniformWitness.v
theories/PropertiesUniform.v
theories/ModelRound.v
theories/ModelFloat.v
theories/RoundFacts.v
theories/SpecRound.v
theories/RoundP2P.v
theories/RoundHuang.v
theories/RoundError.v
theories/RoundMuda.v
theories/RoundTop.v
theories/RoundWitness.v
theories/PropertiesRound.v
theories/ModelPlot.v
theories/SpecPlot.v
theories/PlotFacts.v
theories/PlotGraph.v
theories/PlotTop.v
theories/PlotWitness.v
theories/PropertiesPlot.v
theories/SpecUnits.v
theories/UnitFacts.v
theories/UnitMech.v
theories/UnitMarket.v
theories/UnitWitness.v
theories/UnitStats.v
theories/UnitTop.v
theories/MergeSample.v
theories/PropertiesUnits.v
theories/SpecExact.v
theories/PriceIff.v
theories/ExactFacts.v
theories/SpecOrder.v
theories/MarketOrder.v
theories/PropertiesExact.v
theories/P2POrder.v
theories/MudaOrder.v
theories/OrderWitness.v
theories/PropertiesOrder.v
theories/SpecSign.v
theories/SignFacts.v
theories/RaiseFacts.v
theories/RaiseMech.v
theories/SignWitness.v
theories/PropertiesSign.v
theories/SpecAlias.v
theories/AliasBest.v
theories/AliasTruth.v
theories/AliasWitness.v
theories/PropertiesAlias.v
theories/HuangLoss.v
theories/MudaWelfare.v
theories/EffWitness.v
theories/PropertiesEfficiency.v
theories/BidChange.v
theories/BidAdd.v
theories/PropertiesChange.v
theories/PlotLabels.v
theories/SplitFees.v
theories/ModelRoundMarket.v
theories/SpecRoundMarket.v
theories/RoundMerge.v
theories/RoundMarket.v
theories/RoundMarketTop.v
theories/RoundMarketWitness.v
theories/PropertiesRoundMarket.v
theories/SpecErrors.v
theories/ErrorFacts.v
theories/PropertiesErrors.v
theories/ModelRoundStats.v
theories/SpecRoundStats.v
theories/RoundStats.v
theories/RoundStatsTop.v
theories/RoundStatsMarket.v
theories/PropertiesRoundStats.v
theories/SpecTables.v
theories/TableFacts.v
theories/TableMuda.v
theories/TableP2P.v
theories/PropertiesTables.v
theories/SpecShort.v
theories/MarketTables.v
theories/MarketZero.v
theories/MarketTop.v
theories/PropertiesMarketTables.v
theories/SpecBook.v
theories/BookFacts.v
theories/BookTop.v
theories/PropertiesBook.v
theories/ModelRoundUniform.v
theories/RoundUniform.v
theories/RoundUniformTop.v
theories/RoundUniformWitness.v
theories/PropertiesRoundUniform.v
theories/SpecDual.v
theories/DualFacts.v
theories/DualHuang.v
theories/DualMuda.v
theories/DualP2P.v
theories/DualTop.v
theories/DualWitness.v
theories/PropertiesDual.v
theories/SpecCompare.v
theories/CompareVolume.v
theories/CompareMuda.v
theories/CompareHuang.v
theories/CompareTop.v
theories/CompareWitness.v
theories/PropertiesCompare.v
theories/SpecOrdinal.v
theories/OrdinalFacts.v
theories/OrdinalTop.v
theories/PropertiesOrdinal.v
theories/SpecChance.v
theories/ChanceFacts.v
theories/ChancePick.v
theories/ChanceP2P.v
theories/ChanceOrder.v
theories/ChanceRound.v
theories/ChanceTop.v
theories/ChanceMoney.v
theories/PropertiesChance.v
theories/SpecFlips.v
theories/FlipsFacts.v
theories/FlipsSplit.v
theories/FlipsMuda.v
theories/FlipsOrder.v
theories/FlipsWitness.v
theories/PropertiesFlips.v
theories/RoundFee.v
theories/RoundFeeHalf.v
theories/SpecRoundFee.v
theories/RoundFeeTop.v
theories/RoundFeeMuda.v
theories/PropertiesRoundFee.v
theories/SpecGrid.v
theories/GridFacts.v
theories/GridMuda.v
theories/GridP2P.v
theories/GridHuang.v
theories/GridStats.v
theories/GridTop.v
theories/PropertiesGrid.v
theories/LoneTop.v
theories/PropertiesLone.v
theories/NoTradeTop.v
theories/PropertiesNoTrade.v
theories/SpecRoundErrors.v
theories/RoundErrorsTop.v
theories/PropertiesRoundErrors.v
theories/SpecSep.v
theories/MoveFacts.v
theories/SepFacts.v
theories/SepUpdate.v
theories/SepHuang.v
theories/SepPrice.v
theories/SepMuda.v
theories/SepTop.v
theories/SepWitness.v
theories/PropertiesSep.v
theories/SepP2P.v
theories/SepP2PWitness.v
theories/PropertiesSepP2P.v
theories/ModelBounded.v
theories/SpecBounded.v
theories/BoundFacts.v
theories/BoundP2P.v
theories/BoundTop.v
theories/PropertiesBounded.v
theories/SizeP2P.v
theories/SizeTop.v
theories/PropertiesSize.v
theories/SpecDouble.v
theories/DoubleFacts.v
theories/PropertiesDouble.v
theories/SpecMono.v
theories/MonoFacts.v
theories/MonoHuang.v
theories/MonoTop.v
theories/PropertiesMono.v
theories/SpecCore.v
theories/CoreFacts.v
theories/CoreTop.v
theories/CoreWitness.v
theories/PropertiesCore.v
theories/SpecSplit.v
theories/SplitFacts.v
theories/SplitMuda.v
theories/SplitTop.v
theories/SplitUniform.v
theories/SplitChance.v
theories/SplitWitness.v
theories/PropertiesSplit.v
theories/ModelAny.v
theories/SpecAny.v
theories/SpecAnyRel.v
theories/AnyFacts.v
theories/AnyTop.v
theories/AnyRel.v
theories/AnyNum.v
theories/AnyInf.v
theories/AnyLast.v
theories/PropertiesAny.v
theories/SpecIeee.v
theories/IeeeRound.v
theories/IeeeOps.v
theories/SpecIeeeRun.v
theories/IeeeAny.v
theories/IeeeTop.v
theories/PropertiesIeee.v
theories/ModelOps.v
theories/SpecOps.v
theories/OpsFacts.v
theories/OpsRun.v
theories/OpsStats.v
theories/OpsTop.v
theories/PropertiesOps.v
theories/ModelOpsMarket.v
theories/OpsMarket.v
theories/OpsMarketTop.v
theories/PropertiesOpsMarket.v
theories/ModelWild.v
theories/SpecWild.v
theories/WildFacts.v
theories/WildSort.v
theories/WildCap.v
theories/WildTop.v
theories/WildNan.v
theories/PropertiesWild.v
theories/SpecGen.v
theories/GenFacts.v
theories/GenIdle.v
theories/GenTop.v
theories/PropertiesGen.v
theories/SpecMarketLoss.v
theories/MarketLoss.v
theories/MarketLossTop.v
theories/PropertiesMarketLoss.v
theories/ModelRoundDatasets.v
theories/SpecRoundGen.v
theories/RoundGen.v
theories/RoundGenTop.v
theories/RoundGenRuns.v
theories/PropertiesRoundGen.v
theories/ModelWildMuda.v
theories/SpecWildMuda.v
theories/WildMuda.v
theories/WildMudaHalf.v
theories/WildMudaTop.v
theories/WildMudaFin.v
theories/PropertiesWildMuda.v
theories/ModelWildMarket.v
theories/SpecWildMarket.v
theories/WildMarket.v
theories/WildMarketTop.v
theories/WildMarketCap.v
theories/WildMarketNan.v
theories/PropertiesWildMarket.v
theories/WildMarketOnce.v
theories/ModelWildStats.v
theories/SpecWildStats.v
theories/WildStats.v
theories/WildStatsMaker.v
theories/PropertiesWildStats.v
theories/ModelWildUniform.v
theories/SpecWildUniform.v
theories/WildUniform.v
theories/WildUniformTop.v
theories/PropertiesWildUniform.v
theories/WildUniformStats.v
theories/PropertiesWildUniformStats.v
theories/ModelWildP2P.v
theories/SpecWildP2P.v
theories/WildP2P.v
theories/PropertiesWildP2P.v
theories/ModelWildVolume.v
theories/SpecWildVolume.v
theories/WildVolume.v
theories/PropertiesWildVolume.v
theories/SpecWildVolumeBound.v
theories/WildVolumeBound.v
theories/PropertiesWildVolumeBound.v
theories/WildVolumeRun.v
theories/PropertiesWildVolumeRun.v
theories/WildVolumeNan.v
theories/PropertiesWildVolumeNan.v
