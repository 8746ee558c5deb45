-Q theories Verif
theories/Base.v
theories/Num.v
theories/NumFacts.v
theories/Interval.v
theories/IntervalFacts.v
theories/Curve.v
theories/Points.v
theories/PointsSpec.v
theories/PointsIdx.v
theories/PointsQuery.v
theories/PointsDom.v
theories/PointsOps.v
theories/PointsMut.v
theories/PointsReset.v
theories/PointsReplace.v
theories/PointsCover.v
theories/PointsHist.v
theories/PointsDec.v
theories/PointsRefute.v
theories/PointsTop.v
theories/PointsEx.v
theories/Properties_Points.v
theories/Observer.v
theories/ObserverSpec.v
theories/ObserverFacts.v
theories/ObserverNotify.v
theories/UpdFacts.v
theories/ObserverTop.v
theories/ObserverEx.v
theories/Properties_Observer.v
theories/Graph.v
theories/GraphFacts.v
theories/GraphSettle.v
theories/GraphTop.v
theories/Properties_Graph.v
theories/BaseFacts.v
theories/BaseTop.v
theories/BaseOpt.v
theories/BaseEx.v
theories/Properties_Base.v
theories/Combine.v
theories/CombineFacts.v
theories/CombineTop.v
theories/CombineLine.v
theories/CombinePiece.v
theories/CombineExpr.v
theories/CombineAll.v
theories/CombineEx.v
theories/Properties_Combine.v
theories/Scan.v
theories/ScanFacts.v
theories/ScanSource.v
theories/ScanInv.v
theories/ScanTf.v
theories/SmaFacts.v
theories/SmaInv.v
theories/ScanTop.v
theories/ScanEx.v
theories/Properties_Scan.v
theories/Extension.v
theories/ExtensionFacts.v
theories/ExtensionTop.v
theories/ExtensionPts.v
theories/ExtensionEx.v
theories/Properties_Extension.v
theories/Trend.v
theories/TrendGeo.v
theories/TrendNeg.v
theories/TrendPred.v
theories/TrendPredFacts.v
theories/TrendLineInv.v
theories/TrendCol.v
theories/TrendTop.v
theories/TrendPrune.v
theories/TrendSet.v
theories/TrendEx.v
theories/Properties_Trend.v
theories/Extremas.v
theories/ExtremasFold.v
theories/ExtremasUniq.v
theories/ExtremasVal.v
theories/ExtremasInv.v
theories/ExtremasEx.v
theories/Properties_Extremas.v
theories/Util.v
theories/UtilFacts.v
theories/Descriptor.v
theories/DescriptorFacts.v
theories/DescriptorTop.v
theories/DescriptorEx.v
theories/Properties_Descriptor.v
theories/Sine.v
theories/SineFacts.v
theories/Properties_Sine.v
theories/Quotes.v
theories/ScanView.v
theories/QuotesFacts.v
theories/QuotesTop.v
theories/QuotesScan.v
theories/QuotesEx.v
theories/Properties_Quotes.v
theories/Regression.v
theories/RegressionFacts.v
theories/RegressionTan.v
theories/RegressionEx.v
theories/Properties_Regression.v
theories/Rsi.v
theories/RsiFacts.v
theories/RsiEx.v
theories/Properties_Rsi.v
theories/Lifetime.v
theories/LifetimeFacts.v
theories/LifetimeEx.v
theories/Properties_Lifetime.v
theories/Power.v
theories/PowerFacts.v
theories/Properties_Power.v
theories/B64Facts.v
theories/GridFacts.v
theories/StepB64.v
theories/IrregB64.v
theories/B64Ex.v
theories/Properties_B64.v
theories/Smma.v
theories/SmmaFacts.v
theories/SmmaEx.v
theories/Properties_Smma.v
theories/OffsetDur.v
theories/OffsetDurFacts.v
theories/OffsetDurTop.v
theories/OffsetDurEx.v
theories/Properties_OffsetDur.v
theories/Indicator.v
theories/IndicatorFacts.v
theories/IndicatorTop.v
theories/IndicatorEx.v
theories/Properties_Indicator.v
theories/ScanSample.v
theories/ScanSampleFacts.v
theories/ScanSampleAcc.v
theories/ScanSampleTop.v
theories/ScanSampleEx.v
theories/Properties_ScanSample.v
theories/TrendMore.v
theories/TrendMoreFacts.v
theories/TrendCross.v
theories/TrendMoreEx.v
theories/Properties_TrendMore.v
theories/Harmonic.v
theories/HarmonicFacts.v
theories/Properties_Harmonic.v
theories/Callables.v
theories/CallablesFacts.v
theories/Properties_Callables.v
theories/SmaSample.v
theories/SmaSampleFacts.v
theories/SmaSampleTop.v
theories/SmaSampleEx.v
theories/Properties_SmaSample.v
theories/Tower.v
theories/TowerFacts.v
theories/TowerTop.v
theories/TowerHist.v
theories/TowerMean.v
theories/TowerAgree.v
theories/TowerEx.v
theories/Properties_Tower.v
theories/Live.v
theories/LiveNet.v
theories/LiveSpec.v
theories/LiveFacts.v
theories/LiveTop.v
theories/LivePoints.v
theories/LiveEnd.v
theories/LiveEx.v
theories/Properties_Live.v
theories/LiveReads.v
theories/LiveCalls.v
theories/LiveHist.v
theories/LiveReadsEx.v
theories/Properties_LiveReads.v
theories/Nest.v
theories/NestLog.v
theories/NestSettle.v
theories/NestTop.v
theories/NestEx.v
theories/Properties_Nest.v
theories/Weave.v
theories/WeaveList.v
theories/WeaveFacts.v
theories/WeaveReady.v
theories/WeaveTell.v
theories/WeaveHist.v
theories/WeaveEx.v
theories/Properties_Weave.v
theories/Fault.v
theories/FaultFacts.v
theories/FaultTop.v
theories/FaultLive.v
theories/FaultEx.v
theories/Properties_Fault.v
theories/TrendScan.v
theories/TrendLevels.v
theories/TrendScanFacts.v
theories/TrendScanEx.v
theories/Properties_TrendScan.v
theories/ExtremasLife.v
theories/ExtremasHist.v
theories/ExtremasHistEx.v
theories/Properties_ExtremasLife.v
theories/ExtremasSample.v
theories/ExtremasSampleTop.v
theories/ExtremasSampleEx.v
theories/Properties_ExtremasSample.v
theories/Factory.v
theories/FactoryFacts.v
theories/Properties_Factory.v
theories/ErrB64.v
theories/InterpB64.v
theories/AccB64.v
theories/EmaB64.v
theories/RoundEx.v
theories/Properties_Round.v
theories/TrendHull.v
theories/TrendHullSet.v
theories/TrendApart.v
theories/TrendPoi.v
theories/TrendHullTop.v
theories/TrendHullEx.v
theories/Properties_TrendHull.v
theories/BetweenB64.v
theories/IntB64.v
theories/IntSumB64.v
theories/IntEx.v
theories/Properties_Int64.v
theories/SumB64.v
theories/SumErrB64.v
theories/ProdB64.v
theories/SumEx.v
theories/Properties_Sum64.v
theories/Retain.v
theories/RetainFacts.v
theories/RetainEx.v
theories/Properties_Retain.v
theories/MapB64.v
theories/MapEx.v
theories/Properties_Map64.v
theories/WeaveAgree.v
theories/LineB64.v
theories/LineInt64.v
theories/LineVert64.v
theories/LineEx.v
theories/Properties_Line64.v
theories/StepBetween64.v
theories/SlopeB64.v
theories/SlopeMid64.v
theories/SlopeEx.v
theories/Properties_Slope64.v
theories/OffsetB64.v
theories/OffsetEx.v
theories/BaseClimb.v
theories/BaseClimbEx.v
theories/TrendFork.v
theories/DescriptorArgs.v
theories/Properties_Offset64.v
