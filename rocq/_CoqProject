-Q theories Verif

theories/Model/Base.v
theories/Model/ListUtils.v
theories/Spec/Lists.v
theories/Lib/ListLib.v
theories/Proofs/ListUtils.v
theories/Proofs/ListUtils2.v
theories/Spec/Nested.v
theories/Properties/P01_ListUtils.v
theories/Model/DP.v
theories/Model/Lcs.v
theories/Model/Levenshtein.v
theories/Spec/Edit.v
theories/Spec/EditOps.v
theories/Proofs/Lcs.v
theories/Proofs/Levenshtein.v
theories/Proofs/Levenshtein2.v
theories/Model/TupleUtils.v
theories/Spec/Subsets.v
theories/Proofs/TupleUtils.v
theories/Model/MathUtils.v
theories/Model/SetSimilarity.v
theories/Model/TwoWayDict.v
theories/Model/RandomUtils.v
theories/Model/Statistics.v
theories/Model/StandardDeviation.v
theories/Spec/Moments.v
theories/Proofs/Statistics.v
theories/Proofs/StandardDeviation.v
theories/Proofs/MathUtils.v
theories/Proofs/MathUtilsB.v
theories/Proofs/TwoWayDict.v
theories/Proofs/SetSimilarity.v
theories/Proofs/RandomUtils.v
theories/Proofs/Levenshtein3.v
theories/Properties/P02_Sequences.v
theories/Properties/P03_Numbers.v
theories/Model/Sort.v
theories/Lib/SortLib.v
theories/Spec/Words.v
theories/Model/Patterns.v
theories/Proofs/Words.v
theories/Proofs/Patterns.v
theories/Properties/P04_Patterns.v
theories/Model/SuffixTree.v
theories/Proofs/SuffixTree.v
theories/Proofs/SuffixTreeB.v
theories/Model/SuffixObjects.v
theories/Proofs/SuffixObjectsA.v
theories/Proofs/SuffixObjectsB.v
theories/Proofs/SuffixObjectsC.v
theories/Proofs/SuffixObjectsD.v
theories/Proofs/Repeats.v
theories/Proofs/RepeatsLog.v
theories/Properties/P05_Repeats.v
theories/Model/EventLog.v
theories/Model/LogNoise.v
theories/Model/LogQueries.v
theories/Spec/Logs.v
theories/Spec/EventLogSpec.v
theories/Proofs/Selection.v
theories/Lib/DictLib.v
theories/Proofs/EventLogA.v
theories/Proofs/EventLogB.v
theories/Proofs/EventLogC.v
theories/Proofs/EventLogD.v
theories/Proofs/LogNoise.v
theories/Spec/QuerySpec.v
theories/Proofs/LogQueries.v
theories/Properties/P06_EventLogs.v
theories/Model/Dfg.v
theories/Model/IntGraph.v
theories/Model/PrefixTree.v
theories/Model/Lts.v
theories/Model/PetriNet.v
theories/Proofs/DfgA.v
theories/Proofs/DfgB.v
theories/Lib/StrLib.v
theories/Proofs/DfgC.v
theories/Spec/Graphs.v
theories/Spec/DfgSpec.v
theories/Spec/DfgBuilt.v
theories/Spec/IntGraphSpec.v
theories/Proofs/DfgD.v
theories/Proofs/DfgE.v
theories/Proofs/DfgF.v
theories/Proofs/DfgG.v
theories/Proofs/DfgH.v
theories/Proofs/DfgI.v
theories/Proofs/DfgJ.v
theories/Proofs/IntGraphA.v
theories/Proofs/IntGraphB.v
theories/Proofs/IntGraphC.v
theories/Properties/P07_Dfg.v
theories/Spec/TreeSpec.v
theories/Proofs/PrefixTree.v
theories/Proofs/Lts.v
theories/Properties/P08_Graphs.v
theories/Spec/PetriSpec.v
theories/Proofs/PetriA.v
theories/Proofs/PetriB.v
theories/Proofs/PetriC.v
theories/Proofs/PetriD.v
theories/Proofs/PetriE.v
theories/Properties/P09_Petri.v
theories/Model/Parallel.v
theories/Proofs/ParallelA.v
theories/Spec/ParallelSpec.v
theories/Proofs/ParallelB.v
theories/Properties/P10_Parallel.v
theories/Model/Clustering.v
theories/Proofs/ClusteringA.v
theories/Spec/ClusterSpec.v
theories/Proofs/ClusteringB.v
theories/Proofs/ClusteringC.v
theories/Proofs/ClusteringD.v
theories/Properties/P11_Clustering.v
theories/Model/Dataset.v
theories/Spec/DatasetSpec.v
theories/Proofs/DatasetA.v
theories/Proofs/DatasetB.v
theories/Proofs/DatasetC.v
theories/Model/Transformers.v
theories/Proofs/TransformersA.v
theories/Proofs/TransformersB.v
theories/Proofs/TransformersC.v
theories/Spec/TransformSpec.v
theories/Proofs/TransformersD.v
theories/Proofs/TransformersH.v
theories/Properties/P12_Dataset.v
theories/Model/ResultCache.v
theories/Spec/CacheSpec.v
theories/Proofs/ResultCache.v
theories/Model/Transactions.v
theories/Spec/TransactionSpec.v
theories/Proofs/Transactions.v
theories/Model/NestedGraph.v
theories/Spec/NestedSpec.v
theories/Spec/NestedHistory.v
theories/Spec/Base64Spec.v
theories/Proofs/NestedGraphA.v
theories/Proofs/NestedGraphB.v
theories/Proofs/NestedHistoryA.v
theories/Proofs/Base64A.v
theories/Properties/P13_Files.v
theories/Model/TargetDatasets.v
theories/Spec/TargetSpec.v
theories/Proofs/TargetDatasetsA.v
theories/Proofs/TargetDatasetsB.v
theories/Proofs/TargetDatasetsC.v
theories/Model/Discretization.v
theories/Spec/QuantileSpec.v
theories/Properties/P14_Targets.v
theories/Proofs/Quantiles.v
theories/Properties/P15_Discretization.v
theories/Model/FailingTransformers.v
theories/Spec/FailingSpec.v
theories/Proofs/FailingA.v
theories/Proofs/FailingB.v
theories/Proofs/FailingC.v
theories/Properties/P37_FailingTransformers.v
theories/Proofs/PetriF.v
theories/Proofs/PetriG.v
theories/Proofs/PetriH.v
theories/Model/Mdl.v
theories/Spec/MdlSpec.v
theories/Proofs/MdlA.v
theories/Proofs/MdlB.v
theories/Proofs/MdlC.v
theories/Proofs/MdlD.v
theories/Properties/P16_Mdl.v
theories/Model/ActivityPattern.v
theories/Spec/ActivityPatternSpec.v
theories/Proofs/ApA.v
theories/Proofs/ApB.v
theories/Proofs/ApC.v
theories/Proofs/ApD.v
theories/Proofs/ApE.v
theories/Proofs/ApF.v
theories/Proofs/ApG.v
theories/Proofs/ApH.v
theories/Proofs/ApI.v
theories/Proofs/ApJ.v
theories/Proofs/ApS.v
theories/Proofs/ApK.v
theories/Proofs/ApL.v
theories/Proofs/ApM.v
theories/Proofs/ApN.v
theories/Proofs/ApO.v
theories/Proofs/ApP.v
theories/Properties/P17_ActivityPattern.v
theories/Model/LogTables.v
theories/Spec/LogTableSpec.v
theories/Proofs/LogTablesA.v
theories/Proofs/LogTablesB.v
theories/Proofs/LogTablesC.v
theories/Proofs/LogTablesD.v
theories/Proofs/LogTablesE.v
theories/Properties/P18_LogTables.v
theories/Model/Arff.v
theories/Spec/ArffSpec.v
theories/Proofs/ArffA.v
theories/Proofs/ArffB.v
theories/Proofs/ArffC.v
theories/Proofs/ArffD.v
theories/Proofs/ArffE.v
theories/Proofs/ArffF.v
theories/Proofs/ArffG.v
theories/Proofs/ArffH.v
theories/Proofs/ArffI.v
theories/Proofs/ArffJ.v
theories/Properties/P19_Arff.v
theories/Model/Pm4py.v
theories/Proofs/Pm4pyA.v
theories/Spec/Pm4pySpec.v
theories/Proofs/Pm4pyB.v
theories/Proofs/Pm4pyC.v
theories/Proofs/Pm4pyD.v
theories/Proofs/Pm4pyE.v
theories/Proofs/Pm4pyF.v
theories/Proofs/Pm4pyG.v
theories/Properties/P20_Pm4py.v
theories/Model/ResultCollector.v
theories/Spec/ResultSpec.v
theories/Proofs/RcA.v
theories/Proofs/RcB.v
theories/Proofs/RcC.v
theories/Proofs/RcD.v
theories/Proofs/RcE.v
theories/Properties/P21_ResultCollector.v
theories/Model/Converter.v
theories/Proofs/ConvA.v
theories/Model/Console.v
theories/Spec/ConsoleSpec.v
theories/Proofs/ConsA.v
theories/Model/Timeout.v
theories/Spec/TimeoutSpec.v
theories/Proofs/TimeA.v
theories/Properties/P22_Converter.v
theories/Properties/P23_Console.v
theories/Properties/P24_Timeout.v
theories/Model/Plots.v
theories/Spec/PlotSpec.v
theories/Proofs/PlotA.v
theories/Model/Histogram.v
theories/Model/Heatmap.v
theories/Model/FuncTools.v
theories/Model/Color.v
theories/Spec/FigureSpec.v
theories/Proofs/PlotB.v
theories/Proofs/PlotC.v
theories/Properties/P25_PlotContext.v
theories/Properties/P26_Figures.v
theories/Model/Dot.v
theories/Model/Drawings.v
theories/Spec/DotSpec.v
theories/Proofs/DotA.v
theories/Proofs/DotB.v
theories/Proofs/DotC.v
theories/Spec/WalkSpec.v
theories/Proofs/DotD.v
theories/Proofs/DotE.v
theories/Properties/P27_GraphDrawings.v
theories/Properties/P28_Drawings.v
theories/Model/Ray.v
theories/Proofs/RayA.v
theories/Properties/P29_Ray.v
theories/Properties/P30_SuffixTree.v
theories/Model/CacheRace.v
theories/Spec/CacheRaceSpec.v
theories/Proofs/CacheRaceA.v
theories/Proofs/CacheRaceB.v
theories/Proofs/EqualBins.v
theories/Properties/P31_Attributes.v
theories/Properties/P32_CacheRace.v
theories/Proofs/QcutA.v
theories/Properties/P33_Bins.v
theories/Properties/P34_NestedLookups.v
theories/Properties/P35_SharedLogs.v
theories/Properties/P36_SmallClasses.v
theories/Model/LogObjects.v
theories/Model/Base64.v
theories/Model/Stopwatch.v
theories/Model/Variables.v
theories/Spec/LogObjectSpec.v
theories/Proofs/LogObjA.v
theories/Proofs/LogObjB.v
theories/Proofs/LogObjC.v
theories/Proofs/LogObjD.v
theories/Model/CInts.v
theories/Proofs/CIntsA.v
theories/Properties/P38_CInts.v
theories/Proofs/DfgWalks.v
theories/Spec/FuzzySpec.v
theories/Model/FuzzyReal.v
theories/Proofs/ClusteringE.v
theories/Proofs/FuzzyA.v
theories/Proofs/CacheRaceC.v
theories/Proofs/MdlE.v
theories/Model/Colors.v
theories/Spec/ColorSpec.v
theories/Proofs/ColorsA.v
theories/Model/Printing.v
theories/Proofs/PrintingA.v
theories/Properties/P39_Printing.v
theories/Model/Pm4pyObjects.v
theories/Spec/Pm4pyObjectSpec.v
theories/Proofs/Pm4pyObjA.v
theories/Proofs/Pm4pyObjB.v
theories/Properties/P40_Pm4pyObjects.v
theories/Model/ComplexEvents.v
theories/Spec/ComplexEventSpec.v
theories/Proofs/ComplexA.v
theories/Properties/P41_ComplexEvents.v
