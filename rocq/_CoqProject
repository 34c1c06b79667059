-Q theories Verif
theories/AmountSpec.v
theories/ArgumentFacts.v
theories/Base.v
theories/BenchmarkFacts.v
theories/BenchmarkRuns.v
theories/BoundsFacts.v
theories/BoundsSpec.v
theories/BufferFacts.v
theories/BuildsFacts.v
theories/CallbackFacts.v
theories/Callbacks.v
theories/Check.v
theories/CheckedFacts.v
theories/CircuitFacts.v
theories/CircuitLive.v
theories/CircuitSpec.v
theories/Circuits.v
theories/Cli.v
theories/CliFacts.v
theories/CliSpec.v
theories/ClusterSpec.v
theories/Codec.v
theories/CodecFacts.v
theories/Combinatoric.v
theories/CombinatoricFacts.v
theories/Contributions.v
theories/Counting.v
theories/CoverFacts.v
theories/Dangling.v
theories/DanglingFacts.v
theories/DanglingSearch.v
theories/Decimal64.v
theories/DecimalFacts.v
theories/DeviationFacts.v
theories/EdgesSpec.v
theories/EmbedSpec.v
theories/EnumFacts.v
theories/Execution.v
theories/ExecutionFacts.v
theories/Executions.v
theories/FilterFacts.v
theories/FirstFacts.v
theories/FloatError.v
theories/FloatFacts.v
theories/FloatRound.v
theories/FloatValid.v
theories/FormatSpec.v
theories/GateSpec.v
theories/GraphFacts.v
theories/GreedyFacts.v
theories/Histories.v
theories/Interface.v
theories/JsonFacts.v
theories/JsonSpec.v
theories/Locks.v
theories/LocksFacts.v
theories/LocksInterface.v
theories/LocksProgress.v
theories/LocksRefine.v
theories/LongerWitness.v
theories/MainAgreement.v
theories/MainAmount.v
theories/MainBenchmark.v
theories/MainBenchmarkFull.v
theories/MainBenchmarkNumbers.v
theories/MainBuffer.v
theories/MainCallbacks.v
theories/MainChecked.v
theories/MainCircuits.v
theories/MainCli.v
theories/MainCluster.v
theories/MainDangling.v
theories/MainDeviation.v
theories/MainEdges.v
theories/MainEmbed.v
theories/MainExecution.v
theories/MainFiles.v
theories/MainFirst.v
theories/MainGates.v
theories/MainInterface.v
theories/MainLocks.v
theories/MainLocksInterface.v
theories/MainMalformed.v
theories/MainManual.v
theories/MainMetamorphic.v
theories/MainMinor.v
theories/MainOpposite.v
theories/MainOrder.v
theories/MainOutput.v
theories/MainParity.v
theories/MainParts.v
theories/MainPlot.v
theories/MainPython.v
theories/MainRandom.v
theories/MainRandomness.v
theories/MainRemoval.v
theories/MainResults.v
theories/MainRooted.v
theories/MainRoundtrip.v
theories/MainSearch.v
theories/MainSeries.v
theories/MainSweep.v
theories/MainThreaded.v
theories/MainThreadedDefault.v
theories/MainUnchecked.v
theories/MainUnion.v
theories/MainWidth.v
theories/MainWork.v
theories/MalformedFacts.v
theories/ManualFacts.v
theories/Measured.v
theories/Metamorphic.v
theories/MinorSpec.v
theories/NumberFacts.v
theories/OrderFacts.v
theories/OrderSpec.v
theories/Output.v
theories/OutputFacts.v
theories/OutputSpec.v
theories/PartitionFacts.v
theories/PartsFacts.v
theories/PartsSpec.v
theories/Pipeline.v
theories/PlotFacts.v
theories/PlotNames.v
theories/PlotSpec.v
theories/Plotting.v
theories/PoolFacts.v
theories/Probabilistic.v
theories/ProbabilisticFacts.v
theories/ProbabilisticSearch.v
theories/Properties_Agreement.v
theories/Properties_Amount.v
theories/Properties_Bounds.v
theories/Properties_Buffer.v
theories/Properties_Callbacks.v
theories/Properties_Circuits.v
theories/Properties_Cli.v
theories/Properties_Cluster.v
theories/Properties_Dangling.v
theories/Properties_Deviation.v
theories/Properties_Edges.v
theories/Properties_Embed.v
theories/Properties_Execution.v
theories/Properties_Files.v
theories/Properties_First.v
theories/Properties_Gates.v
theories/Properties_Inputs.v
theories/Properties_Interface.v
theories/Properties_Locks.v
theories/Properties_LocksInterface.v
theories/Properties_Malformed.v
theories/Properties_Manual.v
theories/Properties_Merging.v
theories/Properties_Minor.v
theories/Properties_Numbers.v
theories/Properties_Opposite.v
theories/Properties_Order.v
theories/Properties_Output.v
theories/Properties_Parity.v
theories/Properties_Parts.v
theories/Properties_Plotting.v
theories/Properties_Probabilistic.v
theories/Properties_Python.v
theories/Properties_Random.v
theories/Properties_Randomness.v
theories/Properties_Removal.v
theories/Properties_Repeated.v
theories/Properties_Results.v
theories/Properties_Rooted.v
theories/Properties_Roundtrip.v
theories/Properties_Search.v
theories/Properties_Series.v
theories/Properties_Sweep.v
theories/Properties_Threaded.v
theories/Properties_ThreadedDefault.v
theories/Properties_Timer.v
theories/Properties_Unchecked.v
theories/Properties_Width.v
theories/Properties_Work.v
theories/Python.v
theories/RandomCounts.v
theories/Randomness.v
theories/RandomnessFacts.v
theories/RemovalSpec.v
theories/Results.v
theories/ResultsFacts.v
theories/RootedSpec.v
theories/Roundtrip.v
theories/RoundtripFacts.v
theories/RunFacts.v
theories/Scheduler.v
theories/SchedulerFacts.v
theories/Search.v
theories/SearchFacts.v
theories/SeriesFacts.v
theories/SeriesSpec.v
theories/ShortestWitness.v
theories/Space.v
theories/SpaceFacts.v
theories/SpawnFacts.v
theories/Spec.v
theories/SweepFacts.v
theories/Sweeping.v
theories/Termination.v
theories/Threaded.v
theories/ThreadedCover.v
theories/ThreadedDefault.v
theories/ThreadedExact.v
theories/ThreadedFacts.v
theories/ThreadedUnion.v
theories/ThreadedWitness.v
theories/Time.v
theories/TimeFacts.v
theories/Timer.v
theories/TimerFacts.v
theories/Tree.v
theories/Uniform.v
theories/UniformFacts.v
theories/UnitTests.v
theories/WidthFacts.v
theories/WidthSpec.v
theories/WorkAny.v
theories/WorkCount.v
theories/WorkFacts.v
theories/WorkSpec.v
