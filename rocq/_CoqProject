-Q theories Verif
theories/Base.v
theories/Types.v
theories/Sim.v
theories/Build.v
theories/Heap.v
theories/FrameBase.v
theories/Tac.v
theories/Frame.v
theories/Lists.v
theories/Inv.v
theories/Eff.v
theories/Eff2.v
theories/Trace.v
theories/InvStep.v
theories/Reach.v
theories/Steps.v
theories/Paths.v
theories/Demo.v
theories/Spec.v
theories/FD.v
theories/Spatial.v
theories/State.v
theories/Effects.v
theories/Phases.v
theories/Attr.v
theories/Life.v
theories/Incoming.v
theories/Counts.v
theories/Vev.v
theories/Ride.v
theories/TripLog.v
theories/Registry.v
theories/LinkQueries.v
theories/Route.v
theories/Signal.v
theories/Green.v
theories/Choice.v
theories/Enforce.v
theories/ChoiceDemo.v
theories/Props_Choice.v
theories/SignalDemo.v
theories/RouteDemo.v
theories/Commute.v
theories/Exec.v
theories/ExecDemo.v
theories/Props_State.v
theories/Props_Counts.v
theories/Props_Trips.v
theories/Props_Signal.v
theories/Props_Exec.v
theories/Demand.v
theories/DemandDemo.v
theories/Props_Demand.v
theories/Props_Names.v
theories/Props_Routes.v
theories/NodeCap.v
theories/NetDemo.v
theories/Props_Network.v
theories/Origin.v
theories/Merge.v
theories/OriginDemo.v
theories/Props_Nodes.v
theories/Bucket.v
theories/Outflow.v
theories/FlowDemo.v
theories/Props_Flow.v
theories/Trials.v
theories/Motion.v
theories/Spacing.v
theories/MotionDemo.v
theories/Props_Motion.v
theories/Distance.v
theories/Totals.v
theories/TotalsDemo.v
theories/Props_Totals.v
theories/SpecDuo.v
theories/Duo.v
theories/Search.v
theories/DuoInv.v
theories/DuoSum.v
theories/PathsOK.v
theories/Prefs.v
theories/DuoDemo.v
theories/Props_Duo.v
theories/SpecSafe.v
theories/Safe.v
theories/Errors.v
theories/Assert.v
theories/SafeDemo.v
theories/Props_Safe.v
theories/SpecLogs.v
theories/Logs.v
theories/LogsDemo.v
theories/Props_Logs.v
theories/SpecTT.v
theories/TTActual.v
theories/TTDemo.v
theories/Props_TT.v
theories/SpecCache.v
theories/Cache.v
theories/CacheDemo.v
theories/Props_Cache.v
theories/SpecAvg.v
theories/Average.v
theories/AverageDemo.v
theories/Props_Average.v
theories/SpecStats.v
theories/Analyzer.v
theories/AnalyzerDemo.v
theories/Props_Stats.v
theories/SpecDue.v
theories/Due.v
theories/DueDemo.v
theories/Props_Due.v
theories/Clock.v
theories/Rounds.v
theories/SpecTaxi.v
theories/Taxi.v
theories/Taxi2.v
theories/Taxi3.v
theories/RoundsOK.v
theories/TaxiDemo.v
theories/Props_Taxi.v
theories/Scenario.v
theories/SpecScenario.v
theories/ScenarioOK.v
theories/ScenarioDemo.v
theories/Props_Scenario.v
theories/Edie.v
theories/SpecEdie.v
theories/EdieOK.v
theories/EdieDemo.v
theories/Props_Edie.v
theories/Traj.v
theories/TrajDemo.v
theories/SpecQueries.v
theories/Queries.v
theories/QueriesDemo.v
theories/Props_Queries.v
theories/SpecArea.v
theories/AreaDemand.v
theories/AreaDemo.v
theories/Props_Area.v
theories/SpecDso.v
theories/Dso.v
theories/DsoDemo.v
theories/Props_Dso.v
theories/SpecGenetic.v
theories/Genetic.v
theories/Objective.v
theories/GeneticDemo.v
theories/Props_Genetic.v
theories/SpecAlns.v
theories/Alns.v
theories/AlnsDemo.v
theories/Props_Alns.v
theories/SpecRoutes.v
theories/EnumRoutes.v
theories/EnumRoutesDemo.v
theories/NodeDistances.v
theories/NodeDistancesDemo.v
theories/Props_RouteSets.v
theories/TaxiStats.v
theories/TaxiStatsDemo.v
theories/Props_TaxiStats.v
theories/SpecDelay.v
theories/Delay.v
theories/DelayDemo.v
theories/Props_Delay.v
theories/LogRoute.v
theories/SpecLinks.v
theories/LinkStats.v
theories/AreaStats.v
theories/LinkStatsDemo.v
theories/AreaFigures.v
theories/Props_LinkStats.v
theories/SpecTrips.v
theories/AreaTrips.v
theories/AreaTripsDemo.v
theories/Props_AreaTrips.v
theories/SpecMfd.v
theories/Mfd.v
theories/MfdDemo.v
theories/Props_Mfd.v
theories/SpecGps.v
theories/Gps.v
theories/GpsDemo.v
theories/Props_Gps.v
theories/SpecInterval.v
theories/LogFree.v
theories/LogFreeDemo.v
theories/Props_Interval.v
theories/Osm.v
theories/SpecOsm.v
theories/OsmOK.v
theories/OsmDemo.v
theories/Props_Osm.v
theories/Tsn.v
theories/SpecTsn.v
theories/TsnOK.v
theories/TsnDemo.v
theories/Props_Tsn.v
theories/SpecProgress.v
theories/Progress.v
theories/Progress2.v
theories/ProgressDemo.v
theories/Props_Progress.v
theories/SpecLone.v
theories/Lone.v
theories/Lone2.v
theories/LoneDemo.v
theories/Props_Lone.v
theories/SpecFlow.v
theories/NodeFlow.v
theories/NodeFlowDemo.v
theories/Props_NodeFlow.v
theories/Cpp.v
theories/SpecCpp.v
theories/CppOK.v
theories/CppOK2.v
theories/CppDemo.v
theories/Props_Cpp.v
theories/CppExt.v
theories/CppExtDemo.v
theories/Props_CppExt.v
theories/CppLog.v
theories/CppLogDemo.v
theories/Props_CppLog.v
theories/CppLoop.v
theories/CppLoopDemo.v
theories/Props_CppLoop.v
theories/CppInv.v
theories/CppInvDemo.v
theories/Props_CppInv.v
theories/CppSafe.v
theories/CppSafeDemo.v
theories/Props_CppSafe.v
theories/AlnsW.v
theories/Grid.v
theories/GridNet.v
theories/GridDemo.v
theories/Props_Grid.v
theories/CppGreen.v
theories/CppFlow.v
theories/CppOut.v
theories/CppSignal.v
theories/CppNode.v
theories/CppGreenDemo.v
theories/Props_CppGreen.v
theories/CppDta.v
theories/CppDtaDemo.v
theories/Props_CppDta.v
theories/CppPaths.v
theories/CppEnum.v
theories/CppPathsDemo.v
theories/Props_CppPaths.v
theories/CppAdj.v
theories/CppTimed.v
theories/CppRoute.v
theories/CppRouteDemo.v
theories/CppAdjDemo.v
theories/Props_CppAdj.v
theories/CppPref.v
theories/Props_CppPref.v
theories/CppSample.v
theories/CppSampleDemo.v
theories/Props_CppSample.v
theories/CppShared.v
theories/Props_CppShared.v
