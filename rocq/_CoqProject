-Q theories Verif
theories/Base.v
theories/Num.v
theories/F64.v
theories/BaseProofs.v
theories/OrdLaws.v
theories/QueueModel.v
theories/QueueSpec.v
theories/QueueProofs.v
theories/PropQueue.v
theories/WalkerModel.v
theories/WalkerProofs.v
theories/PropWalker.v
theories/RateModel.v
theories/RateSpec.v
theories/RateProofs.v
theories/PropRate.v
theories/MarcusModel.v
theories/MarcusProofs.v
theories/PropMarcus.v
theories/LatticeModel.v
theories/LatticeSpec.v
theories/LatticeProofs.v
theories/LatticeReal.v
theories/LatticeTable.v
theories/PropLattice.v
theories/LatticeExact.v
theories/PropLatticeExact.v
theories/LatticeAny.v
theories/PropLatticeAny.v
theories/LatticeMore.v
theories/PropLatticeMore.v
theories/ImageSpec.v
theories/LatticeImages.v
theories/PropImages.v
theories/TableImages.v
theories/TableListed.v
theories/PropTable.v
theories/OverloadSpec.v
theories/OverloadProofs.v
theories/PropOverload.v
theories/RSum.v
theories/SiteModel.v
theories/SiteSpec.v
theories/SiteProofs.v
theories/PropSite.v
theories/ClusterModel.v
theories/ClusterFrame.v
theories/ClusterCounts.v
theories/F64Whole.v
theories/MasterEq.v
theories/MasterBlocks.v
theories/ClusterSpec.v
theories/ClusterReal.v
theories/ClusterTables.v
theories/ClusterHist.v
theories/ClusterOps.v
theories/ClusterStay.v
theories/ClusterUpdate.v
theories/ClusterProofs.v
theories/ClusterSome.v
theories/ClusterTime.v
theories/ClusterPick.v
theories/ClusterSolver.v
theories/ClusterNet.v
theories/PropCluster.v
theories/ContainerModel.v
theories/ContainerSpec.v
theories/ContainerProofs.v
theories/PropContainer.v
theories/BasinModel.v
theories/BasinSpec.v
theories/BasinProofs.v
theories/PropBasin.v
theories/SystemModel.v
theories/Fuel.v
theories/SystemSpec.v
theories/SystemShape.v
theories/SystemHop.v
theories/ClusterLive.v
theories/SystemCoarse.v
theories/SystemMerge.v
theories/SystemProofs.v
theories/SystemRuns.v
theories/SystemFacts.v
theories/SystemControl.v
theories/SystemInit.v
theories/CrossSpec.v
theories/CrossProofs.v
theories/ValidSpec.v
theories/ReportSpec.v
theories/DrainSpec.v
theories/SystemEffect.v
theories/SystemDrain.v
theories/SystemEquil.v
theories/SystemLive.v
theories/SystemGrow.v
theories/SystemTotal.v
theories/DueSpec.v
theories/SystemDue.v
theories/SystemStart.v
theories/SystemChain.v
theories/SystemValid.v
theories/SystemReport.v
theories/SystemLong.v
theories/PropSystem.v
theories/PropControl.v
theories/PropValid.v
theories/PropReport.v
theories/PropDrain.v
theories/SeedSpec.v
theories/SystemSeed.v
theories/SystemVisits.v
theories/PropSeed.v
theories/PropVisits.v
theories/QuerySpec.v
theories/SystemQuery.v
theories/PropQuery.v
theories/NameSpec.v
theories/SystemName.v
theories/PropName.v
theories/KmcSpec.v
theories/SystemKmc.v
theories/SystemOrder.v
theories/PropKmc.v
theories/PropOrder.v
theories/TofModel.v
theories/TofSpec.v
theories/TofProofs.v
theories/PropTof.v
theories/TofLoop.v
theories/TofLoopSpec.v
theories/TofLoopProofs.v
theories/TofLoopCharge.v
theories/TofLoopValid.v
theories/TofLoopRun.v
theories/PropTofLoop.v
theories/TofStart.v
theories/TofStartProofs.v
theories/TofBound.v
theories/PropTofStart.v
theories/B53.v
theories/UnitSpec.v
theories/UnitNum.v
theories/SystemDrainSeed.v
theories/PropDrainSeed.v
theories/ShiftSpec.v
theories/SystemRename.v
theories/SystemApart.v
theories/AmongSpec.v
theories/AmongProofs.v
theories/PropShift.v
theories/PropAmong.v
theories/UnitCluster.v
theories/UnitUpdate.v
theories/UnitMerge.v
theories/UnitBasin.v
theories/UnitSystem.v
theories/UnitRuns.v
theories/UnitAny.v
theories/B53Unit.v
theories/PropUnit.v
theories/MasterLimit.v
theories/EscapeSpec.v
theories/EscapeProofs.v
theories/EscapeNet.v
theories/PropEscape.v
theories/ManySpec.v
theories/ManyProofs.v
theories/PropMany.v
theories/ThermalSpec.v
theories/ThermalProofs.v
theories/ThermalNet.v
theories/PropThermal.v
theories/SystemOps.v
theories/SystemTables.v
theories/SystemSites.v
theories/StaySpec.v
theories/SystemStay.v
theories/ExitSpec.v
theories/SystemExit.v
theories/SystemFree.v
theories/PropStay.v
theories/PropTables.v
theories/ExitNet.v
theories/PropExit.v
theories/CounterSpec.v
theories/SystemCounter.v
theories/PropCounter.v
theories/FloatSpec.v
theories/FloatProofs.v
theories/FloatSite.v
theories/PropFloat.v
theories/FloatRunSpec.v
theories/FloatSystem.v
theories/PropFloatSystem.v
theories/FloatKmcSpec.v
theories/FloatKmc.v
theories/PropFloatKmc.v
theories/TallyModel.v
theories/TallySpec.v
theories/TallyProofs.v
theories/PropTally.v
theories/B53Spec.v
theories/B53Proofs.v
theories/PropB53.v
