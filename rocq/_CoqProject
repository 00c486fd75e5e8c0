-Q theories Verif
theories/Base.v
theories/Pulp.v
theories/Params.v
theories/Optimizer.v
theories/Types.v
theories/Assets.v
theories/EVs.v
theories/Site.v
theories/Constraints.v
theories/Objectives.v
theories/Extract.v
theories/Pipeline.v
theories/Check.v
theories/Lucky.v
theories/SpecOpt.v
theories/Emit.v
theories/Prim.v
theories/Spec.v
theories/SpecSwitch.v
theories/SpecReport.v
theories/SpecRun.v
theories/SpecWithin.v
theories/Layout.v
theories/Rows.v
theories/Sem.v
theories/SemEv.v
theories/SemNear.v
theories/SemSite.v
theories/SemProg.v
theories/SemObj.v
theories/OptFacts.v
theories/PropOpt.v
theories/SemCells.v
theories/SemRows.v
theories/SemTable.v
theories/SemResults.v
theories/RunFacts.v
theories/Builds.v
theories/Complete.v
theories/ExtractOk.v
theories/SpecCost.v
theories/SpecPad.v
theories/Bounded.v
theories/Pad.v
theories/SampleSite.v
theories/PropSite.v
theories/PropEv.v
theories/PropObjective.v
theories/PropAllowed.v
theories/PropBasics.v
theories/SpecNames.v
theories/Totals.v
theories/Totals2.v
theories/Returns.v
theories/RowNames.v
theories/SpecTotals.v
theories/PropResults.v
theories/PropChecks.v
theories/SampleResults.v
theories/SpecTerms.v
theories/SemTerms.v
theories/PropTerms.v
theories/IntervalData.v
theories/Ctors.v
theories/SpecInput.v
theories/PropInput.v
theories/PropCtors.v
theories/SampleCtors.v
theories/Terms.v
theories/SpecDicts.v
theories/PropDicts.v
theories/Accounting.v
theories/SpecAccounts.v
theories/PropAccounts.v
theories/PropAccountRun.v
theories/PropCustom.v
theories/PropAccountFun.v
theories/SampleAccounts.v
theories/DataGen.v
theories/PropDataGen.v
theories/Mono.v
theories/Shift.v
theories/ShiftRun.v
theories/Blind.v
theories/Process.v
theories/PropHistory.v
theories/SampleHistory.v
theories/SpecFunctions.v
theories/SemFun.v
theories/SemFunTerms.v
theories/PropFunctions.v
theories/Certified.v
theories/SampleFunctions.v
theories/SpecColumns.v
theories/Owned.v
theories/Columns.v
theories/PropColumns.v
theories/ConstraintArgs.v
theories/SpecConstraintArgs.v
theories/PropConstraintArgs.v
theories/SpecCompare.v
theories/Compare.v
theories/PropCompare.v
theories/Horizon.v
theories/PropHorizon.v
theories/SampleCompare.v
theories/SpecPossible.v
theories/Standby.v
theories/PropPossible.v
theories/Plain.v
theories/PropWhole.v
theories/SamplePossible.v
theories/PropForesight.v
theories/Plot.v
theories/SpecPlot.v
theories/PropPlot.v
theories/SpecEnergy.v
theories/PropEnergy.v
theories/SpecScale.v
theories/Change.v
theories/PropScale.v
theories/SampleScale.v
theories/SpecMoves.v
theories/Move.v
theories/PropMoves.v
theories/PropTrades.v
theories/Capped.v
theories/SampleMoves.v
theories/SpecReadings.v
theories/SemAll.v
theories/SemBins.v
theories/PropSwitch.v
theories/PropLimits.v
theories/SampleLimits.v
theories/PropBins.v
theories/PropNames.v
theories/SemWithin.v
theories/PropWithin.v
theories/PropDrift.v
theories/PropIgnored.v
theories/PropEfficient.v
theories/PropPrices.v
theories/Logging.v
theories/PropLogging.v
theories/PropPool.v
theories/PropAlone.v
theories/PropDemand.v
theories/PropSolar.v
theories/PropPlotted.v
theories/PropWeigh.v
theories/PropHeat.v
theories/CheckFrames.v
theories/PropFrames.v
theories/PropPicked.v
theories/PropDraws.v
theories/SampleData.v
theories/Audit.v
