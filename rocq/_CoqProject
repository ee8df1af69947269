-Q theories Verif
theories/Base.v
theories/Spec.v
theories/ModelOrdinal.v
theories/ModelValues.v
theories/ModelArrayBuilder.v
theories/ModelDerive.v
theories/ModelSite.v
theories/SpecDerive.v
theories/BaseProofs.v
theories/OrdinalProofs.v
theories/ArrayProofs.v
theories/SpecMem.v
theories/MemProofs.v
theories/DeriveProofs.v
theories/DeriveProofs2.v
theories/DeriveProofs3.v
theories/OrdinalProofs2.v
theories/PropOrdinal.v
theories/PropDerive.v
theories/IterLib.v
theories/ValuesProofs.v
theories/PropValues.v
theories/ModelIter.v
theories/ModelTotal.v
theories/ModelMap.v
theories/SpecMap.v
theories/SpecTotal.v
theories/MapMachine.v
theories/IterProofs.v
theories/MapLib.v
theories/MapIterProofs.v
theories/MapMutProofs.v
theories/MapProofs.v
theories/SpecIter.v
theories/SpecApi.v
theories/TotalMachine.v
theories/TotalProofs.v
theories/MapProofs2.v
theories/MapProofs3.v
theories/MapProofs4.v
theories/MapProofs5.v
theories/MapWitness.v
theories/PropMap.v
theories/TotalProofs2.v
theories/TotalProofs3.v
theories/PropTotal.v
theories/PropMem.v
theories/SpecAtomic.v
theories/ModelAtomic.v
theories/AtomicProofs.v
theories/PropAtomic.v
theories/ModelSet.v
theories/SpecSet.v
theories/SetMachine.v
theories/BitProofs.v
theories/SetProofs.v
theories/SetProofs2.v
theories/PropSet.v
theories/SpecUniverse.v
theories/ModelUniverse.v
theories/UniverseProofs.v
theories/UniverseProofs2.v
theories/UniverseProofs3.v
theories/UniverseProofs4.v
theories/UniverseProofs5.v
theories/UniverseProofs6.v
theories/UniverseProofs7.v
theories/PropUniverse.v
theories/ExactProofs.v
theories/PropExact.v
theories/SpecSafety.v
theories/SafetyProofs.v
theories/SafetyProofs2.v
theories/SafetyProofs3.v
theories/SafetyProofs4.v
theories/PropSafety.v
theories/ModelStd.v
theories/SpecStd.v
theories/StdProofs.v
theories/SpecValues.v
theories/ValuesProofs2.v
theories/StdProofs2.v
theories/PropStd.v
theories/SpecCompat.v
theories/CompatProofs.v
theories/PropCompat.v
theories/SpecRound.v
theories/RoundProofs.v
theories/PropRound.v
theories/SpecSite.v
theories/SiteProofs.v
theories/PropSite.v
theories/SpecFold.v
theories/FoldProofs.v
theories/PropFold.v
theories/SpecExpand.v
theories/ExpandProofs.v
theories/PropExpand.v
theories/SetAllocProofs.v
theories/PropSetAlloc.v
theories/SortedProofs.v
theories/PropSorted.v
theories/ModelDrop.v
theories/SpecDrop.v
theories/DropProofs.v
theories/PropDrop.v
theories/ModelMono.v
theories/SpecMono.v
theories/MonoProofs.v
theories/PropMono.v
theories/SpecResume.v
theories/ModelResume.v
theories/ResumeProofs.v
theories/ResumeCases.v
theories/PropResume.v
theories/ModelUse.v
theories/SpecUse.v
theories/UseProofs.v
theories/UseProofs2.v
theories/UseProofs3.v
theories/AtomicProofs2.v
theories/UseProofs4.v
theories/UseProofs5.v
theories/PropUse.v
theories/ModelUnwind.v
theories/SpecUnwind.v
theories/UnwindProofs.v
theories/UnwindProofs2.v
theories/PropUnwind.v
theories/ModelNominal.v
theories/SpecNominal.v
theories/NominalProofs.v
theories/PropNominal.v
theories/ModelCalls.v
theories/SpecCalls.v
theories/CallsProofs1.v
theories/CallsProofs2.v
theories/CallsProofs3.v
theories/CallsProofs4.v
theories/CallsProofs5.v
theories/CallsProofs6.v
theories/CallsProofs7.v
theories/CallsProofs8.v
theories/CallsProofs9.v
theories/CallsProofs10.v
theories/CallsProofs11.v
theories/PropCalls.v
theories/ModelTests.v
theories/SpecTests.v
theories/TestsProofs1.v
theories/TestsProofs2.v
theories/TestsProofs3.v
theories/TestsProofs4.v
theories/PropTests.v
theories/PropPartial.v
theories/SpecGraph.v
theories/ModelGraph.v
theories/GraphProofs.v
theories/PropGraph.v
theories/SpecFmt.v
theories/ModelFmt.v
theories/FmtProofs.v
theories/FmtProofs2.v
theories/PropFmt.v
theories/ModelClone.v
theories/SpecClone.v
theories/CloneProofs.v
theories/PropClone.v
theories/ModelCost.v
theories/SpecCost.v
theories/CostProofs.v
theories/CostProofs2.v
theories/CostProofs3.v
theories/PropCost.v
theories/SpecCatch.v
theories/ModelCatch.v
theories/CatchProofs.v
theories/CatchProofs2.v
theories/CatchProofs3.v
theories/CatchProofs4.v
theories/CatchProofs5.v
theories/PropCatch.v
theories/SpecOverride.v
theories/ModelOverride.v
theories/OverrideProofs.v
theories/OverrideProofs2.v
theories/PropOverride.v
theories/SpecAlloc.v
theories/ModelAlloc.v
theories/AllocProofs.v
theories/AllocProofs2.v
theories/AllocProofs3.v
theories/AllocProofs4.v
theories/PropAlloc.v
theories/SpecTarget.v
theories/TargetProofs.v
theories/TargetProofs2.v
theories/TargetProofs3.v
theories/PropTarget.v
theories/SpecSource.v
theories/SourceProofs.v
theories/PropSource.v
theories/SpecLedger.v
theories/LedgerProofs.v
theories/LedgerProofs2.v
theories/LedgerProofs3.v
theories/PropLedger.v
theories/ModelType.v
theories/SpecType.v
theories/TypeProofs.v
theories/PropType.v
theories/BuildProofs.v
theories/BuildProofs2.v
theories/BuildProofs3.v
theories/SpecBuild.v
theories/BuildProofs4.v
theories/PropBuild.v
theories/ModelLife.v
theories/SpecLife.v
theories/LifeProofs.v
theories/LifeProofs2.v
theories/LifeProofs3.v
theories/LifeProofs4.v
theories/PropLife.v
theories/SpecLifeRun.v
theories/LifeProofs5.v
theories/PropLifeRun.v
theories/SpecLifeEnds.v
theories/LifeProofs6.v
theories/LifeProofs7.v
theories/PropLifeEnds.v
theories/SpecKeyLife.v
theories/ModelKeyLife.v
theories/KeyLifeProofs.v
theories/KeyLifeProofs2.v
theories/KeyLifeProofs3.v
theories/KeyLifeProofs4.v
theories/KeyLifeProofs5.v
theories/PropKeyLife.v
theories/SpecAtomicAny.v
theories/AtomicProofs3.v
theories/PropAtomicAny.v
theories/SpecSetLife.v
theories/ModelSetLife.v
theories/SetLifeProofs.v
theories/SetLifeProofs2.v
theories/SetLifeProofs3.v
theories/PropSetLife.v
theories/SpecKeyEnds.v
theories/ModelKeyEnds.v
theories/KeyEndsProofs.v
theories/KeyEndsProofs2.v
theories/PropKeyEnds.v
theories/SpecKeyMake.v
theories/ModelKeyMake.v
theories/KeyMakeProofs.v
theories/PropKeyMake.v
theories/SpecAtomicLife.v
theories/ModelAtomicLife.v
theories/AtomicLifeProofs.v
theories/PropAtomicLife.v
theories/SpecDeriveLife.v
theories/ModelDeriveLife.v
theories/DeriveLifeProofs.v
theories/PropDeriveLife.v
theories/SpecArrayLife.v
theories/ModelArrayLife.v
theories/ArrayLifeProofs.v
theories/PropArrayLife.v
theories/SpecPartsLife.v
theories/ModelPartsLife.v
theories/PartsLifeProofs.v
theories/PropPartsLife.v
