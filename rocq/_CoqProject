-Q theories Verif
theories/Base.v
theories/BaseFacts.v
theories/Column.v
theories/ColumnFacts.v
theories/ColumnHist.v
theories/ColumnHistFacts.v
theories/PropsColumn.v
theories/Order.v
theories/RowRange.v
theories/RowRangeFacts.v
theories/RangeProps.v
theories/PropsRange.v
theories/Table.v
theories/Visit.v
theories/SortedTab.v
theories/BagTab.v
theories/TableSpec.v
theories/TableFacts.v
theories/VisitFacts.v
theories/SortedFacts.v
theories/BagFacts.v
theories/Hist.v
theories/HistFacts.v
theories/TableProps.v
theories/Cases.v
theories/UndefSpec.v
theories/UndefFacts.v
theories/WithDeleted.v
theories/PropsTable.v
theories/RowProps.v
theories/PropsRows.v
theories/Events.v
theories/Cascade.v
theories/CascadeSpec.v
theories/CascadeFacts.v
theories/CascadeCalls.v
theories/CascadeProps.v
theories/CascadeLog.v
theories/CascadeClear.v
theories/CascadeCases.v
theories/PropsCascade.v
theories/EventFacts.v
theories/AnySlice.v
theories/AnySliceFacts.v
theories/PropsEvents.v
theories/Context.v
theories/ContextSpec.v
theories/ContextFacts.v
theories/PropsContext.v
theories/Names.v
theories/NamesFacts.v
theories/Extract.v
theories/ExtractSpec.v
theories/ExtractFacts.v
theories/RestoreFacts.v
theories/ExtractProps.v
theories/LeakFacts.v
theories/ExtractCases.v
theories/PropsExtract.v
theories/Registry.v
theories/RegistrySpec.v
theories/RegistryFacts.v
theories/RegistryProps.v
theories/RegistryInit.v
theories/RegistryMore.v
theories/RegistryCases.v
theories/Libs.v
theories/LibsSpec.v
theories/LibsFacts.v
theories/PropsLibs.v
theories/PropsRegistry.v
theories/RegisterSpec.v
theories/RegisterFacts.v
theories/PropsRegister.v
theories/Reopen.v
theories/ReopenSpec.v
theories/ReopenFacts.v
theories/ReopenProps.v
theories/PropsReopen.v
theories/About.v
theories/AboutSpec.v
theories/AboutFacts.v
theories/PropsAbout.v
theories/ImportSpec.v
theories/ImportFacts.v
theories/ImportCases.v
theories/PropsImport.v
theories/LifeSpec.v
theories/LifeFacts.v
theories/LifeCases.v
theories/PropsLife.v
theories/RepushSpec.v
theories/RepushFacts.v
theories/RepushCases.v
theories/PropsRepush.v
theories/LiveSpec.v
theories/LiveFacts.v
theories/LiveCases.v
theories/PropsLive.v
theories/ClearSpec.v
theories/ClearFacts.v
theories/ClearCases.v
theories/PropsClear.v
theories/MixSpec.v
theories/MixFacts.v
theories/MixCases.v
theories/PropsMix.v
theories/PropsSince.v
theories/UndoSpec.v
theories/UndoFacts.v
theories/UndoCases.v
theories/PropsUndo.v
theories/Unwind.v
theories/UnwindSpec.v
theories/UnwindFacts.v
theories/UnwindSafe.v
theories/UnwindUb.v
theories/UnwindAgree.v
theories/UnwindRows.v
theories/UnwindMerge.v
theories/UnwindFlush.v
theories/Schema.v
theories/SchemaSpec.v
theories/SchemaFacts.v
theories/Parts.v
theories/PartFacts.v
theories/PropsSchema.v
theories/Race.v
theories/RaceSpec.v
theories/RaceFacts.v
theories/PropsRace.v
theories/UnwindCases.v
theories/PropsUnwind.v
theories/PropsUnwindRows.v
theories/Threads.v
theories/ThreadSpec.v
theories/ThreadSeq.v
theories/ThreadFacts.v
theories/ThreadSafe.v
theories/ThreadReads.v
theories/ThreadVal.v
theories/ThreadCases.v
theories/PropsThreads.v
theories/PropsThreadSafe.v
theories/PropsThreadReads.v
theories/Poison.v
theories/PoisonSpec.v
theories/PoisonFacts.v
theories/PoisonCases.v
theories/PropsPoison.v
theories/ThreadSorted.v
theories/PropsThreadSorted.v
theories/ThreadSerial.v
theories/PropsThreadSerial.v
theories/ThreadApart.v
theories/PropsThreadApart.v
theories/IntegritySpec.v
theories/IntegrityFacts.v
theories/IntegrityCases.v
theories/PropsIntegrity.v
theories/BlameSpec.v
theories/BlameFacts.v
theories/BlameCases.v
theories/PropsBlame.v
theories/SpoilFacts.v
theories/PropsSpoil.v
theories/MirrorSpec.v
theories/MirrorFacts.v
theories/MirrorCases.v
theories/PropsMirror.v
theories/LimitsSpec.v
theories/LimitsFacts.v
theories/PropsLimits.v
theories/Answers.v
theories/SkipSpec.v
theories/SkipFacts.v
theories/PropsSkip.v
theories/PlainSpec.v
theories/FullFacts.v
theories/PlainFacts.v
theories/PropsPlain.v
theories/DbHist.v
theories/Acting.v
theories/ActingSpec.v
theories/ActingFacts.v
theories/ActingTold.v
theories/ActingCases.v
theories/PropsActing.v
theories/Abort.v
theories/AbortSpec.v
theories/AbortFacts.v
theories/AbortCases.v
theories/PropsAbort.v
theories/DbSpec.v
theories/DbFacts.v
theories/DbSaid.v
theories/PropsDb.v
theories/StableSpec.v
theories/StableFacts.v
theories/StableCases.v
theories/PropsStable.v
theories/AlikeSpec.v
theories/AlikeFacts.v
theories/PropsAlike.v
theories/Output.v
theories/OutputSpec.v
theories/OutputFacts.v
theories/PropsOutput.v
theories/FullSpec.v
theories/FullProps.v
theories/PropsFull.v
theories/Invalid.v
theories/InvalidSpec.v
theories/InvalidFacts.v
theories/InvalidCases.v
theories/PropsInvalid.v
theories/BackupSpec.v
theories/BackupFacts.v
theories/BackupCases.v
theories/PropsBackup.v
theories/ContextUnwind.v
theories/ContextUnwindSpec.v
theories/ContextUnwindFacts.v
theories/PropsContextUnwind.v
theories/BagLoan.v
theories/BagLoanSpec.v
theories/BagLoanFacts.v
theories/ColLoan.v
theories/ColLoanSpec.v
theories/ColLoanFacts.v
theories/PropsLoan.v
theories/Hints.v
theories/HintsSpec.v
theories/HintsFacts.v
theories/PropsHint.v
theories/PropThreads.v
theories/PropThreadsSpec.v
theories/PropThreadsFacts.v
theories/PropsStatic.v
theories/StableThreadSpec.v
theories/StableThreads.v
theories/StableThreadCases.v
theories/PropsStableThreads.v
theories/RawIds.v
theories/RawIdsSpec.v
theories/RawIdsFacts.v
theories/PropsRawIds.v
theories/Selects.v
theories/SelectsSpec.v
theories/SelectsFacts.v
theories/PropsSelect.v
theories/CaughtSpec.v
theories/CaughtFacts.v
theories/CaughtCases.v
theories/PropsCaught.v
theories/IndexedSpec.v
theories/IndexedFacts.v
theories/PropsIndexed.v
theories/OrdPanicSpec.v
theories/OrdPanicFacts.v
theories/PropsOrdPanic.v
theories/BatchSpec.v
theories/BatchFacts.v
theories/BatchCases.v
theories/PropsBatch.v
theories/WatchSpec.v
theories/WatchFacts.v
theories/PropsWatch.v
theories/DepthFacts.v
theories/PropsDepth.v
theories/LayerSpec.v
theories/LayerFacts.v
theories/PropsLayer.v
theories/BuildFacts.v
theories/PropsBuild.v
theories/ApartSpec.v
theories/ApartFacts.v
theories/PropsApart.v
theories/CutSpec.v
theories/CutFacts.v
theories/CutMore.v
theories/PropsCut.v
theories/ChooseSpec.v
theories/ChooseFacts.v
theories/PropsChoose.v
theories/WiderSpec.v
theories/WiderFacts.v
theories/PropsWider.v
theories/KindSpec.v
theories/KindFacts.v
theories/PropsKind.v
theories/RenameSpec.v
theories/RenameFacts.v
theories/PropsRename.v
theories/AnyBuild.v
theories/PropsAnyBuild.v
theories/ViewSpec.v
theories/ViewFacts.v
theories/PropsView.v
theories/PlaceSpec.v
theories/PlaceFacts.v
theories/PropsPlace.v
theories/ActBuildFacts.v
theories/PropsActBuild.v
theories/PlaceActSpec.v
theories/PlaceActFacts.v
theories/PropsPlaceAct.v
theories/ThreadBuildSpec.v
theories/ThreadBuildFacts.v
theories/CrowdBuildFacts.v
theories/PropsThreadBuild.v
theories/PlaceXSpec.v
theories/PlaceXFacts.v
theories/PropsPlaceX.v
theories/PlaceThreadSpec.v
theories/PlaceThreadFacts.v
theories/PropsPlaceThread.v
