-Q theories Verif
theories/Model/Bytes.v
theories/Model/Go.v
theories/Model/Keys.v
theories/Spec/KeySpec.v
theories/Proofs/BytesFacts.v
theories/Proofs/KeysFacts.v
theories/Proofs/KeysProps.v
theories/Props/Keys.v
theories/Model/Pebble.v
theories/Model/Index.v
theories/Model/Table.v
theories/Model/Scan.v
theories/Spec/StoreSpec.v
theories/Spec/TableSpec.v
theories/Spec/HistSpec.v
theories/Spec/RepeatSpec.v
theories/Spec/RowsSpec.v
theories/Spec/ScanSpec.v
theories/Proofs/PebbleFacts.v
theories/Proofs/TableFacts.v
theories/Proofs/WriteFacts.v
theories/Proofs/UpdateFacts.v
theories/Proofs/UpsertFacts.v
theories/Proofs/CallFacts.v
theories/Proofs/Witness.v
theories/Proofs/LocalFacts.v
theories/Proofs/ErrFacts.v
theories/Proofs/ReadFacts.v
theories/Proofs/HistFacts.v
theories/Proofs/AnyDelete.v
theories/Proofs/Repeats.v
theories/Proofs/FilterSim.v
theories/Proofs/BugFacts.v
theories/Proofs/FoldFacts.v
theories/Proofs/UpsertAll.v
theories/Proofs/AnyHist.v
theories/Proofs/UpsertKeep.v
theories/Proofs/UnsafeFacts.v
theories/Proofs/RowSim.v
theories/Proofs/TableProps.v
theories/Proofs/TableBugs.v
theories/Proofs/IterFacts.v
theories/Proofs/ScanFacts.v
theories/Proofs/ScanOffer.v
theories/Proofs/ScanRows.v
theories/Proofs/ScanProps.v
theories/Proofs/ScanBugs.v
theories/Proofs/RepeatBugs.v
theories/Proofs/ScanTop.v
theories/Proofs/ScanAll.v
theories/Props/Table.v
theories/Props/Repeat.v
theories/Spec/SoundSpec.v
theories/Spec/PartSpec.v
theories/Proofs/SoundReads.v
theories/Proofs/SoundQuery.v
theories/Proofs/RowsOnly.v
theories/Proofs/SoundBugs.v
theories/Proofs/BatchPart.v
theories/Proofs/BatchPartBugs.v
theories/Props/AnyHist.v
theories/Props/SoundReads.v
theories/Props/BatchPart.v
theories/Props/Answers.v
theories/Props/Scan.v
theories/Model/LiveScan.v
theories/Model/Query.v
theories/Spec/QuerySpec.v
theories/Spec/AfterSpec.v
theories/Spec/PagingSpec.v
theories/Spec/LiveScanSpec.v
theories/Proofs/QueryFacts.v
theories/Proofs/QueryProps.v
theories/Proofs/PagingFacts.v
theories/Proofs/LiveFacts.v
theories/Proofs/InterFacts.v
theories/Proofs/QueryBugs.v
theories/Props/Query.v
theories/Props/ScanAll.v
theories/Props/Paging.v
theories/Props/LiveScan.v
theories/Model/Sequence.v
theories/Model/Batch.v
theories/Spec/BatchSpec.v
theories/Spec/SequenceSpec.v
theories/Proofs/BatchFacts.v
theories/Proofs/BatchIds.v
theories/Proofs/BatchAll.v
theories/Proofs/BatchBugs.v
theories/Proofs/SequenceFacts.v
theories/Props/Batch.v
theories/Model/Cond.v
theories/Spec/CondSpec.v
theories/Proofs/CondFacts.v
theories/Model/Pool.v
theories/Proofs/PoolFacts.v
theories/Model/Serial.v
theories/Spec/SerialSpec.v
theories/Proofs/SerialFacts.v
theories/Model/Sync.v
theories/Spec/SyncSpec.v
theories/Proofs/SyncFacts.v
theories/Props/Util.v
theories/Model/AnyScan.v
theories/Proofs/AnyFacts.v
theories/Props/AnyScan.v
theories/Model/Bloom.v
theories/Model/FSStore.v
theories/Model/BloomRace.v
theories/Spec/BloomSpec.v
theories/Proofs/BloomFacts.v
theories/Proofs/FilterFacts.v
theories/Proofs/FSFacts.v
theories/Proofs/RaceFacts.v
theories/Proofs/TwoFilters.v
theories/Proofs/FilterBugs.v
theories/Props/Filter.v
theories/Model/Slices.v
theories/Spec/SliceSpec.v
theories/Proofs/SliceFacts.v
theories/Props/Slices.v
theories/Model/ReIndex.v
theories/Spec/ReIndexSpec.v
theories/Spec/MovedSpec.v
theories/Spec/OffsetSpec.v
theories/Spec/ChoiceSpec.v
theories/Spec/PushSpec.v
theories/Spec/PartsSpec.v
theories/Proofs/ReIndexFacts.v
theories/Proofs/ReIndexBugs.v
theories/Props/ReIndex.v
theories/Model/LiveReIndex.v
theories/Spec/LiveReIndexSpec.v
theories/Proofs/LiveReIndexFacts.v
theories/Proofs/LiveInserts.v
theories/Proofs/LiveReIndexBugs.v
theories/Props/LiveReIndex.v
theories/Model/Backup.v
theories/Spec/BackupSpec.v
theories/Proofs/BackupFacts.v
theories/Proofs/RestoreFacts.v
theories/Proofs/BackupBugs.v
theories/Props/Backup.v
theories/Model/Version.v
theories/Spec/VersionSpec.v
theories/Proofs/VersionFacts.v
theories/Props/Version.v
theories/Model/Concur.v
theories/Spec/ConcurSpec.v
theories/Proofs/ConcurFacts.v
theories/Proofs/ConcurRows.v
theories/Proofs/ConcurUpsert.v
theories/Proofs/ConcurBugs.v
theories/Proofs/PagingBugs.v
theories/Proofs/LiveBugs.v
theories/Model/LiveInter.v
theories/Spec/LiveInterSpec.v
theories/Proofs/LiveIter.v
theories/Proofs/LiveInterFacts.v
theories/Proofs/LiveInterBugs.v
theories/Model/Context.v
theories/Spec/ContextSpec.v
theories/Proofs/ContextFacts.v
theories/Proofs/ContextBugs.v
theories/Model/LiveQuery.v
theories/Spec/LiveQuerySpec.v
theories/Proofs/LiveQueryFacts.v
theories/Proofs/LiveQueryBugs.v
theories/Props/Concur.v
theories/Model/LiveFilter.v
theories/Proofs/LiveFilterFacts.v
theories/Proofs/LiveFilterBugs.v
theories/Props/LiveFilter.v
theories/Model/Crash.v
theories/Spec/CrashSpec.v
theories/Proofs/CrashFacts.v
theories/Proofs/CrashCase.v
theories/Props/Crash.v
theories/Model/Inspect.v
theories/Spec/InspectSpec.v
theories/Proofs/InspectFacts.v
theories/Proofs/InspectProps.v
theories/Proofs/InspectRemote.v
theories/Proofs/InspectBugs.v
theories/Spec/RoundSpec.v
theories/Proofs/RoundFacts.v
theories/Props/Inspect.v
theories/Model/Resource.v
theories/Model/Mem.v
theories/Spec/ResourceSpec.v
theories/Model/MemScan.v
theories/Model/MemQuery.v
theories/Model/MemInter.v
theories/Spec/MemSpec.v
theories/Spec/MemScanSpec.v
theories/Spec/SystemSpec.v
theories/Proofs/ResourceFacts.v
theories/Proofs/ResourceBugs.v
theories/Proofs/ResourceProps.v
theories/Props/Resource.v
theories/Proofs/MemFacts.v
theories/Proofs/MemCalls.v
theories/Proofs/MemWitness.v
theories/Proofs/MemBounds.v
theories/Proofs/MemScanFacts.v
theories/Proofs/MemQueryFacts.v
theories/Proofs/MemInterFacts.v
theories/Proofs/MemScanWitness.v
theories/Props/Mem.v
theories/Props/MemScan.v
theories/Proofs/SystemFacts.v
theories/Proofs/SystemWitness.v
theories/Props/System.v
theories/Model/DumpSteps.v
theories/Proofs/DumpStepsFacts.v
theories/Proofs/DumpKeeps.v
theories/Proofs/DumpStepsBugs.v
theories/Props/DumpSteps.v
theories/Spec/BatchesSpec.v
theories/Proofs/BatchesFacts.v
theories/Proofs/BatchesWitness.v
theories/Props/Batches.v
theories/Model/Remote.v
theories/Spec/RemoteSpec.v
theories/Proofs/RemoteFacts.v
theories/Proofs/RemoteWitness.v
theories/Props/Remote.v
theories/Model/Cli.v
theories/Spec/CliSpec.v
theories/Proofs/CliFacts.v
theories/Proofs/CliWitness.v
theories/Props/Cli.v
theories/Spec/LifeSpec.v
theories/Proofs/LifeFacts.v
theories/Proofs/LifeWitness.v
theories/Props/Life.v
theories/Props/LiveInter.v
theories/Props/LiveQuery.v
theories/Props/Context.v
theories/Proofs/AfterFacts.v
theories/Props/After.v
theories/Proofs/WriteOnlyFacts.v
theories/Props/WriteOnly.v
theories/Spec/WireSpec.v
theories/Spec/LooseSpec.v
theories/Spec/Base64Spec.v
theories/Proofs/WireFacts.v
theories/Proofs/WireWitness.v
theories/Proofs/LooseFacts.v
theories/Proofs/LooseWitness.v
theories/Proofs/Base64Facts.v
theories/Props/Wire.v
theories/Model/Iter.v
theories/Spec/IterSpec.v
theories/Proofs/IterApi.v
theories/Props/Iter.v
theories/Model/Faults.v
theories/Spec/FaultSpec.v
theories/Proofs/FaultScan.v
theories/Proofs/FaultWrite.v
theories/Proofs/FaultNone.v
theories/Proofs/FaultTop.v
theories/Proofs/FaultBugs.v
theories/Props/Faults.v
theories/Model/FaultQuery.v
theories/Model/FilterLife.v
theories/Proofs/FaultQueryFacts.v
theories/Proofs/FaultQueryBugs.v
theories/Spec/FilterLifeSpec.v
theories/Proofs/FilterLifeFacts.v
theories/Props/FaultQueries.v
theories/Props/FilterLife.v
theories/Spec/FSSpec.v
theories/Proofs/FSNames.v
theories/Props/FSNames.v
theories/Spec/SplitSpec.v
theories/Proofs/SplitFacts.v
theories/Proofs/SplitBugs.v
theories/Props/Split.v
theories/Model/SeekPrefix.v
theories/Proofs/SeekPrefixFacts.v
theories/Props/SeekPrefix.v
theories/Model/FilterMem.v
theories/Spec/FilterMemSpec.v
theories/Proofs/FilterMemFacts.v
theories/Proofs/FilterMemBugs.v
theories/Props/FilterMem.v
theories/Spec/RetrySpec.v
theories/Proofs/RetryFacts.v
theories/Proofs/RetryAmong.v
theories/Proofs/RetryBugs.v
theories/Props/Retry.v
theories/Spec/LawSpec.v
theories/Proofs/LawFacts.v
theories/Proofs/LawMany.v
theories/Proofs/LawBugs.v
theories/Props/Laws.v
theories/Model/Closing.v
theories/Spec/ClosingSpec.v
theories/Proofs/ClosingFacts.v
theories/Props/Closing.v
theories/Proofs/TraceFacts.v
theories/Proofs/TraceBugs.v
theories/Proofs/TraceIndex.v
theories/Proofs/MovedFacts.v
theories/Proofs/MovedBugs.v
theories/Proofs/OffsetFacts.v
theories/Proofs/OffsetInter.v
theories/Proofs/TraceLaws.v
theories/Proofs/ChoiceFacts.v
theories/Proofs/ChoiceBugs.v
theories/Proofs/PushFacts.v
theories/Proofs/PushBugs.v
theories/Proofs/PartsFacts.v
theories/Proofs/PartsBugs.v
theories/Props/Trace.v
theories/Props/Moved.v
theories/Props/Offset.v
theories/Props/Stand.v
theories/Props/Choice.v
theories/Props/Push.v
theories/Props/Parts.v
