-Q theories Verif
theories/Base.v
theories/Spec.v
theories/Prog.v
theories/Comp.v
theories/CompProofs.v
theories/Pipe.v
theories/PipeProofs.v
theories/Ops.v
theories/OpsProofs.v
theories/Ops2Proofs.v
theories/SafeProofs.v
theories/HotProofs.v
theories/Properties1.v
theories/Ops3Proofs.v
theories/Properties2.v
theories/Properties3.v
theories/Merge.v
theories/MergeSpec.v
theories/MergeProofs.v
theories/Merge2Proofs.v
theories/Properties4.v
theories/Switch.v
theories/SwitchProofs.v
theories/Properties5.v
theories/Catch.v
theories/CatchProofs.v
theories/Properties6.v
theories/Time.v
theories/TimeSpec.v
theories/TimeProofs.v
theories/Properties7.v
theories/Debounce.v
theories/DebounceProofs.v
theories/Properties8.v
theories/Source.v
theories/SourceProofs.v
theories/AsyncIter.v
theories/AsyncIterProofs.v
theories/Properties9.v
theories/Subject.v
theories/SubjectProofs.v
theories/Properties10.v
theories/Single.v
theories/SingleProofs.v
theories/Properties11.v
theories/Run.v
theories/RunProofs.v
theories/Properties12.v
theories/Iterate.v
theories/IterateProofs.v
theories/Properties13.v
theories/Loop.v
theories/LoopProofs.v
theories/Properties14.v
theories/Detach.v
theories/DetachProofs.v
theories/Properties15.v
theories/TestObs.v
theories/TestObsProofs.v
theories/Properties16.v
theories/TestSubj.v
theories/TestSubjProofs.v
theories/Properties17.v
theories/IterSubProofs.v
theories/Properties18.v
theories/Cold.v
theories/ColdProofs.v
theories/Properties19.v
theories/ToObs.v
theories/ToObsProofs.v
theories/Properties20.v
theories/Shared.v
theories/SharedProofs.v
theories/Properties21.v
theories/Retry.v
theories/RetryProofs.v
theories/Properties22.v
theories/Slice.v
theories/SliceProofs.v
theories/Properties23.v
theories/TimerProofs.v
theories/Properties24.v
theories/Tree.v
theories/TreeProofs.v
theories/Properties25.v
theories/Notif.v
theories/NotifProofs.v
theories/Properties26.v
theories/Heap.v
theories/HeapProofs.v
theories/HLoopProofs.v
theories/Properties27.v
theories/Later.v
theories/LaterProofs.v
theories/Properties28.v
theories/Overlap.v
theories/OverlapProofs.v
theories/Properties29.v
theories/ColdSwitch.v
theories/ColdSwitchProofs.v
theories/Properties30.v
theories/ColdCatch.v
theories/ColdCatchProofs.v
theories/Properties31.v
theories/SharedAsync.v
theories/SharedAsyncProofs.v
theories/Properties32.v
theories/Threads.v
theories/ThreadsProofs.v
theories/Properties33.v
theories/Hub.v
theories/HubProofs.v
theories/Properties34.v
theories/Laws.v
theories/LawsProofs.v
theories/Properties35.v
theories/HotMapProofs.v
theories/Properties36.v
theories/Consume.v
theories/ConsumeProofs.v
theories/Properties37.v
theories/Effects.v
theories/EffectsProofs.v
theories/Properties38.v
theories/Timed.v
theories/Programs.v
theories/PairProofs.v
theories/TraceProofs.v
theories/SwitchAnyProofs.v
theories/TimedProofs.v
theories/ProgramsProofs.v
theories/Properties39.v
theories/Programs2.v
theories/Programs2Proofs.v
theories/Properties40.v
theories/Programs3.v
theories/Programs3Proofs.v
theories/Properties41.v
theories/Programs4Proofs.v
theories/Properties42.v
theories/Programs5Proofs.v
theories/Properties43.v
theories/Properties44.v
theories/Programs6.v
theories/Programs6Proofs.v
theories/Properties45.v
theories/Programs7.v
theories/Programs7Proofs.v
theories/Properties46.v
theories/Programs8Proofs.v
theories/Properties47.v
theories/Programs9.v
theories/Programs9Proofs.v
theories/Properties48.v
theories/Behind.v
theories/BehindProofs.v
theories/BehindBackProofs.v
theories/Properties49.v
theories/Multicast.v
theories/MulticastProofs.v
theories/Properties50.v
theories/IterProgram.v
theories/IterProgramProofs.v
theories/Properties51.v
theories/Delays.v
theories/DelaysProofs.v
theories/Properties52.v
theories/Variants.v
theories/VariantsProofs.v
theories/Properties53.v
theories/Diamond.v
theories/DiamondProofs.v
theories/Properties54.v
theories/Clocked.v
theories/ClockedProofs.v
theories/Properties55.v
theories/Debounced.v
theories/DebouncedProofs.v
theories/Properties56.v
theories/Reuse.v
theories/ReuseProofs.v
theories/Properties57.v
theories/Sampled.v
theories/SampledProofs.v
theories/Properties58.v
theories/HotSliceProofs.v
theories/Properties59.v
theories/Ticking.v
theories/TickingProofs.v
theories/Properties60.v
