-Q theories Verif
theories/GoType.v
theories/Base.v
theories/GoTypes.v
theories/GvalInd.v
theories/Strconv.v
theories/Tags.v
theories/Scan.v
theories/Decode.v
theories/SliceHead.v
theories/Unmarshal.v
theories/Grammar.v
theories/Denote.v
theories/NumFacts.v
theories/ScanFacts.v
theories/SkipFacts.v
theories/Sound.v
theories/SoundT.v
theories/TextFacts.v
theories/Complete.v
theories/Typing.v
theories/Api.v
theories/CompileFacts.v
theories/Safe.v
theories/UnmFacts.v
theories/StoreFacts.v
theories/Elements.v
theories/Again.v
theories/StructFacts.v
theories/SeqFacts.v
theories/Memory.v
theories/EncCompile.v
theories/Encode.v
theories/Php.v
theories/Repr.v
theories/EncCompileFacts.v
theories/EncTerm.v
theories/NumEnc.v
theories/EncFacts.v
theories/EncSound.v
theories/EncComplete.v
theories/EncApi.v
theories/ReprFacts.v
theories/PhpFacts.v
theories/MarshalFacts.v
theories/Demo.v
theories/DemoEnc.v
theories/RoundTrip.v
theories/RoundTripFacts.v
theories/Props1.v
theories/Props2.v
theories/Props3.v
theories/Props4.v
theories/Props5.v
theories/AnyTrip.v
theories/AnyTripFacts.v
theories/Positions.v
theories/PosFacts.v
theories/MarshalerFacts.v
theories/Props6.v
theories/Cache.v
theories/CacheFacts.v
theories/CacheEnc.v
theories/CacheEncFacts.v
theories/CacheRun.v
theories/Pool.v
theories/PoolFacts.v
theories/Props7.v
theories/Values.v
theories/Jobs.v
theories/JobFacts.v
theories/HaltFacts.v
theories/CalmFacts.v
theories/CycleFacts.v
theories/Props8.v
theories/Alias.v
theories/AliasFacts.v
theories/ShareFacts.v
theories/Slices.v
theories/SliceFacts.v
theories/Props9.v
theories/MemDecode.v
theories/MemSpec.v
theories/MemFacts.v
theories/MemRefine.v
theories/MemFrame.v
theories/MemTerm.v
theories/MemApi.v
theories/Props10.v
theories/DecPool.v
theories/DecPoolFacts.v
theories/Props11.v
theories/Cost.v
theories/CostSpec.v
theories/CostFacts.v
theories/CostBound.v
theories/Props12.v
theories/TagSpec.v
theories/TagFacts.v
theories/Props13.v
theories/Props14.v
theories/IdemFacts.v
theories/Props15.v
theories/EncScript.v
theories/EncScriptFacts.v
theories/Props16.v
theories/Offsets.v
theories/OffsetFacts.v
theories/Props17.v
theories/LocalFacts.v
theories/BufDecode.v
theories/BufFacts.v
theories/Props18.v
theories/Context.v
theories/ShiftFacts.v
theories/ContextFacts.v
theories/Props19.v
theories/NameDecode.v
theories/NameFacts.v
theories/Names.v
theories/NamePlace.v
theories/NameSound.v
theories/Props20.v
theories/Panics.v
theories/PanicFacts.v
theories/Props21.v
theories/Says.v
theories/SayFacts.v
theories/GrowFacts.v
theories/Message.v
theories/Props22.v
theories/PhpKeys.v
theories/PhpKeyFacts.v
theories/Props23.v
theories/MapSpec.v
theories/MapFacts.v
theories/Props24.v
theories/Obstacle.v
theories/ObstacleFacts.v
theories/ObstacleEnds.v
theories/Props25.v
theories/TypeFault.v
theories/TruthFacts.v
theories/Props26.v
theories/Alike.v
theories/AlikeFacts.v
theories/MeaningFacts.v
theories/Settled.v
theories/SettleFacts.v
theories/Props27.v
theories/Wider.v
theories/WiderFacts.v
theories/Props28.v
theories/Mirror.v
theories/MirrorFacts.v
theories/MirrorExact.v
theories/Props29.v
theories/Steps.v
theories/StepsFacts.v
theories/StepsBound.v
theories/Props30.v
theories/FloatText.v
theories/FloatFacts.v
theories/Props31.v
theories/OrderFacts.v
theories/CarryFacts.v
theories/Props32.v
theories/Said.v
theories/Props33.v
theories/Weight.v
theories/Props34.v
theories/Stack.v
theories/StackFacts.v
theories/Props35.v
theories/Props36.v
theories/Props37.v
theories/Reorder.v
theories/ReorderFacts.v
theories/Props38.v
theories/OrderTripFacts.v
theories/Props39.v
theories/Fewer.v
theories/FewerFacts.v
theories/Props40.v
theories/Rename.v
theories/RenameFacts.v
theories/Props41.v
theories/Foreign.v
theories/Props42.v
theories/PhpData.v
theories/Props43.v
theories/QuietFacts.v
theories/SoundValue.v
theories/Levels.v
theories/LevelFacts.v
theories/Props44.v
theories/Props45.v
theories/RepoTests.v
