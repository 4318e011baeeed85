-Q theories Verif
theories/Base.v
theories/Wire.v
theories/GoType.v
theories/Leaf.v
theories/Codec.v
theories/Tag.v
theories/Walker.v
theories/Api.v
theories/Conc.v
theories/SpecConc.v
theories/Resolve.v
theories/SpecWire.v
theories/WireFacts.v
theories/WireProofs.v
theories/PropsWire.v
theories/DecodeFacts.v
theories/GenFacts.v
theories/Typing.v
theories/TypingFacts.v
theories/CodecSim.v
theories/WalkInv.v
theories/WalkSpec.v
theories/WalkFuel.v
theories/WalkSeq.v
theories/ConcFacts.v
theories/EncFacts.v
theories/SpecReject.v
theories/RejectFacts.v
theories/SpecTag.v
theories/TagFacts.v
theories/TagMore.v
theories/PropsTag.v
theories/SpecMsg.v
theories/SpecLib.v
theories/MsgResolve.v
theories/MsgEnc.v
theories/MsgDec.v
theories/MsgRound.v
theories/MsgFit.v
theories/MsgApi.v
theories/ApiFacts.v
theories/ApiTags.v
theories/Sample.v
theories/RefuteApi.v
theories/PropsApi.v
theories/RefuteConc.v
theories/PropsConc.v
theories/MsgMore.v
theories/MsgStep.v
theories/MsgLib.v
theories/MsgThms.v
theories/MsgInt.v
theories/MsgOnly.v
theories/RefuteMsg.v
theories/PropsMsg.v
theories/GenReq.v
theories/GenReqFacts.v
theories/PropsGen.v
theories/ProtoGen.v
theories/SpecProto.v
theories/ProtoFacts.v
theories/ProtoFit.v
theories/ProtoThms.v
theories/PropsProto.v
theories/Order.v
theories/SpecOrder.v
theories/OrderFacts.v
theories/OrderMsg.v
theories/OrderAny.v
theories/OrderThms.v
theories/PropsOrder.v
theories/Alias.v
theories/SpecAlias.v
theories/AliasFacts.v
theories/AliasSim.v
theories/AliasThms.v
theories/PropsAlias.v
theories/Depth.v
theories/SpecDepth.v
theories/DepthFacts.v
theories/PropsDepth.v
theories/AnyWalk.v
theories/SpecAny.v
theories/AnyApi.v
theories/PropsAny.v
theories/SpecClean.v
theories/CleanWalk.v
theories/CleanApi.v
theories/CleanFirst.v
theories/CleanThms.v
theories/PropsClean.v
theories/StructTag.v
theories/SpecStructTag.v
theories/StructTagFacts.v
theories/GenFile.v
theories/SpecGenFile.v
theories/GenFileFacts.v
theories/GenGetter.v
theories/SpecGetter.v
theories/GetterFacts.v
theories/RefutePlugin.v
theories/PropsPlugin.v
theories/GenOpt.v
theories/GenOptFacts.v
theories/PropsOption.v
theories/ErrText.v
theories/SpecErrText.v
theories/ErrTextFacts.v
theories/SpecTrace.v
theories/TraceFacts.v
theories/PropsErr.v
theories/SpecExact.v
theories/TidyFacts.v
theories/ExactThms.v
theories/RepoTests.v
theories/FuzzFacts.v
theories/PropsExact.v
theories/SpecRace.v
theories/RaceFacts.v
theories/RaceThms.v
theories/PropsRace.v
theories/Unsafe.v
theories/SpecUnsafe.v
theories/UnsafeMem.v
theories/UnsafeRep.v
theories/UnsafeLeaf.v
theories/UnsafeEqs.v
theories/UnsafeEnc.v
theories/UnsafeDec.v
theories/UnsafeRel.v
theories/UnsafeBuild.v
theories/UnsafeThms.v
theories/UnsafeSample.v
theories/RefuteUnsafe.v
theories/SpecTyped.v
theories/TypedFacts.v
theories/TypedDec.v
theories/TypedEnc.v
theories/TypedTree.v
theories/TypedThms.v
theories/TypedSample.v
theories/PropsUnsafe.v
theories/PropsTyped.v
theories/GenText.v
theories/SpecText.v
theories/TextFacts.v
theories/TextThms.v
theories/TextDoc.v
theories/TextSample.v
theories/PropsText.v
theories/GenDesc.v
theories/SpecGo.v
theories/SpecDesc.v
theories/GoFacts.v
theories/GoText.v
theories/GoParse.v
theories/GoThms.v
theories/GoSample.v
theories/PropsGo.v
theories/Tracked.v
theories/SpecTracked.v
theories/TrackedFacts.v
theories/PropsTracked.v
theories/SpecDecl.v
theories/SpecMethods.v
theories/DeclFacts.v
theories/DeclText.v
theories/DeclThms.v
theories/DeclSample.v
theories/PropsDecl.v
theories/SpecProgram.v
theories/ProgramFacts.v
theories/PropsProgram.v
theories/SpecOut.v
theories/OutFacts.v
theories/OutThms.v
theories/OutSample.v
theories/PropsOut.v
theories/SpecIn.v
theories/InFacts.v
theories/InThms.v
theories/PropsIn.v
theories/AnyProgram.v
theories/PropsAnyProgram.v
theories/SpecZig.v
theories/ZigWalk.v
theories/ZigApi.v
theories/ZigThms.v
theories/ZigRound.v
theories/ZigSample.v
theories/PropsZig.v
theories/ArgText.v
theories/SpecArgText.v
theories/ArgTextFacts.v
theories/PropsArg.v
theories/Run.v
theories/SpecRun.v
theories/RunFacts.v
theories/PropsRun.v
theories/SpecThreads.v
theories/ThreadThms.v
theories/PropsThreads.v
theories/PanicText.v
theories/SpecPanic.v
theories/PanicFacts.v
theories/PropsPanic.v
theories/SpecCost.v
theories/Cost.v
theories/CostFacts.v
theories/RefuteCost.v
theories/PropsCost.v
theories/Calls.v
theories/CostWork.v
theories/CallFacts.v
theories/RefuteCalls.v
theories/PropsCalls.v
theories/SpecFirst.v
theories/First.v
theories/FirstFacts.v
theories/FirstConc.v
theories/RefuteFirst.v
theories/PropsFirst.v
theories/SpecVersions.v
theories/MsgVersions.v
theories/VersionThms.v
theories/RefuteVersions.v
theories/PropsVersions.v
theories/SpecRecords.v
theories/RecordFacts.v
theories/RefuteRecords.v
theories/PropsRecords.v
theories/SpecFailed.v
theories/FailedThms.v
theories/PropsFailed.v
theories/SpecJoin.v
theories/MsgJoin.v
theories/JoinThms.v
theories/PropsJoin.v
theories/SpecAbsorb.v
theories/MsgAbsorb.v
theories/AbsorbThms.v
theories/PropsAbsorb.v
theories/SpecLeft.v
theories/LeftThms.v
theories/LeftSample.v
theories/LeftProgram.v
theories/PropsLeft.v
theories/SpecEvolve.v
theories/EvolveThms.v
theories/EvolveSample.v
theories/PropsEvolve.v
theories/SpecTight.v
theories/TightThms.v
theories/TightOpt.v
theories/TightList.v
theories/PropsTight.v
theories/SpecRelay.v
theories/RelayThms.v
theories/RelaySample.v
theories/PropsRelay.v
