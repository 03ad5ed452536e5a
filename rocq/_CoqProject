-Q theories Verif

theories/Base.v
theories/Spec.v
theories/Lex.v
theories/Alloc.v
theories/Mem.v
theories/Api.v
theories/LexProofs.v
theories/PureParse.v
theories/SpecProofs.v
theories/AllocProofs.v
theories/MemProofs.v
theories/Dom.v
theories/Steps.v
theories/StrBuf.v
theories/StringifyProofs.v
theories/ParseProofs.v
theories/ParseTop.v
theories/Effect.v
theories/CacheProofs.v
theories/SetProofs.v
theories/Update.v
theories/KeyProofs.v
theories/GetProofs.v
theories/CopyProofs.v
theories/LinkProofs.v
theories/MoveProofs.v
theories/IntProofs.v
theories/EscProofs.v
theories/Vocab.v
theories/ParseFacts.v
theories/OverRead.v
theories/PrintFacts.v
theories/Start.v
theories/Scene.v
theories/PropParse.v
theories/ReadFacts.v
theories/LongExact.v
theories/PropRead.v
theories/BuildFacts.v
theories/PropPrint.v
theories/SetFacts.v
theories/SetOnly.v
theories/PropSet.v
theories/TreeFacts.v
theories/TreeScene.v
theories/LinkExact.v
theories/PropTree.v
theories/PropLink.v
theories/MemFacts.v
theories/ArenaExact.v
theories/Config.v
theories/PropMem.v
theories/PropConfig.v
theories/Cpp.v
theories/PropCpp.v
theories/Double.v
theories/DoubleProofs.v
theories/DoubleFacts.v
theories/DoubleExact.v
theories/ParseEnds.v
theories/PropDouble.v
theories/Hist.v
theories/HistRun.v
theories/HistForest.v
theories/HistSim.v
theories/HistStep.v
theories/HistAll.v
theories/HistJudge.v
theories/HistCache.v
theories/HistMany.v
theories/HistWorld.v
theories/HistValid.v
theories/HistTree.v
theories/HistDocs.v
theories/HistCover.v
theories/HistCoverMany.v
theories/PropHist.v
theories/Leak.v
theories/PropLeak.v
theories/Count.v
theories/PropCount.v
theories/Budget.v
theories/Hpp.v
theories/HppAll.v
theories/PropHpp.v
theories/Frame.v
theories/FrameRun.v
theories/PropFrame.v
theories/Footprint.v
theories/PropMemory.v
theories/Work.v
theories/Client.v
theories/Sample.v
theories/SampleRun.v
theories/PropWork.v
theories/PropClient.v
theories/Beta.v
theories/BetaProofs.v
theories/BetaCalls.v
theories/BetaHist.v
theories/BetaStep.v
theories/BetaSim.v
theories/BetaFacts.v
theories/BetaCurrent.v
theories/BetaPlain.v
theories/BetaDocs.v
theories/BetaAgree.v
theories/BetaScene.v
theories/PropBeta.v
theories/PropBeta2.v
theories/BetaLeak.v
theories/BetaCount.v
theories/BetaWorld.v
theories/BetaWorld2.v
theories/PropBeta3.v
theories/BetaFrame.v
theories/BetaWork.v
theories/PropBeta4.v
theories/BetaClient.v
theories/PropBeta5.v
theories/Keep.v
theories/PropKeep.v
theories/KeepWorld.v
theories/KeepCover.v
theories/PropKeep2.v
theories/BetaCover.v
theories/BetaCoverMany.v
theories/PropBeta6.v
theories/BetaKeepWorld.v
theories/BetaKeepCover.v
theories/PropBeta7.v
theories/HppClient.v
theories/HppCover.v
theories/PropHpp2.v
theories/CppWorld.v
theories/PropCpp2.v
theories/HppWorld.v
theories/HppWorldCover.v
theories/HppWorldSame.v
theories/PropHpp3.v
theories/Names.v
theories/NamesOwn.v
theories/PropNames.v
theories/BetaNames.v
theories/PropNames2.v
theories/BetaKeepLeak.v
theories/PropBeta8.v
