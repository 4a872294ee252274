-Q theories Verif
theories/Base.v
theories/BaseLemmas.v
theories/TokenSetModel.v
theories/TokenizerModel.v
theories/TokSpec.v
theories/TokenizerProof1.v
theories/TokenizerProof2.v
theories/TokenSetProof.v
theories/TokenizerTheory.v
theories/SortLemmas.v
theories/TokenSetProof2.v
theories/PropTokenizer.v
theories/Utf8.v
theories/JsonModel.v
theories/JsonText.v
theories/JsonProof.v
theories/PropJson.v
theories/PropTokenSet.v
theories/BatchModel.v
theories/StatsAlgebra.v
theories/BatchProof.v
theories/PropBatch.v
theories/SamplerModel.v
theories/PropSampler.v
theories/PropSamplerExact.v
theories/PropRandom.v
theories/PropPreload.v
theories/SampleFloat.v
theories/ProcessingModel.v
theories/PropProcessing.v
theories/CountModel.v
theories/PropCount.v
theories/CacheModel.v
theories/Shaped.v
theories/PropCache.v
theories/OptBytesModel.v
theories/OptBytesProof.v
theories/OptBytesProof2.v
theories/OptBytesProof3.v
theories/OptBytesProof4.v
theories/PropOptBytes.v
theories/OptimizeModel.v
theories/OptimizeProof1.v
theories/OptimizeProof2.v
theories/OptimizeProof3.v
theories/OptimizeProof4.v
theories/OptimizeProof5.v
theories/OptimizeProof6.v
theories/OptimizeProof7.v
theories/OptimizeProof8.v
theories/PropOptimize.v
theories/PropDeterminism.v
theories/PropFixpoint.v
theories/PropBpe.v
theories/PropHuff.v
theories/MainModel.v
theories/PropMain.v
theories/CommandsModel.v
theories/PropProcessCmd.v
theories/PropFiles.v
theories/PropCommands.v
theories/OverflowModel.v
theories/OverflowOptModel.v
theories/PropOverflow.v
theories/PropOptFiles.v
theories/PropIncreasing.v
theories/CharsModel.v
theories/PropCharsTok.v
theories/CharsOptProof.v
theories/PropCharsOpt.v
theories/PropCharsBpe.v
theories/LegacyModel.v
theories/LegacySpec.v
theories/LegacyTok.v
theories/PropLegacyTok.v
theories/LegacyOptModel.v
theories/LegacyOptProof.v
theories/PropLegacyCache.v
theories/LegacyBytesProof.v
theories/PropLegacyBytes.v
theories/PropLegacySizes.v
theories/LegacyPairs.v
theories/LegacyValues.v
theories/PropLegacyBpe.v
theories/LegacyExchange.v
theories/PropLegacyExchange.v
theories/PropLegacyOptBpe.v
theories/PropLegacySaved.v
theories/PropLegacySavedEnd.v
theories/LegacyJson.v
theories/PropDecode.v
theories/StopFloat.v
theories/CostModel.v
theories/PropCost.v
theories/PropLegacyDecode.v
theories/PropOptStats.v
theories/PrintModel.v
theories/PropPrint.v
theories/PrettyModel.v
theories/JsonRead.v
theories/PropPretty.v
theories/PropWords.v
theories/PropHistory.v
theories/PropReadme.v
theories/ArgsModel.v
theories/PropArgs.v
theories/CharsJsonModel.v
theories/PropCharsJson.v
theories/ProgramModel.v
theories/PropProgram.v
theories/OverflowOptProof1.v
theories/OverflowOptProof2.v
theories/OverflowOptProof3.v
theories/PropOverflowOpt.v
theories/PropCanonical.v
theories/IoModel.v
theories/PropIo.v
theories/PropThreads.v
theories/PropStartOrder.v
theories/PropWaste.v
theories/PropTight.v
theories/PropLocal.v
theories/PropPasses.v
theories/SpawnModel.v
theories/PropSpawn.v
theories/BinarySearch.v
theories/PropRatio.v
theories/PropPreprocess.v
theories/OverlapModel.v
theories/PropOverlap.v
theories/PropUnicode.v
theories/PropInvalid.v
theories/PropReproduce.v
theories/PropGrowth.v
theories/PropLocalOpt.v
theories/PropLegacyStats.v
theories/PropLower.v
theories/PropScale.v
theories/PropCharsPrint.v
theories/PropProgressLog.v
theories/PropRecompute.v
theories/PropGrowRuns.v
theories/PropProcessSize.v
theories/PropRatioRange.v
theories/PropProcessTokens.v
