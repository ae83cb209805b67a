-Q theories Verif
theories/GoBase.v
theories/BinUtil.v
theories/MFilter.v
theories/MEngine.v
theories/MTdtEpc.v
theories/MTdtIso.v
theories/MTdtCore.v
theories/MScheme.v
theories/MSubs.v
theories/MList.v
theories/MPatricia.v
theories/MSplay.v
theories/TestVectors.v
theories/PBase.v
theories/Spec.v
theories/PFilter.v
theories/PEngine.v
theories/PropsFilter.v
theories/PSubs.v
theories/PList.v
theories/PMatch.v
theories/PPatricia.v
theories/PPatriciaHist.v
theories/PExamples.v
theories/SpecTrie.v
theories/PPatriciaExact.v
theories/PropsEngine.v
theories/PSubs2.v
theories/PSubs3.v
theories/PShared.v
theories/PropsSubs.v
theories/PLink.v
theories/PSplay.v
theories/PSplayHist.v
theories/PSplayExact.v
theories/PAgree.v
theories/PropsSplay.v
theories/MEffort.v
theories/SpecEffort.v
theories/PEffort.v
theories/PEffort2.v
theories/PropsEffort.v
theories/PNum.v
theories/SpecEpc.v
theories/PTdt.v
theories/PTdt2.v
theories/PropsTdt.v
theories/PEpc.v
theories/PEpc2.v
theories/PEpc3.v
theories/PEpc4.v
theories/PropsEpc.v
theories/SpecIso.v
theories/PIso.v
theories/PIso2.v
theories/PropsIso.v
theories/MSlice.v
theories/MLegacy.v
theories/PSlice.v
theories/PLegacy.v
theories/SpecLegacy.v
theories/PLegacy2.v
theories/PropsLegacy.v
theories/MComposition.v
theories/SpecComposition.v
theories/PComposition.v
theories/PropsComposition.v
theories/MGob.v
theories/SpecGob.v
theories/PGob.v
theories/PropsGob.v
theories/MRestore.v
theories/SpecRestore.v
theories/PRestore.v
theories/PropsRestore.v
theories/SpecBits.v
theories/PBits.v
theories/PropsBits.v
theories/MGenerator.v
theories/MFloat.v
theories/PFloat.v
theories/PFloat2.v
theories/MFactory.v
theories/PFactory.v
theories/PFactory2.v
theories/SpecFactory.v
theories/PFactory3.v
theories/PFactory4.v
theories/PFactory5.v
theories/PFactory6.v
theories/PFactory7.v
theories/PFactory8.v
theories/PFactory9.v
theories/PFactory10.v
theories/MSystem.v
theories/SpecSystem.v
theories/PSystem.v
theories/PSystem2.v
theories/PropsFactory.v
theories/SpecMatches.v
theories/PMatches.v
theories/PropsMatches.v
theories/PropsThroughput.v
theories/PropsAnswers.v
theories/PropsEpcFit.v
theories/PGenerator.v
theories/PropsGenerator.v
theories/MStat.v
theories/SpecStat.v
theories/PStat.v
theories/PFloat3.v
theories/PropsStat.v
theories/MWord.v
theories/SpecWord.v
theories/PropsWord.v
theories/PropsFactory2.v
theories/PropsPercent.v
theories/MMain.v
theories/MTools.v
theories/SpecMain.v
theories/PMain.v
theories/PMain2.v
theories/PropsMain.v
theories/SpecTools.v
theories/PTools.v
theories/PTools2.v
theories/PropsTools.v
theories/MDump.v
theories/SpecDump.v
theories/PDump.v
theories/PDump2.v
theories/PropsDump.v
theories/MGroup.v
theories/MHelpers.v
theories/SpecGroup.v
theories/SpecHelpers.v
theories/PGroup.v
theories/PGroup2.v
theories/PHelpers.v
theories/PropsGroup.v
theories/MCsv.v
theories/SpecCsv.v
theories/PCsv.v
theories/PropsCsv.v
theories/MDataset.v
theories/SpecDataset.v
theories/PDataset.v
theories/PDataset2.v
theories/PDataset3.v
theories/PropsDataset.v
theories/PFloat4.v
theories/PropsRounds.v
theories/MSelect.v
theories/PropsSelect.v
theories/MPipe.v
theories/PropsPipe.v
theories/SpecJam.v
theories/PJam.v
theories/PropsJam.v
theories/SpecPlaces.v
theories/SpecAnswers.v
theories/PPlaces.v
theories/PropsPlaces.v
theories/PSplayCalm.v
theories/PropsCalm.v
theories/SpecSubs.v
theories/SpecRun.v
theories/SpecNest.v
theories/SpecStore.v
theories/SpecEncode.v
theories/SpecMap.v
theories/MDraws.v
theories/SpecDraws.v
theories/PropsDraws.v
