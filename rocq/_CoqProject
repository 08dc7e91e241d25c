-Q theories Verif

theories/Base.v
theories/SpecChecksum.v
theories/MChecksum.v
theories/PChecksum.v
theories/SpecHuffman.v
theories/SpecDeflate.v
theories/SpecBlocks.v
theories/PAt.v
theories/SpecFormats.v
theories/MToken.v
theories/MCommon.v
theories/SpecSession.v
theories/SpecEvents.v
theories/MWriter.v
theories/MSession.v
theories/MCalls.v
theories/MReader.v
theories/SpecReader.v
theories/SpecLib.v
theories/TestReader.v
theories/Demo.v
theories/TestWriter.v
theories/PToken.v
theories/PHuffman.v
theories/PTree.v
theories/PBits.v
theories/PActs.v
theories/PBlocks.v
theories/PCompress.v
theories/PWriter.v
theories/PSession.v
theories/PInv.v
theories/PFormat.v
theories/PApi.v
theories/PInst.v
theories/PClient.v
theories/PDemo.v
theories/PInput.v
theories/PGram.v
theories/POutput.v
theories/PDecode.v
theories/PDynamic.v
theories/PBlockDec.v
theories/PHeader.v
theories/PStream.v
theories/PFooter.v
theories/PThread.v
theories/PLoop.v
theories/PAccept.v
theories/PRead.v
theories/PropReader.v
theories/PropReader2.v
theories/PropReader3.v
theories/PSim.v
theories/PropReader4.v
theories/PropWriter.v
theories/PropRound.v
theories/PropChecksum.v
theories/PropBits.v
theories/PropBlocks.v
theories/PropWriter2.v
theories/PWSim.v
theories/PWFrame.v
theories/PropReset.v
theories/MConc.v
theories/PConc.v
theories/PConc2.v
theories/PConc3.v
theories/PConc4.v
theories/PLog.v
theories/PConc5.v
theories/PConc6.v
theories/PConc7.v
theories/PropConc.v
theories/PropReadAll.v
theories/MText.v
theories/SpecText.v
theories/PropText.v
theories/PropText2.v
theories/PPrefix.v
theories/PropTextFlag.v
theories/PChunk.v
theories/PropMemory.v
theories/MWConc.v
theories/PropWConc.v
theories/PropWConc2.v
theories/PExtra.v
theories/MAlias.v
theories/PropAlias.v
theories/PWord.v
theories/PropWord.v
theories/MPool.v
theories/PropPool.v
theories/MReent.v
theories/PropBlocked.v
theories/PropLatency.v
theories/PBomb.v
theories/PropBomb.v
theories/PFlushed.v
theories/PropFlushed.v
theories/SpecDivide.v
theories/PNoHeader.v
theories/PDivide.v
theories/PDivide2.v
theories/PropDivide.v
theories/PropOptions.v
theories/PropWindow.v
theories/PDamage.v
theories/PropDamage.v
theories/MDurable.v
theories/PropDurable.v
theories/MMain.v
theories/PropMain.v
theories/PropLeak.v
theories/PBody.v
theories/PropBody.v
theories/PropRestart.v
theories/PFail.v
theories/PropFail.v
theories/PStreams.v
theories/PropStreams.v
theories/SpecCount.v
theories/PCount.v
theories/PCountW.v
theories/PropCount.v
theories/SpecTraced.v
theories/PDescr.v
theories/PMirror.v
theories/PTold.v
theories/PropDescr.v
theories/SpecHeads.v
theories/PropHeaders.v
theories/PropAuto.v
theories/PropWriter3.v
theories/PropReader5.v
theories/MAsm.v
theories/PAsm.v
theories/PAsm2.v
theories/PropAsm.v
theories/MCli.v
theories/PropCli.v
theories/PropReader6.v
theories/MTrace.v
theories/PropTrace.v
theories/POff.v
theories/PropOffset.v
theories/PCost.v
theories/SpecCost.v
theories/PCost2.v
theories/PCost3.v
theories/PropCost.v
theories/PGrow.v
theories/PEmpty.v
theories/PCaus.v
theories/PropPrefix.v
theories/PropDictTail.v
theories/PWide.v
theories/PropWide.v
theories/MAccess.v
theories/PropAccess.v
theories/PropDefaults.v
theories/PHeld.v
theories/PropHeld.v
theories/PHdr.v
theories/PropHeaderSize.v
theories/PMark.v
theories/PropFraming.v
theories/PropIdle.v
theories/PSlice.v
theories/PropSlice.v
theories/PropJoin.v
