-Q theories Verif
theories/Base.v
theories/MAgg.v
theories/MMerge.v
theories/MHealthd.v
theories/MApi.v
theories/MHealth.v
theories/MFmt.v
theories/MStack.v
theories/MBugsnag.v
theories/MErrors.v
theories/MHeap.v
theories/MHealthdHeap.v
theories/MHealthdLoop.v
theories/MHealthdRace.v
theories/MHeapProg.v
theories/MIdent.v
theories/MUtf8.v
theories/MJson.v
theories/MWriter.v
theories/MLibrato.v
theories/MNum.v
theories/MRequest.v
theories/MTop.v
theories/MWire.v
theories/MLog.v
theories/MPolling.v
theories/MStatsd.v
theories/MStatsdLoop.v
theories/MProcess.v
theories/MRace.v
theories/MRuntime.v
theories/MSend.v
theories/MStatsdTicker.v
theories/MTopLoop.v
theories/MTopTable.v
theories/SAgg.v
theories/PAgg.v
theories/PContent.v
theories/PContent2.v
theories/PAgg2.v
theories/SMerge.v
theories/SHealthd.v
theories/PHealthd.v
theories/PMerge.v
theories/PMerge2.v
theories/PHealthd2.v
theories/PHealthd3.v
theories/SApi.v
theories/PApi.v
theories/PApiEx.v
theories/SBound.v
theories/PBound.v
theories/PHealthd4.v
theories/PHealthdEx.v
theories/PBoundEx.v
theories/SPolling.v
theories/SConserve.v
theories/PConserve.v
theories/SClock.v
theories/PClock.v
theories/PFloat.v
theories/SFloat.v
theories/PFloat2.v
theories/SFloat2.v
theories/PFloat3.v
theories/PKeep.v
theories/SHealth.v
theories/PHealth.v
theories/PHealth2.v
theories/PHealth3.v
theories/PHealth4.v
theories/SStatsd.v
theories/PStatsd.v
theories/SStack.v
theories/PStack.v
theories/PHealthEx.v
theories/SRequest.v
theories/PRequest.v
theories/SUtf8.v
theories/PUtf8.v
theories/SWriter.v
theories/PWriter.v
theories/SJson.v
theories/PJson.v
theories/PJson2.v
theories/PNum.v
theories/SWire.v
theories/PNum2.v
theories/PWire.v
theories/STop.v
theories/PWire2.v
theories/PWire3.v
theories/SSystem.v
theories/PSystem.v
theories/PClock2.v
theories/PWireEx.v
theories/PSystemEx.v
theories/PClock2Ex.v
theories/SLibrato.v
theories/PLibrato.v
theories/PLibrato2.v
theories/SSend.v
theories/PSend.v
theories/SDecode.v
theories/PDecode.v
theories/PStatsd2.v
theories/SStatsdLoop.v
theories/PStatsdLoop.v
theories/PStatsdEx.v
theories/PDrain.v
theories/SErrors.v
theories/PErrors.v
theories/SFair.v
theories/PFair.v
theories/PFloat4.v
theories/SFloat3.v
theories/PFloat5.v
theories/PFloatEx.v
theories/SHealth2.v
theories/PHealth5.v
theories/PHealthd5.v
theories/PHealthd6.v
theories/SHealthd2.v
theories/PHealthd7.v
theories/PHealthdEx2.v
theories/PHeapLogic.v
theories/SHeap.v
theories/PHeap.v
theories/PHeap2.v
theories/PHeap3.v
theories/PHeap4.v
theories/PHeap5.v
theories/PHeap6.v
theories/SHealthdHeap.v
theories/PHealthdHeap.v
theories/PHealthdHeap2.v
theories/PHeap7.v
theories/PHealthdHeap3.v
theories/PHeapEx.v
theories/PHealthdHeapEx.v
theories/SHealthdLoop.v
theories/PHealthdLoop.v
theories/PHealthdLoop2.v
theories/PHealthdLoop3.v
theories/PHealthdLoopEx.v
theories/SHealthdRace.v
theories/PHealthdRace.v
theories/SRuntime.v
theories/PRuntime.v
theories/SIdent.v
theories/PIdent.v
theories/PIdentEx.v
theories/PJobsPage.v
theories/PKept.v
theories/SLive.v
theories/PLiveBugsnag.v
theories/PPolling.v
theories/PLiveEx.v
theories/PLiveLibrato.v
theories/SProcess.v
theories/PProcess.v
theories/PProcess2.v
theories/PLivePoll.v
theories/SLive11.v
theories/PLiveEnd.v
theories/SLive2.v
theories/PLiveHealthd.v
theories/PLiveHealthdEx.v
theories/PLiveStuck.v
theories/SLive6.v
theories/PLiveLeak.v
theories/SLive4.v
theories/PLiveSystem.v
theories/STopLoop.v
theories/SLive7.v
theories/STopTable.v
theories/SLive9.v
theories/PLivePolls.v
theories/PTop.v
theories/PTopLoop.v
theories/PLiveTop.v
theories/PTopTable.v
theories/PLiveHosts.v
theories/PLiveHostsEx.v
theories/PLiveStatsd.v
theories/SStatsd3.v
theories/PStatsd3.v
theories/PShort.v
theories/SServer.v
theories/PServer.v
theories/PServer2.v
theories/PProcess3.v
theories/SLive3.v
theories/PLiveProcess.v
theories/PLiveProcessEx.v
theories/SLive5.v
theories/PLiveRuntime.v
theories/PLiveRuntimeEx.v
theories/PSystem2.v
theories/SScreen.v
theories/PScreen.v
theories/SLive8.v
theories/PLiveScreen.v
theories/PSystemEx2.v
theories/PLiveSystemEx.v
theories/PLiveScreenEx.v
theories/PLiveTicker.v
theories/PLiveTickerEx.v
theories/SLive10.v
theories/PLiveWhole.v
theories/PLiveWholeEx1.v
theories/PLiveWholeEx2.v
theories/PLiveWholeEx3.v
theories/SLog.v
theories/PLog.v
theories/PLog2.v
theories/PLog3.v
theories/PLogEx.v
theories/PLoopMore.v
theories/PMerge3.v
theories/SMerge2.v
theories/PMerge4.v
theories/PNil.v
theories/PPercent.v
theories/PProcess4.v
theories/PProcessEx.v
theories/SRace.v
theories/PRace.v
theories/PRaceEx.v
theories/SRepoll.v
theories/PRepoll.v
theories/PRuntime2.v
theories/PScreenEx.v
theories/PSend2.v
theories/PServer3.v
theories/PSystem3.v
theories/PWriter2.v
theories/TAgg.v
theories/TApi.v
theories/TBound.v
theories/TClock.v
theories/TClock2.v
theories/TDecode.v
theories/TErrors.v
theories/TFloat.v
theories/THealth.v
theories/THealthd.v
theories/THealthdHeap.v
theories/THealthdLoop.v
theories/THealthdRace.v
theories/THeap.v
theories/TIdent.v
theories/TLibrato.v
theories/TLive.v
theories/TLive10.v
theories/TLive2.v
theories/TLive3.v
theories/TLive4.v
theories/TLive5.v
theories/TLive6.v
theories/TLive7.v
theories/TLive8.v
theories/TLive9.v
theories/TLog.v
theories/TMerge.v
theories/TPolling.v
theories/TProcess.v
theories/TRace.v
theories/TRuntime.v
theories/TScreen.v
theories/TSend.v
theories/TServer.v
theories/TStack.v
theories/TStatsd.v
theories/TSystem.v
theories/TTop.v
theories/TTopLoop.v
theories/TWire.v
theories/TWire2.v
theories/TWriter.v
