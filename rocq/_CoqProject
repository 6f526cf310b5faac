-Q theories Verif
theories/Base.v
theories/LBase.v
theories/MElement.v
theories/SElement.v
theories/LElement.v
theories/PElement.v
theories/BaseQ.v
theories/LQ.v
theories/MSort.v
theories/SSort.v
theories/LSort.v
theories/MComb.v
theories/SSubst.v
theories/LComb.v
theories/MGeneralCell.v
theories/SGeneralCell.v
theories/LGeneralCell.v
theories/PGeneralCell.v
theories/SSym.v
theories/LSym.v
theories/MSogen.v
theories/LFilter.v
theories/SOcc.v
theories/SEnum.v
theories/LDup.v
theories/LLevels.v
theories/MTee.v
theories/STee.v
theories/LTee.v
theories/LPermDec.v
theories/LMisc.v
theories/LSymDec.v
theories/LNoise.v
theories/PSym.v
theories/LSogen.v
theories/PSogen.v
theories/PTee.v
theories/MGrid.v
theories/SGrid.v
theories/LGrid.v
theories/LGrid2.v
theories/PGrid.v
theories/SLattice.v
theories/MHnf.v
theories/LMat3.v
theories/LHnf.v
theories/LSuper.v
theories/LSuper2.v
theories/PHnf.v
theories/LFrac.v
theories/LCrystal.v
theories/PSuper.v
theories/MRestrict.v
theories/SRestrict.v
theories/LRestrict.v
theories/PRestrict.v
theories/MLegacy.v
theories/SLegacy.v
theories/LLegacyKey.v
theories/LStr.v
theories/LLegacy.v
theories/LDisjunct.v
theories/PLegacy.v
theories/MModCell.v
theories/SModCell.v
theories/LModCell.v
theories/LModCell2.v
theories/LModCell3.v
theories/LModCell4.v
theories/LModCell5.v
theories/PModCell.v
theories/MText.v
theories/MIO.v
theories/SIO.v
theories/LText.v
theories/LIO.v
theories/LIO2.v
theories/LIO3.v
theories/LIO4.v
theories/LIO5.v
theories/LIO6.v
theories/PIO.v
theories/MArrange.v
theories/SArrange.v
theories/LArrange.v
theories/LArrange2.v
theories/LArrange3.v
theories/LArrange4.v
theories/LArrange5.v
theories/PArrange.v
theories/MBuckyTable.v
theories/MBucky.v
theories/SBucky.v
theories/LBucky.v
theories/LBuckyTable.v
theories/LBuckyGeo.v
theories/LBucky2.v
theories/PBucky.v
theories/MMcts.v
theories/SMcts.v
theories/LMcts.v
theories/LMcts2.v
theories/LMcts3.v
theories/LMcts4.v
theories/PMcts.v
theories/LMcts5.v
theories/MCli.v
theories/SCli.v
theories/LCli.v
theories/LCli2.v
theories/LCli3.v
theories/LCli4.v
theories/SCliApp.v
theories/PCli.v
theories/LCli5.v
theories/LPermGen.v
theories/LCli6.v
theories/SCliOne.v
theories/LCli7.v
theories/SShape.v
theories/LShape.v
theories/LCli8.v
theories/PShape.v
theories/PCli2.v
theories/LShape2.v
theories/SCliRead.v
theories/LCli9.v
theories/PCli3.v
theories/LMcts6.v
theories/LMcts7.v
theories/LCli10.v
theories/LCodec.v
theories/PCli4.v
theories/MSeq.v
theories/SSeq.v
theories/LSeq.v
theories/PSeq.v
theories/SBurn.v
theories/LBurn.v
theories/PBurn.v
theories/SDeriv.v
theories/LDeriv.v
theories/LDeriv2.v
theories/LDeriv3.v
theories/PDeriv.v
theories/MGrid2.v
theories/SGrid2.v
theories/LGrid3.v
theories/PGrid2.v
theories/SRobust.v
theories/LRobust.v
theories/PRobust.v
theories/SCliArgs.v
theories/LCliArgs.v
theories/PCliArgs.v
theories/SPrim.v
theories/LPrim.v
theories/PPrim.v
theories/SOnce.v
theories/LOnce.v
theories/POnce.v
theories/SCount.v
theories/LCount.v
theories/PCount.v
theories/MSpg.v
theories/PRefine.v
theories/SErr.v
theories/LErr.v
theories/PErr.v
theories/SNum.v
theories/LNum.v
theories/PNum.v
theories/SChoice.v
theories/LChoice.v
theories/LFrame.v
theories/PChoice.v
theories/LFrame2.v
theories/SSpacing.v
theories/LSpacing.v
theories/PSpacing.v
theories/MMctsNum.v
theories/SMctsNum.v
theories/LMctsNum.v
theories/PMctsNum.v
theories/LCli11.v
theories/PCli5.v
theories/SFlow.v
theories/LFlow.v
theories/LFlow2.v
theories/LFlow3.v
theories/LFlow4.v
theories/LFlow5.v
theories/PFlow.v
theories/SSteps.v
theories/LSteps.v
theories/LSteps2.v
theories/LSteps3.v
theories/PSteps.v
theories/LAgree.v
theories/PAgree.v
theories/LExplore.v
theories/LExplore2.v
theories/LExplore3.v
theories/PExplore.v
theories/SWalk.v
theories/LWalk.v
theories/PWalk.v
theories/MOpt.v
theories/SOpt.v
theories/LOpt.v
theories/LOpt2.v
theories/LOpt3.v
theories/LOpt4.v
theories/POpt.v
theories/PSession.v
theories/LOpt5.v
theories/SFlowT.v
theories/LFlowT.v
theories/PFlowT.v
theories/SRun.v
theories/LRun.v
theories/LRun2.v
theories/PRun.v
theories/LAny.v
theories/PAny.v
theories/SOrder.v
theories/LOrder.v
theories/LOrder2.v
theories/LOrder3.v
theories/LOrder4.v
theories/LOrder5.v
theories/POrder.v
theories/SOrder2.v
theories/LOrder6.v
theories/LOrder7.v
theories/LOrder8.v
theories/LOrder9.v
theories/POrder2.v
theories/SExact.v
theories/LExact.v
theories/PExact.v
theories/SListing.v
theories/LListing.v
theories/PListing.v
theories/LListing2.v
theories/PListing2.v
theories/SSuplat.v
theories/LSuplat.v
theories/PSuplat.v
theories/SOne.v
theories/LOne.v
theories/POne.v
theories/PWords.v
theories/SFileCount.v
theories/LFileCount.v
theories/PFileCount.v
theories/SFileCount2.v
theories/LFileCount2.v
theories/PFileCount2.v
theories/LFormula.v
theories/PFormula.v
theories/SFileCount3.v
theories/LFileCount3.v
theories/PFileCount3.v
