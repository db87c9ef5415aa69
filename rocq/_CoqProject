-Q theories Verif
theories/Num.v
theories/NumFacts.v
theories/VecModel.v
theories/Base.v
theories/MemModel.v
theories/BoxSpec.v
theories/ListFacts.v
theories/OrdFacts.v
theories/BoxProofs.v
theories/BoxRProofs.v
theories/MemSpec.v
theories/MemProofs.v
theories/FloatFacts.v
theories/Casts.v
theories/VecProofs.v
theories/VecDemo.v
theories/VecProps.v
theories/BoxFinal.v
theories/BoxProps.v
theories/LsModel.v
theories/LsSpec.v
theories/LsProofs.v
theories/LsOrd.v
theories/LsFloat.v
theories/LsReal.v
theories/LsProps.v
theories/LsDescent.v
theories/ObjModel.v
theories/ObjSpec.v
theories/ObjProofs.v
theories/ObjOps.v
theories/ObjOps2.v
theories/ObjFinal.v
theories/ObjBox.v
theories/ObjProps.v
theories/OptSpace.v
theories/VmModel.v
theories/VmSpec.v
theories/VmProofs.v
theories/VmProps.v
theories/VmRealSpec.v
theories/VmReal.v
theories/VmRealProps.v
theories/LbfgsSpec.v
theories/LbfgsReal.v
theories/LbfgsProofs.v
theories/LbfgsRun.v
theories/LbfgsProps.v
theories/CgModel.v
theories/CgSpec.v
theories/CgProofs.v
theories/CgReal.v
theories/CgFormSpec.v
theories/CgForm.v
theories/CgProgress.v
theories/CgProps.v
theories/CgRealProps.v
theories/StrModel.v
theories/StrProofs.v
theories/StrProps.v
theories/DrModel.v
theories/DrProps.v
theories/FminModel.v
theories/FminProofs.v
theories/FminReal.v
theories/FminRc.v
theories/FminProps.v
theories/VmErrProps.v
theories/LaModel.v
theories/LaLoops.v
theories/LaSpec.v
theories/LaMem.v
theories/LaBlas1.v
theories/LaBlas1R.v
theories/LaBlas2.v
theories/LaBlas3.v
theories/LaTri.v
theories/LaTri2.v
theories/LaChol.v
theories/LaProps.v
theories/LcgModel.v
theories/LcgSpec.v
theories/LcgVec.v
theories/LcgCalls.v
theories/LcgInv.v
theories/LcgRun.v
theories/LcgTr.v
theories/LcgProps.v
theories/BqLang.v
theories/BqModel.v
theories/BqWp.v
theories/BqSafe.v
theories/BqEval.v
theories/BqRun.v
theories/BqSpec.v
theories/BqTop.v
theories/BqCast.v
theories/BqStart.v
theories/BqPc.v
theories/BqBest.v
theories/BqBestTop.v
theories/BqProps.v
theories/BqBestProps.v
theories/NwModel.v
theories/NwSafe.v
theories/NwMain.v
theories/NwSpec.v
theories/NwTop.v
theories/NwEnd.v
theories/NwProps.v
theories/NwBest.v
theories/NwValue.v
theories/NwBestProps.v
theories/NwInd.v
theories/NwRcSpec.v
theories/NwRc.v
theories/NwRcTop.v
theories/NwRcProps.v
theories/CbModel.v
theories/CbSpec.v
theories/CbSafe.v
theories/CbMain.v
theories/CbNum.v
theories/CbTop.v
theories/CbProps.v
theories/CbNan.v
theories/CbEndProps.v
theories/CbRcSpec.v
theories/CbRc.v
theories/CbRcTop.v
theories/CbRcProps.v
theories/CbBest.v
theories/CbBestProps.v
theories/GqModel.v
theories/GqSafe.v
theories/GqRun.v
theories/GqEst.v
theories/GqVec.v
theories/GqReal.v
theories/GqProps.v
theories/Yields.v
theories/RhoSpec.v
theories/CbRho.v
theories/NwRho.v
theories/RhoNum.v
theories/CbRhoProps.v
theories/NwRhoProps.v
theories/NumE.v
theories/MemE.v
theories/NwVec.v
theories/NwTrust.v
theories/NwLag.v
theories/NwDen.v
theories/NwTrustProps.v
theories/UtModel.v
theories/UtProps.v
theories/NwNear.v
theories/NwNearProps.v
theories/RsModel.v
theories/RsProps.v
