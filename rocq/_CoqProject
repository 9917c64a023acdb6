-Q theories Verif
theories/Base.v
theories/ModelTasks.v
theories/SpecTasks.v
theories/ProofTasks.v
theories/PropTasks.v
theories/ModelFP.v
theories/SpecUni.v
theories/SpecFP.v
theories/ProofUni.v
theories/ProofGreedy.v
theories/ProofFP.v
theories/ProofFPExact.v
theories/PropFP.v
theories/ModelNative.v
theories/ModelQPA.v
theories/SpecQPA.v
theories/ProofEDF.v
theories/ProofQPA.v
theories/PropQPA.v
theories/ModelBinpack.v
theories/SpecBinpack.v
theories/ProofBinpack.v
theories/PropBinpack.v
theories/ModelRollback.v
theories/SpecRollback.v
theories/ProofRollback.v
theories/PropRollback.v
theories/SpecGlobal.v
theories/ProofGlobal.v
theories/ModelGEDF.v
theories/ProofGFB.v
theories/ProofGEDF.v
theories/ProofGEDFIter.v
theories/ProofGEDFRta.v
theories/ProofGlobalGreedy.v
theories/ModelGEDFNative.v
theories/ProofGEDFNative.v
theories/ProofGEDFOrder.v
theories/PropGEDF.v
theories/ModelPwl.v
theories/SpecPwl.v
theories/ProofPwl.v
theories/PropPwl.v
theories/ModelOverheads.v
theories/SpecOverheads.v
theories/ProofOverheads.v
theories/ProofOverheadsQ.v
theories/ProofOverheadsL.v
theories/PropOverheads.v
theories/ModelRUN.v
theories/SpecRUN.v
theories/ProofRUN.v
theories/PropRUN.v
theories/ModelLocking.v
theories/SpecLocking.v
theories/ProofLocking.v
theories/ProofSpin.v
theories/ProofLockingMono.v
theories/PropLocking.v
theories/SpecQueue.v
theories/ProofQueue.v
theories/ProofKx.v
theories/ProofMsrp.v
theories/PropQueue.v
theories/ModelResources.v
theories/SpecResources.v
theories/ProofResources.v
theories/ProofSections.v
theories/ProofPartition.v
theories/PropResources.v
theories/ProofMatch.v
theories/ModelPfair.v
theories/SpecPfair.v
theories/ProofPfair.v
theories/PropPfair.v
theories/ModelCAN.v
theories/SpecCAN.v
theories/ProofCAN.v
theories/ProofCANPrio.v
theories/PropCAN.v
theories/ModelGY.v
theories/ProofGY.v
theories/ProofGYTop.v
theories/PropGY.v
theories/ModelAPA.v
theories/SpecAPA.v
theories/ProofAPA.v
theories/ProofAPAHeur.v
theories/ProofAPATop.v
theories/PropAPA.v
theories/SpecTardiness.v
theories/ModelTardiness.v
theories/ProofGEL.v
theories/ProofGELCost.v
theories/ProofTardiness.v
theories/ProofTardinessExact.v
theories/ProofTardinessSafe.v
theories/ProofTardinessTop.v
theories/ProofTardinessNec.v
theories/ProofTardinessDA.v
theories/PropTardiness.v
theories/SpecSim.v
theories/ModelSim.v
theories/ProofSim.v
theories/ProofSimSched.v
theories/PropSim.v
theories/ModelSerialize.v
theories/SpecSerialize.v
theories/ProofSerialize.v
theories/PropSerialize.v
theories/ModelGen.v
theories/SpecGen.v
theories/ProofGen.v
theories/ProofGenSum.v
theories/ProofGenCaps.v
theories/PropGen.v
theories/ProofBusy.v
theories/ProofBAK.v
theories/ModelBAR.v
theories/ProofBAR.v
theories/ProofBARTop.v
theories/ModelFFDBF.v
theories/ProofFFDBF.v
theories/ProofFFDBFSched.v
theories/ProofFFDBFTop.v
theories/ProofEDFOrder.v
theories/ModelEDF.v
theories/PropGEDFAccept.v
theories/PropEDF.v
theories/ModelGFP.v
theories/SpecGFP.v
theories/ProofGFP.v
theories/ProofGFPSound.v
theories/ProofGFPTop.v
theories/ProofGFPGuan.v
theories/ProofGFPUni.v
theories/ProofGFPLeast.v
theories/PropGFP.v
theories/ModelRW.v
theories/SpecRW.v
theories/ProofRW.v
theories/ProofPF.v
theories/ProofLaminar.v
theories/ProofTF.v
theories/ProofRWRes.v
theories/ProofRWModels.v
theories/PropRW.v
theories/ModelLP.v
theories/SpecLP.v
theories/ProofLP.v
theories/PropLP.v
theories/ModelLPSpin.v
theories/SpecSpinFP.v
theories/ProofLPSpin.v
theories/ProofSpinCount.v
theories/ProofSpinFP.v
theories/ProofSpinRTA.v
theories/PropLPSpin.v
theories/ModelLPUnordered.v
theories/ProofLPUnordered.v
theories/PropLPUnordered.v
theories/ModelLPPrio.v
theories/SpecPrio.v
theories/ProofLPPrio.v
theories/SpecSpinEDF.v
theories/ProofSpinTable.v
theories/PropLPPrio.v
theories/SpecSusp.v
theories/ModelLA.v
theories/ProofLACore.v
theories/ProofLAPoints.v
theories/ProofLA.v
theories/ProofNB.v
theories/PropLA.v
theories/ModelFFDBFNative.v
theories/ProofFFDBFNative.v
theories/PropFFDBFNative.v
theories/ModelLoad.v
theories/ProofLoad.v
theories/PropLoad.v
theories/ProofColor.v
theories/ModelAPAFeas.v
theories/SpecAPAFeas.v
theories/ProofAPAFeas.v
theories/ProofAPASched.v
theories/ProofAPAAccept.v
theories/ProofAPAReject.v
theories/PropAPAFeas.v
theories/ModelMSRP.v
theories/ProofQPAMono.v
theories/ProofMSRP.v
theories/ProofMSRPTest.v
theories/ProofLockRules.v
theories/ProofSpinEDF.v
theories/ProofSpinEDFMeet.v
theories/ProofEDFTable.v
theories/PropMSRP.v
theories/ModelMSRPFP.v
theories/SpecMSRPFP.v
theories/ProofMSRPFP.v
theories/ProofMSRPRTA.v
theories/PropMSRPFP.v
theories/ModelPEDF.v
theories/SpecPEDF.v
theories/ProofPEDF.v
theories/ProofPEDFVec.v
theories/ProofPEDFLP.v
theories/ProofPEDFCol.v
theories/ProofPEDFExec.v
theories/ProofPEDFMeet.v
theories/ProofPEDFIn.v
theories/PropPEDF.v
theories/ModelDPCP.v
theories/SpecDPCP.v
theories/ProofBlame.v
theories/ProofDPCP.v
theories/PropDPCP.v
theories/ModelFMLPPlus.v
theories/SpecFMLPPlus.v
theories/ProofFMLPPlus.v
theories/PropFMLPPlus.v
theories/ModelMPCP.v
theories/SpecMPCP.v
theories/ProofMPCP.v
theories/PropMPCP.v
theories/ModelNestedCS.v
theories/ProofNestedCS.v
theories/PropNestedCS.v
theories/ModelCANProb.v
theories/SpecCANProb.v
theories/ProofCANProb.v
theories/PropCANProb.v
theories/ModelCANSuccess.v
theories/SpecCANSuccess.v
theories/ProofCANSuccess.v
theories/PropCANSuccess.v
theories/ModelPIP.v
theories/SpecPIP.v
theories/ProofPIP.v
theories/ProofPIPExec.v
theories/ProofPIPBound.v
theories/ProofPIPRta.v
theories/PropPIP.v
theories/ModelLinProg.v
theories/SpecLinProg.v
theories/ProofLinProg.v
theories/PropLinProg.v
theories/PropOverheadsCS.v
theories/ModelCANSim.v
theories/SpecCANSim.v
theories/ProofCANSim.v
theories/ProofCANSimTerm.v
theories/PropCANSim.v
theories/ModelCANStats.v
theories/SpecCANStats.v
theories/ProofCANStats.v
theories/PropCANStats.v
theories/ModelGFRL.v
theories/SpecGFRL.v
theories/ProofGFRL.v
theories/ProofGFRLSafe.v
theories/PropGFRL.v
theories/ProofGFRLExists.v
theories/PropGFRLOpt.v
theories/ModelCANDriver.v
theories/SpecCANDriver.v
theories/ProofCANDriver.v
theories/PropCANDriver.v
theories/ModelCANCompletion.v
theories/PropCANCompletion.v
theories/ModelCSV.v
theories/PropCSV.v
theories/ModelOvhFile.v
theories/PropOvhFile.v
theories/ModelStorage.v
theories/PropStorage.v
theories/ModelClusters.v
theories/PropClusters.v
