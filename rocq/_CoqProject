-Q theories Verif
theories/AgGaSProofs.v
theories/AgGaSValueProofs.v
theories/AgsePhaseProofs.v
theories/AgseProofs.v
theories/BSeriesProofs.v
theories/Base.v
theories/BeamMoreProofs.v
theories/BeamProofs.v
theories/CNum.v
theories/CoherenceProofs.v
theories/ConvergeProofs.v
theories/CrystalGroupProofs.v
theories/CrystalIndexProofs.v
theories/CrystalMoreProofs.v
theories/CrystalPolingProofs.v
theories/CrystalProofs.v
theories/CrystalShareProofs.v
theories/DFGAcceptProofs.v
theories/DFGBulkProofs.v
theories/DFGFlowProofs.v
theories/DFGInitProofs.v
theories/DFGMixProofs.v
theories/DFGNoSaveProofs.v
theories/DFGOutProofs.v
theories/DFGPolingProofs.v
theories/DFGProofs.v
theories/DFGQpmProofs.v
theories/DFGRunProofs.v
theories/DFGSymProofs.v
theories/DFGTotalProofs.v
theories/DerivedMoreProofs.v
theories/DerivedProofs.v
theories/EnergyFlowProofs.v
theories/ExAgGaS.v
theories/ExAgse.v
theories/ExBeamMore.v
theories/ExCrystalMore.v
theories/ExCrystalPoling.v
theories/ExDFG.v
theories/ExDFGBulk.v
theories/ExDFGFlow.v
theories/ExDFGNoSave.v
theories/ExDFGRun.v
theories/ExDerived.v
theories/ExDerivedMore.v
theories/ExEnergyFlow.v
theories/ExFiber.v
theories/ExFields.v
theories/ExFieldsWrite.v
theories/ExGlobalOrder.v
theories/ExGnlse.v
theories/ExGnlseFlow.v
theories/ExGratingHigh.v
theories/ExInstances.v
theories/ExInvert.v
theories/ExLimit.v
theories/ExODE.v
theories/ExODEConverge.v
theories/ExODEEmpty.v
theories/ExODELinear.v
theories/ExODEOrder.v
theories/ExOptics.v
theories/ExOpticsMore.v
theories/ExPhoton.v
theories/ExPhotonFlow.v
theories/ExPulse.v
theories/ExPulseMore.v
theories/ExQpm.v
theories/ExRkOrder.v
theories/ExRun.v
theories/ExRunFile.v
theories/ExRunKerr.v
theories/ExSSFM.v
theories/ExSSFMNan.v
theories/ExSSFMRaise.v
theories/ExSpectrogram.v
theories/ExSpectrogramFrog.v
theories/ExSplitFlow.v
theories/ExTight.v
theories/FFTProofs.v
theories/FiberDbProofs.v
theories/FiberLocalProofs.v
theories/FiberProofs.v
theories/FiberShareProofs.v
theories/FieldsProofs.v
theories/FieldsWriteProofs.v
theories/GlobalFlowProofs.v
theories/GlobalOrderProofs.v
theories/GnlseFlowProofs.v
theories/GratingHighProofs.v
theories/GratingHodProofs.v
theories/GratingProofs.v
theories/InvertProofs.v
theories/JetProofs.v
theories/LimitProofs.v
theories/MixingProofs.v
theories/ModelAgGaS.v
theories/ModelBeam.v
theories/ModelCrystal.v
theories/ModelCrystalMore.v
theories/ModelDFG.v
theories/ModelDerived.v
theories/ModelDerivedMore.v
theories/ModelDopr.v
theories/ModelFFT.v
theories/ModelFiber.v
theories/ModelFields.v
theories/ModelGrating.v
theories/ModelGratingHigh.v
theories/ModelInvert.v
theories/ModelODE.v
theories/ModelPulse.v
theories/ModelPulseOps.v
theories/ModelRun.v
theories/ModelRunFile.v
theories/ModelSSFM.v
theories/ModelSpectrogram.v
theories/NumPy.v
theories/ODEAcceptProofs.v
theories/ODEChainProofs.v
theories/ODEConvergeProofs.v
theories/ODEEmptyProofs.v
theories/ODEIntProofs.v
theories/ODELinearProofs.v
theories/ODEOrderProofs.v
theories/ODEOutputProofs.v
theories/ODERunProofs.v
theories/ODEShareProofs.v
theories/ODEStepProofs.v
theories/ODETableauProofs.v
theories/ODETolProofs.v
theories/ODETotalProofs.v
theories/ODETreeProofs.v
theories/ODEWitnessProofs.v
theories/OpticsMoreProofs.v
theories/PhotonFlowProofs.v
theories/PicardProofs.v
theories/PropsAgGaS.v
theories/PropsAgGaSValue.v
theories/PropsAgse.v
theories/PropsAgsePhase.v
theories/PropsBeam.v
theories/PropsBeamMore.v
theories/PropsCoherence.v
theories/PropsCrystal.v
theories/PropsCrystalGroup.v
theories/PropsCrystalIndex.v
theories/PropsCrystalMore.v
theories/PropsCrystalPoling.v
theories/PropsCrystalShare.v
theories/PropsDFGAccept.v
theories/PropsDFGBulk.v
theories/PropsDFGFlow.v
theories/PropsDFGInit.v
theories/PropsDFGMix.v
theories/PropsDFGNoSave.v
theories/PropsDFGOut.v
theories/PropsDFGPoling.v
theories/PropsDFGQpm.v
theories/PropsDFGRun.v
theories/PropsDFGSym.v
theories/PropsDFGTotal.v
theories/PropsDerived.v
theories/PropsDerivedMore.v
theories/PropsEnergyFlow.v
theories/PropsFiber.v
theories/PropsFiberDb.v
theories/PropsFiberLocal.v
theories/PropsFiberShare.v
theories/PropsFields.v
theories/PropsFieldsWrite.v
theories/PropsGlobalOrder.v
theories/PropsGnlseFlow.v
theories/PropsGrating.v
theories/PropsGratingHigh.v
theories/PropsGratingHod.v
theories/PropsInvert.v
theories/PropsLimit.v
theories/PropsODEAccept.v
theories/PropsODEConverge.v
theories/PropsODEEmpty.v
theories/PropsODEInt.v
theories/PropsODELinear.v
theories/PropsODEOrder.v
theories/PropsODEOutput.v
theories/PropsODERun.v
theories/PropsODEShare.v
theories/PropsODEStep.v
theories/PropsODETableau.v
theories/PropsODETol.v
theories/PropsODEWitness.v
theories/PropsOpticsMore.v
theories/PropsPhotonFlow.v
theories/PropsPulse.v
theories/PropsPulseHistory.v
theories/PropsPulseMore.v
theories/PropsPulseOps.v
theories/PropsPulseRegrid.v
theories/PropsQpm.v
theories/PropsRkOrder.v
theories/PropsRun.v
theories/PropsRunFile.v
theories/PropsRunKerr.v
theories/PropsSSFM.v
theories/PropsSSFMErr.v
theories/PropsSSFMGnlse.v
theories/PropsSSFMLoop.v
theories/PropsSSFMNan.v
theories/PropsSSFMPhoton.v
theories/PropsSSFMProp.v
theories/PropsSSFMRaise.v
theories/PropsSSFMRaman.v
theories/PropsSSFMSym.v
theories/PropsSSFMTriv.v
theories/PropsSpectrogram.v
theories/PropsSpectrogramFrog.v
theories/PropsSplitFlow.v
theories/PropsStencil.v
theories/PropsTight.v
theories/PropsWaveVector.v
theories/PulseHistory.v
theories/PulseMoreProofs.v
theories/PulseOpsProofs.v
theories/PulseProofs.v
theories/PulseRegridProofs.v
theories/QpmProofs.v
theories/RkJetProofs.v
theories/RkOrderProofs.v
theories/RunFileProofs.v
theories/RunKerrProofs.v
theories/RunProofs.v
theories/SSFMErrProofs.v
theories/SSFMGnlseProofs.v
theories/SSFMLoopProofs.v
theories/SSFMNanProofs.v
theories/SSFMPhotonProofs.v
theories/SSFMProofs.v
theories/SSFMPropProofs.v
theories/SSFMRaiseProofs.v
theories/SSFMRamanProofs.v
theories/SSFMSymProofs.v
theories/SSFMTrivProofs.v
theories/SmoothProofs.v
theories/Spec.v
theories/SpectrogramFrogProofs.v
theories/SpectrogramProofs.v
theories/SplitFlowProofs.v
theories/StencilProofs.v
theories/TaylorProofs.v
theories/TightProofs.v
theories/WaveVectorProofs.v
