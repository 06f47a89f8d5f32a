-Q theories Verif
theories/L_Analysis.v
theories/L_BMSii.v
theories/L_BoundFree.v
theories/L_ChemPot.v
theories/L_Dandrea.v
theories/L_DebyeWaller.v
theories/L_Elements.v
theories/L_FFT.v
theories/L_Farid.v
theories/L_Fermi.v
theories/L_FermiFit.v
theories/L_FermiFit2.v
theories/L_FermiInv.v
theories/L_FermiInv2.v
theories/L_FermiInvRun.v
theories/L_FermiMid.v
theories/L_FermiTables.v
theories/L_FormFactors.v
theories/L_FormFactorsFT.v
theories/L_Fourier.v
theories/L_FreeFree.v
theories/L_FreeFree2.v
theories/L_FreeFree3.v
theories/L_FreeFree4.v
theories/L_FreeFree5.v
theories/L_FreeFree6.v
theories/L_Gauss.v
theories/L_HNC.v
theories/L_HNC2.v
theories/L_HNC3.v
theories/L_HNCWeak.v
theories/L_HNCWeak2.v
theories/L_Helpers.v
theories/L_IPD.v
theories/L_ITCF.v
theories/L_Instrument.v
theories/L_Interp.v
theories/L_IonFeature.v
theories/L_IonFeature2.v
theories/L_Ionization.v
theories/L_LFC.v
theories/L_Ogata.v
theories/L_Order.v
theories/L_OrderHNC.v
theories/L_PairABD.v
theories/L_Pauli.v
theories/L_PlasmaPhysics.v
theories/L_PlasmaState.v
theories/L_Poly.v
theories/L_PotentialHeap.v
theories/L_Potentials.v
theories/L_Probe.v
theories/L_Pytree.v
theories/L_RPA.v
theories/L_RPA0K.v
theories/L_RPA2.v
theories/L_Registry.v
theories/L_Registry2.v
theories/L_Registry3.v
theories/L_Rescale.v
theories/L_Rescale2.v
theories/L_Rescale3.v
theories/L_Rescale4.v
theories/L_Rescale5.v
theories/L_Rescale6.v
theories/L_Rescale7.v
theories/L_Rescale8.v
theories/L_Saving.v
theories/L_Screening.v
theories/L_Setup.v
theories/L_Split.v
theories/L_SplitHNC.v
theories/L_StaticSF.v
theories/L_SuperGauss.v
theories/L_TM.v
theories/M_Analysis.v
theories/M_BMSii.v
theories/M_BoundFree.v
theories/M_Callable.v
theories/M_ChemPot.v
theories/M_Citation.v
theories/M_CitationKeys.v
theories/M_Classes.v
theories/M_Collections.v
theories/M_Const.v
theories/M_ElementTables.v
theories/M_Elements.v
theories/M_FFT.v
theories/M_FormFactors.v
theories/M_FreeFree.v
theories/M_HNC.v
theories/M_Helpers.v
theories/M_IPD.v
theories/M_ITCF.v
theories/M_Instrument.v
theories/M_Interp.v
theories/M_IonFeature.v
theories/M_Ionization.v
theories/M_IonizationBU.v
theories/M_LFC.v
theories/M_Math.v
theories/M_Nist.v
theories/M_Ogata.v
theories/M_Orbital.v
theories/M_PairABD.v
theories/M_Pauli.v
theories/M_PlasmaPhysics.v
theories/M_PlasmaState.v
theories/M_PotentialHeap.v
theories/M_Potentials.v
theories/M_Probe.v
theories/M_Pytree.v
theories/M_PytreeTable.v
theories/M_RPA0K.v
theories/M_Registry.v
theories/M_Saving.v
theories/M_ScatModel.v
theories/M_Screening.v
theories/M_Setup.v
theories/M_StateScales.v
theories/M_StaticSF.v
theories/M_Units.v
theories/P_Analysis.v
theories/P_BMSii.v
theories/P_BUClip.v
theories/P_BoundFree.v
theories/P_CHS.v
theories/P_Callable.v
theories/P_ChemPot.v
theories/P_Citation.v
theories/P_Dandrea.v
theories/P_DandreaFit.v
theories/P_Elements.v
theories/P_FFT.v
theories/P_FermiExact.v
theories/P_FermiFit.v
theories/P_FermiInv.v
theories/P_FermiMid.v
theories/P_FormFactors.v
theories/P_FreeFree.v
theories/P_HNC.v
theories/P_HNCWeak.v
theories/P_Helpers.v
theories/P_IPD.v
theories/P_ITCF.v
theories/P_Instrument.v
theories/P_IonFeature.v
theories/P_Ionization.v
theories/P_Ionization2.v
theories/P_IonizationBU.v
theories/P_LFC.v
theories/P_Limits.v
theories/P_Mermin.v
theories/P_Neutral.v
theories/P_Nist.v
theories/P_Ogata.v
theories/P_Orbital.v
theories/P_Order.v
theories/P_OrderHNC.v
theories/P_PairABD.v
theories/P_Pauli.v
theories/P_PlasmaPhysics.v
theories/P_PlasmaState.v
theories/P_PotParts.v
theories/P_Potentials.v
theories/P_Pytree.v
theories/P_RPA.v
theories/P_RPA0K.v
theories/P_RPASum.v
theories/P_Registry.v
theories/P_Rescale.v
theories/P_RescaleHNC.v
theories/P_Saving.v
theories/P_SavingMap.v
theories/P_ScatModel.v
theories/P_ScreenExact.v
theories/P_Screening.v
theories/P_Setup.v
theories/P_Signal.v
theories/P_SignalFF.v
theories/P_Split.v
theories/P_SplitHNC.v
theories/P_StateScales.v
theories/P_StaticSF.v
theories/P_SuperGauss.v
theories/P_Units.v
theories/P_Values.v
theories/P_Wrappers.v
