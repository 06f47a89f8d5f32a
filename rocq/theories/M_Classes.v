(** The shipped model and potential classes (generated from the source text by
    a script; every entry cites the class it models).  The first argument is
    the Python class name, then [allowed_keys], the [include_electrons] of a
    fresh instance and the effects of [prepare]. *)
From Coq Require Import String List.
From Verif Require Import M_Registry.
Import ListNotations.
Open Scope string_scope.


(** models.py:295-331, no prepare hook *)
Definition k_Neglect : cls :=
  Cls "Neglect" ["free-free scattering"; "bound-free scattering"; "free-bound scattering"; "ionic scattering"; "ipd"] Off
  [].

(** models.py:3103-3131, no prepare hook *)
Definition k_PaulingFormFactors : cls :=
  Cls "PaulingFormFactors" ["form-factors"] Off
  [].

(** models.py:4506-4544, no prepare hook *)
Definition k_Gregori2004Screening : cls :=
  Cls "Gregori2004Screening" ["screening"] Off
  [].

(** models.py:470-536, prepare models.py:365-367 (of IonFeatModel) *)
Definition k_ArkhipovIonFeat : cls :=
  Cls "ArkhipovIonFeat" ["ionic scattering"] Off
  [ADefault "form-factors" k_PaulingFormFactors;
   ADefault "screening" k_Gregori2004Screening].

(** models.py:539-594, prepare models.py:365-367 (of IonFeatModel) *)
Definition k_Gregori2003IonFeat : cls :=
  Cls "Gregori2003IonFeat" ["ionic scattering"] Off
  [ADefault "form-factors" k_PaulingFormFactors;
   ADefault "screening" k_Gregori2004Screening].

(** models.py:3409-3433, no prepare hook *)
Definition k_BohmStaver : cls :=
  Cls "BohmStaver" ["Debye temperature"] Off
  [].

(** models.py:597-662, prepare models.py:630-632, 365-367 (of IonFeatModel) *)
Definition k_Gregori2006IonFeat : cls :=
  Cls "Gregori2006IonFeat" ["ionic scattering"] Off
  [ADefault "form-factors" k_PaulingFormFactors;
   ADefault "screening" k_Gregori2004Screening;
   ADefault "Debye temperature" k_BohmStaver].

(** models.py:665-728, prepare models.py:699-701, 365-367 (of IonFeatModel) *)
Definition k_CHSIonFeat : cls :=
  Cls "CHSIonFeat" ["ionic scattering"] Off
  [ADefault "form-factors" k_PaulingFormFactors;
   ADefault "screening" k_Gregori2004Screening;
   ADefault "Debye temperature" k_BohmStaver].

(** models.py:731-760, prepare models.py:365-367 (of IonFeatModel) *)
Definition k_FixedSii : cls :=
  Cls "FixedSii" ["ionic scattering"] Off
  [ADefault "form-factors" k_PaulingFormFactors;
   ADefault "screening" k_Gregori2004Screening].

(** hnc_potentials.py:833-901, no prepare hook *)
Definition k_DebyeHueckelPotential : cls :=
  Cls "DebyeHueckelPotential" ["ion-ion Potential"; "electron-ion Potential"; "electron-electron Potential"] Off
  [].

(** models.py:763-918, prepare models.py:831-836, 365-367 (of IonFeatModel) *)
Definition k_OnePotentialHNCIonFeat : cls :=
  Cls "OnePotentialHNCIonFeat" ["ionic scattering"] Off
  [ADefault "form-factors" k_PaulingFormFactors;
   ADefault "screening" k_Gregori2004Screening;
   ADefault "ion-ion Potential" k_DebyeHueckelPotential;
   ASetElec "ion-ion Potential" Off].

(** hnc_potentials.py:792-830, no prepare hook *)
Definition k_CoulombPotential : cls :=
  Cls "CoulombPotential" ["ion-ion Potential"; "electron-ion Potential"; "electron-electron Potential"] Off
  [].

(** hnc_potentials.py:904-1004, no prepare hook *)
Definition k_KelbgPotential : cls :=
  Cls "KelbgPotential" ["ion-ion Potential"; "electron-ion Potential"; "electron-electron Potential"] Off
  [].

(** models.py:921-1206, prepare models.py:1007-1027 *)
Definition k_ThreePotentialHNCIonFeat : cls :=
  Cls "ThreePotentialHNCIonFeat" ["ionic scattering"] Off
  [ADefault "form-factors" k_PaulingFormFactors;
   ADefault "ion-ion Potential" k_CoulombPotential;
   ADefault "electron-ion Potential" k_CoulombPotential;
   ADefault "electron-electron Potential" k_KelbgPotential;
   ASetElec "ion-ion Potential" SpinAveraged;
   ASetElec "electron-ion Potential" SpinAveraged;
   ASetElec "electron-electron Potential" SpinAveraged].

(** models.py:1209-1265, prepare models.py:365-367 (of IonFeatModel) *)
Definition k_PeakCollection : cls :=
  Cls "PeakCollection" ["ionic scattering"] Off
  [ADefault "form-factors" k_PaulingFormFactors;
   ADefault "screening" k_Gregori2004Screening].

(** models.py:1268-1359, prepare models.py:1326-1328, 365-367 (of IonFeatModel) *)
Definition k_DebyeWallerSolid : cls :=
  Cls "DebyeWallerSolid" ["ionic scattering"] Off
  [ADefault "form-factors" k_PaulingFormFactors;
   ADefault "screening" k_Gregori2004Screening;
   ADefault "Debye temperature" k_BohmStaver].

(** models.py:1390-1466, no prepare hook *)
Definition k_QCSalpeterApproximation : cls :=
  Cls "QCSalpeterApproximation" ["free-free scattering"] Off
  [].

(** models.py:3246-3268, no prepare hook *)
Definition k_IchimaruChemPotential : cls :=
  Cls "IchimaruChemPotential" ["chemical potential"] Off
  [].

(** models.py:1469-1545, prepare models.py:1490-1493 *)
Definition k_RPA : cls :=
  Cls "RPA" ["free-free scattering"] Off
  [ADefault "chemical potential" k_IchimaruChemPotential].

(** models.py:1548-1625, no prepare hook *)
Definition k_RPA_DandreaFit : cls :=
  Cls "RPA_DandreaFit" ["free-free scattering"] Off
  [].

(** models.py:5172-5212, no prepare hook *)
Definition k_FiniteWavelength_BM_V : cls :=
  Cls "FiniteWavelength_BM_V" ["BM V_eiS"] Off
  [].

(** models.py:4926-4980, prepare models.py:4936-4939 *)
Definition k_Sum_Sii : cls :=
  Cls "Sum_Sii" ["BM S_ii"] Off
  [ADefault "ionic scattering" k_OnePotentialHNCIonFeat].

(** models.py:4983-5113, prepare models.py:5031-5039 *)
Definition k_AverageAtom_Sii : cls :=
  Cls "AverageAtom_Sii" ["BM S_ii"] Off
  [ADefault "ion-ion Potential" k_DebyeHueckelPotential;
   ASetElec "ion-ion Potential" Off;
   ADefault "ionic scattering" k_OnePotentialHNCIonFeat].

(** models.py:1628-1781, prepare models.py:1681-1689 *)
Definition k_BornMermin_Full : cls :=
  Cls "BornMermin_Full" ["free-free scattering"] Off
  [ADefault "chemical potential" k_IchimaruChemPotential;
   ADefault "BM V_eiS" k_FiniteWavelength_BM_V;
   AIfOne (ADefault "BM S_ii" k_Sum_Sii) (ADefault "BM S_ii" k_AverageAtom_Sii)].

(** models.py:1830-2086, prepare models.py:1955-1974 *)
Definition k_BornMermin : cls :=
  Cls "BornMermin" ["free-free scattering"] Off
  [ADefault "chemical potential" k_IchimaruChemPotential;
   ADefault "BM V_eiS" k_FiniteWavelength_BM_V;
   AIfOne (ADefault "BM S_ii" k_Sum_Sii) (ADefault "BM S_ii" k_AverageAtom_Sii);
   ACutoff].

(** models.py:2089-2347, prepare models.py:2215-2234 *)
Definition k_BornMermin_Fit : cls :=
  Cls "BornMermin_Fit" ["free-free scattering"] Off
  [ADefault "chemical potential" k_IchimaruChemPotential;
   ADefault "BM V_eiS" k_FiniteWavelength_BM_V;
   AIfOne (ADefault "BM S_ii" k_Sum_Sii) (ADefault "BM S_ii" k_AverageAtom_Sii);
   ACutoff].

(** models.py:2350-2594, prepare models.py:2478-2497 *)
Definition k_BornMermin_Fortmann : cls :=
  Cls "BornMermin_Fortmann" ["free-free scattering"] Off
  [ADefault "chemical potential" k_IchimaruChemPotential;
   ADefault "BM V_eiS" k_FiniteWavelength_BM_V;
   AIfOne (ADefault "BM S_ii" k_Sum_Sii) (ADefault "BM S_ii" k_AverageAtom_Sii);
   ACutoff].

(** models.py:5276-5291, no prepare hook *)
Definition k_Heaviside : cls :=
  Cls "Heaviside" ["bf edge"] Off
  [].

(** models.py:2601-2792, prepare models.py:2654-2657 *)
Definition k_SchumacherImpulse : cls :=
  Cls "SchumacherImpulse" ["bound-free scattering"] Off
  [ADefault "form-factors" k_PaulingFormFactors;
   ADefault "ipd" k_Neglect;
   ADefault "bf edge" k_Heaviside].

(** models.py:2795-2927, prepare models.py:2845-2848 *)
Definition k_SchumacherImpulseColdEdges : cls :=
  Cls "SchumacherImpulseColdEdges" ["bound-free scattering"] Off
  [ADefault "form-factors" k_PaulingFormFactors;
   ADefault "ipd" k_Neglect;
   ADefault "bf edge" k_Heaviside].

(** models.py:2930-3050, prepare models.py:2964-2970 *)
Definition k_SchumacherImpulseFitRk : cls :=
  Cls "SchumacherImpulseFitRk" ["bound-free scattering"] Off
  [ADefault "form-factors" k_PaulingFormFactors;
   ADefault "ipd" k_Neglect;
   ADefault "free-free scattering" k_RPA_DandreaFit;
   ADefault "bf edge" k_Heaviside].

(** models.py:3057-3096, prepare models.py:3081-3084 *)
Definition k_DetailedBalance : cls :=
  Cls "DetailedBalance" ["free-bound scattering"] Off
  [ADefault "bound-free scattering" k_SchumacherImpulse].

(** models.py:3703-3773, no prepare hook *)
Definition k_StewartPyattIPD : cls :=
  Cls "StewartPyattIPD" ["ipd"] Off
  [].

(** models.py:3134-3239, prepare models.py:3172-3173 *)
Definition k_FormFactorLowering : cls :=
  Cls "FormFactorLowering" ["form-factors"] Off
  [ADefault "ipd" k_StewartPyattIPD].

(** models.py:3271-3293, no prepare hook *)
Definition k_SommerfeldChemPotential : cls :=
  Cls "SommerfeldChemPotential" ["chemical potential"] Off
  [].

(** models.py:3296-3319, no prepare hook *)
Definition k_NonDegenerateElectronChemPotential : cls :=
  Cls "NonDegenerateElectronChemPotential" ["chemical potential"] Off
  [].

(** models.py:3322-3336, no prepare hook *)
Definition k_DegenerateElectronChemPotential : cls :=
  Cls "DegenerateElectronChemPotential" ["chemical potential"] Off
  [].

(** models.py:3339-3369, no prepare hook *)
Definition k_ConstantChemPotential : cls :=
  Cls "ConstantChemPotential" ["chemical potential"] Off
  [].

(** models.py:3376-3406, no prepare hook *)
Definition k_ConstantDebyeTemp : cls :=
  Cls "ConstantDebyeTemp" ["Debye temperature"] Off
  [].

(** models.py:3494-3540, no prepare hook *)
Definition k_ConstantIPD : cls :=
  Cls "ConstantIPD" ["ipd"] Off
  [].

(** models.py:3543-3612, no prepare hook *)
Definition k_DebyeHueckelIPD : cls :=
  Cls "DebyeHueckelIPD" ["ipd"] Off
  [].

(** models.py:3615-3700, no prepare hook *)
Definition k_StewartPyattPrestonIPD : cls :=
  Cls "StewartPyattPrestonIPD" ["ipd"] Off
  [].

(** models.py:3776-3853, no prepare hook *)
Definition k_IonSphereIPD : cls :=
  Cls "IonSphereIPD" ["ipd"] Off
  [].

(** models.py:3856-3952, no prepare hook *)
Definition k_EckerKroellIPD : cls :=
  Cls "EckerKroellIPD" ["ipd"] Off
  [].

(** models.py:3955-4005, no prepare hook *)
Definition k_PauliBlockingIPD : cls :=
  Cls "PauliBlockingIPD" ["ipd"] Off
  [].

(** models.py:4008-4064, no prepare hook *)
Definition k_IPDSum : cls :=
  Cls "IPDSum" ["ipd"] Off
  [].

(** models.py:4071-4089, no prepare hook *)
Definition k_DebyeHueckelScreeningLength : cls :=
  Cls "DebyeHueckelScreeningLength" ["screening length"] Off
  [].

(** models.py:4092-4118, no prepare hook *)
Definition k_Gericke2010ScreeningLength : cls :=
  Cls "Gericke2010ScreeningLength" ["screening length"] Off
  [].

(** models.py:4121-4143, no prepare hook *)
Definition k_ArbitraryDegeneracyScreeningLength : cls :=
  Cls "ArbitraryDegeneracyScreeningLength" ["screening length"] Off
  [].

(** models.py:4146-4176, no prepare hook *)
Definition k_ConstantScreeningLength : cls :=
  Cls "ConstantScreeningLength" ["screening length"] Off
  [].

(** models.py:4186-4263, prepare models.py:4229-4236 *)
Definition k_LinearResponseScreeningGericke2010 : cls :=
  Cls "LinearResponseScreeningGericke2010" ["screening"] Off
  [ADefault "electron-ion Potential" k_CoulombPotential;
   ASetElec "electron-ion Potential" SpinAveraged].

(** models.py:4266-4330, prepare models.py:4287-4289 *)
Definition k_GregoriCHSScreening : cls :=
  Cls "GregoriCHSScreening" ["screening"] Off
  [ADefault "Debye temperature" k_BohmStaver].

(** models.py:4333-4399, prepare models.py:4372-4379 *)
Definition k_FiniteWavelengthScreening : cls :=
  Cls "FiniteWavelengthScreening" ["screening"] Off
  [ADefault "electron-ion Potential" k_CoulombPotential;
   ASetElec "electron-ion Potential" SpinAveraged].

(** models.py:4402-4448, no prepare hook *)
Definition k_DebyeHueckelScreening : cls :=
  Cls "DebyeHueckelScreening" ["screening"] Off
  [].

(** models.py:4451-4503, prepare models.py:4475-4483 *)
Definition k_LinearResponseScreening : cls :=
  Cls "LinearResponseScreening" ["screening"] Off
  [ADefault "electron-ion Potential" k_CoulombPotential;
   ASetElec "electron-ion Potential" SpinAveraged;
   AAssign "free-free scattering" k_RPA_DandreaFit].

(** models.py:4552-4592, no prepare hook *)
Definition k_SLFCGeldart1966 : cls :=
  Cls "SLFCGeldart1966" ["ee-lfc"] Off
  [].

(** models.py:4595-4644, no prepare hook *)
Definition k_SLFCUtsumi1982 : cls :=
  Cls "SLFCUtsumi1982" ["ee-lfc"] Off
  [].

(** models.py:4647-4696, no prepare hook *)
Definition k_SLFCFarid1993 : cls :=
  Cls "SLFCFarid1993" ["ee-lfc"] Off
  [].

(** models.py:4699-4757, no prepare hook *)
Definition k_ESLFCDornheim2021 : cls :=
  Cls "ESLFCDornheim2021" ["ee-lfc"] Off
  [].

(** models.py:4760-4803, no prepare hook *)
Definition k_SLFCInterpFortmann2010 : cls :=
  Cls "SLFCInterpFortmann2010" ["ee-lfc"] Off
  [].

(** models.py:4806-4849, no prepare hook *)
Definition k_SLFCInterpGregori2007 : cls :=
  Cls "SLFCInterpGregori2007" ["ee-lfc"] Off
  [].

(** models.py:4852-4896, no prepare hook *)
Definition k_LFCConstant : cls :=
  Cls "LFCConstant" ["ee-lfc"] Off
  [].

(** models.py:5140-5169, no prepare hook *)
Definition k_DebyeHueckel_BM_V : cls :=
  Cls "DebyeHueckel_BM_V" ["BM V_eiS"] Off
  [].

(** models.py:5243-5255, no prepare hook *)
Definition k_NoEdge : cls :=
  Cls "NoEdge" ["bf edge"] Off
  [].

(** models.py:5258-5273, no prepare hook *)
Definition k_NonNegative : cls :=
  Cls "NonNegative" ["bf edge"] Off
  [].

(** models.py:5294-5315, no prepare hook *)
Definition k_Fermi : cls :=
  Cls "Fermi" ["bf edge"] Off
  [].

(** hnc_potentials.py:594-709, no prepare hook *)
Definition k_PotentialSum : cls :=
  Cls "PotentialSum" ["ion-ion Potential"; "electron-ion Potential"; "electron-electron Potential"] Off
  [].

(** hnc_potentials.py:712-789, no prepare hook *)
Definition k_ScaledPotential : cls :=
  Cls "ScaledPotential" ["ion-ion Potential"; "electron-ion Potential"; "electron-electron Potential"] Off
  [].

(** hnc_potentials.py:1079-1134, no prepare hook *)
Definition k_KlimontovichKraeftPotential : cls :=
  Cls "KlimontovichKraeftPotential" ["electron-ion Potential"] Off
  [].

(** hnc_potentials.py:1137-1230, no prepare hook *)
Definition k_DeutschPotential : cls :=
  Cls "DeutschPotential" ["ion-ion Potential"; "electron-ion Potential"; "electron-electron Potential"] Off
  [].

(** hnc_potentials.py:1233-1312, no prepare hook *)
Definition k_EmptyCorePotential : cls :=
  Cls "EmptyCorePotential" ["electron-ion Potential"] SpinAveraged
  [].

(** hnc_potentials.py:1315-1401, no prepare hook *)
Definition k_YukawaShortRangeRepulsion : cls :=
  Cls "YukawaShortRangeRepulsion" ["ion-ion Potential"; "electron-ion Potential"; "electron-electron Potential"] Off
  [].

(** hnc_potentials.py:1404-1529, no prepare hook *)
Definition k_SoftCorePotential : cls :=
  Cls "SoftCorePotential" ["electron-ion Potential"] SpinAveraged
  [].

(** hnc_potentials.py:1532-1638, no prepare hook *)
Definition k_PauliClassicalMap : cls :=
  Cls "PauliClassicalMap" ["ion-ion Potential"; "electron-ion Potential"; "electron-electron Potential"] SpinSeparated
  [].

(** hnc_potentials.py:1641-1688, no prepare hook *)
Definition k_SpinSeparatedEEExchange : cls :=
  Cls "SpinSeparatedEEExchange" ["ion-ion Potential"; "electron-ion Potential"; "electron-electron Potential"] SpinSeparated
  [].

(** hnc_potentials.py:1691-1736, no prepare hook *)
Definition k_SpinAveragedEEExchange : cls :=
  Cls "SpinAveragedEEExchange" ["ion-ion Potential"; "electron-ion Potential"; "electron-electron Potential"] Off
  [].

(** All concrete classes of models.py, in source order. *)
Definition model_classes : list cls :=
  [k_Neglect;
   k_ArkhipovIonFeat;
   k_Gregori2003IonFeat;
   k_Gregori2006IonFeat;
   k_CHSIonFeat;
   k_FixedSii;
   k_OnePotentialHNCIonFeat;
   k_ThreePotentialHNCIonFeat;
   k_PeakCollection;
   k_DebyeWallerSolid;
   k_QCSalpeterApproximation;
   k_RPA;
   k_RPA_DandreaFit;
   k_BornMermin_Full;
   k_BornMermin;
   k_BornMermin_Fit;
   k_BornMermin_Fortmann;
   k_SchumacherImpulse;
   k_SchumacherImpulseColdEdges;
   k_SchumacherImpulseFitRk;
   k_DetailedBalance;
   k_PaulingFormFactors;
   k_FormFactorLowering;
   k_IchimaruChemPotential;
   k_SommerfeldChemPotential;
   k_NonDegenerateElectronChemPotential;
   k_DegenerateElectronChemPotential;
   k_ConstantChemPotential;
   k_ConstantDebyeTemp;
   k_BohmStaver;
   k_ConstantIPD;
   k_DebyeHueckelIPD;
   k_StewartPyattPrestonIPD;
   k_StewartPyattIPD;
   k_IonSphereIPD;
   k_EckerKroellIPD;
   k_PauliBlockingIPD;
   k_IPDSum;
   k_DebyeHueckelScreeningLength;
   k_Gericke2010ScreeningLength;
   k_ArbitraryDegeneracyScreeningLength;
   k_ConstantScreeningLength;
   k_LinearResponseScreeningGericke2010;
   k_GregoriCHSScreening;
   k_FiniteWavelengthScreening;
   k_DebyeHueckelScreening;
   k_LinearResponseScreening;
   k_Gregori2004Screening;
   k_SLFCGeldart1966;
   k_SLFCUtsumi1982;
   k_SLFCFarid1993;
   k_ESLFCDornheim2021;
   k_SLFCInterpFortmann2010;
   k_SLFCInterpGregori2007;
   k_LFCConstant;
   k_Sum_Sii;
   k_AverageAtom_Sii;
   k_DebyeHueckel_BM_V;
   k_FiniteWavelength_BM_V;
   k_NoEdge;
   k_NonNegative;
   k_Heaviside;
   k_Fermi].

(** All concrete classes of hnc_potentials.py, in source order. *)
Definition potential_classes : list cls :=
  [k_PotentialSum;
   k_ScaledPotential;
   k_CoulombPotential;
   k_DebyeHueckelPotential;
   k_KelbgPotential;
   k_KlimontovichKraeftPotential;
   k_DeutschPotential;
   k_EmptyCorePotential;
   k_YukawaShortRangeRepulsion;
   k_SoftCorePotential;
   k_PauliClassicalMap;
   k_SpinSeparatedEEExchange;
   k_SpinAveragedEEExchange].

Definition shipped : list cls := model_classes ++ potential_classes.

(** The [__name__] attribute of instances, under which they are saved
    (class bodies of models.py and hnc_potentials.py). *)
Definition saved_name_table : list (string * string) :=
  [("Neglect", "Neglect");
   ("ArkhipovIonFeat", "ArkhipovIonFeat");
   ("Gregori2003IonFeat", "Gregori2003IonFeat");
   ("Gregori2006IonFeat", "Gregori2006IonFeat");
   ("CHSIonFeat", "CHSIonFeat");
   ("FixedSii", "FixedSii");
   ("OnePotentialHNCIonFeat", "OnePotentialHNCIonFeat");
   ("ThreePotentialHNCIonFeat", "ThreePotentialHNC");
   ("PeakCollection", "PeakCollection");
   ("DebyeWallerSolid", "DebyeWallerSolid");
   ("QCSalpeterApproximation", "QCSalpeterApproximation");
   ("RPA", "RPA");
   ("RPA_DandreaFit", "RPA_DandreaFit");
   ("BornMermin_Full", "BornMermin_Full");
   ("BornMermin", "BornMermin");
   ("BornMermin_Fit", "BornMermin_Fit");
   ("BornMermin_Fortmann", "BornMermin_Fortmann");
   ("SchumacherImpulse", "SchumacherImpulse");
   ("SchumacherImpulseColdEdges", "SchumacherImpulseColdEdges");
   ("SchumacherImpulseFitRk", "SchumacherImpulseFitRk");
   ("DetailedBalance", "DetailedBalance");
   ("PaulingFormFactors", "PaulingFormFactors");
   ("FormFactorLowering", "FormFactorLowering");
   ("IchimaruChemPotential", "IchimaruChemPotential");
   ("SommerfeldChemPotential", "SommerfeldChemPotential");
   ("NonDegenerateElectronChemPotential", "NonDegenerateElectronChemPotential");
   ("DegenerateElectronChemPotential", "DegenerateElectronChemPotential");
   ("ConstantChemPotential", "ConstantChemPotential");
   ("ConstantDebyeTemp", "ConstantDebyeTemp");
   ("BohmStaver", "BohmStaver");
   ("ConstantIPD", "ConstantIPD");
   ("DebyeHueckelIPD", "DebyeHueckel");
   ("StewartPyattPrestonIPD", "StewartPyatt");
   ("StewartPyattIPD", "StewartPyatt");
   ("IonSphereIPD", "IonSphere");
   ("EckerKroellIPD", "EckerKroell");
   ("PauliBlockingIPD", "PauliBlocking");
   ("IPDSum", "IPDSum");
   ("DebyeHueckelScreeningLength", "DebyeHueckelScreeningLength");
   ("Gericke2010ScreeningLength", "Gericke2010ScreeningLength");
   ("ArbitraryDegeneracyScreeningLength", "ArbitraryDegeneracyScreeningLength");
   ("ConstantScreeningLength", "ConstantScreeningLength");
   ("LinearResponseScreeningGericke2010", "LinearResponseScreeningGericke2010");
   ("GregoriCHSScreening", "GregoriCHSScreening");
   ("FiniteWavelengthScreening", "FiniteWavelengthScreening");
   ("DebyeHueckelScreening", "DebyeHueckelScreening");
   ("LinearResponseScreening", "LinearResponseScreening");
   ("Gregori2004Screening", "Gregori2004Screening");
   ("SLFCGeldart1966", "SLFCGeldart1966");
   ("SLFCUtsumi1982", "SLFCUtsumi1982");
   ("SLFCFarid1993", "SLFCFarid1993");
   ("ESLFCDornheim2021", "ESLFCDornheim2021");
   ("SLFCInterpFortmann2010", "SLFCInterpFortmann2010");
   ("SLFCInterpGregori2007", "SLFCInterpGregori2007");
   ("LFCConstant", "LFCConstant");
   ("Sum_Sii", "Sum_Sii");
   ("AverageAtom_Sii", "AverageAtom_Sii");
   ("DebyeHueckel_BM_V", "DebyeHueckel_BM_V");
   ("FiniteWavelength_BM_V", "FiniteWavelength_BM_V");
   ("NoEdge", "NoEdge");
   ("NonNegative", "NonNegative");
   ("Heaviside", "Heaviside");
   ("Fermi", "Fermi");
   ("PotentialSum", "PotentialSum");
   ("ScaledPotential", "ScaledPotential");
   ("CoulombPotential", "CoulombPotential");
   ("DebyeHueckelPotential", "DebyeHueckelPotential");
   ("KelbgPotential", "KelbgPotential");
   ("KlimontovichKraeftPotential", "KlimontovichKraeftPotential");
   ("DeutschPotential", "DeutschPotential");
   ("EmptyCorePotential", "EmptyCorePotential");
   ("YukawaShortRangeRepulsion", "YukawaShortRangeRepulsion");
   ("SoftCorePotential", "SoftCorePotential");
   ("PauliClassicalMap", "PauliClassicalMap");
   ("SpinSeparatedEEExchange", "SpinSeparatedEEExchange");
   ("SpinAveragedEEExchange", "SpinAveragedEEExchange")].

(** For each class the pairs (key, method) its evaluation looks up in the
    plasma state: the expressions [plasma_state[key].method] and
    [plasma_state.evaluate(key, ..)] in its methods other than [prepare]
    (inherited ones included).  models.py and hnc_potentials.py. *)
Definition reads_table : list (string * list (string * string)) :=
  [("Neglect", []);
   ("ArkhipovIonFeat", [("screening", "evaluate"); ("form-factors", "evaluate")]);
   ("Gregori2003IonFeat", [("screening", "evaluate"); ("form-factors", "evaluate")]);
   ("Gregori2006IonFeat", [("Debye temperature", "evaluate"); ("screening", "evaluate"); ("form-factors", "evaluate")]);
   ("CHSIonFeat", [("ee-lfc", "evaluate"); ("Debye temperature", "evaluate"); ("screening", "evaluate"); ("form-factors", "evaluate")]);
   ("FixedSii", [("screening", "evaluate"); ("form-factors", "evaluate")]);
   ("OnePotentialHNCIonFeat", [("ion-ion Potential", "short_r"); ("ion-ion Potential", "long_k"); ("ion-ion Potential", "T"); ("screening", "evaluate"); ("form-factors", "evaluate")]);
   ("ThreePotentialHNCIonFeat", [("ion-ion Potential", "T"); ("ion-ion Potential", "short_r"); ("ion-ion Potential", "long_k"); ("electron-ion Potential", "short_r"); ("electron-electron Potential", "short_r"); ("electron-ion Potential", "long_k"); ("electron-electron Potential", "long_k"); ("form-factors", "evaluate")]);
   ("PeakCollection", [("screening", "evaluate"); ("form-factors", "evaluate")]);
   ("DebyeWallerSolid", [("Debye temperature", "evaluate"); ("screening", "evaluate"); ("form-factors", "evaluate")]);
   ("QCSalpeterApproximation", [("ee-lfc", "evaluate")]);
   ("RPA", [("chemical potential", "evaluate"); ("ee-lfc", "evaluate_fullk"); ("ee-lfc", "evaluate")]);
   ("RPA_DandreaFit", [("ee-lfc", "evaluate_fullk"); ("ee-lfc", "evaluate")]);
   ("BornMermin_Full", [("BM S_ii", "check_supports_S_ii_grid"); ("BM S_ii", "S_ii_on_grid"); ("BM S_ii", "evaluate"); ("chemical potential", "evaluate"); ("BM V_eiS", "V"); ("ee-lfc", "evaluate")]);
   ("BornMermin", [("BM S_ii", "check_supports_S_ii_grid"); ("BM S_ii", "S_ii_on_grid"); ("BM S_ii", "evaluate"); ("chemical potential", "evaluate"); ("BM V_eiS", "V"); ("ee-lfc", "evaluate")]);
   ("BornMermin_Fit", [("BM S_ii", "check_supports_S_ii_grid"); ("BM S_ii", "S_ii_on_grid"); ("BM S_ii", "evaluate"); ("chemical potential", "evaluate"); ("BM V_eiS", "V"); ("ee-lfc", "evaluate")]);
   ("BornMermin_Fortmann", [("BM S_ii", "check_supports_S_ii_grid"); ("BM S_ii", "S_ii_on_grid"); ("BM S_ii", "evaluate"); ("chemical potential", "evaluate"); ("BM V_eiS", "V"); ("ee-lfc", "evaluate")]);
   ("SchumacherImpulse", [("ipd", "evaluate"); ("form-factors", "evaluate"); ("bf edge", "evaluate")]);
   ("SchumacherImpulseColdEdges", [("ipd", "evaluate"); ("form-factors", "evaluate"); ("bf edge", "evaluate")]);
   ("SchumacherImpulseFitRk", [("ipd", "evaluate"); ("form-factors", "evaluate"); ("bf edge", "evaluate"); ("free-free scattering", "evaluate_raw")]);
   ("DetailedBalance", [("bound-free scattering", "evaluate_raw")]);
   ("PaulingFormFactors", []);
   ("FormFactorLowering", [("ipd", "evaluate")]);
   ("IchimaruChemPotential", []);
   ("SommerfeldChemPotential", []);
   ("NonDegenerateElectronChemPotential", []);
   ("DegenerateElectronChemPotential", []);
   ("ConstantChemPotential", []);
   ("ConstantDebyeTemp", []);
   ("BohmStaver", []);
   ("ConstantIPD", []);
   ("DebyeHueckelIPD", []);
   ("StewartPyattPrestonIPD", []);
   ("StewartPyattIPD", []);
   ("IonSphereIPD", []);
   ("EckerKroellIPD", []);
   ("PauliBlockingIPD", []);
   ("IPDSum", []);
   ("DebyeHueckelScreeningLength", []);
   ("Gericke2010ScreeningLength", []);
   ("ArbitraryDegeneracyScreeningLength", []);
   ("ConstantScreeningLength", []);
   ("LinearResponseScreeningGericke2010", [("screening length", "evaluate"); ("ee-lfc", "evaluate"); ("electron-ion Potential", "full_k")]);
   ("GregoriCHSScreening", [("ee-lfc", "evaluate"); ("Debye temperature", "evaluate")]);
   ("FiniteWavelengthScreening", [("ee-lfc", "evaluate"); ("electron-ion Potential", "full_k")]);
   ("DebyeHueckelScreening", [("screening length", "evaluate")]);
   ("LinearResponseScreening", [("free-free scattering", "susceptibility"); ("electron-ion Potential", "full_k")]);
   ("Gregori2004Screening", []);
   ("SLFCGeldart1966", []);
   ("SLFCUtsumi1982", []);
   ("SLFCFarid1993", []);
   ("ESLFCDornheim2021", []);
   ("SLFCInterpFortmann2010", []);
   ("SLFCInterpGregori2007", []);
   ("LFCConstant", []);
   ("Sum_Sii", [("ionic scattering", "check_supports_S_ii_grid"); ("ionic scattering", "S_ii_on_grid"); ("ionic scattering", "S_ii")]);
   ("AverageAtom_Sii", [("ion-ion Potential", "short_r"); ("ion-ion Potential", "long_k"); ("ion-ion Potential", "T")]);
   ("DebyeHueckel_BM_V", [("screening length", "evaluate")]);
   ("FiniteWavelength_BM_V", []);
   ("NoEdge", []);
   ("NonNegative", []);
   ("Heaviside", []);
   ("Fermi", []);
   ("PotentialSum", []);
   ("ScaledPotential", []);
   ("CoulombPotential", []);
   ("DebyeHueckelPotential", [("screening length", "evaluate")]);
   ("KelbgPotential", []);
   ("KlimontovichKraeftPotential", []);
   ("DeutschPotential", []);
   ("EmptyCorePotential", []);
   ("YukawaShortRangeRepulsion", [("screening length", "evaluate")]);
   ("SoftCorePotential", []);
   ("PauliClassicalMap", []);
   ("SpinSeparatedEEExchange", []);
   ("SpinAveragedEEExchange", [])].

(** For each class the methods (own or inherited) out of those that other
    models call on it.  models.py and hnc_potentials.py. *)
Definition methods_table : list (string * list string) :=
  [("Neglect", ["evaluate"; "evaluate_raw"]);
   ("ArkhipovIonFeat", ["S_ii"; "S_ii_on_grid"; "check_supports_S_ii_grid"; "evaluate"]);
   ("Gregori2003IonFeat", ["S_ii"; "S_ii_on_grid"; "check_supports_S_ii_grid"; "evaluate"]);
   ("Gregori2006IonFeat", ["S_ii"; "S_ii_on_grid"; "check_supports_S_ii_grid"; "evaluate"]);
   ("CHSIonFeat", ["S_ii"; "S_ii_on_grid"; "check_supports_S_ii_grid"; "evaluate"]);
   ("FixedSii", ["S_ii"; "S_ii_on_grid"; "check_supports_S_ii_grid"; "evaluate"]);
   ("OnePotentialHNCIonFeat", ["S_ii"; "S_ii_on_grid"; "check_supports_S_ii_grid"; "evaluate"]);
   ("ThreePotentialHNCIonFeat", ["S_ii"; "S_ii_on_grid"; "check_supports_S_ii_grid"; "evaluate"]);
   ("PeakCollection", ["S_ii"; "S_ii_on_grid"; "check_supports_S_ii_grid"; "evaluate"]);
   ("DebyeWallerSolid", ["S_ii"; "S_ii_on_grid"; "check_supports_S_ii_grid"; "evaluate"]);
   ("QCSalpeterApproximation", ["evaluate"; "evaluate_raw"; "susceptibility"]);
   ("RPA", ["evaluate"; "evaluate_raw"; "susceptibility"]);
   ("RPA_DandreaFit", ["evaluate"; "evaluate_raw"; "susceptibility"]);
   ("BornMermin_Full", ["evaluate"; "evaluate_raw"; "susceptibility"]);
   ("BornMermin", ["evaluate"; "evaluate_raw"; "susceptibility"]);
   ("BornMermin_Fit", ["evaluate"; "evaluate_raw"; "susceptibility"]);
   ("BornMermin_Fortmann", ["evaluate"; "evaluate_raw"; "susceptibility"]);
   ("SchumacherImpulse", ["evaluate"; "evaluate_raw"]);
   ("SchumacherImpulseColdEdges", ["evaluate"; "evaluate_raw"]);
   ("SchumacherImpulseFitRk", ["evaluate"; "evaluate_raw"]);
   ("DetailedBalance", ["evaluate"; "evaluate_raw"]);
   ("PaulingFormFactors", ["evaluate"]);
   ("FormFactorLowering", ["evaluate"]);
   ("IchimaruChemPotential", ["evaluate"]);
   ("SommerfeldChemPotential", ["evaluate"]);
   ("NonDegenerateElectronChemPotential", ["evaluate"]);
   ("DegenerateElectronChemPotential", ["evaluate"]);
   ("ConstantChemPotential", ["evaluate"]);
   ("ConstantDebyeTemp", ["evaluate"]);
   ("BohmStaver", ["evaluate"]);
   ("ConstantIPD", ["evaluate"]);
   ("DebyeHueckelIPD", ["evaluate"]);
   ("StewartPyattPrestonIPD", ["evaluate"]);
   ("StewartPyattIPD", ["evaluate"]);
   ("IonSphereIPD", ["evaluate"]);
   ("EckerKroellIPD", ["evaluate"]);
   ("PauliBlockingIPD", ["evaluate"]);
   ("IPDSum", ["evaluate"]);
   ("DebyeHueckelScreeningLength", ["evaluate"]);
   ("Gericke2010ScreeningLength", ["evaluate"]);
   ("ArbitraryDegeneracyScreeningLength", ["evaluate"]);
   ("ConstantScreeningLength", ["evaluate"]);
   ("LinearResponseScreeningGericke2010", ["evaluate"]);
   ("GregoriCHSScreening", ["evaluate"]);
   ("FiniteWavelengthScreening", ["evaluate"]);
   ("DebyeHueckelScreening", ["evaluate"]);
   ("LinearResponseScreening", ["evaluate"]);
   ("Gregori2004Screening", ["evaluate"]);
   ("SLFCGeldart1966", ["evaluate"; "evaluate_fullk"]);
   ("SLFCUtsumi1982", ["evaluate"; "evaluate_fullk"]);
   ("SLFCFarid1993", ["evaluate"; "evaluate_fullk"]);
   ("ESLFCDornheim2021", ["evaluate"; "evaluate_fullk"]);
   ("SLFCInterpFortmann2010", ["evaluate"; "evaluate_fullk"]);
   ("SLFCInterpGregori2007", ["evaluate"; "evaluate_fullk"]);
   ("LFCConstant", ["evaluate"; "evaluate_fullk"]);
   ("Sum_Sii", ["S_ii_on_grid"; "check_supports_S_ii_grid"; "evaluate"]);
   ("AverageAtom_Sii", ["S_ii_on_grid"; "check_supports_S_ii_grid"; "evaluate"]);
   ("DebyeHueckel_BM_V", ["V"; "evaluate"]);
   ("FiniteWavelength_BM_V", ["V"; "evaluate"]);
   ("NoEdge", ["evaluate"]);
   ("NonNegative", ["evaluate"]);
   ("Heaviside", ["evaluate"]);
   ("Fermi", ["evaluate"]);
   ("PotentialSum", ["T"; "full_k"; "long_k"; "short_r"]);
   ("ScaledPotential", ["T"; "full_k"; "long_k"; "short_r"]);
   ("CoulombPotential", ["T"; "full_k"; "long_k"; "short_r"]);
   ("DebyeHueckelPotential", ["T"; "full_k"; "long_k"; "short_r"]);
   ("KelbgPotential", ["T"; "full_k"; "long_k"; "short_r"]);
   ("KlimontovichKraeftPotential", ["T"; "full_k"; "long_k"; "short_r"]);
   ("DeutschPotential", ["T"; "full_k"; "long_k"; "short_r"]);
   ("EmptyCorePotential", ["T"; "full_k"; "long_k"; "short_r"]);
   ("YukawaShortRangeRepulsion", ["T"; "full_k"; "long_k"; "short_r"]);
   ("SoftCorePotential", ["T"; "full_k"; "long_k"; "short_r"]);
   ("PauliClassicalMap", ["T"; "full_k"; "long_k"; "short_r"]);
   ("SpinSeparatedEEExchange", ["T"; "full_k"; "long_k"; "short_r"]);
   ("SpinAveragedEEExchange", ["T"; "full_k"; "long_k"; "short_r"])].
