(** How each shipped class is taken apart and rebuilt at a jit boundary
    (generated from the source text by a script; every entry cites its methods).
    Fields: class name; attributes [_tree_flatten] lists as children and as static
    data; class [_tree_unflatten] instantiates; attributes it assigns from the
    children and from the static data; attributes a constructor sets.  The property
    [include_electrons] of sums stands for its backing field, and [_overwritten] for
    its only entry "ion_core_radius". *)
From Coq Require Import String List.
Import ListNotations.
Open Scope string_scope.
Open Scope list_scope.

(** Static data: a tuple, a dictionary or the bare value of one attribute. *)
Inductive auxform := ATuple (l : list string) | ADict (l : list (string * string)) | ABare (a : string).
Record pcls := PC {
  pc_name : string; pc_children : list string; pc_aux : auxform;
  pc_new : string; pc_un_children : list string; pc_un_aux : auxform; pc_attrs : list string }.

Definition pytree_classes : list pcls := [
  (* models.py:144-154 (of Model), __init__ models.py:68-70 (of Model) *)
  PC "Neglect" [] (ATuple ["model_key"])
     "Neglect" [] (ATuple ["model_key"])
     ["model_key"];
  (* models.py:144-154 (of Model), __init__ models.py:68-70 (of Model) *)
  PC "ArkhipovIonFeat" [] (ATuple ["model_key"])
     "ArkhipovIonFeat" [] (ATuple ["model_key"])
     ["model_key"];
  (* models.py:144-154 (of Model), __init__ models.py:68-70 (of Model) *)
  PC "Gregori2003IonFeat" [] (ATuple ["model_key"])
     "Gregori2003IonFeat" [] (ATuple ["model_key"])
     ["model_key"];
  (* models.py:144-154 (of Model), __init__ models.py:68-70 (of Model) *)
  PC "Gregori2006IonFeat" [] (ATuple ["model_key"])
     "Gregori2006IonFeat" [] (ATuple ["model_key"])
     ["model_key"];
  (* models.py:144-154 (of Model), __init__ models.py:68-70 (of Model) *)
  PC "CHSIonFeat" [] (ATuple ["model_key"])
     "CHSIonFeat" [] (ATuple ["model_key"])
     ["model_key"];
  (* models.py:749-760, __init__ models.py:740-742 *)
  PC "FixedSii" ["_S_ii"] (ATuple ["model_key"])
     "FixedSii" ["_S_ii"] (ATuple ["model_key"])
     ["_S_ii"; "model_key"];
  (* models.py:902-918, __init__ models.py:788-829 *)
  PC "OnePotentialHNCIonFeat" ["r_min"; "r_max"; "mix"; "tmult"] (ATuple ["model_key"; "pot"; "SVT"; "cramer_solve_max_size"])
     "OnePotentialHNCIonFeat" ["r_min"; "r_max"; "mix"; "tmult"] (ATuple ["model_key"; "pot"; "SVT"; "cramer_solve_max_size"])
     ["r_min"; "r_max"; "SVT"; "pot"; "mix"; "tmult"; "cramer_solve_max_size"; "model_key"];
  (* models.py:1191-1206, __init__ models.py:969-1005 *)
  PC "ThreePotentialHNCIonFeat" ["r_min"; "r_max"; "mix"; "tmult"] (ATuple ["model_key"; "pot"; "SVT"])
     "ThreePotentialHNCIonFeat" ["r_min"; "r_max"; "mix"; "tmult"] (ATuple ["model_key"; "pot"; "SVT"])
     ["r_min"; "r_max"; "pot"; "mix"; "SVT"; "tmult"; "model_key"];
  (* models.py:1254-1265, __init__ models.py:1218-1243 *)
  PC "PeakCollection" ["k_pos"; "intensity"; "peak_function"] (ATuple ["model_key"])
     "PeakCollection" ["k_pos"; "intensity"; "peak_function"] (ATuple ["model_key"])
     ["k_pos"; "intensity"; "peak_function"; "model_key"];
  (* models.py:1348-1359, __init__ models.py:1307-1324 *)
  PC "DebyeWallerSolid" ["S_plasma"; "b"] (ATuple ["model_key"])
     "DebyeWallerSolid" ["S_plasma"; "b"] (ATuple ["model_key"])
     ["S_plasma"; "b"; "model_key"];
  (* models.py:273-282 (of ScatteringModel), __init__ models.py:199-210 (of ScatteringModel) *)
  PC "QCSalpeterApproximation" [] (ATuple ["model_key"; "sample_points"])
     "QCSalpeterApproximation" [] (ATuple ["model_key"; "sample_points"])
     ["sample_points"; "model_key"];
  (* models.py:273-282 (of ScatteringModel), __init__ models.py:199-210 (of ScatteringModel) *)
  PC "RPA" [] (ATuple ["model_key"; "sample_points"])
     "RPA" [] (ATuple ["model_key"; "sample_points"])
     ["sample_points"; "model_key"];
  (* models.py:273-282 (of ScatteringModel), __init__ models.py:199-210 (of ScatteringModel) *)
  PC "RPA_DandreaFit" [] (ATuple ["model_key"; "sample_points"])
     "RPA_DandreaFit" [] (ATuple ["model_key"; "sample_points"])
     ["sample_points"; "model_key"];
  (* models.py:1766-1781, __init__ models.py:1676-1679 *)
  PC "BornMermin_Full" [] (ATuple ["model_key"; "sample_points"; "RPA_rewrite"; "KKT"])
     "BornMermin_Full" [] (ATuple ["model_key"; "sample_points"; "RPA_rewrite"; "KKT"])
     ["RPA_rewrite"; "KKT"; "sample_points"; "model_key"];
  (* models.py:2057-2086, __init__ models.py:1881-1897 *)
  PC "BornMermin" ["E_cutoff_min"; "E_cutoff_max"] (ATuple ["model_key"; "sample_points"; "no_of_freq"; "RPA_rewrite"; "KKT"])
     "BornMermin" ["E_cutoff_min"; "E_cutoff_max"] (ATuple ["model_key"; "sample_points"; "no_of_freq"; "RPA_rewrite"; "KKT"])
     ["RPA_rewrite"; "KKT"; "E_cutoff_min"; "E_cutoff_max"; "sample_points"; "model_key"; "no_of_freq"];
  (* models.py:2318-2347, __init__ models.py:2140-2156 *)
  PC "BornMermin_Fit" ["E_cutoff_min"; "E_cutoff_max"] (ATuple ["model_key"; "sample_points"; "no_of_freq"; "RPA_rewrite"; "KKT"])
     "BornMermin_Fit" ["E_cutoff_min"; "E_cutoff_max"] (ATuple ["model_key"; "sample_points"; "no_of_freq"; "RPA_rewrite"; "KKT"])
     ["RPA_rewrite"; "KKT"; "E_cutoff_min"; "E_cutoff_max"; "sample_points"; "model_key"; "no_of_freq"];
  (* models.py:2565-2594, __init__ models.py:2403-2419 *)
  PC "BornMermin_Fortmann" ["E_cutoff_min"; "E_cutoff_max"] (ATuple ["model_key"; "sample_points"; "no_of_freq"; "RPA_rewrite"; "KKT"])
     "BornMermin_Fortmann" ["E_cutoff_min"; "E_cutoff_max"] (ATuple ["model_key"; "sample_points"; "no_of_freq"; "RPA_rewrite"; "KKT"])
     ["RPA_rewrite"; "KKT"; "E_cutoff_min"; "E_cutoff_max"; "sample_points"; "model_key"; "no_of_freq"];
  (* models.py:2778-2792, __init__ models.py:2623-2638 *)
  PC "SchumacherImpulse" [] (ATuple ["model_key"; "sample_points"; "r_k"])
     "SchumacherImpulse" [] (ATuple ["model_key"; "sample_points"; "r_k"])
     ["r_k"; "sample_points"; "model_key"];
  (* models.py:2913-2927, __init__ models.py:2814-2830 *)
  PC "SchumacherImpulseColdEdges" [] (ATuple ["model_key"; "sample_points"; "r_k"])
     "SchumacherImpulseColdEdges" [] (ATuple ["model_key"; "sample_points"; "r_k"])
     ["r_k"; "sample_points"; "model_key"];
  (* models.py:3037-3050, __init__ models.py:2961-2962 *)
  PC "SchumacherImpulseFitRk" [] (ATuple ["model_key"; "sample_points"])
     "SchumacherImpulseFitRk" [] (ATuple ["model_key"; "sample_points"])
     ["sample_points"; "model_key"];
  (* models.py:273-282 (of ScatteringModel), __init__ models.py:199-210 (of ScatteringModel) *)
  PC "DetailedBalance" [] (ATuple ["model_key"; "sample_points"])
     "DetailedBalance" [] (ATuple ["model_key"; "sample_points"])
     ["sample_points"; "model_key"];
  (* models.py:144-154 (of Model), __init__ models.py:68-70 (of Model) *)
  PC "PaulingFormFactors" [] (ATuple ["model_key"])
     "PaulingFormFactors" [] (ATuple ["model_key"])
     ["model_key"];
  (* models.py:3230-3239, __init__ models.py:3163-3170 *)
  PC "FormFactorLowering" [] (ATuple ["model_key"; "Z_squared_correction"])
     "FormFactorLowering" [] (ATuple ["model_key"; "Z_squared_correction"])
     ["Z_squared_correction"; "model_key"];
  (* models.py:144-154 (of Model), __init__ models.py:68-70 (of Model) *)
  PC "IchimaruChemPotential" [] (ATuple ["model_key"])
     "IchimaruChemPotential" [] (ATuple ["model_key"])
     ["model_key"];
  (* models.py:144-154 (of Model), __init__ models.py:68-70 (of Model) *)
  PC "SommerfeldChemPotential" [] (ATuple ["model_key"])
     "SommerfeldChemPotential" [] (ATuple ["model_key"])
     ["model_key"];
  (* models.py:144-154 (of Model), __init__ models.py:68-70 (of Model) *)
  PC "NonDegenerateElectronChemPotential" [] (ATuple ["model_key"])
     "NonDegenerateElectronChemPotential" [] (ATuple ["model_key"])
     ["model_key"];
  (* models.py:144-154 (of Model), __init__ models.py:68-70 (of Model) *)
  PC "DegenerateElectronChemPotential" [] (ATuple ["model_key"])
     "DegenerateElectronChemPotential" [] (ATuple ["model_key"])
     ["model_key"];
  (* models.py:3358-3369, __init__ models.py:3347-3349 *)
  PC "ConstantChemPotential" ["value"] (ATuple ["model_key"])
     "ConstantChemPotential" ["value"] (ATuple ["model_key"])
     ["value"; "model_key"];
  (* models.py:3395-3406, __init__ models.py:3384-3386 *)
  PC "ConstantDebyeTemp" ["value"] (ATuple ["model_key"])
     "ConstantDebyeTemp" ["value"] (ATuple ["model_key"])
     ["value"; "model_key"];
  (* models.py:144-154 (of Model), __init__ models.py:68-70 (of Model) *)
  PC "BohmStaver" [] (ATuple ["model_key"])
     "BohmStaver" [] (ATuple ["model_key"])
     ["model_key"];
  (* models.py:3512-3523, __init__ models.py:3501-3503 *)
  PC "ConstantIPD" ["value"] (ATuple ["model_key"])
     "ConstantIPD" ["value"] (ATuple ["model_key"])
     ["value"; "model_key"];
  (* models.py:3603-3612, __init__ models.py:3562-3564 *)
  PC "DebyeHueckelIPD" [] (ATuple ["model_key"; "arb_deg"])
     "DebyeHueckelIPD" [] (ATuple ["model_key"; "arb_deg"])
     ["arb_deg"; "model_key"];
  (* models.py:3664-3674, __init__ models.py:3644-3649 *)
  PC "StewartPyattPrestonIPD" [] (ATuple ["model_key"; "arb_deg"; "crowley_correction"])
     "StewartPyattPrestonIPD" [] (ATuple ["model_key"; "arb_deg"; "crowley_correction"])
     ["crowley_correction"; "arb_deg"; "model_key"];
  (* models.py:3764-3773, __init__ models.py:3723-3725 *)
  PC "StewartPyattIPD" [] (ATuple ["model_key"; "arb_deg"])
     "StewartPyattIPD" [] (ATuple ["model_key"; "arb_deg"])
     ["arb_deg"; "model_key"];
  (* models.py:3843-3853, __init__ models.py:3803-3806 *)
  PC "IonSphereIPD" ["C"] (ABare "model_key")
     "IonSphereIPD" ["C"] (ABare "model_key")
     ["arb_deg"; "C"; "model_key"];
  (* models.py:3942-3952, __init__ models.py:3892-3895 *)
  PC "EckerKroellIPD" ["C"] (ATuple ["model_key"; "arb_deg"])
     "EckerKroellIPD" ["C"] (ATuple ["model_key"; "arb_deg"])
     ["arb_deg"; "C"; "model_key"];
  (* models.py:144-154 (of Model), __init__ models.py:68-70 (of Model) *)
  PC "PauliBlockingIPD" [] (ATuple ["model_key"])
     "PauliBlockingIPD" [] (ATuple ["model_key"])
     ["model_key"];
  (* models.py:4053-4064, __init__ models.py:4016-4025 *)
  PC "IPDSum" ["list_of_ipds"] (ATuple ["model_key"])
     "IPDSum" ["list_of_ipds"] (ATuple ["model_key"])
     ["list_of_ipds"; "model_key"];
  (* models.py:144-154 (of Model), __init__ models.py:68-70 (of Model) *)
  PC "DebyeHueckelScreeningLength" [] (ATuple ["model_key"])
     "DebyeHueckelScreeningLength" [] (ATuple ["model_key"])
     ["model_key"];
  (* models.py:144-154 (of Model), __init__ models.py:68-70 (of Model) *)
  PC "Gericke2010ScreeningLength" [] (ATuple ["model_key"])
     "Gericke2010ScreeningLength" [] (ATuple ["model_key"])
     ["model_key"];
  (* models.py:144-154 (of Model), __init__ models.py:68-70 (of Model) *)
  PC "ArbitraryDegeneracyScreeningLength" [] (ATuple ["model_key"])
     "ArbitraryDegeneracyScreeningLength" [] (ATuple ["model_key"])
     ["model_key"];
  (* models.py:4165-4176, __init__ models.py:4154-4156 *)
  PC "ConstantScreeningLength" ["value"] (ATuple ["model_key"])
     "ConstantScreeningLength" ["value"] (ATuple ["model_key"])
     ["value"; "model_key"];
  (* models.py:144-154 (of Model), __init__ models.py:68-70 (of Model) *)
  PC "LinearResponseScreeningGericke2010" [] (ATuple ["model_key"])
     "LinearResponseScreeningGericke2010" [] (ATuple ["model_key"])
     ["model_key"];
  (* models.py:144-154 (of Model), __init__ models.py:68-70 (of Model) *)
  PC "GregoriCHSScreening" [] (ATuple ["model_key"])
     "GregoriCHSScreening" [] (ATuple ["model_key"])
     ["model_key"];
  (* models.py:144-154 (of Model), __init__ models.py:68-70 (of Model) *)
  PC "FiniteWavelengthScreening" [] (ATuple ["model_key"])
     "FiniteWavelengthScreening" [] (ATuple ["model_key"])
     ["model_key"];
  (* models.py:144-154 (of Model), __init__ models.py:68-70 (of Model) *)
  PC "DebyeHueckelScreening" [] (ATuple ["model_key"])
     "DebyeHueckelScreening" [] (ATuple ["model_key"])
     ["model_key"];
  (* models.py:144-154 (of Model), __init__ models.py:68-70 (of Model) *)
  PC "LinearResponseScreening" [] (ATuple ["model_key"])
     "LinearResponseScreening" [] (ATuple ["model_key"])
     ["model_key"];
  (* models.py:144-154 (of Model), __init__ models.py:68-70 (of Model) *)
  PC "Gregori2004Screening" [] (ATuple ["model_key"])
     "Gregori2004Screening" [] (ATuple ["model_key"])
     ["model_key"];
  (* models.py:144-154 (of Model), __init__ models.py:68-70 (of Model) *)
  PC "SLFCGeldart1966" [] (ATuple ["model_key"])
     "SLFCGeldart1966" [] (ATuple ["model_key"])
     ["model_key"];
  (* models.py:144-154 (of Model), __init__ models.py:68-70 (of Model) *)
  PC "SLFCUtsumi1982" [] (ATuple ["model_key"])
     "SLFCUtsumi1982" [] (ATuple ["model_key"])
     ["model_key"];
  (* models.py:144-154 (of Model), __init__ models.py:68-70 (of Model) *)
  PC "SLFCFarid1993" [] (ATuple ["model_key"])
     "SLFCFarid1993" [] (ATuple ["model_key"])
     ["model_key"];
  (* models.py:144-154 (of Model), __init__ models.py:68-70 (of Model) *)
  PC "ESLFCDornheim2021" [] (ATuple ["model_key"])
     "ESLFCDornheim2021" [] (ATuple ["model_key"])
     ["model_key"];
  (* models.py:144-154 (of Model), __init__ models.py:68-70 (of Model) *)
  PC "SLFCInterpFortmann2010" [] (ATuple ["model_key"])
     "SLFCInterpFortmann2010" [] (ATuple ["model_key"])
     ["model_key"];
  (* models.py:144-154 (of Model), __init__ models.py:68-70 (of Model) *)
  PC "SLFCInterpGregori2007" [] (ATuple ["model_key"])
     "SLFCInterpGregori2007" [] (ATuple ["model_key"])
     ["model_key"];
  (* models.py:4885-4896, __init__ models.py:4860-4862 *)
  PC "LFCConstant" ["value"] (ATuple ["model_key"])
     "LFCConstant" ["value"] (ATuple ["model_key"])
     ["value"; "model_key"];
  (* models.py:144-154 (of Model), __init__ models.py:68-70 (of Model) *)
  PC "Sum_Sii" [] (ATuple ["model_key"])
     "Sum_Sii" [] (ATuple ["model_key"])
     ["model_key"];
  (* models.py:5099-5113, __init__ models.py:4997-5029 *)
  PC "AverageAtom_Sii" ["r_min"; "r_max"; "mix"; "tmult"] (ATuple ["model_key"; "pot"])
     "AverageAtom_Sii" ["r_min"; "r_max"; "mix"; "tmult"] (ATuple ["model_key"; "pot"])
     ["r_min"; "r_max"; "pot"; "mix"; "tmult"; "model_key"];
  (* models.py:144-154 (of Model), __init__ models.py:68-70 (of Model) *)
  PC "DebyeHueckel_BM_V" [] (ATuple ["model_key"])
     "DebyeHueckel_BM_V" [] (ATuple ["model_key"])
     ["model_key"];
  (* models.py:144-154 (of Model), __init__ models.py:68-70 (of Model) *)
  PC "FiniteWavelength_BM_V" [] (ATuple ["model_key"])
     "FiniteWavelength_BM_V" [] (ATuple ["model_key"])
     ["model_key"];
  (* models.py:144-154 (of Model), __init__ models.py:68-70 (of Model) *)
  PC "NoEdge" [] (ATuple ["model_key"])
     "NoEdge" [] (ATuple ["model_key"])
     ["model_key"];
  (* models.py:144-154 (of Model), __init__ models.py:68-70 (of Model) *)
  PC "NonNegative" [] (ATuple ["model_key"])
     "NonNegative" [] (ATuple ["model_key"])
     ["model_key"];
  (* models.py:144-154 (of Model), __init__ models.py:68-70 (of Model) *)
  PC "Heaviside" [] (ATuple ["model_key"])
     "Heaviside" [] (ATuple ["model_key"])
     ["model_key"];
  (* models.py:144-154 (of Model), __init__ models.py:68-70 (of Model) *)
  PC "Fermi" [] (ATuple ["model_key"])
     "Fermi" [] (ATuple ["model_key"])
     ["model_key"];
  (* hnc_potentials.py:695-709, __init__ hnc_potentials.py:602-620 *)
  PC "PotentialSum" ["potentials"] (ADict [("include_electrons", "_include_electrons"); ("model_key", "model_key")])
     "PotentialSum" ["potentials"] (ADict [("model_key", "model_key"); ("include_electrons", "_include_electrons")])
     ["potentials"; "model_key"; "_include_electrons"];
  (* hnc_potentials.py:775-789, __init__ hnc_potentials.py:719-723 *)
  PC "ScaledPotential" ["potential"; "factor"] (ADict [("include_electrons", "_include_electrons"); ("model_key", "model_key")])
     "ScaledPotential" ["potential"; "factor"] (ADict [("model_key", "model_key"); ("include_electrons", "_include_electrons")])
     ["potential"; "factor"; "_include_electrons"; "model_key"];
  (* hnc_potentials.py:572-586 (of HNCPotential), __init__ hnc_potentials.py:296-313 (of HNCPotential) *)
  PC "CoulombPotential" ["_transform_r"] (ADict [("include_electrons", "include_electrons"); ("model_key", "model_key")])
     "CoulombPotential" ["_transform_r"] (ADict [("model_key", "model_key"); ("include_electrons", "include_electrons")])
     ["_transform_r"; "model_key"; "include_electrons"];
  (* hnc_potentials.py:572-586 (of HNCPotential), __init__ hnc_potentials.py:296-313 (of HNCPotential) *)
  PC "DebyeHueckelPotential" ["_transform_r"] (ADict [("include_electrons", "include_electrons"); ("model_key", "model_key")])
     "DebyeHueckelPotential" ["_transform_r"] (ADict [("model_key", "model_key"); ("include_electrons", "include_electrons")])
     ["_transform_r"; "model_key"; "include_electrons"];
  (* hnc_potentials.py:572-586 (of HNCPotential), __init__ hnc_potentials.py:296-313 (of HNCPotential) *)
  PC "KelbgPotential" ["_transform_r"] (ADict [("include_electrons", "include_electrons"); ("model_key", "model_key")])
     "KelbgPotential" ["_transform_r"] (ADict [("model_key", "model_key"); ("include_electrons", "include_electrons")])
     ["_transform_r"; "model_key"; "include_electrons"];
  (* hnc_potentials.py:572-586 (of HNCPotential), __init__ hnc_potentials.py:296-313 (of HNCPotential) *)
  PC "KlimontovichKraeftPotential" ["_transform_r"] (ADict [("include_electrons", "include_electrons"); ("model_key", "model_key")])
     "KlimontovichKraeftPotential" ["_transform_r"] (ADict [("model_key", "model_key"); ("include_electrons", "include_electrons")])
     ["_transform_r"; "model_key"; "include_electrons"];
  (* hnc_potentials.py:572-586 (of HNCPotential), __init__ hnc_potentials.py:296-313 (of HNCPotential) *)
  PC "DeutschPotential" ["_transform_r"] (ADict [("include_electrons", "include_electrons"); ("model_key", "model_key")])
     "DeutschPotential" ["_transform_r"] (ADict [("model_key", "model_key"); ("include_electrons", "include_electrons")])
     ["_transform_r"; "model_key"; "include_electrons"];
  (* hnc_potentials.py:572-586 (of HNCPotential), __init__ hnc_potentials.py:1258-1262 *)
  PC "EmptyCorePotential" ["_transform_r"] (ADict [("include_electrons", "include_electrons"); ("model_key", "model_key")])
     "EmptyCorePotential" ["_transform_r"] (ADict [("model_key", "model_key"); ("include_electrons", "include_electrons")])
     ["include_electrons"; "_transform_r"; "model_key"];
  (* hnc_potentials.py:1387-1401, __init__ hnc_potentials.py:1324-1330 *)
  PC "YukawaShortRangeRepulsion" ["_transform_r"; "sigma"] (ADict [("include_electrons", "include_electrons"); ("model_key", "model_key")])
     "YukawaShortRangeRepulsion" ["_transform_r"; "sigma"] (ADict [("model_key", "model_key"); ("include_electrons", "include_electrons")])
     ["sigma"; "_transform_r"; "model_key"; "include_electrons"];
  (* hnc_potentials.py:1515-1529, __init__ hnc_potentials.py:1428-1436 *)
  PC "SoftCorePotential" ["_transform_r"; "beta"] (ADict [("include_electrons", "include_electrons"); ("model_key", "model_key")])
     "SoftCorePotential" ["_transform_r"; "beta"] (ADict [("model_key", "model_key"); ("include_electrons", "include_electrons")])
     ["beta"; "include_electrons"; "_transform_r"; "model_key"];
  (* hnc_potentials.py:1624-1638, __init__ hnc_potentials.py:1544-1551 *)
  PC "PauliClassicalMap" ["_transform_r"] (ADict [("include_electrons", "include_electrons"); ("model_key", "model_key")])
     "PauliClassicalMap" ["_transform_r"] (ADict [("model_key", "model_key"); ("include_electrons", "include_electrons")])
     ["include_electrons"; "_transform_r"; "model_key"];
  (* hnc_potentials.py:572-586 (of HNCPotential), __init__ hnc_potentials.py:1657-1665 *)
  PC "SpinSeparatedEEExchange" ["_transform_r"] (ADict [("include_electrons", "include_electrons"); ("model_key", "model_key")])
     "SpinSeparatedEEExchange" ["_transform_r"] (ADict [("model_key", "model_key"); ("include_electrons", "include_electrons")])
     ["include_electrons"; "_transform_r"; "model_key"];
  (* hnc_potentials.py:572-586 (of HNCPotential), __init__ hnc_potentials.py:296-313 (of HNCPotential) *)
  PC "SpinAveragedEEExchange" ["_transform_r"] (ADict [("include_electrons", "include_electrons"); ("model_key", "model_key")])
     "SpinAveragedEEExchange" ["_transform_r"] (ADict [("model_key", "model_key"); ("include_electrons", "include_electrons")])
     ["_transform_r"; "model_key"; "include_electrons"];
  (* instrument_function.py:91-101, __init__ instrument_function.py:50-80 *)
  PC "Gaussian" ["sigma"] (ATuple [])
     "Gaussian" ["sigma"] (ATuple [])
     ["sigma"];
  (* instrument_function.py:165-178, __init__ instrument_function.py:105-152 *)
  PC "TwinGaussian" ["sigma1"; "sigma2"] (ATuple [])
     "TwinGaussian" ["sigma1"; "sigma2"] (ATuple [])
     ["sigma1"; "sigma2"];
  (* instrument_function.py:232-241, __init__ instrument_function.py:182-221 *)
  PC "SuperGaussian" ["sigma"; "power"] (ATuple [])
     "SuperGaussian" ["sigma"; "power"] (ATuple [])
     ["sigma"; "power"];
  (* instrument_function.py:268-279, __init__ instrument_function.py:245-263 *)
  PC "Lorentzian" ["gamma"] (ATuple [])
     "Lorentzian" ["gamma"] (ATuple [])
     ["gamma"];
  (* instrument_function.py:380-389, __init__ instrument_function.py:345-368 *)
  PC "FromArray" ["omega"; "ints"] (ATuple [])
     "FromArray" ["omega"; "ints"] (ATuple [])
     ["omega"; "ints"];
  (* plasmastate.py:518-545, __init__ plasmastate.py:60-117 *)
  PC "PlasmaState" ["Z_free"; "mass_density"; "T_e"; "T_i"; "_overwritten"; "models"] (ATuple ["ions"])
     "PlasmaState" ["Z_free"; "mass_density"; "T_e"; "T_i"; "_overwritten"; "models"] (ATuple ["ions"])
     ["ions"; "Z_free"; "mass_density"; "T_i"; "models"; "_overwritten"; "T_e"];
  (* setup.py:184-206, __init__ setup.py:24-83 *)
  PC "Setup" ["scattering_angle"; "energy"; "measured_energy"; "instrument"; "frc_exponent"] (ATuple ["correct_k_dispersion"])
     "Setup" ["scattering_angle"; "energy"; "measured_energy"; "instrument"; "frc_exponent"] (ATuple ["correct_k_dispersion"])
     ["scattering_angle"; "energy"; "measured_energy"; "instrument"; "correct_k_dispersion"; "frc_exponent"];
  (* analysis.py:181-203, __init__ analysis.py:106-127 *)
  PC "ITCF" ["S_ee_conv"; "E_shift"; "instrument"; "instrument_E"; "E_cut"] (ATuple ["raw"])
     "ITCF" ["S_ee_conv"; "E_shift"; "instrument"; "instrument_E"; "E_cut"] (ATuple ["raw"])
     ["S_ee_conv"; "E_shift"; "instrument"; "instrument_E"; "E_cut"; "raw"];
  (* free_bound.py:96-116, __init__ free_bound.py:35-45 *)
  PC "FreeBoundFlippedSetup" ["scattering_angle"; "energy"; "measured_energy"; "instrument"] (ATuple ["correct_k_dispersion"])
     "FreeBoundFlippedSetup" ["scattering_angle"; "energy"; "measured_energy"; "instrument"] (ATuple ["correct_k_dispersion"])
     ["scattering_angle"; "energy"; "measured_energy"; "instrument"; "correct_k_dispersion"]
].
