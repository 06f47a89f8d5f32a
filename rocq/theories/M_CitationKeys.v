(** The citation keys of every class that can be attached (generated from the source
    by a script: the class attribute cite_keys of models.py and hnc_potentials.py, looked
    up along the base classes, lines cited) and the keys of literature.bib. *)
From Coq Require Import String List.
From Verif Require Import M_Citation.
Import ListNotations.
Open Scope string_scope.
Open Scope list_scope.

Definition class_citations : list (string * list entry) :=
  [
   (* models.py:64 *) ("Model", []);
   (* models.py:64 *) ("ScatteringModel", []);
   (* models.py:64 *) ("Neglect", []);
   (* models.py:64 *) ("IonFeatModel", []);
   (* models.py:506 *) ("ArkhipovIonFeat", [Key "Arkhipov.1998"; Key "Arkhipov.2000"; Key "Gregori.2006b"]);
   (* models.py:559 *) ("Gregori2003IonFeat", [Key "Gregori.2003"; Key "Gregori.2006b"]);
   (* models.py:628 *) ("Gregori2006IonFeat", [Key "Gregori.2006"; Key "Gregori.2006b"]);
   (* models.py:693 *) ("CHSIonFeat", [Noted ["Gregori.2007"; "Singh.1983"] "Formulation of model"; Noted ["Gregori.2006"] "Effective temperatures"; Noted ["Gregori.2006b"] "Extension to multicomponent system"]);
   (* models.py:64 *) ("FixedSii", []);
   (* models.py:783 *) ("OnePotentialHNCIonFeat", [Noted ["Wunsch.2011"] "Basis for the implementation of the HNC scheme."]);
   (* models.py:960 *) ("ThreePotentialHNCIonFeat", [Noted ["Schwarz.2007"] "Description of two-comenponent, two-temperature HNC"; Noted ["Wunsch.2011"] "Basis for the implementation of the HNC scheme."]);
   (* models.py:64 *) ("PeakCollection", []);
   (* models.py:1302 *) ("DebyeWallerSolid", [Noted ["Gregori.2006"] "Formulation of the Model."; Noted ["Murphy.2008"] "Definition of the Debye Waller Factor."]);
   (* models.py:64 *) ("FreeFreeModel", []);
   (* models.py:1415 *) ("QCSalpeterApproximation", [Noted ["Salpeter.1960"] "Basal model."; Noted ["Gregori.2003"] "Quantum correction to the original model."]);
   (* models.py:64 *) ("RPA", []);
   (* models.py:1564 *) ("RPA_DandreaFit", [Key "Dandrea.1986"]);
   (* models.py:64 *) ("BornMermin_Full", []);
   (* models.py:64 *) ("BornMermin", []);
   (* models.py:64 *) ("BornMermin_Fit", []);
   (* models.py:64 *) ("BornMermin_Fortmann", []);
   (* models.py:64 *) ("SchumacherImpulse", []);
   (* models.py:64 *) ("SchumacherImpulseColdEdges", []);
   (* models.py:2951 *) ("SchumacherImpulseFitRk", [Key "Schumacher.1975"; Noted ["Holm.1989"] "Corrects contribution for n equals 1 and 2."; Noted ["Gu.2008"] "Edge positions."; Noted ["Dornheim.2024"] "Intensity normalization due to f-sum rule"]);
   (* models.py:3079 *) ("DetailedBalance", [Key "Bohme.2023"]);
   (* models.py:3116 *) ("PaulingFormFactors", [Key "Pauling.1932"]);
   (* models.py:3161 *) ("FormFactorLowering", [Key "Doppner.2023"]);
   (* models.py:3260 *) ("IchimaruChemPotential", [Key "Ichimaru.2018"]);
   (* models.py:3285 *) ("SommerfeldChemPotential", [Key "Cowan.2019"]);
   (* models.py:3303 *) ("NonDegenerateElectronChemPotential", []);
   (* models.py:3330 *) ("DegenerateElectronChemPotential", []);
   (* models.py:64 *) ("ConstantChemPotential", []);
   (* models.py:64 *) ("ConstantDebyeTemp", []);
   (* models.py:3422 *) ("BohmStaver", [Key "Gregori.2006"]);
   (* models.py:64 *) ("IPDModel", []);
   (* models.py:64 *) ("ConstantIPD", []);
   (* models.py:3560 *) ("DebyeHueckelIPD", [Key "Debye.1923"; Key "Crowley.2014"]);
   (* models.py:3642 *) ("StewartPyattPrestonIPD", [Key "Stewart.1966"; Key "Preston.2013"; Key "Crowley.2014"]);
   (* models.py:3721 *) ("StewartPyattIPD", [Key "Stewart.1966"; Key "Ropke.2019"; Key "Calisti.2015"]);
   (* models.py:3801 *) ("IonSphereIPD", [Key "Rozsnyai.1972"; Key "Zimmermann.1980"; Key "Crowley.2014"]);
   (* models.py:3885 *) ("EckerKroellIPD", [Key "EckerKroell.1963"; Key "Crowley.2014"; Key "Ciricosta.2012"; Key "Preston.2013"]);
   (* models.py:3972 *) ("PauliBlockingIPD", [Key "Ropke.2019"]);
   (* models.py:64 *) ("IPDSum", []);
   (* models.py:4083 *) ("DebyeHueckelScreeningLength", [Key "Debye.1923"; Key "Gericke.2010"]);
   (* models.py:4108 *) ("Gericke2010ScreeningLength", [Key "Gericke.2010"]);
   (* models.py:4133 *) ("ArbitraryDegeneracyScreeningLength", [Key "Baggott.2017"; Key "Ropke.2019"]);
   (* models.py:64 *) ("ConstantScreeningLength", []);
   (* models.py:4227 *) ("LinearResponseScreeningGericke2010", [Key "Gericke.2010"; Key "Wunsch.2011"]);
   (* models.py:4285 *) ("GregoriCHSScreening", [Key "Gregori.2006b"; Key "Gregori.2007"]);
   (* models.py:4370 *) ("FiniteWavelengthScreening", [Key "Chapman.2015b"; Noted ["Dandrea.1986"] "Analytical Fit for RPA"]);
   (* models.py:4429 *) ("DebyeHueckelScreening", [Key "Chapman.2015b"]);
   (* models.py:4473 *) ("LinearResponseScreening", [Key "Gericke.2010"; Key "Wunsch.2011"]);
   (* models.py:4523 *) ("Gregori2004Screening", [Key "Gregori.2004"]);
   (* models.py:4567 *) ("SLFCGeldart1966", [Key "Geldart.1966"]);
   (* models.py:4609 *) ("SLFCUtsumi1982", [Key "UtsumiIchimaru.1982"]);
   (* models.py:4661 *) ("SLFCFarid1993", [Key "Farid.1993"]);
   (* models.py:4714 *) ("ESLFCDornheim2021", [Key "Dornheim.2021"]);
   (* models.py:4775 *) ("SLFCInterpFortmann2010", [Noted ["Fortmann.2010"] "Interpolation."; Noted ["Farid.1993"; "Geldart.1966"] "Limits."]);
   (* models.py:4821 *) ("SLFCInterpGregori2007", [Noted ["Gregori.2007"] "Interpolation."; Noted ["UtsumiIchimaru.1982"; "Geldart.1966"] "Limits."]);
   (* models.py:64 *) ("LFCConstant", []);
   (* models.py:64 *) ("Sum_Sii", []);
   (* models.py:4992 *) ("AverageAtom_Sii", [Noted ["Wunsch.2011"] "Basis for the implementation of the HNC scheme."]);
   (* models.py:64 *) ("BM_V_eiSModel", []);
   (* models.py:64 *) ("DebyeHueckel_BM_V", []);
   (* models.py:5193 *) ("FiniteWavelength_BM_V", [Key "Dandrea.1986"]);
   (* models.py:64 *) ("EdgeModel", []);
   (* models.py:64 *) ("NoEdge", []);
   (* models.py:64 *) ("NonNegative", []);
   (* models.py:64 *) ("Heaviside", []);
   (* models.py:5308 *) ("Fermi", [Key "Mattern.2013"]);
   (* hnc_potentials.py:292 *) ("HNCPotential", []);
   (* hnc_potentials.py:292 *) ("PotentialSum", []);
   (* hnc_potentials.py:292 *) ("ScaledPotential", []);
   (* hnc_potentials.py:292 *) ("CoulombPotential", []);
   (* hnc_potentials.py:841 *) ("DebyeHueckelPotential", [Key "Wunsch.2008"]);
   (* hnc_potentials.py:918 *) ("KelbgPotential", [Key "Kelbg.1963"; Key "Wunsch.2011"; Noted ["Schwarz.2007"] "Definition of lambda_ab"]);
   (* hnc_potentials.py:1097 *) ("KlimontovichKraeftPotential", [Key "Klimontovich.1974"; Key "Wunsch.2011"; Key "Schwarz.2007"]);
   (* hnc_potentials.py:1151 *) ("DeutschPotential", [Key "Kelbg.1963"; Key "Wunsch.2011"; Noted ["Schwarz.2007"] "Definition of lambda_ab"]);
   (* hnc_potentials.py:1256 *) ("EmptyCorePotential", [Key "Gericke.2010"]);
   (* hnc_potentials.py:1322 *) ("YukawaShortRangeRepulsion", [Key "Wunsch.2009"; Key "Fletcher.2015"]);
   (* hnc_potentials.py:1426 *) ("SoftCorePotential", [Key "Gericke.2010"]);
   (* hnc_potentials.py:1542 *) ("PauliClassicalMap", [Key "Bredow.2015"; Key "DharmaWardana.2000"; Key "DharmaWardana.2012"]);
   (* hnc_potentials.py:1655 *) ("SpinSeparatedEEExchange", [Key "Wunsch.2008"; Key "Huang.1987"; Key "Deutsch.1982"]);
   (* hnc_potentials.py:1697 *) ("SpinAveragedEEExchange", [Key "Wunsch.2008"])].
(** literature.bib *)
Definition bib_keys : list string :=
  ["Antia.1993";
   "Arista.1984";
   "Arkhipov.1998";
   "Arkhipov.2000";
   "Baggott.2017";
   "Bohme.2023";
   "Bredow.2013";
   "Bredow.2015";
   "Bredow.2017";
   "Calisti.2015";
   "Chapman.2015";
   "Chapman.2015b";
   "Chapman.2016";
   "Chihara.1987";
   "Chihara.2000";
   "Ciricosta.2012";
   "Cowan.2019";
   "Crowley.2013";
   "Crowley.2014";
   "Dandrea.1986";
   "Debye.1923";
   "Deutsch.1977";
   "Deutsch.1982";
   "DharmaWardana.2000";
   "DharmaWardana.2012";
   "Doppner.2023";
   "Dornheim.2019";
   "Dornheim.2020";
   "Dornheim.2021";
   "Dornheim.2022";
   "Dornheim.2024";
   "Dornheim.2024b";
   "EckerKroell.1963";
   "Farid.1993";
   "flax.2020";
   "Fletcher.2015";
   "FLYCHK";
   "Fortmann.2010";
   "Fukushima.2015";
   "Gawne.2024";
   "Geldart.1966";
   "Gericke.2010";
   "Glenzer.2009";
   "Gregori.2003";
   "Gregori.2004";
   "Gregori.2006";
   "Gregori.2006b";
   "Gregori.2007";
   "Gu.2008";
   "Holm.1989";
   "Huang.1987";
   "Hubbard.1957";
   "Ichimaru.2018";
   "jax";
   "jaxrts2026";
   "Kelbg.1963";
   "Klimontovich.1974";
   "Kramers.1925";
   "Kramers.1927";
   "Kraus.2012";
   "Kraus.2018";
   "Kraus.2019";
   "Kraus.2025";
   "Kremp.2005";
   "Kronig.1926";
   "Kubo.1966";
   "Kumar.2021";
   "Lin.2017";
   "Lodders.2010";
   "Lutgert.2024";
   "MacDonald.2021";
   "Mattern.2013";
   "McKerns.2010";
   "McKerns.2011";
   "Mermin.1970";
   "More.1985";
   "Murphy.2008";
   "Pain.2022";
   "Pauling.1932";
   "Press.1994";
   "Preston.2013";
   "Pun.2017";
   "Redmer.2005";
   "Reinholz.2000";
   "Ropke.2019";
   "Rozsnyai.1972";
   "Salpeter.1960";
   "Schorner.2022";
   "Schorner.2023";
   "Schumacher.1975";
   "Schumacher.2025";
   "Schuster.2020";
   "Schwarz.2007";
   "Seuferling.1989";
   "Shaffer.2017";
   "Singh.1983";
   "Stanton.2017";
   "Stewart.1966";
   "Thompson.2022";
   "UtsumiIchimaru.1982";
   "Waseda.1980";
   "Wunsch.2008";
   "Wunsch.2009";
   "Wunsch.2011";
   "Wunsch.2011b";
   "Zeng.2022";
   "Zimmermann.1980"].
