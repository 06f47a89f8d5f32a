(** C141: the formulas do not depend on the system of units.  Convert the constants and
    the arguments to other units: the result is the old one, converted.  A formula that
    adds quantities of different kinds, or loses a power of a constant, fails this for some
    system of units. *)
From Coq Require Import Reals List Lra Lia.
From Coquelicot Require Import Complex.
From Verif Require Import M_Const M_PlasmaState M_Interp M_PlasmaPhysics M_FreeFree M_Setup M_BoundFree L_Rescale L_Rescale2 L_Rescale3 L_Rescale4.
From Verif Require M_IPD M_StaticSF M_LFC M_Potentials L_Rescale5 L_Rescale6 L_Rescale7.
Import ListNotations.
Open Scope R_scope.

Definition mul (c : R) : R -> R := fun x => x * c.
Definition per (c : R) : R -> R := fun x => x / c.

(** scales of a plasma: frequencies, wavenumbers, energies, temperatures, lengths, and the
    numbers made of them *)
Theorem C141_scales : forall (w : usys) (u : consts) (n T Z1 Z2 k : R), 0 < n -> 0 < T -> k <> 0 ->
  let n' := n / uL w ^ 3 in let T' := T * uK w in let k' := k / uL w in
  plasma_frequency (conv w u) n' = plasma_frequency u n / uT w /\
  coulomb_k (conv w u) Z1 Z2 k' = coulomb_k u Z1 Z2 k * (uE w * uL w ^ 3) /\
  fermi_wavenumber n' = fermi_wavenumber n / uL w /\
  fermi_energy (conv w u) n' = fermi_energy u n * uE w /\
  chem_pot_sommerfeld (conv w u) T' n' = chem_pot_sommerfeld u T n * uE w /\
  (forall mu, fermi_dirac (conv w u) k' (mu * uE w) T' = fermi_dirac u k mu T) /\
  wiegner_seitz_radius n' = wiegner_seitz_radius n * uL w /\
  (forall ns Z, debye_length (conv w u) (map (per (uL w ^ 3)) ns) Z T' = option_map (mul (uL w)) (debye_length u ns Z T)) /\
  (forall p, p <> 0 -> temperature_interpolation (conv w u) n' T' p = temperature_interpolation u n T p * uK w) /\
  therm_de_broglie_wl (conv w u) T' = therm_de_broglie_wl u T * uL w /\
  degeneracy_param (conv w u) n' T' = degeneracy_param u n T /\
  interparticle_spacing Z1 Z2 n' = interparticle_spacing Z1 Z2 n * uL w /\
  coupling_param (conv w u) Z1 Z2 n' T' = coupling_param u Z1 Z2 n T /\
  ee_coupling (conv w u) n' T' = ee_coupling u n T /\
  Teff_e (conv w u) n' T' = option_map (mul (uK w)) (Teff_e u n T).
Proof.
  intros w u n T Z1 Z2 k Hn HT Hk n' T' k'. subst n' T' k'. assert (T <> 0) by lra.
  split; [apply plasma_frequency_sc|]. split; [now apply coulomb_k_sc|]. split; [now apply (fermi_wavenumber_sc w u)|]. split; [now apply fermi_energy_sc|].
  split; [now apply chem_pot_sc|]. split; [intros mu; now apply fermi_dirac_sc|]. split; [now apply (wsr_sc w u)|]. split; [intros; apply debye_length_sc|].
  split; [intros; now apply temperature_interpolation_sc|]. split; [now apply wl_sc|]. split; [now apply degeneracy_sc|]. split; [now apply (spacing_sc w u)|].
  split; [now apply coupling_sc|]. split; [now apply ee_coupling_sc|]. now apply Teff_sc.
Qed.
Print Assumptions C141_scales.

(** the free-free spectra, whatever the quadrature and the Fermi integrals *)
Theorem C141_free_free : forall (w : usys) (u : consts) (quad : R -> option R -> (R -> option R) -> option R) (F_m12 F_32 F_52 inv_F12 : R -> R)
  (k T n E mu : R) (lfc : C) (b : bool), 0 < k -> 0 < T -> 0 < n ->
  let k' := k / uL w in let T' := T * uK w in let n' := n / uL w ^ 3 in let E' := E * uE w in let mu' := mu * uE w in
  S0_ee_RPA_no_damping (conv w u) quad b k' T' n' E' mu' lfc = option_map (mul (uT w)) (S0_ee_RPA_no_damping u quad b k T n E mu lfc) /\
  S0_ee_RPA (conv w u) quad b k' T' n' E' mu' lfc = option_map (mul (uT w)) (S0_ee_RPA u quad b k T n E mu lfc) /\
  S0_ee_RPA_Dandrea (conv w u) F_m12 F_32 F_52 inv_F12 k' T' n' E' lfc = option_map (mul (uT w)) (S0_ee_RPA_Dandrea u F_m12 F_32 F_52 inv_F12 k T n E lfc) /\
  S0_ee_Salpeter (conv w u) quad k' T' n' E' lfc = option_map (mul (uT w)) (S0_ee_Salpeter u quad k T n E lfc).
Proof.
  intros w u quad F_m12 F_32 F_52 inv_F12 k T n E mu lfc b Hk HT Hn k' T' n' E' mu'. subst k' T' n' E' mu'. assert (T <> 0) by lra. assert (n <> 0) by lra.
  split; [now apply S0_no_damping_sc|]. split; [now apply S0_RPA_sc|]. split; [now apply S0_Dandrea_sc|]. now apply S0_Salpeter_sc.
Qed.
Print Assumptions C141_free_free.

(** dielectric functions at complex energies are plain numbers *)
Theorem C141_dielectric : forall (w : usys) (u : consts) (quad : R -> option R -> (R -> option R) -> option R) (k T n x y mu : R) (b : bool), 0 < k -> 0 < T ->
  let k' := k / uL w in let T' := T * uK w in
  damped (conv w u) quad b k' (x * uE w, y * uE w) (mu * uE w) T' = damped u quad b k (x, y) mu T /\
  dielectric_function_RPA_no_damping (conv w u) quad b k' (x * uE w) (mu * uE w) T' = dielectric_function_RPA_no_damping u quad b k x mu T /\
  dielectric_function_salpeter (conv w u) quad k' T' (n / uL w ^ 3) (x * uE w) = dielectric_function_salpeter u quad k T n x.
Proof.
  intros w u quad k T n x y mu b Hk HT k' T'. subst k' T'. split; [exact (damped_sc w u quad b k (x, y) mu T Hk HT)|]. split.
  - unfold dielectric_function_RPA_no_damping. rewrite real_nd_sc, imag_nd_sc by lra. reflexivity.
  - now apply salpeter_sc.
Qed.
Print Assumptions C141_dielectric.

(** the setup and the detection *)
Theorem C141_setup : forall (w : usys) (u : consts) (s : setup) (n : R) (S : nat -> R) (i : nat), energy s <> 0 -> measured s i <> 0 -> (0 < n_chan s)%nat ->
  let s' := mkSetup (angle s) (energy s * uE w) (n_chan s) (fun j => measured s j * uE w) (fun x => instrument s (x * uT w) * uT w) (correct_k_dispersion s) (frc_exponent s) in
  M_Setup.k (conv w u) s' = M_Setup.k u s / uL w /\
  full_k (conv w u) s' i = option_map (per (uL w)) (full_k u s i) /\
  dispersion_corrected_k (conv w u) s' (n / uL w ^ 3) i = option_map (per (uL w)) (dispersion_corrected_k u s n i) /\
  frc s' i = frc s i /\
  convolve (conv w u) s' (fun j => S j * uT w) i = convolve u s S i * uT w.
Proof.
  intros w u s n S i HE Hm Hn s'. change s' with (sconv w s). upos w. split; [now apply k_sc|]. split; [now apply full_k_sc|]. split; [now apply dck_sc|]. split.
  - unfold frc. cbn [sconv measured energy frc_exponent]. f_equal. field. split; lra.
  - now apply convolve_sc.
Qed.
Print Assumptions C141_setup.

(** the bound-free spectra; the edge model compares energies only *)
Theorem C141_bound_free : forall (w : usys) (u : consts) (edge edge' : R -> R -> R -> R) (om k pop Z : R) (i : nat),
  k <> 0 -> (forall E0 E Eb, edge' (E0 * uE w) (E * uE w) (Eb * uE w) = edge E0 E Eb) ->
  let om' := om / uT w in let k' := k / uL w in
  alpha (conv w u) = alpha u /\
  J_impulse_approx (conv w u) om' k' pop i Z = option_map (mul (uT w)) (J_impulse_approx u om k pop i Z) /\
  J_BM_approx (conv w u) om' k' pop i Z = option_map (mul (uT w)) (J_BM_approx u om k pop i Z) /\
  J_BM_HR_approx (conv w u) om' k' pop i Z = option_map (mul (uT w)) (J_BM_HR_approx u om k pop i Z) /\
  (forall ions mZ r E0 E,
     SchumacherImpulse (conv w u) edge' (map (fun '(s, x) => (mkIon (Z_A s) (Z_free s) (fun c j => binding s c j * uE w) (ipd s * uE w) (ff s), x)) ions) mZ r (E0 * uE w) (E * uE w) k' =
     option_map (mul (uT w)) (SchumacherImpulse u edge ions mZ r E0 E k)).
Proof.
  intros w u edge edge' om k pop Z i Hk Hedge om' k'. subst om' k'. split; [apply alpha_sc|]. split; [now apply J_impulse_sc|]. split; [now apply J_BM_sc|]. split; [now apply J_BM_HR_sc|].
  intros. now apply (Schumacher_sc w u edge edge').
Qed.
Print Assumptions C141_bound_free.

(** the edges of the models are of this kind *)
Theorem C141_edges : forall (w : usys) (u : consts) (T E0 E Eb : R), T <> 0 ->
  let T' := T * uK w in let f := mul (uE w) in
  NoEdge T' (f E0) (f E) (f Eb) = NoEdge T E0 E Eb /\ NonNegative T' (f E0) (f E) (f Eb) = NonNegative T E0 E Eb /\
  Heaviside T' (f E0) (f E) (f Eb) = Heaviside T E0 E Eb /\ Fermi (conv w u) T' (f E0) (f E) (f Eb) = Fermi u T E0 E Eb.
Proof.
  intros w u T E0 E Eb HT T' f. subst T' f. unfold mul. upos w. kpos u.
  assert (HH : forall x, heaviside (x * uE w) = heaviside x).
  { intros x. unfold heaviside. destruct (Rlt_dec x 0), (Rlt_dec (x * uE w) 0); try reflexivity; try nra. destruct (Req_EM_T x 0) as [a|a], (Req_EM_T (x * uE w) 0) as [b|b]; try reflexivity.
    - exfalso. apply b. rewrite a. ring.
    - exfalso. apply Rmult_integral in b. destruct b; [contradiction|lra]. }
  split; [reflexivity|]. split; [|split].
  - unfold NonNegative. replace (E0 * uE w - E * uE w) with ((E0 - E) * uE w) by ring. apply HH.
  - unfold Heaviside. replace (E0 * uE w - E * uE w - Eb * uE w) with ((E0 - E - Eb) * uE w) by ring. apply HH.
  - unfold Fermi. cbv zeta. replace (1 / (T * uK w * kB (conv w u)) * (E0 * uE w - E * uE w - Eb * uE w)) with (1 / (T * kB u) * (E0 - E - Eb)) by (cbn [conv kB]; field; repeat split; lra). reflexivity.
Qed.
Print Assumptions C141_edges.

(** the potential depression; [isle]: an inverse length of the electrons' screening *)
Theorem C141_ipd : forall (w : usys) (u : consts) (isle isle' : R -> R -> R) (arb : bool) (Zi ne Te : R) (ni Ti Z Zmax : list R) (j : nat),
  (forall n T, isle' (n / uL w ^ 3) (T * uK w) = isle n T / uL w) ->
  0 < ne -> (forall n, In n ni -> 0 < n) -> 0 < sum ni -> 0 < Te -> at_ Ti j <> 0 -> at_ Zmax j <> 0 ->
  let ne' := ne / uL w ^ 3 in let ni' := map (per (uL w ^ 3)) ni in let Te' := Te * uK w in let Ti' := map (mul (uK w)) Ti in
  M_IPD.ipd_debye_hueckel (conv w u) isle' arb Zi ne' ni' Te' Ti' Z j = M_IPD.ipd_debye_hueckel u isle arb Zi ne ni Te Ti Z j * uE w /\
  (forall C, M_IPD.ipd_ion_sphere (conv w u) C Zi ne' Z j = M_IPD.ipd_ion_sphere u C Zi ne Z j * uE w) /\
  M_IPD.ipd_stewart_pyatt (conv w u) isle' arb Zi ne' ni' Te' Ti' Z j = M_IPD.ipd_stewart_pyatt u isle arb Zi ne ni Te Ti Z j * uE w /\
  (forall cc pop, M_IPD.ipd_preston (conv w u) isle' arb cc Zi ne' ni' Te' Ti' pop j = M_IPD.ipd_preston u isle arb cc Zi ne ni Te Ti pop j * uE w) /\
  (forall C, M_IPD.ipd_ecker_kroell (conv w u) isle' arb C Zi ne' ni' Te' Ti' Zmax Z j = M_IPD.ipd_ecker_kroell u isle arb C Zi ne ni Te Ti Zmax Z j * uE w) /\
  (forall pint pint', (forall a n T, pint' (a * uL w) (n / uL w ^ 3) (T * uK w) = pint a n T / uL w ^ 3) ->
     M_IPD.ipd_pauli_blocking (conv w u) pint' Zi ne' Te' = M_IPD.ipd_pauli_blocking u pint Zi ne Te * uE w).
Proof.
  intros w u isle isle' arb Zi ne Te ni Ti Z Zmax j Hi Hne Hni Hs HT HTi HZ ne' ni' Te' Ti'. subst ne' ni' Te' Ti'. assert (Te <> 0) by lra.
  split; [now apply (debye_hueckel_sc w u isle isle' Hi)|]. split; [intros; now apply ion_sphere_sc|]. split; [now apply (stewart_pyatt_sc w u isle isle' Hi)|].
  split; [intros; now apply (preston_sc w u isle isle' Hi)|]. split; [intros; now apply (ecker_kroell_sc w u isle isle' Hi)|]. intros; now apply pauli_sc.
Qed.
Print Assumptions C141_ipd.

(** static structure factors and the temperatures they take *)
Theorem C141_static_sf : forall (w : usys) (u : consts) (k Te Ti ne mi Z eps : R),
  0 < Te -> 0 < Ti -> 0 < mi -> k <> 0 -> 0 < ne -> 0 < Z ->
  let k' := k / uL w in let Te' := Te * uK w in let Ti' := Ti * uK w in let ne' := ne / uL w ^ 3 in let mi' := mi * uM w in
  M_StaticSF.S_ii_AD (conv w u) k' Te' Ti' ne' mi' Z = M_StaticSF.S_ii_AD u k Te Ti ne mi Z /\
  M_StaticSF.S_ei_AD (conv w u) k' Te' Ti' ne' mi' Z = M_StaticSF.S_ei_AD u k Te Ti ne mi Z /\
  M_StaticSF.S_ee_AD (conv w u) k' Te' Ti' ne' mi' Z = M_StaticSF.S_ee_AD u k Te Ti ne mi Z /\
  M_StaticSF.q_Gregori2004 (conv w u) eps k' mi' ne' Te' Ti' Z = M_StaticSF.q_Gregori2004 u eps k mi ne Te Ti Z /\
  M_StaticSF.T_Debye_Bohm_Staver (conv w u) Te' ne' mi' Z = M_StaticSF.T_Debye_Bohm_Staver u Te ne mi Z * uK w /\
  M_StaticSF.T_cf_Greg (conv w u) Te' ne' = option_map (mul (uK w)) (M_StaticSF.T_cf_Greg u Te ne) /\
  M_StaticSF.T_i_eff_Greg Ti' Te' = M_StaticSF.T_i_eff_Greg Ti Te * uK w.
Proof.
  intros w u k Te Ti ne mi Z eps HTe HTi Hm Hk Hn HZ k' Te' Ti' ne' mi'. subst k' Te' Ti' ne' mi'.
  split; [now apply S_ii_sc|]. split; [now apply S_ei_sc|]. split; [now apply S_ee_sc|]. split; [now apply q_Greg_sc|]. split; [now apply bohm_staver_sc|]. split; [now apply T_cf_sc|]. now apply (T_i_eff_sc w u).
Qed.
Print Assumptions C141_static_sf.

(** local field corrections: pure numbers.  [i1] is the Bessel function, [quad] the
    quadrature of the binary correlation, [double] the neural network *)
Theorem C141_lfc : forall (w : usys) (u : consts) (i1 : R -> R) (quad : (R -> R) -> R) (double : R -> R -> R) (k T n : R), 0 < n ->
  let k' := k / uL w in let T' := T * uK w in let n' := n / uL w ^ 3 in
  M_LFC.eelfc_hubbard k' n' = M_LFC.eelfc_hubbard k n /\
  M_LFC.eelfc_utsumiichimaru (conv w u) i1 k' n' = M_LFC.eelfc_utsumiichimaru u i1 k n /\
  M_LFC.eelfc_farid (conv w u) i1 k' n' = M_LFC.eelfc_farid u i1 k n /\
  M_LFC.eelfc_geldartvosko (conv w u) quad k' T' n' = M_LFC.eelfc_geldartvosko u quad k T n /\
  M_LFC.eelfc_interp_gregori2007 (conv w u) i1 quad k' T' n' = M_LFC.eelfc_interp_gregori2007 u i1 quad k T n /\
  M_LFC.eelfc_interp_fortmann2010 (conv w u) i1 quad k' T' n' = M_LFC.eelfc_interp_fortmann2010 u i1 quad k T n /\
  M_LFC.eelfc_dornheim2021 (conv w u) double k' T' n' = M_LFC.eelfc_dornheim2021 u double k T n.
Proof.
  intros w u i1 quad double k T n Hn k' T' n'. subst k' T' n'.
  split; [now apply L_Rescale5.hubbard_sc|]. split; [now apply L_Rescale5.ui_sc|]. split; [now apply L_Rescale5.farid_sc|]. split; [now apply L_Rescale5.gv_sc|].
  split; [now apply L_Rescale5.greg_sc|]. split; [now apply L_Rescale5.fort_sc|]. now apply L_Rescale5.dorn_sc.
Qed.
Print Assumptions C141_lfc.

(** pair potentials: [osc s g f f'] says that both are missing, or [f' (x * s) = f x * g].
    [econv] converts the masses, temperatures, radii and densities of the state, [cconv]
    the length that a Yukawa potential carries *)
Theorem C141_potentials : forall (w : usys) (u : consts) (md : M_Potentials.mode) (E : M_Potentials.env) (a b : nat) (c : M_Potentials.cls),
  (forall f g, c <> M_Potentials.Pauli f g) -> 0 < at_ (M_Potentials.densities md E) a -> 0 < at_ (M_Potentials.densities md E) b ->
  let E' := L_Rescale6.econv w E in let c' := L_Rescale6.cconv w c in
  L_Rescale6.osc (uL w) (uE w) (M_Potentials.full_r u md E a b c) (M_Potentials.full_r (conv w u) md E' a b c') /\
  L_Rescale6.osc (uL w) (uE w) (M_Potentials.long_r u md E a b c) (M_Potentials.long_r (conv w u) md E' a b c') /\
  L_Rescale6.osc (uL w) (uE w) (M_Potentials.short_r u md E a b c) (M_Potentials.short_r (conv w u) md E' a b c') /\
  (In c [M_Potentials.Coulomb; M_Potentials.DebyeHueckel; M_Potentials.Deutsch; M_Potentials.EmptyCore] -> forall tr tr' tg tg',
    L_Rescale6.osc (/ uL w) (uE w * uL w ^ 3) (M_Potentials.full_k u tr tg md E a b c) (M_Potentials.full_k (conv w u) tr' tg' md E' a b c) /\
    L_Rescale6.osc (/ uL w) (uE w * uL w ^ 3) (M_Potentials.long_k u tr md E a b c) (M_Potentials.long_k (conv w u) tr' md E' a b c)).
Proof.
  intros w u md E a b c Hc Ha Hb E' c'. subst E' c'. split; [now apply L_Rescale6.full_r_sc|]. split; [now apply L_Rescale6.long_r_sc|]. split; [now apply L_Rescale6.short_r_sc|].
  intros Hi tr tr' tg tg'. now apply L_Rescale6.k_sc'.
Qed.
Print Assumptions C141_potentials.

(** the Born collision frequency, its screening and its potential.  [qconv c quad] is the
    same rule with nodes and weights converted, [csc s z] is [z] times the real [s] *)
Theorem C141_collision : forall (w : usys) (u : consts) (quad : R -> option R -> (R -> option R) -> option R),
  L_Rescale7.homogeneous quad ->
  (forall (eps eps' : R -> R -> option C) (S_ii S_ii' V V' : R -> R) (Zf E : R),
     (forall q E, eps' (q * / uL w) (E * uE w) = eps q E) -> (forall q, S_ii' (q * / uL w) = S_ii q) -> (forall q, V' (q * / uL w) = V q * (uE w * uL w ^ 3)) -> Zf <> 0 ->
     collision_frequency (conv w u) (L_Rescale7.qconv (/ uL w) quad) eps' S_ii' V' Zf (E * uE w) = option_map (L_Rescale7.csc (/ uT w)) (collision_frequency u quad eps S_ii V Zf E)) /\
  (forall T mu, T <> 0 -> inverse_screening_length_exact (conv w u) (L_Rescale7.qconv (uE w) quad) (T * uK w) (mu * uE w) = option_map (mul (/ uL w)) (inverse_screening_length_exact u quad T mu)) /\
  (forall n T, T <> 0 -> inverse_screening_length_non_degenerate (conv w u) (n / uL w ^ 3) (T * uK w) = inverse_screening_length_non_degenerate u n T * / uL w) /\
  (forall q kappa Zf, q ^ 2 + kappa ^ 2 <> 0 ->
     statically_screened_ie_debye_potential (conv w u) (q * / uL w) (kappa * / uL w) Zf = statically_screened_ie_debye_potential u q kappa Zf * (uE w * uL w ^ 3)).
Proof.
  intros w u quad HQ. split; [intros; now apply L_Rescale7.collision_sc|]. split; [intros; now apply L_Rescale7.kappa_exact_sc|]. split; [intros; now apply L_Rescale7.kappa_nd_sc|]. intros; now apply L_Rescale7.debye_pot_sc.
Qed.
Print Assumptions C141_collision.

(** Mermin's dielectric functions and the spectra, for a collision frequency that converts
    like a frequency *)
Theorem C141_mermin : forall (w : usys) (u : consts) (quad : R -> option R -> (R -> option R) -> option R) (F_m12 F_32 F_52 inv_F12 : R -> R)
    (nu nu' : R -> option C) (b : bool) (k T n mu E : R) (lfc : C),
  (forall E, nu' (E * uE w) = option_map (L_Rescale7.csc (/ uT w)) (nu E)) -> 0 < k -> 0 < T -> 0 < n ->
  let k' := k / uL w in let T' := T * uK w in let n' := n / uL w ^ 3 in let mu' := mu * uE w in let E' := E * uE w in
  dielectric_function_BMA_fit (conv w u) quad F_m12 F_32 F_52 inv_F12 b nu' k' E' mu' T' n' = dielectric_function_BMA_fit u quad F_m12 F_32 F_52 inv_F12 b nu k E mu T n /\
  dielectric_function_BMA_interp (conv w u) quad b nu' k' E' mu' T' n' = dielectric_function_BMA_interp u quad b nu k E mu T n /\
  dielectric_function_BMA_full (conv w u) quad b nu' k' E' mu' T' n' = dielectric_function_BMA_full u quad b nu k E mu T n /\
  dielectric_function_BMA_Fortmann (conv w u) quad F_m12 F_32 F_52 inv_F12 b nu' k' E' mu' T' n' lfc = dielectric_function_BMA_Fortmann u quad F_m12 F_32 F_52 inv_F12 b nu k E mu T n lfc /\
  S0_ee_BMA (conv w u) (dielectric_function_BMA_fit (conv w u) quad F_m12 F_32 F_52 inv_F12 b) nu' k' T' mu' n' E' lfc =
    option_map (mul (uT w)) (S0_ee_BMA u (dielectric_function_BMA_fit u quad F_m12 F_32 F_52 inv_F12 b) nu k T mu n E lfc) /\
  S0_ee_BMA (conv w u) (dielectric_function_BMA_interp (conv w u) quad b) nu' k' T' mu' n' E' lfc = option_map (mul (uT w)) (S0_ee_BMA u (dielectric_function_BMA_interp u quad b) nu k T mu n E lfc) /\
  S0_ee_BMA (conv w u) (dielectric_function_BMA_full (conv w u) quad b) nu' k' T' mu' n' E' lfc = option_map (mul (uT w)) (S0_ee_BMA u (dielectric_function_BMA_full u quad b) nu k T mu n E lfc) /\
  S0_ee_BMA_Fortmann (conv w u) quad F_m12 F_32 F_52 inv_F12 b nu' k' T' mu' n' E' lfc = option_map (mul (uT w)) (S0_ee_BMA_Fortmann u quad F_m12 F_32 F_52 inv_F12 b nu k T mu n E lfc).
Proof.
  intros w u quad F1 F2 F3 F4 nu nu' b k T n mu E lfc Hnu Hk HT Hn k' T' n' mu' E'. subst k' T' n' mu' E'.
  split; [now apply L_Rescale7.BMA_fit_sc|]. split; [now apply L_Rescale7.BMA_interp_sc|]. split; [now apply L_Rescale7.BMA_full_sc|]. split; [now apply L_Rescale7.BMA_Fort_sc|].
  split; [apply L_Rescale7.S0_BMA_sc; try assumption; intros; now apply L_Rescale7.BMA_fit_sc|]. split; [apply L_Rescale7.S0_BMA_sc; try assumption; intros; now apply L_Rescale7.BMA_interp_sc|].
  split; [apply L_Rescale7.S0_BMA_sc; try assumption; intros; now apply L_Rescale7.BMA_full_sc|]. now apply L_Rescale7.S0_Fort_sc.
Qed.
Print Assumptions C141_mermin.

(** ** Examples: units 1/2 of the length, 1/3 of the mass, 1/5 of the time, 1/7 of the
    charge and 1/11 of the temperature *)
Definition exW : usys.
Proof. refine (mkU 2 3 5 7 11 _ _ _ _ _); lra. Defined.
Example C141_scales_ex : plasma_frequency (conv exW unit_consts) (4 / 2 ^ 3) = plasma_frequency unit_consts 4 / 5.
Proof. exact (proj1 (C141_scales exW unit_consts 4 1 1 1 1 ltac:(lra) ltac:(lra) ltac:(lra))). Qed.
Example C141_conv_ex : uE exW = 12 / 25 /\ hbar (conv exW unit_consts) = hbar unit_consts * (12 / 5) /\ c_light (conv exW unit_consts) = c_light unit_consts * (2 / 5).
Proof. unfold conv, uE, exW. cbn [uL uM uT hbar c_light]. repeat split; field. Qed.
Example C141_free_free_ex : S0_ee_RPA (conv exW unit_consts) (fun _ _ f => f 1) false (1 / 2) (1 * 11) (1 / 2 ^ 3) (1 * uE exW) (2 * uE exW) (RtoC 0) =
  option_map (mul 5) (S0_ee_RPA unit_consts (fun _ _ f => f 1) false 1 1 1 1 2 (RtoC 0)).
Proof. exact (proj1 (proj2 (C141_free_free exW unit_consts (fun _ _ f => f 1) exp exp exp exp 1 1 1 1 2 (RtoC 0) false ltac:(lra) ltac:(lra) ltac:(lra)))). Qed.
Example C141_dielectric_ex : damped (conv exW unit_consts) (fun _ _ f => f 1) true (1 / 2) (1 * uE exW, 3 * uE exW) (2 * uE exW) (1 * 11) = damped unit_consts (fun _ _ f => f 1) true 1 (1, 3) 2 1.
Proof. exact (proj1 (C141_dielectric exW unit_consts (fun _ _ f => f 1) 1 1 1 1 3 2 true ltac:(lra) ltac:(lra))). Qed.
Definition exS : setup := mkSetup 1 8 3 (fun i => 7 + INR i) (fun x => exp (- x ^ 2)) true 1.
Example C141_setup_ex : energy exS <> 0 /\ measured exS 1 <> 0 /\ (0 < n_chan exS)%nat.
Proof. cbn. split; [lra|]. split; [lra|lia]. Qed.
Example C141_bound_free_ex : forall T E0 E Eb, Heaviside (T * 11) (E0 * uE exW) (E * uE exW) (Eb * uE exW) = Heaviside T E0 E Eb.
Proof. intros. destruct (Req_dec T 0) as [->|H]; [exact (proj1 (proj2 (proj2 (C141_edges exW unit_consts 1 E0 E Eb ltac:(lra)))))|]. exact (proj1 (proj2 (proj2 (C141_edges exW unit_consts T E0 E Eb H)))). Qed.
Example C141_edges_ex : Fermi (conv exW unit_consts) (1 * 11) (3 * uE exW) (1 * uE exW) (1 * uE exW) = Fermi unit_consts 1 3 1 1.
Proof. exact (proj2 (proj2 (proj2 (C141_edges exW unit_consts 1 3 1 1 ltac:(lra))))). Qed.
(** the screening of a classical plasma scales as required *)
Example C141_ipd_ex : forall n T, 0 < T ->
  sqrt (e_ch (conv exW unit_consts) ^ 2 * (n / 2 ^ 3) / (eps0 (conv exW unit_consts) * kB (conv exW unit_consts) * (T * 11))) =
  sqrt (e_ch unit_consts ^ 2 * n / (eps0 unit_consts * kB unit_consts * T)) / 2.
Proof.
  intros n T HT. match goal with |- _ = ?a / 2 => change (a / 2) with (a * / 2) end. rewrite <- sqrt_sc by lra. f_equal. pose proof (eps0_pos unit_consts). pose proof (kB_pos unit_consts). generalize dependent unit_consts. intros u H1 H2.
  unfold conv, uE, exW. cbn [e_ch eps0 kB uL uM uT uQ uK].
  field. repeat split; lra.
Qed.
Example C141_ipd_ex2 : 0 < (2 : R) /\ (forall n, In n [1; 3] -> 0 < n) /\ 0 < sum [1; 3] /\ at_ [5; 7] 1 <> 0 /\ at_ [6; 1] 1 <> 0.
Proof. split; [lra|]. split; [intros n [<-|[<-|[]]]; lra|]. cbn. repeat split; lra. Qed.
Example C141_static_sf_ex : M_StaticSF.S_ii_AD (conv exW unit_consts) (1 / 2) (1 * 11) (2 * 11) (1 / 2 ^ 3) (3 * 3) 2 = M_StaticSF.S_ii_AD unit_consts 1 1 2 1 3 2.
Proof. exact (proj1 (C141_static_sf exW unit_consts 1 1 2 1 3 2 1 ltac:(lra) ltac:(lra) ltac:(lra) ltac:(lra) ltac:(lra) ltac:(lra))). Qed.
Example C141_lfc_ex : M_LFC.eelfc_farid (conv exW unit_consts) exp (1 / 2) (4 / 2 ^ 3) = M_LFC.eelfc_farid unit_consts exp 1 4.
Proof. exact (proj1 (proj2 (proj2 (C141_lfc exW unit_consts exp (fun f => f 1) Rplus 1 1 4 ltac:(lra))))). Qed.
Definition exE : M_Potentials.env := M_Potentials.mkEnv (mkPS [mkEl 6 12 1; mkEl 1 1 2] [4; 1] [1; 1] 3 [2; 2] []) [5; 7] 27 [1; 2] (fun _ _ => 1).
Example C141_potentials_ex : forall r,
  exists f f', M_Potentials.full_r unit_consts M_Potentials.SpinAveraged exE 0 2 M_Potentials.Kelbg = Some f /\
    M_Potentials.full_r (conv exW unit_consts) M_Potentials.SpinAveraged (L_Rescale6.econv exW exE) 0 2 M_Potentials.Kelbg = Some f' /\ f' (r * 2) = f r * (12 / 25).
Proof.
  intros r. assert (H0 : 0 < at_ (M_Potentials.densities M_Potentials.SpinAveraged exE) 0) by (cbn; lra). assert (H2 : 0 < at_ (M_Potentials.densities M_Potentials.SpinAveraged exE) 2) by (cbn; lra).
  pose proof (proj1 (C141_potentials exW unit_consts M_Potentials.SpinAveraged exE 0 2 M_Potentials.Kelbg ltac:(discriminate) H0 H2)) as H.
  eexists. eexists. split; [reflexivity|]. split; [reflexivity|]. replace (12 / 25) with (uE exW) by (unfold uE, exW; cbn; field). exact (H r).
Qed.
(** a rule with one node: it is homogeneous *)
Definition exQ : R -> option R -> (R -> option R) -> option R := fun _ _ f => f 1.
Example C141_collision_ex : L_Rescale7.homogeneous exQ /\
  inverse_screening_length_exact (conv exW unit_consts) (L_Rescale7.qconv (uE exW) exQ) (1 * 11) (3 * uE exW) = option_map (mul (/ 2)) (inverse_screening_length_exact unit_consts exQ 1 3) /\
  inverse_screening_length_exact unit_consts exQ 1 3 <> None.
Proof.
  assert (H : L_Rescale7.homogeneous exQ) by (intros a b f g; reflexivity). split; [exact H|]. split.
  - exact (proj1 (proj2 (C141_collision exW unit_consts exQ H)) 1 3 ltac:(lra)).
  - unfold inverse_screening_length_exact, exQ. cbv zeta. rewrite sqrt_1, qdiv_some by lra. cbn [obind]. pose proof (e_pos unit_consts). pose proof (eps0_pos unit_consts). pose proof (hbar_pos unit_consts). pose proof PI_RGT_0.
    rewrite sqrto_some; [discriminate|]. assert (0 < exp ((1 - 3) / (kB unit_consts * 1))) by apply exp_pos. left. apply Rmult_lt_0_compat.
    + apply Rdiv_lt_0_compat; [apply Rmult_lt_0_compat; [now apply pow_lt|apply exp_pos]|]. assert (0 < sqrt 2) by (apply sqrt_lt_R0; lra). assert (0 < PI ^ 2) by now apply pow_lt. assert (0 < hbar unit_consts ^ 3) by now apply pow_lt.
      apply Rmult_lt_0_compat; [|assumption]. apply Rmult_lt_0_compat; [|assumption]. now apply Rmult_lt_0_compat.
    + unfold Rdiv. rewrite Rinv_1. apply Rmult_lt_0_compat; [lra|]. apply Rinv_0_lt_compat. lra.
Qed.
(** a constant collision frequency converts like a frequency *)
Example C141_mermin_ex : S0_ee_BMA (conv exW unit_consts) (dielectric_function_BMA_full (conv exW unit_consts) exQ true) (fun _ => Some (L_Rescale7.csc (/ 5) (RtoC 3))) (1 / 2) (1 * 11) (2 * uE exW) (1 / 2 ^ 3) (1 * uE exW) (RtoC 0) =
  option_map (mul 5) (S0_ee_BMA unit_consts (dielectric_function_BMA_full unit_consts exQ true) (fun _ => Some (RtoC 3)) 1 1 2 1 1 (RtoC 0)).
Proof.
  exact (proj1 (proj2 (proj2 (proj2 (proj2 (proj2 (proj2 (C141_mermin exW unit_consts exQ exp exp exp exp (fun _ => Some (RtoC 3)) (fun _ => Some (L_Rescale7.csc (/ 5) (RtoC 3))) true 1 1 1 2 1 (RtoC 0)
    ltac:(reflexivity) ltac:(lra) ltac:(lra) ltac:(lra))))))))).
Qed.
