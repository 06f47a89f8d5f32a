{
 "claims": [
  {
   "property": "C01",
   "status": "partial",
   "theorems": [
    "C01_rejected_leaves_state_untouched",
    "C01_declared_key_accepted",
    "C01_every_attached_model_declares_its_key",
    "C01_model_key_partial",
    "C01_model_key_refuted"
   ],
   "note": "Key discipline proved for all histories and any class. The model_key half holds when no instance sits under two keys, and is refuted when one instance is assigned twice (plasmastate.py:130 overwrites model_key)."
  },
  {
   "property": "C02",
   "status": "proved",
   "theorems": [
    "C02_everything_read_is_attached",
    "C02_no_key_ever_removed"
   ],
   "note": "All histories, all shipped classes, any number of ions."
  },
  {
   "property": "C03",
   "status": "partial",
   "theorems": [
    "C03_other_keys_kept_partial",
    "C03_refuted"
   ],
   "note": "Holds for every shipped class except LinearResponseScreening, which assigns the free-free model in its prepare hook (models.py:4483)."
  },
  {
   "property": "C04",
   "status": "partial",
   "theorems": [
    "C04_partial",
    "C04_refuted"
   ],
   "note": "Refuted: attaching a Born-Mermin model to a multi-species state switches the ion-ion potential to electron mode off (models.py:5036). Proved for every history without the listed disturbers."
  },
  {
   "property": "C05",
   "status": "proved",
   "theorems": [
    "C05_init_wellformed",
    "C05_expansion_conserves",
    "C05_expansion_keeps_bounds",
    "C05_expansion_keeps_bound_electrons"
   ],
   "note": "All lists of ions with positive masses and all real charges."
  },
  {
   "property": "C06",
   "status": "partial",
   "theorems": [
    "C06_one_species_partial",
    "C06_user_value_wins",
    "C06_refuted",
    "C06_setting_the_radius"
   ],
   "note": "Holds for one species only; with two or more, _overwritten keeps the old shape and the lookup always raises."
  },
  {
   "property": "C07",
   "status": "proved",
   "theorems": [
    "C07_number_fractions_are_a_distribution",
    "C07_electron_density_is_charge_weighted"
   ],
   "note": "All non-empty states with positive densities and masses."
  },
  {
   "property": "C08",
   "status": "proved",
   "theorems": [
    "C08_density_inverts_electron_density",
    "C08_neutral_mixture_has_no_density"
   ],
   "note": "All normalised number fractions with non-zero mean charge."
  },
  {
   "property": "C09",
   "status": "proved",
   "theorems": [
    "C09_mass_and_number_fractions",
    "C09_length_mismatch_is_refused"
   ],
   "note": "All normalised number fractions."
  },
  {
   "property": "C10",
   "status": "partial",
   "theorems": [
    "C10_round_trip_partial",
    "C10_refuted",
    "C10_callables",
    "C10_every_class"
   ],
   "note": "All 85 registered classes, arbitrarily nested; IonSphereIPD loses arb_deg."
  },
  {
   "property": "C11",
   "status": "partial",
   "theorems": [
    "C11_partial",
    "C11_refuted"
   ],
   "note": "Plasma parameters, ions, keys and static data are compared; the classes and parameters of the models are not."
  },
  {
   "property": "C12",
   "status": "partial",
   "theorems": [
    "C12_same_class_partial",
    "C12_refuted"
   ],
   "note": "Sound within one class except IonSphereIPD; the class itself is not compared."
  },
  {
   "property": "C13",
   "status": "partial",
   "theorems": [
    "C13_probe_is_the_sum_partial",
    "C13_shared_instance_refuted"
   ],
   "note": "Proved for all histories with distinct instances; refuted when one Neglect instance is shared with the ipd key."
  },
  {
   "property": "C14",
   "status": "partial",
   "theorems": [
    "C14_single_species_partial",
    "C14_charge_per_ion_partial",
    "C14_refuted"
   ],
   "note": "Only a single species keeps its density; every genuine mixture comes out too thin (models.py:4912 averages the partial densities instead of adding them)."
  },
  {
   "property": "C15",
   "status": "partial",
   "theorems": [
    "C15_data_comes_back_partial",
    "C15_conversions",
    "C15_refuted"
   ],
   "note": "All nestings; not for dictionaries with the key '_type', arrays with an inner zero in their shape, 0-d numpy arrays and MixElement."
  },
  {
   "property": "C16",
   "status": "partial",
   "theorems": [
    "C16_partial",
    "C16_refuted",
    "C16_additional_mappings",
    "C16_states_and_setups",
    "C16_flipped_setup_refuted",
    "C16_mapping_wins"
   ],
   "note": "All shipped classes but seven whose __name__ differs from the class name; those never load without additional_mappings."
  },
  {
   "property": "C17",
   "status": "partial",
   "theorems": [
    "C17_grid_partial",
    "C17_refuted"
   ],
   "note": "The restored grid equals the saved one exactly when it is ascending and equidistant."
  },
  {
   "property": "C18",
   "status": "proved",
   "theorems": [
    "C18_number_to_symbol_and_back",
    "C18_symbol_to_number_and_back",
    "C18_exactly_36_elements",
    "C18_fractions_are_truncated"
   ],
   "note": "All integers and all strings. Fractional numbers are truncated rather than refused."
  },
  {
   "property": "C19",
   "status": "partial",
   "theorems": [
    "C19_elements_partial",
    "C19_symmetric",
    "C19_other_types_raise",
    "C19_refuted"
   ],
   "note": "Holds for Element; a MixElement is not equal to itself, makes == intransitive and cannot be hashed."
  },
  {
   "property": "C20",
   "status": "proved",
   "theorems": [
    "C20_populations",
    "C20_neutral_atoms",
    "C20_named_orbitals",
    "C20_orbital_places",
    "C20_electron_distribution",
    "C20_light_ions"
   ],
   "note": "All real numbers of core electrons."
  },
  {
   "property": "C21",
   "status": "proved",
   "theorems": [
    "C21_configurations",
    "C21_energies_and_weights"
   ],
   "note": "The complete tables, generated from the source text."
  },
  {
   "property": "C22",
   "status": "proved",
   "theorems": [
    "C22_energy_resolved_k",
    "C22_elastic_k",
    "C22_even_in_angle",
    "C22_grows_with_angle",
    "C22_correction_off",
    "C22_plasma_dispersion",
    "C22_refraction_shortens_k",
    "C22_redistribution_factor"
   ],
   "note": "Positive photon energies; angles in radians."
  },
  {
   "property": "C23",
   "status": "partial",
   "theorems": [
    "C23_aligned_partial",
    "C23_narrow_instrument_partial",
    "C23_peak_does_not_move_partial",
    "C23_linear",
    "C23_refuted"
   ],
   "note": "Aligned on every ascending equidistant grid, but the sum is cut to a window of half the spectrum, so the full sum needs a narrow instrument function. On a descending grid the sign flips and an even number of channels shifts the result by one channel."
  },
  {
   "property": "C24",
   "status": "proved",
   "theorems": [
    "C24_probe_setup",
    "C24_own_k"
   ],
   "note": "Needs sin(theta/2) non-zero; otherwise the energy is inf."
  },
  {
   "property": "C25",
   "status": "partial",
   "theorems": [
    "C25_gaussian",
    "C25_gaussian_variance_parameter",
    "C25_construction",
    "C25_twin_gaussian",
    "C25_twin_construction",
    "C25_super_construction",
    "C25_lorentzian",
    "C25_supergaussian_partial",
    "C25_supergaussian_window",
    "C25_supergaussian_area",
    "C25_supergaussian_area_unbounded",
    "C25_supergaussian_true_width",
    "C25_supergaussian_width_exactly_for_power_one",
    "C25_tabulated",
    "C25_from_file",
    "C25_falling_file_refuted",
    "C25_refuted"
   ],
   "note": "Areas are improper Riemann integrals (the Gaussian integral is proved here). Super-Gaussian: the area is one to 5 per cent for every power from 1/2 on and to 4 per cent inside ten sigma for every power, but has no bound for small powers; the stated FWHM is wrong for every power but one (the right one is proved)."
  },
  {
   "property": "C26",
   "status": "proved",
   "theorems": [
    "C26_linear",
    "C26_nonnegative",
    "C26_order_independent",
    "C26_convex_in_tau",
    "C26_zeroth_moment_of_a_constant",
    "C26_default_window"
   ],
   "note": "All sample lists; order independence for distinct energies."
  },
  {
   "property": "C27",
   "status": "proved",
   "theorems": [
    "C27_inverse_exactly_when_values_unique",
    "C27_twice_is_the_original"
   ],
   "note": "All key and value types with decidable equality, all finite dictionaries."
  },
  {
   "property": "C28",
   "status": "proved",
   "theorems": [
    "C28_bisection",
    "C28_no_sign_change_no_root"
   ],
   "note": "All functions with a sign change; the root statement for continuous ones. The second theorem records that nothing holds without a sign change (the docstring says so)."
  },
  {
   "property": "C29",
   "status": "partial",
   "theorems": [
    "C29_solves",
    "C29_singular_matrices_are_reported",
    "C29_larger_systems_are_delegated",
    "C29_batches_of_size_four_refuted"
   ],
   "note": "Proved for all real unbatched systems of size 1 to 4 (exact arithmetic), with uniqueness. Refuted for batches of size-4 systems, which the docstring promises."
  },
  {
   "property": "C30",
   "status": "proved",
   "theorems": [
    "C30_stays_in_interval",
    "C30_no_division_by_zero",
    "C30_exact_on_quadratics"
   ],
   "note": "All slope functions; tolerance positive."
  },
  {
   "property": "C31",
   "status": "proved",
   "theorems": [
    "C31_occupation_is_a_probability",
    "C31_monotone",
    "C31_particle_hole_symmetry"
   ],
   "note": "Positive temperatures, exact reals (no overflow of exp)."
  },
  {
   "property": "C32",
   "status": "proved",
   "theorems": [
    "C32_compton_shift",
    "C32_compton_formula"
   ],
   "note": "All positive probe energies."
  },
  {
   "property": "C33",
   "status": "proved",
   "theorems": [
    "C33_epsilon_chi_inverse",
    "C33_zero_local_field"
   ],
   "note": "Complex values; k non-zero, epsilon non-zero."
  },
  {
   "property": "C34",
   "status": "proved",
   "theorems": [
    "C34_routes_agree",
    "C34_fit"
   ],
   "note": ""
  },
  {
   "property": "C35",
   "status": "proved",
   "theorems": [
    "C35_fit",
    "C35_no_damping",
    "C35_damped",
    "C35_salpeter"
   ],
   "note": "For the fit and the undamped RPA with any quadrature; the damped RPA and Salpeter need a quadrature that scales with, resp. reflects, its integrand."
  },
  {
   "property": "C36",
   "status": "partial",
   "theorems": [
    "C36_fit",
    "C36_no_damping",
    "C36_salpeter",
    "C36_elastic_refuted",
    "C36_recoil_refuted"
   ],
   "note": "Positive at every energy but zero. At zero energy every spectrum is nan; the Salpeter form also at plus and minus the recoil energy."
  },
  {
   "property": "C37",
   "status": "partial",
   "theorems": [
    "C37_formulae_coincide",
    "C37_fortmann_dielectric",
    "C37_local_field",
    "C37_no_collisions",
    "C37_no_collisions_full",
    "C37_full_is_interp",
    "C37_static",
    "C37_static_fortmann",
    "C37_no_collisions_refuted",
    "C37_elastic_refuted",
    "C37_elastic_default_refuted"
   ],
   "note": "All identities hold; the Fortmann form is nan without collisions, the explicit formula at zero energy, and every form at zero energy with the default rewritten RPA."
  },
  {
   "property": "C38",
   "status": "proved",
   "theorems": [
    "C38_interpolated",
    "C38_full",
    "C38_resampled"
   ],
   "note": "With and without the Kramers-Kronig transform."
  },
  {
   "property": "C39",
   "status": "partial",
   "theorems": [
    "C39_cutoff",
    "C39_adapts_refuted",
    "C39_lower_cutoff"
   ],
   "note": "Refuted: the nan at zero energy decides every comparison; the guess is always 15 or 1 times E_max."
  },
  {
   "property": "C40",
   "status": "partial",
   "theorems": [
    "C40_equal_temperatures",
    "C40_determinant",
    "C40_cold_ions_refuted",
    "C40_two_temperatures"
   ],
   "note": "Complete at equal temperatures; with T_e > T_i S_ii can be negative."
  },
  {
   "property": "C41",
   "status": "proved",
   "theorems": [
    "C41_pair_temperature",
    "C41_quantum_temperatures",
    "C41_Bohm_Staver"
   ],
   "note": ""
  },
  {
   "property": "C42",
   "status": "proved",
   "theorems": [
    "C42_symmetric",
    "C42_one_species",
    "C42_average"
   ],
   "note": "All four analytic models; the average over the species is shown for ArkhipovIonFeat and, with an unnamed S, for all (C77_criterion)."
  },
  {
   "property": "C43",
   "status": "proved",
   "theorems": [
    "C43_nonnegative",
    "C43_uncorrelated",
    "C43_relabelling",
    "C43_order_independent",
    "C43_channel"
   ],
   "note": ""
  },
  {
   "property": "C44",
   "status": "proved",
   "theorems": [
    "C44_dst4_is_the_sine_transform",
    "C44_dst4_involution",
    "C44_parseval",
    "C44_forward_then_backward",
    "C44_backward_then_forward"
   ],
   "note": "Even lengths (all grids used by the models are powers of two); odd lengths lose their last value, as the docstring warns."
  },
  {
   "property": "C45",
   "status": "partial",
   "theorems": [
    "C45_transform_points",
    "C45_k_labels_refuted",
    "C45_no_grid_is_right_refuted",
    "C45_k_grid_partial"
   ],
   "note": "Refuted: the transform is taken at half-integer multiples of the step, the labels start at pi / r_max; they are off by more than half a step on every uniform grid. Step and sign of the labels are right."
  },
  {
   "property": "C46",
   "status": "proved",
   "theorems": [
    "C46_ornstein_zernike",
    "C46_ornstein_zernike_defined",
    "C46_step",
    "C46_fixed_point",
    "C46_result",
    "C46_terminates",
    "C46_ideal_gas"
   ],
   "note": "For symmetric potentials (all of hnc_potentials.py). More than four species go to jnp.linalg.solve, assumed to solve."
  },
  {
   "property": "C47",
   "status": "partial",
   "theorems": [
    "C47_partial",
    "C47_parts_exist",
    "C47_sum",
    "C47_multiple",
    "C47_spins",
    "C47_spin_range",
    "C47_yukawa_refuted",
    "C47_soft_core_refuted"
   ],
   "note": "Every expression of which all three exist, and they do without soft cores if full_r does; YukawaShortRangeRepulsion.full_r and SoftCorePotential.short_r raise."
  },
  {
   "property": "C48",
   "status": "partial",
   "theorems": [
    "C48_coulomb",
    "C48_long_coulomb",
    "C48_debye",
    "C48_long_debye",
    "C48_long_yukawa",
    "C48_empty_core",
    "C48_deutsch_refuted",
    "C48_long_empty_core",
    "C48_parts",
    "C48_short",
    "C48_long",
    "C48_soft_core"
   ],
   "note": "Abel-summed transform, and the plain improper integral for the screened ones. Deutsch's full_k lacks a factor pi."
  },
  {
   "property": "C49",
   "status": "partial",
   "theorems": [
    "C49_partial",
    "C49_multiples",
    "C49_refuted",
    "C49_left_sum_grows_refuted",
    "C49_cycle_refuted",
    "C49_mode_refuted"
   ],
   "note": "Holds if the left operand is no sum or both are, with equal treatment of the electrons; a sum on the left is modified in place, may become a part of itself (RecursionError), and the treatment of electrons is pushed into the operands."
  },
  {
   "property": "C50",
   "status": "partial",
   "theorems": [
    "C50_debye_partial",
    "C50_ion_sphere_partial",
    "C50_mixture_refuted",
    "C50_zero_charge_refuted"
   ],
   "note": "Debye-Hueckel bound for charges of at least 1e-6 (the clip), ion-sphere bound for one species; in mixtures the radii differ, and for a neutral atom the clip makes Stewart-Pyatt the deeper one."
  },
  {
   "property": "C51",
   "status": "partial",
   "theorems": [
    "C51_partial",
    "C51_closed_form",
    "C51_mixture_refuted"
   ],
   "note": "Continuous for one species along every path of states; in a mixture the density compared and the density scaled differ, the shift jumps."
  },
  {
   "property": "C52",
   "status": "partial",
   "theorems": [
    "C52_distribution",
    "C52_ratio_partial",
    "C52_masked",
    "C52_clip_equal",
    "C52_ratio_refuted",
    "C52_monotone_partial",
    "C52_monotone_refuted"
   ],
   "note": "Distribution and bounds for all inputs; the ratios and the trend with density hold while no logarithm is clipped at +-500 (and, for the trend, lost states lie below the bound ones); beyond, they fail."
  },
  {
   "property": "C53",
   "status": "partial",
   "theorems": [
    "C53_integrals",
    "C53_normalised_partial",
    "C53_normalised_refuted",
    "C53_momentum_density_partial",
    "C53_peak_at_recoil_partial",
    "C53_correction_conserves",
    "C53_electrons",
    "C53_electrons_counted_partial",
    "C53_electrons_counted_refuted"
   ],
   "note": "Holds for 1s, 2s, 2p, 3s; the other nine polynomials are mistyped, their integrals are computed."
  },
  {
   "property": "C54",
   "status": "proved",
   "theorems": [
    "C54_closed_forms",
    "C54_approximations",
    "C54_wavefunction",
    "C54_outer_shells_dropped",
    "C54_momentum"
   ],
   "note": ""
  },
  {
   "property": "C55",
   "status": "partial",
   "theorems": [
    "C55_mixture",
    "C55_continuous",
    "C55_charge_state",
    "C55_cold_edges",
    "C55_species",
    "C55_technetium_refuted"
   ],
   "note": "Form factors and the potential depression are taken at the mean charge in both neighbours. Technetium's spectrum vanishes."
  },
  {
   "property": "C56",
   "status": "partial",
   "theorems": [
    "C56_hydrogenic_transform",
    "C56_density",
    "C56_bounded",
    "C56_small_k",
    "C56_1s_monotone",
    "C56_rows",
    "C56_refuted"
   ],
   "note": "Every form factor is the Fourier transform of the hydrogenic density of its shell. Refuted for vanishing effective charge (nan, reachable with average atoms such as Z = 5/2)."
  },
  {
   "property": "C57",
   "status": "partial",
   "theorems": [
    "C57_tables_partial",
    "C57_refuted",
    "C57_populated_shells",
    "C57_effective_charge"
   ],
   "note": "The 4s table is not sorted."
  },
  {
   "property": "C58",
   "status": "partial",
   "theorems": [
    "C58_debye_hueckel",
    "C58_monotone",
    "C58_linear_response_partial",
    "C58_linear_response_sign",
    "C58_linear_response_refuted",
    "C58_finite_wavelength",
    "C58_finite_coulomb",
    "C58_neutral",
    "C58_gregori2004",
    "C58_hard_spheres",
    "C58_hard_spheres_refuted"
   ],
   "note": "LinearResponseScreeningGericke2010 is minus DebyeHueckelScreening; the hard sphere model exceeds the charge of light ions in mixtures."
  },
  {
   "property": "C59",
   "status": "proved",
   "theorems": [
    "C59_hubbard",
    "C59_interpolations",
    "C59_geldart_vosko",
    "C59_geldart_vosko_increasing"
   ],
   "note": "Lever rule between the cold and the hot correction. Where the cold correction is nan (k = 2 k_F, C108) the interpolation is, too."
  },
  {
   "property": "C60",
   "status": "proved",
   "theorems": [
    "C60_switches",
    "C60_half_at_the_edge",
    "C60_sharp"
   ],
   "note": ""
  },
  {
   "property": "C61",
   "status": "partial",
   "theorems": [
    "C61_mirrored",
    "C61_involution",
    "C61_balance_partial",
    "C61_balance_refuted"
   ],
   "note": "The sum obeys detailed balance only without dispersion correction."
  },
  {
   "property": "C62",
   "status": "partial",
   "theorems": [
    "C62_get_all_models",
    "C62_get_all_models_list_partial",
    "C62_refuted"
   ],
   "note": "get_all_models is exact. get_all_models_list ignores both arguments (collections.py:157)."
  },
  {
   "property": "C63",
   "status": "partial",
   "theorems": [
    "C63_capabilities_partial",
    "C63_refuted"
   ],
   "note": "Holds for every class but Sum_Sii and LinearResponseScreening."
  },
  {
   "property": "C64",
   "status": "partial",
   "theorems": [
    "C64_cutoff_at_attachment_partial",
    "C64_refuted"
   ],
   "note": "The cut-off is frozen at the first attachment."
  },
  {
   "property": "C65",
   "status": "proved",
   "theorems": [
    "C65_scales_are_consistent",
    "C65_denser_is_more_degenerate",
    "C65_duplicated_formulas_agree"
   ],
   "note": "All positive densities."
  },
  {
   "property": "C66",
   "status": "proved",
   "theorems": [
    "C66_interpolated_temperature_bounds",
    "C66_classical_map_temperature"
   ],
   "note": "Positive temperature and power."
  },
  {
   "property": "C67",
   "status": "proved",
   "theorems": [
    "C67_debye_length",
    "C67_species_order",
    "C67_more_charges_screen_better",
    "C67_debye_length_and_plasma_frequency"
   ],
   "note": "All finite species lists with positive densities and at least one charge."
  },
  {
   "property": "C68",
   "status": "proved",
   "theorems": [
    "C68_symmetric_in_tau",
    "C68_thermometry",
    "C68_minimum_is_attained",
    "C68_moments",
    "C68_sign_convention",
    "C68_deconvolution"
   ],
   "note": "The symmetry statements are for the transform without deconvolution, on any symmetric grid containing the inner cut-off points. The secant search itself is C30."
  },
  {
   "property": "C69",
   "status": "partial",
   "theorems": [
    "C69_partial",
    "C69_refuted",
    "C69_misplaced_entries"
   ],
   "note": "True exactly for Z <= 8: from fluorine on the 9th, 19th and 29th energy stand four places too early."
  },
  {
   "property": "C70",
   "status": "proved",
   "theorems": [
    "C70_statistical_weights"
   ],
   "note": "The complete tables."
  },
  {
   "property": "C71",
   "status": "partial",
   "theorems": [
    "C71_partial",
    "C71_refuted"
   ],
   "note": "True exactly for Z <= 4: rows list orbitals, __init__ reads them as K, L1, L2, L3, M1, ..."
  },
  {
   "property": "C72",
   "status": "partial",
   "theorems": [
    "C72_positive_exactly_when_occupied",
    "C72_charge_is_rounded",
    "C72_populated_orbitals_partial",
    "C72_refuted"
   ],
   "note": "Table complete and consistent with the configurations; the populations assumed by the bound-free model agree only up to calcium."
  },
  {
   "property": "C73",
   "status": "partial",
   "theorems": [
    "C73_reuse_is_sound_partial",
    "C73_refuted"
   ],
   "note": "Holds whenever every model carries the key it is stored under; fails when a shared instance broke this (C01)."
  },
  {
   "property": "C74",
   "status": "proved",
   "theorems": [
    "C74_probability",
    "C74_monotone"
   ],
   "note": ""
  },
  {
   "property": "C75",
   "status": "proved",
   "theorems": [
    "C75_linear_response",
    "C75_Glenzer_bounded"
   ],
   "note": ""
  },
  {
   "property": "C76",
   "status": "proved",
   "theorems": [
    "C76_consistent",
    "C76_direct_correlation",
    "C76_contact"
   ],
   "note": ""
  },
  {
   "property": "C77",
   "status": "partial",
   "theorems": [
    "C77_criterion",
    "C77_one_charge_partial",
    "C77_refuted"
   ],
   "note": "Exact criterion for all four models; holds if all ions have the same charge; fully ionised CH at long wavelengths violates it."
  },
  {
   "property": "C78",
   "status": "partial",
   "theorems": [
    "C78_splitting_partial",
    "C78_refuted"
   ],
   "note": "Holds for three of the four models; CHSIonFeat's ion density sum(n^2)/sum(n) drops when a species is split."
  },
  {
   "property": "C79",
   "status": "partial",
   "theorems": [
    "C79_one_temperature_partial",
    "C79_refuted"
   ],
   "note": "Holds for a common Debye temperature; one per ion breaks the symmetry."
  },
  {
   "property": "C80",
   "status": "proved",
   "theorems": [
    "C80_symmetric",
    "C80_symmetric_exprs"
   ],
   "note": "Given a symmetric screening length; the tabulated Pauli potentials are arguments."
  },
  {
   "property": "C81",
   "status": "partial",
   "theorems": [
    "C81_weaker",
    "C81_cores",
    "C81_sign",
    "C81_klimontovich_kraeft_sign_refuted"
   ],
   "note": "Magnitudes proved for all; the Klimontovich-Kraeft potential is attractive for like charges, too."
  },
  {
   "property": "C82",
   "status": "partial",
   "theorems": [
    "C82_partial",
    "C82_two_temperatures_refuted"
   ],
   "note": "Holds if the ions share a temperature; else the sums over the ions differ."
  },
  {
   "property": "C83",
   "status": "partial",
   "theorems": [
    "C83_partial",
    "C83_ecker_kroell_refuted",
    "C83_pauli_refuted",
    "C83_sum"
   ],
   "note": "Holds for Debye-Hueckel, Stewart-Pyatt, Preston and ion sphere; EckerKroellIPD.all_element_states always raises, PauliBlockingIPD's ignores the charge."
  },
  {
   "property": "C84",
   "status": "proved",
   "theorems": [
    "C84_consistent"
   ],
   "note": "All sums of models without Ecker-Kroell (whose table raises), by induction."
  },
  {
   "property": "C85",
   "status": "proved",
   "theorems": [
    "C85_integral",
    "C85_bound"
   ],
   "note": "The quadrature is replaced by the improper integral, which exists; the chemical potential is an argument."
  },
  {
   "property": "C86",
   "status": "partial",
   "theorems": [
    "C86_debye_partial",
    "C86_equation",
    "C86_population_refuted",
    "C86_state_read"
   ],
   "note": "The bound holds for one species; with a population, charges are averaged over the number of states (mean instead of sum)."
  },
  {
   "property": "C87",
   "status": "partial",
   "theorems": [
    "C87_solution",
    "C87_ordered",
    "C87_unique",
    "C87_ordered_partial",
    "C87_unique_partial",
    "C87_unique_refuted"
   ],
   "note": "Existence, conservation and accuracy for all inputs with more than 1e-8 electrons per cubic metre at that density. Uniqueness: up to exp(-500) where no product of coefficients exceeds exp 500, exactly where nothing is clipped; false otherwise."
  },
  {
   "property": "C88",
   "status": "partial",
   "theorems": [
    "C88_saha",
    "C88_coefficient_ordered",
    "C88_terms_ordered",
    "C88_mean_charge",
    "C88_neutral_density",
    "C88_mean_charge_partial",
    "C88_upward",
    "C88_mean_charge_refuted"
   ],
   "note": "Coefficients in general; mean charge and neutral density up to exp(-500) where no product of coefficients exceeds exp 500 (exactly where nothing is clipped and the same states are bound); false otherwise."
  },
  {
   "property": "C89",
   "status": "proved",
   "theorems": [
    "C89_bounds",
    "C89_loop",
    "C89_one_species",
    "C89_electron_density_grows",
    "C89_cold_bound",
    "C89_hot_limit",
    "C89_converged"
   ],
   "note": "The loop's fixed point is not claimed to exist: it ends when two iterates agree within 1e-5 or after a hundred."
  },
  {
   "property": "C90",
   "status": "partial",
   "theorems": [
    "C90_partition",
    "C90_saha_limit_refuted",
    "C90_gap_refuted"
   ],
   "note": "The sum is as documented; but binding energies are inserted with the sign of level energies, so that the balance exceeds Saha's by e^x/x; a gap in the bound states removes the bare nucleus."
  },
  {
   "property": "C91",
   "status": "partial",
   "theorems": [
    "C91_fractions",
    "C91_solver_sums",
    "C91_densities",
    "C91_fractions_refuted",
    "C91_ideal_chemical_potential",
    "C91_saha_ratios_partial",
    "C91_last_iteration"
   ],
   "note": "calculate_charge_state_distribution does; calculate_mean_free_charge_saha returns number densities."
  },
  {
   "property": "C92",
   "status": "proved",
   "theorems": [
    "C92_peaks"
   ],
   "note": ""
  },
  {
   "property": "C93",
   "status": "proved",
   "theorems": [
    "C93_structure_factor",
    "C93_structure_factor_at_a_fixed_point",
    "C93_one_component"
   ],
   "note": ""
  },
  {
   "property": "C94",
   "status": "partial",
   "theorems": [
    "C94_relation",
    "C94_symmetric",
    "C94_one_temperature",
    "C94_result",
    "C94_iteration_count_refuted"
   ],
   "note": "The relation and the agreement hold; the reported iterations are those of the last temperature only."
  },
  {
   "property": "C95",
   "status": "proved",
   "theorems": [
    "C95_mass_weighted",
    "C95_geometric"
   ],
   "note": ""
  },
  {
   "property": "C96",
   "status": "proved",
   "theorems": [
    "C96_dpsi_is_the_derivative",
    "C96_bessel",
    "C96_weights"
   ],
   "note": "The interpolation inside fourier_transform_ogata is not modelled; the function is not used."
  },
  {
   "property": "C97",
   "status": "partial",
   "theorems": [
    "C97_odd_length_refuted",
    "C97_asymmetric_refuted"
   ],
   "note": "Both refuted: odd lengths lose their last value (the docstring warns); up to four species the rows instead of the columns are solved for."
  },
  {
   "property": "C98",
   "status": "partial",
   "theorems": [
    "C98_real_energy",
    "C98_spectrum",
    "C98_default_refuted"
   ],
   "note": "Holds for the Schoerner form; the rewritten form, default of S0_ee_RPA, has zero spectrum at every real energy."
  },
  {
   "property": "C99",
   "status": "proved",
   "theorems": [
    "C99_detailed_balance",
    "C99_interpolated_frequency"
   ],
   "note": ""
  },
  {
   "property": "C100",
   "status": "proved",
   "theorems": [
    "C100_odd",
    "C100_linear"
   ],
   "note": ""
  },
  {
   "property": "C101",
   "status": "partial",
   "theorems": [
    "C101_fit_is_finite",
    "C101_refuted",
    "C101_no_free_electrons"
   ],
   "note": "Only RPA_DandreaFit treats zero energy."
  },
  {
   "property": "C102",
   "status": "partial",
   "theorems": [
    "C102_clipped_refuted"
   ],
   "note": "Refuted for one-sided sets of energies."
  },
  {
   "property": "C103",
   "status": "proved",
   "theorems": [
    "C103_exact",
    "C103_non_degenerate",
    "C103_screened_potential"
   ],
   "note": ""
  },
  {
   "property": "C104",
   "status": "partial",
   "theorems": [
    "C104_lowered",
    "C104_charge",
    "C104_single_species_partial",
    "C104_refuted",
    "C104_unbound"
   ],
   "note": "Holds for one species; in mixtures the lowered values are written to the wrong row and column."
  },
  {
   "property": "C105",
   "status": "partial",
   "theorems": [
    "C105_k_shell_partial",
    "C105_refuted"
   ],
   "note": "Fails exactly for F, Ne, K, Ca, Cu, Zn."
  },
  {
   "property": "C106",
   "status": "partial",
   "theorems": [
    "C106_profiles_positive",
    "C106_outer_shells",
    "C106_impulse_refuted",
    "C106_5p_refuted"
   ],
   "note": "The profiles are positive; with the Holm-Ribberfors correction the 1s spectrum is negative at large energy gain."
  },
  {
   "property": "C107",
   "status": "proved",
   "theorems": [
    "C107_sum_rule",
    "C107_unique"
   ],
   "note": "For the three raw spectra at one wavenumber (dispersion correction off), as the code computes them."
  },
  {
   "property": "C108",
   "status": "partial",
   "theorems": [
    "C108_utsumi_ichimaru",
    "C108_farid",
    "C108_contact_value",
    "C108_twice_kF_refuted",
    "C108_dense_limit_refuted",
    "C108_derivatives_of_one_energy",
    "C108_momentum_moments",
    "C108_farid_moments",
    "C108_pole_refuted",
    "C108_momentum_moments_refuted"
   ],
   "note": "The sum rules hold with the code's gamma_0, which misses 1/4 at high density; nan at k = 2 k_F. The moments of the momentum distribution behind Farid's coefficients are sensible up to r_s = 100; the fit has a pole at r_s = 193.7."
  },
  {
   "property": "C109",
   "status": "partial",
   "theorems": [
    "C109_contact_bounds",
    "C109_screening_enhances",
    "C109_ideal_refuted",
    "C109_same_temperature",
    "C109_binding"
   ],
   "note": "The limit is sqrt 2 / 4."
  },
  {
   "property": "C110",
   "status": "partial",
   "theorems": [
    "C110_activation",
    "C110_parameters_defined",
    "C110_short_waves",
    "C110_long_waves_partial",
    "C110_long_waves_refuted",
    "C110_between",
    "C110_contact_dense",
    "C110_contact_negative_refuted",
    "C110_units",
    "C110_arguments",
    "C110_parameters",
    "C110_midpoint",
    "C110_hot_contact"
   ],
   "note": "Does not vanish at k = 0; the value at contact becomes negative."
  },
  {
   "property": "C111",
   "status": "proved",
   "theorems": [
    "C111_lengths",
    "C111_inverse",
    "C111_long_waves",
    "C111_degenerate"
   ],
   "note": "The Fermi integrals and the degenerate inverse length are parameters."
  },
  {
   "property": "C112",
   "status": "partial",
   "theorems": [
    "C112_debye_hueckel",
    "C112_hard_spheres",
    "C112_hard_spheres_refuted"
   ],
   "note": "Holds for the Debye-Hueckel clouds; hard spheres of different charge are under-screened as a whole."
  },
  {
   "property": "C113",
   "status": "partial",
   "theorems": [
    "C113_rewritten",
    "C113_static",
    "C113_static_refuted"
   ],
   "note": "The rewritten form is 1 if the real part of the energy is zero."
  },
  {
   "property": "C114",
   "status": "proved",
   "theorems": [
    "C114_absorbs",
    "C114_small_damping",
    "C114_states"
   ],
   "note": "The limit is shown for the imaginary part."
  },
  {
   "property": "C115",
   "status": "proved",
   "theorems": [
    "C115_absorbs",
    "C115_symmetric",
    "C115_cold_limit",
    "C115_static",
    "C115_high_energy",
    "C115_sum_rule",
    "C115_defined"
   ],
   "note": "Nan exactly at the edges of the continuum, for instance in the static case at twice the Fermi wavenumber."
  },
  {
   "property": "C116",
   "status": "proved",
   "theorems": [
    "C116_ziman",
    "C116_symmetric"
   ],
   "note": "For the integrand; the quadrature is a parameter. The second-order Born approximation's finite temperature integrand has the same prefactor."
  },
  {
   "property": "C117",
   "status": "proved",
   "theorems": [
    "C117_sum_rule"
   ],
   "note": "The density is the one the distribution holds; the code's chemical potential fit is not exactly inverse to it."
  },
  {
   "property": "C118",
   "status": "proved",
   "theorems": [
    "C118_sine_transform",
    "C118_self_inverse"
   ],
   "note": ""
  },
  {
   "property": "C119",
   "status": "proved",
   "theorems": [
    "C119_transform",
    "C119_inverse"
   ],
   "note": ""
  },
  {
   "property": "C120",
   "status": "proved",
   "theorems": [
    "C120_forward",
    "C120_inverse",
    "C120_numpy"
   ],
   "note": ""
  },
  {
   "property": "C121",
   "status": "partial",
   "theorems": [
    "C121_error",
    "C121_exact",
    "C121_dispersion_refuted"
   ],
   "note": "The bounds hold for setups that correct the k dispersion; the coarse setup always does."
  },
  {
   "property": "C122",
   "status": "partial",
   "theorems": [
    "C122_below_step",
    "C122_nondegenerate",
    "C122_nondegenerate_32_partial",
    "C122_order_32_refuted",
    "C122_order_32_repaired",
    "C122_positive"
   ],
   "note": "Orders -1/2, 1/2 and 5/2 are proved. Order 3/2: proved for eta <= -1.4 only and false near eta = 2, a coefficient is 1e4 times too large; with it put right it is proved too. Above eta = 2 the accuracy is covered by C123 only."
  },
  {
   "property": "C123",
   "status": "partial",
   "theorems": [
    "C123_step",
    "C123_step_32_refuted",
    "C123_increasing",
    "C123_degenerate"
   ],
   "note": "The order 3/2 jumps by a factor of ten at eta = 2; its monotony is not claimed."
  },
  {
   "property": "C124",
   "status": "partial",
   "theorems": [
    "C124_roundtrip",
    "C124_exact",
    "C124_order",
    "C124_antia_refuted"
   ],
   "note": "Fukushima's fit: proved. Antia's inverse fit, which only the tests use, is off by ln Gamma(3/2)."
  },
  {
   "property": "C125",
   "status": "partial",
   "theorems": [
    "C125_phi_large",
    "C125_phi_small",
    "C125_coefficients_classical",
    "C125_coefficients_degenerate",
    "C125_bohm_gross",
    "C125_screening",
    "C125_screening_ipd",
    "C125_screening_exact",
    "C125_defined",
    "C125_one_pole",
    "C125_numerator_classical",
    "C125_numerator_degenerate",
    "C125_pole_refuted",
    "C125_thermal_refuted"
   ],
   "note": "The limits hold where the coefficients are defined, which is everywhere but at one degeneracy near theta = 0.2516, where J has a pole, and the code's Fermi integral of order 3/2 is wrong."
  },
  {
   "property": "C126",
   "status": "partial",
   "theorems": [
    "C126_order",
    "C126_classical",
    "C126_degenerate",
    "C126_virial",
    "C126_cold",
    "C126_debye",
    "C126_ceiling_refuted"
   ],
   "note": "Between T_F/10 and 2 T_F nothing is claimed of Cowan's form. Ichimaru's form exceeds the Fermi energy at Theta = exp(-5), by less than a permille."
  },
  {
   "property": "C127",
   "status": "partial",
   "theorems": [
    "C127_positive",
    "C127_averaged_inverts",
    "C127_separated_raw",
    "C127_separated_inverts",
    "C127_repair_averaged",
    "C127_repair_separated",
    "C127_exchange_hole",
    "C127_same_exchange",
    "C127_full_k",
    "C127_unlike",
    "C127_grid",
    "C127_unlike_refuted",
    "C127_units_refuted",
    "C127_density_refuted",
    "C127_electrons_only"
   ],
   "note": "False near the origin: unlike spins get the like-spin potential, and the repaired part depends on the unit of the temperature. The spin-separated exchange term is that of half the density. That the solver converges to the fixed point is not claimed."
  },
  {
   "property": "C128",
   "status": "proved",
   "theorems": [
    "C128_one_potential",
    "C128_three_potential",
    "C128_average_atom",
    "C128_no_grid",
    "C128_any_angle",
    "C128_nonnegative",
    "C128_alike",
    "C128_outside",
    "C128_inputs"
   ],
   "note": "Without a grid there is no value in forward direction (no probe setup). The solution of the chain on the grid is a parameter."
  },
  {
   "property": "C129",
   "status": "proved",
   "theorems": [
    "C129_linearised",
    "C129_ions",
    "C129_electrons",
    "C129_electron_ion"
   ],
   "note": "For T_e <> T_i the term that S_ee_AD subtracts is added back. The half-line quadrature is taken exact."
  },
  {
   "property": "C130",
   "status": "proved",
   "theorems": [
    "C130_deconvolution",
    "C130_moments",
    "C130_thermometer",
    "C130_thermometer_exact",
    "C130_minimum"
   ],
   "note": "The adaptive search of get_T is covered by C26 and C68 only as far as the minimum is concerned."
  },
  {
   "property": "C131",
   "status": "partial",
   "theorems": [
    "C131_last_iteration",
    "C131_densities",
    "C131_balance_partial",
    "C131_balance_refuted",
    "C131_classical",
    "C131_single_species"
   ],
   "note": "The balance needs populations within the clipping range of the solver; outside it fails. That the six rounds converge is not claimed."
  },
  {
   "property": "C132",
   "status": "partial",
   "theorems": [
    "C132_degeneracy",
    "C132_coupling",
    "C132_wavelength_entry",
    "C132_wavelength_refuted",
    "C132_length"
   ],
   "note": "db_wavelength has no return statement: no wavelength can be read from a state."
  },
  {
   "property": "C133",
   "status": "proved",
   "theorems": [
    "C133_iteration_converges",
    "C133_solver",
    "C133_several_temperatures"
   ],
   "note": "The strength exists but is not computed. For several temperatures it depends on their ratios, too."
  },
  {
   "property": "C134",
   "status": "proved",
   "theorems": [
    "C134_quadrature",
    "C134_substitution",
    "C134_truncation",
    "C134_series",
    "C134_unit_of_length",
    "C134_linear"
   ],
   "note": "The error of the trapezoidal rule itself (finite h) is not bounded."
  },
  {
   "property": "C135",
   "status": "partial",
   "theorems": [
    "C135_cite_lines",
    "C135_cite_keys",
    "C135_bibtex",
    "C135_plain",
    "C135_keys_exist",
    "C135_no_error",
    "C135_composite_refuted"
   ],
   "note": "PotentialSum, ScaledPotential, IPDSum and Sum_Sii cite nothing, whatever their parts cite. pybtex is a parameter."
  },
  {
   "property": "C136",
   "status": "proved",
   "theorems": [
    "C136_search",
    "C136_round_trip",
    "C136_lengths",
    "C136_marked_levels"
   ],
   "note": "the file as the list of its lines; \\d as the ASCII digits; the download itself is not modelled"
  },
  {
   "property": "C137",
   "status": "proved",
   "theorems": [
    "C137_quantities",
    "C137_unit_independent",
    "C137_dimensions",
    "C137_numbers",
    "C137_idempotent",
    "C137_empty"
   ],
   "note": "units with an offset are not modelled; jnp.array of a list that mixes numbers and quantities is a parameter"
  },
  {
   "property": "C138",
   "status": "partial",
   "theorems": [
    "C138_function",
    "C138_bound_arguments",
    "C138_warning",
    "C138_flag_refuted",
    "C138_instance_refuted"
   ],
   "note": "disable_partial_unwrapping=True always raises: the check for deprecated names reads __name__, which neither a partial object nor a callable instance has"
  },
  {
   "property": "C139",
   "status": "partial",
   "theorems": [
    "C139_mean_spherical",
    "C139_factorised",
    "C139_positive",
    "C139_perfect_screening",
    "C139_short_waves",
    "C139_long_waves",
    "C139_truncation",
    "C139_negative_refuted",
    "C139_diameter",
    "C139_weak_coupling_refuted"
   ],
   "note": "two parts are refuted: a local field correction between 0 and 1 that does not vanish with k makes the screened structure factor negative for all long enough waves; when the Landau length is below a two-thousandth of the distance of the ions h1 has no zero in the bracket, and the diameter returned is its lower end. C139_diameter asks for a Landau length between a five-hundredth and 100000 times the distance"
  },
  {
   "property": "C140",
   "status": "partial",
   "theorems": [
    "C140_nonneg",
    "C140_free_free",
    "C140_elastic",
    "C140_no_larger",
    "C140_no_gain",
    "C140_area",
    "C140_descending",
    "C140_sign_refuted"
   ],
   "note": "energies in descending order are refuted: every channel of a positive spectrum comes out negative, since the spacing is taken with its sign"
  },
  {
   "property": "C141",
   "status": "proved",
   "theorems": [
    "C141_scales",
    "C141_free_free",
    "C141_dielectric",
    "C141_setup",
    "C141_bound_free",
    "C141_edges",
    "C141_ipd",
    "C141_static_sf",
    "C141_lfc",
    "C141_potentials",
    "C141_collision",
    "C141_mermin",
    "C141_hnc",
    "C141_hnc_temperatures"
   ],
   "note": "the screening length and the Pauli integral that enter the depressions are parameters, assumed to have the dimension of an inverse length and of an inverse volume; the quadrature of the collision frequency runs over a wave number, that of the exact screening length over an energy: its nodes and weights are converted with it, and it is assumed to be homogeneous in the values; the charged hard spheres (lengths in angstrom) and the interpolation tables of the collision frequency are not covered; of the potentials, PauliClassicalMap and the numerical Fourier transforms are not covered; the hypernetted chain is compared when both runs end"
  },
  {
   "property": "C142",
   "status": "proved",
   "theorems": [
    "C142_state",
    "C142_depressions",
    "C142_potentials",
    "C142_bound_free",
    "C142_screening",
    "C142_hnc",
    "C142_hnc_temperatures"
   ],
   "note": "the averaged plasma is compared in all fields but the list of core radii set by hand, which the code hands over unaveraged; a constant depression is one number for all ions (with one value per ion the user has to relist them, C142_depressions_ex2); the screening lengths handed to the potentials, the local field correction and the Debye temperatures are given per pair, plasma and ion; PauliClassicalMap is not covered. The hypernetted chain is compared when both runs end; any two exact linear solvers may be used"
  },
  {
   "property": "C143",
   "status": "partial",
   "theorems": [
    "C143_state",
    "C143_depressions_partial",
    "C143_preston_refuted",
    "C143_ecker_kroell_refuted",
    "C143_potentials",
    "C143_bound_free"
   ],
   "note": "the depressions keep their values in the Debye-Hueckel, Stewart-Pyatt, ion sphere and Pauli blocking models; Preston's form (mean charge ne / ni of one entry) and Ecker-Kroell (radius from ne + ni of one entry) are refuted; the splittings of the potentials into long and short range depend on the density of an entry and are not covered"
  },
  {
   "property": "C144",
   "status": "proved",
   "theorems": [
    "C144_hnc_steps",
    "C144_hnc_temperatures",
    "C144_hnc_run",
    "C144_total_structure_factor"
   ],
   "note": "the iterations of both solvers at one temperature multiplier are compared, when both exist, and the whole runs of the one-temperature solver without further multipliers; runs of different length need not agree, because the stopping criterion sums the error over all pairs of entries"
  }
 ]
}