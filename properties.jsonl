{"id": "C01", "title": "Models are only ever attached under keys they declare", "statement": "Assigning a model to a plasma state raises KeyError and leaves the attached models untouched when the key is not in the model's allowed_keys; after any history of assignments every attached model lists the key it sits under in allowed_keys and carries that key as its model_key.", "quantifier": "every plasma state reachable by any finite sequence of assignments of any shipped model class to any key (including failing ones)", "why_tests_cant": "the set of assignment histories is infinite and prepare() hooks attach further models recursively; tests sample a few histories", "anchors": ["src/jaxrts/plasmastate.py:PlasmaState.__setitem__", "src/jaxrts/plasmastate.py:PlasmaState.update_default_model", "src/jaxrts/models.py:*.prepare", "src/jaxrts/hnc_potentials.py"]}
{"id": "C02", "title": "Attaching a model attaches everything it needs", "statement": "After a successful assignment of any shipped model, every default it promises to provide is present in the state, recursively (the defaults' own requirements too), and no later assignment ever removes a key.", "quantifier": "every history of assignments over all shipped model classes, every number of ion species", "why_tests_cant": "closure under requirements must hold for all interleavings of assignments", "anchors": ["src/jaxrts/models.py:IonFeatModel.prepare", "src/jaxrts/models.py:BornMermin.prepare", "src/jaxrts/plasmastate.py:PlasmaState.update_default_model"]}
{"id": "C03", "title": "Setting a model never overwrites a user's choice under another key", "statement": "Assigning a model to one key leaves the model attached under every other key unchanged (defaults are only filled in where nothing was attached).", "quantifier": "every state, every shipped model class, every key pair", "why_tests_cant": "a single prepare() hook that assigns instead of defaulting breaks it only in states where the user had already chosen a model", "anchors": ["src/jaxrts/plasmastate.py:PlasmaState.update_default_model", "src/jaxrts/models.py:LinearResponseScreening.prepare"]}
{"id": "C04", "title": "Three-potential HNC keeps its electron-inclusive potentials", "statement": "Once ThreePotentialHNCIonFeat is attached, its three HNC potentials stay in the spin-averaged electron mode until the user replaces one of those potentials or the ionic scattering model.", "quantifier": "every later history of assignments to other keys, any number of ions", "why_tests_cant": "the violation needs a particular order of assignments and at least two ion species", "anchors": ["src/jaxrts/models.py:ThreePotentialHNCIonFeat.prepare", "src/jaxrts/models.py:AverageAtom_Sii.prepare", "src/jaxrts/models.py:BornMermin.prepare"]}
{"id": "C05", "title": "Expanding to integer charge states conserves the plasma", "statement": "expand_integer_ionization_states returns a state with twice the species in which all charges are integers, and for each original ion the mass density, number density, free-electron density and temperature of the two daughters reproduce the original's; total n_e is unchanged.", "quantifier": "every list of ions, real non-negative charges, densities and temperatures", "why_tests_cant": "holds for all real charges including integers and for any number of species", "anchors": ["src/jaxrts/plasmastate.py:PlasmaState.expand_integer_ionization_states"]}
{"id": "C06", "title": "An expanded state can still be asked for its ion core radii", "statement": "ion_core_radius of the expanded state is well defined and gives each daughter the radius of its parent.", "quantifier": "every state, any number of ions", "why_tests_cant": "one-ion states broadcast and hide the shape error; tests only use one ion", "anchors": ["src/jaxrts/plasmastate.py:PlasmaState.expand_integer_ionization_states", "src/jaxrts/plasmastate.py:PlasmaState.ion_core_radius"]}
{"id": "C07", "title": "Number fractions form a probability distribution", "statement": "number_fraction entries are non-negative and sum to one, the electron density is the charge-weighted ion density, and mean_Z_A lies between the smallest and largest atomic number.", "quantifier": "every non-empty list of ions with positive densities and masses", "why_tests_cant": "real arithmetic identities for any number of species", "anchors": ["src/jaxrts/plasmastate.py:PlasmaState.number_fraction", "src/jaxrts/plasmastate.py:PlasmaState.n_e", "src/jaxrts/plasmastate.py:PlasmaState.mean_Z_A"]}
{"id": "C08", "title": "Density from electron density inverts the electron density", "statement": "Building a state from mass_density_from_electron_density(n_e, ...) yields a state whose n_e is the requested one and whose number fractions are the requested ones.", "quantifier": "every positive n_e, every non-negative ionisation list with positive mean charge, every number fraction list", "why_tests_cant": "an inverse law over all real inputs and all list lengths", "anchors": ["src/jaxrts/helpers.py:mass_density_from_electron_density", "src/jaxrts/plasmastate.py:PlasmaState.n_e"]}
{"id": "C09", "title": "Mass fractions and number fractions are inverse conversions", "statement": "mass_from_number_fraction returns non-negative fractions summing to one, and a plasma built with those mass fractions has exactly the given number fractions.", "quantifier": "every list of elements and normalised number fractions", "why_tests_cant": "an inverse law over all lists", "anchors": ["src/jaxrts/helpers.py:mass_from_number_fraction", "src/jaxrts/plasmastate.py:PlasmaState.number_fraction"]}
{"id": "C10", "title": "jit round trip preserves every object", "statement": "Flattening and unflattening (what crossing a jax.jit boundary does) reproduces plasma states, setups and models with all their parameters.", "quantifier": "every object of every shipped class, any parameter values", "why_tests_cant": "one class that forgets one attribute breaks it, only visible for non-default values", "anchors": ["src/jaxrts/models.py:Model._tree_flatten", "src/jaxrts/models.py:IonSphereIPD._tree_flatten", "src/jaxrts/plasmastate.py:PlasmaState._tree_flatten", "src/jaxrts/setup.py:Setup._tree_flatten"]}
{"id": "C11", "title": "Equal plasma states behave equally", "statement": "If two plasma states compare equal then the same models with the same parameters are attached, so every evaluation agrees.", "quantifier": "every pair of states", "why_tests_cant": "equality ignores some data; needs a pair of states that differ only there", "anchors": ["src/jaxrts/plasmastate.py:PlasmaState.__eq__", "src/jaxrts/models.py:Model.__eq__"]}
{"id": "C12", "title": "Model equality distinguishes model classes", "statement": "Two models compare equal only if they are of the same class with the same parameters.", "quantifier": "every pair of shipped models", "why_tests_cant": "needs pairs of different classes with equal parameters", "anchors": ["src/jaxrts/models.py:Model.__eq__"]}
{"id": "C13", "title": "A spectrum is exactly the sum of the four Chihara contributions", "statement": "probe(setup) equals the pointwise sum of the ionic, free-free, bound-free and free-bound evaluations; a neglected contribution adds zero; a missing one raises.", "quantifier": "every state and setup", "why_tests_cant": "an identity over all states", "anchors": ["src/jaxrts/plasmastate.py:PlasmaState.probe", "src/jaxrts/models.py:Neglect"]}
{"id": "C14", "title": "Average-atom substitution preserves the plasma", "statement": "The one-component average state has the electron density and ion density of the mixture it stands for.", "quantifier": "every mixture", "why_tests_cant": "true for one species and false for others; single-species tests cannot tell", "anchors": ["src/jaxrts/models.py:averagePlasmaState", "src/jaxrts/models.py:AverageAtom_Sii"]}
{"id": "C15", "title": "Saving then loading data returns the same data", "statement": "load(dump(x)) returns x for nested lists, dicts with string keys, quantities, arrays and elements (tuples come back as lists, numpy integers as ints).", "quantifier": "every nesting of the supported values", "why_tests_cant": "unbounded nesting depth; needs induction over the value", "anchors": ["src/jaxrts/saving.py:JaXRTSEncoder.default", "src/jaxrts/saving.py:JaXRTSDecoder.object_hook"]}
{"id": "C16", "title": "Saving then loading a model returns a model of the same class", "statement": "Every shipped model and HNC potential can be saved and is restored as the same class with the same parameters.", "quantifier": "every shipped class", "why_tests_cant": "tests save three of more than eighty classes", "anchors": ["src/jaxrts/saving.py:JaXRTSEncoder.default", "src/jaxrts/saving.py:JaXRTSDecoder.models", "src/jaxrts/collections.py:get_all_models_list", "src/jaxrts/models.py:*.__name__"]}
{"id": "C17", "title": "The transform grid of an HNC potential survives saving", "statement": "The radial grid of a saved potential is restored point by point.", "quantifier": "every equidistant increasing grid of any size", "why_tests_cant": "holds for all grids of all lengths, fails for non-equidistant grids", "anchors": ["src/jaxrts/saving.py:JaXRTSEncoder.default", "src/jaxrts/saving.py:JaXRTSDecoder.object_hook"]}
{"id": "C18", "title": "Element symbol and atomic number identify each other", "statement": "For every supported atomic number Z, Element(Element(Z).symbol).Z = Z and conversely; unknown symbols or numbers raise.", "quantifier": "all supported elements, all strings and integers", "why_tests_cant": "uniqueness of symbols is global", "anchors": ["src/jaxrts/elements.py:Element.__init__", "src/jaxrts/helpers.py:invert_dict"]}
{"id": "C19", "title": "Element equality is an equivalence consistent with hashing", "statement": "== on elements is reflexive, symmetric and transitive, and equal elements have equal hashes.", "quantifier": "all pairs and triples of elements including MixElement", "why_tests_cant": "laws over all pairs", "anchors": ["src/jaxrts/elements.py:Element.__eq__", "src/jaxrts/elements.py:Element.__hash__", "src/jaxrts/elements.py:MixElement"]}
{"id": "C20", "title": "Shell populations add up to the number of bound electrons", "statement": "electron_distribution_ionized_state(Z_core) gives non-negative populations within each shell's capacity, summing to Z_core, and adding electrons never empties a shell.", "quantifier": "all real 0 <= Z_core <= 36", "why_tests_cant": "real-valued interpolation argument", "anchors": ["src/jaxrts/elements.py:electron_distribution_ionized_state"]}
{"id": "C21", "title": "Tabulated electron configurations are consistent", "statement": "For each element and each charge state q the tabulated configuration has Z - q electrons, respects shell capacities, and removes exactly one electron per ionisation; there are Z+1 configurations and statistical weights and Z ionisation energies, all positive.", "quantifier": "all 36 elements and all their charge states", "why_tests_cant": "a table of several hundred rows; one mistyped entry breaks it", "anchors": ["src/jaxrts/elements.py:_ionization_econf", "src/jaxrts/elements.py:_ionization_energies", "src/jaxrts/elements.py:_ionization_statistical_weights"]}
{"id": "C22", "title": "Scattering vector geometry", "statement": "The k-dependent-on-energy scattering vector equals the elastic k at zero transfer, is even in the angle, bounded between |k_out - k_in| and k_out + k_in, and k grows with the angle on [0, 180 deg].", "quantifier": "all angles, photon energies and transfers", "why_tests_cant": "trigonometric identities over the reals", "anchors": ["src/jaxrts/setup.py:Setup.k", "src/jaxrts/setup.py:Setup.full_k"]}
{"id": "C23", "title": "Convolution is aligned with the energy axis", "statement": "Convolving a spectrum with the instrument function on an equidistant energy grid gives at each point the discrete convolution sum h * sum_j S_j inst((E_i - E_j)/hbar), without any shift.", "quantifier": "every grid length (odd or even), offset and spacing, every spectrum, every instrument function", "why_tests_cant": "parity and offset of the grid decide the index arithmetic", "anchors": ["src/jaxrts/setup.py:convolve_stucture_factor_with_instrument"]}
{"id": "C24", "title": "Probing at a given k", "statement": "get_probe_setup(k, setup) returns a setup whose scattering vector is k.", "quantifier": "every reachable k and setup", "why_tests_cant": "an inverse law over reals", "anchors": ["src/jaxrts/setup.py:get_probe_setup"]}
{"id": "C25", "title": "Instrument functions have the documented width and area", "statement": "The Gaussian instrument has half its peak at half the FWHM, the Lorentzian area is one, the super-Gaussian has the stated FWHM.", "quantifier": "all positive widths and powers", "why_tests_cant": "statements about real functions for all parameters", "anchors": ["src/jaxrts/instrument_function.py"]}
{"id": "C26", "title": "Two-sided Laplace transform is linear and positive", "statement": "The numerical Laplace transform of a spectrum is linear in intensity, non-negative for non-negative spectra and independent of the order of the samples.", "quantifier": "every sample list", "why_tests_cant": "all lists, all orders", "anchors": ["src/jaxrts/analysis.py:twoSidedLaplace"]}
{"id": "C27", "title": "Dictionary inversion is exact or refused", "statement": "invert_dict returns the inverse mapping exactly when values are unique, and raises otherwise; applying it twice returns the original.", "quantifier": "every finite dictionary", "why_tests_cant": "all dictionaries", "anchors": ["src/jaxrts/helpers.py:invert_dict"]}
{"id": "C28", "title": "Bisection keeps and shrinks its bracket", "statement": "bisection keeps a sign change between its two end points, halves the interval at each step, and on return has |f| below tolerance, or brackets a root within the tolerance, or has used max_iter steps.", "quantifier": "every function with a sign change, every interval and tolerance", "why_tests_cant": "all functions; loop invariant", "anchors": ["src/jaxrts/helpers.py:bisection"]}
{"id": "C29", "title": "Linear solver solves", "statement": "cramer_solve(A, b) returns x with A x = b for sizes 1 to 4 whenever det A is non-zero, and every entry satisfies its row.", "quantifier": "all real invertible matrices of the supported sizes", "why_tests_cant": "all real matrices", "anchors": ["src/jaxrts/helpers.py:cramer_solve"]}
{"id": "C30", "title": "Extremum search stays in its interval", "statement": "secant_extrema_finding returns a point inside [xmin, xmax] after at most max_iter steps.", "quantifier": "every function and starting interval", "why_tests_cant": "all functions", "anchors": ["src/jaxrts/helpers.py:secant_extrema_finding"]}
{"id": "C31", "title": "Fermi occupation is a probability", "statement": "fermi_dirac lies strictly between 0 and 1, decreases with energy, increases with chemical potential and is one half at the chemical potential; occupation and hole probability are symmetric about it.", "quantifier": "all wavenumbers, potentials and positive temperatures", "why_tests_cant": "inequalities over reals", "anchors": ["src/jaxrts/plasma_physics.py:fermi_dirac"]}
{"id": "C32", "title": "Compton shift bounds", "statement": "compton_energy is non-negative, zero in forward direction, smaller than the probe energy and grows with angle.", "quantifier": "all angles and energies", "why_tests_cant": "inequalities over reals", "anchors": ["src/jaxrts/plasma_physics.py:compton_energy"]}
{"id": "C33", "title": "Dielectric function and susceptibility convert back and forth", "statement": "epsilon_from_susceptibility and susceptibility_from_epsilon are mutually inverse (complex valued), and the non-interacting susceptibility with zero local field correction yields the same epsilon.", "quantifier": "all complex non-zero epsilon, all k", "why_tests_cant": "identities over complex numbers", "anchors": ["src/jaxrts/plasma_physics.py:susceptibility_from_epsilon", "src/jaxrts/plasma_physics.py:epsilon_from_susceptibility", "src/jaxrts/plasma_physics.py:noninteracting_susceptibility_from_eps_RPA", "src/jaxrts/ee_localfieldcorrections.py:xi_lfc_corrected"]}
{"id": "C34", "title": "Both fluctuation-dissipation routes agree", "statement": "Computing the dynamic structure factor from the dielectric function and from the RPA susceptibility gives the same value.", "quantifier": "all k, T, n_e, E and complex dielectric functions", "why_tests_cant": "identity over complex numbers", "anchors": ["src/jaxrts/free_free.py:S0ee_from_dielectric_func_FDT", "src/jaxrts/free_free.py:S0ee_from_susceptibility_FDT"]}
{"id": "C35", "title": "Detailed balance of the free-free spectrum", "statement": "S(-E) = exp(E/kT) S(E) in the code's sign convention for the RPA models, with any local field correction.", "quantifier": "all energies E != 0, temperatures, densities and wavevectors", "why_tests_cant": "identity over reals for analytic fits", "anchors": ["src/jaxrts/free_free.py:S0_ee_RPA_Dandrea", "src/jaxrts/free_free.py:S0_ee_RPA_no_damping", "src/jaxrts/free_free.py:noninteracting_susceptibility_Dandrea1986"]}
{"id": "C36", "title": "The free-free spectrum is non-negative", "statement": "S0_ee is non-negative at every energy for the RPA models.", "quantifier": "all energies, temperatures, densities", "why_tests_cant": "sign analysis over all reals", "anchors": ["src/jaxrts/free_free.py:S0_ee_RPA_Dandrea", "src/jaxrts/free_free.py:_imag_susceptibility_func_RPA_Dandrea"]}
{"id": "C37", "title": "Two Born-Mermin implementations are the same function", "statement": "Correcting with the local field before the Mermin step (Fortmann) or after it (Fit) gives the same susceptibility for every local field correction; the explicit and interpolated Mermin formulae coincide; without collisions they reduce to RPA.", "quantifier": "all complex collision frequencies, susceptibilities, local field corrections", "why_tests_cant": "identity of rational functions over complex numbers", "anchors": ["src/jaxrts/free_free.py:susceptibility_BMA_Fortmann", "src/jaxrts/free_free.py:dielectric_function_BMA_chapman_interpFit", "src/jaxrts/free_free.py:dielectric_function_BMA_full"]}
{"id": "C38", "title": "Collision frequency symmetry", "statement": "The interpolated collision frequency satisfies nu(-E) = conj(nu(E)).", "quantifier": "every interpolation table and energy", "why_tests_cant": "all tables, all energies including outside the table", "anchors": ["src/jaxrts/free_free.py:collision_frequency_BA_Chapman_interp"]}
{"id": "C39", "title": "The cut-off guess adapts to the spectrum", "statement": "guess_E_cutoff_max depends on where the RPA spectrum has dropped.", "quantifier": "all inputs", "why_tests_cant": "a NaN at the first grid point silently decides every comparison", "anchors": ["src/jaxrts/free_free.py:guess_E_cutoff_max"]}
{"id": "C40", "title": "Arkhipov-Davletov structure factors are physical", "statement": "At equal temperatures S_ii lies in (0, 1], and the matrix of S_ee, S_ei, S_ii is positive definite.", "quantifier": "all k, T, n_e, m_i, Z_f > 0", "why_tests_cant": "inequalities over reals", "anchors": ["src/jaxrts/static_structure_factors.py:S_ii_AD", "src/jaxrts/static_structure_factors.py:S_ee_AD", "src/jaxrts/static_structure_factors.py:S_ei_AD"]}
{"id": "C41", "title": "Effective temperatures interpolate", "statement": "Effective pair temperatures lie between the two temperatures and equal them when they coincide; quantum-corrected temperatures are never below the classical ones.", "quantifier": "all positive temperatures and masses", "why_tests_cant": "inequalities over reals", "anchors": ["src/jaxrts/static_structure_factors.py:_T_rs_Greg2006", "src/jaxrts/static_structure_factors.py:T_cf_Greg", "src/jaxrts/static_structure_factors.py:T_i_eff_Greg"]}
{"id": "C42", "title": "Mixture structure factor reduces to one component", "statement": "The multi-species S_ab of the analytic ion-feature models is symmetric and equals the one-component S for a single species.", "quantifier": "all mixtures", "why_tests_cant": "all species counts", "anchors": ["src/jaxrts/models.py:Gregori2003IonFeat.S_ii", "src/jaxrts/models.py:ArkhipovIonFeat.S_ii"]}
{"id": "C43", "title": "Rayleigh weight is non-negative and order independent", "statement": "The Rayleigh weight is non-negative whenever the structure-factor matrix is positive semi-definite, reduces to the sum of x (f+q)^2 for uncorrelated ions, and does not depend on the order in which ions are listed.", "quantifier": "all mixtures and permutations", "why_tests_cant": "all permutations and sizes", "anchors": ["src/jaxrts/models.py:IonFeatModel.Rayleigh_weight"]}
{"id": "C44", "title": "Discrete sine transform is its own inverse", "statement": "Applying the type-IV sine transform used by the HNC solver twice returns N/2 times the input, and the 3D forward and backward transforms are mutually inverse.", "quantifier": "every array of every even length, every pair of species and positive radii", "why_tests_cant": "orthogonality of sines for all N", "anchors": ["src/jaxrts/hypernetted_chain.py:dst4", "src/jaxrts/hypernetted_chain.py:_3Dfour"]}
{"id": "C45", "title": "The k grid carries the right labels", "statement": "The k values attached to the transform output are those at which the transform is evaluated.", "quantifier": "every radial grid", "why_tests_cant": "a half-step offset is invisible to round-trip tests", "anchors": ["src/jaxrts/hypernetted_chain.py:pair_distribution_function_HNC", "src/jaxrts/models.py:OnePotentialHNCIonFeat.k"]}
{"id": "C46", "title": "HNC iteration obeys Ornstein-Zernike and terminates", "statement": "Each HNC iteration's correlation functions satisfy the multicomponent Ornstein-Zernike relation, pair distributions stay positive and the loop stops after a bounded number of iterations.", "quantifier": "every potential, density, mixture and number of iterations", "why_tests_cant": "all potentials, loop invariant", "anchors": ["src/jaxrts/hypernetted_chain.py:pair_distribution_function_HNC"]}
{"id": "C47", "title": "Long and short range parts add up to the potential", "statement": "For every HNC potential, and every sum or scaling of potentials, full_r = short_r + long_r.", "quantifier": "every potential expression, every radius", "why_tests_cant": "closed under sums and scalings of any depth", "anchors": ["src/jaxrts/hnc_potentials.py:HNCPotential.short_r", "src/jaxrts/hnc_potentials.py:PotentialSum", "src/jaxrts/hnc_potentials.py:ScaledPotential", "src/jaxrts/hnc_potentials.py:YukawaShortRangeRepulsion.full_r"]}
{"id": "C48", "title": "Real-space and Fourier-space potentials are a transform pair", "statement": "full_k is the 3D Fourier transform of full_r and long_k that of long_r for the Coulomb, Debye-Hueckel and Deutsch potentials.", "quantifier": "all k > 0 and parameters", "why_tests_cant": "integral identities for all parameters", "anchors": ["src/jaxrts/hnc_potentials.py:CoulombPotential", "src/jaxrts/hnc_potentials.py:DebyeHueckelPotential", "src/jaxrts/hnc_potentials.py:DeutschPotential.full_k"]}
{"id": "C49", "title": "Adding potentials or IPD models does not modify the operands", "statement": "a + b leaves a and b as they were.", "quantifier": "all histories of additions", "why_tests_cant": "aliasing appears only when a sum is reused", "anchors": ["src/jaxrts/hnc_potentials.py:HNCPotential.__add__", "src/jaxrts/models.py:IPDModel.__add__"]}
{"id": "C50", "title": "Stewart-Pyatt interpolates between its limits", "statement": "The Stewart-Pyatt depression never exceeds the Debye-Hueckel nor the ion-sphere depression in magnitude.", "quantifier": "all charges, densities, temperatures", "why_tests_cant": "inequality over reals", "anchors": ["src/jaxrts/ipd.py:ipd_stewart_pyatt", "src/jaxrts/ipd.py:ipd_debye_hueckel", "src/jaxrts/ipd.py:ipd_ion_sphere"]}
{"id": "C51", "title": "Ecker-Kroell is continuous at the critical density", "statement": "The Ecker-Kroell depression is continuous at its critical density.", "quantifier": "all mixtures and temperatures", "why_tests_cant": "one-species tests cannot see the mixture discontinuity", "anchors": ["src/jaxrts/ipd.py:ipd_ecker_kroell"]}
{"id": "C52", "title": "Saha populations are a distribution with the right ratios", "statement": "Saha weights are non-negative, sum to one, give a mean charge between 0 and Z, and consecutive populations satisfy the Saha equation; the mean charge decreases with electron density.", "quantifier": "all densities, temperatures, coefficient lists", "why_tests_cant": "all lists and reals", "anchors": ["src/jaxrts/ionization.py:_zbar_and_weights", "src/jaxrts/ionization.py:solve_saha"]}
{"id": "C53", "title": "Hydrogenic Compton profiles are normalised", "statement": "Each shell's Compton profile integrates to one electron.", "quantifier": "every shell n,l used and every effective charge", "why_tests_cant": "an improper integral for all charges; tests look at plots of light elements", "anchors": ["src/jaxrts/bound_free.py:J_impulse_approx"]}
{"id": "C54", "title": "Closed-form profiles agree with the general formula", "statement": "The explicit 1s, 2s and 2p profiles equal the general Schumacher form.", "quantifier": "all momenta and charges", "why_tests_cant": "identity over reals", "anchors": ["src/jaxrts/bound_free.py"]}
{"id": "C55", "title": "Bound-free interpolates between integer charges", "statement": "For fractional ionisation the bound-free spectrum is the convex combination of the neighbouring integer ones, equals the integer one at integers and is continuous.", "quantifier": "all charges", "why_tests_cant": "all real charges", "anchors": ["src/jaxrts/models.py:SchumacherImpulse.evaluate_raw"]}
{"id": "C56", "title": "Form factors are normalised and bounded", "statement": "Hydrogenic form factors are one at k = 0 and bounded by one in magnitude.", "quantifier": "all k, all effective charges", "why_tests_cant": "inequality over reals", "anchors": ["src/jaxrts/form_factors.py"]}
{"id": "C57", "title": "Shielding tables are usable for interpolation", "statement": "The tabulated abscissae used in interpolation are increasing.", "quantifier": "all tables", "why_tests_cant": "jnp.interp silently returns garbage for unsorted tables", "anchors": ["src/jaxrts/form_factors.py:pauling_size_screening_constants"]}
{"id": "C58", "title": "Screening models agree where documented", "statement": "Debye-Hueckel screening equals linear response screening with a bare Coulomb potential and no local field correction, neutral species are unscreened and the charge is bounded by the free charge.", "quantifier": "all k and states", "why_tests_cant": "identity over reals", "anchors": ["src/jaxrts/models.py:DebyeHueckelScreening", "src/jaxrts/models.py:LinearResponseScreeningGericke2010"]}
{"id": "C59", "title": "Interpolated local field corrections are convex mixtures", "statement": "The finite temperature local field corrections lie between their zero-temperature and high-temperature limits; the Hubbard correction lies in [0, 1/2).", "quantifier": "all k, T, n_e", "why_tests_cant": "inequality over reals", "anchors": ["src/jaxrts/ee_localfieldcorrections.py"]}
{"id": "C60", "title": "Edge models are monotone switches", "statement": "Every absorption edge model stays within [0,1], is non-decreasing in energy; Fermi and Heaviside are one half at the edge.", "quantifier": "all energies", "why_tests_cant": "inequality over reals", "anchors": ["src/jaxrts/models.py:Fermi", "src/jaxrts/models.py:Heaviside", "src/jaxrts/models.py:NonNegative", "src/jaxrts/models.py:NoEdge"]}
{"id": "C61", "title": "Detailed balance free-bound mirrors bound-free", "statement": "The free-bound contribution at an up-shift equals the Boltzmann-weighted bound-free contribution at the mirrored down-shift; mirroring twice is the identity.", "quantifier": "all energies and setups", "why_tests_cant": "identity over reals", "anchors": ["src/jaxrts/models.py:DetailedBalance", "src/jaxrts/free_bound.py:FreeBoundFlippedSetup"]}
{"id": "C62", "title": "Listing helpers honour their filters", "statement": "get_all_models_list returns only the requested kind, and names when names are requested.", "quantifier": "every argument combination", "why_tests_cant": "arguments silently ignored", "anchors": ["src/jaxrts/collections.py:get_all_models_list"]}
{"id": "C63", "title": "A model finds the interface it needs in the models it reads", "statement": "Every method an attached model calls on the models it looks up in the plasma state exists on the model attached there.", "quantifier": "every history of assignments over all shipped classes", "why_tests_cant": "depends on which combination of models a user attaches; the product of all choices is not tested", "anchors": ["src/jaxrts/models.py:Sum_Sii", "src/jaxrts/models.py:LinearResponseScreening", "src/jaxrts/models.py:_build_cached_S_ii", "src/jaxrts/models.py:Neglect"]}
{"id": "C64", "title": "The Born-Mermin energy cut-off belongs to the plasma being evaluated", "statement": "The automatic energy cut-off of an attached Born-Mermin model is the guess for the current plasma parameters.", "quantifier": "every history of assignments and changes of the plasma parameters", "why_tests_cant": "staleness only shows after a particular order of operations", "anchors": ["src/jaxrts/models.py:BornMermin.prepare", "src/jaxrts/models.py:BornMermin_Fit.prepare", "src/jaxrts/models.py:BornMermin_Fortmann.prepare"]}
{"id": "C65", "title": "Characteristic plasma scales are mutually consistent", "statement": "Fermi wavenumber, Fermi energy and temperature, Wigner-Seitz radius, degeneracy, plasma frequency and the duplicated formulas for k and the coupling parameter agree with each other, and order with density.", "quantifier": "all positive densities and temperatures", "why_tests_cant": "identities between separately coded formulas, over a continuum", "anchors": ["src/jaxrts/plasma_physics.py:fermi_energy", "src/jaxrts/plasma_physics.py:wiegner_seitz_radius", "src/jaxrts/plasma_physics.py:coupling_param", "src/jaxrts/plasmastate.py:ee_coupling"]}
{"id": "C66", "title": "Effective temperatures never fall below the electron temperature", "statement": "temperature_interpolation lies above both the electron and Fermi temperature and below 2^(1/p) times the larger; the classical-map temperature is at least T_e.", "quantifier": "all densities, temperatures and powers", "why_tests_cant": "inequality over a continuum", "anchors": ["src/jaxrts/plasma_physics.py:temperature_interpolation", "src/jaxrts/plasmastate.py:Teff_e"]}
{"id": "C67", "title": "Debye length of a mixture", "statement": "Inverse squares of the Debye lengths of the species add up, species order is immaterial, more charges screen better, and lambda_D omega_p is the thermal velocity.", "quantifier": "every list of species", "why_tests_cant": "unbounded number of species", "anchors": ["src/jaxrts/plasma_physics.py:Debye_Huckel_screening_length"]}
{"id": "C68", "title": "Detailed balance fixes the temperature found by the ITCF analysis", "statement": "For a spectrum in detailed balance at temperature T on a symmetric grid, the Laplace transform is symmetric about tau = 1/(2 k_B T), has its only minimum there, and the temperature read off is T. Value and slope at tau = 0 are the zeroth and minus the first moment.", "quantifier": "all spectra, symmetric grids, temperatures and cut-offs", "why_tests_cant": "equality over all spectra and a continuum of temperatures", "anchors": ["src/jaxrts/analysis.py:ITCF", "src/jaxrts/analysis.py:ITCFT_grid", "src/jaxrts/analysis.py:ITCF_fsum", "src/jaxrts/analysis.py:ITCF_ssf"]}
{"id": "C69", "title": "Tabulated ionisation energies rise with the charge", "statement": "For each element the successive ionisation energies are listed in ascending order, so that the i-th entry belongs to charge state i.", "quantifier": "all 36 elements and all charge states", "why_tests_cant": "a table of 666 numbers; consumers that sort hide the error", "anchors": ["src/jaxrts/elements.py:_ionization_energies", "src/jaxrts/models.py:FormFactorLowering"]}
{"id": "C70", "title": "Statistical weights belong to the tabulated configuration", "statement": "The statistical weight of each charge state is 2J+1 with J the total angular momentum of its electron configuration's open shells.", "quantifier": "all 36 elements and all charge states", "why_tests_cant": "two separate tables of several hundred entries", "anchors": ["src/jaxrts/elements.py:_ionization_statistical_weights", "src/jaxrts/elements.py:_ionization_econf", "tools/ionization_econfig.py"]}
{"id": "C71", "title": "Cold binding energies belong to their orbital", "statement": "The binding energy an Element reports for an occupied orbital is the tabulated one of this orbital.", "quantifier": "all 36 elements and all occupied orbitals up to 3d", "why_tests_cant": "the column layout of the table is implicit", "anchors": ["src/jaxrts/elements.py:Element.__init__", "src/jaxrts/elements.py:_cold_absorption_edges"]}
{"id": "C72", "title": "Binding energies of ions match the populated orbitals", "statement": "An orbital of an ion has a positive tabulated binding energy exactly when it is occupied, charges are rounded to the nearest integer, and each orbital the bound-free model populates has a binding energy.", "quantifier": "all elements and all charges", "why_tests_cant": "the populations and the energies come from different sources", "anchors": ["src/jaxrts/elements.py:Element.get_binding_energies", "src/jaxrts/elements.py:electron_distribution_ionized_state", "src/jaxrts/models.py:SchumacherImpulse.evaluate_raw"]}
{"id": "C73", "title": "Compiled code is only reused for states it fits", "statement": "jax.jit reuses compiled code when the tree definitions of the arguments compare equal. Whenever those of two states do, each leaf of the new state ends up in the attribute of the model it came from.", "quantifier": "all states and all insertion orders of their models", "why_tests_cant": "dictionaries keep their insertion order but dict_keys compare as sets; the effect is a silently swapped parameter", "anchors": ["src/jaxrts/helpers.py:JittableDict._tree_flatten", "src/jaxrts/plasmastate.py:PlasmaState._tree_flatten", "src/jaxrts/models.py:Model._tree_flatten"]}
{"id": "C74", "title": "Debye-Waller factor is a probability", "statement": "The Debye-Waller factor lies in (0, 1], is 1 exactly at zero wave number, falls with wave number and temperature and rises with mass and Debye temperature.", "quantifier": "all positive masses, temperatures, Debye temperatures and all wave numbers", "why_tests_cant": "monotonicity of an integral over a continuum of parameters", "anchors": ["src/jaxrts/static_structure_factors.py:debyeWallerFactor"]}
{"id": "C75", "title": "Screening charge is the linear response to the ion", "statement": "At equal temperatures the screening charge of Gregori 2004 is the linear response n_e/(k_B T) V_ei(k)/eps to the electron-ion pseudopotential, and the screening charge sqrt(Z) S_ei/S_ii is positive and satisfies q^2 S_ii < Z S_ee.", "quantifier": "all positive parameters", "why_tests_cant": "an identity between two separately implemented formulas", "anchors": ["src/jaxrts/ion_feature.py:q_Gregori2004", "src/jaxrts/ion_feature.py:q_Glenzer2009", "src/jaxrts/static_structure_factors.py:S_ei_AD"]}
{"id": "C76", "title": "Charged-hard-sphere structure factors belong to one screening cloud", "statement": "In the charged-hard-sphere theory S_ei and S_ee follow from one S_ii and one screening charge: the determinant of the electron-ion matrix is S_ii times the factor of free electrons, and sqrt(Z) S_ei/S_ii is the screening charge.", "quantifier": "all parameters for which the factors are defined", "why_tests_cant": "symbolic identity", "anchors": ["src/jaxrts/static_structure_factors.py:S_ii_CHS", "src/jaxrts/static_structure_factors.py:S_ei_CHS", "src/jaxrts/static_structure_factors.py:S_ee_CHS"]}
{"id": "C77", "title": "Mixture structure factors are positive semi-definite", "statement": "The S_ab matrix of the analytic ion-feature models is positive semi-definite, so that no choice of form factors gives a negative scattered intensity.", "quantifier": "all mixtures, temperatures and wave numbers", "why_tests_cant": "needs all vectors and all charge states; tests look at single elements", "anchors": ["src/jaxrts/models.py:ArkhipovIonFeat.S_ii", "src/jaxrts/models.py:Gregori2003IonFeat.S_ii", "src/jaxrts/models.py:IonFeatModel.Rayleigh_weight"]}
{"id": "C78", "title": "Listing an ion twice changes nothing", "statement": "Splitting one ion species into two entries with the same element, charge and temperature leaves the Rayleigh weight of the analytic models unchanged.", "quantifier": "all mixtures and all splitting ratios", "why_tests_cant": "metamorphic relation over all states", "anchors": ["src/jaxrts/models.py:ArkhipovIonFeat.S_ii", "src/jaxrts/models.py:CHSIonFeat.S_ii", "src/jaxrts/models.py:IonFeatModel.Rayleigh_weight"]}
{"id": "C79", "title": "Debye-Waller solid is symmetric in the ion species", "statement": "The S_ab of DebyeWallerSolid is symmetric whenever those of its plasma and lattice parts are, and lies between the two.", "quantifier": "all mixtures and Debye temperatures", "why_tests_cant": "array broadcasting picks one of the two species silently", "anchors": ["src/jaxrts/models.py:DebyeWallerSolid.S_ii"]}
{"id": "C80", "title": "Pair potentials do not depend on the order of the species", "statement": "full_r, short_r, long_r and their Fourier counterparts are symmetric in the two species for every potential class, and so are sums and multiples of them.", "quantifier": "all states, species and treatments of the electrons", "why_tests_cant": "all pairs of species and all potential expressions", "anchors": ["src/jaxrts/hnc_potentials.py:HNCPotential.alpha", "src/jaxrts/hnc_potentials.py:HNCPotential.mu", "src/jaxrts/hnc_potentials.py:HNCPotential.r_cut", "src/jaxrts/hnc_potentials.py:construct_q_matrix"]}
{"id": "C81", "title": "Screened and quantum potentials are weaker than Coulomb", "statement": "The magnitudes of the Debye-Hueckel, Kelbg, Klimontovich-Kraeft and Deutsch potentials are positive and below the Coulomb potential, those of the core potentials at most as large; the sign is that of the Coulomb potential.", "quantifier": "all radii, temperatures and charges", "why_tests_cant": "inequality over reals, the Kelbg one between error function and exponential", "anchors": ["src/jaxrts/hnc_potentials.py:KelbgPotential.full_r", "src/jaxrts/hnc_potentials.py:DeutschPotential.full_r", "src/jaxrts/hnc_potentials.py:KlimontovichKraeftPotential.full_r", "src/jaxrts/hnc_potentials.py:SoftCorePotential.full_r", "src/jaxrts/hypernetted_chain.py:pair_distribution_function_HNC", "src/jaxrts/hypernetted_chain.py:pair_distribution_function_SVT_HNC", "src/jaxrts/hypernetted_chain.py:S_ii_HNC"]}
{"id": "C82", "title": "Ecker-Kroell is Debye-Hueckel below the critical density", "statement": "Up to the critical density ipd_ecker_kroell returns what ipd_debye_hueckel returns, as its docstring says.", "quantifier": "all mixtures, densities, temperatures, both screening lengths", "why_tests_cant": "needs all mixtures and temperatures", "anchors": ["src/jaxrts/ipd.py:ipd_ecker_kroell", "src/jaxrts/ipd.py:ipd_debye_hueckel"]}
{"id": "C83", "title": "Depression deepens with the charge state", "statement": "In the table of all charge states of an element, a higher charge has the deeper (more negative) depression.", "quantifier": "all plasma states, elements, pairs of charge states and models", "why_tests_cant": "relation between all entries of a table for all states; tests evaluate no table", "anchors": ["src/jaxrts/models.py:DebyeHueckelIPD.all_element_states", "src/jaxrts/models.py:StewartPyattIPD.all_element_states", "src/jaxrts/models.py:EckerKroellIPD.all_element_states", "src/jaxrts/models.py:PauliBlockingIPD.all_element_states"]}
{"id": "C84", "title": "The table of charge states agrees with the depression of the state", "statement": "Where an ion's mean charge is one of the tabulated charges, all_element_states and evaluate agree; also for nested sums of models.", "quantifier": "all states and all nested sums of models", "why_tests_cant": "structural induction over sums of models", "anchors": ["src/jaxrts/models.py:IPDSum.evaluate", "src/jaxrts/models.py:IPDSum.all_element_states", "src/jaxrts/models.py:ConstantIPD.all_element_states"]}
{"id": "C85", "title": "Pauli blocking shift is bounded by the attraction at the Bohr radius", "statement": "The Pauli blocking shift is negative and its magnitude is at most (Z+1) e^2/(4 pi eps0 a_Z) times the occupation of the ground state.", "quantifier": "all charges, temperatures, chemical potentials", "why_tests_cant": "improper integral", "anchors": ["src/jaxrts/ipd.py:ipd_pauli_blocking"]}
{"id": "C86", "title": "Preston's form of Stewart-Pyatt", "statement": "The Preston form never exceeds the Debye-Hueckel depression, and a population consisting of the mean charge only gives the result without a population.", "quantifier": "all charges, densities, temperatures, populations", "why_tests_cant": "inequality over reals", "anchors": ["src/jaxrts/ipd.py:ipd_stewart_pyatt_preston"]}
{"id": "C87", "title": "The ionisation solver conserves particles and charge", "statement": "solve_ionization returns positive populations that add up to the density of each element; the mean charges are theirs; the free-electron density solves the neutrality condition within the tolerance; the neutral density is unique.", "quantifier": "all mixtures, tables of coefficients, densities", "why_tests_cant": "root finding over all coefficient tables; tests compare a few densities", "anchors": ["src/jaxrts/ionization.py:solve_ionization", "src/jaxrts/ionization.py:_log_partition_products"]}
{"id": "C88", "title": "Saha relation, its generalisation, and their trends", "statement": "The coefficient obeys the Saha equation; the generalised form with the classical chemical potential is the same; heating or deeper continuum lowering raises coefficients, mean charge and neutral electron density.", "quantifier": "all weights, energies, temperatures, lowerings", "why_tests_cant": "monotonicity over reals", "anchors": ["src/jaxrts/ionization.py:saha_equation", "src/jaxrts/ionization.py:gen_saha_equation", "src/jaxrts/ionization.py:saha_balance_term"]}
{"id": "C89", "title": "More's Thomas-Fermi charge lies between zero and Z", "statement": "The fit gives a charge in (0, Z) for every density, temperature and mass; the loop over mixtures ends; a single element gets the fit at its own density.", "quantifier": "all densities, temperatures, mixtures", "why_tests_cant": "loop over all mixtures", "anchors": ["src/jaxrts/ionization.py:_calculate_single_species_ionization_more", "src/jaxrts/ionization.py:calculate_mean_free_charge_more"]}
{"id": "C90", "title": "Planck-Larkin sums and the Bethe-Uhlenbeck balance", "statement": "The partition sum is non-negative and positive exactly if a level is bound; for deep levels the balance tends to the generalised Saha equation; bare nuclei are always possible.", "quantifier": "all level tables, temperatures, densities", "why_tests_cant": "limit for all tables; tests skip the downloaded tables", "anchors": ["src/jaxrts/ionization.py:planck_larkin_partition_sum", "src/jaxrts/ionization.py:bu_balance_term", "src/jaxrts/ionization.py:gen_balance_equation"]}
{"id": "C91", "title": "Charge-state distributions are fractions", "statement": "calculate_mean_free_charge_saha and calculate_charge_state_distribution return fractions, as documented.", "quantifier": "all plasma states, models and options", "why_tests_cant": "composition of the solver, six iterations, arbitrary models", "anchors": ["src/jaxrts/ionization.py:calculate_mean_free_charge_saha", "src/jaxrts/ionization.py:calculate_charge_state_distribution"]}
{"id": "C92", "title": "A collection of peaks is the sum of its peaks", "statement": "PeakCollection.S_ii is the intensity-weighted sum of the peak function centred at the given positions: shifting all positions shifts the curve, joining collections adds them.", "quantifier": "all peak functions, positions, intensities", "why_tests_cant": "arbitrary peak functions", "anchors": ["src/jaxrts/models.py:PeakCollection.S_ii"]}
{"id": "C93", "title": "HNC structure factors are the inverse of 1 - n c", "statement": "S_ii_HNC is symmetric, one plus the transform of g - 1, repeats its second value in the first place and, for an HNC solution, is the matrix inverse of 1 - sqrt(n) c sqrt(n); without correlation it is the unit matrix.", "quantifier": "all mixtures, grids, pair distributions", "why_tests_cant": "all numbers of species and grid sizes", "anchors": ["src/jaxrts/hypernetted_chain.py:S_ii_HNC"]}
{"id": "C94", "title": "Multi-temperature Ornstein-Zernike solver", "statement": "The SVT solver's correlations satisfy the multi-temperature relation, are symmetric and, at one temperature, agree with the one-temperature solver whatever the masses; its iteration count covers all cycles.", "quantifier": "all species, masses, temperatures, densities", "why_tests_cant": "a flattened M^2 x M^2 system; index mix-ups are invisible for one species", "anchors": ["src/jaxrts/hypernetted_chain.py:pair_distribution_function_SVT_HNC"]}
{"id": "C95", "title": "Pair temperatures are means", "statement": "Mass-weighted and geometric pair temperatures are symmetric, lie between the two temperatures, and the former is additive in T/m.", "quantifier": "all masses and temperatures", "why_tests_cant": "inequalities over the reals", "anchors": ["src/jaxrts/hypernetted_chain.py:mass_weighted_T", "src/jaxrts/hypernetted_chain.py:geometric_mean_T"]}
{"id": "C96", "title": "Ogata quadrature: derivative, weights and Bessel functions", "statement": "dpsi is the derivative of psi, the half-integer Bessel functions obey their recurrences, all weights are one and all nodes positive.", "quantifier": "all arguments, all nodes", "why_tests_cant": "identities over the reals", "anchors": ["src/jaxrts/hypernetted_chain.py:psi", "src/jaxrts/hypernetted_chain.py:dpsi", "src/jaxrts/hypernetted_chain.py:bessel_3_2", "src/jaxrts/hypernetted_chain.py:fourier_transform_ogata"]}
{"id": "C97", "title": "HNC building blocks outside the solver's own use", "statement": "The sine transform of odd length is still the sine transform, and the Ornstein-Zernike solver solves for any matrix of direct correlations.", "quantifier": "all lengths, all matrices", "why_tests_cant": "tests use powers of two and symmetric matrices", "anchors": ["src/jaxrts/hypernetted_chain.py:dst4", "src/jaxrts/helpers.py:cramer_solve"]}
{"id": "C98", "title": "Damped RPA at real energies", "statement": "At real energies the damped dielectric function equals the undamped one, and S0_ee_RPA equals S0_ee_RPA_no_damping, for either way of evaluating the integrals.", "quantifier": "all wavevectors, energies, chemical potentials, temperatures, any quadrature compatible with scaling", "why_tests_cant": "two differently written integrands; the default branch silently returns zero", "anchors": ["src/jaxrts/free_free.py:dielectric_function_RPA", "src/jaxrts/free_free.py:dielectric_function_RPA_rewrite", "src/jaxrts/free_free.py:S0_ee_RPA"]}
{"id": "C99", "title": "Detailed balance with collisions", "statement": "All four Born-Mermin spectra obey detailed balance for every collision frequency with nu(-E) = conj(nu(E)), which the interpolated tables have.", "quantifier": "all energies, collision tables, local field corrections", "why_tests_cant": "four implementations, all tables", "anchors": ["src/jaxrts/free_free.py:S0_ee_BMA", "src/jaxrts/free_free.py:S0_ee_BMA_chapman_interp", "src/jaxrts/free_free.py:S0_ee_BMA_chapman_interpFit", "src/jaxrts/free_free.py:S0_ee_BMA_Fortmann"]}
{"id": "C100", "title": "Kramers-Kronig transform", "statement": "The discrete transform is linear and maps even tables to odd ones.", "quantifier": "all tables on symmetric increasing grids", "why_tests_cant": "all grids and tables", "anchors": ["src/jaxrts/free_free.py:KramersKronigTransform", "src/jaxrts/free_free.py:_KKT_single_point"]}
{"id": "C101", "title": "Free-free models at the elastic energy", "statement": "The free-free models give a finite positive value at zero energy shift, and zero without free electrons.", "quantifier": "all plasmas", "why_tests_cant": "nan at a single energy; whether a grid hits it depends on the grid", "anchors": ["src/jaxrts/models.py:RPA_DandreaFit", "src/jaxrts/models.py:RPA", "src/jaxrts/models.py:QCSalpeterApproximation"]}
{"id": "C102", "title": "Resampled collision frequencies follow the energy", "statement": "dielectric_function_BMA_full uses at every energy the collision frequency of that energy.", "quantifier": "all sets of energies", "why_tests_cant": "clipping of an interpolation is silent; only one-sided sets show it", "anchors": ["src/jaxrts/free_free.py:dielectric_function_BMA_full"]}
{"id": "C103", "title": "Screening length and screened potential", "statement": "The inverse screening length that is integrated over the Fermi distribution is the classical one at the density that belongs to F_(-1/2): it never exceeds that of Boltzmann electrons of the same chemical potential and falls short of it by at most the relative amount z / sqrt 2 in the square. The non-degenerate inverse screening length is the inverse of the Debye length; the statically screened potential is attractive, bounded by and without screening equal to the Coulomb potential.", "quantifier": "all densities, temperatures, wavevectors, charges", "why_tests_cant": "two independently written formulas over the reals", "anchors": ["src/jaxrts/free_free.py:inverse_screening_length_exact", "src/jaxrts/free_free.py:inverse_screening_length_non_degenerate", "src/jaxrts/free_free.py:statically_screened_ie_debye_potential", "src/jaxrts/plasma_physics.py:Debye_Hueckel_screening_length"]}
{"id": "C104", "title": "Form factors shrink under continuum lowering", "statement": "The 1s form factor lies in [0,1], belongs to the hydrogenic charge of the lowered binding energy, never grows when binding energies fall, is the mean over one- and two-electron ions; in mixtures every ion gets its own.", "quantifier": "all k, binding energies, bound electrons, mixtures", "why_tests_cant": "an index swap is invisible for one species", "anchors": ["src/jaxrts/form_factors.py:form_factor_lowering_10", "src/jaxrts/models.py:FormFactorLowering"]}
{"id": "C105", "title": "The K shell has the largest binding energies", "statement": "The two energies FormFactorLowering takes for the K shell are the largest ionisation energies of the element.", "quantifier": "all tabulated elements", "why_tests_cant": "only a few elements are misordered", "anchors": ["src/jaxrts/models.py:FormFactorLowering", "src/jaxrts/elements.py:Element.ionization"]}
{"id": "C106", "title": "Bound-free intensities are not negative", "statement": "Every shell's profile, and with it the bound-free spectrum, is non-negative.", "quantifier": "all shells, energies, wavenumbers, effective charges, populations", "why_tests_cant": "the sign changes far from the recoil energy", "anchors": ["src/jaxrts/bound_free.py:J_impulse_approx", "src/jaxrts/bound_free.py:all_J_HR"]}
{"id": "C107", "title": "The fitted elastic fraction restores the f-sum rule", "statement": "With the fraction of SchumacherImpulseFitRk the first moment of free-free plus bound-free plus free-bound scattering is the recoil energy; no other fraction has this property.", "quantifier": "all spectra, energy grids, wavenumbers", "why_tests_cant": "the sum rule is an identity between sums over the grid", "anchors": ["src/jaxrts/models.py:SchumacherImpulseFitRk.r_k", "src/jaxrts/analysis.py:ITCF_fsum"]}
{"id": "C108", "title": "Sum rules of the zero-temperature local field corrections", "statement": "At long waves the corrections of Utsumi/Ichimaru and Farid tend to gamma_0 (k/k_F)^2 with gamma_0 = 1/4 at high density; at short waves to one minus the value at contact, and to b_-2 (k/k_F)^2 + b_0. They are finite at every wavenumber. The moments of the momentum distribution behind the coefficients of Farid are raised by the interaction and satisfy <p^2>^2 <= <p^4>.", "quantifier": "all densities and wavenumbers", "why_tests_cant": "limits; a wrong coefficient is hidden by the other terms at moderate k", "anchors": ["src/jaxrts/ee_localfieldcorrections.py:eelfc_utsumiichimaru", "src/jaxrts/ee_localfieldcorrections.py:eelfc_farid"]}
{"id": "C109", "title": "Pair distribution at contact", "statement": "Geldart and Vosko's value at contact lies in [0,1/2], tends to 1/2 for non-interacting electrons, and screening enhances it.", "quantifier": "all temperatures and couplings, exact quadrature", "why_tests_cant": "an improper integral with a limit", "anchors": ["src/jaxrts/ee_localfieldcorrections.py:eelfc_geldartvosko"]}
{"id": "C110", "title": "Dornheim's local field correction", "statement": "The fit is defined in its region of validity, vanishes quadratically at long waves, tends to one minus the value at contact at short waves, lies between its two parts, the value at contact is not negative, and the atomic units agree with the plasma's.", "quantifier": "all wavenumbers, densities, temperatures up to 4 T_F", "why_tests_cant": "limits and conversions over continuous parameters", "anchors": ["src/jaxrts/ee_localfieldcorrections_dornheim_2021.py:G_analytical", "src/jaxrts/ee_localfieldcorrections_dornheim_2021.py:OnTop", "src/jaxrts/ee_localfieldcorrections.py:eelfc_dornheim2021"]}
{"id": "C111", "title": "Screening lengths", "statement": "The Debye length satisfies lambda^2 n e^2 = eps0 kB T and is the inverse of the wavenumber of the structure factors; Gericke's length is the one at an effective temperature between max(T,T_F) and T+T_F and larger than Debye's; the finite wavelength model has the Thomas-Fermi length as its long wave limit.", "quantifier": "all densities, temperatures and constants", "why_tests_cant": "relations over continuous parameters and a limit", "anchors": ["src/jaxrts/models.py:DebyeHueckelScreeningLength", "src/jaxrts/models.py:Gericke2010ScreeningLength", "src/jaxrts/models.py:ArbitraryDegeneracyScreeningLength", "src/jaxrts/models.py:FiniteWavelengthScreening"]}
{"id": "C112", "title": "Screening clouds neutralise the plasma", "statement": "Weighted by the densities, the screening charges add up to the free electron density times the screening factor, so that at long waves the plasma is neutral, however many species there are.", "quantifier": "all mixtures, wavenumbers", "why_tests_cant": "for a single species every weighting gives the same", "anchors": ["src/jaxrts/models.py:DebyeHueckelScreening", "src/jaxrts/models.py:GregoriCHSScreening"]}
{"id": "C113", "title": "The rewritten random phase approximation is the same function", "statement": "dielectric_function_RPA_rewrite equals dielectric_function_RPA for every complex energy with damping; integration by parts and the symmetries of the integrand connect the two integrals.", "quantifier": "all wavenumbers, temperatures, chemical potentials, damped energies; exact integrals", "why_tests_cant": "improper integrals; the static case is measure zero", "anchors": ["src/jaxrts/free_free.py:dielectric_function_RPA_rewrite", "src/jaxrts/free_free.py:dielectric_function_RPA"]}
{"id": "C114", "title": "Damped dielectric functions absorb and tend to the undamped one", "statement": "The imaginary part of the damped dielectric functions is positive for positive energy; for vanishing damping it tends to the closed form used without damping, which counts the occupied states that can be scattered.", "quantifier": "all wavenumbers, temperatures, chemical potentials, energies; exact integrals", "why_tests_cant": "a limit of improper integrals", "anchors": ["src/jaxrts/free_free.py:dielectric_function_RPA", "src/jaxrts/free_free.py:_imag_diel_func_RPA_no_damping"]}
{"id": "C115", "title": "Zero temperature dielectric function", "statement": "dielectric_function_RPA_0K absorbs exactly in the particle-hole continuum, is conjugate under a change of the energy's sign, its imaginary part is the zero temperature limit of the finite temperature one with an error linear in T and the chemical potential's distance to the Fermi energy, its static screening lies below and tends to Thomas and Fermi's, at high energies it tends to 1-(hbar wp/E)^2, and it obeys the f-sum rule.", "quantifier": "all wavenumbers, densities, energies off the edges; constants with the Bohr radius they define", "why_tests_cant": "limits and integrals; the nan of the edges is a set of measure zero", "anchors": ["src/jaxrts/free_free.py:dielectric_function_RPA_0K", "src/jaxrts/free_free.py:_gFortmann", "src/jaxrts/free_free.py:_imag_diel_func_RPA_no_damping"]}
{"id": "C116", "title": "Zero temperature collision frequency is Ziman's", "statement": "The real part of the integrand of collision_frequency_BA_0K, with its prefactor, is between zero and Ziman's m q^3 V^2 S/(12 pi^3 hbar^3 Z), equals it for energies below the inner edge of the continuum and vanishes beyond twice the Fermi wavenumber.", "quantifier": "all wavenumbers, energies, densities, potentials, structure factors", "why_tests_cant": "the prefactor is only fixed by the limit", "anchors": ["src/jaxrts/free_free.py:collision_frequency_BA_0K", "src/jaxrts/free_free.py:dielectric_function_RPA_0K"]}
{"id": "C117", "title": "f-sum rule at finite temperature", "statement": "The first energy moment of the undamped imaginary part of the random phase approximation is pi/2 (hbar wp)^2, with the plasma frequency of the density that the Fermi distribution with the same chemical potential and temperature holds.", "quantifier": "all wavenumbers, temperatures, chemical potentials", "why_tests_cant": "an improper integral; a quadrature cuts it off", "anchors": ["src/jaxrts/free_free.py:_imag_diel_func_RPA_no_damping", "src/jaxrts/plasma_physics.py:fermi_dirac"]}
{"id": "C118", "title": "Fast sine transform", "statement": "sinft is the discrete sine transform, sum_j y_j sin(pi j k/n), for every even length, and twice itself over the length undoes it, except for the first entry.", "quantifier": "all arrays of even length", "why_tests_cant": "the identity is tested for one array at a tolerance", "anchors": ["src/jaxrts/hypernetted_chain.py:sinft", "src/jaxrts/hypernetted_chain.py:realfftnp"]}
{"id": "C119", "title": "Fast complex Fourier transform", "statement": "four1, bit reversal followed by butterflies with recursively computed twiddle factors, is the discrete Fourier transform with either sign, for all lengths that are powers of two; the transform with the other sign undoes it up to the length.", "quantifier": "all arrays whose length is a power of two", "why_tests_cant": "an induction over the number of stages", "anchors": ["src/jaxrts/hypernetted_chain.py:four1"]}
{"id": "C120", "title": "Fast Fourier transform of real arrays", "statement": "realfft packs the Fourier transform of a real array, the highest frequency in the second entry; isign=-1 undoes it up to half the length; realfftnp, built on numpy's transform, is the same except at that entry.", "quantifier": "all arrays whose length is a power of two", "why_tests_cant": "tests check the two claims on one array each", "anchors": ["src/jaxrts/hypernetted_chain.py:realfft", "src/jaxrts/hypernetted_chain.py:realfftnp"]}
{"id": "C121", "title": "Resampled scattering models", "statement": "With sample_points set, a scattering model's spectrum is computed on an evenly spaced coarse grid and interpolated: the result differs from the full one by at most half a grid step times the spectrum's steepness, and not at all if the spectrum is linear.", "quantifier": "all setups, spectra, numbers of sample points", "why_tests_cant": "the bound is over all spectra; flags lost in the coarse setup only show for non-default setups", "anchors": ["src/jaxrts/models.py:ScatteringModel.evaluate", "src/jaxrts/models.py:ScatteringModel.sample_grid"]}
{"id": "C122", "title": "Accuracy of the Fermi integral fits", "statement": "For eta < 2 the rational fits of the complete Fermi integrals of orders -1/2, 1/2, 3/2 and 5/2 agree with the normalised improper integrals to one part in a million; the fits are defined and positive for every argument.", "quantifier": "all real arguments in the range", "why_tests_cant": "tests only cover the inverse functions, on a grid; a wrong coefficient in a table goes unnoticed", "anchors": ["src/jaxrts/math.py:_F_n", "src/jaxrts/math.py:fermi_12_rational_approximation_antia", "src/jaxrts/math.py:fermi_neg12_rational_approximation_antia", "src/jaxrts/math.py:fermi_32_rational_approximation_antia", "src/jaxrts/math.py:fermi_52_rational_approximation_antia", "src/jaxrts/math.py:fermi_integral"]}
{"id": "C123", "title": "Branches of the Fermi integral fits", "statement": "The two branches of each fit meet at eta = 2 to 1e-11, each increases with eta, and for large eta the fit tends to Sommerfeld's eta^(n+1)/Gamma(n+2) to 1e-11.", "quantifier": "all real arguments", "why_tests_cant": "limits and a monotony, over all arguments", "anchors": ["src/jaxrts/math.py:_F_n", "src/jaxrts/math.py:_R1_mk"]}
{"id": "C124", "title": "Inverse Fermi integral", "statement": "The rational fits of the inverse Fermi integral of order 1/2 undo the fit of the integral: the degeneracy parameter is recovered to 1e-6 (1 + |eta|) at every eta, across all six branches of the fit, and from the exact integral to 3e-5 (1 + |eta|) for eta < 1.99.", "quantifier": "all real degeneracy parameters", "why_tests_cant": "tests compare on a grid of arguments with a loose tolerance and skip the first points", "anchors": ["src/jaxrts/math.py:inverse_fermi_12_fukushima_single_prec", "src/jaxrts/math.py:_X_n", "src/jaxrts/math.py:inverse_fermi_12_rational_approximation_antia", "src/jaxrts/math.py:fermi_12_rational_approximation_antia"]}
{"id": "C125", "title": "Limits of the fitted dielectric function", "statement": "The fit of Dandrea, Ashcroft and Carlsson keeps the exact limits of the Lindhard function: its kernel has the three leading moments for large and the leading one for small arguments, the dielectric function tends to 1 - (w_p/w)^2 (1 + <v^2> k^2/w^2 + (hbar k^2/2m)^2/w^2) with the mean square velocity of the Fermi gas, and statically for long waves to 1 + kappa^2/k^2 with the screening length of ipd.py; its coefficients J and K have the exact expansions for high and for low temperatures (Fermi integrals of orders -3/2 and -5/2); they are finite at every degeneracy.", "quantifier": "all densities, temperatures, wave numbers, Fermi integral fits", "why_tests_cant": "limits; the fit is only compared with a table of the paper at a few degeneracies", "anchors": ["src/jaxrts/free_free.py:_phi_Dandrea", "src/jaxrts/free_free.py:_real_susceptibility_func_RPA_Dandrea", "src/jaxrts/free_free.py:noninteracting_susceptibility_Dandrea1986", "src/jaxrts/free_free.py:dielectric_function_RPA_Dandrea1986", "src/jaxrts/ipd.py:inverse_screening_length_e"]}
{"id": "C126", "title": "Chemical potentials of the ideal electron gas", "statement": "Ichimaru's interpolation of the reduced chemical potential falls with the temperature and rises with the density; above the Fermi temperature it lies above ln(n lambda^3 / 2) by at most 0.332 Theta^-0.929, below it is the Fermi energy up to 7 sqrt(Theta), and it never exceeds the Fermi energy. The interpolation by Cowan solves the number equation F_1/2(mu/kT) = n lambda^3 / 2 to 1.1 (n lambda^3 / 2)^4 above twice the Fermi temperature, and below a tenth of it has Sommerfeld's value and falls with the temperature. The electrons' screening wave number tends to Debye's: their squares agree to 2e-6 + n lambda^3 + 0.67 Theta^-0.929.", "quantifier": "all densities and temperatures in the ranges", "why_tests_cant": "the one test of Cowan's form compares with a plot; quantitative limits for all densities", "anchors": ["src/jaxrts/plasma_physics.py:chem_pot_interpolationIchimaru", "src/jaxrts/plasma_physics.py:chem_pot_sommerfeld_fermi_interpolation", "src/jaxrts/ipd.py:inverse_screening_length_e"]}
{"id": "C127", "title": "Pauli potentials from the classical map", "statement": "The potential derived from the ideal electrons' pair distribution inverts the hypernetted chain: with it, the solver keeps that pair distribution, for one electron species and for two spins, and there is none between unlike spins. Above the wave number of the repair at the origin it is returned unchanged, below as the parabola in k through two of its own values. The exchange term takes out of the pair distribution what the occupied states of one spin account for. Pairs with an ion have no Pauli potential.", "quantifier": "all grids, densities, temperatures, pair distributions", "why_tests_cant": "no test evaluates the functions; fixed points of an iteration over all grids", "anchors": ["src/jaxrts/hnc_potentials.py:pauli_potential_from_classical_map_SpinAveraged", "src/jaxrts/hnc_potentials.py:pauli_potential_from_classical_map_SpinSeparated", "src/jaxrts/hnc_potentials.py:PauliClassicalMap"]}
{"id": "C128", "title": "Cached structure factor of the Born collision frequency", "statement": "The structure factor that is precomputed once for the collision frequencies gives at every wave number what the 'BM S_ii' model evaluates at the probe setup of that wave number, whether the model interpolates a grid (with or without electrons, summed over the species or for the average atom) or not; it does not depend on the setup, is nonnegative if the matrices on the grid are positive semi-definite, and for species that are alike it is the structure factor of the one-component plasma, in whichever way the ions are labelled. The mean charge handed on is n_e / n_i.", "quantifier": "all plasma states, setups, wave numbers, grids and solutions of the hypernetted chain", "why_tests_cant": "no test compares the cached with the direct evaluation; equality over all wave numbers and mixtures", "anchors": ["src/jaxrts/models.py:_build_cached_S_ii", "src/jaxrts/models.py:_prepare_BM", "src/jaxrts/models.py:Sum_Sii", "src/jaxrts/models.py:AverageAtom_Sii", "src/jaxrts/models.py:IonFeatModel.S_ii_on_grid", "src/jaxrts/hypernetted_chain.py:hnc_interp"]}
{"id": "C129", "title": "Pair distributions of Arkhipov, Baimbetov and Davletov", "statement": "The pair distribution functions are the linearised Boltzmann factors of the screened potentials: their logarithm is the inverse Fourier transform of S_ab(k) - delta_ab of the same theory, divided by the density (for the electrons apart from the two-temperature term (T_e/T_i - 1) S_ei^2 / S_ii). At equal temperatures they are positive and tend to 1 at large distances; the ions' and the electron-ion one lie between exp(-w) and exp(w), w the Coulomb energy at the thermal wavelength over k_B T, and the electrons' in twice that range on account of the exchange term k_B T ln 2.", "quantifier": "all densities, temperatures, charges, masses, distances; exact quadrature", "why_tests_cant": "no test evaluates them; bounds and a limit over all distances", "anchors": ["src/jaxrts/static_structure_factors.py:g_ee_ABD", "src/jaxrts/static_structure_factors.py:g_ii_ABD", "src/jaxrts/static_structure_factors.py:g_ei_ABD"]}
{"id": "C130", "title": "Thermometry of a recorded spectrum", "statement": "A spectrum that the package convolves with the instrument function and then analyses gives back what went in: the deconvolved imaginary-time correlation function is exactly the Laplace transform of the sample's spectrum, the static structure factor and the f-sum are its zeroth and minus its first moment, and for a sample in detailed balance at temperature T the function has its only minimum at 1/(2 k_B T); the evaluation on a grid returns the temperature of the grid point closest to it, T itself if it is on the grid.", "quantifier": "all spectra and instrument functions (asymmetric ones, too) of finite width, all equidistant channels with one at the probe energy, all tau grids and cut-offs beyond the channels", "why_tests_cant": "an identity over all spectra and instrument functions; the tests look at one spectrum with a tolerance", "anchors": ["src/jaxrts/analysis.py:ITCF_from_setup", "src/jaxrts/analysis.py:ITCFT_grid", "src/jaxrts/analysis.py:ITCF_fsum", "src/jaxrts/analysis.py:ITCF_ssf", "src/jaxrts/analysis.py:twoSidedLaplace", "src/jaxrts/setup.py:convolve_stucture_factor_with_instrument"]}
{"id": "C131", "title": "Mean charges from the Bethe-Uhlenbeck balance", "statement": "The populations and mean charges returned are the solver's answer at the chemical potential, electron density and lowering that belong to the charges of the round before, which are themselves such an answer; they add up to the density of nuclei. Neighbouring charge states balance with the ratio of their partition sums, exp(-mu / k_B T) and the ratio of the electron density entered to the one found. With the chemical potential of a classical ideal gas and no lowering the six rounds return what a single one does, from any electron density. The deprecated single-species fit of the Thomas-Fermi charge agrees with its successor.", "quantifier": "all elements, level tables, temperatures, densities and models", "why_tests_cant": "the tests compare a few states; statements about every iteration and every attached model", "anchors": ["src/jaxrts/ionization.py:calculate_mean_free_charge_BU", "src/jaxrts/ionization.py:solve_BU", "src/jaxrts/ionization.py:_calculate_mean_free_charge_more_single_species"]}
{"id": "C132", "title": "Degeneracy, coupling and wavelengths of a plasma state", "statement": "The degeneracy parameter of a state is 8 / (3 sqrt(pi)) (T_F / T_e)^(3/2) and its coupling parameter 2 (4 / 9 pi)^(2/3) r_s T_F / T_e, with T_F the Fermi temperature of the same state and r_s the mean distance of the electrons in Bohr radii. The de Broglie wavelengths of the electrons and of the ions can be read from the state.", "quantifier": "all states of positive electron density and temperature", "why_tests_cant": "relations between properties that are tested separately, if at all", "anchors": ["src/jaxrts/plasmastate.py:PlasmaState.T_F", "src/jaxrts/plasmastate.py:PlasmaState.ee_coupling", "src/jaxrts/plasmastate.py:PlasmaState.degeneracy_param", "src/jaxrts/plasmastate.py:PlasmaState.db_wavelength"]}
{"id": "C133", "title": "Convergence of the hypernetted-chain iteration at weak coupling", "statement": "For every radial grid, every set of densities and every mixing in [0, 1) there is a coupling strength below which the hypernetted-chain equations (closure and Ornstein-Zernike relation on the grid) have exactly one solution near the ideal gas, and the iteration reaches it from every symmetric start near the ideal gas, without a nan, each step reducing the distance at least by the factor (1 + mix) / 2. Below this strength the solver returns a result for every list of temperature multipliers, and the logarithm of its pair distribution functions is off by at most the larger of (1 + mix) / (1 - mix) / 1000, which the stopping criterion allows, and what 2000 steps leave over. The same holds of the solver for several temperatures and the relation it uses.", "quantifier": "all even grids, all numbers of species (the library's linear solver taken exact above four), all densities, mixings, symmetric potentials below the strength, temperatures and multipliers", "why_tests_cant": "convergence of an iteration for all inputs, existence and uniqueness of its limit; tests run it for a few plasmas", "anchors": ["src/jaxrts/hypernetted_chain.py:pair_distribution_function_HNC", "src/jaxrts/hypernetted_chain.py:pair_distribution_function_SVT_HNC", "src/jaxrts/hypernetted_chain.py:_3Dfour", "src/jaxrts/helpers.py:cramer_solve"]}
{"id": "C134", "title": "Quadrature of the second Fourier transform", "statement": "fourier_transform_ogata is the trapezoidal rule of step h for the three-dimensional radial Fourier integral 4 pi / k int x F(x) sin(k x) dx after the substitution x = pi t tanh(pi sinh(t) / 2) / (h k), with F equal to the data on the grid and F x^(3/2) linear between its points and constant outside. The series converges, and stopping after N terms costs at most (2 pi / k)^(3/2) 6 pi M / h^2 exp(-2 sinh(h N)). The result is linear in the data and scales as a volume with the unit of length.", "quantifier": "all tables on increasing positive grids, all wavenumbers, steps and numbers of terms with h N >= 1", "why_tests_cant": "an identity and an error bound for all tables; the function is compared with one analytic transform at most", "anchors": ["src/jaxrts/hypernetted_chain.py:fourier_transform_ogata", "src/jaxrts/hypernetted_chain.py:psi", "src/jaxrts/hypernetted_chain.py:dpsi"]}
{"id": "C135", "title": "Bibliography of a plasma state", "statement": "In the cite style the string has one block per attached model that names literature, in the order of attachment and separated by empty lines: the key it is attached under, then one line per item of its list; collecting the arguments of the cite commands gives the keys of all attached models, in order, and nothing else. In the bibtex style there is one entry per key whose note names what the model is attached as; in the plain style the label and the trailing newline of the formatter are removed. Every key that a class of the package names is in literature.bib, so no style raises an error. A model composed of others cites what they cite.", "quantifier": "all states, headings, lists of keys and comments without newline, comma, brace or backslash; all classes of the package", "why_tests_cant": "the tests look for two substrings; statements about every combination of models and every key in the source", "anchors": ["src/jaxrts/plasmastate.py:PlasmaState.citation", "src/jaxrts/models.py:Model.citation", "src/jaxrts/hnc_potentials.py:HNCPotential.citation", "src/jaxrts/literature.py:get_formatted_ref_string", "src/jaxrts/literature.py:get_cite_ref_string", "src/jaxrts/literature.py:get_bibtex_ref_string"]}
{"id": "C136", "title": "The reader of the NIST level tables returns exactly the levels of the table", "statement": "read_nist_file takes from each line the leftmost occurrence of ',term,<digits>,\"=\"\"<decimal>\"\"\"'; a table printed from any list of levels (statistical weight, decimal energy) with other lines in between is read back exactly, in order, with as many weights as energies; a level whose energy is bracketed or otherwise marked is left out", "quantifier": "every file, every list of levels and other lines, all weights and energies", "why_tests_cant": "A test reads a few downloaded tables; a pattern that drops digits or matches too late would only show on others", "anchors": ["src/jaxrts/helpers.py:read_nist_file"]}
{"id": "C137", "title": "Arrays made from lists of quantities keep every value", "statement": "to_array turns a list of quantities of one dimension into one array in the unit of the first entry; every entry keeps its value and its place, whatever units the entries are written in; entries of another dimension raise; numbers stay numbers; arrays are left alone; the empty list raises", "quantifier": "all lists, all magnitudes, all units without offset", "why_tests_cant": "Tests use lists whose entries share one unit, for which a missing conversion does not show", "anchors": ["src/jaxrts/units.py:to_array"]}
{"id": "C138", "title": "An instrument function made from a callable is that callable", "statement": "FromCallable(f) gives f(omega); for a functools.partial, nested or not, it gives what the partial gives: bound arguments first, the shift last, the last binding of a keyword; the deprecation warning names the three old functions only; disable_partial_unwrapping=True keeps the partial as it is", "quantifier": "all functions, all bound arguments and keywords, any nesting", "why_tests_cant": "Tests bind one keyword of one function; the order of arguments shows only for nested positional bindings", "anchors": ["src/jaxrts/instrument_function.py:FromCallable.__init__", "src/jaxrts/instrument_function.py:FromCallable.__call__", "src/jaxrts/instrument_function.py:_check_callable_for_deprication", "src/jaxrts/setup.py:Setup.__init__"]}
{"id": "C139", "title": "Charged hard spheres are the mean spherical approximation", "statement": "C_ii of S_ii_CHS is the transform of a polynomial inside the sphere and of the Coulomb potential outside, meeting at contact up to h1; 1 - C_ii is the squared modulus of the transform of one cubic (Baxter), so the unscreened structure factor is not negative; it screens perfectly at long waves and goes to 1 at short ones; the electrons screen up to the first node only; the diameter found is a zero of h1 at packing below one", "quantifier": "all temperatures, charges, densities, wave numbers, and diameters of packing below one", "why_tests_cant": "Tests compare a curve with a digitised plot; a wrong coefficient shows only where the plot is fine, and a negative value only at long waves", "anchors": ["src/jaxrts/static_structure_factors.py:S_ii_CHS", "src/jaxrts/static_structure_factors.py:_G07h0", "src/jaxrts/static_structure_factors.py:_G07h1", "src/jaxrts/static_structure_factors.py:_G07chi", "src/jaxrts/helpers.py:bisection"]}
{"id": "C140", "title": "A detected signal keeps the sign and the area of the spectrum", "statement": "On ascending energies a raw spectrum that is nowhere negative, seen through an instrument function that is nowhere negative, is detected as a signal that is nowhere negative, with and without resampling, in particular the free-free spectra of the random phase approximation and Salpeter's approximation; so is the elastic line of a Rayleigh weight that is not negative; no channel exceeds the largest raw value times the sum of the instrument function; the sum over the channels never exceeds the product of the sums, and equals it when nothing is pushed over the edges of the spectrum", "quantifier": "all spectra, instrument functions, numbers of channels and of samples, redistribution exponents", "why_tests_cant": "Tests convolve one spectrum with one Gaussian; an off-by-one window loses area only near an edge", "anchors": ["src/jaxrts/models.py:ScatteringModel.evaluate", "src/jaxrts/setup.py:convolve_stucture_factor_with_instrument", "src/jaxrts/setup.py:Setup.frequency_redistribution_correction"]}
{"id": "C141", "title": "The formulas do not depend on the system of units", "statement": "Convert all constants and all arguments to another system of units: the scales of the plasma, the dielectric functions, the free-free spectra, the wave numbers and the convolution of the setup, the bound-free spectra and edges, the potential depressions, the Arkhipov-Davletov structure factors, the local field corrections, the pair potentials, the Born collision frequency, the Born-Mermin spectra, and the pair distribution functions and structure factors of the hypernetted chain come out as the old values, converted", "quantifier": "all systems of units, all arguments (temperatures, densities and masses positive), any quadrature", "why_tests_cant": "A unit library checks the dimensions of the quantities it sees; the kernels take plain magnitudes, and a test runs in one system of units", "anchors": ["src/jaxrts/plasma_physics.py:plasma_frequency", "src/jaxrts/free_free.py:S0_ee_RPA", "src/jaxrts/free_free.py:S0_ee_RPA_no_damping", "src/jaxrts/free_free.py:S0_ee_Salpeter", "src/jaxrts/free_free.py:S0_ee_RPA_Dandrea", "src/jaxrts/setup.py:Setup.dispersion_corrected_k", "src/jaxrts/setup.py:convolve_stucture_factor_with_instrument", "src/jaxrts/bound_free.py:J_impulse_approx", "src/jaxrts/ipd.py:ipd_ecker_kroell", "src/jaxrts/ipd.py:ipd_stewart_pyatt_preston", "src/jaxrts/static_structure_factors.py:S_ee_AD", "src/jaxrts/ee_localfieldcorrections.py:eelfc_farid", "src/jaxrts/ee_localfieldcorrections.py:eelfc_geldartvosko", "src/jaxrts/hnc_potentials.py:KlimontovichKraeftPotential.full_r", "src/jaxrts/hnc_potentials.py:KelbgPotential.full_r", "src/jaxrts/free_free.py:dielectric_function_BMA_full", "src/jaxrts/free_free.py:S0_ee_BMA_Fortmann", "src/jaxrts/free_free.py:inverse_screening_length_exact", "src/jaxrts/hypernetted_chain.py:pair_distribution_function_HNC", "src/jaxrts/hypernetted_chain.py:S_ii_HNC"]}
{"id": "C142", "title": "The order in which the ions are listed does not matter", "statement": "List the ions of a plasma in another order: the electron density, the mean nuclear charge and the averaged plasma stay the same; the ion densities, number fractions, core radii, potential depressions and screening charges move with their ions, each ion keeping its own value; the pair potential between two ions, or an ion and the electrons, stays the same in real and in Fourier space; the bound-free spectra stay the same; the pair distribution functions and structure factors of the hypernetted chain move with their ions, after equally many iterations", "quantifier": "all lists of ions, all permutations, all wave numbers, every depression model and sums of them, every pair potential but the classical map of the Pauli term", "why_tests_cant": "Tests list one mixture in one order; an index used for the wrong array shows only when the order is changed", "anchors": ["src/jaxrts/plasmastate.py:PlasmaState.n_e", "src/jaxrts/plasmastate.py:PlasmaState.mean_Z_A", "src/jaxrts/plasmastate.py:PlasmaState.number_fraction", "src/jaxrts/ipd.py:ipd_ecker_kroell", "src/jaxrts/models.py:IPDSum.evaluate", "src/jaxrts/models.py:SchumacherImpulse.evaluate_raw", "src/jaxrts/models.py:GregoriCHSScreening.evaluate", "src/jaxrts/models.py:LinearResponseScreening.evaluate", "src/jaxrts/hnc_potentials.py:HNCPotential.full_k", "src/jaxrts/hnc_potentials.py:SoftCorePotential.full_r", "src/jaxrts/hypernetted_chain.py:pair_distribution_function_HNC", "src/jaxrts/hypernetted_chain.py:pair_distribution_function_SVT_HNC", "src/jaxrts/hypernetted_chain.py:S_ii_HNC"]}
{"id": "C143", "title": "Listing a species in two entries changes no density, depression, potential or bound-free spectrum", "statement": "Share the mass density of one ion between two entries of the list: the electron density, the mean nuclear charge and the total ion density stay the same; the potential depression of every ion stays the same in every model; so do the pair potentials between ions, and between an ion and the electrons, and the bound-free spectra when the number fraction is shared", "quantifier": "all lists of ions, all positions, all shares, all constants; every pair potential but the classical map of the Pauli term", "why_tests_cant": "Tests never list one ion twice, although expanding the ionisation states does", "anchors": ["src/jaxrts/plasmastate.py:PlasmaState.n_e", "src/jaxrts/plasmastate.py:PlasmaState.mean_Z_A", "src/jaxrts/ipd.py:ipd_debye_hueckel", "src/jaxrts/ipd.py:ipd_stewart_pyatt", "src/jaxrts/ipd.py:ipd_stewart_pyatt_preston", "src/jaxrts/ipd.py:ipd_ecker_kroell", "src/jaxrts/ipd.py:ipd_ion_sphere", "src/jaxrts/models.py:SchumacherImpulse.evaluate_raw", "src/jaxrts/hnc_potentials.py:CoulombPotential.full_r"]}
{"id": "C144", "title": "Listing a species in several entries changes no pair function of the hypernetted chain", "statement": "Share the density of a species between several entries with the same potentials and temperatures: after any number of iterations of the solver at one temperature multiplier the functions of two entries are those of their species, the run with the longer list is not stopped earlier and agrees when it is stopped at the same iteration, and the structure factors summed over the entries with the roots of the densities add up to the same total", "quantifier": "all numbers of species and entries, all shares, all potentials, temperatures, grids and numbers of iterations, every exact linear solver", "why_tests_cant": "Tests never list one ion twice, although expanding the ionisation states does", "anchors": ["src/jaxrts/hypernetted_chain.py:pair_distribution_function_HNC", "src/jaxrts/hypernetted_chain.py:S_ii_HNC"]}
