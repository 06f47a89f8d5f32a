# Formal model of jaxrts in Rocq

## Approach

* The model is a shallow Gallina embedding of the functions in `/repo/src/jaxrts`,
  one model file `M_*.v` per area. Each definition cites the file and lines it models.
* Proofs live in `L_*.v`. Property theorems live in `P_*.v`, each followed by
  `Print Assumptions` and an `Example` showing that its hypotheses are met by a
  concrete case.
* Floating-point numbers are modelled as exact reals `R` (rounding, overflow and
  denormals are outside the model). NaN is modelled by `option R` where the
  property is about NaN.
* Units (pint/jpu) are erased: every quantity is its value in SI base units.
* Physical constants are fields of a record with positivity proofs, so theorems
  hold for any positive values.
* jax transformations (`jit`, `vmap`) are modelled as the identity on the functions
  they wrap; `while_loop` is modelled as iteration with explicit fuel, exhaustion
  being an error value.
* Exceptions are values (`option` / `result`).
* A theorem named `..._partial` proves part of its property; `..._refuted` shows a
  concrete input on which the modelled code violates the property.

## Trusted base

* Coq 8.16.1's kernel.
* The standard library axioms listed at the end of this file; none of our own.
  Coquelicot is used as a library of definitions and proofs; it declares no axioms.
* The reading of the Python text: the code was not executed.
* External libraries (jax, numpy, pint, jaxopt) are modelled by their documented
  behaviour, stated at each definition.

## What is modelled

* `M_Registry`, `M_Classes`: `PlasmaState.__setitem__`, `update_default_model`, every
  `prepare` hook, `allowed_keys`, `include_electrons` defaults (plasmastate.py,
  models.py, hnc_potentials.py). `M_Classes` is generated from the source text.
  Not modelled: `check` hooks (they only log); propagation of `include_electrons`
  into the summands of a `PotentialSum` (see `M_Potentials`).
* `M_Probe`: `PlasmaState.probe`, `evaluate`, `Neglect`. The other models'
  evaluation is a parameter.
* `M_Collections`: `get_all_models`, `get_all_models_list`.
* `M_Helpers`: `invert_dict`, `secant_extrema_finding` (the slope `jax.grad(func)` is a
  parameter), `bisection`, `cramer_solve`. Not modelled: `timer`, `partialclass`, NIST
  download helpers.
* `M_PlasmaState`: `PlasmaState.__init__` (list form), `Z_A`, `Z_core`, `atomic_masses`, `n_i`,
  `n_e`, `number_fraction`, `mean_Z_A`, `ion_core_radius`, `expand_integer_ionization_states`,
  `mass_from_number_fraction`, `mass_density_from_electron_density`, `averagePlasmaState`.
  Array shapes and broadcasting of 1-d arrays are modelled. Not modelled: `citations`,
  `db_wavelength` (it returns nothing), a scalar `T_e` given as an array.
* `M_PlasmaPhysics`: all of plasma_physics.py except `chem_pot_interpolationIchimaru` (see
  `M_FreeFree`), plus `ee_coupling` and `Teff_e` of plasmastate.py.
* `M_Setup`: `Setup.k`, `full_k`, `lambda0`, `frequency_redistribution_correction`,
  `dispersion_corrected_k`, `convolve_stucture_factor_with_instrument`, `get_probe_setup`.
  Arrays are functions from indices. `jnp.convolve(..., "same")` is modelled by its documented
  definition.
* `M_Interp`: `jnp.interp` and `jnp.searchsorted` (as the bisection jax runs), `jnp.trapezoid`.
* `M_Instrument`: all instrument functions except `FromCallable` (any callable), as functions of
  the frequency; construction from sigma or FWHM.
* `M_Analysis`: `twoSidedLaplace`, `ITCF.F`, the temperature formula, the sign conventions of
  `ITCF_from_setup`. Not modelled: `jit`, the `vmap` over a tau grid.
* `M_ElementTables` (generated from the source text), `M_Elements`: `Element.__init__`, all its tables,
  `get_binding_energies`, `electron_distribution_ionized_state`, `==` and `hash` of `Element` and
  `MixElement`. Not modelled: `MixElement.__init__`'s attributes besides `Z`, colours.
* `M_PytreeTable` (generated from the source text: `_tree_flatten`, `_tree_unflatten` and the attributes set by
  `__init__` of 85 classes), `M_Pytree`: flattening, unflattening, `JittableDict`, `FromCallable`, `Model.__eq__`,
  `PlasmaState.__eq__`. jax's own containers are modelled by their documented behaviour. Treedef equality
  compares the auxiliary data with `==`.
* `M_Saving`: `JaXRTSEncoder.default`, `JaXRTSDecoder.object_hook`, `_flatten_obj`, `_parse_tree_save`, `dump`/`load`.
  The JSON text level is trusted. One constructor stands for `JittableDict` and `dict`; int and float are both
  reals. Not modelled: pickled functions (`FromCallable`, partials), array dtypes, grids without unit.
* `M_StaticSF`: `static_structure_factors.py` (temperatures, Arkhipov-Davletov and charged-hard-sphere structure factors,
  Debye-Waller factor) and the screening charges of `ion_feature.py`. The pair correlation functions are in `M_PairABD`.
  The integral of the Debye-Waller factor is exact, not a quadrature.
* `M_IonFeature`: `S_ii` of the four analytic models, `PeakCollection`, `DebyeWallerSolid`, `Rayleigh_weight`, `evaluate`,
  `Sum_Sii._combine_S_ab`. Form factors, screening charges and Debye temperatures are arguments.
* `M_Potentials`: all classes of hnc_potentials.py with their six methods for one pair of species, sums and multiples;
  dimensions are kept where an addition would raise. Numerical transforms (`transformPotential`, `hnc_interp`) and the tables
  of `PauliClassicalMap` are arguments.
* `M_PotentialHeap`: `__add__`, `__mul__`, `PotentialSum`, `ScaledPotential` and the `include_electrons` setters on a heap of
  objects and lists, with aliasing; the recursion limit is fuel.
* `M_IPD`: all of ipd.py (the degenerate screening length and the value of the Pauli quadrature are arguments; `Z_max` is an
  array) and `evaluate` and `all_element_states` of the IPD models. Not modelled: conversion to eV.
* `M_Ionization` (C52, C87-C91): `ionization.py` except `calculate_mean_free_charge_BU` and the
  reading of NIST files (level tables are arguments). `-inf` is `None`; `jnp.clip`, `softmax`, masks, sorting and the bisection are
  modelled; electron volts are erased. The attached IPD and chemical-potential models are arguments of
  `mean_free_charge_saha`, its assignments to `plasma_state.Z_free` are its loop variable.
* `M_HNC` (C44-C46, C93-C96): `hypernetted_chain.py` except `four1`, `realfft`, `realfftnp`, `sinft` (in `M_FFT`) and the
  interpolation in `fourier_transform_ogata`. `jnp.fft.fft` is its defining sum; grids of length N are functions read below N;
  `while_loop` has fuel, shown not to run out; a singular Ornstein-Zernike matrix (inf/nan) ends the run with no result.
  `cramer_solve` with a matrix on the right is modelled by its broadcasting: rows in the hand-written branches, columns in
  `jnp.linalg.solve`. The grids of `models.py:838-847` are `linspace` and `k_grid`.
* `M_FreeFree` (C34-C39, C98-C103): `free_free.py` except the 0 K functions (`_gFortmann`, `noninteracting_susceptibility_0K`,
  `dielectric_function_RPA_0K`, `collision_frequency_BA_0K`), and the spectra of `QCSalpeterApproximation`, `RPA` and `RPA_DandreaFit`.
  `quadgk` is an arbitrary procedure, applied to integrands that may be nan; theorems name what they need of it (`quad_scales`:
  a constant factor comes out; `quad_reflects`: even integrands reflect; `quad_inside`: only the inside of the interval is read).
  The Fermi integrals of `math.py` are arbitrary functions. The dielectric function, ion structure factor and potential inside
  the collision frequency are arbitrary functions.
* `M_FormFactors` (C56, C57, C104, C105): `form_factors.py` in full; `PaulingFormFactors` and `FormFactorLowering` of models.py.
  Nuclear charges and bound electrons are real numbers, the potential depression a parameter; nan is `None`.
* `M_BoundFree` (C53-C55, C60, C61, C106, C107): `bound_free.py` in full; `free_bound.py`; the edge models, `SchumacherImpulse`,
  `SchumacherImpulseColdEdges`, `DetailedBalance` and `SchumacherImpulseFitRk.r_k` of models.py. One channel at a time; binding energies,
  form factors, potential depression and the edge are parameters of the ion; a nan anywhere in a charge state makes it zero, as in the
  code. The derivative by automatic differentiation in `ITCF_fsum` is Coquelicot's `Derive`, proved to exist.
* `M_LFC` (C59, C108-C110): `ee_localfieldcorrections.py` in full (`xi_lfc` in `M_FreeFree`) and `ee_localfieldcorrections_dornheim_2021.py` but for
  `double` (32-2501, generated code for the second derivative of the free energy), which is a parameter. The Bessel function and the
  quadrature are parameters; where the integral matters the quadrature is assumed exact, and one exact quadrature is exhibited.
* `M_Screening` (C58, C111, C112): the screening and screening length models of `models.py:4071-4545`, with `ion_feature.py:q_FiniteWLChapman2015`.
  The pseudopotentials' row of the electrons is `M_Potentials.full_k` at spin-averaged electrons; the Fermi integrals, quadratures and the inverse
  length of arbitrary degeneracy are parameters. The `BM_V_eiS` variants are not modelled.
* `M_RPA0K` (C115, C116): `free_free.py:318-361` and the zero temperature collision frequency `1360-1409`; the branch of the logarithm is
  the one selected by the signed zero of the quotient.
* `M_FFT` (C118-C120): `hypernetted_chain.py` `four1`, `realfft`, `realfftnp`, `sinft`, statement by statement. Arrays are
  functions of the index, `y.at[i].set(v)` changes one value; `for` loops are folds over the range, the `while` loops have
  the length as fuel; the twiddle factors are exact. `jnp.fft.rfft` is its defining sum.
* `P_RPASum` (C117) adds the sum rule of the finite temperature dielectric function modelled in `M_RPA`.
* `M_ScatModel` (C121): `models.py` `ScatteringModel.evaluate`, `sample_grid`; the raw spectrum of the subclass is a parameter.
* `M_ChemPot` (C125, C126): Ichimaru's interpolation of the chemical potential (`plasma_physics.py:224-257`) and the electrons' screening length (`ipd.py:26-61`). The Dandrea fit of C125 is in `M_FreeFree`.
* `M_Pauli` (C127): both functions building the Pauli potential (`hnc_potentials.py:36-252`) and `PauliClassicalMap.full_k` (`:1553-1611`). The units the caller chose for lengths and temperature are parameters, since `.at[].get()` drops them; a nan in one entry of the raw potential makes the model's whole array nan. The number of points of the fine grid (2^21) is a parameter.
* `M_BMSii` (C128): the grid protocol of the ion feature models (`models.py:335-391, 848-895, 1040-1046, 1130-1142`), `Sum_Sii`, `AverageAtom_Sii`, `_build_cached_S_ii` and `_prepare_BM`. The solution of the hypernetted chain on its grid, the potential and the chemical potential are parameters.
* `M_PairABD` (C129): `g_ee_ABD`, `g_ii_ABD`, `g_ei_ABD` (`static_structure_factors.py:534-717`). The quadrature over the half line is a parameter, assumed to return the improper integral where it exists.
* `M_ITCF` (C130): `ITCF_from_setup`, `ITCF._F`, `ITCF_ssf`, `ITCF_fsum` (the gradient is the derivative), `_ITCFT_grid`, `ITCFT_grid` (`analysis.py:78-102, 129-132, 228-314`) with the setup's own convolution (`M_Setup`).
* `M_IonizationBU` (C131): `calculate_mean_free_charge_BU` (`ionization.py:818-887`) with the attached models as parameters, and the deprecated
  `_calculate_mean_free_charge_more_single_species` (915-954, the log messages are left out).
* `M_StateScales` (C132): `PlasmaState.T_F`, `ee_coupling`, `degeneracy_param`, `__len__` and `db_wavelength` (`plasmastate.py:119-120, 356-387, 427-468`).
* `M_HNC` again (C133): the iterations of `pair_distribution_function_HNC` and `pair_distribution_function_SVT_HNC` as contractions, for potentials below a strength that exists for every grid, densities and mixing.  The theorem assumes that jnp.linalg.solve is exact where the hand-written Cramer branches are not in use.
* `M_Ogata` (C134): `fourier_transform_ogata` at one wavenumber, on a table of exact reals (no overflow, so `nansum` is a sum). The vmapped `_3Dfour_ogata` is not used by the package.
* `M_Citation`, `M_CitationKeys` (C135): `literature.py`, `Model.citation`, `HNCPotential.citation`, `PlasmaState.citation` on strings; the lists of keys of all classes and of `literature.bib` are generated from the source. pybtex (formatting and parsing of the bibliography) is a parameter.
* `M_Nist` (C136): read_nist_file (helpers.py 415-440), the regular expression as a matcher on strings
* `M_Units` (C137): to_array (units.py 13-37)
* `M_Callable` (C138): FromCallable.__init__ and __call__ (instrument_function.py 283-310), the deprecation check (23-41), functools.partial
* `M_StaticSF` (C139): the charged hard spheres of static_structure_factors.py 772-911; the radicand of h0 is negative only beyond packing one and a Landau length above 148000 distances, where the code has nan and the model 0; C139_diameter excludes that
* `P_Signal`, `P_SignalFF` (C140): sign, size and area of the signal of `M_ScatModel`.
* `L_Rescale`, `L_Rescale2`, `L_Rescale3`, `L_Rescale4`, `L_Rescale5`, `L_Rescale6`, `L_Rescale7`, `L_Rescale8`, `P_Rescale`, `P_RescaleHNC` (C141): no new model; a change of units (`usys`, `conv`) is defined by the dimensions of the constants, and the modelled formulas are shown to commute with it.
* `L_Order`, `P_Order`, `L_OrderHNC`, `P_OrderHNC` (C142): no new model; two listings of the same ions are compared through a permutation.
* `L_Split`, `P_Split` (C143): no new model; an ion is listed in two entries that share its density.
* `L_SplitHNC`, `P_SplitHNC` (C144): no new model; the species of the hypernetted chain are listed in several entries.
* `M_Math` (C122-C124): `math.py`, the Fermi integrals' rational fits, the two fits of the inverse and the integral itself (as an improper Riemann integral; `quadgk` is not modelled). The coefficient tables are generated from the source, decimal by decimal. Below the step at eta = 2 the accuracy is proved through a polynomial in the fugacity whose relative error is a Chebyshev polynomial, compared with the fit by integer arithmetic (`L_FermiMid`).


## Findings (where the faithful model refutes the property)

* C01/C13: assigning one model instance under two keys overwrites `model_key`; a
  shared `Neglect` makes `probe` fail.
* C03: `LinearResponseScreening.prepare` overwrites the user's free-free model.
* C04: with several species, attaching a Born-Mermin model turns off the electrons in
  the ion-ion potential that `ThreePotentialHNCIonFeat` needs.
* C06: after `expand_integer_ionization_states` of two or more species `ion_core_radius` raises.
* C14: `averagePlasmaState` averages partial mass densities with number fractions instead of
  adding them; every mixture's average state has a too low ion and electron density.
* C19: a `MixElement` is unequal to itself, equality is not transitive, `hash` raises.
* C20/C72: `electron_distribution_ionized_state` differs from the tabulated configurations for Cr, Cu
  and for ions of 133 charge states from Sc on; e.g. Fe2+ has populated 4s orbitals with binding energy 0.
* C23: the convolution is cut to a window; on a descending energy grid it changes sign and,
  with an even number of channels, is displaced by one channel.
* C25: the `fwhm` of `SuperGaussian` uses the Gaussian relation, right only for power 1.
* C29: `cramer_solve` divides by `det` instead of `det[..., None]` for size 4, so a batch of
  size-4 systems fails or (batch size 4) is divided by other systems' determinants.
* C62: `get_all_models_list` ignores `types` and `names_only`.
* C63: with the ionic part neglected, Born-Mermin's `Sum_Sii` calls methods that
  `Neglect` lacks; the same holds for `LinearResponseScreening` and a neglected
  free-free part.
* C64: Born-Mermin energy cut-offs are frozen at the first attachment.
* C69: `_ionization_energies` is misordered for every element from fluorine on;
  `FormFactorLowering` (models.py:3195) reads it unsorted.
* C71: `Element.__init__` averages columns of `_cold_absorption_edges` that are already averaged; every
  binding energy from 2p on is wrong (Fe 2p: 402 eV instead of 713 eV).
* C10: `IonSphereIPD.arb_deg` is lost at every jit boundary.
* C11: `PlasmaState.__eq__` ignores classes and parameters of the attached models. C12: `Model.__eq__` ignores the class.
* C73: `JittableDict` keeps the insertion order in the leaves but compares `dict_keys` as sets; two models with the same
  `model_key` (after sharing an instance, C01) make jit swap their parameters.
* C15: a dictionary with a key `"_type"` is misread or raises on loading; shape `(0, 3)` becomes `(0,)`;
  `MixElement` cannot be loaded.
* C16: seven models (`ThreePotentialHNCIonFeat` and six IPD models) are saved under a `__name__` that differs from their
  class name and cannot be loaded. A `FreeBoundFlippedSetup` is saved as `Setup` and cannot be loaded.
* C17: a grid that is not ascending and equidistant is silently replaced on loading.
* C40: with ions colder than electrons `S_ii_AD` becomes negative.
* C41: `T_cf_Greg` has a pole at one density (r_s about 55.5 a_0).
* C77: the analytic mixture models give S_CC < 0 and a negative Rayleigh weight for fully ionised CH at small k.
* C78: `CHSIonFeat` uses `sum(n_i**2)/sum(n_i)` as ion density; listing an ion twice changes the result.
* C79: `DebyeWallerSolid` multiplies a vector of Debye-Waller factors onto a matrix, along the second index only;
  `BohmStaver`, the default, returns one entry per ion.
* C47: `YukawaShortRangeRepulsion.full_r` adds an energy and an energy times volume (always raises);
  `SoftCorePotential.short_r` reads `self.q`, `long_k`, `short_k` pass too few arguments (always raise).
* C48: `DeutschPotential.full_k` is the transform divided by pi (`1/lambda_ab**2` instead of `pi/lambda_ab**2`).
* C49: `s + c` for a sum `s` appends `c` to `s` itself; `(a+b) + (a+b)*x` ends in RecursionError if the sum is shared;
  adding potentials with different `include_electrons` changes that of the operands. `IPDModel.__add__` has the same text.
* C81: `KlimontovichKraeftPotential` is attractive for equal charges, too.
* C50: in mixtures `ipd_stewart_pyatt` uses the density of all ions, `ipd_ion_sphere` the charge of one; the clip of
  `Zi` to 1e-6 makes Stewart-Pyatt deeper than Debye-Hueckel for neutral hot atoms.
* C51: in a mixture `ipd_ecker_kroell` compares `ni + ne` of one species with the critical density but scales with the sum over
  all; the shift jumps, against the docstring.
* C82: `ipd_debye_hueckel` divides the sum over all ions by the temperature of one, `ipd_ecker_kroell` each term by its own.
* C83: `EckerKroellIPD.all_element_states` always raises (`n_c[:, None]` on a scalar); `PauliBlockingIPD.all_element_states`
  ignores the loop's charge.
* C86: `ipd_stewart_pyatt_preston` takes `mean(z * population)` for the mean charge, a factor (number of states) too small.
* C52: clipping log-populations at +-500 makes all states beyond equally populated (hot, thin iron: 26 stages of e^22 each);
  the mean charge then grows with the electron density.
* C90: `planck_larkin_partition_sum` receives positive binding energies but uses the formula for negative level energies
  (`exp(-x) - 1 + x`): deep levels weigh x instead of e^x, the Bethe-Uhlenbeck charge is far too high. A bound state below an
  unbound one removes all higher charges.
* C91: `calculate_mean_free_charge_saha` documents fractions but returns number densities, passes those to the IPD model as
  populations, and overwrites `plasma_state.Z_free`.
* C45: `dst4` samples sin(k r) at k = (m + 1/2) pi / (N dr); the labels are pi / r[-1] + m dk. No uniform grid gets the labels of
  both sides right; structure factors are shifted by about half a step in k (round trips are exact, hence unnoticed).
* C46: `ozr` passes a matrix to `cramer_solve`, which treats its rows as right-hand sides; right only because c is symmetric
  (`linalg.solve`, used beyond four species, takes columns).
* C94: `pair_distribution_function_SVT_HNC` sums `iterations` but returns `niter` of the last cycle.
* C36, C101: every spectrum is nan at zero energy shift; only `RPA_DandreaFit` guards against it, `RPA` and `QCSalpeterApproximation` do not.
  The Salpeter form is also nan at plus and minus the recoil energy (0/0 in (1 - W(x)) / x at x = 0).
* C37: `susceptibility_BMA_Fortmann` is nan for vanishing collision frequency.
* C39: `guess_E_cutoff_max` takes the maximum over a grid starting at E = 0, where the spectrum is nan. All comparisons fail; the
  result is 15 E_max (KKT) or E_max whatever the plasma. (Even without the nan, `min` would pick the smallest energy above threshold.)
* C98: `S0_ee_RPA` with its default `rpa_rewrite=True` is zero at all real energies: the imaginary part carries the factor Im(E). This is
  plotted in `doc/examples/free_free/plot_See0_RPA_BM.py:127`.
* C102: `dielectric_function_BMA_full` tabulates the collision frequency between 10 min(E) and 10 max(E); if all energies are positive,
  those below 10 min(E) share one value.
* C56: `pauling_size_screening_constants` extrapolates constantly, so an unpopulated shell can have zero effective charge
  (average atoms: Z = 5/2 for 2p) and a nan form factor, which the ion feature multiplies by a zero population.
* C57: the abscissae of the 4s table are 19, 20, 30, 26, 38 ... (26 for 36?); at Z = 30 the result is 24.2 instead of the tabulated 21.5.
* C104: `FormFactorLowering` writes `ff.at[idx, 0]` into an array indexed [orbital, ion].
* C105: because of the misplaced energies (C69) the K shell of F, Ne, K, Ca, Cu, Zn gets a much too small binding energy.
* C53: the polynomials of 3p, 3d, 4s, 4p, 4d, 4f, 5s, 5p, 5d are mistyped (misplaced brackets: `16 * (4/3)...`, `36 * (15/7)...`; lost digits:
  `48 * 128` for 48128, `46 * 592` for 46592). Their integrals are 5063/48, 249/25, 2229/80, 201/4, 172357/180, 5603/35, 70357, -86511/4,
  3137/9 instead of 1. Neutral aluminium scatters like 117.5 bound electrons.
* C55: 4f has effective charge 43 - 43 = 0 for technetium: nan in an empty shell, and the final nan guard turns the whole spectrum to zero.
* C55: inside `rk_on` the form factors belong to the mean charge, the populations to the integer charge.
* C61: with dispersion correction the mirrored channels have different wavenumbers; the sum of bound-free and free-bound scattering then
  misses detailed balance.
* C106: the Holm-Ribberfors correction grows like xi, the 1s spectrum is negative at large energy gain (an edge usually hides it).
* C107: under `DetailedBalance` the fraction is fitted again on the mirrored grid, with another cutoff; for asymmetric grids the bound-free and
  free-bound spectra are then scaled differently.
* C108: both zero-temperature corrections are 0 * inf = nan at k = 2 k_F, and 0/0 at k = 0; the interpolations inherit this.
* C108: the fit (0.0621814 + ...)/(1 + ...) is r_s dE_c/dr_s (Gell-Mann and Brueckner's 0.0622 ln r_s), but is used as r_s^2 dE_c/dr_s, and the second
  fit is derived from that. With a factor r_s missing, gamma_0 does not tend to 1/4 at high density but is larger than 0.26.
* C109: the value at contact of non-interacting electrons is sqrt 2 / 4 instead of 1/2 (x exp(-xi x^2) with sqrt(2 pi) xi^(3/2); the reduced mass
  asks for a factor sqrt 2).
* C110: the activation function does not vanish at k = 0, so the correction is about 1e-7 there and G V diverges. The fit of the value at contact is
  negative at r_s = 20, T = T_F / 2.
* C58: `LinearResponseScreeningGericke2010` multiplies a positive susceptibility with the (negative) electron-ion potential; with Coulomb
  potential and no local field correction it is minus `DebyeHueckelScreening`, to which its documentation says it reduces. The ion feature adds f + q,
  so the screening cloud is subtracted. It also treats neutral ions like the others unless all are neutral.
* C58, C112: `GregoriCHSScreening` is sqrt(Z_i Z_mean) times the screening factor: in mixtures ions of small charge are screened by more than
  their charge, all together by less than the free electrons.
* C58: `Gregori2004Screening` passes the electron temperature as ion temperature, so the result is independent of T_i (and of the mass).
* C113: with zero real energy `dielectric_function_RPA_rewrite` divides by the real frequency to choose the unit of integration; the unit is
  infinite, the integrals vanish and the result is 1 (no static screening), where `dielectric_function_RPA` has a real part above 1. At all other damped
  energies the two are equal.
* C115: the zero temperature functions are nan at the edges of the particle-hole continuum (0 times infinity), for instance statically at k = 2 k_F,
  where the true value is finite.
* C121: the coarse setup that `ScatteringModel.evaluate` builds for `sample_points` is given angle, energies and instrument only, so
  `correct_k_dispersion=False` is lost and the resampled spectrum is that of another setup.
* C122, C123: in `fermi_32_rational_approximation_antia` the last coefficient of table b reads 1.99507945223266e02 (Antia: e-02). Up to eta = -1.4 this
  is harmless, but at eta = ln 7 the fit is less than a third of the integral, and at eta = 2 it jumps by a factor of ten. `_phi_Dandrea` uses it. With the coefficient put right the fit has six digits
  (`C122_order_32_repaired`).
* C124: `_X_n` multiplies by Gamma(3/2) once for its argument and again inside the logarithm; `inverse_fermi_12_rational_approximation_antia` is
  therefore low by 0.12 for nondegenerate plasmas (the test skips the points where it shows).
* C125: the coefficient J of the Dandrea fit is a quotient whose denominator vanishes at a degeneracy between 0.2515 and 0.2518 where the numerator
  does not (they cross zero at 0.25161 and 0.25147): J and with it b_2 are unbounded around it. The thermal (Bohm-Gross) term is
  proportional to the Fermi integral of order 3/2, whose fit is wrong (C122); at eta = ln 7 it is less than a third of the exact one.
* C126: Ichimaru's interpolation of the chemical potential lies above the Fermi energy around Theta = exp(-5), by about 0.1 %, at every density; the
  ideal gas never does. A limit of the fit, not of the code.
* C127: `pauli_potential_from_classical_map_SpinSeparated` writes the parabola that repairs the like-spin potential at small k into all four
  components, so unlike spins, between which the inversion gives exactly zero, repel below 1 per angstrom. In both functions `.at[...].get()` drops the
  units and eV a0^3 and 1/a0 are put back, whatever units the caller used: with the temperature in kelvin the repaired part is off by e/k_B.
  The spin-separated function evaluates k_F and the chemical potential, both of which count two spins, at the density n_e/2 of a spin:
  only n_e/4 states are occupied, the exchange hole is that of half the density and holds two electrons; averaged over the spins it is the result of
  `..._SpinAveraged` at half the density. If no grid point lies between the two limits of the repair (0.8 and 1.0, or 1.0 and 2.0 per angstrom) the result is nan.
  `PauliClassicalMap.full_k` drops the k grid of the inversion, which differs from its argument by a constant unless the r grid starts one step from the origin.
* C129: `S_ee_AD` contains a term proportional to T_e - T_i that `g_ee_ABD` does not account for, so the two belong to one theory for equal temperatures only.
  The half-line quadrature of the oscillating integrand k sin(kr) Phi(k) is done by a rule that the model takes as exact.
* C132: `PlasmaState.db_wavelength` builds a list of wavelengths and has no return statement, so every call gives `None`. The list would not help for ions:
  `self.ions == par` compares a list with an element and selects no mass, and the ions' entry is formed with the electrons' temperature.
* C134: beyond the last radius `fourier_transform_ogata` continues f by f[-1] (r[-1]/x)^(3/2), not by zero, and below the first one by f[0] (r[0]/x)^(3/2), which
  diverges: a consequence of interpolating f r^(3/2) with constant ends.
* C135: `PotentialSum`, `ScaledPotential`, `IPDSum` and `Sum_Sii` inherit the empty `cite_keys`, so the literature behind their parts is missing from `PlasmaState.citation`.
* C108: Farid's fit of the second moment of the momentum distribution has a pole between r_s = 193 and 194; already at r_s = 187.7 the fits of the second and fourth moments violate <p^2>^2 <= <p^4>.
* C138: FromCallable(partial, disable_partial_unwrapping=True) raises AttributeError for every partial, as `func.__name__` is read in the deprecation check and partial objects have none; the same holds for every callable instance passed as instrument function.
* C139: S_ii_CHS is negative for all small k whenever lfc is a constant between 0 and 1; for weakly coupled ions (Landau length under a / 2000) the equation h1 = 0 has no solution in the bracket and the bisection silently returns a / 1000.
* C87, C88: where a product of coefficients exceeds e^500 the clipping also costs the uniqueness of the neutral electron density (a table with 26 states has one below
  and one above 1 per cubic metre) and the order: heating lowers the mean charge of two states by more than a quarter. Clipping from below only costs e^-500.
* C25: the super-Gaussian is normalised on ten sigma to either side; for small powers its area over all shifts exceeds any bound. The true full width is 2 sigma sqrt(2 (ln 2)^(1/p)).
* C25: `FromArray` (so `instrument_from_file`) divides by the signed trapezoid: shifts in falling order turn every stored intensity negative.
* C37: with the default `rpa_rewrite=True` every Born-Mermin form is 0/0 at the elastic energy, because the rewritten function is 1 there (C113). With the other form all but `BMA_full` give the static function.
* C131: the products of the coefficients are clipped at exp(+-500); with a reduced chemical potential of -2000 the neutral population is exp(-500) of the ions, more than exp(400) times what the balance asks for.
* C140: `convolve_stucture_factor_with_instrument` multiplies with the signed spacing of the first two energies: with energies in descending order a positive spectrum is detected as a negative one in every channel.
* **C143** Listing one species in two entries deepens the depression of `ipd_stewart_pyatt_preston` without a population (`Zbar = ne / ni`, ipd.py:316, is the charge per ion of one entry, and enters squared) and weakens that of `ipd_ecker_kroell` (`R_EK` is made from `ne + ni` of one entry, ipd.py:466). `expand_integer_ionization_states` lists every ion twice, so both depressions change there.
* **C144** The stopping criterion of the hypernetted chain sums the squared error over all pairs of entries (hypernetted_chain.py:566-573), so a list with repeated species is iterated at least as long as one without.


## Per property

* **C01 Models are only ever attached under keys they declare** — partial. Key discipline proved for all histories and any class. The model_key half holds when no instance sits under two keys, and is refuted when one instance is assigned twice (plasmastate.py:130 overwrites model_key). Theorems: `C01_rejected_leaves_state_untouched`, `C01_declared_key_accepted`, `C01_every_attached_model_declares_its_key`, `C01_model_key_partial`, `C01_model_key_refuted`.
* **C02 Attaching a model attaches everything it needs** — proved. All histories, all shipped classes, any number of ions. Theorems: `C02_everything_read_is_attached`, `C02_no_key_ever_removed`.
* **C03 Setting a model never overwrites a user's choice under another key** — partial. Holds for every shipped class except LinearResponseScreening, which assigns the free-free model in its prepare hook (models.py:4483). Theorems: `C03_other_keys_kept_partial`, `C03_refuted`.
* **C04 Three-potential HNC keeps its electron-inclusive potentials** — partial. Refuted: attaching a Born-Mermin model to a multi-species state switches the ion-ion potential to electron mode off (models.py:5036). Proved for every history without the listed disturbers. Theorems: `C04_partial`, `C04_refuted`.
* **C05 Expanding to integer charge states conserves the plasma** — proved. All lists of ions with positive masses and all real charges. Theorems: `C05_init_wellformed`, `C05_expansion_conserves`, `C05_expansion_keeps_bounds`, `C05_expansion_keeps_bound_electrons`.
* **C06 An expanded state can still be asked for its ion core radii** — partial. Holds for one species only; with two or more, _overwritten keeps the old shape and the lookup always raises. Theorems: `C06_one_species_partial`, `C06_user_value_wins`, `C06_refuted`, `C06_setting_the_radius`.
* **C07 Number fractions form a probability distribution** — proved. All non-empty states with positive densities and masses. Theorems: `C07_number_fractions_are_a_distribution`, `C07_electron_density_is_charge_weighted`.
* **C08 Density from electron density inverts the electron density** — proved. All normalised number fractions with non-zero mean charge. Theorems: `C08_density_inverts_electron_density`, `C08_neutral_mixture_has_no_density`.
* **C09 Mass fractions and number fractions are inverse conversions** — proved. All normalised number fractions. Theorems: `C09_mass_and_number_fractions`, `C09_length_mismatch_is_refused`.
* **C10 jit round trip preserves every object** — partial. All 85 registered classes, arbitrarily nested; IonSphereIPD loses arb_deg. Theorems: `C10_round_trip_partial`, `C10_refuted`, `C10_callables`, `C10_every_class`.
* **C11 Equal plasma states behave equally** — partial. Plasma parameters, ions, keys and static data are compared; the classes and parameters of the models are not. Theorems: `C11_partial`, `C11_refuted`.
* **C12 Model equality distinguishes model classes** — partial. Sound within one class except IonSphereIPD; the class itself is not compared. Theorems: `C12_same_class_partial`, `C12_refuted`.
* **C13 A spectrum is exactly the sum of the four Chihara contributions** — partial. Proved for all histories with distinct instances; refuted when one Neglect instance is shared with the ipd key. Theorems: `C13_probe_is_the_sum_partial`, `C13_shared_instance_refuted`.
* **C14 Average-atom substitution preserves the plasma** — partial. Only a single species keeps its density; every genuine mixture comes out too thin (models.py:4912 averages the partial densities instead of adding them). Theorems: `C14_single_species_partial`, `C14_charge_per_ion_partial`, `C14_refuted`.
* **C15 Saving then loading data returns the same data** — partial. All nestings; not for dictionaries with the key '_type', arrays with an inner zero in their shape, 0-d numpy arrays and MixElement. Theorems: `C15_data_comes_back_partial`, `C15_conversions`, `C15_refuted`.
* **C16 Saving then loading a model returns a model of the same class** — partial. All shipped classes but seven whose __name__ differs from the class name; those never load without additional_mappings. Theorems: `C16_partial`, `C16_refuted`, `C16_additional_mappings`, `C16_states_and_setups`, `C16_flipped_setup_refuted`, `C16_mapping_wins`.
* **C17 The transform grid of an HNC potential survives saving** — partial. The restored grid equals the saved one exactly when it is ascending and equidistant. Theorems: `C17_grid_partial`, `C17_refuted`.
* **C18 Element symbol and atomic number identify each other** — proved. All integers and all strings. Fractional numbers are truncated rather than refused. Theorems: `C18_number_to_symbol_and_back`, `C18_symbol_to_number_and_back`, `C18_exactly_36_elements`, `C18_fractions_are_truncated`.
* **C19 Element equality is an equivalence consistent with hashing** — partial. Holds for Element; a MixElement is not equal to itself, makes == intransitive and cannot be hashed. Theorems: `C19_elements_partial`, `C19_symmetric`, `C19_other_types_raise`, `C19_refuted`.
* **C20 Shell populations add up to the number of bound electrons** — proved. All real numbers of core electrons. Theorems: `C20_populations`, `C20_neutral_atoms`, `C20_named_orbitals`, `C20_orbital_places`, `C20_electron_distribution`, `C20_light_ions`.
* **C21 Tabulated electron configurations are consistent** — proved. The complete tables, generated from the source text. Theorems: `C21_configurations`, `C21_energies_and_weights`.
* **C22 Scattering vector geometry** — proved. Positive photon energies; angles in radians. Theorems: `C22_energy_resolved_k`, `C22_elastic_k`, `C22_even_in_angle`, `C22_grows_with_angle`, `C22_correction_off`, `C22_plasma_dispersion`, `C22_refraction_shortens_k`, `C22_redistribution_factor`.
* **C23 Convolution is aligned with the energy axis** — partial. Aligned on every ascending equidistant grid, but the sum is cut to a window of half the spectrum, so the full sum needs a narrow instrument function. On a descending grid the sign flips and an even number of channels shifts the result by one channel. Theorems: `C23_aligned_partial`, `C23_narrow_instrument_partial`, `C23_peak_does_not_move_partial`, `C23_linear`, `C23_refuted`.
* **C24 Probing at a given k** — proved. Needs sin(theta/2) non-zero; otherwise the energy is inf. Theorems: `C24_probe_setup`, `C24_own_k`.
* **C25 Instrument functions have the documented width and area** — partial. Areas are improper Riemann integrals (the Gaussian integral is proved here). Super-Gaussian: the area is one to 5 per cent for every power from 1/2 on and to 4 per cent inside ten sigma for every power, but has no bound for small powers; the stated FWHM is wrong for every power but one (the right one is proved). Theorems: `C25_gaussian`, `C25_gaussian_variance_parameter`, `C25_construction`, `C25_twin_gaussian`, `C25_twin_construction`, `C25_super_construction`, `C25_lorentzian`, `C25_supergaussian_partial`, `C25_supergaussian_window`, `C25_supergaussian_area`, `C25_supergaussian_area_unbounded`, `C25_supergaussian_true_width`, `C25_supergaussian_width_exactly_for_power_one`, `C25_tabulated`, `C25_from_file`, `C25_falling_file_refuted`, `C25_refuted`.
* **C26 Two-sided Laplace transform is linear and positive** — proved. All sample lists; order independence for distinct energies. Theorems: `C26_linear`, `C26_nonnegative`, `C26_order_independent`, `C26_convex_in_tau`, `C26_zeroth_moment_of_a_constant`, `C26_default_window`.
* **C27 Dictionary inversion is exact or refused** — proved. All key and value types with decidable equality, all finite dictionaries. Theorems: `C27_inverse_exactly_when_values_unique`, `C27_twice_is_the_original`.
* **C28 Bisection keeps and shrinks its bracket** — proved. All functions with a sign change; the root statement for continuous ones. The second theorem records that nothing holds without a sign change (the docstring says so). Theorems: `C28_bisection`, `C28_no_sign_change_no_root`.
* **C29 Linear solver solves** — partial. Proved for all real unbatched systems of size 1 to 4 (exact arithmetic), with uniqueness. Refuted for batches of size-4 systems, which the docstring promises. Theorems: `C29_solves`, `C29_singular_matrices_are_reported`, `C29_larger_systems_are_delegated`, `C29_batches_of_size_four_refuted`.
* **C30 Extremum search stays in its interval** — proved. All slope functions; tolerance positive. Theorems: `C30_stays_in_interval`, `C30_no_division_by_zero`, `C30_exact_on_quadratics`.
* **C31 Fermi occupation is a probability** — proved. Positive temperatures, exact reals (no overflow of exp). Theorems: `C31_occupation_is_a_probability`, `C31_monotone`, `C31_particle_hole_symmetry`.
* **C32 Compton shift bounds** — proved. All positive probe energies. Theorems: `C32_compton_shift`, `C32_compton_formula`.
* **C33 Dielectric function and susceptibility convert back and forth** — proved. Complex values; k non-zero, epsilon non-zero. Theorems: `C33_epsilon_chi_inverse`, `C33_zero_local_field`.
* **C34 Both fluctuation-dissipation routes agree** — proved.  Theorems: `C34_routes_agree`, `C34_fit`.
* **C35 Detailed balance of the free-free spectrum** — proved. For the fit and the undamped RPA with any quadrature; the damped RPA and Salpeter need a quadrature that scales with, resp. reflects, its integrand. Theorems: `C35_fit`, `C35_no_damping`, `C35_damped`, `C35_salpeter`.
* **C36 The free-free spectrum is non-negative** — partial. Positive at every energy but zero. At zero energy every spectrum is nan; the Salpeter form also at plus and minus the recoil energy. Theorems: `C36_fit`, `C36_no_damping`, `C36_salpeter`, `C36_elastic_refuted`, `C36_recoil_refuted`.
* **C37 Two Born-Mermin implementations are the same function** — partial. All identities hold; the Fortmann form is nan without collisions, the explicit formula at zero energy, and every form at zero energy with the default rewritten RPA. Theorems: `C37_formulae_coincide`, `C37_fortmann_dielectric`, `C37_local_field`, `C37_no_collisions`, `C37_no_collisions_full`, `C37_full_is_interp`, `C37_static`, `C37_static_fortmann`, `C37_no_collisions_refuted`, `C37_elastic_refuted`, `C37_elastic_default_refuted`.
* **C38 Collision frequency symmetry** — proved. With and without the Kramers-Kronig transform. Theorems: `C38_interpolated`, `C38_full`, `C38_resampled`.
* **C39 The cut-off guess adapts to the spectrum** — partial. Refuted: the nan at zero energy decides every comparison; the guess is always 15 or 1 times E_max. Theorems: `C39_cutoff`, `C39_adapts_refuted`, `C39_lower_cutoff`.
* **C40 Arkhipov-Davletov structure factors are physical** — partial. Complete at equal temperatures; with T_e > T_i S_ii can be negative. Theorems: `C40_equal_temperatures`, `C40_determinant`, `C40_cold_ions_refuted`, `C40_two_temperatures`.
* **C41 Effective temperatures interpolate** — proved.  Theorems: `C41_pair_temperature`, `C41_quantum_temperatures`, `C41_Bohm_Staver`.
* **C42 Mixture structure factor reduces to one component** — proved. All four analytic models; the average over the species is shown for ArkhipovIonFeat and, with an unnamed S, for all (C77_criterion). Theorems: `C42_symmetric`, `C42_one_species`, `C42_average`.
* **C43 Rayleigh weight is non-negative and order independent** — proved.  Theorems: `C43_nonnegative`, `C43_uncorrelated`, `C43_relabelling`, `C43_order_independent`, `C43_channel`.
* **C44 Discrete sine transform is its own inverse** — proved. Even lengths (all grids used by the models are powers of two); odd lengths lose their last value, as the docstring warns. Theorems: `C44_dst4_is_the_sine_transform`, `C44_dst4_involution`, `C44_parseval`, `C44_forward_then_backward`, `C44_backward_then_forward`.
* **C45 The k grid carries the right labels** — partial. Refuted: the transform is taken at half-integer multiples of the step, the labels start at pi / r_max; they are off by more than half a step on every uniform grid. Step and sign of the labels are right. Theorems: `C45_transform_points`, `C45_k_labels_refuted`, `C45_no_grid_is_right_refuted`, `C45_k_grid_partial`.
* **C46 HNC iteration obeys Ornstein-Zernike and terminates** — proved. For symmetric potentials (all of hnc_potentials.py). More than four species go to jnp.linalg.solve, assumed to solve. Theorems: `C46_ornstein_zernike`, `C46_ornstein_zernike_defined`, `C46_step`, `C46_fixed_point`, `C46_result`, `C46_terminates`, `C46_ideal_gas`.
* **C47 Long and short range parts add up to the potential** — partial. Every expression of which all three exist, and they do without soft cores if full_r does; YukawaShortRangeRepulsion.full_r and SoftCorePotential.short_r raise. Theorems: `C47_partial`, `C47_parts_exist`, `C47_sum`, `C47_multiple`, `C47_spins`, `C47_spin_range`, `C47_yukawa_refuted`, `C47_soft_core_refuted`.
* **C48 Real-space and Fourier-space potentials are a transform pair** — partial. Abel-summed transform, and the plain improper integral for the screened ones. Deutsch's full_k lacks a factor pi. Theorems: `C48_coulomb`, `C48_long_coulomb`, `C48_debye`, `C48_long_debye`, `C48_long_yukawa`, `C48_empty_core`, `C48_deutsch_refuted`, `C48_long_empty_core`, `C48_parts`, `C48_short`, `C48_long`, `C48_soft_core`.
* **C49 Adding potentials or IPD models does not modify the operands** — partial. Holds if the left operand is no sum or both are, with equal treatment of the electrons; a sum on the left is modified in place, may become a part of itself (RecursionError), and the treatment of electrons is pushed into the operands. Theorems: `C49_partial`, `C49_multiples`, `C49_refuted`, `C49_left_sum_grows_refuted`, `C49_cycle_refuted`, `C49_mode_refuted`.
* **C50 Stewart-Pyatt interpolates between its limits** — partial. Debye-Hueckel bound for charges of at least 1e-6 (the clip), ion-sphere bound for one species; in mixtures the radii differ, and for a neutral atom the clip makes Stewart-Pyatt the deeper one. Theorems: `C50_debye_partial`, `C50_ion_sphere_partial`, `C50_mixture_refuted`, `C50_zero_charge_refuted`.
* **C51 Ecker-Kroell is continuous at the critical density** — partial. Continuous for one species along every path of states; in a mixture the density compared and the density scaled differ, the shift jumps. Theorems: `C51_partial`, `C51_closed_form`, `C51_mixture_refuted`.
* **C52 Saha populations are a distribution with the right ratios** — partial. Distribution and bounds for all inputs; the ratios and the trend with density hold while no logarithm is clipped at +-500 (and, for the trend, lost states lie below the bound ones); beyond, they fail. Theorems: `C52_distribution`, `C52_ratio_partial`, `C52_masked`, `C52_clip_equal`, `C52_ratio_refuted`, `C52_monotone_partial`, `C52_monotone_refuted`.
* **C53 Hydrogenic Compton profiles are normalised** — partial. Holds for 1s, 2s, 2p, 3s; the other nine polynomials are mistyped, their integrals are computed. Theorems: `C53_integrals`, `C53_normalised_partial`, `C53_normalised_refuted`, `C53_momentum_density_partial`, `C53_peak_at_recoil_partial`, `C53_correction_conserves`, `C53_electrons`, `C53_electrons_counted_partial`, `C53_electrons_counted_refuted`.
* **C54 Closed-form profiles agree with the general formula** — proved.  Theorems: `C54_closed_forms`, `C54_approximations`, `C54_wavefunction`, `C54_outer_shells_dropped`, `C54_momentum`.
* **C55 Bound-free interpolates between integer charges** — partial. Form factors and the potential depression are taken at the mean charge in both neighbours. Technetium's spectrum vanishes. Theorems: `C55_mixture`, `C55_continuous`, `C55_charge_state`, `C55_cold_edges`, `C55_species`, `C55_technetium_refuted`.
* **C56 Form factors are normalised and bounded** — partial. Every form factor is the Fourier transform of the hydrogenic density of its shell. Refuted for vanishing effective charge (nan, reachable with average atoms such as Z = 5/2). Theorems: `C56_hydrogenic_transform`, `C56_density`, `C56_bounded`, `C56_small_k`, `C56_1s_monotone`, `C56_rows`, `C56_refuted`.
* **C57 Shielding tables are usable for interpolation** — partial. The 4s table is not sorted. Theorems: `C57_tables_partial`, `C57_refuted`, `C57_populated_shells`, `C57_effective_charge`.
* **C58 Screening models agree where documented** — partial. LinearResponseScreeningGericke2010 is minus DebyeHueckelScreening; the hard sphere model exceeds the charge of light ions in mixtures. Theorems: `C58_debye_hueckel`, `C58_monotone`, `C58_linear_response_partial`, `C58_linear_response_sign`, `C58_linear_response_refuted`, `C58_finite_wavelength`, `C58_finite_coulomb`, `C58_neutral`, `C58_gregori2004`, `C58_hard_spheres`, `C58_hard_spheres_refuted`.
* **C59 Interpolated local field corrections are convex mixtures** — proved. Lever rule between the cold and the hot correction. Where the cold correction is nan (k = 2 k_F, C108) the interpolation is, too. Theorems: `C59_hubbard`, `C59_interpolations`, `C59_geldart_vosko`, `C59_geldart_vosko_increasing`.
* **C60 Edge models are monotone switches** — proved.  Theorems: `C60_switches`, `C60_half_at_the_edge`, `C60_sharp`.
* **C61 Detailed balance free-bound mirrors bound-free** — partial. The sum obeys detailed balance only without dispersion correction. Theorems: `C61_mirrored`, `C61_involution`, `C61_balance_partial`, `C61_balance_refuted`.
* **C62 Listing helpers honour their filters** — partial. get_all_models is exact. get_all_models_list ignores both arguments (collections.py:157). Theorems: `C62_get_all_models`, `C62_get_all_models_list_partial`, `C62_refuted`.
* **C63 A model finds the interface it needs in the models it reads** — partial. Holds for every class but Sum_Sii and LinearResponseScreening. Theorems: `C63_capabilities_partial`, `C63_refuted`.
* **C64 The Born-Mermin energy cut-off belongs to the plasma being evaluated** — partial. The cut-off is frozen at the first attachment. Theorems: `C64_cutoff_at_attachment_partial`, `C64_refuted`.
* **C65 Characteristic plasma scales are mutually consistent** — proved. All positive densities. Theorems: `C65_scales_are_consistent`, `C65_denser_is_more_degenerate`, `C65_duplicated_formulas_agree`.
* **C66 Effective temperatures never fall below the electron temperature** — proved. Positive temperature and power. Theorems: `C66_interpolated_temperature_bounds`, `C66_classical_map_temperature`.
* **C67 Debye length of a mixture** — proved. All finite species lists with positive densities and at least one charge. Theorems: `C67_debye_length`, `C67_species_order`, `C67_more_charges_screen_better`, `C67_debye_length_and_plasma_frequency`.
* **C68 Detailed balance fixes the temperature found by the ITCF analysis** — proved. The symmetry statements are for the transform without deconvolution, on any symmetric grid containing the inner cut-off points. The secant search itself is C30. Theorems: `C68_symmetric_in_tau`, `C68_thermometry`, `C68_minimum_is_attained`, `C68_moments`, `C68_sign_convention`, `C68_deconvolution`.
* **C69 Tabulated ionisation energies rise with the charge** — partial. True exactly for Z <= 8: from fluorine on the 9th, 19th and 29th energy stand four places too early. Theorems: `C69_partial`, `C69_refuted`, `C69_misplaced_entries`.
* **C70 Statistical weights belong to the tabulated configuration** — proved. The complete tables. Theorems: `C70_statistical_weights`.
* **C71 Cold binding energies belong to their orbital** — partial. True exactly for Z <= 4: rows list orbitals, __init__ reads them as K, L1, L2, L3, M1, ... Theorems: `C71_partial`, `C71_refuted`.
* **C72 Binding energies of ions match the populated orbitals** — partial. Table complete and consistent with the configurations; the populations assumed by the bound-free model agree only up to calcium. Theorems: `C72_positive_exactly_when_occupied`, `C72_charge_is_rounded`, `C72_populated_orbitals_partial`, `C72_refuted`.
* **C73 Compiled code is only reused for states it fits** — partial. Holds whenever every model carries the key it is stored under; fails when a shared instance broke this (C01). Theorems: `C73_reuse_is_sound_partial`, `C73_refuted`.
* **C74 Debye-Waller factor is a probability** — proved.  Theorems: `C74_probability`, `C74_monotone`.
* **C75 Screening charge is the linear response to the ion** — proved.  Theorems: `C75_linear_response`, `C75_Glenzer_bounded`.
* **C76 Charged-hard-sphere structure factors belong to one screening cloud** — proved.  Theorems: `C76_consistent`, `C76_direct_correlation`, `C76_contact`.
* **C77 Mixture structure factors are positive semi-definite** — partial. Exact criterion for all four models; holds if all ions have the same charge; fully ionised CH at long wavelengths violates it. Theorems: `C77_criterion`, `C77_one_charge_partial`, `C77_refuted`.
* **C78 Listing an ion twice changes nothing** — partial. Holds for three of the four models; CHSIonFeat's ion density sum(n^2)/sum(n) drops when a species is split. Theorems: `C78_splitting_partial`, `C78_refuted`.
* **C79 Debye-Waller solid is symmetric in the ion species** — partial. Holds for a common Debye temperature; one per ion breaks the symmetry. Theorems: `C79_one_temperature_partial`, `C79_refuted`.
* **C80 Pair potentials do not depend on the order of the species** — proved. Given a symmetric screening length; the tabulated Pauli potentials are arguments. Theorems: `C80_symmetric`, `C80_symmetric_exprs`.
* **C81 Screened and quantum potentials are weaker than Coulomb** — partial. Magnitudes proved for all; the Klimontovich-Kraeft potential is attractive for like charges, too. Theorems: `C81_weaker`, `C81_cores`, `C81_sign`, `C81_klimontovich_kraeft_sign_refuted`.
* **C82 Ecker-Kroell is Debye-Hueckel below the critical density** — partial. Holds if the ions share a temperature; else the sums over the ions differ. Theorems: `C82_partial`, `C82_two_temperatures_refuted`.
* **C83 Depression deepens with the charge state** — partial. Holds for Debye-Hueckel, Stewart-Pyatt, Preston and ion sphere; EckerKroellIPD.all_element_states always raises, PauliBlockingIPD's ignores the charge. Theorems: `C83_partial`, `C83_ecker_kroell_refuted`, `C83_pauli_refuted`, `C83_sum`.
* **C84 The table of charge states agrees with the depression of the state** — proved. All sums of models without Ecker-Kroell (whose table raises), by induction. Theorems: `C84_consistent`.
* **C85 Pauli blocking shift is bounded by the attraction at the Bohr radius** — proved. The quadrature is replaced by the improper integral, which exists; the chemical potential is an argument. Theorems: `C85_integral`, `C85_bound`.
* **C86 Preston's form of Stewart-Pyatt** — partial. The bound holds for one species; with a population, charges are averaged over the number of states (mean instead of sum). Theorems: `C86_debye_partial`, `C86_equation`, `C86_population_refuted`, `C86_state_read`.
* **C87 The ionisation solver conserves particles and charge** — partial. Existence, conservation and accuracy for all inputs with more than 1e-8 electrons per cubic metre at that density. Uniqueness: up to exp(-500) where no product of coefficients exceeds exp 500, exactly where nothing is clipped; false otherwise. Theorems: `C87_solution`, `C87_ordered`, `C87_unique`, `C87_ordered_partial`, `C87_unique_partial`, `C87_unique_refuted`.
* **C88 Saha relation, its generalisation, and their trends** — partial. Coefficients in general; mean charge and neutral density up to exp(-500) where no product of coefficients exceeds exp 500 (exactly where nothing is clipped and the same states are bound); false otherwise. Theorems: `C88_saha`, `C88_coefficient_ordered`, `C88_terms_ordered`, `C88_mean_charge`, `C88_neutral_density`, `C88_mean_charge_partial`, `C88_upward`, `C88_mean_charge_refuted`.
* **C89 More's Thomas-Fermi charge lies between zero and Z** — proved. The loop's fixed point is not claimed to exist: it ends when two iterates agree within 1e-5 or after a hundred. Theorems: `C89_bounds`, `C89_loop`, `C89_one_species`, `C89_electron_density_grows`, `C89_cold_bound`, `C89_hot_limit`, `C89_converged`.
* **C90 Planck-Larkin sums and the Bethe-Uhlenbeck balance** — partial. The sum is as documented; but binding energies are inserted with the sign of level energies, so that the balance exceeds Saha's by e^x/x; a gap in the bound states removes the bare nucleus. Theorems: `C90_partition`, `C90_saha_limit_refuted`, `C90_gap_refuted`.
* **C91 Charge-state distributions are fractions** — partial. calculate_charge_state_distribution does; calculate_mean_free_charge_saha returns number densities. Theorems: `C91_fractions`, `C91_solver_sums`, `C91_densities`, `C91_fractions_refuted`, `C91_ideal_chemical_potential`, `C91_saha_ratios_partial`, `C91_last_iteration`.
* **C92 A collection of peaks is the sum of its peaks** — proved.  Theorems: `C92_peaks`.
* **C93 HNC structure factors are the inverse of 1 - n c** — proved.  Theorems: `C93_structure_factor`, `C93_structure_factor_at_a_fixed_point`, `C93_one_component`.
* **C94 Multi-temperature Ornstein-Zernike solver** — partial. The relation and the agreement hold; the reported iterations are those of the last temperature only. Theorems: `C94_relation`, `C94_symmetric`, `C94_one_temperature`, `C94_result`, `C94_iteration_count_refuted`.
* **C95 Pair temperatures are means** — proved.  Theorems: `C95_mass_weighted`, `C95_geometric`.
* **C96 Ogata quadrature: derivative, weights and Bessel functions** — proved. The interpolation inside fourier_transform_ogata is not modelled; the function is not used. Theorems: `C96_dpsi_is_the_derivative`, `C96_bessel`, `C96_weights`.
* **C97 HNC building blocks outside the solver's own use** — partial. Both refuted: odd lengths lose their last value (the docstring warns); up to four species the rows instead of the columns are solved for. Theorems: `C97_odd_length_refuted`, `C97_asymmetric_refuted`.
* **C98 Damped RPA at real energies** — partial. Holds for the Schoerner form; the rewritten form, default of S0_ee_RPA, has zero spectrum at every real energy. Theorems: `C98_real_energy`, `C98_spectrum`, `C98_default_refuted`.
* **C99 Detailed balance with collisions** — proved.  Theorems: `C99_detailed_balance`, `C99_interpolated_frequency`.
* **C100 Kramers-Kronig transform** — proved.  Theorems: `C100_odd`, `C100_linear`.
* **C101 Free-free models at the elastic energy** — partial. Only RPA_DandreaFit treats zero energy. Theorems: `C101_fit_is_finite`, `C101_refuted`, `C101_no_free_electrons`.
* **C102 Resampled collision frequencies follow the energy** — partial. Refuted for one-sided sets of energies. Theorems: `C102_clipped_refuted`.
* **C103 Screening length and screened potential** — proved.  Theorems: `C103_exact`, `C103_non_degenerate`, `C103_screened_potential`.
* **C104 Form factors shrink under continuum lowering** — partial. Holds for one species; in mixtures the lowered values are written to the wrong row and column. Theorems: `C104_lowered`, `C104_charge`, `C104_single_species_partial`, `C104_refuted`, `C104_unbound`.
* **C105 The K shell has the largest binding energies** — partial. Fails exactly for F, Ne, K, Ca, Cu, Zn. Theorems: `C105_k_shell_partial`, `C105_refuted`.
* **C106 Bound-free intensities are not negative** — partial. The profiles are positive; with the Holm-Ribberfors correction the 1s spectrum is negative at large energy gain. Theorems: `C106_profiles_positive`, `C106_outer_shells`, `C106_impulse_refuted`, `C106_5p_refuted`.
* **C107 The fitted elastic fraction restores the f-sum rule** — proved. For the three raw spectra at one wavenumber (dispersion correction off), as the code computes them. Theorems: `C107_sum_rule`, `C107_unique`.
* **C108 Sum rules of the zero-temperature local field corrections** — partial. The sum rules hold with the code's gamma_0, which misses 1/4 at high density; nan at k = 2 k_F. The moments of the momentum distribution behind Farid's coefficients are sensible up to r_s = 100; the fit has a pole at r_s = 193.7. Theorems: `C108_utsumi_ichimaru`, `C108_farid`, `C108_contact_value`, `C108_twice_kF_refuted`, `C108_dense_limit_refuted`, `C108_derivatives_of_one_energy`, `C108_momentum_moments`, `C108_farid_moments`, `C108_pole_refuted`, `C108_momentum_moments_refuted`.
* **C109 Pair distribution at contact** — partial. The limit is sqrt 2 / 4. Theorems: `C109_contact_bounds`, `C109_screening_enhances`, `C109_ideal_refuted`, `C109_same_temperature`, `C109_binding`.
* **C110 Dornheim's local field correction** — partial. Does not vanish at k = 0; the value at contact becomes negative. Theorems: `C110_activation`, `C110_parameters_defined`, `C110_short_waves`, `C110_long_waves_partial`, `C110_long_waves_refuted`, `C110_between`, `C110_contact_dense`, `C110_contact_negative_refuted`, `C110_units`, `C110_arguments`, `C110_parameters`, `C110_midpoint`, `C110_hot_contact`.
* **C111 Screening lengths** — proved. The Fermi integrals and the degenerate inverse length are parameters. Theorems: `C111_lengths`, `C111_inverse`, `C111_long_waves`, `C111_degenerate`.
* **C112 Screening clouds neutralise the plasma** — partial. Holds for the Debye-Hueckel clouds; hard spheres of different charge are under-screened as a whole. Theorems: `C112_debye_hueckel`, `C112_hard_spheres`, `C112_hard_spheres_refuted`.
* **C113 The rewritten random phase approximation is the same function** — partial. The rewritten form is 1 if the real part of the energy is zero. Theorems: `C113_rewritten`, `C113_static`, `C113_static_refuted`.
* **C114 Damped dielectric functions absorb and tend to the undamped one** — proved. The limit is shown for the imaginary part. Theorems: `C114_absorbs`, `C114_small_damping`, `C114_states`.
* **C115 Zero temperature dielectric function** — proved. Nan exactly at the edges of the continuum, for instance in the static case at twice the Fermi wavenumber. Theorems: `C115_absorbs`, `C115_symmetric`, `C115_cold_limit`, `C115_static`, `C115_high_energy`, `C115_sum_rule`, `C115_defined`.
* **C116 Zero temperature collision frequency is Ziman's** — proved. For the integrand; the quadrature is a parameter. The second-order Born approximation's finite temperature integrand has the same prefactor. Theorems: `C116_ziman`, `C116_symmetric`.
* **C117 f-sum rule at finite temperature** — proved. The density is the one the distribution holds; the code's chemical potential fit is not exactly inverse to it. Theorems: `C117_sum_rule`.
* **C118 Fast sine transform** — proved.  Theorems: `C118_sine_transform`, `C118_self_inverse`.
* **C119 Fast complex Fourier transform** — proved.  Theorems: `C119_transform`, `C119_inverse`.
* **C120 Fast Fourier transform of real arrays** — proved.  Theorems: `C120_forward`, `C120_inverse`, `C120_numpy`.
* **C121 Resampled scattering models** — partial. The bounds hold for setups that correct the k dispersion; the coarse setup always does. Theorems: `C121_error`, `C121_exact`, `C121_dispersion_refuted`.
* **C122 Accuracy of the Fermi integral fits** — partial. Orders -1/2, 1/2 and 5/2 are proved. Order 3/2: proved for eta <= -1.4 only and false near eta = 2, a coefficient is 1e4 times too large; with it put right it is proved too. Above eta = 2 the accuracy is covered by C123 only. Theorems: `C122_below_step`, `C122_nondegenerate`, `C122_nondegenerate_32_partial`, `C122_order_32_refuted`, `C122_order_32_repaired`, `C122_positive`.
* **C123 Branches of the Fermi integral fits** — partial. The order 3/2 jumps by a factor of ten at eta = 2; its monotony is not claimed. Theorems: `C123_step`, `C123_step_32_refuted`, `C123_increasing`, `C123_degenerate`.
* **C124 Inverse Fermi integral** — partial. Fukushima's fit: proved. Antia's inverse fit, which only the tests use, is off by ln Gamma(3/2). Theorems: `C124_roundtrip`, `C124_exact`, `C124_order`, `C124_antia_refuted`.
* **C125 Limits of the fitted dielectric function** — partial. The limits hold where the coefficients are defined, which is everywhere but at one degeneracy near theta = 0.2516, where J has a pole, and the code's Fermi integral of order 3/2 is wrong. Theorems: `C125_phi_large`, `C125_phi_small`, `C125_coefficients_classical`, `C125_coefficients_degenerate`, `C125_bohm_gross`, `C125_screening`, `C125_screening_ipd`, `C125_screening_exact`, `C125_defined`, `C125_one_pole`, `C125_numerator_classical`, `C125_numerator_degenerate`, `C125_pole_refuted`, `C125_thermal_refuted`.
* **C126 Chemical potentials of the ideal electron gas** — partial. Between T_F/10 and 2 T_F nothing is claimed of Cowan's form. Ichimaru's form exceeds the Fermi energy at Theta = exp(-5), by less than a permille. Theorems: `C126_order`, `C126_classical`, `C126_degenerate`, `C126_virial`, `C126_cold`, `C126_debye`, `C126_ceiling_refuted`.
* **C127 Pauli potentials from the classical map** — partial. False near the origin: unlike spins get the like-spin potential, and the repaired part depends on the unit of the temperature. The spin-separated exchange term is that of half the density. That the solver converges to the fixed point is not claimed. Theorems: `C127_positive`, `C127_averaged_inverts`, `C127_separated_raw`, `C127_separated_inverts`, `C127_repair_averaged`, `C127_repair_separated`, `C127_exchange_hole`, `C127_same_exchange`, `C127_full_k`, `C127_unlike`, `C127_grid`, `C127_unlike_refuted`, `C127_units_refuted`, `C127_density_refuted`, `C127_electrons_only`.
* **C128 Cached structure factor of the Born collision frequency** — proved. Without a grid there is no value in forward direction (no probe setup). The solution of the chain on the grid is a parameter. Theorems: `C128_one_potential`, `C128_three_potential`, `C128_average_atom`, `C128_no_grid`, `C128_any_angle`, `C128_nonnegative`, `C128_alike`, `C128_outside`, `C128_inputs`.
* **C129 Pair distributions of Arkhipov, Baimbetov and Davletov** — proved. For T_e <> T_i the term that S_ee_AD subtracts is added back. The half-line quadrature is taken exact. Theorems: `C129_linearised`, `C129_ions`, `C129_electrons`, `C129_electron_ion`.
* **C130 Thermometry of a recorded spectrum** — proved. The adaptive search of get_T is covered by C26 and C68 only as far as the minimum is concerned. Theorems: `C130_deconvolution`, `C130_moments`, `C130_thermometer`, `C130_thermometer_exact`, `C130_minimum`.
* **C131 Mean charges from the Bethe-Uhlenbeck balance** — partial. The balance needs populations within the clipping range of the solver; outside it fails. That the six rounds converge is not claimed. Theorems: `C131_last_iteration`, `C131_densities`, `C131_balance_partial`, `C131_balance_refuted`, `C131_classical`, `C131_single_species`.
* **C132 Degeneracy, coupling and wavelengths of a plasma state** — partial. db_wavelength has no return statement: no wavelength can be read from a state. Theorems: `C132_degeneracy`, `C132_coupling`, `C132_wavelength_entry`, `C132_wavelength_refuted`, `C132_length`.
* **C133 Convergence of the hypernetted-chain iteration at weak coupling** — proved. The strength exists but is not computed. For several temperatures it depends on their ratios, too. Theorems: `C133_iteration_converges`, `C133_solver`, `C133_several_temperatures`.
* **C134 Quadrature of the second Fourier transform** — proved. The error of the trapezoidal rule itself (finite h) is not bounded. Theorems: `C134_quadrature`, `C134_substitution`, `C134_truncation`, `C134_series`, `C134_unit_of_length`, `C134_linear`.
* **C135 Bibliography of a plasma state** — partial. PotentialSum, ScaledPotential, IPDSum and Sum_Sii cite nothing, whatever their parts cite. pybtex is a parameter. Theorems: `C135_cite_lines`, `C135_cite_keys`, `C135_bibtex`, `C135_plain`, `C135_keys_exist`, `C135_no_error`, `C135_composite_refuted`.
* **C136 The reader of the NIST level tables returns exactly the levels of the table** — proved. the file as the list of its lines; \d as the ASCII digits; the download itself is not modelled Theorems: `C136_search`, `C136_round_trip`, `C136_lengths`, `C136_marked_levels`.
* **C137 Arrays made from lists of quantities keep every value** — proved. units with an offset are not modelled; jnp.array of a list that mixes numbers and quantities is a parameter Theorems: `C137_quantities`, `C137_unit_independent`, `C137_dimensions`, `C137_numbers`, `C137_idempotent`, `C137_empty`.
* **C138 An instrument function made from a callable is that callable** — partial. disable_partial_unwrapping=True always raises: the check for deprecated names reads __name__, which neither a partial object nor a callable instance has Theorems: `C138_function`, `C138_bound_arguments`, `C138_warning`, `C138_flag_refuted`, `C138_instance_refuted`.
* **C139 Charged hard spheres are the mean spherical approximation** — partial. two parts are refuted: a local field correction between 0 and 1 that does not vanish with k makes the screened structure factor negative for all long enough waves; when the Landau length is below a two-thousandth of the distance of the ions h1 has no zero in the bracket, and the diameter returned is its lower end. C139_diameter asks for a Landau length between a five-hundredth and 100000 times the distance Theorems: `C139_mean_spherical`, `C139_factorised`, `C139_positive`, `C139_perfect_screening`, `C139_short_waves`, `C139_long_waves`, `C139_truncation`, `C139_negative_refuted`, `C139_diameter`, `C139_weak_coupling_refuted`.
* **C140 A detected signal keeps the sign and the area of the spectrum** — partial. energies in descending order are refuted: every channel of a positive spectrum comes out negative, since the spacing is taken with its sign Theorems: `C140_nonneg`, `C140_free_free`, `C140_elastic`, `C140_no_larger`, `C140_no_gain`, `C140_area`, `C140_descending`, `C140_sign_refuted`.
* **C141 The formulas do not depend on the system of units** — proved. the screening length and the Pauli integral that enter the depressions are parameters, assumed to have the dimension of an inverse length and of an inverse volume; the quadrature of the collision frequency runs over a wave number, that of the exact screening length over an energy: its nodes and weights are converted with it, and it is assumed to be homogeneous in the values; the charged hard spheres (lengths in angstrom) and the interpolation tables of the collision frequency are not covered; of the potentials, PauliClassicalMap and the numerical Fourier transforms are not covered; the hypernetted chain is compared when both runs end Theorems: `C141_scales`, `C141_free_free`, `C141_dielectric`, `C141_setup`, `C141_bound_free`, `C141_edges`, `C141_ipd`, `C141_static_sf`, `C141_lfc`, `C141_potentials`, `C141_collision`, `C141_mermin`, `C141_hnc`, `C141_hnc_temperatures`.
* **C142 The order in which the ions are listed does not matter** — proved. the averaged plasma is compared in all fields but the list of core radii set by hand, which the code hands over unaveraged; a constant depression is one number for all ions (with one value per ion the user has to relist them, C142_depressions_ex2); the screening lengths handed to the potentials, the local field correction and the Debye temperatures are given per pair, plasma and ion; PauliClassicalMap is not covered. The hypernetted chain is compared when both runs end; any two exact linear solvers may be used Theorems: `C142_state`, `C142_depressions`, `C142_potentials`, `C142_bound_free`, `C142_screening`, `C142_hnc`, `C142_hnc_temperatures`.
* **C143 Listing a species in two entries changes no density, depression, potential or bound-free spectrum** — partial. the depressions keep their values in the Debye-Hueckel, Stewart-Pyatt, ion sphere and Pauli blocking models; Preston's form (mean charge ne / ni of one entry) and Ecker-Kroell (radius from ne + ni of one entry) are refuted; the splittings of the potentials into long and short range depend on the density of an entry and are not covered Theorems: `C143_state`, `C143_depressions_partial`, `C143_preston_refuted`, `C143_ecker_kroell_refuted`, `C143_potentials`, `C143_bound_free`.
* **C144 Listing a species in several entries changes no pair function of the hypernetted chain** — proved. the iterations of both solvers at one temperature multiplier are compared, when both exist, and the whole runs of the one-temperature solver without further multipliers; runs of different length need not agree, because the stopping criterion sums the error over all pairs of entries Theorems: `C144_hnc_steps`, `C144_hnc_temperatures`, `C144_hnc_run`, `C144_total_structure_factor`.

## Axioms listed by `Print Assumptions`

Abbreviations, all declared by the Coq standard library: SFD = `ClassicalDedekindReals.sig_forall_dec`, SND = `ClassicalDedekindReals.sig_not_dec`, FE = `FunctionalExtensionality.functional_extensionality_dep`, CL = `Classical_Prop.classic`.

* **FE**: `C10_round_trip_partial`, `C10_refuted`, `C10_callables`, `C73_reuse_is_sound_partial`, `C73_refuted`
* **SFD**: `C05_init_wellformed`, `C49_refuted`, `C49_cycle_refuted`, `C49_mode_refuted`, `C47_sum`, `C80_symmetric_exprs`, `C13_shared_instance_refuted`
* **SFD, FE**: `C68_sign_convention`, `C60_sharp`, `C19_elements_partial`, `C19_symmetric`, `C19_refuted`, `C19_other_types_raise`, `C20_populations`, `C20_neutral_atoms`, `C20_light_ions`, `C72_positive_exactly_when_occupied`, `C72_charge_is_rounded`, `C72_populated_orbitals_partial`, `C72_refuted`, `C56_bounded`, `C56_refuted`, `C56_1s_monotone`, `C56_rows`, `C57_tables_partial`, `C57_refuted`, `C57_populated_shells`, `C105_k_shell_partial`, `C105_refuted`, `C37_elastic_refuted`, `C103_screened_potential`, `C46_ornstein_zernike`, `C46_ornstein_zernike_defined`, `C97_asymmetric_refuted`, `C94_relation`, `C94_symmetric`, `C94_one_temperature`, `C95_mass_weighted`, `C28_no_sign_change_no_root`, `C29_solves`, `C29_singular_matrices_are_reported`, `C29_larger_systems_are_delegated`, `C29_batches_of_size_four_refuted`, `C30_stays_in_interval`, `C30_no_division_by_zero`, `C30_exact_on_quadratics`, `C78_refuted`, `C92_peaks`, `C91_fractions`, `C86_state_read`, `C136_round_trip`, `C136_lengths`, `C142_state`, `C05_expansion_conserves`, `C05_expansion_keeps_bounds`, `C05_expansion_keeps_bound_electrons`, `C06_one_species_partial`, `C06_user_value_wins`, `C06_refuted`, `C07_number_fractions_are_a_distribution`, `C07_electron_density_is_charge_weighted`, `C08_density_inverts_electron_density`, `C08_neutral_mixture_has_no_density`, `C09_mass_and_number_fractions`, `C09_length_mismatch_is_refused`, `C14_single_species_partial`, `C14_charge_per_ion_partial`, `C14_refuted`, `C49_partial`, `C49_multiples`, `C47_multiple`, `C13_probe_is_the_sum_partial`, `C15_data_comes_back_partial`, `C15_conversions`, `C15_refuted`, `C16_partial`, `C16_refuted`, `C16_additional_mappings`, `C16_states_and_setups`, `C16_flipped_setup_refuted`, `C17_grid_partial`, `C17_refuted`, `C16_mapping_wins`, `C121_error`, `C58_debye_hueckel`, `C58_monotone`, `C111_degenerate`, `C112_debye_hueckel`, `C23_linear`, `C140_no_larger`, `C140_no_gain`, `C140_area`, `C143_state`, `C41_pair_temperature`, `C25_falling_file_refuted`, `C137_quantities`, `C137_unit_independent`, `C137_dimensions`, `C137_numbers`, `C137_idempotent`, `C06_setting_the_radius`, `C57_effective_charge`, `C132_length`
* **SFD, SND, CL, FE**: `C26_convex_in_tau`, `C68_thermometry`, `C68_minimum_is_attained`, `C68_moments`, `C131_balance_refuted`, `C53_integrals`, `C53_normalised_partial`, `C53_normalised_refuted`, `C53_momentum_density_partial`, `C53_peak_at_recoil_partial`, `C53_correction_conserves`, `C54_approximations`, `C54_wavefunction`, `C53_electrons`, `C53_electrons_counted_partial`, `C53_electrons_counted_refuted`, `C55_mixture`, `C55_continuous`, `C55_charge_state`, `C55_technetium_refuted`, `C55_cold_edges`, `C55_species`, `C60_switches`, `C106_outer_shells`, `C106_impulse_refuted`, `C106_5p_refuted`, `C107_sum_rule`, `C107_unique`, `C54_outer_shells_dropped`, `C139_mean_spherical`, `C139_factorised`, `C139_positive`, `C139_perfect_screening`, `C139_short_waves`, `C139_long_waves`, `C139_negative_refuted`, `C139_diameter`, `C139_weak_coupling_refuted`, `C126_order`, `C126_classical`, `C126_degenerate`, `C126_virial`, `C126_cold`, `C126_debye`, `C126_ceiling_refuted`, `C125_phi_large`, `C125_phi_small`, `C125_coefficients_classical`, `C125_coefficients_degenerate`, `C125_bohm_gross`, `C125_screening`, `C125_screening_ipd`, `C125_pole_refuted`, `C125_thermal_refuted`, `C125_defined`, `C125_one_pole`, `C125_numerator_classical`, `C125_numerator_degenerate`, `C124_exact`, `C125_screening_exact`, `C122_nondegenerate`, `C122_nondegenerate_32_partial`, `C122_positive`, `C122_order_32_refuted`, `C123_step`, `C123_step_32_refuted`, `C123_increasing`, `C123_degenerate`, `C124_roundtrip`, `C124_order`, `C124_antia_refuted`, `C122_below_step`, `C122_order_32_repaired`, `C56_hydrogenic_transform`, `C56_density`, `C56_small_k`, `C34_fit`, `C35_fit`, `C35_no_damping`, `C35_damped`, `C35_salpeter`, `C36_fit`, `C36_no_damping`, `C36_salpeter`, `C36_elastic_refuted`, `C37_local_field`, `C37_fortmann_dielectric`, `C37_no_collisions`, `C37_no_collisions_refuted`, `C38_full`, `C38_resampled`, `C39_cutoff`, `C39_adapts_refuted`, `C98_real_energy`, `C98_spectrum`, `C98_default_refuted`, `C99_detailed_balance`, `C99_interpolated_frequency`, `C101_fit_is_finite`, `C101_refuted`, `C101_no_free_electrons`, `C96_bessel`, `C96_weights`, `C133_iteration_converges`, `C133_solver`, `C133_several_temperatures`, `C50_debye_partial`, `C50_ion_sphere_partial`, `C50_mixture_refuted`, `C50_zero_charge_refuted`, `C51_partial`, `C51_closed_form`, `C51_mixture_refuted`, `C82_partial`, `C82_two_temperatures_refuted`, `C83_partial`, `C83_ecker_kroell_refuted`, `C83_pauli_refuted`, `C84_consistent`, `C85_integral`, `C85_bound`, `C86_debye_partial`, `C86_population_refuted`, `C130_moments`, `C130_thermometer`, `C130_thermometer_exact`, `C130_minimum`, `C25_gaussian`, `C25_gaussian_variance_parameter`, `C25_construction`, `C25_twin_gaussian`, `C25_lorentzian`, `C25_supergaussian_partial`, `C25_refuted`, `C25_supergaussian_width_exactly_for_power_one`, `C25_tabulated`, `C42_symmetric`, `C42_one_species`, `C42_average`, `C43_order_independent`, `C77_criterion`, `C77_one_charge_partial`, `C77_refuted`, `C78_splitting_partial`, `C79_one_temperature_partial`, `C79_refuted`, `C43_channel`, `C52_ratio_partial`, `C52_ratio_refuted`, `C52_monotone_partial`, `C52_monotone_refuted`, `C87_solution`, `C87_ordered_partial`, `C87_unique_partial`, `C88_saha`, `C88_coefficient_ordered`, `C88_terms_ordered`, `C88_mean_charge_partial`, `C89_bounds`, `C89_loop`, `C89_one_species`, `C90_partition`, `C90_saha_limit_refuted`, `C90_gap_refuted`, `C91_solver_sums`, `C91_densities`, `C91_fractions_refuted`, `C89_electron_density_grows`, `C89_cold_bound`, `C89_hot_limit`, `C91_ideal_chemical_potential`, `C91_saha_ratios_partial`, `C91_last_iteration`, `C83_sum`, `C89_converged`, `C131_last_iteration`, `C131_densities`, `C131_classical`, `C131_balance_partial`, `C131_single_species`, `C59_hubbard`, `C59_interpolations`, `C59_geldart_vosko`, `C59_geldart_vosko_increasing`, `C108_utsumi_ichimaru`, `C108_farid`, `C108_twice_kF_refuted`, `C108_dense_limit_refuted`, `C108_derivatives_of_one_energy`, `C108_contact_value`, `C108_farid_moments`, `C108_pole_refuted`, `C109_contact_bounds`, `C109_ideal_refuted`, `C109_screening_enhances`, `C110_activation`, `C110_short_waves`, `C110_long_waves_partial`, `C110_long_waves_refuted`, `C110_between`, `C110_units`, `C109_same_temperature`, `C109_binding`, `C110_hot_contact`, `C37_static`, `C37_static_fortmann`, `C37_no_collisions_full`, `C37_full_is_interp`, `C37_elastic_default_refuted`, `C87_unique_refuted`, `C87_ordered`, `C87_unique`, `C88_mean_charge`, `C88_neutral_density`, `C88_mean_charge_refuted`, `C134_quadrature`, `C134_substitution`, `C134_truncation`, `C134_series`, `C142_depressions`, `C142_potentials`, `C142_bound_free`, `C142_screening`, `C129_linearised`, `C129_ions`, `C129_electrons`, `C129_electron_ion`, `C127_positive`, `C127_averaged_inverts`, `C127_separated_raw`, `C127_separated_inverts`, `C127_repair_averaged`, `C127_repair_separated`, `C127_unlike_refuted`, `C127_unlike`, `C127_units_refuted`, `C127_exchange_hole`, `C127_same_exchange`, `C127_density_refuted`, `C127_full_k`, `C31_monotone`, `C65_scales_are_consistent`, `C65_denser_is_more_degenerate`, `C65_duplicated_formulas_agree`, `C66_interpolated_temperature_bounds`, `C66_classical_map_temperature`, `C48_parts`, `C48_short`, `C48_long`, `C48_soft_core`, `C47_partial`, `C47_parts_exist`, `C47_yukawa_refuted`, `C47_soft_core_refuted`, `C48_coulomb`, `C48_long_coulomb`, `C48_debye`, `C48_long_debye`, `C48_long_yukawa`, `C48_empty_core`, `C48_long_empty_core`, `C48_deutsch_refuted`, `C80_symmetric`, `C81_weaker`, `C81_cores`, `C81_sign`, `C81_klimontovich_kraeft_sign_refuted`, `C113_rewritten`, `C113_static`, `C113_static_refuted`, `C114_absorbs`, `C114_small_damping`, `C114_states`, `C115_absorbs`, `C115_symmetric`, `C115_defined`, `C115_cold_limit`, `C115_static`, `C115_high_energy`, `C115_sum_rule`, `C116_ziman`, `C117_sum_rule`, `C141_scales`, `C141_free_free`, `C141_dielectric`, `C141_setup`, `C141_bound_free`, `C141_ipd`, `C141_static_sf`, `C141_lfc`, `C141_potentials`, `C141_collision`, `C141_mermin`, `C121_exact`, `C121_dispersion_refuted`, `C103_exact`, `C58_linear_response_partial`, `C58_linear_response_sign`, `C58_finite_wavelength`, `C58_finite_coulomb`, `C58_neutral`, `C58_gregori2004`, `C58_hard_spheres`, `C58_hard_spheres_refuted`, `C58_linear_response_refuted`, `C111_lengths`, `C111_long_waves`, `C112_hard_spheres`, `C112_hard_spheres_refuted`, `C22_redistribution_factor`, `C140_nonneg`, `C140_descending`, `C140_sign_refuted`, `C140_free_free`, `C140_elastic`, `C143_depressions_partial`, `C143_preston_refuted`, `C143_ecker_kroell_refuted`, `C143_potentials`, `C143_bound_free`, `C132_degeneracy`, `C132_coupling`, `C40_equal_temperatures`, `C40_determinant`, `C40_cold_ions_refuted`, `C41_quantum_temperatures`, `C41_Bohm_Staver`, `C74_probability`, `C74_monotone`, `C75_linear_response`, `C75_Glenzer_bounded`, `C76_consistent`, `C40_two_temperatures`, `C76_direct_correlation`, `C25_supergaussian_window`, `C25_supergaussian_area`, `C25_supergaussian_area_unbounded`, `C25_supergaussian_true_width`, `C25_twin_construction`, `C25_super_construction`, `C25_from_file`, `C110_midpoint`, `C47_spins`, `C47_spin_range`, `C86_equation`, `C110_arguments`, `C116_symmetric`, `C127_electrons_only`
* **SFD, SND, FE**: `C26_linear`, `C26_nonnegative`, `C26_order_independent`, `C26_zeroth_moment_of_a_constant`, `C68_symmetric_in_tau`, `C68_deconvolution`, `C128_one_potential`, `C128_three_potential`, `C128_average_atom`, `C128_no_grid`, `C128_any_angle`, `C128_nonnegative`, `C128_alike`, `C128_outside`, `C128_inputs`, `C54_closed_forms`, `C54_momentum`, `C60_half_at_the_edge`, `C61_mirrored`, `C61_involution`, `C61_balance_partial`, `C61_balance_refuted`, `C106_profiles_positive`, `C139_truncation`, `C118_sine_transform`, `C118_self_inverse`, `C119_transform`, `C119_inverse`, `C120_forward`, `C120_inverse`, `C120_numpy`, `C104_lowered`, `C104_charge`, `C104_single_species_partial`, `C104_refuted`, `C34_routes_agree`, `C36_recoil_refuted`, `C37_formulae_coincide`, `C38_interpolated`, `C100_odd`, `C100_linear`, `C102_clipped_refuted`, `C103_non_degenerate`, `C44_dst4_is_the_sine_transform`, `C44_dst4_involution`, `C44_parseval`, `C97_odd_length_refuted`, `C44_forward_then_backward`, `C44_backward_then_forward`, `C45_transform_points`, `C45_k_labels_refuted`, `C45_no_grid_is_right_refuted`, `C45_k_grid_partial`, `C46_step`, `C46_fixed_point`, `C46_result`, `C46_terminates`, `C46_ideal_gas`, `C93_structure_factor_at_a_fixed_point`, `C93_one_component`, `C93_structure_factor`, `C94_result`, `C94_iteration_count_refuted`, `C95_geometric`, `C96_dpsi_is_the_derivative`, `C28_bisection`, `C130_deconvolution`, `C43_nonnegative`, `C43_uncorrelated`, `C43_relabelling`, `C52_distribution`, `C52_masked`, `C52_clip_equal`, `C88_upward`, `C108_momentum_moments`, `C108_momentum_moments_refuted`, `C110_parameters_defined`, `C110_contact_dense`, `C110_contact_negative_refuted`, `C104_unbound`, `C134_unit_of_length`, `C134_linear`, `C142_hnc`, `C142_hnc_temperatures`, `C127_grid`, `C31_occupation_is_a_probability`, `C31_particle_hole_symmetry`, `C32_compton_shift`, `C32_compton_formula`, `C33_epsilon_chi_inverse`, `C33_zero_local_field`, `C67_debye_length`, `C67_species_order`, `C67_more_charges_screen_better`, `C67_debye_length_and_plasma_frequency`, `C141_edges`, `C141_hnc`, `C141_hnc_temperatures`, `C111_inverse`, `C22_energy_resolved_k`, `C22_elastic_k`, `C22_even_in_angle`, `C22_grows_with_angle`, `C22_correction_off`, `C22_plasma_dispersion`, `C22_refraction_shortens_k`, `C23_aligned_partial`, `C23_narrow_instrument_partial`, `C23_peak_does_not_move_partial`, `C23_refuted`, `C24_probe_setup`, `C24_own_k`, `C144_hnc_steps`, `C144_hnc_temperatures`, `C144_hnc_run`, `C144_total_structure_factor`, `C132_wavelength_refuted`, `C132_wavelength_entry`, `C76_contact`, `C110_parameters`, `C26_default_window`, `C39_lower_cutoff`
* **none (closed under the global context)**: `C138_function`, `C138_bound_arguments`, `C138_warning`, `C138_flag_refuted`, `C138_instance_refuted`, `C135_cite_lines`, `C135_cite_keys`, `C135_keys_exist`, `C135_no_error`, `C135_bibtex`, `C135_plain`, `C135_composite_refuted`, `C18_number_to_symbol_and_back`, `C18_symbol_to_number_and_back`, `C18_exactly_36_elements`, `C18_fractions_are_truncated`, `C21_configurations`, `C21_energies_and_weights`, `C69_partial`, `C69_refuted`, `C69_misplaced_entries`, `C70_statistical_weights`, `C71_partial`, `C71_refuted`, `C27_inverse_exactly_when_values_unique`, `C27_twice_is_the_original`, `C136_search`, `C136_marked_levels`, `C20_named_orbitals`, `C20_orbital_places`, `C20_electron_distribution`, `C49_left_sum_grows_refuted`, `C10_every_class`, `C11_partial`, `C11_refuted`, `C12_same_class_partial`, `C12_refuted`, `C01_rejected_leaves_state_untouched`, `C01_declared_key_accepted`, `C01_every_attached_model_declares_its_key`, `C01_model_key_partial`, `C01_model_key_refuted`, `C02_everything_read_is_attached`, `C02_no_key_ever_removed`, `C03_other_keys_kept_partial`, `C03_refuted`, `C04_partial`, `C04_refuted`, `C62_get_all_models`, `C62_get_all_models_list_partial`, `C62_refuted`, `C63_capabilities_partial`, `C63_refuted`, `C64_cutoff_at_attachment_partial`, `C64_refuted`, `C137_empty`
