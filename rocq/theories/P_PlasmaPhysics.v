(** Properties C31-C33 and C65-C67: basic plasma physics formulas. *)
From Coq Require Import Reals List Lra Permutation.
From Coquelicot Require Import Complex.
From Verif Require Import M_Const M_PlasmaState M_PlasmaPhysics L_PlasmaPhysics M_Setup L_Setup.
Import ListNotations.
Open Scope R_scope.

(** ** C31 *)
Theorem C31_occupation_is_a_probability : forall u k mu T,
  0 < T ->
  0 < fermi_dirac u k mu T < 1 /\
  (hbar u ^ 2 * k ^ 2 / (2 * m_e u) = mu -> fermi_dirac u k mu T = 1 / 2).
Proof. intros u k mu T HT. split; [apply fd_range|]. intros H. now apply fd_half. Qed.
Print Assumptions C31_occupation_is_a_probability.

Theorem C31_monotone : forall u T, 0 < T ->
  (forall k1 k2 mu, 0 <= k1 < k2 -> fermi_dirac u k2 mu T < fermi_dirac u k1 mu T) /\
  (forall k mu1 mu2, mu1 < mu2 -> fermi_dirac u k mu1 T < fermi_dirac u k mu2 T).
Proof. intros u T HT. split; intros; [now apply fd_decr|now apply fd_incr_mu]. Qed.
Print Assumptions C31_monotone.

Theorem C31_particle_hole_symmetry : forall u k1 k2 mu T, 0 < T ->
  hbar u ^ 2 * k1 ^ 2 / (2 * m_e u) - mu = mu - hbar u ^ 2 * k2 ^ 2 / (2 * m_e u) ->
  fermi_dirac u k1 mu T = 1 - fermi_dirac u k2 mu T.
Proof. intros u k1 k2 mu T HT H. pose proof (fd_sym u k1 k2 mu T HT H). lra. Qed.
Print Assumptions C31_particle_hole_symmetry.

Example C31_ex : fermi_dirac unit_consts 2 2 3 = 1 / 2 /\ fermi_dirac unit_consts 2 (1/2) 3 < 1 / 2 /\
  fermi_dirac unit_consts 2 1 3 = 1 - fermi_dirac unit_consts 0 1 3.
Proof.
  assert (H : fermi_dirac unit_consts 2 2 3 = 1 / 2).
  { apply C31_occupation_is_a_probability; [lra|cbn; lra]. }
  split; [exact H|]. split; [rewrite <- H; apply C31_monotone; lra|].
  apply C31_particle_hole_symmetry; [lra|cbn; lra].
Qed.

(** ** C32 *)
Theorem C32_compton_shift : forall u E, 0 < E ->
  (forall th, 0 <= compton_energy u E th < E) /\ compton_energy u E 0 = 0 /\
  (forall a b, 0 <= a -> a < b -> b <= PI -> compton_energy u E a < compton_energy u E b).
Proof.
  intros u E HE. split; [intros; now apply compton_range|]. split.
  - unfold compton_energy. rewrite cos_0. replace (1 - 1) with 0 by ring. rewrite Rmult_0_r, Rplus_0_r. field.
  - intros. now apply compton_mono.
Qed.
Print Assumptions C32_compton_shift.
(** The outgoing photon satisfies Compton's formula. *)
Theorem C32_compton_formula : forall u E th, 0 < E ->
  1 / (E - compton_energy u E th) - 1 / E = (1 - cos th) / (m_e u * c_light u ^ 2).
Proof. intros. now apply compton_formula. Qed.
Print Assumptions C32_compton_formula.
Example C32_ex : compton_energy unit_consts 2 PI = 8 / 5 /\ compton_energy unit_consts 2 (PI / 2) = 4 / 3.
Proof.
  unfold compton_energy. cbn [m_e c_light unit_consts]. rewrite cos_PI, cos_PI2. split; field.
Qed.

(** ** C33 *)
Theorem C33_epsilon_chi_inverse : forall u k, k <> 0 ->
  (forall eps, eps <> RtoC 0 ->
     epsilon_from_susceptibility u (susceptibility_from_epsilon u eps k) k = eps) /\
  (forall xi, (RtoC 1 + RtoC (e_ch u ^ 2 / (eps0 u * k ^ 2)) * xi)%C <> RtoC 0 ->
     susceptibility_from_epsilon u (epsilon_from_susceptibility u xi k) k = xi).
Proof.
  intros u k Hk. split; [intros; now apply eps_chi|]. intros xi Hx. apply chi_eps; [assumption|].
  replace (Vee u k) with (RtoC (e_ch u ^ 2 / (eps0 u * k ^ 2))); [assumption|].
  unfold Vee, coulomb_k. f_equal. pose proof (eps0_pos u). field. split; lra.
Qed.
Print Assumptions C33_epsilon_chi_inverse.
Theorem C33_zero_local_field : forall u k eps, k <> 0 -> eps <> RtoC 0 ->
  let chi := xi_lfc_corrected (xi0_from_eps_RPA u eps k) (Vee u k) (RtoC 0) in
  epsilon_from_susceptibility u chi k = eps /\ chi = susceptibility_from_epsilon u eps k.
Proof. intros u k eps Hk He chi. split; [now apply eps_rpa|now apply chi_rpa]. Qed.
Print Assumptions C33_zero_local_field.
Example C33_ex : let eps := (2, 1) : C in eps <> RtoC 0 /\
  epsilon_from_susceptibility unit_consts (susceptibility_from_epsilon unit_consts eps 3) 3 = eps.
Proof.
  cbn zeta. assert (H : ((2, 1) : C) <> RtoC 0) by (intros E; injection E; lra).
  split; [exact H|]. apply C33_epsilon_chi_inverse; [lra|exact H].
Qed.

(** ** C65 Characteristic scales *)
Theorem C65_scales_are_consistent : forall u n, 0 < n ->
  fermi_energy u n = hbar u ^ 2 * fermi_wavenumber n ^ 2 / (2 * m_e u) /\
  fermi_wavenumber n ^ 3 = 3 * PI ^ 2 * n /\
  4 / 3 * PI * wiegner_seitz_radius n ^ 3 * n = 1 /\
  fermi_wavenumber n * wiegner_seitz_radius n = Rpower (9 * PI / 4) (1 / 3) /\
  kB u * fermi_temperature u n = fermi_energy u n /\
  plasma_frequency u n ^ 2 = n * e_ch u ^ 2 / (eps0 u * m_e u).
Proof.
  intros u n Hn. pose proof PI_RGT_0. pose proof (kB_pos u). pose proof (e_pos u). pose proof (eps0_pos u). pose proof (m_e_pos u).
  split; [rewrite fermi_energy_kin; reflexivity|]. split.
  - apply Rpower_third_cube. assert (0 < PI ^ 2) by (apply pow_lt; lra). nra.
  - split; [now apply sphere_volume|]. split; [now apply kF_rs|]. split.
    + unfold fermi_temperature. field. lra.
    + unfold plasma_frequency. rewrite pow2_sqrt.
      * field. split; lra.
      * left. apply Rdiv_lt_0_compat; apply Rmult_lt_0_compat; try lra. apply pow_lt; lra.
Qed.
Print Assumptions C65_scales_are_consistent.
Theorem C65_denser_is_more_degenerate : forall u n1 n2, 0 < n1 < n2 ->
  fermi_energy u n1 < fermi_energy u n2 /\
  (forall T, 0 < T -> degeneracy_param u n1 T < degeneracy_param u n2 T) /\
  wiegner_seitz_radius n2 < wiegner_seitz_radius n1.
Proof.
  intros u n1 n2 H. split; [now apply fermi_energy_mono|]. split.
  - intros T HT. unfold degeneracy_param. apply Rmult_lt_compat_r; [|lra]. apply pow_lt.
    unfold therm_de_broglie_wl. pose proof PI_RGT_0. cpos u. apply Rmult_lt_0_compat; [lra|]. apply sqrt_lt_R0. pos.
  - apply ws_decr. assumption.
Qed.
Print Assumptions C65_denser_is_more_degenerate.
(** The two ways to compute k and the two coupling parameters agree. *)
Theorem C65_duplicated_formulas_agree : forall u,
  (forall s, energy s <> 0 -> k u s = thomson_momentum_transfer u (energy s) (angle s)) /\
  (forall n T, coupling_param u 1 1 n T = ee_coupling u n T).
Proof. intros u. split; [intros; now apply k_thomson|intros; apply coupling_ee]. Qed.
Print Assumptions C65_duplicated_formulas_agree.
Example C65_ex : fermi_energy unit_consts (1 / (3 * PI ^ 2)) = 1 / 2 /\ 0 < 1 / (3 * PI ^ 2).
Proof.
  assert (H : 0 < 3 * PI ^ 2) by (pose proof PI_RGT_0; assert (0 < PI ^ 2) by (apply pow_lt; lra); lra).
  split; [|apply Rdiv_lt_0_compat; lra]. unfold fermi_energy. cbn [hbar m_e unit_consts].
  replace (3 * PI ^ 2 * (1 / (3 * PI ^ 2))) with 1.
  - unfold Rpower. rewrite ln_1, Rmult_0_r, exp_0. field.
  - field. apply Rgt_not_eq. exact PI_RGT_0.
Qed.

(** ** C66 Effective temperatures *)
Theorem C66_interpolated_temperature_bounds : forall u n T p, 0 < T -> 0 < p ->
  let t := temperature_interpolation u n T p in
  Rmax T (fermi_temperature u n) < t <= Rpower 2 (1 / p) * Rmax T (fermi_temperature u n).
Proof. intros u n T p HT Hp t. apply interp_bounds; auto. apply fermi_temperature_pos. Qed.
Print Assumptions C66_interpolated_temperature_bounds.
Theorem C66_classical_map_temperature : forall u n T t, 0 < T -> Teff_e u n T = Some t -> T <= t.
Proof. intros u n T t HT. now apply Teff_ge. Qed.
Print Assumptions C66_classical_map_temperature.
Example C66_ex : exists t, temperature_interpolation unit_consts (1 / (3 * PI ^ 2)) (1 / 2) 1 = t /\ t = 1.
Proof.
  eexists; split; [reflexivity|]. unfold temperature_interpolation, fermi_temperature.
  rewrite (proj1 C65_ex). cbn [kB unit_consts]. rewrite Rpower_1 by lra. rewrite Rpower_1 by lra.
  replace (1 / 2 + 1 / 2 / 1) with 1 by field. replace (1 / 1) with 1 by field. apply Rpower_1. lra.
Qed.

(** ** C67 Debye length *)
Theorem C67_debye_length : forall u n Z T, 0 < T -> length n = length Z -> (forall x, In x n -> 0 < x) ->
  (exists z, In z Z /\ z <> 0) ->
  exists l, debye_length u n Z T = Some l /\ 0 < l /\
    1 / l ^ 2 = sum (map (fun p => fst p * (snd p * e_ch u) ^ 2 / (eps0 u * kB u * T)) (combine n Z)).
Proof. exact debye_inverse_squares. Qed.
Print Assumptions C67_debye_length.
(** Neutral plasmas have no Debye length; the order of the species is
    immaterial. *)
Theorem C67_species_order : forall u n Z n' Z' T, length n = length Z -> length n' = length Z' ->
  Permutation (combine n Z) (combine n' Z') -> debye_length u n Z T = debye_length u n' Z' T.
Proof. exact debye_perm. Qed.
Print Assumptions C67_species_order.
Theorem C67_more_charges_screen_better : forall u n Z T a z l l', 0 < T -> length n = length Z -> (forall x, In x n -> 0 < x) ->
  0 < a -> z <> 0 -> debye_length u n Z T = Some l -> debye_length u (a :: n) (z :: Z) T = Some l' -> 0 < l' < l.
Proof. exact debye_shorter. Qed.
Print Assumptions C67_more_charges_screen_better.
Theorem C67_debye_length_and_plasma_frequency : forall u n T l, 0 < T -> 0 < n -> debye_length u [n] [1] T = Some l ->
  l ^ 2 * plasma_frequency u n ^ 2 = kB u * T / m_e u.
Proof. exact debye_plasma_frequency. Qed.
Print Assumptions C67_debye_length_and_plasma_frequency.
Example C67_ex : debye_length unit_consts [1; 1] [2; 0] 16 = Some 2.
Proof.
  unfold debye_length, qdiv. cbn [map2 sum fold_right e_ch eps0 kB unit_consts].
  destruct (Req_EM_T _ 0) as [H|_]; [cbn in H; lra|]. rewrite sqrto_some; [|cbn; lra].
  f_equal. replace (_ / _) with (2 ^ 2) by (cbn; field). rewrite sqrt_pow2; lra.
Qed.
