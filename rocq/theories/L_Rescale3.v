(** Changing the system of units: the fits of the free-free spectrum, the setup, and the
    bound-free spectrum. *)
From Coq Require Import Reals List Lra Lia FunctionalExtensionality.
From Coquelicot Require Import Complex.
From Verif Require Import M_Const M_PlasmaState M_PlasmaPhysics M_FreeFree M_Setup M_BoundFree L_Rescale L_Rescale2.
Import ListNotations.
Open Scope R_scope.

Section R.
  Variables (w : usys) (u : consts).
  Local Notation u' := (conv w u).
  Local Notation vol := (uE w * uL w ^ 3).
  Variable quad : R -> option R -> (R -> option R) -> option R.
  Variables F_m12 F_32 F_52 inv_F12 : R -> R.

  Lemma xi0_Dandrea_sc k E T n : 0 < k -> 0 < n ->
    xi0_Dandrea u' F_m12 F_32 F_52 inv_F12 (k / uL w) (E * uE w) (T * uK w) (n / uL w ^ 3) =
    option_map (fun z => Cmult z (RtoC (/ vol))) (xi0_Dandrea u F_m12 F_32 F_52 inv_F12 k E T n).
  Proof.
    intros Hk Hn. upos w. kpos u. unfold xi0_Dandrea. cbv zeta. rewrite (fermi_energy_sc w u n) by exact Hn. rewrite (fermi_wavenumber_sc w u n) by exact Hn. rewrite (wsr_sc w u n) by exact Hn. rewrite coulomb_k_sc by lra.
    pose proof (fermi_energy_pos' u n). assert (0 < fermi_wavenumber n) by (unfold fermi_wavenumber; apply exp_pos).
    replace (T * uK w * kB u' / (fermi_energy u n * uE w)) with (T * kB u / fermi_energy u n) by (cbn [conv kB]; field; repeat split; lra).
    replace (wiegner_seitz_radius n * uL w / a_0 u') with (wiegner_seitz_radius n / a_0 u) by (cbn [conv a_0]; field; repeat split; lra).
    replace (k / uL w / (2 * (fermi_wavenumber n / uL w))) with (k / (2 * fermi_wavenumber n)) by (field; repeat split; lra).
    replace (E * uE w / (4 * (fermi_energy u n * uE w))) with (E / (4 * fermi_energy u n)) by (field; repeat split; lra).
    rewrite option_map_obind. apply obind_ext. intros re. cbn [option_map]. f_equal.
    assert (coulomb_k u (-1) (-1) k <> 0). { unfold coulomb_k. assert (0 < k ^ 2) by (apply pow_lt; lra). assert (0 < e_ch u ^ 2) by now apply pow_lt. apply Rgt_not_eq. apply Rdiv_lt_0_compat; [|assumption].
      apply Rmult_lt_0_compat; [apply Rdiv_lt_0_compat; lra|lra]. }
    set (V := coulomb_k u (-1) (-1) k) in *. set (im := imag_Dandrea _ _ _ _ _ _). apply injective_projections; cbn; field; repeat split; lra.
  Qed.
  Lemma S0_Dandrea_sc k T n E lfc : 0 < k -> T <> 0 -> 0 < n ->
    S0_ee_RPA_Dandrea u' F_m12 F_32 F_52 inv_F12 (k / uL w) (T * uK w) (n / uL w ^ 3) (E * uE w) lfc = option_map (fun x => x * uT w) (S0_ee_RPA_Dandrea u F_m12 F_32 F_52 inv_F12 k T n E lfc).
  Proof.
    intros Hk HT Hn. pose proof (vol_pos w) as Hv. cbv zeta in Hv. unfold S0_ee_RPA_Dandrea. cbv zeta. replace (- (E * uE w)) with (- E * uE w) by ring.
    rewrite xi0_Dandrea_sc by assumption. rewrite obind_map, option_map_obind. apply obind_ext. intros x. rewrite v_k_sc by lra.
    rewrite xi_lfc_sc by lra. rewrite obind_map, option_map_obind. apply obind_ext. intros xi. apply FDT_sc; lra.
  Qed.
  Lemma salpeter_sc k E T n : 0 < k -> 0 < T ->
    dielectric_function_salpeter u' quad (k / uL w) (T * uK w) (n / uL w ^ 3) (E * uE w) = dielectric_function_salpeter u quad k T n E.
  Proof.
    intros Hk HT. upos w. kpos u. unfold dielectric_function_salpeter. cbv zeta. rewrite kT_sc. assert (0 < uL w / uT w) by (apply Rdiv_lt_0_compat; lra).
    replace (kB u * T * uE w / m_e u') with (kB u * T / m_e u * (uL w / uT w) ^ 2) by (cbn [conv m_e]; unfold uE; field; repeat split; lra).
    rewrite sqrt_sc by lra. assert (0 < sqrt (kB u * T / m_e u)). { apply sqrt_lt_R0. apply Rdiv_lt_0_compat; [apply Rmult_lt_0_compat; lra|lra]. }
    assert (0 < sqrt 2) by (apply sqrt_lt_R0; lra). set (v := sqrt (kB u * T / m_e u)) in *. set (r2 := sqrt 2) in *.
    replace (E * uE w / hbar u' / (r2 * (k / uL w) * (v * (uL w / uT w)))) with (E / hbar u / (r2 * k * v)) by (cbn [conv hbar]; field; repeat split; lra).
    replace (hbar u' * (k / uL w) / (2 * r2 * m_e u' * (v * (uL w / uT w)))) with (hbar u * k / (2 * r2 * m_e u * v)) by (cbn [conv hbar m_e]; unfold uE; field; repeat split; lra).
    set (x := E / hbar u / _). set (kp := hbar u * k / _).
    replace (n / uL w ^ 3 * e_ch u' ^ 2 / (m_e u' * eps0 u') / ((k / uL w) ^ 2 * (v * (uL w / uT w)) ^ 2)) with (n * e_ch u ^ 2 / (m_e u * eps0 u) / (k ^ 2 * v ^ 2))
      by (cbn [conv e_ch eps0 m_e]; unfold uE; field; repeat split; lra). reflexivity.
  Qed.
  Lemma S0_Salpeter_sc k T n E lfc : 0 < k -> 0 < T -> n <> 0 ->
    S0_ee_Salpeter u' quad (k / uL w) (T * uK w) (n / uL w ^ 3) (E * uE w) lfc = option_map (fun x => x * uT w) (S0_ee_Salpeter u quad k T n E lfc).
  Proof.
    intros Hk HT Hn. pose proof (vol_pos w) as Hv. unfold S0_ee_Salpeter. cbv zeta. replace (- (E * uE w)) with (- E * uE w) by ring.
    rewrite salpeter_sc by assumption. rewrite option_map_obind. apply obind_ext. intros e. rewrite xi0_eps_sc, v_k_sc by lra.
    rewrite xi_lfc_sc by lra. rewrite obind_map, option_map_obind. apply obind_ext. intros xi. apply FDT_sc; lra.
  Qed.

  (** ** Setup *)
  (** the same experiment in the new units *)
  Definition sconv (s : setup) : setup :=
    mkSetup (angle s) (energy s * uE w) (n_chan s) (fun i => measured s i * uE w) (fun x => instrument s (x * uT w) * uT w) (correct_k_dispersion s) (frc_exponent s).
  Lemma k_sc s : energy s <> 0 -> M_Setup.k u' (sconv s) = M_Setup.k u s / uL w.
  Proof. intros H. upos w. kpos u. unfold M_Setup.k, lambda0, planck. cbn [sconv angle energy conv hbar c_light]. field. repeat split; lra. Qed.
  Lemma kE_sc E : E * uE w / hbar u' / c_light u' = E / hbar u / c_light u * / uL w.
  Proof. upos w. kpos u. cbn [conv hbar c_light]. field. repeat split; lra. Qed.
  Lemma full_k_sc s i : energy s <> 0 -> full_k u' (sconv s) i = option_map (fun x => x / uL w) (full_k u s i).
  Proof.
    intros H. upos w. unfold full_k. cbn [sconv correct_k_dispersion angle energy measured]. destruct (correct_k_dispersion s).
    - cbv zeta. rewrite !kE_sc. change (fun x => x / uL w) with (fun x => x * / uL w). rewrite <- sqrto_sc by now apply Rinv_0_lt_compat. f_equal. kpos u. field. repeat split; lra.
    - cbn [option_map]. f_equal. now apply k_sc.
  Qed.
  Lemma om_sc E : E * uE w / hbar u' = E / hbar u / uT w.
  Proof. upos w. kpos u. cbn [conv hbar]. field. repeat split; lra. Qed.
  Lemma rat_sc n x : x <> 0 -> (plasma_frequency u n / uT w) ^ 2 / (x / uT w) ^ 2 = plasma_frequency u n ^ 2 / x ^ 2.
  Proof. intros H. upos w. field. repeat split; lra. Qed.
  Lemma dck_sc s n i : energy s <> 0 -> measured s i <> 0 ->
    dispersion_corrected_k u' (sconv s) (n / uL w ^ 3) i = option_map (fun x => x / uL w) (dispersion_corrected_k u s n i).
  Proof.
    intros H H'. upos w. kpos u. unfold dispersion_corrected_k. cbn [sconv correct_k_dispersion angle energy measured]. destruct (correct_k_dispersion s).
    - cbv zeta. rewrite plasma_frequency_sc, !om_sc. rewrite !rat_sc by (unfold Rdiv; apply Rmult_integral_contrapositive_currified; [assumption|apply Rinv_neq_0_compat; lra]).
      destruct (sqrto _) as [a|]; [|reflexivity]. destruct (sqrto _) as [b|]; [|reflexivity].
      change (fun x => x / uL w) with (fun x => x * / uL w). rewrite <- sqrto_sc by now apply Rinv_0_lt_compat. f_equal. cbn [conv c_light]. field. repeat split; lra.
    - cbn [option_map]. f_equal. now apply k_sc.
  Qed.
  Lemma nsum_sc n f g c : (forall i, f i = g i * c) -> nsum n f = nsum n g * c.
  Proof. intros H. induction n; cbn; [ring|]. rewrite IHn, H. ring. Qed.
  Lemma nmin_sc n f g c : 0 < c -> (forall i, f i = g i * c) -> nmin n f = nmin n g * c.
  Proof. intros Hc H. induction n; cbn [nmin]; [apply H|]. rewrite IHn, H. now apply Rmin_sc. Qed.
  Lemma grid_sc s m : (0 < n_chan s)%nat -> conv_grid u' (sconv s) m = conv_grid u s m / uT w.
  Proof.
    intros Hn. upos w. kpos u. unfold conv_grid. cbn [sconv n_chan measured]. rewrite (nsum_sc _ _ (measured s) (uE w)) by reflexivity. set (N := INR (n_chan s)).
    assert (0 < N) by (now apply lt_0_INR).
    set (mu := nsum (n_chan s) (measured s)). assert (G : forall i, (measured s i * uE w - mu * uE w / N) / hbar u' = (measured s i - mu / N) / hbar u * / uT w)
      by (intros i; cbn [conv hbar]; field; repeat split; lra).
    rewrite G. rewrite (nmin_sc _ _ (fun i => Rabs ((measured s i - mu / N) / hbar u)) (/ uT w)).
    - unfold Rdiv. ring.
    - now apply Rinv_0_lt_compat.
    - intros i. rewrite G, Rabs_mult, (Rabs_right (/ uT w)); [reflexivity|]. left. now apply Rinv_0_lt_compat.
  Qed.
  Lemma convolve_sc s S i : (0 < n_chan s)%nat -> convolve u' (sconv s) (fun j => S j * uT w) i = convolve u s S i * uT w.
  Proof.
    intros Hn. upos w. kpos u. unfold convolve, conv_same, conv_full. cbn [sconv n_chan measured].
    rewrite (nsum_sc _ _ (fun j => if (Nat.leb j (i + (n_chan s - 1) / 2) && Nat.ltb (i + (n_chan s - 1) / 2 - j) (n_chan s))%bool
       then S j * instrument s (conv_grid u s (i + (n_chan s - 1) / 2 - j)) else 0) (uT w ^ 2)).
    - cbn [conv hbar]. field. repeat split; lra.
    - intros j. cbn [instrument sconv]. rewrite grid_sc by exact Hn. destruct (_ && _)%bool; [|ring].
      replace (conv_grid u s (i + (n_chan s - 1) / 2 - j) / uT w * uT w) with (conv_grid u s (i + (n_chan s - 1) / 2 - j)) by (field; lra). ring.
  Qed.

  (** ** Bound-free *)
  Lemma alpha_sc : alpha u' = alpha u.
  Proof. upos w. kpos u. unfold alpha. cbn [conv e_ch eps0 hbar c_light]. field. repeat split; lra. Qed.
  Lemma xi_sc n Z om k : xi u' n Z (om / uT w) (k / uL w) = xi u n Z om k.
  Proof.
    upos w. kpos u. unfold xi. cbv zeta. rewrite alpha_sc.
    replace (om / uT w - hbar u' * (k / uL w) ^ 2 / (2 * m_e u')) with ((om - hbar u * k ^ 2 / (2 * m_e u)) * / uT w) by (cbn [conv hbar m_e]; unfold uE; field; repeat split; lra).
    replace (c_light u' * (k / uL w)) with (c_light u * k * / uT w) by (cbn [conv c_light]; field; repeat split; lra).
    assert (0 < / uT w) by now apply Rinv_0_lt_compat. rewrite qdiv_sc by lra. rewrite obind_map. apply obind_ext. intros q. f_equal. field. lra.
  Qed.
  Lemma Schum_sc n l om k Z : J_Schum75 u' n l (om / uT w) (k / uL w) Z = J_Schum75 u n l om k Z.
  Proof. unfold J_Schum75, y_, pref. rewrite xi_sc, alpha_sc. reflexivity. Qed.
  Lemma all_Schum_sc om k i Z : all_J_Schum75 u' (om / uT w) (k / uL w) i Z = all_J_Schum75 u om k i Z.
  Proof. unfold all_J_Schum75. destruct (nth i orbitals (0, 0)%nat) as [n l]. apply Schum_sc. Qed.
  Lemma all_BM_sc om k i Z : all_J_BM u' (om / uT w) (k / uL w) i Z = all_J_BM u om k i Z.
  Proof. unfold all_J_BM, J10_BM, J20_BM, J21_BM. rewrite !xi_sc, alpha_sc. reflexivity. Qed.
  Lemma all_HR_sc om k i Z : k <> 0 -> all_J_HR u' (om / uT w) (k / uL w) i Z = all_J_HR u om k i Z.
  Proof.
    intros Hk. upos w. kpos u. unfold all_J_HR, J10_HR, J20_HR, J21_HR. rewrite !xi_sc, !Schum_sc, alpha_sc.
    replace (k / uL w * a_0 u') with (k * a_0 u) by (cbn [conv a_0]; field; lra). reflexivity.
  Qed.
  Lemma over_ck x k : qdiv x (c_light u' * (k / uL w)) = option_map (fun y => y * uT w) (qdiv x (c_light u * k)).
  Proof.
    upos w. replace (c_light u' * (k / uL w)) with (c_light u * k * / uT w) by (cbn [conv c_light]; field; repeat split; lra). rewrite <- (Rmult_1_r x) at 1.
    assert (0 < / uT w) by now apply Rinv_0_lt_compat. rewrite qdiv_sc by lra. destruct (qdiv _ _); cbn [option_map]; [|reflexivity]. f_equal. field. lra.
  Qed.
  Lemma J_impulse_sc om k pop i Z : k <> 0 -> J_impulse_approx u' (om / uT w) (k / uL w) pop i Z = option_map (fun y => y * uT w) (J_impulse_approx u om k pop i Z).
  Proof.
    intros Hk. unfold J_impulse_approx. rewrite all_Schum_sc, all_HR_sc by exact Hk. rewrite option_map_obind. apply obind_ext. intros a. rewrite option_map_obind. apply obind_ext. intros b. apply over_ck.
  Qed.
  Lemma J_BM_sc om k pop i Z : k <> 0 -> J_BM_approx u' (om / uT w) (k / uL w) pop i Z = option_map (fun y => y * uT w) (J_BM_approx u om k pop i Z).
  Proof. intros Hk. unfold J_BM_approx. rewrite all_BM_sc. rewrite option_map_obind. apply obind_ext. intros a. apply over_ck. Qed.
  Lemma J_BM_HR_sc om k pop i Z : k <> 0 -> J_BM_HR_approx u' (om / uT w) (k / uL w) pop i Z = option_map (fun y => y * uT w) (J_BM_HR_approx u om k pop i Z).
  Proof.
    intros Hk. unfold J_BM_HR_approx. rewrite all_BM_sc, all_HR_sc by exact Hk. rewrite option_map_obind. apply obind_ext. intros a. rewrite option_map_obind. apply obind_ext. intros b. apply over_ck.
  Qed.

  (** an ion in the new units: binding energies and depression *)
  Definition iconv (s : ion) : ion := mkIon (Z_A s) (Z_free s) (fun c i => binding s c i * uE w) (ipd s * uE w) (ff s).
  Variables edge edge' : R -> R -> R -> R.
  Hypothesis edge_sc : forall E0 E Eb, edge' (E0 * uE w) (E * uE w) (Eb * uE w) = edge E0 E Eb.
  Lemma osum_sc {A} (f g : A -> option R) c l : (forall x, f x = option_map (fun y => y * c) (g x)) -> osum (map f l) = option_map (fun y => y * c) (osum (map g l)).
  Proof.
    intros H. induction l as [|x l IH]; cbn [map osum]; [cbn; f_equal; ring|]. rewrite H, IH. destruct (g x) as [a|]; cbn [option_map obind]; [|reflexivity]. destruct (osum (map g l)); cbn [option_map obind]; [|reflexivity]. f_equal. ring.
  Qed.
  Lemma charge_state_sc s r E0 E k c : k <> 0 ->
    charge_state u' edge' (iconv s) r (E0 * uE w) (E * uE w) (k / uL w) c = charge_state u edge s r E0 E k c * uT w.
  Proof.
    intros Hk. upos w. unfold charge_state. cbv zeta. cbn [iconv Z_A binding ipd]. rewrite !om_sc. replace (E0 / hbar u / uT w - E / hbar u / uT w) with ((E0 / hbar u - E / hbar u) / uT w) by (kpos u; field; repeat split; lra).
    set (om := E0 / hbar u - E / hbar u). change (new_r_k (iconv s) (Z_A s - c) r) with (new_r_k s (Z_A s - c) r).
    assert (X : forall (a b : option R), a = option_map (fun y => y * uT w) b -> match a with Some v => v | None => 0 end = (match b with Some v => v | None => 0 end) * uT w).
    { intros a b ->. destruct b; cbn; ring. }
    apply X. rewrite option_map_obind. apply obind_ext. intros rr. rewrite option_map_obind. apply obind_ext. intros fac.
    rewrite (osum_sc _ (fun i => obind (J_impulse_approx u om k (population (Z_A s - c) i) i (Z_A s - nth i (M_FormFactors.pauling_size_screening_constants (Z_A s - c)) 0))
        (fun J => Some (fac * J * edge E0 E (if Rlt_dec (binding s c i + ipd s) 0 then 0 else binding s c i + ipd s)))) (uT w)).
    - destruct (osum _); cbn; [|reflexivity]. f_equal. ring.
    - intros i. rewrite J_impulse_sc by exact Hk. rewrite obind_map, option_map_obind. apply obind_ext. intros J. cbn [option_map]. f_equal.
      replace (if Rlt_dec (binding s c i * uE w + ipd s * uE w) 0 then 0 else binding s c i * uE w + ipd s * uE w)
        with ((if Rlt_dec (binding s c i + ipd s) 0 then 0 else binding s c i + ipd s) * uE w).
      2: { destruct (Rlt_dec (binding s c i + ipd s) 0), (Rlt_dec (binding s c i * uE w + ipd s * uE w) 0); try nra. }
      rewrite edge_sc. ring.
  Qed.
  Lemma over_charge_sc ZA f g z c : (forall x, f x = g x * c) -> over_charge ZA f z = over_charge ZA g z * c.
  Proof. intros H. unfold over_charge. destruct (Req_EM_T _ _); [apply H|]. rewrite !H. destruct (Rge_dec _ _); ring. Qed.
  Lemma Schumacher_sc l mZ r E0 E k : k <> 0 ->
    SchumacherImpulse u' edge' (map (fun '(s, x) => (iconv s, x)) l) mZ r (E0 * uE w) (E * uE w) (k / uL w) = option_map (fun y => y * uT w) (SchumacherImpulse u edge l mZ r E0 E k).
  Proof.
    intros Hk. unfold SchumacherImpulse.
    assert (H : fold_right (fun '(s, x) t => over_charge (Z_A s) (charge_state u' edge' s r (E0 * uE w) (E * uE w) (k / uL w)) (Z_free s) * x + t) 0 (map (fun '(s, x) => (iconv s, x)) l)
      = fold_right (fun '(s, x) t => over_charge (Z_A s) (charge_state u edge s r E0 E k) (Z_free s) * x + t) 0 l * uT w).
    { induction l as [|[s x] l IH]; cbn; [ring|]. rewrite IH. rewrite (over_charge_sc _ _ (charge_state u edge s r E0 E k) _ (uT w)) by (intros; now apply charge_state_sc). ring. }
    rewrite H. rewrite <- (Rmult_1_r mZ) at 1. rewrite qdiv_sc by lra. destruct (qdiv _ _); cbn; [|reflexivity]. f_equal. field.
  Qed.
End R.
