(** Changing the system of units: a specification, independent of the model.  The values
    of the physical constants in units that are [1/uL] of the old unit of length and so
    on.  A formula that treats its units correctly gives the same quantity. *)
From Coq Require Import Reals List Lra Lia.
From Verif Require Import M_Const M_PlasmaState M_PlasmaPhysics.
Import ListNotations.
Open Scope R_scope.

(** old units in terms of the new: length, mass, time, charge, temperature *)
Record usys := mkU { uL : R; uM : R; uT : R; uQ : R; uK : R;
  uL_pos : 0 < uL; uM_pos : 0 < uM; uT_pos : 0 < uT; uQ_pos : 0 < uQ; uK_pos : 0 < uK }.
(** of energy *)
Definition uE (w : usys) : R := uM w * uL w ^ 2 / uT w ^ 2.
Lemma uE_pos w : 0 < uE w.
Proof.
  unfold uE. pose proof (uL_pos w). pose proof (uM_pos w). pose proof (uT_pos w).
  apply Rdiv_lt_0_compat; [apply Rmult_lt_0_compat; [assumption|]|]; apply pow_lt; assumption.
Qed.

Definition conv (w : usys) (u : consts) : consts.
Proof.
  refine (mkConsts (hbar u * (uE w * uT w)) (c_light u * (uL w / uT w)) (e_ch u * uQ w)
    (eps0 u * (uQ w ^ 2 / (uE w * uL w))) (kB u * (uE w / uK w)) (m_e u * uM w) (amu u * uM w) (a_0 u * uL w) _ _ _ _ _ _ _ _);
  pose proof (uL_pos w); pose proof (uM_pos w); pose proof (uT_pos w); pose proof (uQ_pos w); pose proof (uK_pos w); pose proof (uE_pos w);
  pose proof (hbar_pos u); pose proof (c_pos u); pose proof (e_pos u); pose proof (eps0_pos u); pose proof (kB_pos u); pose proof (m_e_pos u); pose proof (amu_pos u); pose proof (a_0_pos u);
  repeat (assumption || exact Rlt_0_1 || apply Rdiv_lt_0_compat || apply Rmult_lt_0_compat || apply pow_lt).
Defined.

Lemma sqrt_sc x s : 0 <= s -> sqrt (x * s ^ 2) = sqrt x * s.
Proof. intros H. rewrite Rmult_comm, sqrt_mult_alt by (apply pow2_ge_0). rewrite sqrt_pow2 by exact H. ring. Qed.
Lemma sqrto_sc x s : 0 < s -> sqrto (x * s ^ 2) = option_map (fun y => y * s) (sqrto x).
Proof.
  intros H. assert (0 < s ^ 2) by (apply pow_lt; exact H). unfold sqrto. destruct (Rlt_dec x 0) as [N|N]; destruct (Rlt_dec (x * s ^ 2) 0) as [N'|N']; cbn [option_map].
  - reflexivity.
  - exfalso. apply N'. nra.
  - exfalso. nra.
  - rewrite sqrt_sc by lra. reflexivity.
Qed.
Lemma qdiv_sc x y a b : b <> 0 -> qdiv (x * a) (y * b) = option_map (fun z => z * (a / b)) (qdiv x y).
Proof.
  intros H. unfold qdiv. destruct (Req_EM_T y 0) as [E|N]; destruct (Req_EM_T (y * b) 0) as [E'|N']; cbn [option_map].
  - reflexivity.
  - exfalso. apply N'. rewrite E. ring.
  - exfalso. apply Rmult_integral in E'. tauto.
  - f_equal. field. split; assumption.
Qed.
Lemma Rpower_sc x s y : 0 < x -> 0 < s -> Rpower (x * s) y = Rpower x y * Rpower s y.
Proof. intros Hx Hs. symmetry. apply Rpower_mult_distr; assumption. Qed.
Lemma Rpower_cube_third L : 0 < L -> Rpower (L ^ 3) (1 / 3) = L.
Proof. intros H. replace (L ^ 3) with (Rpower L (INR 3)) by (apply Rpower_pow; exact H). rewrite Rpower_mult. replace (INR 3 * (1 / 3)) with 1 by (cbn; lra). now apply Rpower_1. Qed.
Lemma Rpower_inv_cube_third L : 0 < L -> Rpower (/ L ^ 3) (1 / 3) = / L.
Proof. intros H. rewrite <- (Rpower_cube_third (/ L)) by (now apply Rinv_0_lt_compat). rewrite pow_inv. reflexivity. Qed.
Lemma Rpower_inv_cube_23 L : 0 < L -> Rpower (/ L ^ 3) (2 / 3) = / L ^ 2.
Proof.
  intros H. replace (2 / 3) with (1 / 3 + 1 / 3) by lra. rewrite Rpower_plus, Rpower_inv_cube_third by exact H. field. lra.
Qed.

(** names for the signs *)
Ltac upos w := pose proof (uL_pos w); pose proof (uM_pos w); pose proof (uT_pos w); pose proof (uQ_pos w); pose proof (uK_pos w); pose proof (uE_pos w).
Ltac kpos u := pose proof (hbar_pos u); pose proof (c_pos u); pose proof (e_pos u); pose proof (eps0_pos u); pose proof (kB_pos u); pose proof (m_e_pos u); pose proof (amu_pos u); pose proof (a_0_pos u); pose proof PI_RGT_0.

Section R.
  Variables (w : usys) (u : consts).
  Let u' := conv w u.
  Lemma plasma_frequency_sc n : plasma_frequency u' (n / uL w ^ 3) = plasma_frequency u n / uT w.
  Proof.
    upos w. kpos u. unfold plasma_frequency. cbn [conv u' e_ch eps0 m_e].
    replace ((e_ch u * uQ w) ^ 2 * (n / uL w ^ 3) / (eps0 u * (uQ w ^ 2 / (uE w * uL w)) * (m_e u * uM w)))
      with (e_ch u ^ 2 * n / (eps0 u * m_e u) * (/ uT w) ^ 2) by (unfold uE; field; repeat split; lra).
    rewrite sqrt_sc by (left; now apply Rinv_0_lt_compat). reflexivity.
  Qed.
  Lemma coulomb_k_sc Z1 Z2 k : k <> 0 -> coulomb_k u' Z1 Z2 (k / uL w) = coulomb_k u Z1 Z2 k * (uE w * uL w ^ 3).
  Proof. intros Hk. upos w. kpos u. unfold coulomb_k. cbn [conv u' e_ch eps0]. field. repeat split; lra. Qed.
  Lemma kin_energy_sc k : kin_energy u' (k / uL w) = kin_energy u k * uE w.
  Proof. upos w. kpos u. unfold kin_energy. cbn [conv u' hbar m_e]. unfold uE. field. repeat split; lra. Qed.
  Lemma kT_sc T : kB u' * (T * uK w) = kB u * T * uE w.
  Proof. upos w. kpos u. cbn [conv u' kB]. field. lra. Qed.
  Lemma fermi_dirac_sc k mu T : T <> 0 -> fermi_dirac u' (k / uL w) (mu * uE w) (T * uK w) = fermi_dirac u k mu T.
  Proof.
    intros HT. upos w. kpos u. unfold fermi_dirac. rewrite kin_energy_sc, kT_sc.
    replace ((kin_energy u k * uE w - mu * uE w) / (kB u * T * uE w)) with ((kin_energy u k - mu) / (kB u * T)) by (field; repeat split; lra). reflexivity.
  Qed.
  Lemma fermi_wavenumber_sc n : 0 < n -> fermi_wavenumber (n / uL w ^ 3) = fermi_wavenumber n / uL w.
  Proof.
    intros Hn. upos w. kpos u. assert (0 < uL w ^ 3) by now apply pow_lt. assert (0 < PI ^ 2) by now apply pow_lt. unfold fermi_wavenumber. replace (3 * PI ^ 2 * (n / uL w ^ 3)) with (3 * PI ^ 2 * n * / uL w ^ 3) by (field; lra).
    rewrite Rpower_sc, Rpower_inv_cube_third; [reflexivity|lra| |now apply Rinv_0_lt_compat]. apply Rmult_lt_0_compat; lra.
  Qed.
  Lemma fermi_energy_sc n : 0 < n -> fermi_energy u' (n / uL w ^ 3) = fermi_energy u n * uE w.
  Proof.
    intros Hn. upos w. kpos u. assert (0 < uL w ^ 3) by now apply pow_lt. assert (0 < PI ^ 2) by now apply pow_lt. unfold fermi_energy. replace (3 * PI ^ 2 * (n / uL w ^ 3)) with (3 * PI ^ 2 * n * / uL w ^ 3) by (field; lra).
    rewrite Rpower_sc, Rpower_inv_cube_23; [|lra|apply Rmult_lt_0_compat; lra|now apply Rinv_0_lt_compat]. cbn [conv u' hbar m_e]. set (X := Rpower _ _). unfold uE. field. repeat split; lra.
  Qed.
  Lemma fermi_temperature_sc n : 0 < n -> fermi_temperature u' (n / uL w ^ 3) = fermi_temperature u n * uK w.
  Proof. intros Hn. upos w. kpos u. unfold fermi_temperature. rewrite fermi_energy_sc by exact Hn. cbn [conv u' kB]. field. repeat split; lra. Qed.
  Lemma wsr_sc n : 0 < n -> wiegner_seitz_radius (n / uL w ^ 3) = wiegner_seitz_radius n * uL w.
  Proof.
    intros Hn. upos w. kpos u. assert (0 < uL w ^ 3) by now apply pow_lt. unfold wiegner_seitz_radius. replace (3 / (4 * PI * (n / uL w ^ 3))) with (3 / (4 * PI * n) * uL w ^ 3) by (field; repeat split; lra).
    rewrite Rpower_sc, Rpower_cube_third; [reflexivity|lra| |lra]. apply Rdiv_lt_0_compat; [lra|]. apply Rmult_lt_0_compat; lra.
  Qed.
  Lemma fermi_energy_pos' n : 0 < fermi_energy u n.
  Proof. kpos u. unfold fermi_energy. apply Rmult_lt_0_compat; [apply Rdiv_lt_0_compat; [now apply pow_lt|lra]|unfold Rpower; apply exp_pos]. Qed.
  Lemma chem_pot_sc T n : 0 < n -> chem_pot_sommerfeld u' (T * uK w) (n / uL w ^ 3) = chem_pot_sommerfeld u T n * uE w.
  Proof.
    intros Hn. upos w. kpos u. pose proof (fermi_energy_pos' n). unfold chem_pot_sommerfeld. cbv zeta. rewrite fermi_energy_sc by exact Hn. cbn [conv u' kB].
    replace (T * uK w / (fermi_energy u n * uE w / (kB u * (uE w / uK w)))) with (T / (fermi_energy u n / kB u)) by (field; repeat split; lra). ring.
  Qed.
  Lemma sum_map_sc {A} (f g : A -> R) c l : (forall x, f x = g x * c) -> sum (map f l) = sum (map g l) * c.
  Proof. intros H. induction l as [|x l IH]; cbn; [lra|]. unfold sum in IH. rewrite IH, H. ring. Qed.
  Lemma sum_map2_sc (f g : R -> R -> R) (p q : R -> R) c : (forall x y, f (p x) (q y) = g x y * c) ->
    forall l m, sum (map2 f (map p l) (map q m)) = sum (map2 g l m) * c.
  Proof.
    intros H l. induction l as [|x l IH]; intros m; cbn; [lra|]. destruct m as [|y m]; cbn; [lra|]. specialize (IH m). unfold sum in IH. rewrite IH, H. ring.
  Qed.
  Lemma debye_length_sc n Z T : debye_length u' (map (fun x => x / uL w ^ 3) n) Z (T * uK w) = option_map (fun x => x * uL w) (debye_length u n Z T).
  Proof.
    upos w. kpos u. assert (0 < uL w ^ 3) by now apply pow_lt. assert (0 < uQ w ^ 2) by now apply pow_lt. unfold debye_length. cbv zeta. rewrite <- (map_id Z) at 1.
    rewrite (sum_map2_sc _ (fun a z => a * (z * e_ch u) ^ 2) _ _ (uQ w ^ 2 / uL w ^ 3)) by (intros; cbn [conv u' e_ch]; field; lra).
    replace (eps0 u' * kB u' * (T * uK w)) with (eps0 u * kB u * T * (uQ w ^ 2 / uL w)) by (cbn [conv u' eps0 kB]; field; repeat split; lra).
    rewrite qdiv_sc by (apply Rgt_not_eq, Rdiv_lt_0_compat; lra). destruct (qdiv _ _) as [q|]; cbn [option_map]; [|reflexivity].
    replace (uQ w ^ 2 / uL w / (uQ w ^ 2 / uL w ^ 3)) with (uL w ^ 2) by (field; repeat split; lra). now apply sqrto_sc.
  Qed.
  Lemma temperature_interpolation_sc n T p : 0 < n -> 0 < T -> p <> 0 ->
    temperature_interpolation u' (n / uL w ^ 3) (T * uK w) p = temperature_interpolation u n T p * uK w.
  Proof.
    intros Hn HT Hp. upos w. kpos u. unfold temperature_interpolation. rewrite fermi_temperature_sc by exact Hn.
    assert (0 < fermi_temperature u n) by (unfold fermi_temperature; apply Rdiv_lt_0_compat; [apply fermi_energy_pos'|assumption]).
    rewrite !(Rpower_sc _ (uK w)) by assumption. rewrite <- Rmult_plus_distr_r. rewrite Rpower_sc; [|apply Rplus_lt_0_compat; unfold Rpower; apply exp_pos|unfold Rpower; apply exp_pos].
    f_equal. rewrite Rpower_mult. replace (p * (1 / p)) with 1 by (field; exact Hp). now apply Rpower_1.
  Qed.
  Lemma wl_sc T : T <> 0 -> therm_de_broglie_wl u' (T * uK w) = therm_de_broglie_wl u T * uL w.
  Proof.
    intros HT. upos w. kpos u. unfold therm_de_broglie_wl. cbn [conv u' hbar m_e kB].
    replace (2 * PI / (m_e u * uM w * (kB u * (uE w / uK w)) * (T * uK w))) with (2 * PI / (m_e u * kB u * T) * (/ (uE w * uT w) * uL w) ^ 2) by (unfold uE; field; repeat split; lra).
    assert (0 < uE w * uT w) by now apply Rmult_lt_0_compat.
    rewrite sqrt_sc by (left; apply Rmult_lt_0_compat; [now apply Rinv_0_lt_compat|assumption]). field. repeat split; lra.
  Qed.
  Lemma degeneracy_sc n T : T <> 0 -> degeneracy_param u' (n / uL w ^ 3) (T * uK w) = degeneracy_param u n T.
  Proof. intros HT. upos w. unfold degeneracy_param. rewrite wl_sc by exact HT. field. lra. Qed.
  Lemma spacing_sc Z1 Z2 n : 0 < n -> interparticle_spacing Z1 Z2 (n / uL w ^ 3) = interparticle_spacing Z1 Z2 n * uL w.
  Proof.
    intros Hn. upos w. kpos u. assert (0 < uL w ^ 3) by now apply pow_lt. unfold interparticle_spacing. set (X := Rpower _ (1 / 2)). assert (0 < X) by (unfold X, Rpower; apply exp_pos).
    replace (3 * X / (4 * PI * (n / uL w ^ 3))) with (3 * X / (4 * PI * n) * uL w ^ 3) by (field; repeat split; lra).
    rewrite Rpower_sc, Rpower_cube_third; [reflexivity|lra| |lra]. apply Rdiv_lt_0_compat; [lra|]. apply Rmult_lt_0_compat; lra.
  Qed.
  Lemma coupling_sc Z1 Z2 n T : 0 < n -> T <> 0 -> coupling_param u' Z1 Z2 (n / uL w ^ 3) (T * uK w) = coupling_param u Z1 Z2 n T.
  Proof.
    intros Hn HT. upos w. kpos u. unfold coupling_param. rewrite spacing_sc by exact Hn. cbn [conv u' e_ch eps0 kB].
    assert (0 < interparticle_spacing Z1 Z2 n) by (unfold interparticle_spacing, Rpower; apply exp_pos). field. repeat split; lra.
  Qed.
  Lemma ee_coupling_sc n T : 0 < n -> T <> 0 -> ee_coupling u' (n / uL w ^ 3) (T * uK w) = ee_coupling u n T.
  Proof.
    intros Hn HT. upos w. kpos u. unfold ee_coupling. cbv zeta. pose proof (wsr_sc n Hn) as E. unfold wiegner_seitz_radius in E. rewrite E. cbn [conv u' e_ch eps0 kB].
    assert (0 < Rpower (3 / (4 * PI * n)) (1 / 3)) by (unfold Rpower; apply exp_pos). field. repeat split; lra.
  Qed.
  Lemma Teff_sc n T : 0 < n -> Teff_e u' (n / uL w ^ 3) (T * uK w) = option_map (fun x => x * uK w) (Teff_e u n T).
  Proof.
    intros Hn. upos w. kpos u. unfold Teff_e. cbv zeta. rewrite wsr_sc, fermi_energy_sc by exact Hn. cbn [conv u' a_0 kB].
    replace (wiegner_seitz_radius n * uL w / (a_0 u * uL w)) with (wiegner_seitz_radius n / a_0 u) by (field; lra).
    set (d := _ - _). rewrite <- (Rmult_1_r d) at 1. rewrite qdiv_sc by lra. destruct (qdiv _ d) as [q|]; cbn [option_map]; [|reflexivity].
    replace ((q * (uE w / 1) / (kB u * (uE w / uK w))) ^ 2 + (T * uK w) ^ 2) with (((q / kB u) ^ 2 + T ^ 2) * uK w ^ 2) by (field; repeat split; lra).
    now apply sqrto_sc.
  Qed.
  Lemma compton_sc E th : 1 + E / (m_e u * c_light u ^ 2) * (1 - cos th) <> 0 -> compton_energy u' (E * uE w) th = compton_energy u E th * uE w.
  Proof.
    intros _. upos w. kpos u. unfold compton_energy. cbn [conv u' m_e c_light].
    replace (E * uE w / (m_e u * uM w * (c_light u * (uL w / uT w)) ^ 2)) with (E / (m_e u * c_light u ^ 2)) by (unfold uE; field; repeat split; lra). ring.
  Qed.
  Lemma thomson_sc E th : thomson_momentum_transfer u' (E * uE w) th = thomson_momentum_transfer u E th / uL w.
  Proof. upos w. kpos u. unfold thomson_momentum_transfer. cbn [conv u' hbar c_light]. field. repeat split; lra. Qed.
End R.
