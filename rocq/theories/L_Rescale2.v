(** Changing the system of units: dielectric functions and free-free spectra. *)
From Coq Require Import Reals List Lra Lia FunctionalExtensionality.
From Coquelicot Require Import Complex.
From Verif Require Import M_Const M_PlasmaState M_PlasmaPhysics M_FreeFree L_Rescale.
Import ListNotations.
Open Scope R_scope.

Lemma obind_map {A B C} (f : A -> B) (x : option A) (g : B -> option C) : obind (option_map f x) g = obind x (fun a => g (f a)).
Proof. destruct x; reflexivity. Qed.
Lemma option_map_obind {A B C} (f : B -> C) (x : option A) (g : A -> option B) : option_map f (obind x g) = obind x (fun a => option_map f (g a)).
Proof. destruct x; reflexivity. Qed.
Lemma obind_ext {A B} (x : option A) (f g : A -> option B) : (forall a, f a = g a) -> obind x f = obind x g.
Proof. intros H. destruct x; cbn; auto. Qed.
Lemma sq_pos_nz k : k <> 0 -> 0 < k ^ 2.
Proof. intros H. assert (0 < k * k) by (apply Rsqr_pos_lt in H; exact H). lra. Qed.
Lemma Rmin_sc a b s : 0 < s -> Rmin (a * s) (b * s) = Rmin a b * s.
Proof. intros H. unfold Rmin. destruct (Rle_dec a b), (Rle_dec (a * s) (b * s)); try reflexivity; nra. Qed.
Lemma Cmult_neq z s : s <> 0 -> Cmult z (RtoC s) = RtoC 0 -> z = RtoC 0.
Proof.
  intros Hs H. destruct z as [a b]. injection H as H1 H2. cbn in *. unfold RtoC. f_equal; [assert (a * s = 0) by lra|assert (b * s = 0) by lra];
  match goal with E : _ * s = 0 |- _ => apply Rmult_integral in E; tauto end.
Qed.
(** xi has the dimension of an inverse potential *)
Lemma xi_lfc_sc xi v lfc s : s <> 0 -> xi_lfc (Cmult xi (RtoC (/ s))) (v * s) lfc = option_map (fun z => Cmult z (RtoC (/ s))) (xi_lfc xi v lfc).
Proof.
  intros Hs. unfold xi_lfc.
  replace (Cmult (Cmult (RtoC (v * s)) (Cminus (RtoC 1) lfc)) (Cmult xi (RtoC (/ s)))) with (Cmult (Cmult (RtoC v) (Cminus (RtoC 1) lfc)) xi).
  2: { destruct xi as [a b], lfc as [c d]. apply injective_projections; cbn; field; exact Hs. }
  set (D := Cminus _ _). unfold cdiv. destruct (Ceq_dec D (RtoC 0)); cbn [option_map]; [reflexivity|]. f_equal. unfold Cdiv. rewrite <- !Cmult_assoc. f_equal. apply Cmult_comm.
Qed.

Section R.
  Variables (w : usys) (u : consts).
  Local Notation u' := (conv w u).
  Let vol := uE w * uL w ^ 3.
  Lemma vol_pos : 0 < vol. Proof. unfold vol. upos w. apply Rmult_lt_0_compat; [assumption|now apply pow_lt]. Qed.
  Lemma v_k_sc k : k <> 0 -> v_k u' (k / uL w) = v_k u k * vol.
  Proof. intros Hk. upos w. kpos u. unfold v_k, vol. cbn [conv e_ch eps0]. field. repeat split; lra. Qed.
  Lemma xi0_eps_sc eps k : k <> 0 -> xi0_from_eps_RPA u' eps (k / uL w) = Cmult (xi0_from_eps_RPA u eps k) (RtoC (/ vol)).
  Proof.
    intros Hk. pose proof vol_pos. unfold xi0_from_eps_RPA, Vee. rewrite coulomb_k_sc by exact Hk. fold vol. set (V := coulomb_k u (-1) (-1) k).
    assert (V <> 0). { unfold V, coulomb_k. kpos u. assert (0 < k ^ 2) by (now apply sq_pos_nz). assert (0 < e_ch u ^ 2) by now apply pow_lt. apply Rgt_not_eq. apply Rdiv_lt_0_compat; [|assumption].
      apply Rmult_lt_0_compat; [apply Rdiv_lt_0_compat; lra|lra]. }
    unfold Cdiv. rewrite (RtoC_mult V vol), <- Cmult_assoc. f_equal.
    assert (RtoC V <> RtoC 0) by (intros E; apply RtoC_inj in E; contradiction). assert (RtoC vol <> RtoC 0) by (intros E; apply RtoC_inj in E; lra).
    rewrite RtoC_inv by lra. field. now split.
  Qed.
  Lemma FDT_sc k T n E xi : k <> 0 -> T <> 0 -> n <> 0 ->
    S0ee_from_susceptibility_FDT u' (k / uL w) (T * uK w) (n / uL w ^ 3) (E * uE w) (Cmult xi (RtoC (/ vol))) =
    option_map (fun x => x * uT w) (S0ee_from_susceptibility_FDT u k T n E xi).
  Proof.
    intros Hk HT Hn. upos w. kpos u. pose proof vol_pos as Hv. unfold S0ee_from_susceptibility_FDT. rewrite coulomb_k_sc, kT_sc by exact Hk. fold vol.
    replace (E * uE w / (kB u * T * uE w)) with (E / (kB u * T)) by (field; repeat split; lra). set (V := coulomb_k u (-1) (-1) k).
    assert (V <> 0). { unfold V, coulomb_k. assert (0 < k ^ 2) by (now apply sq_pos_nz). assert (0 < e_ch u ^ 2) by now apply pow_lt. apply Rgt_not_eq. apply Rdiv_lt_0_compat; [|assumption].
      apply Rmult_lt_0_compat; [apply Rdiv_lt_0_compat; lra|lra]. }
    replace (hbar u' / (PI * (n / uL w ^ 3) * (V * vol))) with (hbar u / (PI * n * V) * uT w) by (unfold vol; cbn [conv hbar]; field; repeat split; lra).
    set (d := 1 - _). rewrite <- (Rmult_1_r d) at 1. rewrite qdiv_sc by lra. rewrite obind_map, option_map_obind. apply obind_ext. intros f. cbn [option_map]. f_equal.
    destruct xi as [a b]. cbn. field. lra.
  Qed.
  Lemma kappa_sc k E : k <> 0 -> E * uE w / hbar u' * m_e u' / (hbar u' * (k / uL w)) = E / hbar u * m_e u / (hbar u * k) / uL w.
  Proof. intros Hk. upos w. kpos u. cbn [conv hbar m_e]. unfold uE. field. repeat split; lra. Qed.
  Lemma imag_nd_sc k E mu T : k <> 0 -> T <> 0 -> imag_no_damping u' (k / uL w) (E * uE w) (mu * uE w) (T * uK w) = imag_no_damping u k E mu T.
  Proof.
    intros Hk HT. upos w. kpos u. unfold imag_no_damping. cbv zeta. rewrite kappa_sc by exact Hk. rewrite kT_sc.
    set (kp := E / hbar u * m_e u / (hbar u * k)).
    replace (- (k / uL w) / 2 - kp / uL w) with ((- k / 2 - kp) / uL w) by (field; lra). replace (k / uL w / 2 - kp / uL w) with ((k / 2 - kp) / uL w) by (field; lra).
    rewrite !kin_energy_sc.
    replace ((mu * uE w - kin_energy u (- k / 2 - kp) * uE w) / (kB u * T * uE w)) with ((mu - kin_energy u (- k / 2 - kp)) / (kB u * T)) by (field; repeat split; lra).
    replace ((mu * uE w - kin_energy u (k / 2 - kp) * uE w) / (kB u * T * uE w)) with ((mu - kin_energy u (k / 2 - kp)) / (kB u * T)) by (field; repeat split; lra).
    f_equal. f_equal. cbn [conv m_e e_ch eps0 hbar]. unfold uE. field. repeat split; lra.
  Qed.
  Lemma thermal_unit_sc T : T <> 0 -> thermal_unit u' (T * uK w) = thermal_unit u T * uL w.
  Proof.
    intros HT. upos w. kpos u. unfold thermal_unit. rewrite kT_sc. cbn [conv hbar m_e]. rewrite <- sqrt_sc by lra. f_equal. unfold uE. field. repeat split; lra.
  Qed.
  Lemma nd_integrand_sc unit k kp mu T Q : unit <> 0 -> T <> 0 ->
    integrand_no_damping u' (unit * uL w) (k / uL w) (kp / uL w) (mu * uE w) (T * uK w) Q = integrand_no_damping u unit k kp mu T Q.
  Proof.
    intros Hu HT. upos w. unfold integrand_no_damping. cbv zeta. replace (Q / (unit * uL w)) with (Q / unit / uL w) by (field; lra). set (q := Q / unit).
    replace (kp / uL w - k / uL w / 2 - q / uL w) with ((kp - k / 2 - q) * / uL w) by (field; lra). replace (kp / uL w + k / uL w / 2 + q / uL w) with ((kp + k / 2 + q) * / uL w) by (field; lra).
    replace (kp / uL w - k / uL w / 2 + q / uL w) with ((kp - k / 2 + q) * / uL w) by (field; lra). replace (kp / uL w + k / uL w / 2 - q / uL w) with ((kp + k / 2 - q) * / uL w) by (field; lra).
    assert (0 < / uL w) as Hi by now apply Rinv_0_lt_compat. rewrite !Rabs_mult, (Rabs_right (/ uL w)) by lra.
    set (a := Rabs _). set (b := Rabs _). set (c := Rabs _). set (d := Rabs _).
    replace (a * / uL w * (b * / uL w)) with (a * b * (/ uL w ^ 2)) by (field; lra). replace (c * / uL w * (d * / uL w)) with (c * d * (/ uL w ^ 2)) by (field; lra).
    assert (/ uL w ^ 2 <> 0) by (apply Rinv_neq_0_compat; assert (0 < uL w ^ 2) by (now apply pow_lt); lra).
    rewrite qdiv_sc, obind_map by assumption. apply obind_ext. intros x. replace (x * (/ uL w ^ 2 / / uL w ^ 2)) with x by (field; lra). apply obind_ext. intros l.
    rewrite fermi_dirac_sc by exact HT. f_equal. field. lra.
  Qed.
  Variable quad : R -> option R -> (R -> option R) -> option R.
  Lemma real_nd_sc b k E mu T : 0 < k -> 0 < T -> real_no_damping u' quad b (k / uL w) (E * uE w) (mu * uE w) (T * uK w) = real_no_damping u quad b k E mu T.
  Proof.
    intros Hk0 HT0. assert (k <> 0) as Hk by lra. assert (T <> 0) as HT by lra. upos w. kpos u. unfold real_no_damping. cbv zeta. rewrite kappa_sc by exact Hk. rewrite thermal_unit_sc by exact HT. set (kp := E / hbar u * m_e u / (hbar u * k)).
    assert (P : e_ch u' ^ 2 * m_e u' / (2 * PI ^ 2 * eps0 u' * hbar u' ^ 2 * (k / uL w) ^ 3) = e_ch u ^ 2 * m_e u / (2 * PI ^ 2 * eps0 u * hbar u ^ 2 * k ^ 3) * uL w ^ 2).
    { cbn [conv m_e e_ch eps0 hbar]. unfold uE. field. repeat split; lra. }
    rewrite P. destruct b.
    - assert (0 < thermal_unit u T) as Hu.
      { unfold thermal_unit. apply sqrt_lt_R0. assert (0 < kB u * T) by (apply Rmult_lt_0_compat; lra).
        apply Rdiv_lt_0_compat; [apply Rdiv_lt_0_compat; [now apply pow_lt|lra]|assumption]. }
      replace (integrand_no_damping u' (thermal_unit u T * uL w) (k / uL w) (kp / uL w) (mu * uE w) (T * uK w)) with (integrand_no_damping u (thermal_unit u T) k kp mu T)
        by (apply functional_extensionality; intros Q; symmetry; apply nd_integrand_sc; lra).
      apply obind_ext. intros I. f_equal. field. repeat split; lra.
    - replace (Rmin (kp / uL w - k / uL w / 2) (- (kp / uL w) - k / uL w / 2)) with (Rmin (kp - k / 2) (- kp - k / 2) * / uL w).
      2: { assert (0 < / uL w) by now apply Rinv_0_lt_compat. rewrite <- Rmin_sc by assumption. f_equal; field; lra. }
      assert (Rmin (kp - k / 2) (- kp - k / 2) < 0) as Hm by (unfold Rmin; destruct (Rle_dec _ _); lra). set (m := Rmin _ _) in *.
      rewrite Rabs_mult. rewrite (Rabs_right (/ uL w)) by (left; now apply Rinv_0_lt_compat). assert (0 < Rabs m) by (apply Rabs_pos_lt; lra).
      replace (1 / (Rabs m * / uL w)) with (1 / Rabs m * uL w) by (field; lra).
      assert (0 < 1 / Rabs m) by (apply Rdiv_lt_0_compat; lra). set (un := 1 / Rabs m) in *.
      replace (integrand_no_damping u' (un * uL w) (k / uL w) (kp / uL w) (mu * uE w) (T * uK w)) with (integrand_no_damping u un k kp mu T)
        by (apply functional_extensionality; intros Q; symmetry; apply nd_integrand_sc; lra).
      apply obind_ext. intros I1. apply obind_ext. intros I2. f_equal. field. repeat split; lra.
  Qed.

  Lemma unit_pos T : 0 < T -> 0 < thermal_unit u T.
  Proof.
    intros HT. kpos u. unfold thermal_unit. apply sqrt_lt_R0. assert (0 < kB u * T) by (apply Rmult_lt_0_compat; lra).
    apply Rdiv_lt_0_compat; [apply Rdiv_lt_0_compat; [now apply pow_lt|lra]|assumption].
  Qed.
  Lemma S0_no_damping_sc b k T n E mu lfc : 0 < k -> 0 < T -> n <> 0 ->
    S0_ee_RPA_no_damping u' quad b (k / uL w) (T * uK w) (n / uL w ^ 3) (E * uE w) (mu * uE w) lfc = option_map (fun x => x * uT w) (S0_ee_RPA_no_damping u quad b k T n E mu lfc).
  Proof.
    intros Hk HT Hn. pose proof vol_pos. unfold S0_ee_RPA_no_damping, dielectric_function_RPA_no_damping. replace (- (E * uE w)) with (- E * uE w) by ring.
    rewrite real_nd_sc, imag_nd_sc by lra. rewrite option_map_obind. apply obind_ext. intros e. rewrite xi0_eps_sc by lra. rewrite coulomb_k_sc by lra. fold vol.
    rewrite xi_lfc_sc by lra. rewrite obind_map, option_map_obind. apply obind_ext. intros xi. apply FDT_sc; lra.
  Qed.
  Lemma q_sc a d : qdiv (a / uL w) (d / uL w) = qdiv a d.
  Proof.
    upos w. unfold Rdiv. assert (0 < / uL w) by now apply Rinv_0_lt_compat. rewrite qdiv_sc by lra. destruct (qdiv a d); cbn [option_map]; [|reflexivity]. f_equal. field. lra.
  Qed.
  Lemma imag_int_sc un k kp de mu T Q : un <> 0 -> T <> 0 ->
    integrand_imag_RPA u' (un * uL w) (k / uL w) (kp / uL w) (de / uL w) (mu * uE w) (T * uK w) Q = integrand_imag_RPA u un k kp de mu T Q.
  Proof.
    intros Hu HT. upos w. unfold integrand_imag_RPA. cbv zeta. replace (Q / (un * uL w)) with (Q / un / uL w) by (field; lra). set (q := Q / un).
    replace (kp / uL w - k / uL w / 2 - q / uL w) with ((kp - k / 2 - q) / uL w) by (field; lra). replace (kp / uL w + k / uL w / 2 + q / uL w) with ((kp + k / 2 + q) / uL w) by (field; lra).
    replace (kp / uL w - k / uL w / 2 + q / uL w) with ((kp - k / 2 + q) / uL w) by (field; lra). replace (kp / uL w + k / uL w / 2 - q / uL w) with ((kp + k / 2 - q) / uL w) by (field; lra).
    rewrite !q_sc. do 4 (apply obind_ext; intros ?). rewrite fermi_dirac_sc by exact HT. f_equal. field. lra.
  Qed.
  Lemma real_int_sc un k kp de mu T Q : un <> 0 -> T <> 0 ->
    integrand_real_RPA u' (un * uL w) (k / uL w) (kp / uL w) (de / uL w) (mu * uE w) (T * uK w) Q = integrand_real_RPA u un k kp de mu T Q.
  Proof.
    intros Hu HT. upos w. unfold integrand_real_RPA. cbv zeta. replace (Q / (un * uL w)) with (Q / un / uL w) by (field; lra). set (q := Q / un).
    assert (/ uL w ^ 4 <> 0) by (apply Rinv_neq_0_compat; assert (0 < uL w ^ 4) by (now apply pow_lt); lra).
    match goal with |- context [qdiv ?a ?b] =>
      replace a with (((de ^ 2 + (kp - k / 2 - q) ^ 2) * (de ^ 2 + (kp + k / 2 + q) ^ 2)) * / uL w ^ 4) by (field; lra);
      replace b with (((de ^ 2 + (kp - k / 2 + q) ^ 2) * (de ^ 2 + (kp + k / 2 - q) ^ 2)) * / uL w ^ 4) by (field; lra) end.
    rewrite qdiv_sc, obind_map by assumption. apply obind_ext. intros x. replace (x * (/ uL w ^ 4 / / uL w ^ 4)) with x by (field; lra). apply obind_ext. intros l.
    rewrite fermi_dirac_sc by exact HT. f_equal. field. lra.
  Qed.
  Definition Esc (E : C) : C := (fst E * uE w, snd E * uE w).
  Lemma imag_RPA_sc k E mu T : 0 < k -> 0 < T -> imag_RPA u' quad (k / uL w) (Esc E) (mu * uE w) (T * uK w) = imag_RPA u quad k E mu T.
  Proof.
    intros Hk HT. upos w. kpos u. pose proof (unit_pos T HT). unfold imag_RPA. cbv zeta. cbn [Esc fst snd]. rewrite !kappa_sc by lra. rewrite imag_nd_sc by lra. rewrite thermal_unit_sc by lra.
    set (kp := fst E / hbar u * m_e u / (hbar u * k)). set (de := snd E / hbar u * m_e u / (hbar u * k)).
    destruct (Req_EM_T de 0) as [e|e]; destruct (Req_EM_T (de / uL w) 0) as [e'|e'].
    - reflexivity.
    - exfalso. apply e'. rewrite e. field. lra.
    - exfalso. apply e. replace de with (de / uL w * uL w) by (field; lra). rewrite e'. ring.
    - replace (integrand_imag_RPA u' (thermal_unit u T * uL w) (k / uL w) (kp / uL w) (de / uL w) (mu * uE w) (T * uK w)) with (integrand_imag_RPA u (thermal_unit u T) k kp de mu T)
        by (apply functional_extensionality; intros Q; symmetry; apply imag_int_sc; lra).
      apply obind_ext. intros I. f_equal. cbn [conv m_e e_ch eps0 hbar]. unfold uE. field. repeat split; lra.
  Qed.
  Lemma real_RPA_sc k E mu T : 0 < k -> 0 < T -> real_RPA u' quad (k / uL w) (Esc E) (mu * uE w) (T * uK w) = real_RPA u quad k E mu T.
  Proof.
    intros Hk HT. upos w. kpos u. pose proof (unit_pos T HT). unfold real_RPA. cbv zeta. cbn [Esc fst snd]. rewrite !kappa_sc by lra. rewrite thermal_unit_sc by lra.
    set (kp := fst E / hbar u * m_e u / (hbar u * k)). set (de := snd E / hbar u * m_e u / (hbar u * k)).
    replace (integrand_real_RPA u' (thermal_unit u T * uL w) (k / uL w) (kp / uL w) (de / uL w) (mu * uE w) (T * uK w)) with (integrand_real_RPA u (thermal_unit u T) k kp de mu T)
      by (apply functional_extensionality; intros Q; symmetry; apply real_int_sc; lra).
    apply obind_ext. intros I. f_equal. cbn [conv m_e e_ch eps0 hbar]. unfold uE. field. repeat split; lra.
  Qed.
  Lemma red_w_sc k E T : 0 < k -> 0 < T -> red_w u' (k / uL w) (E * uE w) (T * uK w) = red_w u k E T.
  Proof.
    intros Hk HT. upos w. kpos u. unfold red_w. rewrite kT_sc. assert (0 < uL w / uT w) by (apply Rdiv_lt_0_compat; lra).
    replace (kB u * T * uE w / m_e u') with (kB u * T / m_e u * (uL w / uT w) ^ 2) by (cbn [conv m_e]; unfold uE; field; repeat split; lra).
    rewrite sqrt_sc by lra. assert (0 < sqrt (kB u * T / m_e u)). { apply sqrt_lt_R0. apply Rdiv_lt_0_compat; [apply Rmult_lt_0_compat; lra|lra]. }
    assert (0 < sqrt 2) by (apply sqrt_lt_R0; lra). set (r := sqrt (kB u * T / m_e u)) in *. set (r2 := sqrt 2) in *. cbn [conv hbar]. field. repeat split; lra.
  Qed.
  Lemma mkT_sc T : 2 * m_e u' * kB u' * (T * uK w) = 2 * m_e u * kB u * T * (uM w * uL w / uT w) ^ 2.
  Proof. upos w. kpos u. cbn [conv m_e kB]. unfold uE. field. repeat split; lra. Qed.
  Lemma kap_sc k T : 0 < T -> kap_rewrite u' (k / uL w) (T * uK w) = kap_rewrite u k T.
  Proof.
    intros HT. upos w. kpos u. unfold kap_rewrite. rewrite mkT_sc. assert (0 < uM w * uL w / uT w) by (apply Rdiv_lt_0_compat; [apply Rmult_lt_0_compat; lra|lra]).
    rewrite sqrt_sc by lra. assert (0 < sqrt (2 * m_e u * kB u * T)). { apply sqrt_lt_R0. apply Rmult_lt_0_compat; [|lra]. apply Rmult_lt_0_compat; lra. }
    set (r := sqrt _) in *. cbn [conv hbar]. unfold uE. field. repeat split; lra.
  Qed.
  Lemma pref_sc k T : 0 < k -> 0 < T -> pref_rewrite u' (k / uL w) (T * uK w) = pref_rewrite u k T / vol.
  Proof.
    intros Hk HT. upos w. kpos u. pose proof PI_RGT_0. unfold pref_rewrite. rewrite kap_sc by exact HT. rewrite kT_sc.
    replace (m_e u' * kB u' * (T * uK w) / (2 * PI * hbar u' ^ 2)) with (m_e u * kB u * T / (2 * PI * hbar u ^ 2) * / uL w ^ 2)
      by (cbn [conv m_e kB hbar]; unfold uE; field; repeat split; lra).
    assert (0 < m_e u * kB u * T / (2 * PI * hbar u ^ 2)) as Hx. { assert (0 < hbar u ^ 2) by now apply pow_lt. apply Rdiv_lt_0_compat; repeat (assumption || apply Rmult_lt_0_compat); lra. }
    set (x := m_e u * kB u * T / _) in *.
    assert (0 < / uL w ^ 2) as Hi. { apply Rinv_0_lt_compat. now apply pow_lt. }
    rewrite <- (Rpower_mult_distr x (/ uL w ^ 2)) by assumption.
    replace (Rpower (/ uL w ^ 2) (3 / 2)) with (/ uL w ^ 3).
    2: { rewrite <- (Rpower_pow 2 (uL w)) by assumption. rewrite <- Rpower_Ropp, Rpower_mult. replace (- INR 2 * (3 / 2)) with (- INR 3) by (cbn [INR]; lra). rewrite Rpower_Ropp, Rpower_pow by assumption. reflexivity. }
    assert (0 < kap_rewrite u k T). { unfold kap_rewrite. apply Rdiv_lt_0_compat; [apply Rdiv_lt_0_compat; [apply Rmult_lt_0_compat; lra|lra]|]. apply sqrt_lt_R0. apply Rmult_lt_0_compat; [|lra]. apply Rmult_lt_0_compat; lra. }
    assert (0 < sqrt PI) by now apply sqrt_lt_R0. assert (0 < Rpower x (3 / 2)) by apply exp_pos. set (p := Rpower x (3 / 2)) in *. set (s := sqrt PI) in *. set (kk := kap_rewrite u k T) in *.
    unfold vol. field. repeat split; lra.
  Qed.
  Lemma part_sc f k E mu T : 0 < k -> 0 < T -> part_rewrite u' quad f (k / uL w) (Esc E) (mu * uE w) (T * uK w) = part_rewrite u quad f k E mu T.
  Proof.
    intros Hk HT. upos w. kpos u. pose proof vol_pos. unfold part_rewrite. cbv zeta. cbn [Esc fst snd]. rewrite !red_w_sc, kap_sc, pref_sc, kT_sc by assumption. rewrite coulomb_k_sc by lra. fold vol.
    replace (mu * uE w / (kB u * T * uE w)) with (mu / (kB u * T)) by (field; repeat split; lra).
    destruct (Req_EM_T (red_w u k (fst E) T) 0); [reflexivity|]. apply obind_ext. intros I1. apply obind_ext. intros I2. f_equal. field. repeat split; try lra. now apply Rabs_no_R0.
  Qed.
  Lemma damped_sc b k E mu T : 0 < k -> 0 < T -> damped u' quad b (k / uL w) (Esc E) (mu * uE w) (T * uK w) = damped u quad b k E mu T.
  Proof.
    intros Hk HT. destruct b; cbn [damped].
    - unfold dielectric_function_RPA_rewrite. rewrite !part_sc by assumption. reflexivity.
    - unfold dielectric_function_RPA. rewrite real_RPA_sc, imag_RPA_sc by assumption. reflexivity.
  Qed.
  Lemma S0_RPA_sc b k T n E mu lfc : 0 < k -> 0 < T -> n <> 0 ->
    S0_ee_RPA u' quad b (k / uL w) (T * uK w) (n / uL w ^ 3) (E * uE w) (mu * uE w) lfc = option_map (fun x => x * uT w) (S0_ee_RPA u quad b k T n E mu lfc).
  Proof.
    intros Hk HT Hn. pose proof vol_pos. unfold S0_ee_RPA. replace (- (E * uE w)) with (- E * uE w) by ring.
    replace (RtoC (- E * uE w)) with (Esc (RtoC (- E))) by (unfold Esc, RtoC; cbn; f_equal; ring).
    rewrite damped_sc by lra. rewrite option_map_obind. apply obind_ext. intros e. rewrite xi0_eps_sc by lra. rewrite v_k_sc by lra.
    rewrite xi_lfc_sc by lra. rewrite obind_map, option_map_obind. apply obind_ext. intros xi. apply FDT_sc; lra.
  Qed.
End R.
