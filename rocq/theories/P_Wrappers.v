(** Functions that hand their arguments on to others: C06, C26, C39, C57, C110, C116, C127 and C132. *)
From Coq Require Import Reals List Lra Lia Psatz Bool Arith.
From Coquelicot Require Import Coquelicot.
From Verif Require Import M_Const M_PlasmaState L_PlasmaState M_PlasmaPhysics L_PlasmaPhysics M_Interp L_Interp M_Analysis M_FreeFree L_FreeFree2 L_FreeFree3 M_RPA0K L_RPA0K P_RPA0K
  M_FormFactors L_FormFactors P_FormFactors M_LFC M_Pauli M_StateScales M_Potentials.
Import ListNotations.
Open Scope R_scope.

(** ** The default window of the Laplace transform covers the spectrum and ends at recorded energies *)
Theorem C26_default_window : forall hb small I tau E, E <> [] ->
  exists lo hi, In lo E /\ In hi E /\ (forall e, In e E -> lo <= e <= hi) /\
    twoSidedLaplace_default hb small I tau E = twoSidedLaplace hb small I tau E lo hi.
Proof.
  intros hb small I tau E HE. destruct E as [|x E]; [contradiction|].
  assert (A : forall l, In (fold_right Rmin x l) (x :: l) /\ forall e, In e (x :: l) -> fold_right Rmin x l <= e).
  { induction l as [|y l [IH1 IH2]]; cbn [fold_right]; [split; [now left|intros e [<-|[]]; lra]|].
    split.
    - destruct (Rle_dec y (fold_right Rmin x l)); [rewrite Rmin_left by assumption; right; left; reflexivity|rewrite Rmin_right by lra]. destruct IH1 as [<-|IH1]; [left; reflexivity|right; right; assumption].
    - intros e [<-|[<-|He]]; [eapply Rle_trans; [apply Rmin_r|]; apply IH2; now left|apply Rmin_l|eapply Rle_trans; [apply Rmin_r|]; apply IH2; now right]. }
  assert (B : forall l, In (fold_right Rmax x l) (x :: l) /\ forall e, In e (x :: l) -> e <= fold_right Rmax x l).
  { induction l as [|y l [IH1 IH2]]; cbn [fold_right]; [split; [now left|intros e [<-|[]]; lra]|].
    split.
    - destruct (Rle_dec (fold_right Rmax x l) y); [rewrite Rmax_left by assumption; right; left; reflexivity|rewrite Rmax_right by lra]. destruct IH1 as [<-|IH1]; [left; reflexivity|right; right; assumption].
    - intros e [<-|[<-|He]]; [eapply Rle_trans; [|apply Rmax_r]; apply IH2; now left|apply Rmax_l|eapply Rle_trans; [|apply Rmax_r]; apply IH2; now right]. }
  destruct (A E) as [A1 A2], (B E) as [B1 B2].
  exists (rmin_list (x :: E)), (rmax_list (x :: E)). repeat split; try assumption; [now apply A2|now apply B2].
Qed.
Print Assumptions C26_default_window.
Example C26_default_window_ex : twoSidedLaplace_default 1 (1 / 100) [1; 3; 2] 1 [0; 2; 1] = twoSidedLaplace 1 (1 / 100) [1; 3; 2] 1 [0; 2; 1] 0 2.
Proof.
  unfold twoSidedLaplace_default. f_equal; cbn; unfold Rmin, Rmax; repeat (destruct (Rle_dec _ _); try lra).
Qed.

(** ** Half the plasma energy, and the millionth part of it for the Kramers-Kronig transform *)
Theorem C39_lower_cutoff : forall u n_e, 0 <= n_e ->
  0 <= guess_E_cutoff_min u n_e false /\
  (2 * guess_E_cutoff_min u n_e false) ^ 2 = hbar u ^ 2 * (n_e * e_ch u ^ 2 / (eps0 u * m_e u)) /\
  guess_E_cutoff_min u n_e true = 2 / 10 ^ 6 * guess_E_cutoff_min u n_e false.
Proof.
  intros u n_e Hn. cpos u. unfold guess_E_cutoff_min, plasma_frequency. rewrite (Rmult_comm (e_ch u ^ 2) n_e).
  assert (Hw : 0 <= n_e * e_ch u ^ 2 / (eps0 u * m_e u)).
  { apply Rmult_le_pos; [apply Rmult_le_pos; [assumption|apply pow2_ge_0]|]. left. apply Rinv_0_lt_compat. now apply Rmult_lt_0_compat. }
  pose proof (sqrt_pos (n_e * e_ch u ^ 2 / (eps0 u * m_e u))) as Hs. cbv zeta. repeat split.
  - apply Rmult_le_pos; [apply Rmult_le_pos; [exact Hs|lra]|lra].
  - rewrite <- (pow2_sqrt (n_e * e_ch u ^ 2 / (eps0 u * m_e u))) at 2 by exact Hw. field.
  - field.
Qed.
Print Assumptions C39_lower_cutoff.
Example C39_lower_cutoff_ex : guess_E_cutoff_min unit_consts 4 false = 1.
Proof.
  destruct (C39_lower_cutoff unit_consts 4 ltac:(lra)) as (A & B & _). set (g := guess_E_cutoff_min unit_consts 4 false) in *. clearbody g. cbn [hbar e_ch eps0 m_e unit_consts] in B. nra.
Qed.

(** ** Setting the ion core radius *)
Lemma same_entries (A : Type) (l m : list A) : (forall i, nth_error l i = nth_error m i) -> l = m.
Proof.
  revert m. induction l as [|x l IH]; intros [|y m] H; [reflexivity|discriminate (H 0%nat)|discriminate (H 0%nat)|].
  pose proof (H 0%nat) as H0. injection H0 as ->. f_equal. apply IH. intros i. exact (H (S i)).
Qed.
Theorem C06_setting_the_radius : forall s v, length v = nions s ->
  let s' := set_ion_core_radius s v in
  (ions s' = ions s /\ Z_free s' = Z_free s /\ mass_density s' = mass_density s /\ T_e s' = T_e s /\ T_i s' = T_i s) /\
  ((forall x, In x v -> 0 < x) -> ion_core_radius s' = Some v) /\
  ((forall x, In x v -> x <= 0) -> ion_core_radius s' = Some (map el_radius (ions s))) /\
  forall w, set_ion_core_radius s' w = set_ion_core_radius s w.
Proof.
  intros s v HL. cbv zeta. split; [repeat split|].
  destruct (radius_lookup (set_ion_core_radius s v) HL) as (r & Er & Lr & K). cbn [over_radius ions set_ion_core_radius] in K, Lr.
  assert (Lr' : length r = length (ions s)) by exact Lr. unfold nions in HL.
  assert (N : forall i, (i < length (ions s))%nat -> exists e o, nth_error (ions s) i = Some e /\ nth_error v i = Some o).
  { intros i Hi. destruct (nth_error (ions s) i) as [e|] eqn:E1; [|apply nth_error_None in E1; lia].
    destruct (nth_error v i) as [o|] eqn:E2; [|apply nth_error_None in E2; lia]. now exists e, o. }
  repeat split.
  - intros Hv. rewrite Er. f_equal. apply same_entries. intros i. destruct (Nat.lt_ge_cases i (length (ions s))) as [Hi|Hi].
    + destruct (N i Hi) as (e & o & E1 & E2). rewrite E2. apply (K i e o E1 E2). apply Hv. now apply nth_error_In with i.
    + rewrite (proj2 (nth_error_None r i)), (proj2 (nth_error_None v i)); lia || reflexivity.
  - intros Hv. rewrite Er. f_equal. apply same_entries. intros i. destruct (Nat.lt_ge_cases i (length (ions s))) as [Hi|Hi].
    + destruct (N i Hi) as (e & o & E1 & E2). rewrite nth_error_map, E1. cbn [option_map]. apply (K i e o E1 E2). apply Hv. now apply nth_error_In with i.
    + rewrite (proj2 (nth_error_None r i)), nth_error_map, (proj2 (nth_error_None (ions s) i)); lia || reflexivity.
Qed.
Print Assumptions C06_setting_the_radius.
Example C06_setting_ex : ion_core_radius (set_ion_core_radius (mkPS [mkEl 6 12 70; mkEl 1 1 53] [1; 1] [1; 1] 10 [10; 10] [-1; -1]) [60; 33]) = Some [60; 33].
Proof. apply C06_setting_the_radius; [reflexivity|]. cbn. intros x [<-|[<-|[]]]; lra. Qed.

(** ** Pauling's effective charges *)
Theorem C57_effective_charge : forall Z i, 0 < nth i (M_Elements.electron_distribution_ionized_state Z) 0 ->
  0 < nth i (pauling_effective_charge Z) 0 /\ nth i (pauling_effective_charge Z) 0 = Z - nth i (pauling_size_screening_constants Z) 0.
Proof.
  intros Z i Hp. assert (Hi : (i < 10)%nat).
  { destruct (Nat.lt_ge_cases i 10) as [|G]; [assumption|]. rewrite nth_overflow in Hp by (cbn; lia). lra. }
  assert (E : nth i (pauling_effective_charge Z) 0 = Z - nth i (pauling_size_screening_constants Z) 0).
  { unfold pauling_effective_charge. rewrite (nth_indep _ 0 (Z - 0)) by (rewrite map_length; exact Hi). now rewrite (map_nth (fun s => Z - s)). }
  split; [|exact E]. rewrite E. destruct (C57_populated_shells unit_consts 0 Z Z i (Rle_refl Z) Hp) as [H _]. lra.
Qed.
Print Assumptions C57_effective_charge.
Example C57_effective_charge_ex : 0 < nth 0 (pauling_effective_charge 6) 0.
Proof. apply C57_effective_charge. rewrite L_Elements.distribution_shells. cbn [nth]. unfold L_Elements.shell, Rmax, Rmin. repeat destruct (Rle_dec _ _); lra. Qed.

(** ** The local field correction of Dornheim in terms of density and temperature *)
Theorem C110_arguments : forall u double x rs t kF n_e T, 0 < kF -> kF ^ 3 = 3 * PI ^ 2 * n_e -> 0 < rs -> 4 / 3 * PI * (rs * a_0 u) ^ 3 * n_e = 1 ->
  kB u * T = t * (hbar u ^ 2 * kF ^ 2 / (2 * m_e u)) ->
  eelfc_dornheim2021 u double (x * kF) T n_e = G_analytical double x rs t.
Proof.
  intros u double x rs t kF n_e T HF EF Hr Er ET. cpos u. pose proof PI_RGT_0 as HPI. unfold eelfc_dornheim2021.
  assert (Hn : 0 < n_e). { assert (0 < kF ^ 3) by now apply pow_lt. assert (0 < 3 * PI ^ 2) by (assert (0 < PI ^ 2) by (apply pow_lt; lra); lra). destruct (Rle_lt_dec n_e 0); [nra|assumption]. }
  assert (EK : fermi_wavenumber n_e = kF).
  { unfold fermi_wavenumber. rewrite <- EF, <- Rpower_pow, Rpower_mult by assumption. replace (INR 3 * (1 / 3)) with 1 by (cbn; field). now apply Rpower_1. }
  assert (EW : wiegner_seitz_radius n_e = rs * a_0 u).
  { assert (Hra : 0 < rs * a_0 u) by now apply Rmult_lt_0_compat. unfold wiegner_seitz_radius.
    replace (3 / (4 * PI * n_e)) with ((rs * a_0 u) ^ 3). 2:{ apply (Rmult_eq_reg_l (4 / 3 * PI * n_e)); [|assert (0 < 4 / 3 * PI * n_e) by (apply Rmult_lt_0_compat; lra); lra]. transitivity (4 / 3 * PI * (rs * a_0 u) ^ 3 * n_e); [ring|]. rewrite Er. field. lra. }
    rewrite <- Rpower_pow, Rpower_mult by assumption. replace (INR 3 * (1 / 3)) with 1 by (cbn; field). now apply Rpower_1. }
  assert (ETh : Theta u T n_e = t).
  { unfold Theta, fermi_energy. replace (Rpower (3 * PI ^ 2 * n_e) (2 / 3)) with (kF ^ 2).
    2:{ rewrite <- EF, <- (Rpower_pow 3 kF), Rpower_mult by assumption. replace (INR 3 * (2 / 3)) with (INR 2) by (cbn; field). now rewrite Rpower_pow. }
    assert (0 < hbar u ^ 2) by now apply pow_lt. assert (0 < kF ^ 2) by now apply pow_lt.
    apply (Rmult_eq_reg_r (hbar u ^ 2 * kF ^ 2 / (2 * m_e u))); [|apply Rgt_not_eq, Rdiv_lt_0_compat; [now apply Rmult_lt_0_compat|lra]]. rewrite <- ET. field. lra. }
  rewrite EK, EW, ETh. f_equal; field; lra.
Qed.
Print Assumptions C110_arguments.
Example C110_arguments_ex : forall double x, exists rs, 0 < rs /\ eelfc_dornheim2021 unit_consts double (x * 1) (1 / 2) (1 / (3 * PI ^ 2)) = G_analytical double x rs 1.
Proof.
  intros double x. pose proof PI_RGT_0 as HP. exists (Rpower (9 * PI / 4) (/ 3)). split; [apply exp_pos|].
  apply C110_arguments; cbn [a_0 kB hbar m_e unit_consts]; try lra; [field; lra|apply exp_pos|].
  rewrite Rmult_1_r, <- Rpower_pow, Rpower_mult by apply exp_pos. replace (/ 3 * INR 3) with 1 by (cbn; field). rewrite Rpower_1 by lra. field. lra.
Qed.

(** ** The collision frequency at zero temperature *)
Lemma zero_K_mirror u k E n : k <> 0 -> dielectric_function_RPA_0K u (- k) E n = dielectric_function_RPA_0K u k (- E) n.
Proof.
  intros Hk. unfold dielectric_function_RPA_0K, noninteracting_susceptibility_0K. cpos u. pose proof (kf_pos n) as Hf. pose proof PI_RGT_0.
  assert (EV : coulomb_k u (-1) (-1) (- k) = coulomb_k u (-1) (-1) k) by (unfold coulomb_k; f_equal; ring).
  assert (EV2 : Vee u (- k) = Vee u k) by (unfold Vee; now rewrite EV). rewrite EV, EV2.
  assert (Hhk : hbar u * k * fermi_wavenumber n <> 0). { apply Rmult_integral_contrapositive; split; [apply Rmult_integral_contrapositive; split; lra|lra]. }
  rewrite (qdiv_some (m_e u * (E / hbar u))) by lra.
  rewrite (qdiv_some (m_e u * (- E / hbar u))) by assumption. cbn [obind].
  rewrite (qdiv_some 1) by (apply Rgt_not_eq; apply Rmult_lt_0_compat; [apply Rmult_lt_0_compat; [lra|apply (a_0_pos u)]|lra]). cbn [obind].
  set (kf := fermi_wavenumber n) in *. set (V := coulomb_k u (-1) (-1) k).
  assert (HV : V <> 0).
  { unfold V, coulomb_k. apply Rgt_not_eq. apply Rdiv_lt_0_compat; [|rewrite <- Rsqr_pow2; now apply Rsqr_pos_lt]. assert (0 < e_ch u ^ 2) by now apply pow_lt. apply Rmult_lt_0_compat; [apply Rdiv_lt_0_compat; lra|lra]. }
  assert (Hz : k / (2 * kf) <> 0) by (apply Rmult_integral_contrapositive; split; [assumption|apply Rinv_neq_0_compat; lra]).
  assert (Hz3 : 4 * (k / (2 * kf)) ^ 3 * V <> 0).
  { apply Rmult_integral_contrapositive; split; [|assumption]. apply Rmult_integral_contrapositive; split; [lra|now apply pow_nonzero]. }
  replace (- k / (2 * kf)) with (- (k / (2 * kf))) by (field; lra). set (z := k / (2 * kf)) in *.
  replace (4 * (- z) ^ 3 * V) with (- (4 * z ^ 3 * V)) by ring.
  rewrite (qdiv_some _ (- (4 * z ^ 3 * V))) by lra. rewrite (qdiv_some _ (4 * z ^ 3 * V)) by assumption. cbn [obind].
  replace (m_e u * (E / hbar u) / (hbar u * - k * kf)) with (- (m_e u * (E / hbar u) / (hbar u * k * kf))) by (field; lra).
  replace (m_e u * (- E / hbar u) / (hbar u * k * kf)) with (- (m_e u * (E / hbar u) / (hbar u * k * kf))) by (field; lra).
  set (U := m_e u * (E / hbar u) / (hbar u * k * kf)). replace (- U + - z) with (- U - z) by ring. replace (- U - - z) with (- U + z) by ring.
  set (q := - (1 / (PI * a_0 u * kf)) / (4 * z ^ 3 * V)). replace (- (1 / (PI * a_0 u * kf)) / - (4 * z ^ 3 * V)) with (- q) by (unfold q; field; repeat split; try assumption; try lra; apply pow_nonzero; assumption).
  destruct (gFortmann (- U - z)) as [a|]; destruct (gFortmann (- U + z)) as [b|]; cbn [obind]; try reflexivity.
  f_equal. f_equal. f_equal. destruct a, b. unfold Cmult, Cminus, Cplus, Copp, RtoC. cbn [fst snd]. f_equal; ring.
Qed.
Theorem C116_symmetric : forall u quad S V Zf n E, quad_scales quad ->
  collision_frequency_BA_0K u quad S V Zf n (- E) = option_map Cconj (collision_frequency_BA_0K u quad S V Zf n E).
Proof.
  intros u quad S V Zf n E HQ. unfold collision_frequency_BA_0K. apply collision_sym; [|exact HQ]. intros q E'.
  destruct (Rtotal_order q 0) as [H|[->|H]].
  - pose proof (zero_K_mirror u (- q) E' n ltac:(lra)) as M1. pose proof (zero_K_mirror u (- q) (- E') n ltac:(lra)) as M2. rewrite Ropp_involutive in M1, M2. rewrite Ropp_involutive in M2.
    rewrite M1, M2, (C115_symmetric u (- q) n E') by lra.
    destruct (dielectric_function_RPA_0K u (- q) E' n) as [[a b]|]; cbn; [|reflexivity]. unfold Cconj. cbn. now rewrite Ropp_involutive.
  - unfold dielectric_function_RPA_0K, noninteracting_susceptibility_0K. unfold qdiv at 1 4. rewrite !Rmult_0_r, !Rmult_0_l.
    destruct (Req_EM_T 0 0) as [_|H]; [reflexivity|now contradiction H].
  - apply C115_symmetric. exact H.
Qed.
Print Assumptions C116_symmetric.
Example C116_symmetric_ex : quad_scales (fun a b f => f (a + 1)).
Proof. intros a b s f. reflexivity. Qed.

(** ** The Pauli potentials act among the electrons only *)
Theorem C127_electrons_only : forall u uL uT N1 ions N n_e T k m,
  (forall a b, (a < ions)%nat \/ (b < ions)%nat -> full_k_separated u uL uT N1 ions N n_e T k a b m = Some 0 /\ full_k_averaged u uL uT N1 ions N n_e T k a b m = Some 0) /\
  full_k_averaged u uL uT N1 ions N n_e T k ions ions m = pauli_averaged u uL uT N1 N (r_calc u N1) (r_of_k N k) n_e T m /\
  forall s t, full_k_separated u uL uT N1 ions N n_e T k (ions + s) (ions + t) m = pauli_separated u uL uT N1 N (r_calc u N1) (r_of_k N k) n_e T s t m.
Proof.
  intros. unfold full_k_separated, full_k_averaged. repeat split.
  - destruct (Nat.leb_spec ions a), (Nat.leb_spec ions b); cbn; try reflexivity. lia.
  - destruct (Nat.eqb_spec ions a), (Nat.eqb_spec ions b); cbn; try reflexivity. lia.
  - now rewrite Nat.eqb_refl.
  - intros s t. destruct (Nat.leb_spec ions (ions + s)), (Nat.leb_spec ions (ions + t)); try lia. cbn [andb]. f_equal; lia.
Qed.
Print Assumptions C127_electrons_only.

(** ** What a state hands to the potentials *)
Theorem C132_length : forall s, wf s -> masses_pos s -> length (over_radius s) = state_len s ->
  forall len, exists e, env_of s len = Some e /\ e_s e = s /\ length (e_ni e) = state_len s /\ length (e_rc e) = state_len s /\
    Some (e_ne e) = n_e s /\ Some (e_ni e) = n_i s /\ Some (e_rc e) = ion_core_radius s /\ e_len e = len.
Proof.
  intros s W HM HR len. unfold env_of. destruct (radius_lookup s HR) as (r & Er & Lr & _). destruct (wf_zip s W) as (l & E).
  assert (En : n_i s = Some (map sp_n l)) by (rewrite E; apply n_i_zip).
  assert (Ee : n_e s = Some (sum (map (fun x => sp_n x * sp_Z x) l))) by (rewrite E; apply n_e_zip).
  rewrite En, Ee, Er. cbn [obind]. eexists. split; [reflexivity|]. cbn [e_s e_ni e_rc e_ne e_len]. repeat split; try assumption.
  rewrite map_length. unfold state_len. rewrite E. cbn [ions]. now rewrite map_length.
Qed.
Print Assumptions C132_length.
Example C132_length_ex : exists e, env_of (mkPS [mkEl 6 12 70; mkEl 1 1 53] [1; 1] [1; 1] 10 [10; 10] [-1; -1]) (fun _ _ => 1) = Some e /\ length (e_ni e) = 2%nat.
Proof.
  destruct (C132_length (mkPS [mkEl 6 12 70; mkEl 1 1 53] [1; 1] [1; 1] 10 [10; 10] [-1; -1])) with (len := fun _ _ : nat => 1) as (e & A & _ & B & _).
  - repeat split.
  - intros e [<-|[<-|[]]]; cbn; lra.
  - reflexivity.
  - now exists e.
Qed.
