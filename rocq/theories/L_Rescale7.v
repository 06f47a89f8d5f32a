(** Changing the system of units: Born collision frequency and Mermin's approximation. *)
From Coq Require Import Reals List Lra Lia FunctionalExtensionality.
From Coquelicot Require Import Complex.
From Verif Require Import M_Const M_PlasmaState M_PlasmaPhysics M_FreeFree L_Rescale L_Rescale2 L_Rescale3 L_Rescale4.
Import ListNotations.
Open Scope R_scope.

(** A quadrature over [0, infinity) of which the nodes and weights are converted: [c] is
    the factor of the unit of the variable *)
Definition qconv (c : R) (quad : R -> option R -> (R -> option R) -> option R) : R -> option R -> (R -> option R) -> option R :=
  fun a b f => option_map (fun I => I * c) (quad (a / c) (option_map (fun x => x / c) b) (fun x => f (x * c))).
(** The rule is homogeneous in the values *)
Definition homogeneous (quad : R -> option R -> (R -> option R) -> option R) : Prop :=
  forall a b f g, quad a b (fun x => option_map (fun y => y * g) (f x)) = option_map (fun I => I * g) (quad a b f).
Definition csc (s : R) (z : C) : C := Cmult z (RtoC s).
Lemma csc_pair s a b : csc s (a, b) = (a * s, b * s).
Proof. unfold csc, Cmult, RtoC. cbn. f_equal; ring. Qed.
Lemma csc_z s z : csc s z = (fst z * s, snd z * s).
Proof. destruct z. apply csc_pair. Qed.
Lemma cdiv_sc a b s : s <> 0 -> cdiv (csc s a) (csc s b) = cdiv a b.
Proof.
  intros Hs. unfold cdiv. destruct (Ceq_dec (csc s b) (RtoC 0)) as [e|n], (Ceq_dec b (RtoC 0)) as [e'|n']; try reflexivity.
  - exfalso. apply n'. now apply (Cmult_neq b s).
  - exfalso. apply n. rewrite e'. unfold csc. ring.
  - f_equal. unfold csc. assert (RtoC s <> RtoC 0) by (intros X; apply RtoC_inj in X; contradiction). field. now split.
Qed.
Lemma cdiv_scl a b s : cdiv (csc s a) b = option_map (csc s) (cdiv a b).
Proof. unfold cdiv. destruct (Ceq_dec b (RtoC 0)); cbn [option_map]; [reflexivity|]. f_equal. unfold csc, Cdiv. ring. Qed.

Section R.
  Variables (w : usys) (u : consts) (quad : R -> option R -> (R -> option R) -> option R).
  Local Notation u' := (conv w u).
  Hypothesis HQ : homogeneous quad.
  Lemma w_sc E : E * uE w / hbar u' = E / hbar u * / uT w.
  Proof. upos w. kpos u. cbn [conv hbar]. unfold uE. field. repeat split; lra. Qed.
  (** the collision frequency *)
  Section Coll.
    Variables (eps eps' : R -> R -> option C) (S S' V V' : R -> R) (Zf E : R).
    Hypotheses (He : forall q E, eps' (q * / uL w) (E * uE w) = eps q E) (HS : forall q, S' (q * / uL w) = S q) (HV : forall q, V' (q * / uL w) = V q * (uE w * uL w ^ 3)) (HZ : Zf <> 0).
    Lemma integrand_sc q : coll_integrand u' eps' S' V' (E * uE w) (q * / uL w) = option_map (csc (uE w ^ 2 * uT w)) (coll_integrand u eps S V E q).
    Proof.
      upos w. unfold coll_integrand. rewrite <- (Rmult_0_l (uE w)) at 1. rewrite !He. rewrite option_map_obind. apply obind_ext. intros e0. rewrite option_map_obind. apply obind_ext. intros e.
      rewrite w_sc. rewrite <- (Rmult_1_r 1) at 1. rewrite qdiv_sc by (apply Rinv_neq_0_compat; lra). rewrite obind_map, option_map_obind. apply obind_ext. intros iw. cbn [option_map]. f_equal.
      rewrite HS, HV. rewrite csc_z. apply injective_projections; cbn; field; lra.
    Qed.
    Lemma coll_part_sc (part : C -> R) : (forall z s, part (csc s z) = part z * s) ->
      coll_part u' (qconv (/ uL w) quad) eps' S' V' Zf part (E * uE w) = option_map (fun x => x * / uT w) (coll_part u quad eps S V Zf part E).
    Proof.
      intros Hp. upos w. kpos u. unfold coll_part, qconv. cbn [option_map]. replace (0 / / uL w) with 0 by (field; lra).
      replace (fun x => option_map part (coll_integrand u' eps' S' V' (E * uE w) (x * / uL w))) with (fun x => option_map (fun y => y * (uE w ^ 2 * uT w)) (option_map part (coll_integrand u eps S V E x))).
      2: { apply functional_extensionality. intros q. rewrite integrand_sc. destruct (coll_integrand u eps S V E q); cbn [option_map]; [now rewrite Hp|reflexivity]. }
      rewrite HQ. rewrite !obind_map, option_map_obind. apply obind_ext. intros I. cbn [option_map]. f_equal. unfold coll_prefactor. cbn [conv eps0 e_ch m_e]. unfold uE. field. repeat split; lra.
    Qed.
    Lemma collision_sc : collision_frequency u' (qconv (/ uL w) quad) eps' S' V' Zf (E * uE w) = option_map (csc (/ uT w)) (collision_frequency u quad eps S V Zf E).
    Proof.
      unfold collision_frequency. rewrite !coll_part_sc by (intros z s; rewrite csc_z; reflexivity). rewrite obind_map, option_map_obind. apply obind_ext. intros re. rewrite obind_map, option_map_obind. apply obind_ext. intros im.
      cbn [option_map]. now rewrite csc_pair.
    Qed.
  End Coll.
  Lemma kappa_exact_sc T mu : T <> 0 ->
    inverse_screening_length_exact u' (qconv (uE w) quad) (T * uK w) (mu * uE w) = option_map (fun x => x * / uL w) (inverse_screening_length_exact u quad T mu).
  Proof.
    intros HT. upos w. kpos u. unfold inverse_screening_length_exact. cbv zeta. unfold qconv. cbn [option_map]. replace (0 / uE w) with 0 by (field; lra).
    replace (fun x => obind (qdiv 1 (sqrt (x * uE w))) (fun s => Some (s * / (exp ((x * uE w - mu * uE w) / (kB u' * (T * uK w))) + 1)))) with
      (fun x => option_map (fun y => y * / sqrt (uE w)) (obind (qdiv 1 (sqrt x)) (fun s => Some (s * / (exp ((x - mu) / (kB u * T)) + 1))))).
    2: { apply functional_extensionality. intros x. rewrite kT_sc, (Rmult_comm x (uE w)), sqrt_mult_alt, (Rmult_comm (sqrt (uE w))) by lra. assert (0 < sqrt (uE w)) by now apply sqrt_lt_R0. rewrite <- (Rmult_1_r 1) at 2.
      rewrite qdiv_sc by lra. rewrite obind_map, option_map_obind. apply obind_ext. intros s. cbn [option_map]. f_equal. replace ((uE w * x - mu * uE w) / (kB u * T * uE w)) with ((x - mu) / (kB u * T)) by (field; repeat split; lra). field.
      split; [|lra]. assert (0 < exp ((x - mu) / (kB u * T))) by apply exp_pos. lra. }
    rewrite HQ. rewrite !obind_map, option_map_obind. apply obind_ext. intros I. rewrite <- sqrto_sc by (now apply Rinv_0_lt_compat). f_equal.
    assert (HM : Rpower (m_e u') (3 / 2) = Rpower (m_e u) (3 / 2) * (uM w * sqrt (uM w))).
    { cbn [conv m_e]. rewrite Rpower_sc by assumption. f_equal. replace (3 / 2) with (1 + / 2) by lra. rewrite Rpower_plus, Rpower_1, Rpower_sqrt by assumption. reflexivity. }
    rewrite HM. assert (sqrt (uE w) = sqrt (uM w) * (uL w / uT w)) as ->.
    { unfold uE. rewrite <- sqrt_sc by (left; apply Rdiv_lt_0_compat; lra). f_equal. field. lra. }
    assert (0 < sqrt (uM w)) by now apply sqrt_lt_R0. assert (0 < sqrt 2) by (apply sqrt_lt_R0; lra). set (r := Rpower (m_e u) (3 / 2)). cbn [conv e_ch eps0 hbar]. unfold uE. field. repeat split; lra.
  Qed.
  Lemma kappa_nd_sc n T : T <> 0 -> inverse_screening_length_non_degenerate u' (n / uL w ^ 3) (T * uK w) = inverse_screening_length_non_degenerate u n T * / uL w.
  Proof.
    intros HT. upos w. kpos u. unfold inverse_screening_length_non_degenerate. rewrite <- sqrt_sc by (left; now apply Rinv_0_lt_compat). f_equal. cbn [conv e_ch eps0 kB]. field. repeat split; lra.
  Qed.
  Lemma debye_pot_sc q kp Zf : q ^ 2 + kp ^ 2 <> 0 ->
    statically_screened_ie_debye_potential u' (q * / uL w) (kp * / uL w) Zf = statically_screened_ie_debye_potential u q kp Zf * (uE w * uL w ^ 3).
  Proof. intros H. upos w. kpos u. unfold statically_screened_ie_debye_potential. cbn [conv e_ch eps0]. field. repeat split; try lra; try (intros X; apply H; nra). Qed.

  Lemma Ci_out z : Cmult Ci z = (- snd z, fst z).
  Proof. destruct z. unfold Cmult, Ci. cbn. f_equal; ring. Qed.
  Lemma fit_sc x nu e p : mermin_fit (x * / uT w) (csc (/ uT w) nu) e p = mermin_fit x nu e p.
  Proof.
    upos w. unfold mermin_fit. cbv zeta.
    replace (Cmult (Cmult (Cplus (RtoC (x * / uT w)) (Cmult Ci (csc (/ uT w) nu))) p) (Cminus e (RtoC 1))) with (csc (/ uT w) (Cmult (Cmult (Cplus (RtoC x) (Cmult Ci nu)) p) (Cminus e (RtoC 1)))) by (unfold csc; rewrite RtoC_mult; ring).
    replace (Cplus (Cmult p (RtoC (x * / uT w))) (Cmult (Cmult Ci (csc (/ uT w) nu)) (Cminus e (RtoC 1)))) with (csc (/ uT w) (Cplus (Cmult p (RtoC x)) (Cmult (Cmult Ci nu) (Cminus e (RtoC 1))))) by (unfold csc; rewrite RtoC_mult; ring).
    rewrite cdiv_sc by (apply Rinv_neq_0_compat; lra). reflexivity.
  Qed.
  Lemma interp_sc x nu e p : mermin_interp (x * / uT w) (csc (/ uT w) nu) e p = mermin_interp x nu e p.
  Proof.
    upos w. unfold mermin_interp. cbv zeta.
    replace (Cplus (Cmult (Cmult (RtoC (x * / uT w)) p) (Cminus e (RtoC 1))) (Cmult (Cmult (Cmult Ci (csc (/ uT w) nu)) p) (Cminus e (RtoC 1))))
      with (csc (/ uT w) (Cplus (Cmult (Cmult (RtoC x) p) (Cminus e (RtoC 1))) (Cmult (Cmult (Cmult Ci nu) p) (Cminus e (RtoC 1))))) by (unfold csc; rewrite RtoC_mult; ring).
    replace (Cplus (Cmult p (RtoC (x * / uT w))) (Cmult (Cmult Ci (csc (/ uT w) nu)) (Cminus e (RtoC 1)))) with (csc (/ uT w) (Cplus (Cmult p (RtoC x)) (Cmult (Cmult Ci nu) (Cminus e (RtoC 1))))) by (unfold csc; rewrite RtoC_mult; ring).
    rewrite cdiv_sc by (apply Rinv_neq_0_compat; lra). reflexivity.
  Qed.
  Lemma rtoc_csc x s : RtoC (x * s) = csc s (RtoC x). Proof. unfold csc. apply RtoC_mult. Qed.
  Lemma full_sc x nu e p : mermin_full (x * / uT w) (csc (/ uT w) nu) e p = mermin_full x nu e p.
  Proof. upos w. unfold mermin_full. rewrite rtoc_csc, cdiv_sc by (apply Rinv_neq_0_compat; lra). reflexivity. Qed.
  Lemma Fort_sc x nu a b s : s <> 0 -> mermin_Fortmann (x * / uT w) (csc (/ uT w) nu) (csc s a) (csc s b) = option_map (csc s) (mermin_Fortmann x nu a b).
  Proof.
    intros Hs. upos w. unfold mermin_Fortmann. replace (Cmult Ci (RtoC (x * / uT w))) with (csc (/ uT w) (Cmult Ci (RtoC x))) by (unfold csc; rewrite RtoC_mult; ring).
    rewrite cdiv_sc by (apply Rinv_neq_0_compat; lra). rewrite option_map_obind. apply obind_ext. intros r.
    replace (Cmult (Cminus (RtoC 1) r) (Cmult (csc s a) (csc s b))) with (csc s (csc s (Cmult (Cminus (RtoC 1) r) (Cmult a b)))) by (unfold csc; ring).
    replace (Cminus (csc s a) (Cmult r (csc s b))) with (csc s (Cminus a (Cmult r b))) by (unfold csc; ring). rewrite cdiv_sc by exact Hs. apply cdiv_scl.
  Qed.
  Lemma damped_at_sc b k E nu mu T : 0 < k -> 0 < T ->
    damped_at u' quad b (k / uL w) (E * uE w) (csc (/ uT w) nu) (mu * uE w) (T * uK w) = damped_at u quad b k E nu mu T.
  Proof.
    intros Hk HT. upos w. kpos u. unfold damped_at. rewrite <- (damped_sc w u quad b k (Cplus (RtoC E) (Cmult Ci (Cmult (RtoC (hbar u)) nu))) mu T) by assumption. f_equal.
    destruct nu as [x y]. rewrite csc_pair. cbn [conv hbar]. unfold Esc, uE. apply injective_projections; cbn; field; lra.
  Qed.
  Variables F_m12 F_32 F_52 inv_F12 : R -> R.
  Local Notation vol := (uE w * uL w ^ 3).
  Lemma nd_sc b k E mu T : 0 < k -> 0 < T -> dielectric_function_RPA_no_damping u' quad b (k / uL w) (E * uE w) (mu * uE w) (T * uK w) = dielectric_function_RPA_no_damping u quad b k E mu T.
  Proof. intros Hk HT. unfold dielectric_function_RPA_no_damping. rewrite real_nd_sc, imag_nd_sc by lra. reflexivity. Qed.
  Lemma diel_Dandrea_sc k E T n : 0 < k -> 0 < n ->
    dielectric_function_Dandrea u' F_m12 F_32 F_52 inv_F12 (k / uL w) (E * uE w) (T * uK w) (n / uL w ^ 3) = dielectric_function_Dandrea u F_m12 F_32 F_52 inv_F12 k E T n.
  Proof.
    intros Hk Hn. pose proof (vol_pos w) as Hv. cbv zeta in Hv. unfold dielectric_function_Dandrea. rewrite xi0_Dandrea_sc by assumption. rewrite obind_map. apply obind_ext. intros x. rewrite coulomb_k_sc by lra. f_equal. f_equal.
    rewrite RtoC_mult. assert (RtoC vol <> RtoC 0) by (intros X; apply RtoC_inj in X; lra). rewrite RtoC_inv by lra. field. assumption.
  Qed.
  Section BMA.
    Variables (nu nu' : R -> option C) (b : bool) (k T n mu : R).
    Hypotheses (Hnu : forall E, nu' (E * uE w) = option_map (csc (/ uT w)) (nu E)) (Hk : 0 < k) (HT : 0 < T) (Hn : 0 < n).
    Local Notation k' := (k / uL w).
    Local Notation T' := (T * uK w).
    Local Notation n' := (n / uL w ^ 3).
    Local Notation mu' := (mu * uE w).
    Lemma BMA_fit_sc E : dielectric_function_BMA_fit u' quad F_m12 F_32 F_52 inv_F12 b nu' k' (E * uE w) mu' T' n' = dielectric_function_BMA_fit u quad F_m12 F_32 F_52 inv_F12 b nu k E mu T n.
    Proof.
      unfold dielectric_function_BMA_fit. rewrite Hnu, obind_map. apply obind_ext. intros v. rewrite <- (Rmult_0_l (uE w)) at 1. rewrite diel_Dandrea_sc by assumption. apply obind_ext. intros e0.
      rewrite damped_at_sc by assumption. apply obind_ext. intros e. rewrite w_sc. apply fit_sc.
    Qed.
    Lemma BMA_interp_sc E : dielectric_function_BMA_interp u' quad b nu' k' (E * uE w) mu' T' n' = dielectric_function_BMA_interp u quad b nu k E mu T n.
    Proof.
      unfold dielectric_function_BMA_interp. rewrite Hnu, obind_map. apply obind_ext. intros v. rewrite <- (Rmult_0_l (uE w)) at 1. rewrite nd_sc by assumption. apply obind_ext. intros e0.
      rewrite damped_at_sc by assumption. apply obind_ext. intros e. rewrite w_sc. apply interp_sc.
    Qed.
    Lemma BMA_full_sc E : dielectric_function_BMA_full u' quad b nu' k' (E * uE w) mu' T' n' = dielectric_function_BMA_full u quad b nu k E mu T n.
    Proof.
      unfold dielectric_function_BMA_full. rewrite Hnu, obind_map. apply obind_ext. intros v. rewrite damped_at_sc by assumption. apply obind_ext. intros e. rewrite <- (Rmult_0_l (uE w)) at 1. rewrite nd_sc by assumption. apply obind_ext. intros e0.
      rewrite w_sc. apply full_sc.
    Qed.
    Lemma susc_Fort_sc E lfc : susceptibility_BMA_Fortmann u' quad F_m12 F_32 F_52 inv_F12 b nu' k' (E * uE w) mu' T' n' lfc =
      option_map (csc (/ vol)) (susceptibility_BMA_Fortmann u quad F_m12 F_32 F_52 inv_F12 b nu k E mu T n lfc).
    Proof.
      pose proof (vol_pos w) as Hv. cbv zeta in Hv. unfold susceptibility_BMA_Fortmann. rewrite Hnu, obind_map, option_map_obind. apply obind_ext. intros v. rewrite damped_at_sc by assumption. rewrite option_map_obind. apply obind_ext. intros e.
      rewrite xi0_eps_sc by lra. rewrite coulomb_k_sc by lra. rewrite xi_lfc_sc by lra. rewrite obind_map, option_map_obind. apply obind_ext. intros xd. rewrite <- (Rmult_0_l (uE w)) at 1. rewrite xi0_Dandrea_sc by assumption.
      rewrite obind_map, option_map_obind. apply obind_ext. intros x0. rewrite xi_lfc_sc by lra. rewrite obind_map, option_map_obind. apply obind_ext. intros xs. rewrite w_sc. apply Fort_sc. apply Rinv_neq_0_compat. lra.
    Qed.
    Lemma BMA_Fort_sc E lfc : dielectric_function_BMA_Fortmann u' quad F_m12 F_32 F_52 inv_F12 b nu' k' (E * uE w) mu' T' n' lfc = dielectric_function_BMA_Fortmann u quad F_m12 F_32 F_52 inv_F12 b nu k E mu T n lfc.
    Proof.
      pose proof (vol_pos w) as Hv. cbv zeta in Hv. unfold dielectric_function_BMA_Fortmann. rewrite susc_Fort_sc, obind_map. apply obind_ext. intros x. rewrite coulomb_k_sc by lra. f_equal. f_equal.
      unfold csc. rewrite RtoC_mult. assert (RtoC vol <> RtoC 0) by (intros X; apply RtoC_inj in X; lra). rewrite RtoC_inv by lra. field. assumption.
    Qed.
    Lemma S0_Fort_sc E lfc : S0_ee_BMA_Fortmann u' quad F_m12 F_32 F_52 inv_F12 b nu' k' T' mu' n' (E * uE w) lfc = option_map (fun x => x * uT w) (S0_ee_BMA_Fortmann u quad F_m12 F_32 F_52 inv_F12 b nu k T mu n E lfc).
    Proof.
      unfold S0_ee_BMA_Fortmann. cbv zeta. replace (- (E * uE w)) with (- E * uE w) by ring. rewrite susc_Fort_sc, obind_map, option_map_obind. apply obind_ext. intros x. apply FDT_sc; lra.
    Qed.
    Lemma S0_BMA_sc d d' E lfc : (forall E, d' nu' k' (E * uE w) mu' T' n' = d nu k E mu T n) ->
      S0_ee_BMA u' d' nu' k' T' mu' n' (E * uE w) lfc = option_map (fun x => x * uT w) (S0_ee_BMA u d nu k T mu n E lfc).
    Proof.
      intros Hd. pose proof (vol_pos w) as Hv. cbv zeta in Hv. unfold S0_ee_BMA. cbv zeta. replace (- (E * uE w)) with (- E * uE w) by ring. rewrite Hd. rewrite option_map_obind. apply obind_ext. intros e.
      rewrite xi0_eps_sc by lra. rewrite v_k_sc by lra. rewrite xi_lfc_sc by lra. rewrite obind_map, option_map_obind. apply obind_ext. intros x. apply FDT_sc; lra.
    Qed.
  End BMA.
End R.
