(** Changing the system of units: pair potentials. *)
From Coq Require Import Reals List Lra Lia Bool Arith.
From Verif Require Import M_Const M_PlasmaState M_Interp M_Potentials L_Rescale L_Rescale2 L_Rescale4.
Import ListNotations.
Open Scope R_scope.

Definition elconv (w : usys) (e : element) : element := mkEl (el_Z e) (el_mass e * uM w) (el_radius e * uL w).
Definition psconv (w : usys) (s : pstate) : pstate :=
  mkPS (map (elconv w) (ions s)) (Z_free s) (map (fun x => x * (uM w / uL w ^ 3)) (mass_density s)) (T_e s * uK w) (map (fun x => x * uK w) (T_i s)) (map (fun x => x * uL w) (over_radius s)).
Definition econv (w : usys) (E : env) : env :=
  mkEnv (psconv w (e_s E)) (map (fun x => x / uL w ^ 3) (e_ni E)) (e_ne E / uL w ^ 3) (map (fun x => x * uL w) (e_rc E)) (fun a b => e_len E a b * uL w).
Definition cconv (w : usys) (c : cls) : cls := match c with Yukawa s => Yukawa (s * uL w) | _ => c end.
(** a function of a quantity of unit [s], with values of unit [g] *)
Definition osc (s g : R) (f f' : option (R -> R)) : Prop :=
  match f, f' with Some f, Some f' => forall x, f' (x * s) = f x * g | None, None => True | _, _ => False end.

Section R.
  Variables (w : usys) (u : consts) (md : mode) (E : env) (a b : nat).
  Local Notation u' := (conv w u).
  Local Notation E' := (econv w E).
  Lemma ext_sc l x y c : extra md (map (fun x => x * c) l) (x * c) (y * c) = map (fun x => x * c) (extra md l x y).
  Proof. destruct md; cbn; [reflexivity|now rewrite map_app|now rewrite map_app]. Qed.
  Lemma nions_sc : n_ions E' = n_ions E. Proof. unfold n_ions. cbn. apply map_length. Qed.
  Lemma pm_sc i : at_ (pmasses u' md E') i = at_ (pmasses u md E) i * uM w.
  Proof.
    unfold pmasses, atomic_masses. cbn [econv psconv e_s ions conv m_e]. rewrite map_map. cbn [elconv el_mass].
    replace (map (fun x => el_mass x * uM w) (ions (e_s E))) with (map (fun x => x * uM w) (map el_mass (ions (e_s E)))) by (rewrite map_map; reflexivity).
    rewrite ext_sc. apply at_map_sc.
  Qed.
  Lemma tm_sc i : at_ (temps md E') i = at_ (temps md E) i * uK w.
  Proof. unfold temps. cbn [econv psconv e_s T_i T_e]. rewrite ext_sc. apply at_map_sc. Qed.
  Lemma dn_sc i : at_ (densities md E') i = at_ (densities md E) i * / uL w ^ 3.
  Proof.
    unfold densities. cbn [econv e_ni e_ne]. replace (e_ne E / uL w ^ 3 / 2) with (e_ne E / 2 * / uL w ^ 3) by (upos w; field; lra).
    change (map (fun x => x / uL w ^ 3) (e_ni E)) with (map (fun x => x * / uL w ^ 3) (e_ni E)). change (e_ne E / uL w ^ 3) with (e_ne E * / uL w ^ 3). rewrite ext_sc. apply at_map_sc.
  Qed.
  Lemma q2_sc : q2 u' md E' a b = q2 u md E a b * uQ w ^ 2.
  Proof. unfold q2. change (charges md E') with (charges md E). cbn [conv e_ch]. ring. Qed.
  Lemma Tab_sc : T_ab u' md E' a b = T_ab u md E a b * uK w.
  Proof.
    upos w. unfold T_ab. rewrite !pm_sc, !tm_sc. unfold Rdiv. rewrite <- Rmult_plus_distr_r, Rinv_mul. set (i := / (_ + _)). field. lra.
  Qed.
  Lemma mu_sc : mu u' md E' a b = mu u md E a b * uM w.
  Proof. upos w. unfold mu. rewrite !pm_sc. unfold Rdiv. rewrite <- Rmult_plus_distr_r, Rinv_mul. set (i := / (_ + _)). field. lra. Qed.
  Lemma lam_sc : lambda_ab u' md E' a b = lambda_ab u md E a b * uL w.
  Proof.
    upos w. kpos u. unfold lambda_ab. rewrite mu_sc, Tab_sc. set (m := mu u md E a b). set (T := T_ab u md E a b).
    replace (1 / (2 * (m * uM w) * kB u' * (T * uK w))) with (1 / (2 * m * kB u * T) * (uT w / (uM w * uL w)) ^ 2).
    2: { unfold Rdiv. rewrite !Rmult_1_l, !Rinv_mul. generalize (/ m), (/ T). intros x y. cbn [conv kB]. unfold uE. rewrite !Rpow_mult_distr. field. repeat split; lra. }
    rewrite sqrt_sc by (left; apply Rdiv_lt_0_compat; [lra|apply Rmult_lt_0_compat; lra]). cbn [conv hbar]. unfold uE. field. repeat split; lra.
  Qed.
  Lemma kap_sc' : kappa E' a b = kappa E a b / uL w.
  Proof. unfold kappa. cbn [econv e_len]. unfold Rdiv. rewrite Rinv_mul. ring. Qed.
  Lemma rcut_sc : r_cut E' a b = r_cut E a b * uL w.
  Proof. unfold r_cut. rewrite nions_sc. cbn [econv e_rc]. rewrite !at_map_sc. destruct (_ && _)%bool; [reflexivity|]. destruct (_ && _)%bool; ring. Qed.
  Lemma coul_sc r : coulomb_r u' md E' a b (r * uL w) = coulomb_r u md E a b r * uE w.
  Proof. upos w. kpos u. unfold coulomb_r. rewrite q2_sc. cbn [conv eps0]. unfold Rdiv. rewrite !Rinv_mul, !Rinv_inv. generalize (/ r). intros x. field. repeat split; lra. Qed.
  Lemma coulk_sc k : coulomb_kk u' md E' a b (k * / uL w) = coulomb_kk u md E a b k * (uE w * uL w ^ 3).
  Proof.
    upos w. kpos u. unfold coulomb_kk. rewrite q2_sc. cbn [conv eps0]. unfold Rdiv. rewrite Rpow_mult_distr, pow_inv, !Rinv_mul, !Rinv_inv. generalize (/ k ^ 2). intros x. field. repeat split; lra.
  Qed.
  Lemma rat_L x y : x * uL w / (y * uL w) = x / y.
  Proof. upos w. unfold Rdiv. rewrite Rinv_mul. generalize (/ y). intros i. field. lra. Qed.
  Lemma kapr_sc r : - (kappa E a b / uL w) * (r * uL w) = - kappa E a b * r.
  Proof. upos w. field. lra. Qed.
  Lemma kT_ab_sc : kB u' * (T_ab u md E a b * uK w) = kB u * T_ab u md E a b * uE w. Proof. apply kT_sc. Qed.
  Lemma rl2 x y : (x * uL w) ^ 2 / (y * uL w) ^ 2 = x ^ 2 / y ^ 2.
  Proof. unfold Rdiv. rewrite <- !pow_inv, <- !Rpow_mult_distr. f_equal. exact (rat_L x y). Qed.
  Lemma full_r_sc c : (forall f g, c <> Pauli f g) -> osc (uL w) (uE w) (full_r u md E a b c) (full_r u' md E' a b (cconv w c)).
  Proof.
    intros Hc. upos w. kpos u. destruct c as [| | | | | |sg|be| | |f g]; cbn [cconv full_r osc].
    - intros r. apply coul_sc.
    - intros r. rewrite coul_sc, kap_sc', kapr_sc. ring.
    - intros r. rewrite coul_sc, lam_sc. set (l := lambda_ab u md E a b).
      replace (- (r * uL w) ^ 2 / (l * uL w) ^ 2) with (- r ^ 2 / l ^ 2) by (unfold Rdiv; rewrite !Ropp_mult_distr_l_reverse; f_equal; symmetry; exact (rl2 r l)).
      rewrite rat_L. replace (sqrt PI * (r * uL w) / (l * uL w)) with (sqrt PI * r / l) by (rewrite <- (rat_L (sqrt PI * r) l); f_equal; ring). ring.
    - intros r. rewrite Tab_sc, lam_sc, q2_sc, kT_ab_sc. set (kt := kB u * T_ab u md E a b). set (l := lambda_ab u md E a b). set (q := q2 u md E a b).
      assert (X : q * uQ w ^ 2 * (1 / (kt * uE w)) / (4 * PI * eps0 u' * (l * uL w)) = q * (1 / kt) / (4 * PI * eps0 u * l)).
      { unfold Rdiv. rewrite !Rmult_1_l, !Rinv_mul. generalize (/ kt), (/ l). intros x y. cbn [conv eps0]. unfold Rdiv. rewrite !Rinv_mul, !Rinv_inv. field. repeat split; lra. }
      rewrite X. set (xi := q * (1 / kt) / (4 * PI * eps0 u * l)).
      replace (kt * uE w * xi ^ 2 / (16 * Rabs (q * uQ w ^ 2) / (4 * PI * eps0 u')) * (r * uL w)) with (kt * xi ^ 2 / (16 * Rabs q / (4 * PI * eps0 u)) * r).
      2: { rewrite Rabs_mult, (Rabs_right (uQ w ^ 2)) by (left; now apply pow_lt). unfold Rdiv. rewrite !Rinv_mul, !Rinv_inv. generalize (/ Rabs q). intros x. cbn [conv eps0]. unfold Rdiv. field. repeat split; lra. }
      unfold Rdiv. ring.
    - intros r. rewrite coul_sc, lam_sc. set (l := lambda_ab u md E a b).
      replace (- (r * uL w) / (l * uL w / sqrt PI)) with (- r / (l / sqrt PI)); [ring|]. rewrite <- (rat_L (- r) (l / sqrt PI)). f_equal; [ring|]. unfold Rdiv. ring.
    - intros r. rewrite coul_sc, rcut_sc. destruct (Rlt_dec 0 (r - r_cut E a b)), (Rlt_dec 0 (r * uL w - r_cut E a b * uL w)); try nra.
    - exact I.
    - intros r. rewrite coul_sc, rcut_sc. destruct (Req_EM_T (r_cut E a b) 0) as [e|e], (Req_EM_T (r_cut E a b * uL w) 0) as [e'|e'].
      + ring.
      + exfalso. apply e'. rewrite e. ring.
      + exfalso. apply Rmult_integral in e'. destruct e'; [contradiction|lra].
      + rewrite rat_L. ring.
    - intros r. rewrite nions_sc. destruct (_ && _)%bool; [ring|]. rewrite lam_sc, rl2, Tab_sc. rewrite (Rmult_assoc (-1)), kT_ab_sc. ring.
    - pose proof lam_sc as HL. pose proof Tab_sc as HT. revert HL HT. clear Hc. destruct md; intros HL HT; cbn [osc]; try exact I. intros r. rewrite nions_sc. destruct (_ && _)%bool; [ring|]. rewrite HL, HT, kT_sc. set (l := lambda_ab u SpinAveraged E a b).
      replace (r * uL w / (l * uL w / sqrt PI)) with (r / (l / sqrt PI)); [ring|]. rewrite <- (rat_L r (l / sqrt PI)). f_equal. unfold Rdiv. ring.
    - exfalso. now apply (Hc f g).
  Qed.
  Hypotheses (Ha : 0 < at_ (densities md E) a) (Hb : 0 < at_ (densities md E) b).
  Lemma alpha_p_sc : alpha md E' a b = alpha md E a b / uL w.
  Proof.
    upos w. kpos u. unfold alpha. rewrite !dn_sc. set (x := at_ (densities md E) a) in *. set (y := at_ (densities md E) b) in *.
    assert (0 < / uL w ^ 3) by (apply Rinv_0_lt_compat; now apply pow_lt). replace (x * / uL w ^ 3 * (y * / uL w ^ 3)) with (x * y * (/ uL w ^ 3) ^ 2) by ring. rewrite sqrt_sc by lra.
    assert (0 < sqrt (x * y)) by (apply sqrt_lt_R0; now apply Rmult_lt_0_compat). set (z := sqrt (x * y)) in *.
    replace (3 / (4 * PI * (z * / uL w ^ 3))) with (3 / (4 * PI * z) * uL w ^ 3) by (field; repeat split; lra).
    rewrite rad_sc by (apply Rdiv_lt_0_compat; [lra|apply Rmult_lt_0_compat; lra]). assert (0 < Rpower (3 / (4 * PI * z)) (1 / 3)) by apply exp_pos. field. repeat split; lra.
  Qed.
  Lemma ar_sc r : - (alpha md E a b / uL w) * (r * uL w) = - alpha md E a b * r.
  Proof. upos w. field. lra. Qed.
  Lemma long_r_sc c : (forall f g, c <> Pauli f g) -> osc (uL w) (uE w) (long_r u md E a b c) (long_r u' md E' a b (cconv w c)).
  Proof.
    intros Hc. pose proof (full_r_sc c Hc) as H. destruct c as [| | | | | |sg|be| | |f g]; cbn [cconv long_r] in *; try exact H;
    try (unfold osc in *; destruct (full_r u md E a b _) as [f1|], (full_r u' md E' a b _) as [f2|]; cbn [obind]; try contradiction; try exact I; intros r; unfold base_long; rewrite H, alpha_p_sc, ar_sc; ring).
    - intros r. rewrite coul_sc, alpha_p_sc, ar_sc. ring.
    - intros r. rewrite coul_sc, alpha_p_sc, ar_sc. ring.
    - intros r. rewrite coul_sc, kap_sc', kapr_sc. ring.
  Qed.
  Lemma short_r_sc c : (forall f g, c <> Pauli f g) -> osc (uL w) (uE w) (short_r u md E a b c) (short_r u' md E' a b (cconv w c)).
  Proof.
    intros Hc. pose proof (full_r_sc c Hc) as H. pose proof (long_r_sc c Hc) as HL. upos w. destruct c as [| | | | | |sg|be| | |f g]; cbn [cconv short_r] in *;
    try (unfold osc in *; destruct (full_r u md E a b _) as [f1|], (full_r u' md E' a b _) as [f2|]; cbn [obind]; try contradiction; try exact I; intros r; unfold base_short; rewrite H, alpha_p_sc, ar_sc; ring).
    - unfold osc, omap2 in *. destruct (full_r u md E a b _) as [f1|], (full_r u' md E' a b _) as [f2|], (long_r u md E a b _) as [f3|], (long_r u' md E' a b _) as [f4|]; cbn [obind]; try contradiction; try exact I. intros r. rewrite H, HL. ring.
    - unfold osc, omap2 in *. destruct (full_r u md E a b _) as [f1|], (full_r u' md E' a b _) as [f2|], (long_r u md E a b _) as [f3|], (long_r u' md E' a b _) as [f4|]; cbn [obind]; try contradiction; try exact I. intros r. rewrite H, HL. ring.
    - intros r. ring.
    - intros r. rewrite Tab_sc. unfold Rdiv. rewrite !Rpow_mult_distr, !Rinv_mul. generalize (/ r ^ 4). intros x. cbn [conv kB]. field. repeat split; lra.
  Qed.
  Lemma k2a x y : x * / uL w * 1 = x * / uL w * 1 -> (x * / uL w) ^ 2 + (y / uL w) ^ 2 = (x ^ 2 + y ^ 2) * / uL w ^ 2.
  Proof. intros _. upos w. field. lra. Qed.
  (** the closed forms in Fourier space *)
  Lemma k_sc' c : In c [Coulomb; DebyeHueckel; Deutsch; EmptyCore] -> forall tr tr' tg tg',
    osc (/ uL w) (uE w * uL w ^ 3) (full_k u tr tg md E a b c) (full_k u' tr' tg' md E' a b c) /\ osc (/ uL w) (uE w * uL w ^ 3) (long_k u tr md E a b c) (long_k u' tr' md E' a b c).
  Proof.
    intros Hc tr tr' tg tg'. upos w. kpos u.
    assert (HK : forall k, coulomb_long_k u' md E' a b (k * / uL w) = coulomb_long_k u md E a b k * (uE w * uL w ^ 3)).
    { intros k. unfold coulomb_long_k. rewrite q2_sc, alpha_p_sc, k2a by reflexivity. set (d := k ^ 2 + alpha md E a b ^ 2). unfold Rdiv. rewrite !Rpow_mult_distr, !pow_inv, !Rinv_mul, !Rinv_inv.
      generalize (/ k ^ 2), (/ d). intros x y. cbn [conv eps0]. unfold Rdiv. rewrite !Rinv_mul, !Rinv_inv. field. repeat split; lra. }
    assert (HC : forall k, coulomb_kk u' md E' a b (k * / uL w) * cos (k * / uL w * r_cut E' a b) = coulomb_kk u md E a b k * cos (k * r_cut E a b) * (uE w * uL w ^ 3)).
    { intros k. rewrite coulk_sc, rcut_sc. replace (k * / uL w * (r_cut E a b * uL w)) with (k * r_cut E a b) by (field; lra). ring. }
    destruct Hc as [<-|[<-|[<-|[<-|[]]]]]; cbn [full_k long_k osc]; split; intros k; try apply HK; try apply HC.
    - apply coulk_sc.
    - rewrite coulk_sc, kap_sc'. replace (kappa E a b / uL w / (k * / uL w)) with (kappa E a b / k) by (unfold Rdiv; rewrite Rinv_mul, Rinv_inv; generalize (/ k); intros; field; lra). unfold Rdiv. ring.
    - rewrite q2_sc, kap_sc', alpha_p_sc. set (al := alpha md E a b). set (kp := kappa E a b). rewrite k2a by reflexivity. replace (kp / uL w + al / uL w) with ((kp + al) / uL w) by (field; lra). rewrite k2a by reflexivity.
      set (d1 := k ^ 2 + kp ^ 2). set (d2 := k ^ 2 + (kp + al) ^ 2). unfold Rdiv. rewrite !Rpow_mult_distr, !pow_inv, !Rinv_mul, !Rinv_inv. generalize (/ k ^ 2), (/ d1), (/ d2). intros x y z.
      cbn [conv eps0]. unfold Rdiv. rewrite !Rinv_mul, !Rinv_inv. field. repeat split; lra.
    - rewrite q2_sc, lam_sc. set (l := lambda_ab u md E a b). set (s := sqrt PI).
      replace (1 / (l * uL w)) with (1 / l / uL w) by (unfold Rdiv; rewrite Rinv_mul; ring). replace (1 / (l * uL w / s)) with (1 / (l / s) / uL w) by (unfold Rdiv; rewrite !Rinv_mul; ring).
      rewrite k2a by reflexivity. set (d := k ^ 2 + (1 / (l / s)) ^ 2). unfold Rdiv. rewrite !Rpow_mult_distr, !pow_inv, !Rinv_mul, !Rinv_inv. generalize (/ k ^ 2), (/ d), (/ l ^ 2). intros x y z.
      cbn [conv eps0]. unfold Rdiv. rewrite !Rinv_mul, !Rinv_inv. field. repeat split; lra.
  Qed.
End R.
