(** Changing the system of units: potential depression and static structure factors. *)
From Coq Require Import Reals List Lra Lia.
From Verif Require Import M_Const M_PlasmaState M_Interp M_PlasmaPhysics L_Rescale L_Rescale2.
From Verif Require M_IPD M_StaticSF.
Import ListNotations.
Open Scope R_scope.

Lemma at_map_sc l j c : at_ (map (fun x => x * c) l) j = at_ l j * c.
Proof. unfold at_. revert j. induction l as [|a l IH]; intros [|j]; cbn; try ring. apply IH. Qed.
Lemma at_map_dv l j c : at_ (map (fun x => x / c) l) j = at_ l j / c.
Proof. apply (at_map_sc l j (/ c)). Qed.
Lemma sum_dv l c : sum (map (fun x => x / c) l) = sum l / c.
Proof. induction l as [|a l IH]; cbn; [unfold Rdiv; ring|]. unfold sum in IH. rewrite IH. unfold Rdiv. ring. Qed.
Lemma Rinv_mul x y : / (x * y) = / x * / y.
Proof.
  destruct (Req_dec x 0) as [->|H]; [rewrite Rmult_0_l, Rinv_0; ring|]. destruct (Req_dec y 0) as [->|H']; [rewrite Rmult_0_r, Rinv_0; ring|]. field. now split.
Qed.

Section R.
  Variables (w : usys) (u : consts).
  Local Notation u' := (conv w u).
  Local Notation den := (fun x => x / uL w ^ 3).
  Local Notation tem := (fun x => x * uK w).

  (** ** Potential depression *)
  Section IPD.
    Import M_IPD.
    Variables isle isle' : R -> R -> R.
    Hypothesis isle_sc : forall n T, isle' (n / uL w ^ 3) (T * uK w) = isle n T / uL w.
    Lemma kis_sc Z ni Ti j : at_ Ti j <> 0 -> kappa_i_sq u' Z (map den ni) (map tem Ti) j = kappa_i_sq u Z ni Ti j * / uL w ^ 2.
    Proof.
      intros H. upos w. kpos u. unfold kappa_i_sq. rewrite at_map_sc. rewrite <- (map_id Z) at 1.
      rewrite (sum_map2_sc _ (fun z n => z ^ 2 * e_ch u ^ 2 * n) _ _ (uQ w ^ 2 / uL w ^ 3)) by (intros; cbn [conv e_ch]; field; lra).
      cbn [conv eps0 kB]. field. repeat split; lra.
    Qed.
    Lemma kes_sc arb ne Te : Te <> 0 -> kappa_e_sq u' isle' arb (ne / uL w ^ 3) (Te * uK w) = kappa_e_sq u isle arb ne Te * / uL w ^ 2.
    Proof. intros H. upos w. kpos u. unfold kappa_e_sq. destruct arb; [rewrite isle_sc; field; lra|]. cbn [conv e_ch eps0 kB]. field. repeat split; lra. Qed.
    Lemma sqrt_inv x : sqrt (x * / uL w ^ 2) = sqrt x / uL w.
    Proof. upos w. replace (/ uL w ^ 2) with ((/ uL w) ^ 2) by (field; lra). apply sqrt_sc. left. now apply Rinv_0_lt_compat. Qed.
    Lemma kD_sc arb ne ni Te Ti Z j : Te <> 0 -> at_ Ti j <> 0 -> kappa_D u' isle' arb (ne / uL w ^ 3) (map den ni) (Te * uK w) (map tem Ti) Z j = kappa_D u isle arb ne ni Te Ti Z j / uL w.
    Proof. intros H H'. unfold kappa_D. rewrite kis_sc, kes_sc by assumption. rewrite <- Rmult_plus_distr_r. apply sqrt_inv. Qed.
    Lemma debye_hueckel_sc arb Zi ne ni Te Ti Z j : Te <> 0 -> at_ Ti j <> 0 ->
      ipd_debye_hueckel u' isle' arb Zi (ne / uL w ^ 3) (map den ni) (Te * uK w) (map tem Ti) Z j = ipd_debye_hueckel u isle arb Zi ne ni Te Ti Z j * uE w.
    Proof. intros H H'. upos w. kpos u. unfold ipd_debye_hueckel. rewrite kD_sc by assumption. cbn [conv e_ch eps0]. field. repeat split; lra. Qed.
    (** a radius from a density *)
    Lemma rad_sc x : 0 < x -> Rpower (x * uL w ^ 3) (1 / 3) = Rpower x (1 / 3) * uL w.
    Proof. intros Hx. upos w. rewrite Rpower_sc by (try apply pow_lt; assumption). now rewrite Rpower_cube_third. Qed.
    Lemma clip6_pos x : 0 < clip6 x.
    Proof. unfold clip6. eapply Rlt_le_trans; [|apply Rmax_r]. apply Rinv_0_lt_compat. lra. Qed.
    Lemma ion_sphere_sc C Zi ne Z j : 0 < ne -> ipd_ion_sphere u' C Zi (ne / uL w ^ 3) Z j = ipd_ion_sphere u C Zi ne Z j * uE w.
    Proof.
      intros H. upos w. kpos u. unfold ipd_ion_sphere. cbv zeta. pose proof (clip6_pos (at_ Z j)). set (zb := clip6 (at_ Z j)) in *.
      replace (3 * zb / (4 * PI * (ne / uL w ^ 3))) with (3 * zb / (4 * PI * ne) * uL w ^ 3) by (field; repeat split; lra).
      rewrite rad_sc by (apply Rdiv_lt_0_compat; [lra|apply Rmult_lt_0_compat; lra]). assert (0 < Rpower (3 * zb / (4 * PI * ne)) (1 / 3)) by apply exp_pos.
      set (r := Rpower _ _) in *. cbn [conv e_ch eps0]. field. repeat split; lra.
    Qed.
    Lemma stewart_pyatt_sc arb Zi ne ni Te Ti Z j : 0 < sum ni -> Te <> 0 -> at_ Ti j <> 0 ->
      ipd_stewart_pyatt u' isle' arb Zi (ne / uL w ^ 3) (map den ni) (Te * uK w) (map tem Ti) Z j = ipd_stewart_pyatt u isle arb Zi ne ni Te Ti Z j * uE w.
    Proof.
      intros Hn H H'. upos w. kpos u. unfold ipd_stewart_pyatt. cbv zeta. rewrite kD_sc, sum_dv by assumption. set (kD := kappa_D _ _ _ _ _ _ _ _ _). set (N := sum ni) in *.
      replace (3 / (4 * PI * (N / uL w ^ 3))) with (3 / (4 * PI * N) * uL w ^ 3) by (field; repeat split; lra).
      rewrite rad_sc by (apply Rdiv_lt_0_compat; [lra|apply Rmult_lt_0_compat; lra]). assert (0 < Rpower (3 / (4 * PI * N)) (1 / 3)) by apply exp_pos.
      set (r := Rpower (3 / (4 * PI * N)) _) in *.
      replace (1 / (kD / uL w) / (r * uL w)) with (1 / kD / r) by (unfold Rdiv; rewrite !Rinv_mul, Rinv_inv; generalize (/ kD); intros; field; repeat split; lra).
      set (ss := 1 / kD / r). cbn [conv e_ch eps0]. field. repeat split; lra.
    Qed.
    Lemma map_dv ne ni : ne <> 0 \/ True -> map (fun n => ne / uL w ^ 3 / n) (map den ni) = map (fun n => ne / n) ni.
    Proof.
      intros _. upos w. rewrite map_map. apply map_ext. intros n. unfold Rdiv. rewrite Rinv_mul, Rinv_inv. generalize (/ n). intros i. field. lra.
    Qed.
    Lemma preston_sc arb cc Zi ne ni Te Ti pop j : 0 < sum ni -> Te <> 0 -> at_ Ti j <> 0 ->
      ipd_preston u' isle' arb cc Zi (ne / uL w ^ 3) (map den ni) (Te * uK w) (map tem Ti) pop j = ipd_preston u isle arb cc Zi ne ni Te Ti pop j * uE w.
    Proof.
      intros Hn H H'. upos w. kpos u.
      assert (X : forall Zb Zp, let T := at_ Ti j in let kD := kappa_D u isle arb ne ni Te Ti Zb j in
        - (1 * kB u' * at_ (map tem Ti) j) / (2 * (Zp + cc)) * (Rpower (1 + 3 * (Zp + cc) * (Zi + 1) * e_ch u' ^ 2 / (4 * eps0 u' * PI * (1 / kappa_D u' isle' arb (ne / uL w ^ 3) (map den ni) (Te * uK w) (map tem Ti) Zb j) * kB u' * at_ (map tem Ti) j)) (2 / 3) - 1)
        = - (1 * kB u * T) / (2 * (Zp + cc)) * (Rpower (1 + 3 * (Zp + cc) * (Zi + 1) * e_ch u ^ 2 / (4 * eps0 u * PI * (1 / kD) * kB u * T)) (2 / 3) - 1) * uE w).
      { intros Zb Zp T kD. rewrite kD_sc, at_map_sc by assumption. fold kD. fold T. fold T in H'.
        replace (3 * (Zp + cc) * (Zi + 1) * e_ch u' ^ 2 / (4 * eps0 u' * PI * (1 / (kD / uL w)) * kB u' * (T * uK w)))
          with (3 * (Zp + cc) * (Zi + 1) * e_ch u ^ 2 / (4 * eps0 u * PI * (1 / kD) * kB u * T)).
        2: { cbn [conv e_ch eps0 kB]. unfold Rdiv. rewrite !Rmult_1_l, !Rinv_mul, !Rinv_inv. generalize kD. intros d. field. repeat split; lra. }
        set (L := 3 * (Zp + cc) * _ * _ / _). set (P := Rpower _ _). cbn [conv kB]. unfold Rdiv. rewrite !Rinv_mul. generalize (/ (Zp + cc)). intros i. field. repeat split; lra. }
      unfold ipd_preston. cbv zeta. destruct pop as [p|].
      - rewrite map_map. apply X.
      - rewrite map_dv, sum_dv by (now right). replace (ne / uL w ^ 3 / (sum ni / uL w ^ 3)) with (ne / sum ni) by (field; repeat split; lra). apply X.
    Qed.
    Lemma n_crit_sc Te Z : n_crit u' (Te * uK w) Z = n_crit u Te Z / uL w ^ 3.
    Proof.
      upos w. kpos u. unfold n_crit. replace (4 * PI * 1 * eps0 u' * kB u' * (Te * uK w) / (Z ^ 2 * e_ch u' ^ 2)) with (4 * PI * 1 * eps0 u * kB u * Te / (Z ^ 2 * e_ch u ^ 2) / uL w).
      2: { cbn [conv e_ch eps0 kB]. unfold Rdiv. rewrite !Rinv_mul. generalize (/ Z ^ 2). intros i. field. repeat split; lra. }
      set (x := _ / (Z ^ 2 * _)). field. repeat split; lra.
    Qed.
    Lemma ekk_sc Z ni Ti : ek_kappa_i_sq u' Z (map den ni) (map tem Ti) = ek_kappa_i_sq u Z ni Ti * / uL w ^ 2.
    Proof.
      upos w. kpos u. unfold ek_kappa_i_sq.
      replace (map2 (fun z n => z ^ 2 * e_ch u' ^ 2 * n) Z (map den ni)) with (map (fun a => a * (uQ w ^ 2 / uL w ^ 3)) (map2 (fun z n => z ^ 2 * e_ch u ^ 2 * n) Z ni)).
      2: { revert ni. induction Z as [|z Z IH]; intros [|n ni]; cbn; try reflexivity. rewrite IH. f_equal. cbn [conv e_ch]. field. lra. }
      apply sum_map2_sc. intros a T. cbn [conv eps0 kB]. unfold Rdiv. rewrite !Rinv_mul. generalize (/ T). intros i. rewrite !Rinv_inv. field. repeat split; lra.
    Qed.
    Lemma ecker_kroell_sc arb C Zi ne ni Te Ti Zmax Z j : 0 < ne -> (forall n, In n ni -> 0 < n) -> 0 < Te -> at_ Zmax j <> 0 ->
      ipd_ecker_kroell u' isle' arb C Zi (ne / uL w ^ 3) (map den ni) (Te * uK w) (map tem Ti) Zmax Z j = ipd_ecker_kroell u isle arb C Zi ne ni Te Ti Zmax Z j * uE w.
    Proof.
      intros Hne Hni HT HZ. upos w. kpos u. assert (0 < uL w ^ 3) by now apply pow_lt. unfold ipd_ecker_kroell. cbv zeta. rewrite n_crit_sc, sum_dv, at_map_dv.
      assert (Hs : 0 <= sum ni). { clear -Hni. induction ni as [|a l IH]; cbn; [lra|]. pose proof (Hni a (or_introl eq_refl)). specialize (IH (fun n h => Hni n (or_intror h))). unfold sum in IH. lra. }
      assert (Hj : 0 <= at_ ni j). { unfold at_. destruct (nth_in_or_default j ni 0) as [h|h]; [left; now apply Hni|rewrite h; lra]. }
      assert (Hc : 0 < n_crit u Te (at_ Zmax j)).
      { unfold n_crit. apply Rmult_lt_0_compat; [apply Rdiv_lt_0_compat; lra|]. apply pow_lt. apply Rdiv_lt_0_compat; [repeat (assumption || apply Rmult_lt_0_compat); lra|].
        apply Rmult_lt_0_compat; [now apply sq_pos_nz|now apply pow_lt]. }
      set (nc := n_crit u Te (at_ Zmax j)) in *. set (N := sum ni) in *.
      replace (nc / uL w ^ 3 / (ne / uL w ^ 3 + N / uL w ^ 3)) with (nc / (ne + N)) by (field; repeat split; lra). rewrite map_map.
      replace (map (fun x => nc / (ne + N) * (x / uL w ^ 3)) ni) with (map den (map (fun n => nc / (ne + N) * n) ni)) by (rewrite map_map; apply map_ext; intros; field; repeat split; lra).
      replace (nc / (ne + N) * (ne / uL w ^ 3)) with (nc / (ne + N) * ne / uL w ^ 3) by (field; repeat split; lra).
      rewrite !ekk_sc, !kes_sc by lra. rewrite <- !Rmult_plus_distr_r, !sqrt_inv. set (kD := sqrt (ek_kappa_i_sq u Z ni Ti + _)). set (kDc := sqrt (ek_kappa_i_sq u Z _ Ti + _)).
      replace (3 / (4 * PI * (ne / uL w ^ 3 + at_ ni j / uL w ^ 3))) with (3 / (4 * PI * (ne + at_ ni j)) * uL w ^ 3) by (field; repeat split; lra).
      replace (3 / (4 * PI * (nc / uL w ^ 3))) with (3 / (4 * PI * nc) * uL w ^ 3) by (field; repeat split; lra).
      rewrite !rad_sc by (apply Rdiv_lt_0_compat; [lra|apply Rmult_lt_0_compat; lra]).
      assert (0 < Rpower (3 / (4 * PI * (ne + at_ ni j))) (1 / 3)) by apply exp_pos. set (r := Rpower (3 / (4 * PI * (ne + at_ ni j))) _) in *. set (rc := Rpower _ _).
      replace (kDc / uL w * (rc * uL w)) with (kDc * rc) by (field; lra). set (CC := match C with Some c => c | None => _ end).
      replace (at_ ni j / uL w ^ 3 + ne / uL w ^ 3) with ((at_ ni j + ne) / uL w ^ 3) by (field; lra).
      assert (Hi : 0 < / uL w ^ 3) by now apply Rinv_0_lt_compat.
      destruct (Rle_dec (at_ ni j + ne) nc) as [a|a], (Rle_dec ((at_ ni j + ne) / uL w ^ 3) (nc / uL w ^ 3)) as [b|b].
      - cbn [conv e_ch eps0]. unfold Rdiv. rewrite !Rmult_1_l, !Rinv_mul, !Rinv_inv. generalize kD. intros d. field. repeat split; lra.
      - exfalso. apply b. unfold Rdiv. apply Rmult_le_compat_r; lra.
      - exfalso. apply a. unfold Rdiv in b. now apply Rmult_le_reg_r in b.
      - cbn [conv e_ch eps0]. field. repeat split; lra.
    Qed.
  End IPD.
  (** the integral of the Pauli blocking, any function of the reduced radius, the density and the temperature that has the dimension of an inverse volume *)
  Lemma pauli_sc pint pint' Zi ne Te : (forall a n T, pint' (a * uL w) (n / uL w ^ 3) (T * uK w) = pint a n T / uL w ^ 3) ->
    M_IPD.ipd_pauli_blocking u' pint' Zi (ne / uL w ^ 3) (Te * uK w) = M_IPD.ipd_pauli_blocking u pint Zi ne Te * uE w.
  Proof.
    intros H. upos w. kpos u. unfold M_IPD.ipd_pauli_blocking. cbv zeta. pose proof (clip6_pos Zi). set (z := M_IPD.clip6 Zi) in *.
    replace (a_0 u' / z) with (a_0 u / z * uL w) by (cbn [conv a_0]; field; lra). rewrite H. cbn [conv e_ch eps0]. field. repeat split; lra.
  Qed.
  (** the integrand of it has no dimension *)
  Lemma pauli_int_sc a mu T p : T <> 0 -> M_IPD.pauli_integrand u' (a * uL w) (mu * uE w) (T * uK w) (p / uL w) = M_IPD.pauli_integrand u a mu T p / uL w ^ 2.
  Proof.
    intros HT. upos w. kpos u. unfold M_IPD.pauli_integrand. replace ((a * uL w) ^ 2 * (p / uL w) ^ 2) with (a ^ 2 * p ^ 2) by (field; lra).
    replace (((1 * hbar u' * (p / uL w)) ^ 2 / (2 * m_e u') - mu * uE w) / (1 * kB u' * (T * uK w))) with (((1 * hbar u * p) ^ 2 / (2 * m_e u) - mu) / (1 * kB u * T))
      by (cbn [conv hbar m_e kB]; unfold uE; field; repeat split; lra).
    assert (0 <= a ^ 2 * p ^ 2) by (apply Rmult_le_pos; apply pow2_ge_0). set (e := exp _). assert (0 < e) by apply exp_pos. field. repeat split; lra.
  Qed.

  (** ** Static structure factors *)
  Section SF.
    Import M_StaticSF.
    Lemma kDAD_sc T n Z : k_D_AD u' (T * uK w) (n / uL w ^ 3) Z = k_D_AD u T n Z / uL w.
    Proof.
      upos w. kpos u. unfold k_D_AD. rewrite <- sqrt_inv. f_equal. cbn [conv e_ch eps0 kB]. unfold Rdiv. rewrite !Rinv_mul. generalize (/ T). intros i. rewrite !Rinv_inv. field. repeat split; lra.
    Qed.
    Lemma lamAD_sc T m1 m2 : 0 < T -> 0 < m1 -> 0 < m2 -> lambda_AD u' (T * uK w) (m1 * uM w) (m2 * uM w) = lambda_AD u T m1 m2 * uL w.
    Proof.
      intros HT H1 H2. upos w. kpos u. unfold lambda_AD. cbv zeta. set (s := uM w * uL w / uT w). assert (0 < s) by (apply Rdiv_lt_0_compat; [apply Rmult_lt_0_compat; lra|lra]).
      replace (2 * PI * (m1 * uM w * (m2 * uM w) / (m1 * uM w + m2 * uM w)) * kB u' * (T * uK w)) with (2 * PI * (m1 * m2 / (m1 + m2)) * kB u * T * s ^ 2)
        by (unfold s; cbn [conv kB]; unfold uE; field; repeat split; nra).
      rewrite sqrt_sc by lra. assert (0 < sqrt (2 * PI * (m1 * m2 / (m1 + m2)) * kB u * T)).
      { apply sqrt_lt_R0. repeat (assumption || apply Rmult_lt_0_compat || apply Rinv_0_lt_compat); lra. }
      set (r := sqrt _) in *. unfold s. cbn [conv hbar]. unfold uE. field. repeat split; lra.
    Qed.
    Lemma T_cf_sc T n : 0 < n -> T_cf_Greg u' (T * uK w) (n / uL w ^ 3) = option_map tem (T_cf_Greg u T n).
    Proof.
      intros Hn. upos w. kpos u. unfold T_cf_Greg. cbv zeta. rewrite (fermi_energy_sc w u n) by exact Hn. rewrite (wsr_sc w u n) by exact Hn.
      replace (wiegner_seitz_radius n * uL w / a_0 u') with (wiegner_seitz_radius n / a_0 u) by (cbn [conv a_0]; field; repeat split; lra).
      replace (fermi_energy u n * uE w / kB u') with (fermi_energy u n / kB u * uK w) by (cbn [conv kB]; field; repeat split; lra).
      set (d := _ - _). rewrite <- (Rmult_1_r d) at 1. rewrite qdiv_sc by lra. destruct (qdiv _ _) as [q|]; cbn [option_map]; [|reflexivity]. f_equal. rewrite <- sqrt_sc by lra. f_equal. field.
    Qed.
    Lemma T_i_eff_sc T D : T_i_eff_Greg (T * uK w) (D * uK w) = T_i_eff_Greg T D * uK w.
    Proof. upos w. kpos u. unfold T_i_eff_Greg. rewrite <- sqrt_sc by lra. f_equal. field. lra. Qed.
    Lemma bohm_staver_sc T n m Z : 0 < n -> 0 < T -> 0 < m -> 0 < Z ->
      T_Debye_Bohm_Staver u' (T * uK w) (n / uL w ^ 3) (m * uM w) Z = T_Debye_Bohm_Staver u T n m Z * uK w.
    Proof.
      intros Hn HT Hm HZ. upos w. kpos u. unfold T_Debye_Bohm_Staver. cbv zeta. rewrite kDAD_sc. set (kD := k_D_AD u T n 1).
      replace (6 * PI ^ 2 * (n / uL w ^ 3) / Z) with (6 * PI ^ 2 * n / Z * / uL w ^ 3) by (field; repeat split; lra).
      assert (0 < PI ^ 2) by now apply pow_lt.
      rewrite Rpower_sc; [|apply Rdiv_lt_0_compat; [apply Rmult_lt_0_compat; lra|lra]|apply Rinv_0_lt_compat; now apply pow_lt]. rewrite Rpower_inv_cube_third by assumption.
      assert (0 < Rpower (6 * PI ^ 2 * n / Z) (1 / 3)) by apply exp_pos. set (km := Rpower _ _) in *.
      replace (Z * e_ch u' ^ 2 * (n / uL w ^ 3) / (eps0 u' * (m * uM w))) with (Z * e_ch u ^ 2 * n / (eps0 u * m) * (/ uT w) ^ 2) by (cbn [conv e_ch eps0]; unfold uE; field; repeat split; lra).
      assert (0 < / uT w) by now apply Rinv_0_lt_compat. rewrite sqrt_sc by lra. set (om := sqrt (Z * _ * _ / _)).
      replace ((om * / uT w) ^ 2 / (1 + (kD / uL w) ^ 2 / (km * / uL w) ^ 2)) with (om ^ 2 / (1 + kD ^ 2 / km ^ 2) * (/ uT w) ^ 2).
      2: { replace ((kD / uL w) ^ 2 / (km * / uL w) ^ 2) with (kD ^ 2 / km ^ 2) by (field; repeat split; lra). unfold Rdiv. rewrite Rpow_mult_distr. ring. }
      rewrite sqrt_sc by lra. cbn [conv hbar kB]. field. repeat split; lra.
    Qed.
    Section AD.
      Variables (k Te Ti ne mi Z : R).
      Hypotheses (HTe : 0 < Te) (HTi : 0 < Ti) (Hmi : 0 < mi) (Hk : k <> 0) (Hne : 0 < ne) (HZ : 0 < Z).
      Lemma Tei_sc : T_ei u' (Te * uK w) (Ti * uK w) (mi * uM w) = T_ei u Te Ti mi * uK w.
      Proof. upos w. kpos u. unfold T_ei, T_rs_Greg2006. cbn [conv m_e]. field. repeat split; try lra. nra. Qed.
      Lemma Tei_pos : 0 < T_ei u Te Ti mi.
      Proof. kpos u. unfold T_ei, T_rs_Greg2006. apply Rdiv_lt_0_compat; [|lra]. apply Rplus_lt_0_compat; apply Rmult_lt_0_compat; lra. Qed.
      Lemma lee_sc : lam_ee u' (Te * uK w) = lam_ee u Te * uL w. Proof. kpos u. unfold lam_ee. cbn [conv m_e]. now apply lamAD_sc. Qed.
      Lemma lii_sc : lam_ii u' (Ti * uK w) (mi * uM w) = lam_ii u Ti mi * uL w. Proof. unfold lam_ii. now apply lamAD_sc. Qed.
      Lemma lei_sc : lam_ei u' (Te * uK w) (Ti * uK w) (mi * uM w) = lam_ei u Te Ti mi * uL w.
      Proof. kpos u. unfold lam_ei. rewrite Tei_sc. cbn [conv m_e]. apply lamAD_sc; [apply Tei_pos|assumption|assumption]. Qed.
      Lemma lee_pos : 0 < lam_ee u Te.
      Proof. kpos u. unfold lam_ee, lambda_AD. apply Rdiv_lt_0_compat; [lra|]. apply sqrt_lt_R0. repeat (assumption || apply Rmult_lt_0_compat || apply Rinv_0_lt_compat); lra. Qed.
      Lemma ln2_pos : 0 < ln 2. Proof. rewrite <- ln_1. apply ln_increasing; lra. Qed.
      Lemma b_pos : 0 < b_ u Te.
      Proof. kpos u. pose proof lee_pos. pose proof ln2_pos. unfold b_, b_AD. apply Rdiv_lt_0_compat; [lra|]. repeat (assumption || apply pow_lt || apply Rmult_lt_0_compat). Qed.
      Lemma b_sc : b_ u' (Te * uK w) = b_ u Te * / uL w ^ 2.
      Proof. upos w. kpos u. pose proof lee_pos. pose proof ln2_pos. unfold b_, b_AD. rewrite lee_sc. field. repeat split; lra. Qed.
      Lemma A_sc : A_ u' (Te * uK w) = A_ u Te * uL w ^ 2.
      Proof.
        upos w. kpos u. pose proof b_pos. unfold A_, A_AD. rewrite b_sc. rewrite Rpower_sc; [|assumption|apply Rinv_0_lt_compat; now apply pow_lt].
        replace (Rpower (/ uL w ^ 2) (- (3 / 2))) with (uL w ^ 3).
        2: { rewrite <- (Rpower_pow 2 (uL w)) by assumption. rewrite <- Rpower_Ropp, Rpower_mult. replace (- INR 2 * - (3 / 2)) with (INR 3) by (cbn [INR]; lra). now rewrite Rpower_pow. }
        cbn [conv kB eps0 e_ch]. field. repeat split; lra.
      Qed.
      Lemma ex_sc : exp (- (k / uL w) ^ 2 / (4 * b_ u' (Te * uK w))) = exp (- k ^ 2 / (4 * b_ u Te)).
      Proof. upos w. pose proof b_pos. rewrite b_sc. f_equal. field. repeat split; lra. Qed.
      Lemma kl_sc l : (k / uL w) ^ 2 * (l * uL w) ^ 2 = k ^ 2 * l ^ 2.
      Proof. upos w. field. lra. Qed.
      Lemma kl_pos l : 0 < 1 + k ^ 2 * l ^ 2.
      Proof. assert (0 <= k ^ 2 * l ^ 2) by (apply Rmult_le_pos; apply pow2_ge_0). lra. Qed.
      Notation c f := (f (k / uL w) (Te * uK w) (Ti * uK w) (ne / uL w ^ 3) (mi * uM w) Z) (only parsing).
      Ltac prep := unfold k_De, k_Di; rewrite ?lee_sc, ?lii_sc, ?lei_sc, ?A_sc, ?ex_sc, ?kDAD_sc, ?kl_sc;
        pose proof (kl_pos (lam_ee u Te)); pose proof (kl_pos (lam_ii u Ti mi)); pose proof (kl_pos (lam_ei u Te Ti mi));
        set (E := exp _) in *; set (kd1 := k_D_AD u Te ne 1) in *; set (kd2 := k_D_AD u Ti ne Z) in *; set (le := lam_ee u Te) in *; set (li := lam_ii u Ti mi) in *; set (lx := lam_ei u Te Ti mi) in *; set (AA := A_ u Te) in *.
      Lemma Delta_sc : c (Delta u') = Delta u k Te Ti ne mi Z / uL w ^ 4.
      Proof. upos w. unfold Delta, Delta_AD. prep. field. repeat split; lra. Qed.
      Lemma pe_sc D : e_ch u' ^ 2 / (eps0 u' * (D / uL w ^ 4)) = e_ch u ^ 2 / (eps0 u * D) * (uE w * uL w ^ 5).
      Proof. upos w. kpos u. cbn [conv e_ch eps0]. unfold Rdiv. rewrite !Rinv_mul, !Rinv_inv. generalize (/ D). intros i. field. repeat split; lra. Qed.
      Lemma Phi_ee_sc : c (Phi_ee_AD u') = Phi_ee_AD u k Te Ti ne mi Z * (uE w * uL w ^ 3).
      Proof. upos w. unfold Phi_ee_AD. cbv zeta. rewrite Delta_sc, pe_sc. set (PP := _ / (eps0 u * _)). prep. field. repeat split; lra. Qed.
      Lemma Phi_ii_sc : c (Phi_ii_AD u') = Phi_ii_AD u k Te Ti ne mi Z * (uE w * uL w ^ 3).
      Proof.
        upos w. unfold Phi_ii_AD. cbv zeta. rewrite Delta_sc.
        replace (Z ^ 2 * e_ch u' ^ 2 / (eps0 u' * (Delta u k Te Ti ne mi Z / uL w ^ 4))) with (Z ^ 2 * (e_ch u' ^ 2 / (eps0 u' * (Delta u k Te Ti ne mi Z / uL w ^ 4)))) by (unfold Rdiv; ring).
        replace (Z ^ 2 * e_ch u ^ 2 / (eps0 u * Delta u k Te Ti ne mi Z)) with (Z ^ 2 * (e_ch u ^ 2 / (eps0 u * Delta u k Te Ti ne mi Z))) by (unfold Rdiv; ring).
        rewrite pe_sc. set (PP := _ / (eps0 u * _)). prep. field. repeat split; lra.
      Qed.
      Lemma Phi_ei_sc : c (Phi_ei_AD u') = Phi_ei_AD u k Te Ti ne mi Z * (uE w * uL w ^ 3).
      Proof.
        upos w. unfold Phi_ei_AD. cbv zeta. rewrite Delta_sc.
        replace (- Z * e_ch u' ^ 2 / (eps0 u' * (Delta u k Te Ti ne mi Z / uL w ^ 4))) with (- Z * (e_ch u' ^ 2 / (eps0 u' * (Delta u k Te Ti ne mi Z / uL w ^ 4)))) by (unfold Rdiv; ring).
        replace (- Z * e_ch u ^ 2 / (eps0 u * Delta u k Te Ti ne mi Z)) with (- Z * (e_ch u ^ 2 / (eps0 u * Delta u k Te Ti ne mi Z))) by (unfold Rdiv; ring).
        rewrite pe_sc. set (PP := _ / (eps0 u * _)). rewrite ?lei_sc, ?kl_sc. pose proof (kl_pos (lam_ei u Te Ti mi)). field. repeat split; lra.
      Qed.
      Lemma nz_sc x : x / Z / uL w ^ 3 = x / uL w ^ 3 / Z. Proof. upos w. field. repeat split; lra. Qed.
      Lemma S_ii_sc : c (S_ii_AD u') = S_ii_AD u k Te Ti ne mi Z.
      Proof. upos w. kpos u. unfold S_ii_AD. rewrite Phi_ii_sc, kT_sc. field. repeat split; lra. Qed.
      Lemma S_ei_sc : c (S_ei_AD u') = S_ei_AD u k Te Ti ne mi Z.
      Proof.
        upos w. kpos u. pose proof Tei_pos. unfold S_ei_AD. rewrite Phi_ei_sc, Tei_sc, kT_sc.
        replace (ne / uL w ^ 3 / Z * (ne / uL w ^ 3)) with (ne / Z * ne * (/ uL w ^ 3) ^ 2) by (field; repeat split; lra).
        assert (0 < / uL w ^ 3). { apply Rinv_0_lt_compat. now apply pow_lt. } rewrite sqrt_sc by lra. set (r := sqrt _). field. repeat split; lra.
      Qed.
      Lemma S_ee_sc : c (S_ee_AD u') = S_ee_AD u k Te Ti ne mi Z.
      Proof.
        upos w. kpos u. unfold S_ee_AD. cbv zeta. rewrite S_ii_sc, S_ei_sc, Phi_ee_sc, kT_sc.
        replace (Te * uK w / (Ti * uK w)) with (Te / Ti) by (field; repeat split; lra).
        replace (ne / uL w ^ 3 / (kB u * Te * uE w) * (Phi_ee_AD u k Te Ti ne mi Z * (uE w * uL w ^ 3))) with (ne / (kB u * Te) * Phi_ee_AD u k Te Ti ne mi Z) by (field; repeat split; lra). reflexivity.
      Qed.
      Lemma q_Greg_sc eps : q_Gregori2004 u' eps (k / uL w) (mi * uM w) (ne / uL w ^ 3) (Te * uK w) (Ti * uK w) Z = q_Gregori2004 u eps k mi ne Te Ti Z.
      Proof. unfold q_Gregori2004. cbv zeta. rewrite S_ii_sc, S_ei_sc, S_ee_sc. reflexivity. Qed.
    End AD.
  End SF.
End R.
