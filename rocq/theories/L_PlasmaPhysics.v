From Coq Require Import Reals List Lra Lia Psatz Permutation.
From Coquelicot Require Import Complex.
From Verif Require Import M_Const M_PlasmaState L_PlasmaState M_PlasmaPhysics.
Import ListNotations.
Open Scope R_scope.

Ltac cpos u :=
  pose proof (hbar_pos u); pose proof (c_pos u); pose proof (e_pos u); pose proof (eps0_pos u);
  pose proof (kB_pos u); pose proof (m_e_pos u); pose proof (a_0_pos u); pose proof PI_RGT_0.
Ltac pos := repeat first
  [ assumption | apply Rdiv_lt_0_compat | apply Rmult_lt_0_compat | apply Rinv_0_lt_compat | apply pow_lt | lra | apply exp_pos ].

Lemma Rdiv_lt_compat_r a b c : 0 < c -> a < b -> a / c < b / c.
Proof. intros. unfold Rdiv. apply Rmult_lt_compat_r; [now apply Rinv_0_lt_compat|assumption]. Qed.
Lemma Rdiv_le_compat_r a b c : 0 < c -> a <= b -> a / c <= b / c.
Proof. intros. unfold Rdiv. apply Rmult_le_compat_r; [left; now apply Rinv_0_lt_compat|assumption]. Qed.
Lemma inv_lt a b : 0 < a -> a < b -> 1 / b < 1 / a.
Proof. intros. unfold Rdiv. rewrite !Rmult_1_l. apply Rinv_lt_contravar; [apply Rmult_lt_0_compat; lra|assumption]. Qed.

Section L.
  Variable u : consts.

  (** ** Fermi-Dirac *)
  Lemma fd_range k mu T : 0 < fermi_dirac u k mu T < 1.
  Proof.
    unfold fermi_dirac. set (x := _ / (kB u * T)). pose proof (exp_pos x). split.
    - apply Rdiv_lt_0_compat; lra.
    - apply Rlt_le_trans with (1 / 1); [apply inv_lt; lra|lra].
  Qed.
  Lemma kin_mono k1 k2 : 0 <= k1 < k2 -> kin_energy u k1 < kin_energy u k2.
  Proof.
    intros H. cpos u. unfold kin_energy. apply Rdiv_lt_compat_r; [lra|].
    apply Rmult_lt_compat_l; [pos|]. nra.
  Qed.
  Lemma fd_decr k1 k2 mu T : 0 < T -> 0 <= k1 < k2 -> fermi_dirac u k2 mu T < fermi_dirac u k1 mu T.
  Proof.
    intros HT H. cpos u. unfold fermi_dirac. apply inv_lt.
    - pose proof (exp_pos ((kin_energy u k1 - mu) / (kB u * T))). lra.
    - apply Rplus_lt_compat_r. apply exp_increasing. apply Rdiv_lt_compat_r; [pos|].
      pose proof (kin_mono k1 k2 H). lra.
  Qed.
  Lemma fd_incr_mu k mu1 mu2 T : 0 < T -> mu1 < mu2 -> fermi_dirac u k mu1 T < fermi_dirac u k mu2 T.
  Proof.
    intros HT H. cpos u. unfold fermi_dirac. apply inv_lt.
    - pose proof (exp_pos ((kin_energy u k - mu2) / (kB u * T))). lra.
    - apply Rplus_lt_compat_r. apply exp_increasing. apply Rdiv_lt_compat_r; [pos|]. lra.
  Qed.
  Lemma fd_sym k1 k2 mu T : 0 < T -> kin_energy u k1 - mu = mu - kin_energy u k2 ->
    fermi_dirac u k1 mu T + fermi_dirac u k2 mu T = 1.
  Proof.
    intros HT H. cpos u. unfold fermi_dirac. rewrite H.
    replace ((kin_energy u k2 - mu) / (kB u * T)) with (- ((mu - kin_energy u k2) / (kB u * T))) by (field; split; lra).
    rewrite exp_Ropp. set (x := exp _). pose proof (exp_pos ((mu - kin_energy u k2) / (kB u * T))). fold x in H8.
    field. repeat split; lra.
  Qed.
  Lemma fd_half k mu T : 0 < T -> kin_energy u k = mu -> fermi_dirac u k mu T = 1 / 2.
  Proof.
    intros HT H. pose proof (fd_sym k k mu T HT ltac:(lra)). lra.
  Qed.

  (** ** Compton *)
  Lemma compton_pos_den E th : 0 <= E -> 1 <= 1 + E / (m_e u * c_light u ^ 2) * (1 - cos th).
  Proof.
    intros HE. cpos u. pose proof (COS_bound th).
    assert (0 <= E / (m_e u * c_light u ^ 2)).
    { apply Rmult_le_pos; [lra|]. left. apply Rinv_0_lt_compat. pos. }
    nra.
  Qed.
  Lemma compton_range E th : 0 < E -> 0 <= compton_energy u E th < E.
  Proof.
    intros HE. pose proof (compton_pos_den E th ltac:(lra)) as H. unfold compton_energy.
    set (d := 1 + _) in *. assert (0 < 1 / d <= 1).
    { split; [apply Rdiv_lt_0_compat; lra|]. unfold Rdiv. rewrite Rmult_1_l, <- Rinv_1. apply Rinv_le_contravar; lra. }
    split; nra.
  Qed.
  Lemma compton_mono E a b : 0 < E -> 0 <= a -> a < b -> b <= PI -> compton_energy u E a < compton_energy u E b.
  Proof.
    intros HE Ha Hab Hb. unfold compton_energy. cpos u.
    pose proof (compton_pos_den E a ltac:(lra)) as H8. pose proof (cos_decreasing_1 a b ltac:(lra) ltac:(lra) ltac:(lra) ltac:(lra) Hab).
    apply Rmult_lt_compat_l; [lra|]. apply Rplus_lt_compat_l, Ropp_lt_contravar. apply inv_lt; [lra|].
    apply Rplus_lt_compat_l. apply Rmult_lt_compat_l; [pos|lra].
  Qed.
  Lemma compton_formula E th : 0 < E ->
    1 / (E - compton_energy u E th) - 1 / E = (1 - cos th) / (m_e u * c_light u ^ 2).
  Proof.
    intros HE. cpos u. pose proof (compton_pos_den E th ltac:(lra)) as H8. unfold compton_energy.
    assert (1 + E / (m_e u * c_light u ^ 2) * (1 - cos th) <> 0) by lra.
    assert (Hx : m_e u * c_light u ^ 2 + E * (1 - cos th) <> 0).
    { intros Z. apply H7. replace (1 + E / (m_e u * c_light u ^ 2) * (1 - cos th)) with
        ((m_e u * c_light u ^ 2 + E * (1 - cos th)) / (m_e u * c_light u ^ 2)) by (field; split; lra).
      rewrite Z. unfold Rdiv. ring. }
    field. repeat split; try lra; try assumption.
    replace (E * (m_e u * c_light u ^ 2 + E * (1 - cos th)) - E * (m_e u * c_light u ^ 2 + E * (1 - cos th) - m_e u * c_light u ^ 2))
      with (E * (m_e u * c_light u ^ 2)) by ring. apply Rgt_not_eq. pos.
  Qed.

  (** ** Dielectric function and susceptibility *)
  Lemma V_nz k : k <> 0 -> Vee u k <> RtoC 0.
  Proof.
    intros Hk E. apply (f_equal fst) in E. unfold Vee, coulomb_k in E. cbn [fst RtoC] in E. cpos u.
    assert (H8 : 0 < 1 / eps0 u * (-1 * -1 * e_ch u ^ 2) / k ^ 2).
    { apply Rdiv_lt_0_compat; [|nra]. apply Rmult_lt_0_compat; [apply Rdiv_lt_0_compat; lra|nra]. }
    lra.
  Qed.
  Lemma RtoC_neq x y : x <> y -> RtoC x <> RtoC y.
  Proof. intros H E. apply H. exact (f_equal fst E). Qed.
  Lemma Cinv_nz (x : C) : x <> RtoC 0 -> Cinv x <> RtoC 0.
  Proof.
    intros H E. apply (RtoC_neq 1 0); [lra|]. rewrite <- (Cinv_r x H), E. ring.
  Qed.
  Lemma Cinv_inv (x : C) : x <> RtoC 0 -> Cinv (Cinv x) = x.
  Proof.
    intros H. transitivity ((x * / x) * / / x)%C; [rewrite (Cinv_r x H); ring|].
    rewrite <- Cmult_assoc, (Cinv_r (/ x)%C) by now apply Cinv_nz. ring.
  Qed.
  Lemma eps_chi eps k : k <> 0 -> eps <> RtoC 0 ->
    epsilon_from_susceptibility u (susceptibility_from_epsilon u eps k) k = eps.
  Proof.
    intros Hk He. pose proof (V_nz k Hk). unfold epsilon_from_susceptibility, susceptibility_from_epsilon.
    replace (RtoC 1 + Vee u k * ((/ eps - RtoC 1) / Vee u k))%C with (/ eps)%C by (field; auto).
    now apply Cinv_inv.
  Qed.
  Lemma chi_eps xi k : k <> 0 -> (RtoC 1 + Vee u k * xi)%C <> RtoC 0 ->
    susceptibility_from_epsilon u (epsilon_from_susceptibility u xi k) k = xi.
  Proof.
    intros Hk He. pose proof (V_nz k Hk). unfold epsilon_from_susceptibility, susceptibility_from_epsilon.
    rewrite Cinv_inv by assumption. field. assumption.
  Qed.
  Lemma eps_rpa eps k : k <> 0 -> eps <> RtoC 0 ->
    epsilon_from_susceptibility u (xi_lfc_corrected (xi0_from_eps_RPA u eps k) (Vee u k) (RtoC 0)) k = eps.
  Proof.
    intros Hk He. pose proof (V_nz k Hk) as HV. unfold epsilon_from_susceptibility, xi_lfc_corrected, xi0_from_eps_RPA.
    replace (RtoC 1 - Vee u k * (RtoC 1 - RtoC 0) * ((RtoC 1 - eps) / Vee u k))%C with eps by (field; auto).
    replace (RtoC 1 + Vee u k * ((RtoC 1 - eps) / Vee u k / eps))%C with (/ eps)%C by (field; auto).
    now apply Cinv_inv.
  Qed.
  (** the RPA susceptibility computed from [eps] is the same along both routes *)
  Lemma chi_rpa eps k : k <> 0 -> eps <> RtoC 0 ->
    xi_lfc_corrected (xi0_from_eps_RPA u eps k) (Vee u k) (RtoC 0) = susceptibility_from_epsilon u eps k.
  Proof.
    intros Hk He. pose proof (V_nz k Hk) as HV. unfold susceptibility_from_epsilon, xi_lfc_corrected, xi0_from_eps_RPA.
    replace (RtoC 1 - Vee u k * (RtoC 1 - RtoC 0) * ((RtoC 1 - eps) / Vee u k))%C with eps by (field; auto).
    field. auto.
  Qed.

  (** ** Scales *)
  Lemma Rpower_third_sq x : Rpower x (2 / 3) = Rpower x (1 / 3) ^ 2.
  Proof. replace (2 / 3) with (1 / 3 + 1 / 3) by lra. rewrite Rpower_plus. ring. Qed.
  Lemma fermi_energy_kin n : fermi_energy u n = kin_energy u (fermi_wavenumber n).
  Proof.
    cpos u. unfold fermi_energy, kin_energy, fermi_wavenumber. rewrite Rpower_third_sq. field. lra.
  Qed.
  Lemma Rpower_third_cube x : 0 < x -> Rpower x (1 / 3) ^ 3 = x.
  Proof.
    intros H. replace (Rpower x (1 / 3) ^ 3) with (Rpower x (1/3) * (Rpower x (1/3) * Rpower x (1/3))) by ring.
    rewrite <- !Rpower_plus. replace (1 / 3 + (1 / 3 + 1 / 3)) with 1 by lra. now apply Rpower_1.
  Qed.
  Lemma kF_rs n : 0 < n -> fermi_wavenumber n * wiegner_seitz_radius n = Rpower (9 * PI / 4) (1 / 3).
  Proof.
    intros Hn. cpos u. unfold fermi_wavenumber, wiegner_seitz_radius.
    rewrite Rpower_mult_distr; [|pos|pos].
    f_equal. field. split; lra.
  Qed.
  Lemma sphere_volume n : 0 < n -> 4 / 3 * PI * wiegner_seitz_radius n ^ 3 * n = 1.
  Proof.
    intros Hn. cpos u. unfold wiegner_seitz_radius. rewrite Rpower_third_cube by pos. field. split; lra.
  Qed.
  Lemma fermi_energy_mono n1 n2 : 0 < n1 < n2 -> fermi_energy u n1 < fermi_energy u n2.
  Proof.
    intros H. cpos u. unfold fermi_energy. apply Rmult_lt_compat_l; [pos|].
    apply Rlt_Rpower_l; [lra|]. assert (0 < PI ^ 2) by pos. split; nra.
  Qed.
  Lemma fermi_energy_pos n : 0 < fermi_energy u n.
  Proof. cpos u. unfold fermi_energy. apply Rmult_lt_0_compat; [pos|]. unfold Rpower. apply exp_pos. Qed.
  Lemma fermi_temperature_pos n : 0 < fermi_temperature u n.
  Proof. cpos u. apply Rdiv_lt_0_compat; [apply fermi_energy_pos|assumption]. Qed.

  Lemma coupling_ee n T : coupling_param u 1 1 n T = ee_coupling u n T.
  Proof.
    unfold coupling_param, ee_coupling, interparticle_spacing. rewrite !Rmult_1_l.
    replace (Rpower 1 (1 / 2)) with 1.
    - rewrite Rmult_1_r. f_equal. ring.
    - unfold Rpower. rewrite ln_1, Rmult_0_r, exp_0. reflexivity.
  Qed.

  (** ** Debye length *)
  Lemma debye_denom_nonneg n Z : (forall x, In x n -> 0 <= x) ->
    0 <= sum (map2 (fun a z => a * (z * e_ch u) ^ 2) n Z).
  Proof.
    revert Z. induction n as [|a n IH]; intros [|z Z] H; cbn; try lra.
    assert (0 <= a) by (apply H; now left). assert (0 <= (z * e_ch u) * (z * e_ch u)) by nra.
    specialize (IH Z (fun x h => H x (or_intror h))). unfold sum in IH. cbn in IH. nra.
  Qed.
  Lemma debye_sq n Z T l : 0 < T -> (forall x, In x n -> 0 <= x) -> debye_length u n Z T = Some l ->
    l ^ 2 * sum (map2 (fun a z => a * (z * e_ch u) ^ 2) n Z) = eps0 u * kB u * T /\ 0 <= l.
  Proof.
    intros HT Hn H. cpos u. unfold debye_length in H. pose proof (debye_denom_nonneg n Z Hn) as HD.
    set (D := sum _) in *. unfold qdiv in H. destruct (Req_EM_T D 0); [discriminate|].
    assert (Hq : 0 <= eps0 u * kB u * T / D) by (left; apply Rdiv_lt_0_compat; [pos|lra]).
    rewrite sqrto_some in H by assumption. injection H as <-. split; [|apply sqrt_pos].
    rewrite pow2_sqrt by assumption. field. assumption.
  Qed.
  Lemma debye_some n Z T : 0 < T -> (forall x, In x n -> 0 <= x) ->
    0 < sum (map2 (fun a z => a * (z * e_ch u) ^ 2) n Z) ->
    exists l, debye_length u n Z T = Some l /\ 0 < l.
  Proof.
    intros HT Hn HD. cpos u. unfold debye_length. set (D := sum _) in *.
    rewrite qdiv_some by lra. assert (Hq : 0 < eps0 u * kB u * T / D) by pos.
    rewrite sqrto_some by lra. eexists; split; [reflexivity|]. now apply sqrt_lt_R0.
  Qed.
  Lemma debye_plasma_frequency n T l : 0 < T -> 0 < n -> debye_length u [n] [1] T = Some l ->
    l ^ 2 * plasma_frequency u n ^ 2 = kB u * T / m_e u.
  Proof.
    intros HT Hn H. cpos u.
    destruct (debye_sq [n] [1] T l HT ltac:(intros x [<-|[]]; lra) H) as [E _].
    unfold plasma_frequency. rewrite pow2_sqrt by (left; pos).
    cbn in E. assert (E' : l ^ 2 * (n * e_ch u ^ 2) = eps0 u * kB u * T) by (rewrite <- E; ring).
    apply (Rmult_eq_reg_l (eps0 u * m_e u)); [|apply Rgt_not_eq; pos].
    transitivity (l ^ 2 * (n * e_ch u ^ 2)); [field; split; lra|]. rewrite E'. field. lra.
  Qed.

  (** ** Temperature interpolation *)
  Lemma Rpower_inv_cancel x p : 0 < x -> p <> 0 -> Rpower (Rpower x p) (1 / p) = x.
  Proof.
    intros Hx Hp. rewrite Rpower_mult. replace (p * (1 / p)) with 1 by (field; assumption). now apply Rpower_1.
  Qed.
  Lemma Rpower_pos x y : 0 < Rpower x y. Proof. apply exp_pos. Qed.
  Lemma interp_bounds a b p : 0 < a -> 0 < b -> 0 < p ->
    Rmax a b < Rpower (Rpower a p + Rpower b p) (1 / p) <= Rpower 2 (1 / p) * Rmax a b.
  Proof.
    intros Ha Hb Hp. pose proof (Rpower_pos a p). pose proof (Rpower_pos b p).
    assert (Hq : 0 < 1 / p) by (apply Rdiv_lt_0_compat; lra).
    split.
    - unfold Rmax. destruct (Rle_dec a b).
      + rewrite <- (Rpower_inv_cancel b p) at 1 by lra. apply Rlt_Rpower_l; lra.
      + rewrite <- (Rpower_inv_cancel a p) at 1 by lra. apply Rlt_Rpower_l; lra.
    - set (m := Rmax a b). assert (Hm : 0 < m) by (unfold m, Rmax; destruct (Rle_dec a b); lra).
      rewrite <- (Rpower_inv_cancel m p) by lra. rewrite Rpower_mult_distr; [|lra|apply Rpower_pos].
      apply Rle_Rpower_l; [lra|]. split; [lra|].
      assert (Rpower a p <= Rpower m p) by (apply Rle_Rpower_l; [lra|]; split; [lra|apply Rmax_l]).
      assert (Rpower b p <= Rpower m p) by (apply Rle_Rpower_l; [lra|]; split; [lra|apply Rmax_r]). lra.
  Qed.

  Lemma Teff_ge n T t : 0 < T -> Teff_e u n T = Some t -> T <= t.
  Proof.
    intros HT. unfold Teff_e. destruct (qdiv _ _) as [q|]; [|discriminate].
    assert (H : 0 <= (q / kB u) ^ 2 + T ^ 2) by nra. rewrite sqrto_some by assumption.
    intros E. injection E as <-. rewrite <- (sqrt_pow2 T) at 1 by lra. apply sqrt_le_1; nra.
  Qed.
End L.

(** Sums over species do not depend on their order. *)
Lemma sum_perm l l' : Permutation l l' -> sum l = sum l'.
Proof. intros H. induction H; cbn in *; unfold sum in *; lra. Qed.

Lemma ws_decr n1 n2 : 0 < n1 < n2 -> wiegner_seitz_radius n2 < wiegner_seitz_radius n1.
Proof.
  intros H. pose proof PI_RGT_0. unfold wiegner_seitz_radius. apply Rlt_Rpower_l; [lra|]. split.
  - apply Rdiv_lt_0_compat; nra.
  - unfold Rdiv. apply Rmult_lt_compat_l; [lra|]. apply Rinv_lt_contravar; [|nra].
    apply Rmult_lt_0_compat; nra.
Qed.

Lemma map2_combine {A B D} (f : A -> B -> D) l m : map2 f l m = map (fun p => f (fst p) (snd p)) (combine l m).
Proof. revert m. induction l as [|a l IH]; intros [|b m]; cbn; try reflexivity. now rewrite IH. Qed.

Lemma debye_denom_pos u n Z : length n = length Z -> (forall x, In x n -> 0 < x) -> (exists z, In z Z /\ z <> 0) ->
  0 < sum (map2 (fun a z => a * (z * e_ch u) ^ 2) n Z).
Proof.
  revert Z. induction n as [|a n IH]; intros [|z Z] HL Hn (z0 & Hi & Hz); cbn in HL; try discriminate; [destruct Hi|].
  cbn [map2]. change (sum (?x :: ?l)) with (x + sum l).
  pose proof (debye_denom_nonneg u n Z (fun x h => Rlt_le _ _ (Hn x (or_intror h)))) as H0.
  assert (Ha : 0 < a) by (apply Hn; now left). pose proof (pow2_ge_0 (z * e_ch u)).
  destruct Hi as [<-|Hi].
  - assert (0 < (z * e_ch u) ^ 2).
    { pose proof (e_pos u). rewrite <- Rsqr_pow2. apply Rsqr_pos_lt. apply Rmult_integral_contrapositive_currified; lra. }
    assert (0 < a * (z * e_ch u) ^ 2) by (apply Rmult_lt_0_compat; lra). lra.
  - assert (0 <= a * (z * e_ch u) ^ 2) by (apply Rmult_le_pos; lra).
    specialize (IH Z ltac:(congruence) (fun x h => Hn x (or_intror h)) (ex_intro _ z0 (conj Hi Hz))). lra.
Qed.

Lemma sum_map_div {A} (f : A -> R) d l : sum (map (fun p => f p / d) l) = sum (map f l) / d.
Proof.
  induction l as [|a l IH]; [cbn; unfold sum, Rdiv; cbn; ring|].
  cbn [map]. change (sum (?x :: ?l)) with (x + sum l). rewrite IH. unfold Rdiv. ring.
Qed.

Lemma debye_inverse_squares u n Z T : 0 < T -> length n = length Z -> (forall x, In x n -> 0 < x) ->
  (exists z, In z Z /\ z <> 0) ->
  exists l, debye_length u n Z T = Some l /\ 0 < l /\
    1 / l ^ 2 = sum (map (fun p => fst p * (snd p * e_ch u) ^ 2 / (eps0 u * kB u * T)) (combine n Z)).
Proof.
  intros HT HL Hn HZ. pose proof (debye_denom_pos u n Z HL Hn HZ) as HD.
  assert (Hn' : forall x, In x n -> 0 <= x) by (intros x Hx; left; now apply Hn).
  destruct (debye_some u n Z T HT Hn' HD) as (l & El & Hl). exists l. split; [assumption|]. split; [assumption|].
  destruct (debye_sq u n Z T l HT Hn' El) as [E _]. rewrite sum_map_div.
  rewrite map2_combine in E, HD. set (D := sum _) in *. rewrite <- E. field. lra.
Qed.

Lemma debye_perm u n Z n' Z' T : length n = length Z -> length n' = length Z' ->
  Permutation (combine n Z) (combine n' Z') -> debye_length u n Z T = debye_length u n' Z' T.
Proof.
  intros _ _ H. unfold debye_length. rewrite !map2_combine.
  rewrite (sum_perm _ _ (Permutation_map (fun p => fst p * (snd p * e_ch u) ^ 2) H)). reflexivity.
Qed.

Lemma debye_shorter u n Z T a z l l' : 0 < T -> length n = length Z -> (forall x, In x n -> 0 < x) ->
  0 < a -> z <> 0 -> debye_length u n Z T = Some l -> debye_length u (a :: n) (z :: Z) T = Some l' -> 0 < l' < l.
Proof.
  intros HT HL Hn Ha Hz El El'. cpos u.
  assert (Hn' : forall x, In x n -> 0 <= x) by (intros x Hx; left; now apply Hn).
  assert (Hn2 : forall x, In x (a :: n) -> 0 <= x) by (intros x [<-|Hx]; [lra|auto]).
  destruct (debye_sq u n Z T l HT Hn' El) as [E L0]. destruct (debye_sq u _ _ T l' HT Hn2 El') as [E' L0'].
  cbn [map2] in E'. change (sum (?x :: ?l)) with (x + sum l) in E'.
  pose proof (debye_denom_nonneg u n Z Hn') as HD. set (D := sum _) in *.
  assert (Hq : 0 < eps0 u * kB u * T) by pos.
  assert (Hz2 : 0 < a * (z * e_ch u) ^ 2).
  { apply Rmult_lt_0_compat; [assumption|]. rewrite <- Rsqr_pow2. apply Rsqr_pos_lt.
    apply Rmult_integral_contrapositive_currified; lra. }
  set (q := a * _) in *.
  assert (Hl' : 0 < l') by (destruct L0' as [|<-]; [assumption|]; rewrite pow_i in E' by auto; lra).
  assert (HDp : 0 < D) by (destruct HD as [|HD0]; [assumption|]; rewrite <- HD0, Rmult_0_r in E; lra).
  split; [assumption|]. apply Rnot_le_lt. intros Hle.
  assert (l ^ 2 <= l' ^ 2) by (apply pow_incr; lra).
  assert (0 < l' ^ 2) by (apply pow_lt; lra). nra.
Qed.
