From Coq Require Import Reals List Lra Lia Psatz.
From Coquelicot Require Import Coquelicot.
From Verif Require Import M_Const M_PlasmaState L_PlasmaState M_PlasmaPhysics L_PlasmaPhysics M_StaticSF.
Import ListNotations.
Open Scope R_scope.

Lemma ln2_pos : 0 < ln 2.
Proof. rewrite <- ln_1. apply ln_increasing; lra. Qed.
Lemma Rpower_pos x y : 0 < Rpower x y.
Proof. unfold Rpower. apply exp_pos. Qed.

Section L.
  Variable u : consts.

  Lemma lambda_sq T m1 m2 : 0 < T -> 0 < m1 -> 0 < m2 ->
    lambda_AD u T m1 m2 ^ 2 = hbar u ^ 2 * (m1 + m2) / (2 * PI * m1 * m2 * kB u * T).
  Proof.
    intros HT H1 H2. cpos u. unfold lambda_AD.
    assert (P : 0 < 2 * PI * (m1 * m2 / (m1 + m2)) * kB u * T) by pos.
    unfold Rdiv at 1. rewrite Rpow_mult_distr, pow_inv, pow2_sqrt by lra.
    field. repeat split; lra.
  Qed.
  Lemma kD_sq T ne Z : 0 < T -> 0 < ne -> 0 < Z ->
    k_D_AD u T ne Z ^ 2 = Z * ne * e_ch u ^ 2 / (eps0 u * kB u * T).
  Proof.
    intros. cpos u. unfold k_D_AD. rewrite pow2_sqrt; [reflexivity|]. left. pos.
  Qed.
  Lemma A_pos Te b : 0 < Te -> 0 < A_AD u Te b.
  Proof. intros. cpos u. pose proof ln2_pos. unfold A_AD. pose proof (Rpower_pos PI (3/2)). pose proof (Rpower_pos b (-(3/2))). pos. Qed.
  Lemma T_rs_pos Tr Ts mr ms : 0 < Tr -> 0 < Ts -> 0 < mr -> 0 < ms -> 0 < T_rs_Greg2006 Tr Ts mr ms.
  Proof. intros. unfold T_rs_Greg2006. apply Rdiv_lt_0_compat; [|lra]. apply Rplus_lt_0_compat; now apply Rmult_lt_0_compat. Qed.

  Section AD.
    Variables (k Te Ti ne mi Z : R).
    Hypotheses (Hk : 0 < k) (HTe : 0 < Te) (HTi : 0 < Ti) (Hn : 0 < ne) (Hm : 0 < mi) (HZ : 0 < Z).
    Let q := k ^ 2.
    Let x := ne * e_ch u ^ 2 / (eps0 u * kB u * Te).
    Let y := Z * ne * e_ch u ^ 2 / (eps0 u * kB u * Ti).
    Let lee := hbar u ^ 2 / (PI * m_e u * kB u * Te).
    Let lii := hbar u ^ 2 / (PI * mi * kB u * Ti).
    Let lei := hbar u ^ 2 * (m_e u + mi) ^ 2 / (2 * PI * m_e u * mi * kB u * (mi * Te + m_e u * Ti)).
    Let a := / (1 + q * lee).
    Let b := / (1 + q * lii).
    Let c := / (1 + q * lei).
    Let A := A_ u Te.
    Let E := exp (- q / (4 * b_ u Te)).

    Lemma q_pos : 0 < q. Proof. unfold q. pos. Qed.
    Lemma x_pos : 0 < x. Proof. cpos u. unfold x. pos. Qed.
    Lemma y_pos : 0 < y. Proof. cpos u. unfold y. pos. Qed.
    Lemma lee_eq : lam_ee u Te ^ 2 = lee.
    Proof. cpos u. unfold lam_ee, lee. rewrite lambda_sq by assumption. field. repeat split; lra. Qed.
    Lemma lii_eq : lam_ii u Ti mi ^ 2 = lii.
    Proof. cpos u. unfold lam_ii, lii. rewrite lambda_sq by assumption. field. repeat split; lra. Qed.
    Lemma lei_eq : lam_ei u Te Ti mi ^ 2 = lei.
    Proof.
      cpos u. unfold lam_ei, lei, T_ei. rewrite lambda_sq; [|now apply T_rs_pos|assumption|assumption].
      unfold T_rs_Greg2006. assert (0 < mi * Te + m_e u * Ti) by (apply Rplus_lt_0_compat; now apply Rmult_lt_0_compat).
      field. repeat split; lra.
    Qed.
    Lemma lee_pos : 0 < lee. Proof. cpos u. unfold lee. pos. Qed.
    Lemma lii_pos : 0 < lii. Proof. cpos u. unfold lii. pos. Qed.
    Lemma lei_pos : 0 < lei.
    Proof. cpos u. unfold lei. assert (0 < mi * Te + m_e u * Ti) by (apply Rplus_lt_0_compat; now apply Rmult_lt_0_compat). pos. Qed.
    Lemma opl l : 0 < l -> 0 < 1 + q * l.
    Proof. intros H. pose proof (Rmult_lt_0_compat _ _ q_pos H). lra. Qed.
    Lemma kDe_eq : k_De u Te ne ^ 2 = x.
    Proof. unfold k_De. rewrite kD_sq by lra. unfold x. f_equal. ring. Qed.
    Lemma kDi_eq : k_Di u Ti ne Z ^ 2 = y.
    Proof. unfold k_Di. rewrite kD_sq by lra. reflexivity. Qed.

    Definition Dl := q ^ 2 + q * x * a + q * y * b + x * y * (a * b - c ^ 2) + A * q * x * (q + y * b) * E.
    Lemma Delta_eq : Delta u k Te Ti ne mi Z = Dl.
    Proof.
      unfold Delta, Delta_AD. rewrite lee_eq, lii_eq, lei_eq, kDe_eq, kDi_eq.
      pose proof (opl _ lee_pos). pose proof (opl _ lii_pos). pose proof (opl _ lei_pos).
      fold A q. fold E. replace (k ^ 4) with (q ^ 2) by (unfold q; ring). unfold Dl, a, b, c. field. repeat split; lra.
    Qed.
    Lemma S_ii_eq : Dl <> 0 -> S_ii_AD u k Te Ti ne mi Z = (q ^ 2 + q * x * a + A * q ^ 2 * x * E) / Dl.
    Proof.
      intros HD. unfold S_ii_AD, Phi_ii_AD. rewrite Delta_eq, lee_eq, lii_eq, lei_eq, kDe_eq.
      pose proof (opl _ lee_pos). pose proof (opl _ lii_pos). pose proof (opl _ lei_pos). cpos u.
      fold A q. fold E.
      replace (ne / Z / (kB u * Ti) * (Z ^ 2 * e_ch u ^ 2 / (eps0 u * Dl) *
         (q / (1 + q * lii) + x * (1 / ((1 + q * lee) * (1 + q * lii)) - 1 / (1 + q * lei) ^ 2) + A * q * x / (1 + q * lii) * E)))
        with (y * (q * b + x * (a * b - c ^ 2) + A * q * x * b * E) / Dl).
      - unfold Dl in *. field. exact HD.
      - unfold y, a, b, c. field. repeat split; lra.
    Qed.
    Lemma S_ei_eq : Dl <> 0 -> S_ei_AD u k Te Ti ne mi Z =
      ne * sqrt Z * e_ch u ^ 2 / (eps0 u * kB u * T_ei u Te Ti mi) * (q * c) / Dl.
    Proof.
      intros HD. unfold S_ei_AD, Phi_ei_AD. rewrite Delta_eq, lei_eq.
      pose proof (opl _ lei_pos). cpos u.
      assert (HT : 0 < T_ei u Te Ti mi) by (now apply T_rs_pos).
      replace (sqrt (ne / Z * ne)) with (ne / sqrt Z).
      2:{ replace (ne / Z * ne) with (ne ^ 2 / Z) by (field; lra). rewrite sqrt_div_alt, sqrt_pow2 by lra. reflexivity. }
      pose proof (sqrt_lt_R0 _ HZ) as Hs. rewrite <- (sqrt_sqrt Z) at 2 by lra.
      fold q. unfold c. field. repeat split; lra.
    Qed.
    Lemma S_ee_gen : Dl <> 0 -> 1 - ne / (kB u * Te) * Phi_ee_AD u k Te Ti ne mi Z = (q ^ 2 + q * y * b) / Dl.
    Proof.
      intros HD. unfold Phi_ee_AD. rewrite Delta_eq, lee_eq, lii_eq, lei_eq, kDi_eq.
      pose proof (opl _ lee_pos). pose proof (opl _ lii_pos). pose proof (opl _ lei_pos). cpos u.
      fold A q. fold E.
      replace (ne / (kB u * Te) * (e_ch u ^ 2 / (eps0 u * Dl) *
        (q / (1 + q * lee) + y * (1 / ((1 + q * lee) * (1 + q * lii)) - 1 / (1 + q * lei) ^ 2) + A * (q + y / (1 + q * lii)) * q * E)))
        with (x * (q * a + y * (a * b - c ^ 2) + A * (q + y * b) * q * E) / Dl).
      - unfold Dl in *. field. exact HD.
      - unfold x, a, b, c. field. repeat split; lra.
    Qed.
    Lemma a_pos : 0 < a. Proof. unfold a. apply Rinv_0_lt_compat. apply opl. apply lee_pos. Qed.
    Lemma b_pos : 0 < b. Proof. unfold b. apply Rinv_0_lt_compat. apply opl. apply lii_pos. Qed.
    Lemma c_pos' : 0 < c. Proof. unfold c. apply Rinv_0_lt_compat. apply opl. apply lei_pos. Qed.
    Lemma A_pos' : 0 < A. Proof. unfold A, A_. now apply A_pos. Qed.
    Lemma E_pos : 0 < E. Proof. apply exp_pos. Qed.

    (** enough for everything at equal temperatures *)
    Lemma Dl_pos : c ^ 2 <= a * b -> 0 < Dl.
    Proof.
      intros H. pose proof q_pos. pose proof x_pos. pose proof y_pos. pose proof a_pos. pose proof b_pos. pose proof A_pos'. pose proof E_pos.
      unfold Dl. clearbody q x y a b c A E. assert (0 <= x * y * (a * b - c ^ 2)) by (apply Rmult_le_pos; [left; pos|lra]).
      assert (0 < q ^ 2) by pos. assert (0 < q * x * a) by pos. assert (0 < q * y * b) by pos.
      assert (0 < y * b) by pos. assert (0 < A * q * x * (q + y * b) * E) by pos. lra.
    Qed.
    Lemma S_ii_range : c ^ 2 <= a * b -> 0 < S_ii_AD u k Te Ti ne mi Z < 1.
    Proof.
      intros H. pose proof (Dl_pos H) as HD. rewrite S_ii_eq by lra.
      pose proof q_pos. pose proof x_pos. pose proof y_pos. pose proof a_pos. pose proof b_pos. pose proof A_pos'. pose proof E_pos.
      unfold Dl in *. clearbody q x y a b c A E.
      assert (0 < q ^ 2) by pos. assert (0 < q * x * a) by pos. assert (0 < q * y * b) by pos. assert (0 < A * q ^ 2 * x * E) by pos.
      split; [apply Rdiv_lt_0_compat; lra|].
      apply (Rmult_lt_reg_r _ _ _ HD). unfold Rdiv. rewrite Rmult_assoc, Rinv_l, Rmult_1_l, Rmult_1_r by lra.
      assert (0 <= x * y * (a * b - c ^ 2)) by (apply Rmult_le_pos; [left; pos|lra]).
      assert (0 < A * q * x * (y * b) * E) by pos. lra.
    Qed.
  End AD.

  (** equal temperatures: the electron-ion length is the mean of the others *)
  Lemma amgm_inv p s t : 0 <= p -> 0 <= s -> t = (p + s) / 2 -> (/ (1 + t)) ^ 2 <= / (1 + p) * / (1 + s).
  Proof.
    intros Hp Hs ->. rewrite pow_inv, <- Rinv_mult. apply Rinv_le_contravar; [apply Rmult_lt_0_compat; lra|].
    pose proof (pow2_ge_0 (p - s)). lra.
  Qed.
  Lemma equal_T k T mi : 0 < k -> 0 < T -> 0 < mi ->
    (/ (1 + k ^ 2 * (hbar u ^ 2 * (m_e u + mi) ^ 2 / (2 * PI * m_e u * mi * kB u * (mi * T + m_e u * T))))) ^ 2
    <= / (1 + k ^ 2 * (hbar u ^ 2 / (PI * m_e u * kB u * T))) * / (1 + k ^ 2 * (hbar u ^ 2 / (PI * mi * kB u * T))).
  Proof.
    intros. cpos u. apply amgm_inv.
    - left. pos.
    - left. pos.
    - field. repeat split; lra || nra.
  Qed.

  Lemma T_ei_equal T mi : 0 < mi -> T_ei u T T mi = T.
  Proof. intros. cpos u. unfold T_ei, T_rs_Greg2006. field. lra. Qed.
  Lemma S_ee_equal k T ne mi Z : 0 < T ->
    S_ee_AD u k T T ne mi Z = 1 - ne / (kB u * T) * Phi_ee_AD u k T T ne mi Z.
  Proof. intros HT. unfold S_ee_AD. replace (T / T - 1) with 0 by (field; lra). unfold Rdiv. ring. Qed.

  Section Equal.
    Variables (k T ne mi Z : R).
    Hypotheses (Hk : 0 < k) (HT : 0 < T) (Hn : 0 < ne) (Hm : 0 < mi) (HZ : 0 < Z).
    Lemma eq_Delta_pos : 0 < Delta u k T T ne mi Z.
    Proof. rewrite Delta_eq by assumption. apply Dl_pos; try assumption. now apply equal_T. Qed.
    Lemma eq_S_ii : 0 < S_ii_AD u k T T ne mi Z < 1.
    Proof. apply S_ii_range; try assumption. now apply equal_T. Qed.
    Lemma eq_S_ee : 0 < S_ee_AD u k T T ne mi Z < 1.
    Proof.
      pose proof eq_Delta_pos as HD. rewrite Delta_eq in HD by assumption.
      rewrite S_ee_equal, S_ee_gen by (assumption || lra).
      pose proof (q_pos k Hk) as Hq. pose proof (x_pos T ne HT Hn) as Hx. pose proof (y_pos T ne Z HT Hn HZ) as Hy.
      pose proof (a_pos k T Hk HT) as Ha. pose proof (b_pos k T mi Hk HT Hm) as Hb. pose proof (A_pos' T HT) as HA. pose proof (E_pos k T) as HE.
      pose proof (equal_T k T mi Hk HT Hm) as Hc.
      set (q := k ^ 2) in *.
      set (x := ne * e_ch u ^ 2 / (eps0 u * kB u * T)) in *.
      set (y := Z * ne * e_ch u ^ 2 / (eps0 u * kB u * T)) in *.
      set (a := / (1 + q * (hbar u ^ 2 / (PI * m_e u * kB u * T)))) in *.
      set (b := / (1 + q * (hbar u ^ 2 / (PI * mi * kB u * T)))) in *.
      set (c := / (1 + q * _)) in Hc.
      unfold Dl in *. fold q in HD |- *. fold x y a b c in HD |- *. set (A := A_ u T) in *. set (E := exp _) in *.
      clearbody q x y a b c A E.
      split.
      - apply Rdiv_lt_0_compat; [|assumption]. assert (0 < q ^ 2) by pos. assert (0 < q * y * b) by pos. lra.
      - apply (Rmult_lt_reg_r _ _ _ HD). unfold Rdiv. rewrite Rmult_assoc, Rinv_l, Rmult_1_l, Rmult_1_r by lra.
        assert (0 <= x * y * (a * b - c ^ 2)) by (apply Rmult_le_pos; [left; pos|lra]).
        assert (0 < y * b) by pos. assert (0 < A * q * x * (q + y * b) * E) by pos. assert (0 < q * x * a) by pos. lra.
    Qed.
    Lemma eq_det : S_ii_AD u k T T ne mi Z * S_ee_AD u k T T ne mi Z - S_ei_AD u k T T ne mi Z ^ 2 = k ^ 4 / Delta u k T T ne mi Z.
    Proof.
      pose proof eq_Delta_pos as HD. rewrite Delta_eq in * by assumption.
      rewrite S_ee_equal, S_ee_gen, S_ii_eq, S_ei_eq, T_ei_equal by (assumption || lra).
      cpos u. pose proof (sqrt_lt_R0 _ HZ) as Hs.
      set (D := Dl k T T ne mi Z) in *. assert (HDD : D = Dl k T T ne mi Z) by reflexivity. clearbody D. unfold Dl in HDD.
      set (q := k ^ 2) in *.
      set (x := ne * e_ch u ^ 2 / (eps0 u * kB u * T)) in *.
      assert (Hy : Z * ne * e_ch u ^ 2 / (eps0 u * kB u * T) = Z * x) by (unfold x; field; lra).
      rewrite Hy in *.
      assert (Hxy : ne * sqrt Z * e_ch u ^ 2 / (eps0 u * kB u * T) = sqrt Z * x) by (unfold x; field; lra). rewrite Hxy.
      set (a := / (1 + q * (hbar u ^ 2 / (PI * m_e u * kB u * T)))) in *.
      set (b := / (1 + q * (hbar u ^ 2 / (PI * mi * kB u * T)))) in *.
      set (c := / (1 + q * (hbar u ^ 2 * (m_e u + mi) ^ 2 / _))) in *.
      set (A := A_ u T) in *. set (E := exp _) in *.
      replace (k ^ 4) with (q ^ 2) by (unfold q; ring).
      apply Rmult_eq_reg_r with (D ^ 2); [|apply pow_nonzero; lra].
      replace ((((q ^ 2 + q * x * a + A * q ^ 2 * x * E) / D) * ((q ^ 2 + q * (Z * x) * b) / D) - (sqrt Z * x * (q * c) / D) ^ 2) * D ^ 2)
        with ((q ^ 2 + q * x * a + A * q ^ 2 * x * E) * (q ^ 2 + q * (Z * x) * b) - (sqrt Z ^ 2) * (x * q * c) ^ 2) by (field; lra).
      rewrite pow2_sqrt by lra. replace (q ^ 2 / D * D ^ 2) with (q ^ 2 * D) by (field; lra). rewrite HDD. ring.
    Qed.
  End Equal.

  (** ** Cold ions *)
  Lemma inv_le_inv p l : 0 < p -> 0 < l -> / (1 + p * l) <= / (p * l).
  Proof. intros. assert (0 < p * l) by (now apply Rmult_lt_0_compat). apply Rinv_le_contravar; lra. Qed.
  Lemma cold_ions k Te ne mi Z : 0 < k -> 0 < Te -> 0 < ne -> 0 < mi -> 0 < Z ->
    exists T0, 0 < T0 /\ forall Ti, 0 < Ti < T0 -> Delta u k Te Ti ne mi Z < 0 /\ S_ii_AD u k Te Ti ne mi Z < 0.
  Proof.
    intros Hk HTe Hn Hm HZ. cpos u.
    set (q := k ^ 2). assert (Hq : 0 < q) by (apply pow_lt; lra).
    pose proof (x_pos Te ne HTe Hn) as Hx. set (x := ne * e_ch u ^ 2 / (eps0 u * kB u * Te)) in *.
    set (Y := Z * ne * e_ch u ^ 2 / (eps0 u * kB u)). assert (HY : 0 < Y) by (unfold Y; pos).
    set (beta := PI * mi * kB u / (hbar u ^ 2 * q)). assert (Hbeta : 0 < beta) by (unfold beta; pos).
    set (L := hbar u ^ 2 * (m_e u + mi) ^ 2 / (2 * PI * m_e u * mi ^ 2 * kB u * Te)). assert (HL : 0 < L) by (unfold L; pos).
    set (c0 := / (1 + q * L)). assert (Hc0 : 0 < c0).
    { unfold c0. apply Rinv_0_lt_compat. pose proof (Rmult_lt_0_compat _ _ Hq HL). lra. }
    pose proof (A_pos' Te HTe) as HA. pose proof (E_pos k Te) as HE.
    fold q in HE. set (A := A_ u Te) in *. set (E := exp _) in *.
    set (K := q ^ 2 + q * x + q * (Y * beta) + x * (Y * beta) + A * q * x * (q + Y * beta) * E).
    assert (HK : 0 < K).
    { unfold K. clearbody x Y beta A E q. assert (0 < q ^ 2) by pos. assert (0 < q * x) by pos. assert (0 < Y * beta) by pos.
      assert (0 < q * (Y * beta)) by pos. assert (0 < x * (Y * beta)) by pos. assert (0 < A * q * x * (q + Y * beta) * E) by pos. lra. }
    set (M := x * Y * c0 ^ 2). assert (HM : 0 < M) by (unfold M; clearbody x Y c0; pos).
    exists (M / K). split; [now apply Rdiv_lt_0_compat|]. intros Ti [HTi Hlt].
    assert (Hneg : K - M / Ti < 0).
    { assert (K * Ti < M). { apply Rmult_lt_compat_r with (r := K) in Hlt; [|assumption]. unfold Rdiv in Hlt. rewrite Rmult_assoc, Rinv_l, Rmult_1_r in Hlt; lra. }
      assert (K < M / Ti); [|lra]. apply Rmult_lt_reg_r with Ti; [assumption|]. unfold Rdiv. rewrite Rmult_assoc, Rinv_l, Rmult_1_r; lra. }
    pose proof (a_pos k Te Hk HTe) as Ha. pose proof (b_pos k Ti mi Hk HTi Hm) as Hb. pose proof (c_pos' k Te Ti mi Hk HTe HTi Hm) as Hc.
    pose proof (lee_pos Te HTe) as Hlee. pose proof (lii_pos Ti mi HTi Hm) as Hlii.
    assert (HD : Dl k Te Ti ne mi Z <= K - M / Ti).
    { unfold Dl. fold q in Ha, Hb, Hc |- *. fold x A E.
      set (a := / (1 + q * (hbar u ^ 2 / (PI * m_e u * kB u * Te)))) in *.
      set (b := / (1 + q * (hbar u ^ 2 / (PI * mi * kB u * Ti)))) in *.
      set (c := / (1 + q * (hbar u ^ 2 * _ / _))) in *.
      assert (Ha1 : a <= 1). { unfold a. rewrite <- Rinv_1 at 2. apply Rinv_le_contravar; [lra|]. pose proof (Rmult_lt_0_compat _ _ Hq Hlee). lra. }
      assert (Hb1 : b <= beta * Ti).
      { unfold b. eapply Rle_trans; [apply inv_le_inv; assumption|]. right. unfold beta. field. repeat split; lra. }
      assert (Hc1 : c0 <= c).
      { unfold c0, c. apply Rinv_le_contravar.
        - assert (0 < mi * Te + m_e u * Ti) by (apply Rplus_lt_0_compat; now apply Rmult_lt_0_compat).
          assert (0 < q * (hbar u ^ 2 * (m_e u + mi) ^ 2 / (2 * PI * m_e u * mi * kB u * (mi * Te + m_e u * Ti)))) by pos. lra.
        - apply Rplus_le_compat_l, Rmult_le_compat_l; [lra|]. unfold L, Rdiv. apply Rmult_le_compat_l; [left; pos|].
          apply Rinv_le_contravar; [pos|].
          replace (2 * PI * m_e u * mi ^ 2 * kB u * Te) with (2 * PI * m_e u * mi * kB u * (mi * Te)) by ring.
          apply Rmult_le_compat_l; [left; pos|]. pose proof (Rmult_lt_0_compat _ _ H4 HTi). lra. }
      assert (Hyb : Z * ne * e_ch u ^ 2 / (eps0 u * kB u * Ti) = Y / Ti) by (unfold Y; field; lra). rewrite Hyb.
      set (y := Y / Ti). assert (Hy : 0 < y) by (unfold y; now apply Rdiv_lt_0_compat).
      assert (Hyb1 : y * b <= Y * beta).
      { replace (Y * beta) with (y * (beta * Ti)) by (unfold y; field; lra). apply Rmult_le_compat_l; lra. }
      assert (HMy : M / Ti = x * y * c0 ^ 2) by (unfold M, y; field; lra). rewrite HMy.
      assert (Hcc : c0 ^ 2 <= c ^ 2) by (apply pow_incr; lra).
      unfold K. clearbody a b c c0 x y Y beta A E q.
      assert (G1 : q * x * a <= q * x * 1) by (apply Rmult_le_compat_l; [left; pos|assumption]).
      assert (G2 : q * (y * b) <= q * (Y * beta)) by (apply Rmult_le_compat_l; [left; pos|assumption]).
      assert (G3 : x * (y * b) * a <= x * (Y * beta) * 1).
      { apply Rmult_le_compat; [left; pos|left; pos| |assumption]. apply Rmult_le_compat_l; [left; pos|assumption]. }
      assert (G4 : x * y * c0 ^ 2 <= x * y * c ^ 2) by (apply Rmult_le_compat_l; [left; pos|assumption]).
      assert (G5 : A * q * x * (q + y * b) * E <= A * q * x * (q + Y * beta) * E).
      { apply Rmult_le_compat_r; [lra|]. apply Rmult_le_compat_l; [left; pos|]. lra. }
      lra. }
    assert (HDn : Dl k Te Ti ne mi Z < 0) by lra.
    rewrite Delta_eq, S_ii_eq by (assumption || lra). split; [assumption|].
    apply Rmult_lt_reg_r with (- Dl k Te Ti ne mi Z); [lra|]. rewrite Rmult_0_l.
    fold q. fold x. set (a := / (1 + q * (hbar u ^ 2 / (PI * m_e u * kB u * Te)))) in *. fold A E.
    assert (0 < q ^ 2 + q * x * a + A * q ^ 2 * x * E).
    { fold q in Ha. fold a in Ha. clearbody a q x A E. assert (0 < q ^ 2) by pos. assert (0 < q * x * a) by pos. assert (0 < A * q ^ 2 * x * E) by pos. lra. }
    set (N := q ^ 2 + q * x * a + A * q ^ 2 * x * E) in *. set (D := Dl _ _ _ _ _ _) in *. replace (N / D * - D) with (- N); [lra|]. field. lra.
  Qed.

  (** ** Screening charge at equal temperatures *)
  Lemma q_Gregori_equal eps k T ne mi Z : 0 < k -> 0 < T -> 0 < ne -> 0 < mi -> 0 < Z -> eps <> 0 ->
    q_Gregori2004 u eps k mi ne T T Z
    = Z * (ne * e_ch u ^ 2 / (eps0 u * kB u * T)) / (k ^ 2 * (1 + k ^ 2 * lambda_AD u T (m_e u) mi ^ 2)) / eps.
  Proof.
    intros Hk HT Hn Hm HZ Heps. unfold q_Gregori2004.
    pose proof (eq_det k T ne mi Z Hk HT Hn Hm HZ) as Hd. pose proof (eq_Delta_pos k T ne mi Z Hk HT Hn Hm HZ) as HD.
    rewrite (Rmult_comm (S_ee_AD _ _ _ _ _ _ _)), Hd. rewrite Delta_eq in * by assumption.
    rewrite S_ei_eq, T_ei_equal by (assumption || lra). cpos u.
    assert (HL : lambda_AD u T (m_e u) mi ^ 2 = hbar u ^ 2 * (m_e u + mi) ^ 2 / (2 * PI * m_e u * mi * kB u * (mi * T + m_e u * T))).
    { rewrite lambda_sq by assumption. assert (0 < mi * T + m_e u * T) by (apply Rplus_lt_0_compat; now apply Rmult_lt_0_compat). field. repeat split; lra. }
    rewrite <- HL. set (l := lambda_AD u T (m_e u) mi ^ 2). assert (0 <= l) by apply pow2_ge_0.
    assert (0 < k ^ 2) by pos. assert (0 < 1 + k ^ 2 * l) by (pose proof (Rmult_le_pos (k ^ 2) l); lra).
    set (D := Dl _ _ _ _ _ _) in *. clearbody D l.
    replace (sqrt Z * (ne * sqrt Z * e_ch u ^ 2 / (eps0 u * kB u * T) * (k ^ 2 * / (1 + k ^ 2 * l)) / D) / (k ^ 4 / D))
      with ((sqrt Z * sqrt Z) * (ne * e_ch u ^ 2 / (eps0 u * kB u * T)) / (k ^ 2 * (1 + k ^ 2 * l))) by (field; repeat split; lra).
    now rewrite sqrt_sqrt by lra.
  Qed.

  (** ** Effective temperatures *)
  Lemma T_rs_between Tr Ts mr ms : 0 < mr -> 0 < ms ->
    Rmin Tr Ts <= T_rs_Greg2006 Tr Ts mr ms <= Rmax Tr Ts.
  Proof.
    intros H1 H2. unfold T_rs_Greg2006.
    pose proof (Rmin_l Tr Ts). pose proof (Rmin_r Tr Ts). pose proof (Rmax_l Tr Ts). pose proof (Rmax_r Tr Ts).
    split; apply Rmult_le_reg_r with (mr + ms); try lra; unfold Rdiv; rewrite Rmult_assoc, Rinv_l, Rmult_1_r by lra.
    - assert (ms * Rmin Tr Ts <= ms * Tr) by (apply Rmult_le_compat_l; lra).
      assert (mr * Rmin Tr Ts <= mr * Ts) by (apply Rmult_le_compat_l; lra). lra.
    - assert (ms * Tr <= ms * Rmax Tr Ts) by (apply Rmult_le_compat_l; lra).
      assert (mr * Ts <= mr * Rmax Tr Ts) by (apply Rmult_le_compat_l; lra). lra.
  Qed.
  Lemma sqrt_above a b : 0 <= a -> a <= sqrt (a ^ 2 + b ^ 2).
  Proof. intros. rewrite <- (sqrt_pow2 a) at 1 by assumption. apply sqrt_le_1_alt. pose proof (pow2_ge_0 b). lra. Qed.
  Lemma T_i_eff_above Ti TD : 0 <= Ti -> Ti <= T_i_eff_Greg Ti TD.
  Proof.
    intros. unfold T_i_eff_Greg. rewrite <- (sqrt_pow2 Ti) at 1 by assumption. apply sqrt_le_1_alt.
    cpos u. assert (0 < 3 / (2 * PI ^ 2)) by pos. pose proof (pow2_ge_0 TD). pose proof (Rmult_le_pos (3 / (2 * PI ^ 2)) (TD ^ 2)). lra.
  Qed.

  (** ** Bohm-Staver *)
  Lemma Bohm_Staver_sq Te ne mi Z : 0 < Te -> 0 < ne -> 0 < mi -> 0 < Z ->
    (kB u * T_Debye_Bohm_Staver u Te ne mi Z) ^ 2
    = (hbar u * sqrt (Z * e_ch u ^ 2 * ne / (eps0 u * mi))) ^ 2
      / (1 + k_D_AD u Te ne 1 ^ 2 / Rpower (6 * PI ^ 2 * ne / Z) (1 / 3) ^ 2).
  Proof.
    intros. cpos u. unfold T_Debye_Bohm_Staver.
    pose proof (Rpower_pos (6 * PI ^ 2 * ne / Z) (1 / 3)) as Hp. set (km := Rpower _ _) in *.
    set (w := sqrt (Z * e_ch u ^ 2 * ne / (eps0 u * mi))). set (kd := k_D_AD _ _ _ _).
    assert (0 <= kd ^ 2 / km ^ 2). { apply Rmult_le_pos; [apply pow2_ge_0|]. left. apply Rinv_0_lt_compat. pos. }
    replace ((kB u * (hbar u / kB u * sqrt (w ^ 2 / (1 + kd ^ 2 / km ^ 2)))) ^ 2) with (hbar u ^ 2 * (sqrt (w ^ 2 / (1 + kd ^ 2 / km ^ 2))) ^ 2) by (field; lra).
    rewrite pow2_sqrt.
    - rewrite Rpow_mult_distr. unfold Rdiv. ring.
    - apply Rmult_le_pos; [apply pow2_ge_0|]. left. apply Rinv_0_lt_compat. lra.
  Qed.
  Lemma Bohm_Staver_pos Te ne mi Z : 0 < Te -> 0 < ne -> 0 < mi -> 0 < Z -> 0 < T_Debye_Bohm_Staver u Te ne mi Z.
  Proof.
    intros. cpos u. unfold T_Debye_Bohm_Staver. apply Rmult_lt_0_compat; [pos|]. apply sqrt_lt_R0.
    apply Rdiv_lt_0_compat; [apply pow_lt, sqrt_lt_R0; pos|].
    pose proof (Rpower_pos (6 * PI ^ 2 * ne / Z) (1 / 3)).
    assert (0 <= k_D_AD u Te ne 1 ^ 2 / Rpower (6 * PI ^ 2 * ne / Z) (1 / 3) ^ 2); [|lra].
    apply Rmult_le_pos; [apply pow2_ge_0|]. left. apply Rinv_0_lt_compat. pos.
  Qed.

  (** ** Long wavelengths *)
  Lemma long_wavelength k T ne mi Z d : 0 < k -> 0 < T -> 0 < ne -> 0 < mi -> 0 < Z -> 0 < d ->
    k ^ 2 <= d * (ne * e_ch u ^ 2 / (eps0 u * kB u * T)) -> k ^ 2 * (hbar u ^ 2 / (PI * mi * kB u * T)) <= d ->
    S_ii_AD u k T T ne mi Z * (1 + Z / (1 + d) ^ 2) <= 1.
  Proof.
    intros Hk HT Hn Hm HZ Hd Hq1 Hq2. pose proof (eq_Delta_pos k T ne mi Z Hk HT Hn Hm HZ) as HD. rewrite Delta_eq in HD by assumption.
    rewrite S_ii_eq by (assumption || lra).
    pose proof (q_pos k Hk) as Hq. pose proof (x_pos T ne HT Hn) as Hx.
    pose proof (a_pos k T Hk HT) as Ha. pose proof (b_pos k T mi Hk HT Hm) as Hb. pose proof (A_pos' T HT) as HA. pose proof (E_pos k T) as HE.
    pose proof (equal_T k T mi Hk HT Hm) as Hc. pose proof (lee_pos T HT) as Hlee. pose proof (lii_pos T mi HT Hm) as Hlii.
    unfold Dl in *. set (q := k ^ 2) in *.
    set (x := ne * e_ch u ^ 2 / (eps0 u * kB u * T)) in *.
    cpos u. assert (Hy : Z * ne * e_ch u ^ 2 / (eps0 u * kB u * T) = Z * x) by (unfold x; field; lra). rewrite Hy in *.
    assert (Ha1 : / (1 + q * (hbar u ^ 2 / (PI * m_e u * kB u * T))) <= 1).
    { rewrite <- Rinv_1 at 2. apply Rinv_le_contravar; [lra|]. pose proof (Rmult_lt_0_compat _ _ Hq Hlee). lra. }
    assert (Hb1 : / (1 + d) <= / (1 + q * (hbar u ^ 2 / (PI * mi * kB u * T)))).
    { apply Rinv_le_contravar; [|lra]. pose proof (Rmult_lt_0_compat _ _ Hq Hlii). lra. }
    set (a := / (1 + q * (hbar u ^ 2 / (PI * m_e u * kB u * T)))) in *.
    set (b := / (1 + q * (hbar u ^ 2 / (PI * mi * kB u * T)))) in *.
    set (c := / (1 + q * (hbar u ^ 2 * (m_e u + mi) ^ 2 / _))) in *.
    set (A := A_ u T) in *. set (E := exp _) in *. clearbody q x a b c A E. clear Hy.
    set (N := q ^ 2 + q * x * a + A * q ^ 2 * x * E). set (D := q ^ 2 + _ + _ + _ + _) in *.
    assert (HAx : 0 < A * x * E) by pos.
    assert (HN : N <= q * x * ((1 + d) * (1 + A * x * E))).
    { unfold N. assert (q * x * a <= q * x * 1) by (apply Rmult_le_compat_l; [left; pos|assumption]).
      assert (q * q <= q * (d * x)) by (apply Rmult_le_compat_l; lra).
      assert (A * q * x * E * q <= A * q * x * E * (d * x)) by (apply Rmult_le_compat_l; [left; pos|assumption]).
      assert (0 < q * x * (A * x * E)) by pos. lra. }
    assert (HDN : N + q * (Z * x) * b * (1 + A * x * E) <= D).
    { unfold D, N. assert (0 <= x * (Z * x) * (a * b - c ^ 2)) by (apply Rmult_le_pos; [left; pos|lra]). lra. }
    assert (HNZ : N * (Z / (1 + d) ^ 2) <= q * (Z * x) * b * (1 + A * x * E)).
    { apply Rle_trans with (q * x * ((1 + d) * (1 + A * x * E)) * (Z / (1 + d) ^ 2)).
      - apply Rmult_le_compat_r; [left; pos|assumption].
      - replace (q * x * ((1 + d) * (1 + A * x * E)) * (Z / (1 + d) ^ 2)) with (q * (Z * x) * (1 + A * x * E) * / (1 + d)) by (field; lra).
        replace (q * (Z * x) * b * (1 + A * x * E)) with (q * (Z * x) * (1 + A * x * E) * b) by ring.
        apply Rmult_le_compat_l; [left; pos|assumption]. }
    apply Rmult_le_reg_r with D; [assumption|]. replace (N / D * (1 + Z / (1 + d) ^ 2) * D) with (N * (1 + Z / (1 + d) ^ 2)) by (field; split; lra). lra.
  Qed.
  Lemma long_wavelength_ex T ne mi d : 0 < T -> 0 < ne -> 0 < mi -> 0 < d ->
    exists k0, 0 < k0 /\ forall k Z, 0 < k < k0 -> 0 < Z -> S_ii_AD u k T T ne mi Z * (1 + Z / (1 + d) ^ 2) <= 1.
  Proof.
    intros HT Hn Hm Hd. cpos u. pose proof (x_pos T ne HT Hn) as Hx. pose proof (lii_pos T mi HT Hm) as Hl.
    set (x := ne * e_ch u ^ 2 / (eps0 u * kB u * T)) in *. set (l := hbar u ^ 2 / (PI * mi * kB u * T)) in *.
    exists (sqrt (Rmin (d * x) (d / l))).
    assert (Hmin : 0 < Rmin (d * x) (d / l)) by (apply Rmin_glb_lt; [now apply Rmult_lt_0_compat|now apply Rdiv_lt_0_compat]).
    split; [now apply sqrt_lt_R0|]. intros k Z [Hk Hk0] HZ.
    assert (Hk2 : k ^ 2 <= Rmin (d * x) (d / l)).
    { rewrite <- (pow2_sqrt (Rmin (d * x) (d / l))) by lra. apply pow_incr. lra. }
    apply long_wavelength; try assumption; fold x l.
    - eapply Rle_trans; [exact Hk2|apply Rmin_l].
    - apply Rle_trans with (d / l * l); [|right; field; lra]. apply Rmult_le_compat_r; [lra|]. eapply Rle_trans; [exact Hk2|apply Rmin_r].
  Qed.
End L.
