(** C126: the two interpolations of the chemical potential of the ideal electron gas and
    the screening length made from one of them. *)
From Coq Require Import Reals List Lra Lia Psatz.
From Coquelicot Require Import Coquelicot.
From Verif Require Import M_Const M_PlasmaState M_PlasmaPhysics L_PlasmaPhysics M_Math M_ChemPot L_Fermi L_FermiFit P_FermiFit L_LFC L_RPA L_RPA0K P_RPA0K L_FreeFree6 P_Dandrea L_ChemPot.
Open Scope R_scope.

(** the temperature in units of the Fermi energy *)
Definition theta (u : consts) (n T : R) : R := kB u * T / fermi_energy u n.
Lemma theta_gt0 u n T : 0 < n -> 0 < T -> 0 < theta u n T.
Proof. intros Hn HT. unfold theta. rewrite Rmult_comm. now apply theta_pos. Qed.
Lemma EF_pos u n : 0 < fermi_energy u n.
Proof. apply fermi_energy_pos. Qed.

Lemma c_range : 75225 / 100000 <= 4 / (3 * sqrt PI) <= 75226 / 100000.
Proof.
  destruct sqrt_PI_approx as [S1 S2]. split.
  - apply (Rmult_le_reg_r (3 * sqrt PI)); [lra|]. replace (4 / (3 * sqrt PI) * (3 * sqrt PI)) with 4 by (field; lra). lra.
  - apply (Rmult_le_reg_r (3 * sqrt PI)); [lra|]. replace (4 / (3 * sqrt PI) * (3 * sqrt PI)) with 4 by (field; lra). lra.
Qed.
(** half the degeneracy parameter in terms of the reduced temperature *)
Lemma half_deg u n T : 0 < n -> 0 < T -> degeneracy_param u n T / 2 = 4 / (3 * sqrt PI) * Rpower (theta u n T) (- (3 / 2)).
Proof.
  intros Hn HT. rewrite <- (reduced u n T Hn HT). unfold theta. rewrite (Rmult_comm (kB u)). destruct sqrt_PI_approx as [S1 _]. field. lra.
Qed.
Lemma ln_deg u n T : 0 < n -> 0 < T -> ln (degeneracy_param u n T / 2) = - (3 / 2) * ln (theta u n T) + ln (4 / (3 * sqrt PI)).
Proof.
  intros Hn HT. rewrite (half_deg u n T Hn HT). destruct c_range as [C1 _]. rewrite ln_mult by (lra || apply exp_pos). unfold Rpower. rewrite ln_exp. ring.
Qed.
Lemma ichimaru_reduced u n T : 0 < n -> 0 < T -> chem_pot_ichimaru u T n / (kB u * T) = ln (degeneracy_param u n T / 2) + ich (theta u n T).
Proof.
  intros Hn HT. unfold chem_pot_ichimaru. fold (theta u n T). pose proof (theta_gt0 u n T Hn HT) as Ht. cpos u. rewrite (ich_eq _ Ht), (ln_deg u n T Hn HT). field. lra.
Qed.

(** ** C126 *)
(** the reduced chemical potential falls with the temperature and rises with the density *)
Theorem C126_order : forall u,
  (forall n T1 T2, 0 < n -> 0 < T1 < T2 -> chem_pot_ichimaru u T2 n / (kB u * T2) < chem_pot_ichimaru u T1 n / (kB u * T1)) /\
  (forall n1 n2 T, 0 < n1 < n2 -> 0 < T -> chem_pot_ichimaru u T n1 < chem_pot_ichimaru u T n2).
Proof.
  intros u. assert (M : forall s t, 0 < s < t -> ichimaru_f t < ichimaru_f s).
  { intros s t H. rewrite !ich_eq by lra. pose proof (ich_decr s t H). assert (ln s < ln t) by (apply ln_increasing; lra). lra. }
  cpos u. split.
  - intros n T1 T2 Hn HT. unfold chem_pot_ichimaru. pose proof (EF_pos u n) as HE.
    replace (ichimaru_f (kB u * T2 / fermi_energy u n) * kB u * T2 / (kB u * T2)) with (ichimaru_f (kB u * T2 / fermi_energy u n)) by (field; lra).
    replace (ichimaru_f (kB u * T1 / fermi_energy u n) * kB u * T1 / (kB u * T1)) with (ichimaru_f (kB u * T1 / fermi_energy u n)) by (field; lra).
    apply M. split; [apply Rdiv_lt_0_compat; nra|]. apply Rmult_lt_compat_r; [now apply Rinv_0_lt_compat|]. nra.
  - intros n1 n2 T Hn HT. unfold chem_pot_ichimaru. pose proof (fermi_energy_mono u n1 n2 Hn) as HE. pose proof (EF_pos u n1) as HE1.
    assert (0 < kB u * T) by nra. rewrite !Rmult_assoc. apply Rmult_lt_compat_r; [assumption|]. apply M. split; [apply Rdiv_lt_0_compat; lra|].
    apply Rmult_lt_compat_l; [assumption|]. apply Rinv_lt_contravar; [nra|lra].
Qed.
Print Assumptions C126_order.

(** above the Fermi temperature Ichimaru's form has the classical value and more, by no
    more than a falling power of the temperature *)
Theorem C126_classical : forall u n T, 0 < n -> fermi_temperature u n <= T ->
  0 < chem_pot_ichimaru u T n / (kB u * T) - ln (degeneracy_param u n T / 2) <= 332 / 1000 / Rpower (T / fermi_temperature u n) (929 / 1000).
Proof.
  intros u n T Hn HT. cpos u. pose proof (EF_pos u n) as HE. assert (HF : 0 < fermi_temperature u n) by (unfold fermi_temperature; apply Rdiv_lt_0_compat; lra).
  rewrite (ichimaru_reduced u n T Hn ltac:(lra)). assert (E : T / fermi_temperature u n = theta u n T) by (unfold theta, fermi_temperature; field; lra). rewrite E.
  assert (1 <= theta u n T). { rewrite <- E. apply (Rmult_le_reg_r (fermi_temperature u n)); [lra|]. unfold Rdiv. rewrite Rmult_assoc, Rinv_l by lra. lra. }
  pose proof (ich_pos (theta u n T) ltac:(lra)). pose proof (ich_small (theta u n T) ltac:(lra)). lra.
Qed.
Print Assumptions C126_classical.

(** below it, the Fermi energy up to the root of the reduced temperature *)
Theorem C126_degenerate : forall u n T, 0 < n -> 0 < T <= fermi_temperature u n ->
  Rabs (chem_pot_ichimaru u T n / fermi_energy u n - 1) <= 7 * sqrt (T / fermi_temperature u n).
Proof.
  intros u n T Hn HT. cpos u. pose proof (EF_pos u n) as HE. assert (HF : 0 < fermi_temperature u n) by (unfold fermi_temperature; apply Rdiv_lt_0_compat; lra).
  assert (E : T / fermi_temperature u n = theta u n T) by (unfold theta, fermi_temperature; field; lra). rewrite E. pose proof (theta_gt0 u n T Hn ltac:(lra)) as Ht.
  assert (Ht1 : theta u n T <= 1). { rewrite <- E. apply (Rmult_le_reg_r (fermi_temperature u n)); [lra|]. unfold Rdiv. rewrite Rmult_assoc, Rinv_l by lra. lra. }
  replace (chem_pot_ichimaru u T n / fermi_energy u n) with (theta u n T * ichimaru_f (theta u n T)) by (unfold chem_pot_ichimaru, theta; field; lra).
  set (t := theta u n T) in *. rewrite (ich_eq t Ht). rewrite <- (Rpower_sqrt t) by exact Ht. replace (/ 2) with (1 / 2) by field.
  pose proof (ich_deg t ltac:(lra)) as D. pose proof (tln t ltac:(lra)) as L. assert (Hr : t <= Rpower t (1 / 2)). { rewrite <- (Rpower_1 t) at 1 by lra. apply Rpower_mono; lra. }
  destruct c_range as [C1 C2]. assert (L1 : ln (4 / (3 * sqrt PI)) <= 0) by (rewrite <- ln_1; left; apply ln_increasing; lra).
  assert (L2 : -1 / 2 <= ln (4 / (3 * sqrt PI))). { pose proof (exp_ineq1_le (- ln (4 / (3 * sqrt PI)))) as X. rewrite exp_Ropp, exp_ln in X by lra. assert (/ (4 / (3 * sqrt PI)) <= / (75225 / 100000)) by (apply Rinv_le_contravar; lra). lra. }
  replace (t * (- (3 / 2) * ln t + ln (4 / (3 * sqrt PI)) + ich t) - 1) with ((t * ich t - 1) + 3 / 2 * - (t * ln t) + t * ln (4 / (3 * sqrt PI))) by ring.
  apply Rabs_le. apply Rabs_le_between in D. assert (- (1 / 2) * t <= t * ln (4 / (3 * sqrt PI)) <= 0) by nra. lra.
Qed.
Print Assumptions C126_degenerate.

(** ** the interpolation between the Sommerfeld and the virial expansion *)
Definition sred (x : R) : R := if Rlt_dec (chem_lowT x) (chem_highT x) then chem_highT x else chem_lowT x.
Lemma sommerfeld_theta u n T : 0 < n -> 0 < T -> chem_pot_sommerfeld u T n = sred (theta u n T) * fermi_energy u n.
Proof.
  intros Hn HT. cpos u. pose proof (EF_pos u n) as HE. unfold chem_pot_sommerfeld, sred. replace (T / (fermi_energy u n / kB u)) with (theta u n T) by (unfold theta; field; lra). reflexivity.
Qed.
Definition va : R := sqrt 2 / 4.
Definition vc : R := sqrt 3 / 9.
Lemma s2_range : 14142 / 10000 <= sqrt 2 <= 14143 / 10000.
Proof. split; [rewrite <- (sqrt_pow2 (14142 / 10000)) by lra|rewrite <- (sqrt_pow2 (14143 / 10000)) by lra]; apply sqrt_le_1_alt; lra. Qed.
Lemma s3_range : 173205 / 100000 <= sqrt 3 <= 173206 / 100000.
Proof. split; [rewrite <- (sqrt_pow2 (173205 / 100000)) by lra|rewrite <- (sqrt_pow2 (173206 / 100000)) by lra]; apply sqrt_le_1_alt; lra. Qed.
Lemma highT_form x : 0 < x -> let y := 4 / (3 * sqrt PI) * Rpower x (- (3 / 2)) in
  chem_highT x = x * (ln y + (va * y - (vc - 3 / 16) * y ^ 2)).
Proof.
  intros Hx y. unfold chem_highT. pose proof PI_RGT_0 as HP. destruct sqrt_PI_approx as [S1 _]. assert (Hr : 0 < sqrt x) by now apply sqrt_lt_R0.
  assert (E1 : Rpower x (1 / 2) = sqrt x) by (replace (1 / 2) with (/ 2) by field; now apply Rpower_sqrt).
  assert (E2 : Rpower x (3 / 2) = sqrt x ^ 3). { replace (3 / 2) with (1 / 2 + (1 / 2 + 1 / 2)) by field. rewrite !Rpower_plus, E1. ring. }
  assert (E3 : Rpower x (- (3 / 2)) = / sqrt x ^ 3) by (rewrite Rpower_Ropp; now rewrite E2).
  assert (Ey : y = 4 / (3 * sqrt PI) / sqrt x ^ 3) by (unfold y; rewrite E3; reflexivity).
  assert (E4 : 4 / 3 / sqrt PI / Rpower x (3 / 2) = y) by (rewrite Ey, E2; field; lra). rewrite E4, E1.
  replace (sqrt (2 / PI)) with (sqrt 2 / sqrt PI) by (symmetry; apply sqrt_div; lra).
  assert (Ex : x = sqrt x ^ 2) by (symmetry; apply pow2_sqrt; lra). assert (EP : PI = sqrt PI ^ 2) by (symmetry; apply pow2_sqrt; lra).
  rewrite Rmult_plus_distr_l. unfold Rminus. rewrite Rplus_assoc. f_equal. rewrite Ey. unfold va, vc. set (r := sqrt x) in *. set (s := sqrt PI) in *. rewrite Ex, EP. field. lra.
Qed.
(** the virial branch is taken above the Fermi temperature *)
Lemma high_branch x : 1 <= x -> sred x = chem_highT x.
Proof.
  intros Hx. unfold sred. destruct (Rlt_dec _ _) as [|N]; [reflexivity|]. exfalso. apply N. clear N.
  destruct PI_approx as [P1 P2]. destruct sqrt_PI_approx as [S1 S2]. destruct c_range as [C1 C2]. unfold chem_lowT, chem_highT. destruct s3_range as [T1 T2].
  assert (B1 : 4 / 3 / sqrt PI / Rpower x (3 / 2) = 4 / (3 * sqrt PI) * Rpower x (- (3 / 2))) by (rewrite Rpower_Ropp; field; split; [apply Rgt_not_eq, exp_pos|lra]).
  rewrite B1. rewrite ln_mult by (lra || apply exp_pos). unfold Rpower at 1. rewrite ln_exp.
  assert (L2 : -34 / 100 <= ln (4 / (3 * sqrt PI))). { pose proof (exp_ineq1_le (- ln (4 / (3 * sqrt PI)))) as X. rewrite exp_Ropp, exp_ln in X by lra. assert (/ (4 / (3 * sqrt PI)) <= / (75225 / 100000)) by (apply Rinv_le_contravar; lra). lra. }
  assert (L3 : ln x <= x - 1). { pose proof (exp_ineq1_le (ln x)) as X. rewrite exp_ln in X by lra. lra. }
  assert (Q1 : 0 <= 1 / 3 * sqrt (2 / PI) / Rpower x (1 / 2)). { apply Rmult_le_pos; [apply Rmult_le_pos; [lra|apply sqrt_pos]|]. left. apply Rinv_0_lt_compat, exp_pos. }
  assert (Q2 : (16 * sqrt 3 - 27) / (81 * PI) / x ^ 2 <= 1 / 100).
  { assert (1 <= x ^ 2) by nra. assert (0 < PI) by lra. apply (Rmult_le_reg_r (x ^ 2 * (81 * PI))); [nra|]. replace ((16 * sqrt 3 - 27) / (81 * PI) / x ^ 2 * (x ^ 2 * (81 * PI))) with (16 * sqrt 3 - 27) by (field; lra). assert (81 * PI <= x ^ 2 * (81 * PI)) by nra. lra. }
  assert (Q3 : PI ^ 2 >= 98 / 10) by nra. assert (Q4 : PI ^ 4 >= 96). { replace (PI ^ 4) with (PI ^ 2 * PI ^ 2) by ring. nra. }
  assert (Q5 : x * ln (4 / (3 * sqrt PI)) >= - (34 / 100) * x) by nra. assert (Q6 : x * ln x <= x * (x - 1)) by nra.
  assert (X2 : x <= x ^ 2) by nra. assert (X4 : x ^ 2 <= x ^ 4) by (replace (x ^ 4) with (x ^ 2 * x ^ 2) by ring; nra).
  assert (PI ^ 2 / 12 * x ^ 2 >= 98 / 120 * x ^ 2) by nra. assert (PI ^ 4 / 80 * x ^ 4 >= 96 / 80 * x ^ 4) by nra.
  rewrite Rmult_plus_distr_l. nra.
Qed.
(** it solves the number equation to the third order of the virial expansion *)
Theorem C126_virial : forall u n T, 0 < n -> 2 * fermi_temperature u n <= T ->
  let y := degeneracy_param u n T / 2 in
  0 < y < 27 / 100 /\ Rabs (fermi_integral (chem_pot_sommerfeld u T n / (kB u * T)) (1 / 2) - y) <= 11 / 10 * y ^ 4.
Proof.
  intros u n T Hn HT y. cpos u. pose proof (EF_pos u n) as HE. assert (HF : 0 < fermi_temperature u n) by (unfold fermi_temperature; apply Rdiv_lt_0_compat; lra).
  assert (HT0 : 0 < T) by lra. assert (E : T / fermi_temperature u n = theta u n T) by (unfold theta, fermi_temperature; field; lra).
  assert (Hx : 2 <= theta u n T). { rewrite <- E. apply (Rmult_le_reg_r (fermi_temperature u n)); [lra|]. unfold Rdiv. rewrite Rmult_assoc, Rinv_l by lra. lra. }
  set (x := theta u n T) in *. assert (Ey : y = 4 / (3 * sqrt PI) * Rpower x (- (3 / 2))) by (apply half_deg; lra).
  destruct c_range as [C1 C2]. destruct s2_range as [S1 S2]. destruct s3_range as [T1 T2].
  assert (Hp : 0 < Rpower x (- (3 / 2)) <= 3536 / 10000).
  { split; [apply exp_pos|]. rewrite Rpower_Ropp. replace (3 / 2) with (1 + / 2) by field. rewrite Rpower_plus, Rpower_1, Rpower_sqrt by lra. assert (14142 / 10000 <= sqrt x) by (apply Rle_trans with (1 := S1); apply sqrt_le_1_alt; lra).
    apply Rle_trans with (/ (2 * (14142 / 10000))); [apply Rinv_le_contravar; [lra|]; nra|lra]. }
  assert (Hy : 0 < y < 27 / 100) by (rewrite Ey; nra). split; [exact Hy|].
  destruct (virial va (vc - 3 / 16) vc y) as (Hw & Hz & B); [lra|unfold va; lra|unfold va; replace (sqrt 2 / 4 * (sqrt 2 / 4)) with (sqrt 2 * sqrt 2 / 16) by field; rewrite sqrt_sqrt by lra; field|reflexivity|unfold vc; lra|].
  set (w := va * y - (vc - 3 / 16) * y ^ 2) in *.
  assert (Em : chem_pot_sommerfeld u T n / (kB u * T) = ln y + w).
  { rewrite (sommerfeld_theta u n T Hn HT0). fold x. rewrite high_branch by lra. rewrite (highT_form x ltac:(lra)). rewrite <- Ey. fold w. unfold x, theta. field. repeat split; lra. }
  rewrite Em. pose proof (F12_series (ln y + w)) as F. cbv zeta in F. rewrite exp_plus, exp_ln in F by lra. set (z := y * exp w) in *.
  replace (z - z ^ 2 / (2 * sqrt 2) + z ^ 3 / (3 * sqrt 3)) with (z - va * z ^ 2 + vc * z ^ 3) in F.
  2:{ unfold va, vc. replace (/ (2 * sqrt 2)) with (sqrt 2 / 4). 
      - assert (z ^ 2 / (2 * sqrt 2) = sqrt 2 / 4 * z ^ 2) as ->. { replace (2 * sqrt 2) with (4 / sqrt 2). - field. lra. - apply (Rmult_eq_reg_r (sqrt 2)); [|lra]. replace (4 / sqrt 2 * sqrt 2) with 4 by (field; lra). rewrite Rmult_assoc, sqrt_sqrt by lra. ring. }
        assert (z ^ 3 / (3 * sqrt 3) = sqrt 3 / 9 * z ^ 3) as ->. { replace (3 * sqrt 3) with (9 / sqrt 3). - field. lra. - apply (Rmult_eq_reg_r (sqrt 3)); [|lra]. replace (9 / sqrt 3 * sqrt 3) with 9 by (field; lra). rewrite Rmult_assoc, sqrt_sqrt by lra. ring. } reflexivity.
      - apply (Rmult_eq_reg_r (2 * sqrt 2)); [|lra]. rewrite Rinv_l by lra. replace (sqrt 2 / 4 * (2 * sqrt 2)) with (sqrt 2 * sqrt 2 / 2) by field. rewrite sqrt_sqrt by lra. field. }
  assert (Z4 : z ^ 4 / 8 <= 306 / 1000 * y ^ 4). { assert (HZ : z ^ 4 <= (125 / 100 * y) ^ 4) by (apply pow_incr; lra). rewrite Rpow_mult_distr in HZ. assert (0 < y ^ 4) by (apply pow_lt; lra). lra. }
  apply Rabs_le. apply Rabs_le_between in F. apply Rabs_le_between in B. assert (0 < y ^ 4) by (apply pow_lt; lra). lra.
Qed.
Print Assumptions C126_virial.

(** far below the Fermi temperature the Sommerfeld branch is taken *)
Lemma low_branch x : 0 < x <= 1 / 10 -> sred x = chem_lowT x.
Proof.
  intros Hx. unfold sred. destruct (Rlt_dec _ _) as [N|]; [|reflexivity]. exfalso. revert N. apply Rle_not_lt.
  destruct PI_approx as [P1 P2]. destruct sqrt_PI_approx as [S1 S2]. destruct c_range as [C1 C2]. destruct s3_range as [T1 T2]. destruct s2_range as [U1 U2]. unfold chem_lowT, chem_highT.
  assert (Hr : 0 < sqrt x) by (apply sqrt_lt_R0; lra). set (s := / sqrt x). assert (Hs : 0 < s) by now apply Rinv_0_lt_compat.
  assert (E1 : Rpower x (1 / 2) = / s) by (unfold s; rewrite Rinv_inv; replace (1 / 2) with (/ 2) by field; apply Rpower_sqrt; lra).
  assert (E2 : Rpower x (3 / 2) = / s ^ 3). { replace (3 / 2) with (1 / 2 + (1 / 2 + 1 / 2)) by field. rewrite !Rpower_plus, E1. field. lra. }
  assert (Ex : x = / s ^ 2). { unfold s. rewrite pow_inv, Rinv_inv. symmetry. apply pow2_sqrt. lra. }
  assert (Hs2 : 10 <= s ^ 2). { assert (x * s ^ 2 = 1) by (rewrite Ex at 1; field; lra). nra. } assert (Hs1 : 316 / 100 <= s) by nra.
  rewrite E1, E2. replace (4 / 3 / sqrt PI / / s ^ 3) with (4 / (3 * sqrt PI) * s ^ 3) by (field; lra).
  assert (L0 : ln (4 / (3 * sqrt PI)) <= 0) by (rewrite <- ln_1; left; apply ln_increasing; lra).
  rewrite ln_mult by (lra || now apply pow_lt). rewrite ln_pow by exact Hs. replace (INR 3) with 3 by (cbn; ring).
  assert (L1 : ln s <= 4 / 10 * s).
  { pose proof (exp_ge_taylor2 1 ltac:(lra)) as X. pose proof (exp_ineq1_le (ln s - 1)) as Y. replace (ln s - 1) with (ln s + - (1)) in Y by ring. rewrite exp_plus, exp_ln in Y by exact Hs. rewrite exp_Ropp in Y.
    assert (/ exp 1 <= 4 / 10) by (apply Rle_trans with (/ (25 / 10)); [apply Rinv_le_contravar; lra|lra]). nra. }
  assert (A1 : x * (ln (4 / (3 * sqrt PI)) + 3 * ln s) <= 38 / 100).
  { apply Rle_trans with (x * (12 / 10 * s)); [apply Rmult_le_compat_l; lra|]. replace (x * (12 / 10 * s)) with (12 / 10 / s) by (rewrite Ex; field; lra). apply (Rmult_le_reg_r s); [lra|]. replace (12 / 10 / s * s) with (12 / 10) by (field; lra). lra. }
  assert (A2 : 1 / 3 * sqrt (2 / PI) / / s <= 266 / 1000 * s).
  { rewrite sqrt_div by lra. replace (1 / 3 * (sqrt 2 / sqrt PI) / / s) with (sqrt 2 / (3 * sqrt PI) * s) by (field; lra). apply Rmult_le_compat_r; [lra|]. apply (Rmult_le_reg_r (3 * sqrt PI)); [lra|]. replace (sqrt 2 / (3 * sqrt PI) * (3 * sqrt PI)) with (sqrt 2) by (field; lra). lra. }
  assert (A3 : 28 / 10000 * s ^ 4 <= (16 * sqrt 3 - 27) / (81 * PI) / x ^ 2).
  { replace ((16 * sqrt 3 - 27) / (81 * PI) / x ^ 2) with ((16 * sqrt 3 - 27) / (81 * PI) * s ^ 4) by (rewrite Ex; field; lra). apply Rmult_le_compat_r; [left; apply pow_lt; lra|]. apply (Rmult_le_reg_r (81 * PI)); [lra|]. replace ((16 * sqrt 3 - 27) / (81 * PI) * (81 * PI)) with (16 * sqrt 3 - 27) by (field; lra). lra. }
  assert (A4 : 266 / 1000 * s - 28 / 10000 * s ^ 4 <= 58 / 100).
  { assert (4 * (2875 / 1000) ^ 3 * s - 3 * (2875 / 1000) ^ 4 <= s ^ 4).
    { set (t := 2875 / 1000). assert (0 < t) by (unfold t; lra). assert (0 <= (s - t) ^ 2 * ((s + t) ^ 2 + 2 * t ^ 2)) by (apply Rmult_le_pos; [apply pow2_ge_0|pose proof (pow2_ge_0 (s + t)); pose proof (pow2_ge_0 t); lra]). replace ((s - t) ^ 2 * ((s + t) ^ 2 + 2 * t ^ 2)) with (s ^ 4 - 4 * t ^ 3 * s + 3 * t ^ 4) in H0 by ring. lra. }
    lra. }
  assert (A5 : PI ^ 2 / 12 * x ^ 2 + PI ^ 4 / 80 * x ^ 4 <= 1 / 100).
  { assert (PI ^ 2 <= 987 / 100) by nra. assert (PI ^ 4 <= 98). { replace (PI ^ 4) with (PI ^ 2 * PI ^ 2) by ring. assert (0 <= PI ^ 2) by nra. nra. } assert (0 <= x ^ 2 <= 1 / 100) by nra. assert (0 <= x ^ 4 <= 1 / 10000) by (replace (x ^ 4) with (x ^ 2 * x ^ 2) by ring; nra). assert (0 <= PI ^ 2) by nra. assert (0 <= PI ^ 4) by (apply pow_le; lra). nra. }
  lra.
Qed.
Theorem C126_cold : forall u n T, 0 < n -> 0 < T <= fermi_temperature u n / 10 -> let x := T / fermi_temperature u n in
  chem_pot_sommerfeld u T n / fermi_energy u n = 1 - PI ^ 2 / 12 * x ^ 2 - PI ^ 4 / 80 * x ^ 4 /\
  Rabs (chem_pot_sommerfeld u T n - fermi_energy u n) <= x ^ 2 * fermi_energy u n /\
  (forall T', 0 < T' < T -> chem_pot_sommerfeld u T n < chem_pot_sommerfeld u T' n < fermi_energy u n).
Proof.
  intros u n T Hn HT x. cpos u. pose proof (EF_pos u n) as HE. assert (HF : 0 < fermi_temperature u n) by (unfold fermi_temperature; apply Rdiv_lt_0_compat; lra).
  assert (V : forall T, 0 < T <= fermi_temperature u n / 10 -> chem_pot_sommerfeld u T n = chem_lowT (T / fermi_temperature u n) * fermi_energy u n /\ 0 < T / fermi_temperature u n <= 1 / 10).
  { intros S HS. assert (E : S / fermi_temperature u n = theta u n S) by (unfold theta, fermi_temperature; field; lra).
    assert (Hb : 0 < S / fermi_temperature u n <= 1 / 10). { split; [apply Rdiv_lt_0_compat; lra|]. apply (Rmult_le_reg_r (fermi_temperature u n)); [lra|]. unfold Rdiv. rewrite Rmult_assoc, Rinv_l by lra. lra. }
    split; [|exact Hb]. rewrite (sommerfeld_theta u n S Hn) by lra. rewrite E in *. now rewrite low_branch. }
  destruct (V T HT) as [E Hx]. fold x in E, Hx. destruct PI_approx as [P1 P2]. assert (Q2 : 98 / 10 <= PI ^ 2 <= 987 / 100) by nra.
  assert (Q4 : 0 <= PI ^ 4 <= 98). { replace (PI ^ 4) with (PI ^ 2 * PI ^ 2) by ring. nra. }
  rewrite E. split; [unfold chem_lowT; field; lra|]. split.
  - replace (chem_lowT x * fermi_energy u n - fermi_energy u n) with (- ((PI ^ 2 / 12 * x ^ 2 + PI ^ 4 / 80 * x ^ 4) * fermi_energy u n)) by (unfold chem_lowT; ring).
    assert (X2 : 0 < x ^ 2 <= 1 / 100) by nra. assert (X4 : 0 <= x ^ 4 <= 1 / 100 * x ^ 2). { replace (x ^ 4) with (x ^ 2 * x ^ 2) by ring. split; [apply Rmult_le_pos; lra|apply Rmult_le_compat_r; lra]. }
    assert (W2 : 0 <= PI ^ 2 / 12 * x ^ 2 <= 9 / 10 * x ^ 2) by (split; nra). assert (W4 : 0 <= PI ^ 4 / 80 * x ^ 4 <= 98 / 80 * x ^ 4) by (split; nra).
    assert (W : 0 <= PI ^ 2 / 12 * x ^ 2 + PI ^ 4 / 80 * x ^ 4 <= x ^ 2) by lra.
    rewrite Rabs_Ropp, Rabs_pos_eq by nra. apply Rmult_le_compat_r; lra.
  - intros T' HT'. destruct (V T' ltac:(lra)) as [E' Hx']. rewrite E'. assert (L : T' / fermi_temperature u n < x) by (unfold x; apply Rmult_lt_compat_r; [now apply Rinv_0_lt_compat|lra]).
    set (x' := T' / fermi_temperature u n) in *. assert (0 < x' ^ 2 < x ^ 2) by nra. assert (0 < x' ^ 4 < x ^ 4). { replace (x ^ 4) with (x ^ 2 * x ^ 2) by ring. replace (x' ^ 4) with (x' ^ 2 * x' ^ 2) by ring. nra. }
    assert (chem_lowT x < chem_lowT x' < 1) by (unfold chem_lowT; split; nra). split; nra.
Qed.
Print Assumptions C126_cold.

(** ** the screening length *)
Theorem C126_debye : forall u n T, 0 < n -> 2 * fermi_temperature u n <= T ->
  exists k, inverse_screening_length_e u n T = Some k /\ 0 < k /\
  Rabs (k ^ 2 / (n * e_ch u ^ 2 / (eps0 u * kB u * T)) - 1) <= 2 / 1000000 + degeneracy_param u n T + 67 / 100 / Rpower (T / fermi_temperature u n) (929 / 1000).
Proof.
  intros u n T Hn HT. cpos u. pose proof (EF_pos u n) as HE. assert (HF : 0 < fermi_temperature u n) by (unfold fermi_temperature; apply Rdiv_lt_0_compat; lra).
  assert (HT0 : 0 < T) by lra. assert (E : T / fermi_temperature u n = theta u n T) by (unfold theta, fermi_temperature; field; lra).
  assert (Hx : 2 <= theta u n T). { rewrite <- E. apply (Rmult_le_reg_r (fermi_temperature u n)); [lra|]. unfold Rdiv. rewrite Rmult_assoc, Rinv_l by lra. lra. }
  rewrite E. destruct (C126_virial u n T Hn HT) as [Hy _]. set (y := degeneracy_param u n T / 2) in *. set (x := theta u n T) in *.
  unfold inverse_screening_length_e. replace (chem_pot_ichimaru u T n * (1 / (1 * kB u * T))) with (chem_pot_ichimaru u T n / (kB u * T)) by (field; lra).
  rewrite (ichimaru_reduced u n T Hn HT0). fold x y. pose proof (ich_pos x ltac:(lra)) as I0. pose proof (ich_small x ltac:(lra)) as I1. destruct s2_range as [S1 S2].
  assert (Hq : 14142 / 10000 <= Rpower x (929 / 1000)). { apply Rle_trans with (sqrt x); [apply Rle_trans with (1 := S1); apply sqrt_le_1_alt; lra|]. rewrite <- Rpower_sqrt by lra. apply Rle_Rpower; lra. }
  set (q := Rpower x (929 / 1000)) in *. assert (I2 : 332 / 1000 / q <= 235 / 1000). { apply (Rmult_le_reg_r q); [lra|]. replace (332 / 1000 / q * q) with (332 / 1000) by (field; lra). lra. }
  set (d := ich x) in *. assert (U : exp d <= 1 + 2 * d) by (apply exp_up0; lra). assert (L : 1 + d <= exp d) by apply exp_ineq1_le.
  assert (Hl : ln y <= -94 / 100).
  { rewrite <- (ln_exp (-94 / 100)). assert (y < exp (-94 / 100)); [|left; apply ln_increasing; lra]. replace (-94 / 100) with (- (47 / 100 + 47 / 100)) by field. rewrite exp_Ropp, exp_plus.
    pose proof (exp_up1 (47 / 100) ltac:(lra)) as X. pose proof (exp_pos (47 / 100)). apply Rlt_trans with (27 / 100); [lra|]. apply Rlt_le_trans with (/ (37 / 10)); [lra|]. apply Rinv_le_contravar; nra. }
  destruct (C122_nondegenerate (ln y + d) ltac:(lra)) as ((_ & v & Ev & Fp & Fb) & _). unfold screening_at. rewrite Ev. cbn [obind].
  pose proof (Fm12_series (ln y + d)) as FS. cbv zeta in FS. rewrite exp_plus, exp_ln in FS by lra. set (z := y * exp d) in *. set (F := fermi_integral (ln y + d) (-1 / 2)) in *.
  assert (Hz : y <= z <= 147 / 100 * y) by (unfold z; nra). assert (Z2 : z ^ 2 / sqrt 2 <= 153 / 100 * y ^ 2).
  { apply (Rmult_le_reg_r (sqrt 2)); [lra|]. replace (z ^ 2 / sqrt 2 * sqrt 2) with (z ^ 2) by (field; lra). assert (0 < y ^ 2) by nra. assert (z ^ 2 <= 147 / 100 * (147 / 100) * y ^ 2) by nra. nra. }
  assert (Hv : Rabs (v / y - 1) <= 2 / 1000000 + 2 * y + 2 * d).
  { apply Rabs_le_between in Fb. apply Rabs_le_between in FS. assert (Fy : F <= 19 / 10 * y) by nra.
    assert (Zd : y * (1 + d) <= z <= y * (1 + 2 * d)) by (unfold z; nra). 
    assert (V : - (2 / 1000000 * y + 2 * y * y + 2 * d * y) <= v - y <= 2 / 1000000 * y + 2 * y * y + 2 * d * y) by nra.
    apply Rabs_le. replace (v / y - 1) with ((v - y) / y) by (field; lra). split.
    - apply (Rmult_le_reg_r y); [lra|]. replace ((v - y) / y * y) with (v - y) by (field; lra). lra.
    - apply (Rmult_le_reg_r y); [lra|]. replace ((v - y) / y * y) with (v - y) by (field; lra). lra. }
  assert (v0 : 0 < v). { apply Rabs_le_between in Fb. lra. }
  pose proof PI_RGT_0 as HP. destruct (dbl_pos u T HT0) as [Hw Ew].
  assert (El : sqrt (2 * PI * 1 * hbar u ^ 2 / (m_e u * 1 * kB u * T)) = therm_de_broglie_wl u T).
  { unfold therm_de_broglie_wl. assert (0 < m_e u * kB u * T) by (apply Rmult_lt_0_compat; [apply Rmult_lt_0_compat|]; lra).
    replace (2 * PI * 1 * hbar u ^ 2 / (m_e u * 1 * kB u * T)) with (hbar u ^ 2 * (2 * PI / (m_e u * kB u * T))) by (field; repeat split; lra). rewrite sqrt_mult; [|nra|left; apply Rdiv_lt_0_compat; lra]. rewrite sqrt_pow2 by lra. reflexivity. }
  rewrite El. set (l := therm_de_broglie_wl u T) in *. assert (Hl3 : 0 < l ^ 3) by now apply pow_lt.
  assert (Earg : (-1 * e_ch u) ^ 2 / (eps0 u * kB u * T) * (2 / l ^ 3) * v = n * e_ch u ^ 2 / (eps0 u * kB u * T) * (v / y)).
  { unfold y, degeneracy_param. fold l. field. repeat split; lra. }
  rewrite Earg. assert (HD : 0 < n * e_ch u ^ 2 / (eps0 u * kB u * T)). { apply Rdiv_lt_0_compat; [apply Rmult_lt_0_compat; [lra|apply pow_lt; lra]|apply Rmult_lt_0_compat; [apply Rmult_lt_0_compat|]; lra]. }
  assert (Hvy : 0 < v / y) by (apply Rdiv_lt_0_compat; lra). assert (HA : 0 < n * e_ch u ^ 2 / (eps0 u * kB u * T) * (v / y)) by now apply Rmult_lt_0_compat.
  rewrite sqrto_some by lra. eexists. split; [reflexivity|]. split; [now apply sqrt_lt_R0|]. rewrite pow2_sqrt by lra.
  replace (n * e_ch u ^ 2 / (eps0 u * kB u * T) * (v / y) / (n * e_ch u ^ 2 / (eps0 u * kB u * T))) with (v / y).
  2:{ set (D := n * e_ch u ^ 2 / (eps0 u * kB u * T)) in *. clearbody D. field. split; lra. }
  eapply Rle_trans; [exact Hv|]. replace (degeneracy_param u n T) with (2 * y) by (unfold y; field). assert (2 * d <= 67 / 100 / q); [|lra].
  apply Rle_trans with (2 * (332 / 1000 / q)); [lra|]. assert (0 < / q) by (apply Rinv_0_lt_compat; lra). unfold Rdiv. lra.
Qed.
Print Assumptions C126_debye.

(** ** the interpolation exceeds the Fermi energy *)
Lemma exp_dbl_up x c d : exp x <= c -> c * c <= d -> exp (2 * x) <= d.
Proof. intros H1 H2. replace (2 * x) with (x + x) by ring. rewrite exp_plus. pose proof (exp_pos x). nra. Qed.
Lemma exp_dbl_lo x c d : 0 <= c -> c <= exp x -> d <= c * c -> d <= exp (2 * x).
Proof. intros H0 H1 H2. replace (2 * x) with (x + x) by ring. rewrite exp_plus. pose proof (exp_pos x). nra. Qed.
Lemma exp5_up : exp (5 / 1) <= 148588 / 1000.
Proof.
  assert (H0 : exp (5 / 512) <= (50490681 / 50000000)). { pose proof (exp_up2 (5 / 512) ltac:(lra)). lra. }
  assert (H1 : exp (5 / 256) <= (254930887 / 250000000)). { replace (5 / 256) with (2 * (5 / 512)) by field. apply (exp_dbl_up _ (50490681 / 50000000)); [exact H0|lra]. }
  assert (H2 : exp (5 / 128) <= (207967223 / 200000000)). { replace (5 / 128) with (2 * (5 / 256)) by field. apply (exp_dbl_up _ (254930887 / 250000000)); [exact H1|lra]. }
  assert (H3 : exp (5 / 64) <= (1081259147 / 1000000000)). { replace (5 / 64) with (2 * (5 / 128)) by field. apply (exp_dbl_up _ (207967223 / 200000000)); [exact H2|lra]. }
  assert (H4 : exp (5 / 32) <= (1169121343 / 1000000000)). { replace (5 / 32) with (2 * (5 / 64)) by field. apply (exp_dbl_up _ (1081259147 / 1000000000)); [exact H3|lra]. }
  assert (H5 : exp (5 / 16) <= (273368943 / 200000000)). { replace (5 / 16) with (2 * (5 / 32)) by field. apply (exp_dbl_up _ (1169121343 / 1000000000)); [exact H4|lra]. }
  assert (H6 : exp (5 / 8) <= (74730579 / 40000000)). { replace (5 / 8) with (2 * (5 / 16)) by field. apply (exp_dbl_up _ (273368943 / 200000000)); [exact H5|lra]. }
  assert (H7 : exp (5 / 4) <= (3490412149 / 1000000000)). { replace (5 / 4) with (2 * (5 / 8)) by field. apply (exp_dbl_up _ (74730579 / 40000000)); [exact H6|lra]. }
  assert (H8 : exp (5 / 2) <= (1218297697 / 100000000)). { replace (5 / 2) with (2 * (5 / 4)) by field. apply (exp_dbl_up _ (3490412149 / 1000000000)); [exact H7|lra]. }
  assert (H9 : exp (5 / 1) <= (37106231963 / 250000000)). { replace (5 / 1) with (2 * (5 / 2)) by field. apply (exp_dbl_up _ (1218297697 / 100000000)); [exact H8|lra]. }
  lra.
Qed.
Lemma exp4645_up : exp (929 / 200) <= 104166 / 1000.
Proof.
  assert (H0 : exp (929 / 102400) <= (252278417 / 250000000)). { pose proof (exp_up2 (929 / 102400) ltac:(lra)). lra. }
  assert (H1 : exp (929 / 51200) <= (203662079 / 200000000)). { replace (929 / 51200) with (2 * (929 / 102400)) by field. apply (exp_dbl_up _ (252278417 / 250000000)); [exact H0|lra]. }
  assert (H2 : exp (929 / 25600) <= (1036956061 / 1000000000)). { replace (929 / 25600) with (2 * (929 / 51200)) by field. apply (exp_dbl_up _ (203662079 / 200000000)); [exact H1|lra]. }
  assert (H3 : exp (929 / 12800) <= (1075277873 / 1000000000)). { replace (929 / 12800) with (2 * (929 / 25600)) by field. apply (exp_dbl_up _ (1036956061 / 1000000000)); [exact H2|lra]. }
  assert (H4 : exp (929 / 6400) <= (231244501 / 200000000)). { replace (929 / 6400) with (2 * (929 / 12800)) by field. apply (exp_dbl_up _ (1075277873 / 1000000000)); [exact H3|lra]. }
  assert (H5 : exp (929 / 3200) <= (668425241 / 500000000)). { replace (929 / 3200) with (2 * (929 / 6400)) by field. apply (exp_dbl_up _ (231244501 / 200000000)); [exact H4|lra]. }
  assert (H6 : exp (929 / 1600) <= (446792303 / 250000000)). { replace (929 / 1600) with (2 * (929 / 3200)) by field. apply (exp_dbl_up _ (668425241 / 500000000)); [exact H5|lra]. }
  assert (H7 : exp (929 / 800) <= (3193973793 / 1000000000)). { replace (929 / 800) with (2 * (929 / 1600)) by field. apply (exp_dbl_up _ (446792303 / 250000000)); [exact H6|lra]. }
  assert (H8 : exp (929 / 400) <= (10201468591 / 1000000000)). { replace (929 / 400) with (2 * (929 / 800)) by field. apply (exp_dbl_up _ (3193973793 / 1000000000)); [exact H7|lra]. }
  assert (H9 : exp (929 / 200) <= (52034980707 / 500000000)). { replace (929 / 200) with (2 * (929 / 400)) by field. apply (exp_dbl_up _ (10201468591 / 1000000000)); [exact H8|lra]. }
  lra.
Qed.
Lemma exp429_lo : 72728 / 1000 <= exp (429 / 100).
Proof.
  assert (H0 : (1008414009 / 1000000000) <= exp (429 / 51200)). { pose proof (exp_ge_taylor2 (429 / 51200) ltac:(lra)). lra. }
  assert (H1 : (1016898813 / 1000000000) <= exp (429 / 25600)). { replace (429 / 25600) with (2 * (429 / 51200)) by field. apply (exp_dbl_lo _ (1008414009 / 1000000000)); [lra|exact H0|lra]. }
  assert (H2 : (206816639 / 200000000) <= exp (429 / 12800)). { replace (429 / 12800) with (2 * (429 / 25600)) by field. apply (exp_dbl_lo _ (1016898813 / 1000000000)); [lra|exact H1|lra]. }
  assert (H3 : (534664027 / 500000000) <= exp (429 / 6400)). { replace (429 / 6400) with (2 * (429 / 12800)) by field. apply (exp_dbl_lo _ (206816639 / 200000000)); [lra|exact H2|lra]. }
  assert (H4 : (1143462487 / 1000000000) <= exp (429 / 3200)). { replace (429 / 3200) with (2 * (429 / 6400)) by field. apply (exp_dbl_lo _ (534664027 / 500000000)); [lra|exact H3|lra]. }
  assert (H5 : (1307506459 / 1000000000) <= exp (429 / 1600)). { replace (429 / 1600) with (2 * (429 / 3200)) by field. apply (exp_dbl_lo _ (1143462487 / 1000000000)); [lra|exact H4|lra]. }
  assert (H6 : (85478657 / 50000000) <= exp (429 / 800)). { replace (429 / 800) with (2 * (429 / 1600)) by field. apply (exp_dbl_lo _ (1307506459 / 1000000000)); [lra|exact H5|lra]. }
  assert (H7 : (2922640321 / 1000000000) <= exp (429 / 400)). { replace (429 / 400) with (2 * (429 / 800)) by field. apply (exp_dbl_lo _ (85478657 / 50000000)); [lra|exact H6|lra]. }
  assert (H8 : (1708365289 / 200000000) <= exp (429 / 200)). { replace (429 / 200) with (2 * (429 / 400)) by field. apply (exp_dbl_lo _ (2922640321 / 1000000000)); [lra|exact H7|lra]. }
  assert (H9 : (9120349877 / 125000000) <= exp (429 / 100)). { replace (429 / 100) with (2 * (429 / 200)) by field. apply (exp_dbl_lo _ (1708365289 / 200000000)); [lra|exact H8|lra]. }
  lra.
Qed.
Lemma ich_form t : 0 < t -> t * ich t - 1 = (72 / 1000 * Rpower t (929 / 1000) - Rpower t (858 / 1000)) / (Rpower t (858 / 1000) + 25954 / 100000).
Proof.
  intros Ht. unfold ich. set (b := Rpower t (858 / 1000)). assert (Hb : 0 < b) by apply exp_pos. set (q := Rpower t (929 / 1000)). assert (Hq : 0 < q) by apply exp_pos.
  replace (Rpower t (1858 / 1000)) with (b * t). 2:{ unfold b. rewrite <- (Rpower_1 t) at 2 by lra. rewrite <- Rpower_plus. f_equal. lra. }
  replace (Rpower t (71 / 1000)) with (q / b). 2:{ unfold q, b, Rdiv. rewrite <- Rpower_Ropp, <- Rpower_plus. f_equal. lra. }
  assert (Et : t = q * q / b). { unfold q, b, Rdiv. rewrite <- Rpower_Ropp, <- !Rpower_plus. rewrite <- (Rpower_1 t) at 1 by lra. f_equal. lra. }
  rewrite Et. field. repeat split; try lra; nra.
Qed.
(** the chemical potential of the ideal gas lies below the Fermi energy at every
    temperature; the interpolation does not, at whatever density *)
Theorem C126_ceiling_refuted : forall u n, 0 < n -> exists T, 0 < T < fermi_temperature u n /\ fermi_energy u n < chem_pot_ichimaru u T n.
Proof.
  intros u n Hn. cpos u. pose proof (EF_pos u n) as HE. set (t := exp (- (5))). assert (Ht : 0 < t) by apply exp_pos. exists (t * fermi_temperature u n).
  assert (HF : 0 < fermi_temperature u n) by (unfold fermi_temperature; apply Rdiv_lt_0_compat; lra).
  assert (t1 : t < 1) by (unfold t; rewrite <- exp_0; apply exp_increasing; lra). split; [split; nra|].
  unfold chem_pot_ichimaru. replace (kB u * (t * fermi_temperature u n) / fermi_energy u n) with t by (unfold fermi_temperature; field; lra).
  replace (ichimaru_f t * kB u * (t * fermi_temperature u n)) with (t * ichimaru_f t * fermi_energy u n) by (unfold fermi_temperature; field; lra).
  assert (1 < t * ichimaru_f t); [|nra]. rewrite (ich_eq t Ht). assert (El : ln t = - (5)) by apply ln_exp. rewrite El. pose proof (ich_form t Ht) as I. unfold Rpower in I. rewrite El in I.
  replace (929 / 1000 * - (5)) with (- (929 / 200)) in I by field. replace (858 / 1000 * - (5)) with (- (429 / 100)) in I by field. rewrite !exp_Ropp in I.
  pose proof exp5_up as U5. pose proof exp4645_up as U4. pose proof exp429_lo as L4. replace (5 / 1) with 5 in U5 by field.
  assert (T1 : 673 / 100000 <= t). { unfold t. rewrite exp_Ropp. apply Rle_trans with (/ (148588 / 1000)); [lra|]. apply Rinv_le_contravar; [apply exp_pos|exact U5]. }
  assert (Q1 : 96 / 10000 <= / exp (929 / 200)) by (apply Rle_trans with (/ (104166 / 1000)); [lra|apply Rinv_le_contravar; [apply exp_pos|exact U4]]).
  assert (B1 : / exp (429 / 100) <= 1375 / 100000) by (apply Rle_trans with (/ (72728 / 1000)); [apply Rinv_le_contravar; lra|lra]).
  assert (B0 : 0 < / exp (429 / 100)) by apply Rinv_0_lt_compat, exp_pos. set (b := / exp (429 / 100)) in *. set (q := / exp (929 / 200)) in *.
  assert (J : -48 / 1000 <= t * ich t - 1). { rewrite I. apply (Rmult_le_reg_r (b + 25954 / 100000)); [lra|]. unfold Rdiv at 3. rewrite Rmult_assoc, Rinv_l by lra. lra. }
  destruct c_range as [C1 C2]. assert (L2 : -33 / 100 <= ln (4 / (3 * sqrt PI))). { pose proof (exp_ineq1_le (- ln (4 / (3 * sqrt PI)))) as X. rewrite exp_Ropp, exp_ln in X by lra. assert (/ (4 / (3 * sqrt PI)) <= / (75225 / 100000)) by (apply Rinv_le_contravar; lra). lra. }
  assert (t * ln (4 / (3 * sqrt PI)) >= - (33 / 100) * t) by nra. nra.
Qed.
Print Assumptions C126_ceiling_refuted.

(** unit constants: a density with Fermi temperature 1/2 *)
Definition nh : R := 1 / (3 * PI ^ 2).
Lemma nh_pos : 0 < nh.
Proof. unfold nh. pose proof PI_RGT_0. assert (0 < PI ^ 2) by (apply pow_lt; lra). apply Rdiv_lt_0_compat; lra. Qed.
Lemma nh_T : fermi_temperature unit_consts nh = 1 / 2.
Proof.
  unfold fermi_temperature, fermi_energy, nh. replace (3 * PI ^ 2 * (1 / (3 * PI ^ 2))) with 1 by (field; pose proof PI_RGT_0; lra). rewrite Rpower_one. cbn. field.
Qed.
Example C126_met : fermi_temperature unit_consts nh <= 1 /\ 2 * fermi_temperature unit_consts nh <= 1 /\ 1 / 100 <= fermi_temperature unit_consts nh / 10 /\ 0 < nh.
Proof. rewrite nh_T. pose proof nh_pos. lra. Qed.
Example C126_ex : exists k, inverse_screening_length_e unit_consts nh 1 = Some k /\ 0 < k /\ chem_pot_sommerfeld unit_consts (1 / 100) nh < fermi_energy unit_consts nh.
Proof.
  destruct (C126_debye unit_consts nh 1 nh_pos) as (k & E & Hk & _); [rewrite nh_T; lra|]. exists k. split; [exact E|]. split; [exact Hk|].
  destruct (C126_cold unit_consts nh (2 / 100) nh_pos) as (_ & _ & H); [rewrite nh_T; lra|]. apply (H (1 / 100)). lra.
Qed.
