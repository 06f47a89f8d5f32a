(** Lemmas for the Ogata quadrature: the double-exponential substitution and its
    tail. *)
From Coq Require Import Reals Lra Psatz List Lia Arith.
From Coquelicot Require Import Coquelicot.
Import ListNotations.
From Verif Require Import M_Interp L_Interp M_Const M_HNC L_HNC L_HNC3 L_HNCWeak P_HNC M_Ogata.
Open Scope R_scope.

Lemma pow32_pos x : 0 < x -> 0 < pow32 x.
Proof. intros H. unfold pow32. apply Rmult_lt_0_compat; [assumption|now apply sqrt_lt_R0]. Qed.
Lemma pow32_mult x y : 0 <= x -> 0 <= y -> pow32 (x * y) = pow32 x * pow32 y.
Proof. intros Hx Hy. unfold pow32. rewrite sqrt_mult by assumption. ring. Qed.
Lemma pow32_sq x : 0 <= x -> pow32 x ^ 2 = x ^ 3.
Proof. intros H. unfold pow32. rewrite Rpow_mult_distr. rewrite <- Rsqr_pow2 with (x := sqrt x). rewrite Rsqr_sqrt by assumption. ring. Qed.

(** ** tanh *)
Lemma tanh_1 u : 1 - tanh u = 2 * exp (- u) / (exp u + exp (- u)).
Proof.
  pose proof (exp_pos u). pose proof (exp_pos (- u)). unfold tanh, sinh, cosh. field. lra.
Qed.
Lemma one_minus_tanh u : 0 < 1 - tanh u <= 2 * exp (- (2 * u)).
Proof.
  pose proof (exp_pos u). pose proof (exp_pos (- u)). rewrite tanh_1. split.
  - apply Rdiv_lt_0_compat; lra.
  - apply (Rmult_le_reg_r (exp u + exp (- u))); [lra|].
    replace (2 * exp (- u) / (exp u + exp (- u)) * (exp u + exp (- u))) with (2 * exp (- u)) by (field; lra).
    assert (E : exp (- (2 * u)) * exp u = exp (- u)) by (rewrite <- exp_plus; f_equal; ring).
    pose proof (exp_pos (- (2 * u))). nra.
Qed.
Lemma exp_1_big : 2 < exp 1.
Proof. pose proof (exp_ineq1 1 ltac:(lra)). lra. Qed.
Lemma exp_ge_1_plus x : 1 + x <= exp x.
Proof. destruct (Req_dec x 0) as [->|H]; [rewrite exp_0; lra|]. left. apply exp_ineq1. assumption. Qed.
Lemma cosh_ge_1 x : 1 <= cosh x.
Proof. pose proof (exp_ge_1_plus x). pose proof (exp_ge_1_plus (- x)). unfold cosh. lra. Qed.
Lemma cosh_sq x : cosh x ^ 2 = 1 + sinh x ^ 2.
Proof.
  assert (E : exp x * exp (- x) = 1) by (rewrite <- exp_plus, Rplus_opp_r; apply exp_0). unfold cosh, sinh. nra.
Qed.
Lemma tanh_half u : 1 <= u -> 1 / 2 <= tanh u.
Proof.
  intros H. destruct (one_minus_tanh u) as [_ T].
  assert (E : exp (- (2 * u)) <= exp (- (1 + 1))).
  { destruct (Req_dec u 1) as [->|]; [right; f_equal; ring|left; apply exp_increasing; lra]. }
  assert (E2 : exp (- (1 + 1)) <= 1 / 4).
  { rewrite exp_Ropp, exp_plus. pose proof exp_1_big.
    apply (Rmult_le_reg_l (exp 1 * exp 1)); [nra|]. rewrite Rinv_r by nra. nra. }
  lra.
Qed.
Lemma sinh_ge x : 0 <= x -> x <= sinh x.
Proof.
  intros H. destruct (Req_dec x 0) as [->|Hn]; [rewrite sinh_0; lra|].
  assert (D : forall z, is_derive sinh z (cosh z)) by (intros z; apply is_derive_Reals, derivable_pt_lim_sinh).
  destruct (MVT_gen sinh 0 x cosh) as (c & Hc & E).
  - intros z _. apply D.
  - intros z _. apply continuity_pt_filterlim. apply (ex_derive_continuous (V := R_NormedModule)). exists (cosh z). apply D.
  - rewrite sinh_0 in E. pose proof (cosh_ge_1 c). nra.
Qed.
Lemma sinh_add a b : 0 <= a -> 0 <= b -> sinh a + b <= sinh (a + b).
Proof.
  intros Ha Hb.
  assert (E : sinh (a + b) = sinh a * cosh b + cosh a * sinh b).
  { unfold sinh, cosh. replace (- (a + b)) with (- a + - b) by ring. rewrite !exp_plus. field. }
  pose proof (sinh_ge a Ha). pose proof (sinh_ge b Hb). pose proof (cosh_ge_1 a). pose proof (cosh_ge_1 b). nra.
Qed.

(** ** The nodes *)
Lemma node_eq h j : 0 < h -> ogata_node h j = PI * INR j * tanh (PI * sinh (h * INR j) / 2).
Proof. intros H. unfold ogata_node, psi. field. lra. Qed.
Lemma pi_3 : 3 < PI.
Proof. pose proof PI_ineq 3%nat as [H _]. cbn in H. unfold PI_tg, tg_alt in H. cbn in H. lra. Qed.
Lemma sin_node h j : 0 < h ->
  Rabs (sin (ogata_node h j)) <= 2 * PI * INR j * exp (- (PI * sinh (h * INR j))).
Proof.
  intros Hh. rewrite node_eq by assumption. set (u := PI * sinh (h * INR j) / 2). set (d := PI * INR j * (1 - tanh u)).
  pose proof PI_RGT_0. pose proof (pos_INR j). destruct (one_minus_tanh u) as [T0 T].
  assert (Hd : 0 <= d) by (unfold d; apply Rmult_le_pos; [apply Rmult_le_pos; lra|lra]).
  replace (PI * INR j * tanh u) with (INR j * PI - d) by (unfold d; ring).
  rewrite sin_minus, sin_INR_PI. rewrite Rmult_0_l, Rminus_0_l, Rabs_Ropp, Rabs_mult.
  assert (C : Rabs (cos (INR j * PI)) <= 1) by (apply Rabs_le, COS_bound).
  assert (S : Rabs (sin d) <= d).
  { apply Rabs_le. destruct (Req_dec d 0) as [->|Hn]; [rewrite sin_0; lra|].
    pose proof (sin_lt_x d ltac:(lra)).
    assert (sin (- d) < - - d \/ True) by now right.
    destruct (Rle_dec d 1) as [L|L].
    - assert (0 <= sin d); [apply sin_ge_0; [lra|pose proof pi_3; lra]|]. lra.
    - pose proof (SIN_bound d). lra. }
  apply Rle_trans with (1 * d).
  - apply Rmult_le_compat; auto using Rabs_pos.
  - rewrite Rmult_1_l. unfold d. replace (2 * PI * INR j * exp (- (PI * sinh (h * INR j)))) with (PI * INR j * (2 * exp (- (2 * u)))).
    + apply Rmult_le_compat_l; [|lra]. apply Rmult_le_pos; lra.
    + unfold u. replace (2 * (PI * sinh (h * INR j) / 2)) with (PI * sinh (h * INR j)) by field. ring.
Qed.
(** beyond one unit of the substituted variable *)
Lemma bessel_node h j : 0 < h -> 1 <= h * INR j ->
  Rabs (bessel_0_5 (ogata_node h j)) <= 4 * INR j * exp (- (PI * sinh (h * INR j))).
Proof.
  intros Hh Hj. pose proof (sin_node h j Hh) as HS. pose proof PI_RGT_0 as HP. pose proof pi_3 as HP3.
  assert (Hj1 : 1 <= INR j). { destruct j; [cbn in Hj; lra|]. rewrite S_INR. pose proof (pos_INR j). lra. }
  assert (HN : PI / 2 <= ogata_node h j).
  { rewrite node_eq by assumption. pose proof (sinh_ge (h * INR j) ltac:(lra)) as Hs.
    assert (Ht : 1 / 2 <= tanh (PI * sinh (h * INR j) / 2)) by (apply tanh_half; nra).
    rewrite Rmult_assoc. apply Rle_trans with (PI * (1 * (1 / 2))); [lra|]. apply Rmult_le_compat_l; [lra|]. apply Rmult_le_compat; lra. }
  unfold bessel_0_5. rewrite Rabs_mult. rewrite (Rabs_right (sqrt _)) by (apply Rle_ge, sqrt_pos).
  assert (Hq : sqrt (2 / (PI * ogata_node h j)) <= 2 / PI).
  { rewrite <- (sqrt_Rsqr (2 / PI)) by (left; apply Rdiv_lt_0_compat; lra). apply sqrt_le_1_alt.
    unfold Rsqr. apply (Rmult_le_reg_r (PI * ogata_node h j * PI * PI)); [apply Rmult_lt_0_compat; [apply Rmult_lt_0_compat; [apply Rmult_lt_0_compat|]|]; lra|].
    replace (2 / (PI * ogata_node h j) * (PI * ogata_node h j * PI * PI)) with (2 * PI * PI) by (field; lra).
    replace (2 / PI * (2 / PI) * (PI * ogata_node h j * PI * PI)) with (4 * (PI * ogata_node h j)) by (field; lra).
    assert (PI * (PI / 2) <= PI * ogata_node h j) by (apply Rmult_le_compat_l; lra). lra. }
  apply Rle_trans with (2 / PI * (2 * PI * INR j * exp (- (PI * sinh (h * INR j))))).
  - apply Rmult_le_compat; auto using sqrt_pos, Rabs_pos.
  - right. field. lra.
Qed.
Lemma dpsi_bound t : 1 <= t -> 0 <= dpsi t <= 3.
Proof.
  intros Ht. unfold dpsi. pose proof (sinh_ge t ltac:(lra)) as Hs. pose proof (cosh_sq t) as Hc. pose proof (cosh_ge_1 t).
  pose proof pi_3 as HP. set (v := PI * sinh t). pose proof (cosh_sq v). pose proof (cosh_ge_1 v).
  assert (Hv : 0 <= v) by (unfold v; nra). pose proof (sinh_ge v Hv).
  split.
  - apply Rmult_le_pos; [|left; apply Rinv_0_lt_compat; lra]. assert (0 <= PI * t * cosh t) by (apply Rmult_le_pos; [apply Rmult_le_pos|]; lra). lra.
  - apply (Rmult_le_reg_r (1 + cosh v)); [lra|]. unfold Rdiv. rewrite Rmult_assoc, Rinv_l, Rmult_1_r by lra.
    assert (Hsc : sinh v <= cosh v) by nra.
    assert (Hc2 : cosh t <= 2 * sinh t) by nra.
    assert (Hq : PI * t * cosh t <= 2 * PI * sinh t ^ 2).
    { replace (2 * PI * sinh t ^ 2) with (PI * (sinh t * (2 * sinh t))) by ring. rewrite Rmult_assoc.
      apply Rmult_le_compat_l; [lra|]. apply Rmult_le_compat; lra. }
    assert (Hcv : 1 + v ^ 2 / 2 <= cosh v).
    { assert (cosh v = 1 + 2 * sinh (v / 2) ^ 2).
      { replace (cosh v) with (cosh (v / 2) ^ 2 + sinh (v / 2) ^ 2); [rewrite cosh_sq; ring|].
        unfold cosh, sinh. replace v with (v / 2 + v / 2) at 5 by field. replace (- v) with (- (v / 2) + - (v / 2)) by field. rewrite !exp_plus. field. }
      pose proof (sinh_ge (v / 2) ltac:(lra)). nra. }
    assert (Hvs : 2 * PI * sinh t ^ 2 <= v ^ 2).
    { unfold v. rewrite Rpow_mult_distr. assert (0 <= sinh t ^ 2) by apply pow2_ge_0. nra. }
    lra.
Qed.
