(** More on the ionisation solvers and the Thomas-Fermi fit (C83, C89, C91). *)
From Coq Require Import Reals List Bool Arith ZArith Lra Lia Psatz.
From Coquelicot Require Import Coquelicot.
From Verif Require Import M_Const M_PlasmaState L_PlasmaState M_Interp M_Helpers L_Helpers P_Helpers M_PlasmaPhysics M_Ionization L_IPD L_Ionization P_Ionization M_IPD.
Import ListNotations.
Open Scope R_scope.

(** *** C89: the fit *)
Lemma fit_form x : 0 < x -> x / (1 + x + sqrt (1 + 2 * x)) = 1 - 2 / (1 + sqrt (1 + 2 * x)).
Proof.
  intros Hx. assert (Hs : 0 < sqrt (1 + 2 * x)) by (apply sqrt_lt_R0; lra). pose proof (sqrt_sqrt (1 + 2 * x) ltac:(lra)) as Hq.
  set (s := sqrt (1 + 2 * x)) in *. clearbody s. assert (x = (s * s - 1) / 2) as -> by lra. field. split; nra.
Qed.
Lemma fit_incr x y : 0 < x <= y -> x / (1 + x + sqrt (1 + 2 * x)) <= y / (1 + y + sqrt (1 + 2 * y)).
Proof.
  intros H. rewrite !fit_form by lra. assert (sqrt (1 + 2 * x) <= sqrt (1 + 2 * y)) by (apply sqrt_le_1; lra).
  assert (0 < sqrt (1 + 2 * x)) by (apply sqrt_lt_R0; lra).
  assert (/ (1 + sqrt (1 + 2 * y)) <= / (1 + sqrt (1 + 2 * x))) by (apply Rinv_le_contravar; lra). unfold Rdiv. lra.
Qed.
Lemma fit_scale t x : 0 < t <= 1 -> 0 < x -> t * (x / (1 + x + sqrt (1 + 2 * x))) <= (t * x) / (1 + t * x + sqrt (1 + 2 * (t * x))).
Proof.
  intros Ht Hx. assert (0 < t * x <= x) by nra. assert (sqrt (1 + 2 * (t * x)) <= sqrt (1 + 2 * x)) by (apply sqrt_le_1; lra).
  assert (0 < sqrt (1 + 2 * (t * x))) by (apply sqrt_lt_R0; lra).
  unfold Rdiv. rewrite <- Rmult_assoc. apply Rmult_le_compat_l; [lra|]. apply Rinv_le_contravar; lra.
Qed.
Lemma Rpower_pos x y : 0 < Rpower x y.
Proof. apply exp_pos. Qed.
Lemma Rpower_small t a : 0 < t <= 1 -> a <= 1 -> t <= Rpower t a.
Proof.
  intros Ht Ha. rewrite <- (Rpower_1 t) at 1 by lra. unfold Rpower.
  assert (ln t <= 0) by (rewrite <- ln_1; destruct Ht as [H0 [H|H]]; [left; apply ln_increasing; lra|rewrite H; lra]).
  assert (1 * ln t <= a * ln t) by nra. destruct H0 as [L|L]; [left; now apply exp_increasing|rewrite L; lra].
Qed.
(** the fit as a function of scaled density, temperature *)
Definition more_B (Tf : R) : R := - exp (- (17630 / 10000) + 143175 / 100000 * Tf + 31546 / 100000 * Tf ^ 7).
Lemma more_B_bounds Tf : 0 < Tf < 1 -> -1 < more_B Tf < 0.
Proof.
  intros H. unfold more_B. pose proof (exp_pos (- (17630 / 10000) + 143175 / 100000 * Tf + 31546 / 100000 * Tf ^ 7)).
  assert (Tf ^ 7 <= 1) by (rewrite <- (pow1 7); apply pow_incr; lra).
  assert (Hlt : exp (- (17630 / 10000) + 143175 / 100000 * Tf + 31546 / 100000 * Tf ^ 7) < exp 0) by (apply exp_increasing; lra).
  rewrite exp_0 in Hlt. lra.
Qed.
Definition more_C (Tf : R) : R := - (366667 / 1000000) * Tf + 983333 / 1000000.
Definition more_Q (A Tf Rr : R) : R :=
  Rpower (Rpower Rr (more_C Tf) + Rpower (A * Rpower Rr (more_B Tf)) (more_C Tf)) (1 / more_C Tf).
Lemma more_C_pos Tf : 0 < Tf < 1 -> 0 < more_C Tf.
Proof. intros H. unfold more_C. lra. Qed.
Lemma Q_lower A Tf Rr c : 0 < Tf < 1 -> 0 < c -> (c <= Rr \/ c <= A * Rpower Rr (more_B Tf)) -> c <= more_Q A Tf Rr.
Proof.
  intros HT Hc H. pose proof (more_C_pos Tf HT) as HC. unfold more_Q.
  apply Rle_trans with (Rpower (Rpower c (more_C Tf)) (1 / more_C Tf)).
  - rewrite Rpower_mult. replace (more_C Tf * (1 / more_C Tf)) with 1 by (field; lra). rewrite Rpower_1 by lra. lra.
  - assert (0 < 1 / more_C Tf) by (apply Rdiv_lt_0_compat; lra).
    apply Rle_Rpower_l; [lra|]. split; [apply Rpower_pos|]. pose proof (Rpower_pos Rr (more_C Tf)).
    pose proof (Rpower_pos (A * Rpower Rr (more_B Tf)) (more_C Tf)).
    destruct H as [H|H]; [assert (Rpower c (more_C Tf) <= Rpower Rr (more_C Tf)) by (apply Rle_Rpower_l; lra)
      |assert (Rpower c (more_C Tf) <= Rpower (A * Rpower Rr (more_B Tf)) (more_C Tf)) by (apply Rle_Rpower_l; lra)]; lra.
Qed.
Lemma Q_scale A Tf r1 r2 : 0 < A -> 0 < Tf < 1 -> 0 < r1 <= r2 -> r1 / r2 * more_Q A Tf r1 <= more_Q A Tf r2.
Proof.
  intros HA HT Hr. pose proof (more_C_pos Tf HT) as HC. pose proof (more_B_bounds Tf HT) as HB. set (t := r1 / r2).
  assert (Ht : 0 < t <= 1).
  { unfold t. split; [apply Rdiv_lt_0_compat; lra|]. apply (Rmult_le_reg_r r2); [lra|]. unfold Rdiv. rewrite Rmult_assoc, Rinv_l by lra. lra. }
  assert (Hr1 : r1 = t * r2) by (unfold t; field; lra).
  unfold more_Q. set (C := more_C Tf) in *. set (B := more_B Tf) in *. clearbody C B.
  assert (Et : t = Rpower (Rpower t C) (1 / C)).
  { rewrite Rpower_mult. replace (C * (1 / C)) with 1 by (field; lra). rewrite Rpower_1; lra. }
  rewrite Et at 1. rewrite Rpower_mult_distr; [|apply Rpower_pos|].
  2:{ pose proof (Rpower_pos r1 C). pose proof (Rpower_pos (A * Rpower r1 B) C). lra. }
  assert (0 < 1 / C) by (apply Rdiv_lt_0_compat; lra). apply Rle_Rpower_l; [lra|].
  pose proof (Rpower_pos r1 C) as P1. pose proof (Rpower_pos (A * Rpower r1 B) C) as P2. pose proof (Rpower_pos t C) as P3.
  split; [apply Rmult_lt_0_compat; lra|]. rewrite Rmult_plus_distr_l. pose proof (Rpower_pos r1 B) as P4.
  assert (0 < A * Rpower r1 B) by now apply Rmult_lt_0_compat.
  apply Rplus_le_compat.
  - rewrite Rpower_mult_distr by lra. apply Rle_Rpower_l; [lra|]. split; [apply Rmult_lt_0_compat; lra|]. nra.
  - rewrite Rpower_mult_distr by lra. apply Rle_Rpower_l; [lra|]. split; [apply Rmult_lt_0_compat; lra|].
    replace (t * (A * Rpower r1 B)) with (A * (t * Rpower r1 B)) by ring. apply Rmult_le_compat_l; [lra|].
    rewrite Hr1, <- Rpower_mult_distr by lra. pose proof (Rpower_pos r2 B). rewrite <- Rmult_assoc.
    rewrite <- (Rmult_1_l (Rpower r2 B)) at 2. apply Rmult_le_compat_r; [lra|].
    assert (Hln : ln t <= 0) by (rewrite <- ln_1; destruct Ht as [Ha [Hb|Hb]]; [left; apply ln_increasing; lra|rewrite Hb; lra]).
    assert (HB1 : (1 + B) * ln t <= 0) by nra.
    assert (E1 : t * Rpower t B = exp ((1 + B) * ln t)) by (rewrite <- (Rpower_1 t) at 1 by lra; rewrite <- Rpower_plus; reflexivity).
    rewrite E1. apply Rle_trans with (exp 0); [|rewrite exp_0; lra]. destruct HB1 as [L|L]; [left; now apply exp_increasing|rewrite L; lra].
Qed.
Lemma more_eq u rho T m Z :
  let T0 := kB u * T / e_ch u / Rpower Z (4 / 3) in
  let A := 3323 / 1000000 * Rpower T0 (9718 / 10000) + 926148 / 10000000000 * Rpower T0 (310165 / 100000) in
  let x := 143139 / 10000 * Rpower (more_Q A (T0 / (1 + T0)) (rho / 1000 / (m / amu u) / Z)) (6624 / 10000) in
  0 < A /\ more u rho T m Z = Z * (x / (1 + x + sqrt (1 + 2 * x))).
Proof.
  intros T0 A x. split.
  - unfold A. pose proof (Rpower_pos T0 (9718 / 10000)). pose proof (Rpower_pos T0 (310165 / 100000)). lra.
  - unfold more. fold T0. unfold Rdiv. rewrite Rmult_assoc. reflexivity.
Qed.
Lemma T0_pos u T Z : 0 < T -> 0 < kB u * T / e_ch u / Rpower Z (4 / 3).
Proof.
  intros HT. apply Rdiv_lt_0_compat; [|apply Rpower_pos]. apply Rdiv_lt_0_compat; [|apply e_pos].
  apply Rmult_lt_0_compat; [apply kB_pos|exact HT].
Qed.
Lemma Tf_bounds t : 0 < t -> 0 < t / (1 + t) < 1.
Proof.
  intros H. split; [apply Rdiv_lt_0_compat; lra|]. apply (Rmult_lt_reg_r (1 + t)); [lra|].
  unfold Rdiv. rewrite Rmult_assoc, Rinv_l by lra. lra.
Qed.

(** At fixed temperature a denser plasma has more free electrons per volume *)
Theorem C89_electron_density_grows : forall u rho rho' T m Z, 0 < rho <= rho' -> 0 < T -> 0 < m -> 0 < Z ->
  rho / m * more u rho T m Z <= rho' / m * more u rho' T m Z.
Proof.
  intros u rho rho' T m Z Hr HT Hm HZ. destruct (more_eq u rho T m Z) as [HA E1]. destruct (more_eq u rho' T m Z) as [_ E2].
  cbv zeta in HA, E1, E2. rewrite E1, E2. clear E1 E2.
  pose proof (T0_pos u T Z HT) as HT0. set (T0 := kB u * T / e_ch u / Rpower Z (4 / 3)) in *. clearbody T0.
  set (A := _ + _) in *. clearbody A. pose proof (Tf_bounds T0 HT0) as HTf. set (Tf := T0 / (1 + T0)) in *. clearbody Tf.
  set (r1 := rho / 1000 / (m / amu u) / Z). set (r2 := rho' / 1000 / (m / amu u) / Z).
  assert (Hamu : 0 < amu u) by (destruct u; assumption).
  assert (H12 : 0 < r1 <= r2).
  { assert (0 < m / amu u) by (apply Rdiv_lt_0_compat; assumption). unfold r1, r2. split.
    - repeat (apply Rdiv_lt_0_compat; try assumption); lra.
    - unfold Rdiv. repeat (apply Rmult_le_compat_r; [left; apply Rinv_0_lt_compat; lra|]). lra. }
  assert (Ht : rho / rho' = r1 / r2) by (unfold r1, r2; field; repeat split; lra).
  pose proof (Q_scale A Tf r1 r2 HA HTf H12) as HQ. clearbody r1 r2.
  set (t := r1 / r2) in *. assert (Hrho : rho = t * rho') by (rewrite <- Ht; field; lra).
  assert (Ht1 : 0 < t <= 1) by (split; [unfold t; apply Rdiv_lt_0_compat; lra|rewrite <- Ht; apply (Rmult_le_reg_r rho'); [lra|]; unfold Rdiv; rewrite Rmult_assoc, Rinv_l by lra; lra]).
  clearbody t. set (Q1 := more_Q A Tf r1) in *. set (Q2 := more_Q A Tf r2) in *.
  assert (HQ1 : 0 < Q1) by apply Rpower_pos. assert (HQ2 : 0 < Q2) by apply Rpower_pos. clearbody Q1 Q2.
  set (x1 := 143139 / 10000 * Rpower Q1 (6624 / 10000)). set (x2 := 143139 / 10000 * Rpower Q2 (6624 / 10000)).
  assert (Hx1 : 0 < x1) by (unfold x1; pose proof (Rpower_pos Q1 (6624 / 10000)); lra).
  assert (Hx : t * x1 <= x2).
  { unfold x1, x2. replace (t * (143139 / 10000 * Rpower Q1 (6624 / 10000))) with (143139 / 10000 * (t * Rpower Q1 (6624 / 10000))) by ring.
    apply Rmult_le_compat_l; [lra|]. apply Rle_trans with (Rpower t (6624 / 10000) * Rpower Q1 (6624 / 10000)).
    - apply Rmult_le_compat_r; [left; apply Rpower_pos|]. apply Rpower_small; lra.
    - rewrite Rpower_mult_distr by lra. apply Rle_Rpower_l; [lra|]. split; [apply Rmult_lt_0_compat; lra|exact HQ]. }
  pose proof (fit_scale t x1 Ht1 Hx1) as F1. assert (0 < t * x1) by (apply Rmult_lt_0_compat; lra).
  pose proof (fit_incr (t * x1) x2 ltac:(lra)) as F2. clearbody x1 x2.
  set (f1 := x1 / _) in *. set (f2 := x2 / _) in *. clearbody f1 f2.
  rewrite Hrho. replace (t * rho' / m * (Z * f1)) with (rho' / m * Z * (t * f1)) by (field; lra).
  replace (rho' / m * (Z * f2)) with (rho' / m * Z * f2) by ring. apply Rmult_le_compat_l; [|lra].
  apply Rmult_le_pos; [left; apply Rdiv_lt_0_compat|]; lra.
Qed.
Print Assumptions C89_electron_density_grows.
Example C89_grows_ex : 1 / 1 * more unit_consts 1 1 1 6 <= 2 / 1 * more unit_consts 2 1 1 6.
Proof. apply C89_electron_density_grows; lra. Qed.

(** Heat never ionises less than the cold, pressure-ionised limit of the fit *)
Theorem C89_cold_bound : forall u rho T m Z, 0 < rho -> 0 < T -> 0 < m -> 0 < Z ->
  let x := 143139 / 10000 * Rpower (rho / 1000 / (m / amu u) / Z) (6624 / 10000) in
  Z * x / (1 + x + sqrt (1 + 2 * x)) <= more u rho T m Z.
Proof.
  intros u rho T m Z Hr HT Hm HZ x. destruct (more_eq u rho T m Z) as [HA E]. cbv zeta in HA, E. rewrite E. clear E.
  pose proof (T0_pos u T Z HT) as HT0. pose proof (Tf_bounds _ HT0) as HTf.
  assert (Hamu : 0 < amu u) by (destruct u; assumption).
  assert (Hr1 : 0 < rho / 1000 / (m / amu u) / Z).
  { assert (0 < m / amu u) by (apply Rdiv_lt_0_compat; assumption). repeat (apply Rdiv_lt_0_compat; try assumption); lra. }
  unfold Rdiv at 1. rewrite Rmult_assoc. apply Rmult_le_compat_l; [lra|]. apply fit_incr. unfold x. pose proof (Rpower_pos (rho / 1000 / (m / amu u) / Z) (6624 / 10000)).
  split; [lra|]. apply Rmult_le_compat_l; [lra|]. apply Rle_Rpower_l; [lra|]. split; [exact Hr1|].
  apply Q_lower; [exact HTf|exact Hr1|left; lra].
Qed.
Print Assumptions C89_cold_bound.

(** Full ionisation in the hot limit *)
Theorem C89_hot_limit : forall u rho m Z eps, 0 < rho -> 0 < m -> 0 < Z -> 0 < eps ->
  exists T1, 0 < T1 /\ forall T, T1 <= T -> Z - eps < more u rho T m Z < Z.
Proof.
  intros u rho m Z eps Hr Hm HZ He. assert (Hamu : 0 < amu u) by (destruct u; assumption).
  set (r := rho / 1000 / (m / amu u) / Z).
  assert (Hr1 : 0 < r).
  { assert (0 < m / amu u) by (apply Rdiv_lt_0_compat; assumption). unfold r. repeat (apply Rdiv_lt_0_compat; try assumption); lra. }
  set (w := Rmin 1 (/ r)). assert (Hw : 0 < w) by (unfold w; apply Rmin_glb_lt; [lra|now apply Rinv_0_lt_compat]).
  assert (HwB : forall B, -1 < B < 0 -> w <= Rpower r B).
  { intros B HB. unfold w. destruct (Rle_dec r 1) as [L|L].
    - eapply Rle_trans; [apply Rmin_l|]. apply Rle_trans with (exp 0); [rewrite exp_0; lra|]. unfold Rpower.
      assert (ln r <= 0) by (rewrite <- ln_1; destruct L as [H2|H2]; [left; apply ln_increasing; lra|rewrite H2; lra]).
      assert (Hb : 0 <= B * ln r) by nra. destruct Hb as [Hb|Hb]; [left; now apply exp_increasing|rewrite <- Hb; lra].
    - eapply Rle_trans; [apply Rmin_r|]. rewrite <- (exp_ln (/ r)) by (now apply Rinv_0_lt_compat). rewrite ln_Rinv by assumption. unfold Rpower.
      assert (0 < ln r) by (rewrite <- ln_1; apply ln_increasing; lra). left. apply exp_increasing. nra. }
  set (M := (2 * Z / eps) ^ 2). set (q := Rmax 1 (Rpower (M / (2 * (143139 / 10000)) + 1) (10000 / 6624))).
  set (t := Rmax 1 (q / (926148 / 10000000000 * w))).
  set (c := kB u / e_ch u / Rpower Z (4 / 3)). assert (Hc : 0 < c).
  { unfold c. apply Rdiv_lt_0_compat; [|apply Rpower_pos]. apply Rdiv_lt_0_compat; [apply kB_pos|apply e_pos]. }
  assert (Ht : 1 <= t) by apply Rmax_l.
  exists (t / c). split; [apply Rdiv_lt_0_compat; lra|]. intros T HT.
  assert (HTp : 0 < T) by (eapply Rlt_le_trans; [|exact HT]; apply Rdiv_lt_0_compat; lra).
  split; [|now apply C89_bounds]. destruct (more_eq u rho T m Z) as [HA E]. cbv zeta in HA, E. rewrite E. clear E.
  assert (ET : kB u * T / e_ch u / Rpower Z (4 / 3) = c * T) by (unfold c; field; split; apply Rgt_not_eq; (apply Rpower_pos || apply e_pos)).
  rewrite ET in *. assert (HT0 : t <= c * T).
  { apply (Rmult_le_compat_l c) in HT; [|lra]. replace (c * (t / c)) with t in HT by (field; lra). exact HT. }
  clear ET HT. set (T0 := c * T) in *. clearbody T0. fold r. set (A := 3323 / 1000000 * _ + _) in *.
  assert (HAt : 926148 / 10000000000 * t <= A).
  { unfold A. pose proof (Rpower_pos T0 (9718 / 10000)). assert (T0 <= Rpower T0 (310165 / 100000)).
    { rewrite <- (Rpower_1 T0) at 1 by lra. unfold Rpower. assert (Hl : 0 <= ln T0) by (rewrite <- ln_1; destruct (Req_dec T0 1) as [->|]; [lra|left; apply ln_increasing; lra]).
      assert (L : 1 * ln T0 <= 310165 / 100000 * ln T0) by nra. destruct L as [L|L]; [left; now apply exp_increasing|rewrite L; lra]. }
    lra. }
  clearbody A. assert (Hq : q <= A * w).
  { unfold t in HAt. pose proof (Rmax_r 1 (q / (926148 / 10000000000 * w))) as L. set (t' := Rmax _ _) in *. clearbody t'.
    apply (Rmult_le_compat_r (926148 / 10000000000 * w)) in L; [|nra]. replace (q / (926148 / 10000000000 * w) * (926148 / 10000000000 * w)) with q in L by (field; lra).
    eapply Rle_trans; [exact L|]. rewrite <- Rmult_assoc. apply Rmult_le_compat_r; lra. }
  pose proof (Tf_bounds T0 ltac:(lra)) as HTf. set (Tf := T0 / (1 + T0)) in *. clearbody Tf.
  assert (Hq1 : 1 <= q) by apply Rmax_l.
  assert (HQ : q <= more_Q A Tf r).
  { apply Q_lower; [exact HTf|lra|right]. eapply Rle_trans; [exact Hq|]. apply Rmult_le_compat_l; [lra|]. apply HwB. now apply more_B_bounds. }
  assert (HM : 0 < M) by (unfold M; apply pow_lt, Rdiv_lt_0_compat; lra).
  set (Q := more_Q A Tf r) in *. clearbody Q.
  assert (Hx : M / 2 < 143139 / 10000 * Rpower Q (6624 / 10000)).
  { apply Rlt_le_trans with (143139 / 10000 * (M / (2 * (143139 / 10000)) + 1)); [lra|]. apply Rmult_le_compat_l; [lra|].
    apply Rle_trans with (Rpower q (6624 / 10000)); [|apply Rle_Rpower_l; lra].
    apply Rle_trans with (Rpower (Rpower (M / (2 * (143139 / 10000)) + 1) (10000 / 6624)) (6624 / 10000)).
    - rewrite Rpower_mult. replace (10000 / 6624 * (6624 / 10000)) with 1 by field. rewrite Rpower_1; [lra|]. lra.
    - apply Rle_Rpower_l; [lra|]. split; [apply Rpower_pos|]. unfold q. apply Rmax_r. }
  set (x := 143139 / 10000 * _) in *. clearbody x. rewrite fit_form by lra.
  assert (Hs : 2 * Z / eps < sqrt (1 + 2 * x)).
  { rewrite <- (sqrt_square (2 * Z / eps)) by (left; apply Rdiv_lt_0_compat; lra). apply sqrt_lt_1.
    - apply Rle_0_sqr. - lra. - unfold M in Hx. replace (2 * Z / eps * (2 * Z / eps)) with ((2 * Z / eps) ^ 2) by ring. lra. }
  set (s := sqrt (1 + 2 * x)) in *. clearbody s.
  assert (0 < 2 * Z / eps) by (apply Rdiv_lt_0_compat; lra).
  assert (H2 : 2 * Z / (1 + s) < eps).
  { apply (Rmult_lt_reg_r (1 + s)); [lra|]. unfold Rdiv at 1. rewrite Rmult_assoc, Rinv_l by lra.
    apply (Rmult_lt_compat_l eps) in Hs; [|lra]. replace (eps * (2 * Z / eps)) with (2 * Z) in Hs by (field; lra). lra. }
  replace (Z * (1 - 2 / (1 + s))) with (Z - 2 * Z / (1 + s)) by (field; lra). lra.
Qed.
Print Assumptions C89_hot_limit.

(** *** C91: the solvers *)
(** With the ideal chemical potential the generalised solver is the Saha solver *)
Lemma map2_nth {A B D} (f : A -> B -> D) l m j a b d : (j < length l)%nat -> (j < length m)%nat -> nth j (map2 f l m) d = f (nth j l a) (nth j m b).
Proof.
  revert m j. induction l as [|x l IH]; intros [|y m] [|j] H1 H2; cbn in H1, H2; try lia; [reflexivity|]. cbn [map2 nth]. apply IH; lia.
Qed.
Lemma pairwise_ext {A} (f f' : R -> R -> A) g : (forall a b, In a g -> In b g -> f a b = f' a b) -> pairwise f g = pairwise f' g.
Proof.
  induction g as [|a g IH]; intros H; [reflexivity|]. destruct g as [|b g]; [reflexivity|].
  change (f a b :: pairwise f (b :: g) = f' a b :: pairwise f' (b :: g)). rewrite H by (cbn; auto).
  f_equal. apply IH. intros x y Hx Hy. apply H; now right.
Qed.
Lemma map2_pairwise {A B} (f : R -> R -> A) (h : A -> R -> B) g l :
  map2 h (pairwise f g) l = map2 (fun k e => k e) (pairwise (fun a b => h (f a b)) g) l.
Proof.
  revert l. induction g as [|a g IH]; intros l; [reflexivity|]. destruct g as [|b g]; [reflexivity|].
  change (map2 h (f a b :: pairwise f (b :: g)) l = map2 (fun k e => k e) (h (f a b) :: pairwise (fun a b => h (f a b)) (b :: g)) l).
  destruct l as [|e l]; [reflexivity|]. cbn [map2]. f_equal. apply IH.
Qed.
Theorem C91_ideal_chemical_potential : forall u fuel els T n_e Ns cl ex, 0 < T -> 0 < n_e ->
  (forall Z g E, In (Z, g, E) els -> forall x, In x g -> 0 < x) ->
  solve_gen_saha u fuel els T n_e Ns cl (kB u * T * ln (n_e * therm_de_broglie_wl u T ^ 3 / 2)) ex =
  solve_saha u fuel els T Ns (Some cl) ex.
Proof.
  intros u fuel els T ne Ns cl ex HT Hn Hg. unfold solve_gen_saha, solve_saha. destruct (Nat.eqb _ _); [|reflexivity].
  f_equal. f_equal. clear Ns ex. revert cl. induction els as [|[[Z g] E] els IH]; intros [|i cl]; try reflexivity. cbn [map2].
  rewrite IH by (intros Z' g' E' H; apply (Hg Z' g' E'); now right). f_equal.
  unfold gen_saha_balance_term, saha_balance_term. destruct (shifted E i) as [Eb|]; [|reflexivity]. cbn [obind]. do 2 f_equal.
  rewrite (map2_pairwise _ (fun f e => Some (f e))), (map2_pairwise _ (fun f e => Some (f T e))). f_equal.
  apply pairwise_ext. intros a b Ha Hb. apply FunctionalExtensionality.functional_extensionality. intros e. f_equal.
  assert (P : forall x, In x g -> 0 < x) by (apply (Hg Z g E); now left).
  exact (proj2 (proj2 (C88_saha u a b T ne e HT Hn (P a Ha) (P b Hb)))).
Qed.
Print Assumptions C91_ideal_chemical_potential.
Example C91_ideal_ex : solve_gen_saha unit_consts 1001 [(1%nat, [2; 1], [1])] 1 3 [2] [[0]] (1 * 1 * ln (3 * therm_de_broglie_wl unit_consts 1 ^ 3 / 2)) true =
  solve_saha unit_consts 1001 [(1%nat, [2; 1], [1])] 1 [2] (Some [[0]]) true.
Proof.
  apply (C91_ideal_chemical_potential unit_consts); [lra|lra|]. intros Z g E [[= <- <- <-]|[]] x [<-|[<-|[]]]; lra.
Qed.

(** With exclude_non_negative_energies off every state, bound or not, obeys Saha's
    law at the electron density found *)
Lemma nth_seq_map {A} (f : nat -> A) n j d : (j < n)%nat -> nth j (map f (seq 0 n)) d = f j.
Proof.
  intros H. rewrite (nth_indep _ d (f 0%nat)) by (now rewrite map_length, seq_length). now rewrite map_nth, seq_nth.
Qed.
Lemma pairwise_map {A} (f : R -> R -> A) g : pairwise f g = map (fun k => f (at_ g k) (at_ g (S k))) (seq 0 (length g - 1)).
Proof.
  induction g as [|a g IH]; [reflexivity|]. destruct g as [|b g]; [reflexivity|].
  change (pairwise f (a :: b :: g)) with (f a b :: pairwise f (b :: g)). rewrite IH. cbn [length]. rewrite !Nat.sub_succ, !Nat.sub_0_r.
  cbn [seq map]. f_equal. rewrite <- seq_shift, map_map. apply map_ext. reflexivity.
Qed.
Lemma saha_pos u a b T E : 0 < T -> 0 < a -> 0 < b -> 0 < saha_equation u a b T E.
Proof.
  intros HT Ha Hb. pose proof (proj1 (C88_saha u a b T 1 E HT Rlt_0_1 Ha Hb)) as L. unfold saha_equation.
  apply Rmult_lt_0_compat; [|apply exp_pos]. apply Rdiv_lt_0_compat; [|now apply pow_lt]. apply Rmult_lt_0_compat; [now apply Rdiv_lt_0_compat|lra].
Qed.
Theorem C91_saha_ratios_partial : forall u fuel Z g E ipd T N dens ne Zm, length g = S (length E) -> length ipd = length E ->
  (forall x, In x g -> 0 < x) -> 0 < T ->
  solve_saha u fuel [(Z, g, E)] T [N] (Some [ipd]) false = Some (dens, ne, Zm) ->
  let c k := saha_equation u (at_ g k) (at_ g (S k)) T (at_ (sort_r E) k + at_ ipd k) in
  unclipped (log_partition_products (map (fun k => Some (ln (c k))) (seq 0 (length E))) (repeat true (length E)) (ln ne)) ->
  forall k, (k < length E)%nat -> at_ dens (S k) * ne = c k * at_ dens k.
Proof.
  intros u fuel Z g E ipd T N dens ne Zm Lg Li Hg HT H c U k Hk. unfold solve_saha in H. cbn [length Nat.eqb map2 seq_opt] in H.
  unfold saha_balance_term, shifted, ew in H. rewrite sort_len, Li, Nat.eqb_refl in H. cbn [obind map] in H.
  unfold solve_ionization in H. cbn [length Nat.eqb andb] in H.
  destruct (bisection _ _ _ _ _ _ _) as [[x b]|]; [|discriminate]. cbn [map2 concat] in H. rewrite app_nil_r in H.
  set (bt := unmask _) in H.
  assert (Ed : dens = map (fun w => N * w) (weights (logP bt x)) /\ ne = exp x) by (unfold logP; injection H as <- <- _; split; reflexivity).
  clear H. destruct Ed as [-> ->]. rewrite ln_exp in U.
  assert (Hc : forall k, (k < length E)%nat -> 0 < c k).
  { intros j Hj. unfold c. apply saha_pos; [exact HT| |]; apply Hg, nth_In; lia. }
  assert (Ec : bt_coeff bt = map (fun k => Some (c k)) (seq 0 (length E))).
  { unfold bt, unmask. cbn [bt_coeff]. rewrite (map2_pairwise _ (fun f e => Some (f T e))), pairwise_map, Lg.
    replace (S (length E) - 1)%nat with (length E) by lia. apply nth_ext with (d := None) (d' := None).
    - rewrite map2_length; [now rewrite !map_length|]. rewrite map_length, seq_length, map2_length by (now rewrite sort_len). now rewrite sort_len.
    - intros j Hj. assert (Hj' : (j < length E)%nat).
      { rewrite map2_length in Hj; [now rewrite map_length, seq_length in Hj|]. rewrite map_length, seq_length, map2_length by (now rewrite sort_len). now rewrite sort_len. }
      rewrite (map2_nth _ _ _ j (fun _ => None) 0); [|rewrite map_length, seq_length; lia|rewrite map2_length by (now rewrite sort_len); rewrite sort_len; lia].
      rewrite !nth_seq_map by lia. unfold c. f_equal. f_equal. apply map2_nth; rewrite ?sort_len; lia. }
  assert (Em : bt_mask bt = repeat true (length E)).
  { unfold bt, unmask. cbn [bt_mask]. rewrite map_map. transitivity (map (fun _ : R => true) (map2 Rplus (sort_r E) ipd)); [reflexivity|].
    rewrite <- (sort_len E). rewrite <- (map2_length Rplus (sort_r E) ipd) by (now rewrite sort_len).
    generalize (map2 Rplus (sort_r E) ipd). intros l. induction l; cbn; [reflexivity|]. now f_equal. }
  assert (El : map log0 (bt_coeff bt) = map (fun k => Some (ln (c k))) (seq 0 (length E))).
  { rewrite Ec, map_map. apply map_ext_in. intros j Hj. apply in_seq in Hj. unfold log0. specialize (Hc j ltac:(lia)). destruct (Req_EM_T (c j) 0); [lra|reflexivity]. }
  pose proof (C52_ratio_partial (bt_coeff bt) (bt_mask bt) (exp x) k (c k)) as R. cbv zeta in R. rewrite ln_exp in R.
  assert (Lw : length (weights (logP bt x)) = S (length E)).
  { unfold weights, logP. rewrite softmax_len, map_length. rewrite lpp_len; [now rewrite Em, repeat_length|]. now rewrite El, Em, map_length, seq_length, repeat_length. }
  assert (Ex : at_ (weights (logP bt x)) (S k) * exp x = c k * at_ (weights (logP bt x)) k).
  { apply R; clear R.
    - now rewrite Ec, Em, map_length, seq_length, repeat_length.
    - now rewrite Em, repeat_length.
    - rewrite Em. apply nth_repeat.
    - rewrite Em. apply nth_repeat.
    - apply exp_pos.
    - now apply Hc.
    - rewrite Ec. now rewrite nth_seq_map by lia.
    - rewrite El, Em. unfold log_partition_products. clear - Hk.
      enough (G : forall n j s a y, (j <= n)%nat -> nth j (map2 (fun (m : bool) p => if m then p else None) (repeat true n ++ [true])
        (cumsum (Some a) (map2 (fun lc (m : bool) => if m then obind lc (fun l => Some (l - y)) else Some 0) (map (fun k => Some (ln (c k))) (seq s n)) (repeat true n)))) None <> None)
        by (apply G; lia).
      induction n as [|n IH]; intros j s a y Hj.
      + destruct j; [cbn; discriminate|lia].
      + destruct j; [cbn; discriminate|]. cbn [seq map repeat map2 app cumsum obind nth]. apply IH. lia.
    - rewrite El, Em. exact U. }
  unfold at_ in *. rewrite !(nth_indep (map (fun w => N * w) _) 0 (N * 0)) by (rewrite map_length, Lw; lia). rewrite !map_nth, Rmult_assoc, Ex. ring.
Qed.
Print Assumptions C91_saha_ratios_partial.
(** hydrogen lifted into the continuum: a state the default would drop *)
Lemma ln_mono a b : 0 < a <= b -> ln a <= ln b.
Proof. intros [Ha [H| ->]]; [left; now apply ln_increasing|apply Rle_refl]. Qed.
Lemma ln_1e8 : -72 <= ln (/ 100000000).
Proof.
  rewrite ln_Rinv by lra. replace 100000000 with (10 ^ 8) by ring. rewrite ln_pow by lra.
  pose proof (exp_ineq1_le 9). assert (ln 10 <= 9) by (rewrite <- (ln_exp 9); apply ln_mono; lra). cbn [INR]. lra.
Qed.
Example C91_saha_ratios_ex : exists n0 n1 ne Zm, solve_saha unit_consts 1001 [(1%nat, [2; 1], [-1])] 1 [2] (Some [[0]]) false = Some ([n0; n1], ne, Zm) /\
  n1 * ne = saha_equation unit_consts 2 1 1 (-1 + 0) * n0 /\ n0 + n1 = 2.
Proof.
  remember (saha_equation unit_consts 2 1 1 (-1 + 0)) as c eqn:Ec.
  destruct (C88_saha unit_consts 2 1 1 1 1 ltac:(lra) ltac:(lra) ltac:(lra) ltac:(lra)) as (Hl & Es & _).
  destruct (C88_saha unit_consts 2 1 1 1 (-1 + 0) ltac:(lra) ltac:(lra) ltac:(lra) ltac:(lra)) as (_ & Es' & _). set (lam := therm_de_broglie_wl unit_consts 1) in *.
  rewrite <- Ec in Es'. assert (L3 : 1 <= lam <= 3).
  { unfold lam, therm_de_broglie_wl. cbn [hbar m_e kB unit_consts]. rewrite Rmult_1_l. pose proof PI_4. pose proof PI2_1. split.
    - rewrite <- sqrt_1 at 1. apply sqrt_le_1_alt. lra.
    - rewrite <- (sqrt_square 3) by lra. apply sqrt_le_1_alt. lra. }
  assert (P3 : 1 <= lam ^ 3 <= 27) by (split; [replace 1 with (1 ^ 3) by ring|replace 27 with (3 ^ 3) by ring]; apply pow_incr; lra).
  cbn [kB unit_consts] in Es'. replace (- (-1 + 0) / (1 * 1)) with 1 in Es' by field.
  assert (He : 2 <= exp 1 <= 3) by (pose proof exp_le_3; pose proof (exp_ineq1_le 1); lra).
  set (l3 := lam ^ 3) in *. clearbody l3. assert (Hc : / 100000000 <= c /\ c <= 3).
  { assert (Hcl : c * l3 = exp 1) by lra. assert (Hq : c = exp 1 / l3) by (rewrite <- Hcl; field; lra). rewrite Hq.
    split.
    - apply (Rmult_le_reg_r l3); [lra|]. unfold Rdiv. rewrite Rmult_assoc, Rinv_l by lra. lra.
    - apply (Rmult_le_reg_r l3); [lra|]. unfold Rdiv. rewrite Rmult_assoc, Rinv_l by lra. lra. }
  destruct Hc as [Hc Hc3].
  assert (EB : saha_balance_term unit_consts [2; 1] [-1] [0] 1 = Some (mkBT [Some c] [false])).
  { unfold saha_balance_term, shifted. cbn. unfold heaviside. rewrite <- Ec. destruct (Rlt_dec 0 (-1 + 0)); [lra|reflexivity]. }
  destruct (C87_solution 1001 [1] [2] [mkBT [Some c] [true]]) as (dens & ne & Zm & E & Hne & _); try (cbn; lia); try discriminate; try reflexivity.
  - constructor; [lra|constructor].
  - constructor; [reflexivity|constructor].
  - constructor; [cbn; lia|constructor].
  - pose proof (hydrogen_half 2 c ltac:(lra) Hc). lra.
  - assert (ES : solve_saha unit_consts 1001 [(1%nat, [2; 1], [-1])] 1 [2] (Some [[0]]) false = Some (dens, ne, Zm)).
    { unfold solve_saha; cbn [length Nat.eqb map2 seq_opt]; rewrite EB; cbn [obind]; exact E. }
    destruct (C91_solver_sums _ _ _ _ _ _ _ E) as (Es2 & _).
    assert (Ld : exists n0 n1, dens = [n0; n1]).
    { unfold solve_ionization in E. cbn [length Nat.eqb andb] in E. destruct (bisection _ _ _ _ _ _ _) as [[x b]|]; [|discriminate].
      cbn [map2 concat] in E. rewrite app_nil_r in E. set (P := log_partition_products _ _ _) in E.
      assert (LP : length (weights P) = 2%nat) by (unfold weights; rewrite softmax_len, map_length; unfold P; now rewrite lpp_len).
      destruct (weights P) as [|w0 [|w1 [|]]]; try discriminate. injection E as <- _ _. eexists; eexists; reflexivity. }
    destruct Ld as (n0 & n1 & ->). exists n0, n1, ne, Zm. split; [exact ES|]. unfold max_ne, sum in Hne. cbn [map2 fold_right] in Hne. split.
    + rewrite Ec. refine (C91_saha_ratios_partial unit_consts 1001 1 [2; 1] [-1] [0] 1 2 [n0; n1] ne Zm eq_refl eq_refl _ _ ES _ 0%nat _); [intros x [<-|[<-|[]]]; lra|lra| |cbn; lia].
      cbn [length seq map repeat]. change (at_ (sort_r [-1]) 0) with (-1). change (at_ [0] 0) with 0. change (at_ [2; 1] 0) with 2. change (at_ [2; 1] 1) with 1. rewrite <- Ec.
      pose proof ln_1e8. pose proof (ln_mono (/ 100000000) c ltac:(lra)). pose proof (ln_mono (/ 100000000) ne ltac:(lra)).
      pose proof (ln_mono c 3 ltac:(lra)). pose proof (ln_mono ne 3 ltac:(lra)). assert (ln 3 <= 2) by (rewrite <- (ln_exp 2); apply ln_mono; pose proof (exp_ineq1_le 2); lra).
      intros p. unfold log_partition_products. cbn [map2 obind cumsum app In]. intros [Hp|[Hp|[]]]; injection Hp as <-; lra.
    + unfold sum in Es2. cbn in Es2. lra.
Qed.

(** What the iteration of calculate_mean_free_charge_saha returns: populations and
    charges solved for at models evaluated with the previous charges and
    populations, which are themselves such a solution *)
Definition solves (u : consts) (fuel : nat) (ipd : list R -> option (list R) -> option (list (list R))) (chem_pot n_e : list R -> option R) (els : list elem) (T_e : R) (Ns : list R) (use_ipd use_mu use_d exclude : bool) (Z d dist Zm : list R) : Prop :=
  exists cl ne,
    (if use_ipd then ipd Z (if use_d then Some d else None) = Some cl else cl = map (fun '(Z, _, _) => repeat 0 Z) els) /\
    (if use_mu then exists mu n, chem_pot Z = Some mu /\ n_e Z = Some n /\ solve_gen_saha u fuel els T_e n Ns cl mu exclude = Some (dist, ne, Zm)
     else solve_saha u fuel els T_e Ns (Some cl) exclude = Some (dist, ne, Zm)).
Theorem C91_last_iteration : forall u fuel (ipd : list R -> option (list R) -> option (list (list R))) (chem_pot n_e : list R -> option R) els T_e Ns a b c d dist Zm,
  mean_free_charge_saha u fuel ipd chem_pot n_e els T_e Ns a b c d = Some (dist, Zm) ->
  exists Z' d' Z'' d'', solves u fuel ipd chem_pot n_e els T_e Ns a b c d Z'' d'' d' Z' /\
    solves u fuel ipd chem_pot n_e els T_e Ns a b c d Z' d' dist Zm.
Proof.
  intros u fuel ipd chem_pot n_e els T_e Ns a b c d dist Zm H. unfold mean_free_charge_saha in H.
  destruct (solve_saha u fuel els T_e Ns None true) as [[[d0 n0] Z0]|]; [|discriminate]. cbn [obind] in H.
  match type of H with obind (Nat.iter 6 (fun s => obind s ?st) _) _ = _ => set (step := st) in H end.
  assert (St : forall Z dd zz r, step (Z, dd, zz) = Some r -> exists dist' Zm', r = (Zm', dist', Zm') /\ solves u fuel ipd chem_pot n_e els T_e Ns a b c d Z dd dist' Zm').
  { intros Z dd zz r Hr. unfold step in Hr. unfold solves. unfold no_lowering in Hr.
    destruct b; [destruct (chem_pot Z) as [mu|]; [|discriminate]|]; cbn [obind] in Hr;
    (destruct a; [destruct (ipd Z (if c then Some dd else None)) as [cl|] eqn:Ei; [|discriminate]|]); cbn [obind] in Hr.
    - destruct (n_e Z) as [n|] eqn:En; [|discriminate]. cbn [obind] in Hr. destruct (solve_gen_saha _ _ _ _ _ _ _ _ _) as [[[d1 n1] Z1]|] eqn:Es; [|discriminate]. injection Hr as <-.
      exists d1, Z1. split; [reflexivity|]. exists cl, n1. split; [reflexivity|]. exists mu, n. repeat split. exact Es.
    - destruct (n_e Z) as [n|] eqn:En; [|discriminate]. cbn [obind] in Hr. destruct (solve_gen_saha _ _ _ _ _ _ _ _ _) as [[[d1 n1] Z1]|] eqn:Es; [|discriminate]. injection Hr as <-.
      exists d1, Z1. split; [reflexivity|]. eexists. exists n1. split; [reflexivity|]. exists mu, n. repeat split. exact Es.
    - destruct (solve_saha _ _ _ _ _ _ _) as [[[d1 n1] Z1]|] eqn:Es; [|discriminate]. injection Hr as <-.
      exists d1, Z1. split; [reflexivity|]. exists cl, n1. split; [reflexivity|exact Es].
    - destruct (solve_saha _ _ _ _ _ _ _) as [[[d1 n1] Z1]|] eqn:Es; [|discriminate]. injection Hr as <-.
      exists d1, Z1. split; [reflexivity|]. eexists. exists n1. split; [reflexivity|exact Es]. }
  change (Nat.iter 6 (fun s => obind s step) ?x) with (obind (obind (Nat.iter 4 (fun s => obind s step) x) step) step) in H.
  destruct (Nat.iter 4 _ _) as [[[Z4 d4] z4]|]; [|discriminate]. cbn [obind] in H.
  destruct (step (Z4, d4, z4)) as [r5|] eqn:E5; [|discriminate]. cbn [obind] in H. destruct (St _ _ _ _ E5) as (d5 & Z5 & -> & S5).
  destruct (step (Z5, d5, Z5)) as [r6|] eqn:E6; [|discriminate]. cbn [obind] in H. destruct (St _ _ _ _ E6) as (d6 & Z6 & -> & S6).
  injection H as <- <-. exists Z5, d5, Z4, d4. split; assumption.
Qed.
Print Assumptions C91_last_iteration.

(** *** C83, C86: sums and what the models read *)
Lemma ew_same f a b : length a = length b -> ew f a b = Some (map2 f a b).
Proof. intros E. unfold ew. now rewrite E, Nat.eqb_refl. Qed.
Lemma add_states_nth x y st j i : add_states x y = Some st -> (j < length st)%nat -> length (nth j x []) = length (nth j y []) -> (i < length (nth j st []))%nat ->
  at_ (nth j st []) i = at_ (nth j x []) i + at_ (nth j y []) i.
Proof.
  revert y st j. induction x as [|a x IH]; intros [|b y] st j H; cbn [add_states] in H; try discriminate.
  - injection H as <-. cbn. lia.
  - injection H as <-. cbn. lia.
  - destruct (ew Rplus a b) as [l|] eqn:El; [|discriminate]. cbn [obind] in H. destruct (add_states x y) as [r|] eqn:Er; [|discriminate]. injection H as <-.
    destruct j as [|j]; intros Hj E Hi; cbn [nth length] in *; [|apply (IH y r j Er); try assumption; lia].
    rewrite ew_same in El by exact E. assert (l = map2 Rplus a b) as -> by congruence. rewrite map2_length in Hi by exact E. unfold at_. apply map2_nth; lia.
Qed.
Theorem C83_sum : forall u isle pint m1 l m P pop st, all_element_states u isle pint (IPDSum (m1 :: l ++ [m])) P pop = Some st ->
  exists s1 s2, all_element_states u isle pint (IPDSum (m1 :: l)) P pop = Some s1 /\ all_element_states u isle pint m P pop = Some s2 /\
    forall j i, (j < length st)%nat -> length (nth j s1 []) = length (nth j s2 []) -> (i < length (nth j st []))%nat -> at_ (nth j st []) i = at_ (nth j s1 []) i + at_ (nth j s2 []) i.
Proof.
  intros u isle pint m1 l m P pop st H. cbn [all_element_states] in H. rewrite fold_left_app in H. cbn [fold_left] in H.
  cbn [all_element_states]. destruct (fold_left _ l _) as [s1|]; [|discriminate]. cbn [obind] in H.
  destruct (all_element_states u isle pint m P pop) as [s2|]; [|discriminate]. cbn [obind] in H.
  exists s1, s2. split; [reflexivity|]. split; [reflexivity|]. intros j i Hj E Hi. apply (add_states_nth _ _ _ _ _ H Hj E Hi).
Qed.
Print Assumptions C83_sum.
Theorem C86_state_read : forall s P, length (mass_density s) = length (ions s) -> length (Z_free s) = length (ions s) -> plasma_of s = Some P ->
  p_Te P = T_e s /\ p_Ti P = T_i s /\ p_Z P = Z_free s /\ p_ZA P = map el_Z (ions s) /\
  p_ne P = sum (map2 Rmult (p_ni P) (Z_free s)) /\
  p_ni P = map2 Rdiv (mass_density s) (map el_mass (ions s)).
Proof.
  intros s P L1 L2 H. assert (Ei : n_i s = Some (map2 Rdiv (mass_density s) (map el_mass (ions s)))) by (unfold n_i; apply ew_same; now rewrite L1, map_length).
  assert (En : n_e s = Some (sum (map2 Rmult (map2 Rdiv (mass_density s) (map el_mass (ions s))) (Z_free s)))).
  { unfold n_e. rewrite Ei. cbn [obind]. rewrite ew_same; [reflexivity|]. rewrite map2_length by (now rewrite L1, map_length). congruence. }
  unfold plasma_of in H. rewrite En, Ei in H. cbn [obind] in H. injection H as <-. repeat split.
Qed.
Print Assumptions C86_state_read.
Example C86_state_read_ex : exists P, plasma_of (mkPS [mkEl 6 12 1] [4] [24] 3 [5] [1]) = Some P /\ p_Ti P = [5] /\ p_Te P = 3 /\ p_ne P = 8.
Proof.
  destruct (plasma_of (mkPS [mkEl 6 12 1] [4] [24] 3 [5] [1])) as [P|] eqn:E; [|discriminate]. exists P. split; [reflexivity|].
  pose proof (C86_state_read (mkPS [mkEl 6 12 1] [4] [24] 3 [5] [1]) P) as R. specialize (R (eq_refl : length [24] = length [mkEl 6 12 1]) (eq_refl : length [4] = length [mkEl 6 12 1]) E); destruct R as (-> & -> & _ & _ & -> & ->). repeat split. unfold sum. cbn. lra.
Qed.

(** *** C89: when the loop over a mixture stops before its hundredth pass, no charge
    moved by more than 1e-5 in the last pass *)
Lemma more_err_bound a b j t : more_err a b <= t -> (j < length a)%nat -> (j < length b)%nat -> Rabs (at_ b j - at_ a j) <= t.
Proof.
  unfold more_err. revert b j. induction a as [|x a IH]; intros [|y b] [|j] H Ha Hb; cbn [length] in *; try lia; cbn [map2 fold_right] in H; unfold at_ in *; cbn [nth].
  - eapply Rle_trans; [apply Rmax_l|exact H].
  - apply IH; [|lia|lia]. eapply Rle_trans; [apply Rmax_r|exact H].
Qed.
Theorem C89_converged : forall u fuel T ions, (100 < fuel)%nat -> List.Forall (fun '(_, _, ZA) => 0 < ZA) ions ->
  exists z old, more_charge u fuel T ions = Some z /\ z = more_step u T ions old /\
    ((forall j, (j < length z)%nat -> (j < length old)%nat -> Rabs (at_ z j - at_ old j) <= / 100000) \/
     z = Nat.iter 101 (more_step u T ions) (map (fun '(_, _, ZA) => 5 / 10 * ZA) ions)).
Proof.
  intros u fuel T ions Hf HZ. destruct (C89_loop u fuel T ions Hf HZ) as (z & E & _ & old & Eo & D). exists z, old. split; [exact E|]. split; [exact Eo|].
  destruct D as [D|D]; [left|now right]. intros j Hj Ho. now apply more_err_bound.
Qed.
Print Assumptions C89_converged.
Example C89_converged_ex : exists z, more_charge unit_consts 101 1 [(1, 1, 1); (1, 12, 6)] = Some z.
Proof.
  destruct (C89_converged unit_consts 101 1 [(1, 1, 1); (1, 12, 6)]) as (z & _ & E & _); [lia|repeat constructor; lra|]. now exists z.
Qed.
