(** C125: where the coefficients of the fit of Dandrea, Ashcroft and Carlsson
    (free_free.py:837-929) are defined, and what they tend to in both limits. *)
From Coq Require Import Reals List Arith Lra Lia Psatz.
From Coquelicot Require Import Rcomplements Complex.
From Verif Require Import M_Const M_PlasmaState M_PlasmaPhysics L_PlasmaPhysics M_FreeFree L_FreeFree6 L_LFC L_RPA M_RPA0K L_RPA0K L_Dandrea M_Math M_ChemPot L_FermiFit P_RPA0K P_FermiFit P_Dandrea.
Open Scope R_scope.

Lemma den_a4_pos t : 0 <= t -> 0 < 19608 / 1000 - 96978 / 1000 * t + 42366 / 100 * t ^ 2 - 33101 / 100 * t ^ 3 + 20833 / 1000 * (64646 / 1000) * t ^ 4.
Proof.
  intros Ht. destruct (Rle_lt_dec t (1 / 4)) as [H|H].
  - set (x := 4 * t). set (y := 1 - 4 * t). assert (Hx : 0 <= x) by (unfold x; lra). assert (Hy : 0 <= y) by (unfold y; lra).
    assert (HM : forall i j, 0 <= x ^ i * y ^ j) by (intros i j; apply Rmult_le_pos; now apply pow_le).
    assert (HS : 0 < x ^ 4 * y ^ 0 + x ^ 0 * y ^ 4).
    { destruct (Rle_lt_dec x (1 / 2)) as [Hh|Hh].
      - assert (0 < y ^ 4) by (apply pow_lt; unfold y, x in *; lra). pose proof (HM 4%nat 0%nat). cbn [pow] in *. lra.
      - assert (0 < x ^ 4) by (apply pow_lt; lra). pose proof (HM 0%nat 4%nat). cbn [pow] in *. lra. }
    replace (19608 / 1000 - 96978 / 1000 * t + 42366 / 100 * t ^ 2 - 33101 / 100 * t ^ 3 + 20833 / 1000 * (64646 / 1000) * t ^ 4) with (2451 / 125 * (x ^ 0 * y ^ 4) + 867 / 16 * (x ^ 1 * y ^ 3) + 285573 / 4000 * (x ^ 2 * y ^ 2) + 1711487 / 32000 * (x ^ 3 * y ^ 1) + 2807173059 / 128000000 * (x ^ 4 * y ^ 0)) by (unfold x, y; field).
    pose proof (HM 0%nat 4%nat). pose proof (HM 1%nat 3%nat). pose proof (HM 2%nat 2%nat). pose proof (HM 3%nat 1%nat). pose proof (HM 4%nat 0%nat). lra.
  - set (s := t - 1 / 4). assert (Hs : 0 < s) by (unfold s; lra). replace (19608 / 1000 - 96978 / 1000 * t + 42366 / 100 * t ^ 2 - 33101 / 100 * t ^ 3 + 20833 / 1000 * (64646 / 1000) * t ^ 4) with (2807173059 / 128000000 * s ^ 0 + 1095686059 / 8000000 * s ^ 1 + 2721765177 / 4000000 * s ^ 2 + 507880059 / 500000 * s ^ 3 + 673385059 / 500000 * s ^ 4) by (unfold s; field).
    pose proof (pow_lt s 0 Hs). pose proof (pow_lt s 1 Hs). pose proof (pow_lt s 2 Hs). pose proof (pow_lt s 3 Hs). pose proof (pow_lt s 4 Hs). lra.
Qed.
Lemma den_a6_pos t : 0 <= t -> 0 < 36538 / 100000 - 22575 / 10000 * t + 22942 / 1000 * t ^ 2 - 43492 / 1000 * t ^ 3 + 10640 / 100 * t ^ 4.
Proof.
  intros Ht. destruct (Rle_lt_dec t (1 / 4)) as [H|H].
  - set (x := 4 * t). set (y := 1 - 4 * t). assert (Hx : 0 <= x) by (unfold x; lra). assert (Hy : 0 <= y) by (unfold y; lra).
    assert (HM : forall i j, 0 <= x ^ i * y ^ j) by (intros i j; apply Rmult_le_pos; now apply pow_le).
    assert (HS : 0 < x ^ 4 * y ^ 0 + x ^ 0 * y ^ 4).
    { destruct (Rle_lt_dec x (1 / 2)) as [Hh|Hh].
      - assert (0 < y ^ 4) by (apply pow_lt; unfold y, x in *; lra). pose proof (HM 4%nat 0%nat). cbn [pow] in *. lra.
      - assert (0 < x ^ 4) by (apply pow_lt; lra). pose proof (HM 0%nat 4%nat). cbn [pow] in *. lra. }
    replace (36538 / 100000 - 22575 / 10000 * t + 22942 / 1000 * t ^ 2 - 43492 / 1000 * t ^ 3 + 10640 / 100 * t ^ 4) with (18269 / 50000 * (x ^ 0 * y ^ 4) + 179429 / 200000 * (x ^ 1 * y ^ 3) + 193303 / 100000 * (x ^ 2 * y ^ 2) + 782633 / 400000 * (x ^ 3 * y ^ 1) + 388377 / 400000 * (x ^ 4 * y ^ 0)) by (unfold x, y; field).
    pose proof (HM 0%nat 4%nat). pose proof (HM 1%nat 3%nat). pose proof (HM 2%nat 2%nat). pose proof (HM 3%nat 1%nat). pose proof (HM 4%nat 0%nat). lra.
  - set (s := t - 1 / 4). assert (Hs : 0 < s) by (unfold s; lra). replace (36538 / 100000 - 22575 / 10000 * t + 22942 / 1000 * t ^ 2 - 43492 / 1000 * t ^ 3 + 10640 / 100 * t ^ 4) with (388377 / 400000 * s ^ 0 + 6167 / 800 * s ^ 1 + 30223 / 1000 * s ^ 2 + 15727 / 250 * s ^ 3 + 532 / 5 * s ^ 4) by (unfold s; field).
    pose proof (pow_lt s 0 Hs). pose proof (pow_lt s 1 Hs). pose proof (pow_lt s 2 Hs). pose proof (pow_lt s 3 Hs). pose proof (pow_lt s 4 Hs). lra.
Qed.
Lemma den_a8_pos t : 0 <= t -> 0 < 1 - 71316 / 10000 * t + 22725 / 1000 * t ^ 2 + 58092 / 1000 * t ^ 3 - 43602 / 100 * t ^ 4 - 82651 / 100 * t ^ 5 + 49129 / 10 * t ^ 6.
Proof.
  intros Ht. destruct (Rle_lt_dec t (1 / 4)) as [H|H].
  - set (x := 4 * t). set (y := 1 - 4 * t). assert (Hx : 0 <= x) by (unfold x; lra). assert (Hy : 0 <= y) by (unfold y; lra).
    assert (HM : forall i j, 0 <= x ^ i * y ^ j) by (intros i j; apply Rmult_le_pos; now apply pow_le).
    assert (HS : 0 < x ^ 6 * y ^ 0 + x ^ 0 * y ^ 6).
    { destruct (Rle_lt_dec x (1 / 2)) as [Hh|Hh].
      - assert (0 < y ^ 6) by (apply pow_lt; unfold y, x in *; lra). pose proof (HM 6%nat 0%nat). cbn [pow] in *. lra.
      - assert (0 < x ^ 6) by (apply pow_lt; lra). pose proof (HM 0%nat 6%nat). cbn [pow] in *. lra. }
    replace (1 - 71316 / 10000 * t + 22725 / 1000 * t ^ 2 + 58092 / 1000 * t ^ 3 - 43602 / 100 * t ^ 4 - 82651 / 100 * t ^ 5 + 49129 / 10 * t ^ 6) with (1 * (x ^ 0 * y ^ 6) + 42171 / 10000 * (x ^ 1 * y ^ 5) + 120093 / 16000 * (x ^ 2 * y ^ 4) + 140159 / 16000 * (x ^ 3 * y ^ 3) + 85923 / 12800 * (x ^ 4 * y ^ 2) + 653449 / 512000 * (x ^ 5 * y ^ 1) + 1199087 / 5120000 * (x ^ 6 * y ^ 0)) by (unfold x, y; field).
    pose proof (HM 0%nat 6%nat). pose proof (HM 1%nat 5%nat). pose proof (HM 2%nat 4%nat). pose proof (HM 3%nat 3%nat). pose proof (HM 4%nat 2%nat). pose proof (HM 5%nat 1%nat). pose proof (HM 6%nat 0%nat). lra.
  - set (s := t - 1 / 4). assert (Hs : 0 < s) by (unfold s; lra). replace (1 - 71316 / 10000 * t + 22725 / 1000 * t ^ 2 + 58092 / 1000 * t ^ 3 - 43602 / 100 * t ^ 4 - 82651 / 100 * t ^ 5 + 49129 / 10 * t ^ 6) with (1199087 / 5120000 * s ^ 0 + 10313 / 20000 * s ^ 1 + 3936611 / 64000 * s ^ 2 + 1281569 / 2000 * s ^ 3 + 2509349 / 800 * s ^ 4 + 163571 / 25 * s ^ 5 + 49129 / 10 * s ^ 6) by (unfold s; field).
    pose proof (pow_lt s 0 Hs). pose proof (pow_lt s 1 Hs). pose proof (pow_lt s 2 Hs). pose proof (pow_lt s 3 Hs). pose proof (pow_lt s 4 Hs). pose proof (pow_lt s 5 Hs). pose proof (pow_lt s 6 Hs). lra.
Qed.
(** Bernoulli: a power below the first lies below its tangent at one *)
Lemma Rpower_tangent t a : 0 < t -> 0 <= a <= 1 -> Rpower t a <= 1 + a * (t - 1).
Proof.
  intros Ht Ha. pose proof (exp_ineq1_le (ln t * (1 - a))). pose proof (exp_ineq1_le (- (a * ln t))).
  (* weighted means of t and 1 *)
  set (m := 1 + a * (t - 1)). assert (Hm : 0 < m) by (unfold m; nra).
  assert (L : a * ln t <= ln m).
  { assert (A : ln (t / m) <= t / m - 1) by (pose proof (exp_ineq1_le (ln (t / m))); rewrite exp_ln in * by (now apply Rdiv_lt_0_compat); lra).
    assert (B : ln (1 / m) <= 1 / m - 1) by (pose proof (exp_ineq1_le (ln (1 / m))); rewrite exp_ln in * by (apply Rdiv_lt_0_compat; lra); lra).
    unfold Rdiv in A at 1. unfold Rdiv in B at 1. rewrite ln_mult in A, B by (try apply Rinv_0_lt_compat; lra). rewrite ln_Rinv in A, B by lra. rewrite ln_1 in B.
    assert (X : a * (t / m - 1) + (1 - a) * (1 / m - 1) = 0) by (unfold m; field; unfold m in Hm; lra).
    nra. }
  unfold Rpower. rewrite <- (exp_ln m) by assumption. destruct (Req_dec (a * ln t) (ln m)) as [->|]; [lra|]. left. apply exp_increasing. lra.
Qed.
Lemma den_a2_pos t : 0 < t -> 1 / 10 < 4222 / 10000 + - (6466 / 10000) * Rpower t (70572 / 100000) + 58820 / 10000 * t ^ 2.
Proof. intros Ht. pose proof (Rpower_tangent t (70572 / 100000) Ht ltac:(lra)). nra. Qed.

Definition DJ (t : R) : R := 1 + (32488 / 10 - PI ^ 2 / 6) * t ^ 2 - 45356 / 10 * t ^ 4 - 462400 * t ^ 6
          + (3 * sqrt 2 * -3202700 / (4 * sqrt PI) * Rpower t (15 / 2) + (3 * -3202700 / 4) * t ^ 9).
Definition DK (t : R) : R := 1 + (- (48780 / 10000) - 3 * PI ^ 2 / 4) * t ^ 2 + 34831 / 100 * t ^ 4 + 15173 / 10 * t ^ 7
          - 7 * sqrt 2 * - (23375 / 10) / (8 * sqrt PI) * Rpower t (17 / 2) - (3 * - (23375 / 10) / 8) * t ^ 10.
Lemma DK_pos t : 0 < t -> 0 < DK t.
Proof.
  intros Ht. unfold DK. destruct PI_approx as [P1 P2]. destruct sqrt_PI_approx as [S1 S2]. assert (0 < sqrt 2) by (apply sqrt_lt_R0; lra).
  assert (0 < Rpower t (17 / 2)) by apply exp_pos. assert (0 < 7 * sqrt 2 * (23375 / 10) / (8 * sqrt PI)) by (apply Rdiv_lt_0_compat; lra).
  assert (0 < t ^ 7) by now apply pow_lt. assert (0 < t ^ 10) by now apply pow_lt.
  replace (7 * sqrt 2 * - (23375 / 10) / (8 * sqrt PI) * Rpower t (17 / 2)) with (- (7 * sqrt 2 * (23375 / 10) / (8 * sqrt PI) * Rpower t (17 / 2))) by (field; lra).
  assert (0 < 7 * sqrt 2 * (23375 / 10) / (8 * sqrt PI) * Rpower t (17 / 2)) by now apply Rmult_lt_0_compat.
  assert (PI ^ 2 <= 10) by nra. assert (0 < t ^ 2) by now apply pow_lt. replace (t ^ 4) with (t ^ 2 * t ^ 2) by ring.
  assert (0 < 1 - 13 * t ^ 2 + 34831 / 100 * (t ^ 2 * t ^ 2)) by nra.
  assert (- (13) * t ^ 2 <= (- (48780 / 10000) - 3 * PI ^ 2 / 4) * t ^ 2) by nra. lra.
Qed.
(** one sign change: the quotient by the square decreases *)
Lemma DJ_once s t : 0 < s -> s < t -> DJ t / t ^ 2 < DJ s / s ^ 2.
Proof.
  intros Hs Hst. destruct PI_approx as [P1 P2]. destruct sqrt_PI_approx as [S1 S2]. assert (0 < sqrt 2) by (apply sqrt_lt_R0; lra).
  set (c := 3 * sqrt 2 * 3202700 / (4 * sqrt PI)). assert (Hc : 0 < c) by (apply Rdiv_lt_0_compat; lra).
  assert (E : forall x, 0 < x -> DJ x / x ^ 2 = / x ^ 2 + (32488 / 10 - PI ^ 2 / 6) - 45356 / 10 * x ^ 2 - 462400 * x ^ 4 - c * Rpower x (11 / 2) - 3 * 3202700 / 4 * x ^ 7).
  { intros x Hx. unfold DJ. replace (15 / 2) with (11 / 2 + INR 2) by (cbn; field). rewrite Rpower_plus, Rpower_pow by assumption. unfold c. field. split; lra. }
  rewrite !E by lra.
  assert (PW : forall k, s ^ S k < t ^ S k). { intros k. induction k as [|k IH]; [cbn; lra|]. change (s * s ^ S k < t * t ^ S k). assert (0 < s ^ S k) by now apply pow_lt. nra. }
  assert (Rpower s (11 / 2) < Rpower t (11 / 2)). { unfold Rpower. apply exp_increasing. pose proof (ln_increasing s t Hs Hst). lra. }
  pose proof (PW 1%nat). pose proof (PW 3%nat). pose proof (PW 6%nat). assert (/ t ^ 2 < / s ^ 2) by (apply Rinv_lt_contravar; [apply Rmult_lt_0_compat; apply pow_lt; lra|assumption]).
  assert (c * Rpower s (11 / 2) < c * Rpower t (11 / 2)) by now apply Rmult_lt_compat_l. lra.
Qed.

(** the coefficients a2, ..., a8 exist at every degeneracy, a4 and a8 are positive; K
    exists as well, J at every degeneracy but one *)
Theorem C125_defined : forall theta, 0 < theta -> (exists a2 a4 a6 a8, dandrea_a theta = Some (a2, a4, a6, a8) /\ 0 < a4 /\ 0 < a8) /\ dandrea_K theta <> None.
Proof.
  intros t Ht. split.
  - unfold dandrea_a. pose proof (den_a2_pos t Ht). pose proof (den_a4_pos t (Rlt_le _ _ Ht)). pose proof (den_a6_pos t (Rlt_le _ _ Ht)). pose proof (den_a8_pos t (Rlt_le _ _ Ht)).
    rewrite !qdiv_some by lra. cbn [obind]. do 4 eexists. split; [reflexivity|]. split; (apply Rdiv_lt_0_compat; [|assumption]).
    + pose proof (pow2_ge_0 (t - 235 / 10000)). nra.
    + pose proof (pow2_ge_0 (t - 26345 / 100000)). nra.
  - unfold dandrea_K. pose proof (DK_pos t Ht) as H. unfold DK in H. rewrite qdiv_some by lra. discriminate.
Qed.
Print Assumptions C125_defined.
Theorem C125_one_pole : exists theta0, 0.2515 < theta0 < 0.2518 /\ forall theta, 0 < theta -> (fit_defined theta <-> theta <> theta0).
Proof.
  destruct C125_pole_refuted as (t0 & Ht0 & HJ & _). exists t0. split; [assumption|]. intros t Ht. split.
  - intros (_ & HJt & _) ->. now apply HJt.
  - intros Hne. destruct (C125_defined t Ht) as [(a2 & a4 & a6 & a8 & Ea & _) HK]. split; [rewrite Ea; discriminate|]. split; [|exact HK].
    assert (Z : DJ t0 = 0). { unfold dandrea_J, qdiv in HJ. destruct (Req_EM_T _ 0) as [E|]; [exact E|discriminate]. }
    assert (N : DJ t <> 0). { intros E. destruct (Rtotal_order t t0) as [L|[L|L]]; [|now apply Hne|].
      - pose proof (DJ_once t t0 Ht L) as X. rewrite E, Z in X. unfold Rdiv in X. rewrite !Rmult_0_l in X. lra.
      - pose proof (DJ_once t0 t ltac:(lra) L) as X. rewrite E, Z in X. unfold Rdiv in X. rewrite !Rmult_0_l in X. lra. }
    unfold dandrea_J. unfold DJ in N. rewrite qdiv_some by exact N. discriminate.
Qed.
Print Assumptions C125_one_pole.

(** a hot plasma: the coefficient of x^(2n) falls as theta^(-n), so that the fit becomes
    one function of x / sqrt theta *)
Theorem C125_numerator_classical : forall theta, 10 <= theta -> exists a2 a4 a6 a8, dandrea_a theta = Some (a2, a4, a6, a8) /\
  Rabs (theta * a2 - 1000 / 5882) <= 1 / (10 * theta) /\ Rabs (theta ^ 2 * a4 - 1000 / 20833) <= 1 / (50 * theta) /\
  Rabs (theta ^ 3 * a6 - 10 / 1064) <= 1 / (200 * theta) /\ Rabs (theta ^ 4 * a8 - 122324 / 49129000) <= 1 / (500 * theta).
Proof.
  intros t Ht. assert (H0 : 0 < t) by lra. unfold dandrea_a. pose proof (den_a2_pos t H0) as D2. pose proof (den_a4_pos t ltac:(lra)) as D4. pose proof (den_a6_pos t ltac:(lra)) as D6. pose proof (den_a8_pos t ltac:(lra)) as D8.
  rewrite !qdiv_some by lra. cbn [obind]. do 4 eexists. split; [reflexivity|].
  set (p := Rpower t (70572 / 100000)) in *. assert (Hp : 0 < p <= t). { split; [apply exp_pos|]. rewrite <- (Rpower_1 t) by lra. apply Rle_Rpower; lra. }
  assert (Q : forall n N D c b, 0 < D -> Rabs (t * (t ^ n * N - c * D)) <= b * D -> Rabs (t ^ n * (N / D) - c) <= b / t).
  { intros n N D c b HD H. rewrite Rabs_mult, (Rabs_pos_eq t) in H by lra. apply (Rmult_le_reg_r (D * t)); [now apply Rmult_lt_0_compat|].
    replace (b / t * (D * t)) with (b * D) by (field; lra). eapply Rle_trans; [|exact H]. right. rewrite <- (Rabs_pos_eq (D * t)) by (apply Rlt_le; now apply Rmult_lt_0_compat). rewrite <- Rabs_mult.
    replace ((t ^ n * (N / D) - c) * (D * t)) with (t * (t ^ n * N - c * D)) by (field; lra). rewrite Rabs_mult, (Rabs_pos_eq t) by lra. reflexivity. }
  set (s := t - 10). assert (Hs : 0 <= s) by (unfold s; lra). assert (Et : t = s + 10) by (unfold s; lra). 
  assert (Hs2 : 0 <= s ^ 2) by now apply pow_le. assert (Hs3 : 0 <= s ^ 3) by now apply pow_le. assert (Hs4 : 0 <= s ^ 4) by now apply pow_le. assert (Hs5 : 0 <= s ^ 5) by now apply pow_le. assert (Hs6 : 0 <= s ^ 6) by now apply pow_le.
  split; [|split; [|split]].
  - replace (1 / (10 * t)) with (1 / 10 / t) by (field; lra). replace t with (t ^ 1) at 1 by ring. apply Q; [lra|]. rewrite pow_1.
    assert (P2 : 0 < p * t <= t * t) by nra. apply Rabs_le. split; nra.
  - replace (1 / (50 * t)) with (1 / 50 / t) by (field; lra). apply Q; [lra|]. rewrite Et. apply Rabs_le. split; ring_simplify; lra.
  - replace (1 / (200 * t)) with (1 / 200 / t) by (field; lra). apply Q; [lra|]. rewrite Et. apply Rabs_le. split; ring_simplify; lra.
  - replace (1 / (500 * t)) with (1 / 500 / t) by (field; lra). apply Q; [lra|]. rewrite Et. apply Rabs_le. split; ring_simplify; lra.
Qed.
Print Assumptions C125_numerator_classical.
(** a cold plasma *)
Theorem C125_numerator_degenerate : forall theta, 0 < theta <= 1 / 100 -> exists a2 a4 a6 a8, dandrea_a theta = Some (a2, a4, a6, a8) /\
  Rabs (a2 + 2280 / 4222) <= 4 * sqrt theta /\ Rabs (a4 - 1000 / 19608) <= theta /\
  Rabs (a6 + 19000 / 36538) <= 3 * theta /\ Rabs (a8 - 91 / 100) <= 10 * theta ^ 2 + 1 / 20 * theta.
Proof.
  intros t Ht. assert (H0 : 0 < t) by lra. unfold dandrea_a. pose proof (den_a2_pos t H0) as D2. pose proof (den_a4_pos t ltac:(lra)) as D4. pose proof (den_a6_pos t ltac:(lra)) as D6. pose proof (den_a8_pos t ltac:(lra)) as D8.
  rewrite !qdiv_some by lra. cbn [obind]. do 4 eexists. split; [reflexivity|].
  assert (Q : forall N D c b, 0 < D -> Rabs (N - c * D) <= b * D -> Rabs (N / D - c) <= b).
  { intros N D c b HD H. apply (Rmult_le_reg_r D); [assumption|]. replace (Rabs (N / D - c) * D) with (Rabs (N - c * D)); [exact H|]. replace (N - c * D) with ((N / D - c) * D) by (field; lra). rewrite Rabs_mult, (Rabs_pos_eq D) by lra. reflexivity. }
  set (p := Rpower t (70572 / 100000)) in *. set (r := sqrt t). assert (Hr : 0 < r <= 1 / 10). { split; [now apply sqrt_lt_R0|]. unfold r. rewrite <- (sqrt_pow2 (1 / 10)) by lra. apply sqrt_le_1_alt. lra. }
  assert (Er : t = r ^ 2) by (unfold r; symmetry; apply pow2_sqrt; lra).
  assert (Hp : 0 < p <= r). { split; [apply exp_pos|]. unfold r. rewrite <- Rpower_sqrt by lra. unfold p, Rpower. assert (ln t < 0) by (rewrite <- ln_1; apply ln_increasing; lra).
    destruct (Req_dec (70572 / 100000 * ln t) (/ 2 * ln t)) as [E|NE]; [rewrite E; lra|]. left. apply exp_increasing. lra. }
  assert (T2 : 0 < t ^ 2 <= 1 / 100 * t) by nra. assert (T3 : 0 < t ^ 3 <= 1 / 100 * t ^ 2) by (replace (t ^ 3) with (t * t ^ 2) by ring; nra). assert (T4 : 0 < t ^ 4 <= 1 / 100 * t ^ 3) by (replace (t ^ 4) with (t * t ^ 3) by ring; nra).
  assert (T5 : 0 < t ^ 5 <= 1 / 100 * t ^ 4) by (replace (t ^ 5) with (t * t ^ 4) by ring; nra). assert (T6 : 0 < t ^ 6 <= 1 / 100 * t ^ 5) by (replace (t ^ 6) with (t * t ^ 5) by ring; nra).
  split; [|split; [|split]].
  - replace (2280 / 4222) with (- (- (2280 / 4222))) by ring. apply Q; [lra|]. assert (t <= 1 / 10 * r) by (rewrite Er; nra). apply Rabs_le. split; nra.
  - apply Q; [lra|]. apply Rabs_le. split; nra.
  - replace (19000 / 36538) with (- (- (19000 / 36538))) by ring. apply Q; [lra|]. apply Rabs_le. split; nra.
  - apply Q; [lra|]. apply Rabs_le. split; nra.
Qed.
Print Assumptions C125_numerator_degenerate.
Example C125_fit_ex : fit_defined (1 / 4) /\ fit_defined 7 /\ 10 <= 12 /\ 0 < 1 / 200 <= 1 / 100.
Proof. destruct C125_one_pole as (t0 & H & D). split; [apply D; lra|]. split; [apply D; lra|]. lra. Qed.
