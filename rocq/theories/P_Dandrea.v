(** C125: what the fit of Dandrea, Ashcroft and Carlsson (free_free.py:837-1056) keeps of
    the Lindhard function: both expansions of its kernel, the plasma frequency and the
    thermal (Bohm-Gross) term at high energies, the screening length in the static long
    wave limit; and a pole in one of its coefficients. *)
From Coq Require Import Reals List Arith Lra Lia Psatz.
From Coquelicot Require Import Rcomplements Complex.
From Verif Require Import M_Const M_PlasmaState M_PlasmaPhysics L_PlasmaPhysics M_FreeFree L_FreeFree6 L_LFC L_RPA M_RPA0K L_RPA0K L_Dandrea M_Math M_ChemPot L_FermiFit P_RPA0K P_FermiFit.
Open Scope R_scope.

Lemma dandrea_a8 theta a2 a4 a6 a8 : dandrea_a theta = Some (a2, a4, a6, a8) -> a8 <> 0.
Proof.
  unfold dandrea_a, obind, qdiv. destruct (Req_EM_T _ 0); [discriminate|]. destruct (Req_EM_T _ 0); [discriminate|]. destruct (Req_EM_T _ 0); [discriminate|].
  destruct (Req_EM_T _ 0) as [|Hd]; [discriminate|]. intros E. injection E as _ _ _ <-.
  assert (0 < 91 / 100 - 64453 / 10000 * theta + 122324 / 10000 * theta ^ 2) by (pose proof (pow2_ge_0 (theta - 26345 / 100000)); nra).
  apply Rmult_integral_contrapositive. split; [lra|]. now apply Rinv_neq_0_compat.
Qed.
Lemma Rpower_half_odd t n : 0 < t -> Rpower t (INR (2 * n + 1) / 2) = sqrt t ^ (2 * n + 1).
Proof. intros Ht. rewrite <- Rpower_pow by now apply sqrt_lt_R0. rewrite <- (Rpower_sqrt t) by assumption. rewrite Rpower_mult. f_equal. field. Qed.
Lemma Rp52 t : 0 < t -> Rpower t (5 / 2) = sqrt t ^ 5.
Proof. intros Ht. change 5%nat with (2 * 2 + 1)%nat. rewrite <- (Rpower_half_odd t 2 Ht). f_equal. cbn. lra. Qed.
Lemma Rp72 t : 0 < t -> Rpower t (7 / 2) = sqrt t ^ 7.
Proof. intros Ht. change 7%nat with (2 * 3 + 1)%nat. rewrite <- (Rpower_half_odd t 3 Ht). f_equal. cbn. lra. Qed.
Lemma Rp32m t : 0 < t -> Rpower t (- (3 / 2)) = / sqrt t ^ 3.
Proof. intros Ht. rewrite Rpower_Ropp. f_equal. change 3%nat with (2 * 1 + 1)%nat. rewrite <- (Rpower_half_odd t 1 Ht). f_equal. cbn. lra. Qed.

(** the fit of the coefficients is defined at this degeneracy *)
Definition fit_defined (theta : R) : Prop := dandrea_a theta <> None /\ dandrea_J theta <> None /\ dandrea_K theta <> None.
Lemma fit_defined_1 : fit_defined 1.
Proof.
  split; [|split].
  - destruct dandrea_a_1 as (a2 & a4 & a6 & a8 & -> & _). discriminate.
  - destruct dandrea_J_1 as (J & -> & _). discriminate.
  - destruct dandrea_K_1 as (K & -> & _). discriminate.
Qed.

(** For large x the Lindhard function is
      2/x int y^2 f dy + 2/(3 x^3) int y^4 f dy + 2/(5 x^5) int y^6 f dy + ...
    with the moments 1/3, theta^(5/2) I_(3/2) / 2 and theta^(7/2) I_(5/2) / 2 of the
    distribution f; for small x it is x int f dy (twice) = sqrt theta I_(-1/2) x. *)
Theorem C125_phi_large : forall (Fm F3 F5 : R -> R) theta eta, 0 < theta -> fit_defined theta -> Fm eta <> 0 ->
  exists M X, 0 < M /\ 1 <= X /\ forall x, X <= x -> exists p, phi_Dandrea Fm F3 F5 x theta eta = Some p /\
    Rabs (p - (2 / x * (1 / 3) + 2 / (3 * x ^ 3) * (Rpower theta (5 / 2) * (3 / 4 * sqrt PI * F3 eta) / 2)
               + 2 / (5 * x ^ 5) * (Rpower theta (7 / 2) * (15 / 8 * sqrt PI * F5 eta) / 2))) <= M / x ^ 7.
Proof.
  intros Fm F3 F5 theta eta Ht (Da & DJ & DK) HF. unfold phi_Dandrea. destruct (dandrea_a theta) as [[[[a2 a4] a6] a8]|] eqn:Ea; [|easy]. pose proof (dandrea_a8 _ _ _ _ _ Ea) as H8.
  destruct (dandrea_J theta) as [J|]; [|easy]. destruct (dandrea_K theta) as [K|]; [|easy]. cbn [obind].
  pose proof PI_RGT_0 as HPI. assert (HsP : 0 < sqrt PI) by now apply sqrt_lt_R0. assert (Hr : 0 < sqrt theta) by now apply sqrt_lt_R0.
  assert (HI : Fm eta * sqrt PI <> 0) by (apply Rmult_integral_contrapositive; split; lra).
  rewrite !qdiv_some by (apply Rmult_integral_contrapositive; split; lra). cbn [obind].
  set (Im := Fm eta * sqrt PI) in *. set (b2 := a2 + _). set (b4 := b2 ^ 2 - _ + _ + _). set (c1 := 1 / 2 * Rpower theta (5 / 2) * (F3 eta * (3 / 4 * sqrt PI))). set (c2 := 3 / 10 * Rpower theta (7 / 2) * (F5 eta * (15 / 8 * sqrt PI))).
  assert (HS : sqrt theta * Im <> 0) by (apply Rmult_integral_contrapositive; split; lra).
  destruct (large_expansion (sqrt theta * Im) a2 a4 a6 a8 b2 b4 c1 c2 HS H8) as (M & X & HM & HX & H). exists M, X. split; [exact HM|]. split; [exact HX|]. intros x Hx. destruct (H x Hx) as [Hd Hb]. clear H.
  rewrite qdiv_some.
  2:{ intro E. apply Hd. rewrite <- E. unfold Rdiv. ring. }
  cbn [obind]. eexists. split; [reflexivity|].
  match goal with |- Rabs ?a <= _ => match type of Hb with Rabs ?b <= _ => replace a with b; [exact Hb|] end end.
  f_equal; [f_equal; f_equal; unfold Rdiv; ring|]. unfold c1, c2. field. lra.
Qed.
Print Assumptions C125_phi_large.
Theorem C125_phi_small : forall (Fm F3 F5 : R -> R) theta eta, 0 < theta -> fit_defined theta -> Fm eta <> 0 ->
  exists M X, 0 < M /\ 0 < X <= 1 /\ forall x, Rabs x <= X -> exists p, phi_Dandrea Fm F3 F5 x theta eta = Some p /\
    Rabs (p - sqrt theta * (sqrt PI * Fm eta) * x) <= M * Rabs x ^ 3.
Proof.
  intros Fm F3 F5 theta eta Ht (Da & DJ & DK) HF. unfold phi_Dandrea. destruct (dandrea_a theta) as [[[[a2 a4] a6] a8]|] eqn:Ea; [|easy]. pose proof (dandrea_a8 _ _ _ _ _ Ea) as H8.
  destruct (dandrea_J theta) as [J|]; [|easy]. destruct (dandrea_K theta) as [K|]; [|easy]. cbn [obind].
  pose proof PI_RGT_0 as HPI. assert (HsP : 0 < sqrt PI) by now apply sqrt_lt_R0. assert (Hr : 0 < sqrt theta) by now apply sqrt_lt_R0.
  assert (HI : Fm eta * sqrt PI <> 0) by (apply Rmult_integral_contrapositive; split; lra).
  rewrite !qdiv_some by (apply Rmult_integral_contrapositive; split; lra). cbn [obind].
  set (Im := Fm eta * sqrt PI) in *. set (b2 := a2 + _). set (b4 := b2 ^ 2 - _ + _ + _). set (c1 := 1 / 2 * Rpower theta (5 / 2) * (F3 eta * (3 / 4 * sqrt PI))). set (c2 := 3 / 10 * Rpower theta (7 / 2) * (F5 eta * (15 / 8 * sqrt PI))).
  destruct (small_expansion (sqrt theta * Im) a2 a4 a6 a8 b2 b4 c1 c2) as (M & X & HM & HX & H). exists M, X. split; [exact HM|]. split; [exact HX|]. intros x Hx. destruct (H x Hx) as [Hd Hb]. clear H.
  rewrite qdiv_some.
  2:{ intro E. apply Hd. rewrite <- E. unfold Rdiv. ring. }
  cbn [obind]. eexists. split; [reflexivity|].
  match goal with |- Rabs ?a <= _ => match type of Hb with Rabs ?b <= _ => replace a with b; [exact Hb|] end end.
  f_equal; [f_equal; f_equal; unfold Rdiv; ring|]. unfold Im. ring.
Qed.
Print Assumptions C125_phi_small.
Example C125_phi_met : 0 < 1 /\ fit_defined 1 /\ Fbig 0 <> 0.
Proof. split; [lra|]. split; [exact fit_defined_1|]. unfold Fbig. lra. Qed.

(** ** the coefficients J and K of the expansion at the origin *)
(** with the Fermi integrals of order -3/2 and -5/2 the exact values are
    J = sqrt(pi/theta) F_{-3/2} and K = -2 sqrt(pi) theta^{-3/2} F_{-5/2} *)
Lemma quot_expand A B c t al be : 0 <= t <= 1 / 10 -> 0 <= c <= 2 -> 0 <= al -> 0 <= be <= 10 -> Rabs (A - 1) <= al * t ^ 2 -> Rabs (B - (1 + c * t)) <= be * t ^ 2 ->
  9 / 10 <= B /\ Rabs (A / B - (1 - c * t)) <= 2 * (al + be + c ^ 2) * t ^ 2.
Proof.
  intros Ht Hc Hal Hbe HA HB. assert (T2 : 0 <= t ^ 2 <= 1 / 100) by nra. assert (HB' : 9 / 10 <= B) by (apply Rabs_le_between in HB; nra). split; [exact HB'|].
  replace (A / B - (1 - c * t)) with (((A - 1) - (B - (1 + c * t)) * (1 - c * t) + c ^ 2 * t ^ 2) / B) by (field; lra).
  unfold Rdiv. rewrite Rabs_mult, Rabs_inv, (Rabs_pos_eq B) by lra. apply (Rmult_le_reg_r B); [lra|]. rewrite Rmult_assoc, Rinv_l by lra. rewrite Rmult_1_r.
  assert (X : Rabs ((B - (1 + c * t)) * (1 - c * t)) <= be * t ^ 2). { rewrite Rabs_mult. rewrite (Rabs_pos_eq (1 - c * t)) by nra. assert (0 <= Rabs (B - (1 + c * t))) by apply Rabs_pos. assert (0 <= c * t) by nra. nra. }
  assert (Y : Rabs (A - 1 - (B - (1 + c * t)) * (1 - c * t) + c ^ 2 * t ^ 2) <= (al + be + c ^ 2) * t ^ 2).
  { apply Rabs_le. apply Rabs_le_between in HA. apply Rabs_le_between in X. assert (0 <= c ^ 2 * t ^ 2) by (apply Rmult_le_pos; [apply pow2_ge_0|lra]). lra. }
  eapply Rle_trans; [exact Y|]. assert (0 <= (al + be + c ^ 2) * t ^ 2) by (apply Rmult_le_pos; [pose proof (pow2_ge_0 c); lra|lra]). nra.
Qed.
Theorem C125_coefficients_classical : forall theta, 10 <= theta -> exists J K, dandrea_J theta = Some J /\ dandrea_K theta = Some K /\
  Rabs (3 / 4 * theta ^ 2 * J - (1 - sqrt (2 / PI) * Rpower theta (- (3 / 2)))) <= 10 * / theta ^ 3 /\
  Rabs (- (3 / 8) * theta ^ 3 * K - (1 - 7 / 3 * sqrt (2 / PI) * Rpower theta (- (3 / 2)))) <= 20 * / theta ^ 3.
Proof.
  intros theta Ht. set (r := sqrt theta). assert (Hr : 3 <= r) by (unfold r; rewrite <- (sqrt_pow2 3) by lra; apply sqrt_le_1_alt; lra).
  assert (Er : theta = r ^ 2) by (unfold r; symmetry; apply pow2_sqrt; lra). destruct PI_approx as [P1 P2]. destruct sqrt_PI_approx as [S1 S2].
  assert (R1 : 14142 / 10000 <= sqrt 2 <= 14143 / 10000) by (split; [rewrite <- (sqrt_pow2 (14142 / 10000)) by lra|rewrite <- (sqrt_pow2 (14143 / 10000)) by lra]; apply sqrt_le_1_alt; lra).
  rewrite sqrt_div by lra. set (c := sqrt 2 / sqrt PI). assert (Hc : 79 / 100 <= c <= 80 / 100).
  { unfold c. split; [apply (Rmult_le_reg_r (sqrt PI)); [lra|]; replace (sqrt 2 / sqrt PI * sqrt PI) with (sqrt 2) by (field; lra); lra|apply (Rmult_le_reg_r (sqrt PI)); [lra|]; replace (sqrt 2 / sqrt PI * sqrt PI) with (sqrt 2) by (field; lra); lra]. }
  rewrite Rp32m by lra. fold r. set (t := / r ^ 3). assert (r3 : 27 <= r ^ 3) by (apply Rle_trans with (3 ^ 3); [lra|apply pow_incr; lra]).
  assert (Htt : 0 <= t <= 1 / 10). { unfold t. split; [left; apply Rinv_0_lt_compat; lra|]. apply Rle_trans with (/ 27); [apply Rinv_le_contravar; lra|lra]. }
  assert (Eit : / theta ^ 3 = t ^ 2) by (unfold t; rewrite Er; field; lra). rewrite Eit.
  set (i := / theta). assert (Hi : 0 < i <= 1 / 10). { unfold i. split; [apply Rinv_0_lt_compat; lra|]. apply Rle_trans with (/ 10); [apply Rinv_le_contravar; lra|lra]. }
  assert (Ei : t ^ 2 = i ^ 3) by (unfold i; rewrite <- Eit; field; lra).
  assert (I3 : 0 < i ^ 3) by (apply pow_lt; lra). assert (PW : forall k, (0 < k)%nat -> 0 <= i ^ (3 + k) <= 1 / 10 * i ^ 3).
  { intros k Hk. rewrite pow_add. assert (0 <= i ^ k) by (apply pow_le; lra). assert (i ^ k <= 1 / 10). { destruct k as [|k]; [lia|]. cbn [pow]. assert (i ^ k <= 1) by (rewrite <- (pow1 k); apply pow_incr; lra). assert (0 <= i ^ k) by (apply pow_le; lra). nra. } split; nra. }
  pose proof (PW 2%nat ltac:(lia)) as I5. pose proof (PW 3%nat ltac:(lia)) as I6. pose proof (PW 4%nat ltac:(lia)) as I7. pose proof (PW 5%nat ltac:(lia)) as I8. pose proof (PW 6%nat ltac:(lia)) as I9. pose proof (PW 7%nat ltac:(lia)) as I10. cbn [Nat.add] in I5, I6, I7, I8, I9, I10.
  assert (Q2 : 98 / 10 <= PI ^ 2 <= 987 / 100) by nra.
  assert (E15 : Rpower theta (15 / 2) = theta ^ 9 * t). { replace (15 / 2) with (INR 9 + - (3 / 2)) by (cbn; field). rewrite Rpower_plus, Rpower_pow, Rp32m by lra. reflexivity. }
  assert (E17 : Rpower theta (17 / 2) = theta ^ 10 * t). { replace (17 / 2) with (INR 10 + - (3 / 2)) by (cbn; field). rewrite Rpower_plus, Rpower_pow, Rp32m by lra. reflexivity. }
  unfold dandrea_J, dandrea_K. rewrite E15, E17.
  set (AJ := 1 + (- (69147 / 100) * i ^ 3 + 32488 / 10 * i ^ 5 + i ^ 7) / -3202700).
  set (BJ := 1 + c * t + 4 / (3 * -3202700) * (- (462400) * i ^ 3 - 45356 / 10 * i ^ 5 + (32488 / 10 - PI ^ 2 / 6) * i ^ 7 + i ^ 9)).
  set (AK := 1 - (47325 / 100 * i ^ 3 - 48780 / 10000 * i ^ 5 + i ^ 7) * (10 / 23375)).
  set (BK := 1 + 7 / 3 * c * t + 80 / (3 * 23375) * (15173 / 10 * i ^ 3 + 34831 / 100 * i ^ 6 + (- (48780 / 10000) - 3 * PI ^ 2 / 4) * i ^ 8 + i ^ 10)).
  assert (T9 : 0 < theta ^ 9) by (apply pow_lt; lra). assert (T10 : 0 < theta ^ 10) by (apply pow_lt; lra).
  assert (EJn : 1 + 32488 / 10 * theta ^ 2 - 69147 / 100 * theta ^ 4 - 3202700 * theta ^ 7 = -3202700 * theta ^ 7 * AJ) by (unfold AJ, i; field; lra).
  assert (EJd : 1 + (32488 / 10 - PI ^ 2 / 6) * theta ^ 2 - 45356 / 10 * theta ^ 4 - 462400 * theta ^ 6 + (3 * sqrt 2 * -3202700 / (4 * sqrt PI) * (theta ^ 9 * t) + (3 * -3202700 / 4) * theta ^ 9) = 3 * -3202700 / 4 * theta ^ 9 * BJ).
  { unfold BJ, i, c. generalize t. intros t0. field. lra. }
  assert (EKn : 1 - 48780 / 10000 * theta ^ 2 + 47325 / 100 * theta ^ 4 - 23375 / 10 * theta ^ 7 = - (23375 / 10) * theta ^ 7 * AK) by (unfold AK, i; field; lra).
  assert (EKd : 1 + (- (48780 / 10000) - 3 * PI ^ 2 / 4) * theta ^ 2 + 34831 / 100 * theta ^ 4 + 15173 / 10 * theta ^ 7 - 7 * sqrt 2 * - (23375 / 10) / (8 * sqrt PI) * (theta ^ 10 * t) - (3 * - (23375 / 10) / 8) * theta ^ 10 = 3 * (23375 / 10) / 8 * theta ^ 10 * BK).
  { unfold BK, i, c. generalize t. intros t0. field. lra. }
  rewrite EJn, EJd, EKn, EKd.
  destruct (quot_expand AJ BJ c t 1 1) as [BJp HJ]; try lra.
  { rewrite Ei. unfold AJ. apply Rabs_le. lra. }
  { rewrite Ei. unfold BJ. apply Rabs_le. assert (0 <= (32488 / 10 - PI ^ 2 / 6) * i ^ 7 <= 32488 / 10 * i ^ 7) by nra. lra. }
  destruct (quot_expand AK BK (7 / 3 * c) t 1 3) as [BKp HK]; try lra.
  { rewrite Ei. unfold AK. apply Rabs_le. lra. }
  { rewrite Ei. unfold BK. apply Rabs_le. assert (- (13) * i ^ 8 <= (- (48780 / 10000) - 3 * PI ^ 2 / 4) * i ^ 8 <= 0) by nra. lra. }
  rewrite !qdiv_some by (apply Rmult_integral_contrapositive; split; [apply Rmult_integral_contrapositive; split; lra|lra]).
  exists (-3202700 * theta ^ 7 * AJ / (3 * -3202700 / 4 * theta ^ 9 * BJ)), (- (23375 / 10) * theta ^ 7 * AK / (3 * (23375 / 10) / 8 * theta ^ 10 * BK)).
  split; [reflexivity|]. split; [reflexivity|]. split.
  - replace (3 / 4 * theta ^ 2 * (-3202700 * theta ^ 7 * AJ / (3 * -3202700 / 4 * theta ^ 9 * BJ))) with (AJ / BJ) by (field; lra).
    eapply Rle_trans; [exact HJ|]. apply Rmult_le_compat_r; [apply pow2_ge_0|]. nra.
  - replace (- (3 / 8) * theta ^ 3 * (- (23375 / 10) * theta ^ 7 * AK / (3 * (23375 / 10) / 8 * theta ^ 10 * BK))) with (AK / BK) by (field; lra).
    eapply Rle_trans; [exact HK|]. apply Rmult_le_compat_r; [apply pow2_ge_0|]. nra.
Qed.
Print Assumptions C125_coefficients_classical.
Theorem C125_coefficients_degenerate : forall theta, 0 < theta <= 1 / 10 -> exists J K, dandrea_J theta = Some J /\ dandrea_K theta = Some K /\
  Rabs (J - (1 + PI ^ 2 / 6 * theta ^ 2)) <= 10000 * theta ^ 4 /\ Rabs (K - (1 + 3 * PI ^ 2 / 4 * theta ^ 2)) <= 10000 * theta ^ 4.
Proof.
  intros theta Ht. destruct PI_approx as [P1 P2]. destruct sqrt_PI_approx as [S1 S2].
  assert (R1 : 14142 / 10000 <= sqrt 2 <= 14143 / 10000) by (split; [rewrite <- (sqrt_pow2 (14142 / 10000)) by lra|rewrite <- (sqrt_pow2 (14143 / 10000)) by lra]; apply sqrt_le_1_alt; lra).
  set (c := sqrt 2 / sqrt PI). assert (Hc : 79 / 100 <= c <= 80 / 100).
  { unfold c. split; [apply (Rmult_le_reg_r (sqrt PI)); [lra|]; replace (sqrt 2 / sqrt PI * sqrt PI) with (sqrt 2) by (field; lra); lra|apply (Rmult_le_reg_r (sqrt PI)); [lra|]; replace (sqrt 2 / sqrt PI * sqrt PI) with (sqrt 2) by (field; lra); lra]. }
  assert (Q2 : 98 / 10 <= PI ^ 2 <= 987 / 100) by nra.
  assert (PW : forall k, 0 <= theta ^ (4 + k) <= (1 / 10) ^ k * theta ^ 4).
  { intros k. rewrite pow_add. assert (0 <= theta ^ k <= (1 / 10) ^ k) by (split; [apply pow_le; lra|apply pow_incr; lra]). assert (0 < theta ^ 4) by (apply pow_lt; lra). split; nra. }
  pose proof (PW 2%nat) as I6. pose proof (PW 3%nat) as I7. pose proof (PW 4%nat) as I8. pose proof (PW 5%nat) as I9. pose proof (PW 6%nat) as I10. cbn [Nat.add] in I6, I7, I8, I9, I10.
  assert (I4 : 0 < theta ^ 4) by (apply pow_lt; lra). assert (I2 : 0 < theta ^ 2 <= 1 / 100) by nra. assert (I4' : theta ^ 4 <= 1 / 100 * theta ^ 2) by (replace (theta ^ 4) with (theta ^ 2 * theta ^ 2) by ring; nra).
  assert (Hp : forall m, 0 < Rpower theta (INR m + / 2) <= theta ^ m). { intros m. split; [apply exp_pos|]. rewrite Rpower_plus, Rpower_pow, Rpower_sqrt by lra. assert (sqrt theta <= 1) by (rewrite <- sqrt_1; apply sqrt_le_1_alt; lra). pose proof (sqrt_pos theta). assert (0 < theta ^ m) by (apply pow_lt; lra). nra. }
  assert (E15 : 0 < Rpower theta (15 / 2) <= theta ^ 7) by (replace (15 / 2) with (INR 7 + / 2) by (cbn; field); apply Hp).
  assert (E17 : 0 < Rpower theta (17 / 2) <= theta ^ 8) by (replace (17 / 2) with (INR 8 + / 2) by (cbn; field); apply Hp).
  unfold dandrea_J, dandrea_K. set (p := Rpower theta (15 / 2)) in *. set (q := Rpower theta (17 / 2)) in *.
  replace (3 * sqrt 2 * -3202700 / (4 * sqrt PI) * p) with (- (3 * 3202700 / 4 * (c * p))) by (unfold c; field; lra).
  replace (7 * sqrt 2 * - (23375 / 10) / (8 * sqrt PI) * q) with (- (7 * (23375 / 10) / 8 * (c * q))) by (unfold c; field; lra).
  assert (Hcp : 0 <= c * p <= 8 / 10 * theta ^ 7) by nra. assert (Hcq : 0 <= c * q <= 8 / 10 * theta ^ 8) by nra.
  set (DJ := 1 + (32488 / 10 - PI ^ 2 / 6) * theta ^ 2 - 45356 / 10 * theta ^ 4 - 462400 * theta ^ 6 + (- (3 * 3202700 / 4 * (c * p)) + 3 * -3202700 / 4 * theta ^ 9)).
  set (DK := 1 + (- (48780 / 10000) - 3 * PI ^ 2 / 4) * theta ^ 2 + 34831 / 100 * theta ^ 4 + 15173 / 10 * theta ^ 7 - - (7 * (23375 / 10) / 8 * (c * q)) - 3 * - (23375 / 10) / 8 * theta ^ 10).
  replace ((1 / 10) ^ 2) with (1 / 100) in * by field. replace ((1 / 10) ^ 3) with (1 / 1000) in * by field. replace ((1 / 10) ^ 4) with (1 / 10000) in * by field. replace ((1 / 10) ^ 5) with (1 / 100000) in * by field. replace ((1 / 10) ^ 6) with (1 / 1000000) in * by field.
  assert (DJ1 : 1 + 3000 * theta ^ 2 <= DJ + 9321 * theta ^ 4 + 0 * theta). { unfold DJ. assert (3246 * theta ^ 2 <= (32488 / 10 - PI ^ 2 / 6) * theta ^ 2) by nra. lra. }
  assert (DJ2 : DJ <= 1 + 3249 * theta ^ 2). { unfold DJ. assert ((32488 / 10 - PI ^ 2 / 6) * theta ^ 2 <= 3249 * theta ^ 2) by nra. lra. }
  assert (DJp : 1 <= DJ) by lra.
  assert (DK1 : 8 / 10 <= DK). { unfold DK. assert (- (13) * theta ^ 2 <= (- (48780 / 10000) - 3 * PI ^ 2 / 4) * theta ^ 2) by nra. lra. }
  rewrite !qdiv_some by lra. eexists. eexists. split; [reflexivity|]. split; [reflexivity|]. split.
  - set (N := 1 + 32488 / 10 * theta ^ 2 - 69147 / 100 * theta ^ 4 - 3202700 * theta ^ 7). replace (N / DJ - (1 + PI ^ 2 / 6 * theta ^ 2)) with ((N - DJ * (1 + PI ^ 2 / 6 * theta ^ 2)) / DJ) by (field; lra).
    set (X := N - DJ * (1 + PI ^ 2 / 6 * theta ^ 2)). unfold Rdiv. rewrite Rabs_mult, Rabs_inv, (Rabs_pos_eq DJ) by lra. apply (Rmult_le_reg_r DJ); [lra|]. rewrite Rmult_assoc, Rinv_l by lra. rewrite Rmult_1_r.
    apply Rle_trans with (10000 * theta ^ 4); [|nra].
    unfold X. set (w := PI ^ 2 / 6) in *. assert (Hw : 16 / 10 <= w <= 165 / 100) by (unfold w; lra).
    set (rest := - (45356 / 10) * theta ^ 4 - 462400 * theta ^ 6 + (- (3 * 3202700 / 4 * (c * p)) + 3 * -3202700 / 4 * theta ^ 9)).
    assert (Hrest : - 11400 * theta ^ 4 <= rest <= 0) by (unfold rest; lra).
    replace (N - DJ * (1 + w * theta ^ 2)) with (- (69147 / 100) * theta ^ 4 - 3202700 * theta ^ 7 - rest * (1 + w * theta ^ 2) - (32488 / 10 - w) * w * theta ^ 4) by (unfold N, DJ, rest; ring).
    assert (We : 0 <= w * theta ^ 2 <= 17 / 1000) by nra. assert (R2 : - 11700 * theta ^ 4 <= rest * (1 + w * theta ^ 2) <= 0). { assert (0 <= - rest * (w * theta ^ 2) <= - rest * (17 / 1000)) by (split; [apply Rmult_le_pos; lra|apply Rmult_le_compat_l; lra]). lra. } assert (R3 : 5000 * theta ^ 4 <= (32488 / 10 - w) * w * theta ^ 4 <= 5400 * theta ^ 4) by (split; nra).
    apply Rabs_le. lra.
  - set (N := 1 - 48780 / 10000 * theta ^ 2 + 47325 / 100 * theta ^ 4 - 23375 / 10 * theta ^ 7). replace (N / DK - (1 + 3 * PI ^ 2 / 4 * theta ^ 2)) with ((N - DK * (1 + 3 * PI ^ 2 / 4 * theta ^ 2)) / DK) by (field; lra).
    set (X := N - DK * (1 + 3 * PI ^ 2 / 4 * theta ^ 2)). unfold Rdiv. rewrite Rabs_mult, Rabs_inv, (Rabs_pos_eq DK) by lra. apply (Rmult_le_reg_r DK); [lra|]. rewrite Rmult_assoc, Rinv_l by lra. rewrite Rmult_1_r.
    apply Rle_trans with (8000 * theta ^ 4); [|nra].
    unfold X. set (w := 3 * PI ^ 2 / 4) in *. assert (Hw : 73 / 10 <= w <= 75 / 10) by (unfold w; lra).
    set (rest := 34831 / 100 * theta ^ 4 + 15173 / 10 * theta ^ 7 - - (7 * (23375 / 10) / 8 * (c * q)) - 3 * - (23375 / 10) / 8 * theta ^ 10).
    assert (Hrest : 0 <= rest <= 400 * theta ^ 4) by (unfold rest; lra).
    replace (N - DK * (1 + w * theta ^ 2)) with (47325 / 100 * theta ^ 4 - 23375 / 10 * theta ^ 7 - rest * (1 + w * theta ^ 2) - (- (48780 / 10000) - w) * w * theta ^ 4) by (unfold N, DK, rest; ring).
    assert (We : 0 <= w * theta ^ 2 <= 75 / 1000) by nra. assert (R2 : 0 <= rest * (1 + w * theta ^ 2) <= 500 * theta ^ 4). { assert (0 <= rest * (w * theta ^ 2) <= rest * (75 / 1000)) by (split; [apply Rmult_le_pos; lra|apply Rmult_le_compat_l; lra]). lra. } assert (R3 : - (100) * theta ^ 4 <= (- (48780 / 10000) - w) * w * theta ^ 4 <= 0) by (split; nra).
    apply Rabs_le. lra.
Qed.
Print Assumptions C125_coefficients_degenerate.

(** ** the dielectric function *)
Lemma theta_pos u n T : 0 < n -> 0 < T -> 0 < T * kB u / fermi_energy u n.
Proof.
  intros Hn HT. rewrite fermi_energy_kin. unfold kin_energy. pose proof (kf_pos n) as Hf. cpos u. assert (0 < fermi_wavenumber n ^ 2) by (apply pow_lt; lra). assert (0 < hbar u ^ 2) by (apply pow_lt; lra).
  apply Rdiv_lt_0_compat; [nra|]. apply Rdiv_lt_0_compat; nra.
Qed.
Lemma dbl_pos u T : 0 < T -> 0 < therm_de_broglie_wl u T /\ m_e u * (kB u * T) * therm_de_broglie_wl u T ^ 2 = 2 * PI * hbar u ^ 2.
Proof.
  intros HT. unfold therm_de_broglie_wl. cpos u. pose proof PI_RGT_0. assert (0 < m_e u * kB u * T) by (apply Rmult_lt_0_compat; [apply Rmult_lt_0_compat|]; lra).
  assert (0 < 2 * PI / (m_e u * kB u * T)) by (apply Rdiv_lt_0_compat; lra). split; [apply Rmult_lt_0_compat; [lra|now apply sqrt_lt_R0]|].
  rewrite Rpow_mult_distr, pow2_sqrt by lra. field. repeat split; lra.
Qed.
Lemma kf_r_lambda u n T : 0 < n -> 0 < T ->
  fermi_wavenumber n * sqrt (T * kB u / fermi_energy u n) * therm_de_broglie_wl u T = 2 * sqrt PI.
Proof.
  intros Hn HT. pose proof (theta_pos u n T Hn HT) as Ht. destruct (dbl_pos u T HT) as [Hl El]. pose proof (kf_pos n) as Hf. pose proof PI_RGT_0. assert (0 < sqrt PI) by now apply sqrt_lt_R0.
  pose proof (sqrt_pos (T * kB u / fermi_energy u n)). apply Rsqr_inj; [apply Rmult_le_pos; [apply Rmult_le_pos|]; lra|lra|]. rewrite !Rsqr_mult, !Rsqr_sqrt by lra. unfold Rsqr.
  rewrite fermi_energy_kin. unfold kin_energy. cpos u. set (f := fermi_wavenumber n) in *. set (l := therm_de_broglie_wl u T) in *.
  replace (f * f * (T * kB u / (hbar u ^ 2 * f ^ 2 / (2 * m_e u))) * (l * l)) with (m_e u * (kB u * T) * l ^ 2 * 2 / hbar u ^ 2) by (field; split; lra).
  rewrite El. field. lra.
Qed.
(** the reduced density the inverse Fermi integral is taken at is half of n lambda^3 *)
Lemma reduced u n T : 0 < n -> 0 < T -> 2 / 3 * Rpower (T * kB u / fermi_energy u n) (- (3 / 2)) / (sqrt PI / 2) = degeneracy_param u n T / 2.
Proof.
  intros Hn HT. pose proof (theta_pos u n T Hn HT) as Ht. rewrite Rp32m by exact Ht. unfold degeneracy_param. destruct (dbl_pos u T HT) as [Hl _]. pose proof (kf_r_lambda u n T Hn HT) as E. pose proof (kf_pos n) as Hf. pose proof (cube_kf n Hn) as E3.
  pose proof PI_RGT_0. assert (Hs : 0 < sqrt PI) by now apply sqrt_lt_R0. assert (Es : sqrt PI ^ 2 = PI) by (apply pow2_sqrt; lra). assert (Hr : 0 < sqrt (T * kB u / fermi_energy u n)) by now apply sqrt_lt_R0.
  set (r := sqrt (T * kB u / fermi_energy u n)) in *. set (l := therm_de_broglie_wl u T) in *. set (f := fermi_wavenumber n) in *. set (s := sqrt PI) in *. 
  assert (El : l = 2 * s / (f * r)) by (rewrite <- E; field; lra). rewrite El. rewrite <- Es in E3. replace n with (f ^ 3 / (3 * s ^ 4)) by (rewrite E3; field; lra). field. repeat split; lra.
Qed.
Lemma alpha_rs u n : bohr u -> 0 < n -> Rpower (4 / (9 * PI)) (1 / 3) * (wiegner_seitz_radius n / a_0 u) = / (fermi_wavenumber n * a_0 u).
Proof.
  intros Hb Hn. pose proof (kF_rs u n Hn) as E. pose proof (kf_pos n) as Hf. pose proof PI_RGT_0. pose proof (a_0_pos u) as Ha.
  assert (P : Rpower (4 / (9 * PI)) (1 / 3) * Rpower (9 * PI / 4) (1 / 3) = 1).
  { rewrite Rpower_mult_distr by (apply Rdiv_lt_0_compat; lra). replace (4 / (9 * PI) * (9 * PI / 4)) with 1 by (field; lra). apply Rpower_1_l. }
  rewrite <- E in P. apply (Rmult_eq_reg_r (fermi_wavenumber n * a_0 u)); [|apply Rmult_integral_contrapositive; split; lra]. rewrite Rinv_l by (apply Rmult_integral_contrapositive; split; lra).
  eapply eq_trans; [|exact P]. field. lra.
Qed.

Lemma V_neq u k : 0 < k -> coulomb_k u (-1) (-1) k <> 0.
Proof.
  intros Hk. unfold coulomb_k. cpos u. assert (0 < k ^ 2) by (apply pow_lt; lra). assert (0 < e_ch u ^ 2) by (apply pow_lt; lra). apply Rgt_not_eq. apply Rdiv_lt_0_compat; [|assumption]. apply Rmult_lt_0_compat; [apply Rdiv_lt_0_compat; lra|lra].
Qed.
(** the dielectric function in terms of the kernel *)
Lemma eps_Dandrea u Fm F3 F5 inv k E T n p m : bohr u -> 0 < k -> 0 < n -> 0 < T ->
  let theta := T * kB u / fermi_energy u n in let eta := inv (degeneracy_param u n T / 2) in
  let Q := k / (2 * fermi_wavenumber n) in let y := E * m_e u / (hbar u ^ 2 * k * fermi_wavenumber n) in
  phi_Dandrea Fm F3 F5 (y + Q) theta eta = Some p -> phi_Dandrea Fm F3 F5 (y - Q) theta eta = Some m ->
  exists e, dielectric_function_Dandrea u Fm F3 F5 inv k E T n = Some e /\ fst e = 1 - / (fermi_wavenumber n * a_0 u) / (4 * PI * Q ^ 3) * (m - p)
    /\ snd e = - imag_Dandrea theta Q (wiegner_seitz_radius n / a_0 u) (E / (4 * fermi_energy u n)) eta (Rpower (4 / (9 * PI)) (1 / 3)).
Proof.
  intros Hb Hk Hn HT theta eta Q y Hp Hm. unfold dielectric_function_Dandrea, xi0_Dandrea, real_Dandrea. rewrite (reduced u n T Hn HT). fold theta. fold eta. fold Q.
  pose proof (kf_pos n) as Hf. cpos u. pose proof (V_neq u k Hk) as HV.
  assert (Ey : E / (4 * fermi_energy u n) / Q = y). { unfold y, Q. rewrite fermi_energy_kin. unfold kin_energy. field. repeat split; lra. }
  rewrite Ey, Hp, Hm. cbn [obind]. eexists. split; [reflexivity|]. set (V := coulomb_k u (-1) (-1) k) in *.
  assert (HQ : 0 < Q) by (unfold Q; apply Rdiv_lt_0_compat; lra). pose proof PI_RGT_0. split.
  - rewrite <- (alpha_rs u n Hb Hn). cbn. field. repeat split; lra.
  - cbn. field. repeat split; lra.
Qed.

(** ** high energies *)
(** The mean square velocity of the free electron gas: 3 kB T / m F_(3/2) / F_(1/2), the
    latter half the density in units of the de Broglie wavelength. *)
Definition mean_v2 (u : consts) (F3 : R -> R) (T n eta : R) : R := 3 * kB u * T / m_e u * F3 eta / (degeneracy_param u n T / 2).
Theorem C125_bohm_gross : forall u (Fm F3 F5 inv : R -> R) k T n, bohr u -> 0 < k -> 0 < n -> 0 < T ->
  fit_defined (T * kB u / fermi_energy u n) -> let eta := inv (degeneracy_param u n T / 2) in Fm eta <> 0 ->
  exists M E0, 0 < M /\ 0 < E0 /\ forall E, E0 <= E -> exists e, dielectric_function_Dandrea u Fm F3 F5 inv k E T n = Some e /\
    Rabs (fst e - (1 - (hbar u * plasma_frequency u n / E) ^ 2 * (1 + (hbar u * k) ^ 2 * mean_v2 u F3 T n eta / E ^ 2 + kin_energy u k ^ 2 / E ^ 2))) <= M / E ^ 6.
Proof.
  intros u Fm F3 F5 inv k T n Hb Hk Hn HT HD eta HF. set (theta := T * kB u / fermi_energy u n) in *. pose proof (theta_pos u n T Hn HT) as Ht. fold theta in Ht.
  destruct (C125_phi_large Fm F3 F5 theta eta Ht HD HF) as (M & X & HM & HX & H).
  set (f x := match phi_Dandrea Fm F3 F5 x theta eta with Some p => p | None => 0 end).
  set (c1 := 1 / 2 * (Rpower theta (5 / 2) * (3 / 4 * sqrt PI * F3 eta))). set (c2 := 3 / 10 * (Rpower theta (7 / 2) * (15 / 8 * sqrt PI * F5 eta))).
  assert (Hf' : forall x, X <= x -> phi_Dandrea Fm F3 F5 x theta eta = Some (f x) /\ Rabs (f x - 2 / 3 * (/ x + c1 / x ^ 3 + c2 / x ^ 5)) <= M / x ^ 7).
  { intros x Hx. destruct (H x Hx) as (p & Hp & B). unfold f. rewrite Hp. split; [reflexivity|].
    replace (2 / 3 * (/ x + c1 / x ^ 3 + c2 / x ^ 5)) with (2 / x * (1 / 3) + 2 / (3 * x ^ 3) * (Rpower theta (5 / 2) * (3 / 4 * sqrt PI * F3 eta) / 2)
               + 2 / (5 * x ^ 5) * (Rpower theta (7 / 2) * (15 / 8 * sqrt PI * F5 eta) / 2)) by (unfold c1, c2; field; lra). exact B. }
  pose proof (kf_pos n) as Hf. cpos u. pose proof PI_RGT_0 as HPI.
  set (Q := k / (2 * fermi_wavenumber n)). assert (HQ : 0 < Q) by (unfold Q; apply Rdiv_lt_0_compat; lra).
  destruct (diff_expansion f c1 c2 M X Q HM HX HQ (fun x Hx => proj2 (Hf' x Hx))) as (M' & HM' & HD').
  assert (Hh2 : 0 < hbar u ^ 2) by (apply pow_lt; lra).
  set (w := m_e u / (hbar u ^ 2 * k * fermi_wavenumber n)). assert (Hw : 0 < w) by (unfold w; apply Rdiv_lt_0_compat; [lra|]; apply Rmult_lt_0_compat; [apply Rmult_lt_0_compat|]; lra).
  set (A := / (fermi_wavenumber n * a_0 u) / (4 * PI * Q ^ 3)).
  assert (HA : 0 < A). { unfold A. assert (0 < Q ^ 3) by (apply pow_lt; lra). apply Rdiv_lt_0_compat; [apply Rinv_0_lt_compat; nra|]. apply Rmult_lt_0_compat; lra. }
  assert (Hw6 : 0 < w ^ 6) by (apply pow_lt; lra).
  exists (A * (M' / w ^ 6)), ((2 * Q + 2 * X) / w).
  split; [apply Rmult_lt_0_compat; [lra|apply Rdiv_lt_0_compat; lra]|]. split; [apply Rdiv_lt_0_compat; lra|].
  intros E HE. assert (Hy : 2 * Q + 2 * X <= E * w). { apply (Rmult_le_compat_r w) in HE; [|lra]. unfold Rdiv in HE. rewrite Rmult_assoc, Rinv_l in HE; lra. }
  assert (HE0 : 0 < E). { eapply Rlt_le_trans; [|exact HE]. apply Rdiv_lt_0_compat; lra. }
  assert (Ey : E * m_e u / (hbar u ^ 2 * k * fermi_wavenumber n) = E * w) by (unfold w, Rdiv; ring).
  destruct (eps_Dandrea u Fm F3 F5 inv k E T n (f (E * w + Q)) (f (E * w - Q)) Hb Hk Hn HT) as (e & He & Hre & _).
  { rewrite Ey. apply Hf'. fold Q. lra. }
  { rewrite Ey. apply Hf'. fold Q. lra. }
  exists e. split; [exact He|]. rewrite Hre. fold Q. fold A. pose proof (HD' (E * w) Hy) as B.
  assert (HEw : 0 < E * w) by (now apply Rmult_lt_0_compat).
  assert (Ewp : (hbar u * plasma_frequency u n / E) ^ 2 = A * (4 / 3 * Q / (E * w) ^ 2)).
  { unfold Rdiv at 1. rewrite Rpow_mult_distr, (wp_chi u k n Hb Hk Hn). unfold chi2, zk, A, w, Q. field. repeat split; lra. }
  rewrite Ewp.
  assert (Ek : kin_energy u k ^ 2 / E ^ 2 = Q ^ 2 / (E * w) ^ 2). { unfold kin_energy, Q, w. field. repeat split; lra. }
  assert (Ev : (hbar u * k) ^ 2 * mean_v2 u F3 T n eta / E ^ 2 = 3 * c1 / (E * w) ^ 2).
  { unfold mean_v2. rewrite <- (reduced u n T Hn HT). fold theta. unfold c1. rewrite Rp32m, Rp52 by exact Ht. assert (Hr : 0 < sqrt theta) by now apply sqrt_lt_R0. assert (Er : sqrt theta ^ 2 = theta) by (apply pow2_sqrt; lra).
    assert (HsP : 0 < sqrt PI) by now apply sqrt_lt_R0. assert (EkT : kB u * T = sqrt theta ^ 2 * fermi_energy u n). { rewrite Er. unfold theta. rewrite fermi_energy_kin. unfold kin_energy. field. repeat split; lra. }
    replace (3 * kB u * T) with (3 * (kB u * T)) by ring. rewrite EkT. rewrite fermi_energy_kin. unfold kin_energy, w. set (r := sqrt theta) in *. set (s := sqrt PI) in *. clearbody r s. field. repeat split; lra. }
  rewrite Ek, Ev. replace (1 - A * (f (E * w - Q) - f (E * w + Q)) - (1 - A * (4 / 3 * Q / (E * w) ^ 2) * (1 + 3 * c1 / (E * w) ^ 2 + Q ^ 2 / (E * w) ^ 2)))
    with (A * - (f (E * w - Q) - f (E * w + Q) - 4 / 3 * (Q / (E * w) ^ 2 + (Q ^ 3 + 3 * c1 * Q) / (E * w) ^ 4))) by (field; lra).
  rewrite Rabs_mult, Rabs_Ropp, (Rabs_pos_eq A) by lra. replace (A * (M' / w ^ 6) / E ^ 6) with (A * (M' / (E * w) ^ 6)) by (field; lra). apply Rmult_le_compat_l; lra.
Qed.
Print Assumptions C125_bohm_gross.

(** ** the static long wave limit *)
Theorem C125_screening : forall u (Fm F3 F5 inv : R -> R) T n, bohr u -> 0 < n -> 0 < T ->
  fit_defined (T * kB u / fermi_energy u n) -> let eta := inv (degeneracy_param u n T / 2) in Fm eta <> 0 ->
  exists M k0, 0 < M /\ 0 < k0 /\ forall k, 0 < k <= k0 -> exists e, dielectric_function_Dandrea u Fm F3 F5 inv k 0 T n = Some e /\ snd e = 0 /\
    Rabs (k ^ 2 * (fst e - 1) - e_ch u ^ 2 / (eps0 u * kB u * T) * (2 / therm_de_broglie_wl u T ^ 3) * Fm eta) <= M * k ^ 2.
Proof.
  intros u Fm F3 F5 inv T n Hb Hn HT HD eta HF. set (theta := T * kB u / fermi_energy u n) in *. pose proof (theta_pos u n T Hn HT) as Ht. fold theta in Ht.
  destruct (C125_phi_small Fm F3 F5 theta eta Ht HD HF) as (M & X & HM & HX & H). pose proof (kf_pos n) as Hf. cpos u. pose proof PI_RGT_0 as HPI.
  set (f := fermi_wavenumber n) in *. set (A := / (f * a_0 u)). assert (HA : 0 < A) by (unfold A; apply Rinv_0_lt_compat; apply Rmult_lt_0_compat; lra).
  exists (A / (4 * PI) * (8 * f ^ 3) * (2 * (M / (8 * f ^ 3)))), (2 * f * X).
  assert (Hf3 : 0 < f ^ 3) by (apply pow_lt; lra).
  split. { apply Rmult_lt_0_compat; [apply Rmult_lt_0_compat; [apply Rdiv_lt_0_compat; lra|lra]|]. apply Rmult_lt_0_compat; [lra|]. apply Rdiv_lt_0_compat; lra. }
  split; [apply Rmult_lt_0_compat; lra|]. intros k [Hk Hk0]. set (Q := k / (2 * f)). assert (HQ : 0 < Q) by (unfold Q; apply Rdiv_lt_0_compat; lra).
  assert (HQX : Q <= X) by (unfold Q; apply Rle_div_l; lra).
  destruct (H Q) as (p & Hp & Bp); [rewrite Rabs_pos_eq; lra|]. destruct (H (- Q)) as (m & Hm & Bm); [rewrite Rabs_Ropp, Rabs_pos_eq; lra|].
  rewrite Rabs_Ropp in Bm. rewrite (Rabs_pos_eq Q) in Bp, Bm by lra.
  destruct (eps_Dandrea u Fm F3 F5 inv k 0 T n p m Hb Hk Hn HT) as (e & He & Hre & Him).
  { replace (0 * m_e u / _ + _) with Q by (unfold Q, f, Rdiv; ring). exact Hp. }
  { replace (0 * m_e u / _ - _) with (- Q) by (unfold Q, f, Rdiv; ring). exact Hm. }
  exists e. split; [exact He|]. split.
  - rewrite Him. unfold imag_Dandrea. replace (0 / (4 * fermi_energy u n) / (k / (2 * fermi_wavenumber n)) - k / (2 * fermi_wavenumber n)) with (- Q) by (unfold Q, f, Rdiv; ring).
    replace (0 / (4 * fermi_energy u n) / (k / (2 * fermi_wavenumber n)) + k / (2 * fermi_wavenumber n)) with Q by (unfold Q, f, Rdiv; ring).
    replace ((- Q) ^ 2) with (Q ^ 2) by ring. set (z := exp _). assert (0 < z) by apply exp_pos. replace ((1 + z) / (1 + z)) with 1 by (field; lra). rewrite ln_1. ring.
  - rewrite Hre. fold f. fold Q. fold A. destruct (dbl_pos u T HT) as [Hl El]. pose proof (kf_r_lambda u n T Hn HT) as Er. fold f theta in Er. set (l := therm_de_broglie_wl u T) in *.
    assert (Hs : 0 < sqrt PI) by now apply sqrt_lt_R0. assert (Es : sqrt PI ^ 2 = PI) by (apply pow2_sqrt; lra). assert (Hr : 0 < sqrt theta) by now apply sqrt_lt_R0. set (r := sqrt theta) in *. set (s := sqrt PI) in *.
    assert (Elim : e_ch u ^ 2 / (eps0 u * kB u * T) * (2 / l ^ 3) * Fm eta = k ^ 2 * (A / (4 * PI * Q ^ 3) * (2 * (r * (s * Fm eta) * Q)))).
    { assert (Hkt : kB u * T = 2 * PI * hbar u ^ 2 / (m_e u * l ^ 2)) by (rewrite <- El; field; lra). replace (eps0 u * kB u * T) with (eps0 u * (kB u * T)) by ring. rewrite Hkt.
      assert (Hrl : r = 2 * s / (f * l)) by (rewrite <- Er; field; lra). rewrite Hrl. unfold A, Q. rewrite Hb. rewrite <- Es. field. repeat split; lra. }
    rewrite Elim. replace (k ^ 2 * (1 - A / (4 * PI * Q ^ 3) * (m - p) - 1) - k ^ 2 * (A / (4 * PI * Q ^ 3) * (2 * (r * (s * Fm eta) * Q))))
      with (k ^ 2 * (A / (4 * PI * Q ^ 3)) * ((p - r * (s * Fm eta) * Q) + - (m - r * (s * Fm eta) * - Q))) by ring.
    assert (HQ3 : 0 < Q ^ 3) by (apply pow_lt; lra). assert (HW : 0 < A / (4 * PI * Q ^ 3)) by (apply Rdiv_lt_0_compat; [lra|]; apply Rmult_lt_0_compat; lra).
    rewrite Rabs_mult, Rabs_pos_eq by (apply Rmult_le_pos; [apply pow2_ge_0|lra]).
    replace (A / (4 * PI) * (8 * f ^ 3) * (2 * (M / (8 * f ^ 3))) * k ^ 2) with (k ^ 2 * (A / (4 * PI * Q ^ 3)) * (2 * (M * Q ^ 3))) by (unfold Q; field; repeat split; lra).
    apply Rmult_le_compat_l; [apply Rmult_le_pos; [apply pow2_ge_0|lra]|]. eapply Rle_trans; [apply Rabs_triang|]. rewrite Rabs_Ropp. lra.
Qed.
Print Assumptions C125_screening.
(** This is the square of the screening length of ipd.py at the same chemical potential. *)
Theorem C125_screening_ipd : forall u T eta, 0 < T -> exists kappa F, screening_at u T eta = Some kappa /\ 0 < kappa /\ fermi_neg12_antia eta = Some F /\
  kappa ^ 2 = e_ch u ^ 2 / (eps0 u * kB u * T) * (2 / therm_de_broglie_wl u T ^ 3) * F.
Proof.
  intros u T eta HT. unfold screening_at. cbv zeta. destruct (C122_positive eta fermi_neg12_antia (or_introl eq_refl)) as (F & -> & HF). cbn [obind].
  assert (E : sqrt (2 * PI * 1 * hbar u ^ 2 / (m_e u * 1 * kB u * T)) = therm_de_broglie_wl u T).
  { destruct (dbl_pos u T HT) as [Hl El]. cpos u. rewrite <- (sqrt_pow2 (therm_de_broglie_wl u T)) by lra. f_equal. replace (2 * PI * 1 * hbar u ^ 2) with (2 * PI * hbar u ^ 2) by ring. rewrite <- El. field. repeat split; lra. }
  rewrite E. replace ((-1 * e_ch u) ^ 2) with (e_ch u ^ 2) by ring. destruct (dbl_pos u T HT) as [Hl _]. cpos u.
  assert (P : 0 < e_ch u ^ 2 / (eps0 u * kB u * T) * (2 / therm_de_broglie_wl u T ^ 3) * F).
  { apply Rmult_lt_0_compat; [|exact HF]. apply Rmult_lt_0_compat; apply Rdiv_lt_0_compat; try lra; try (apply pow_lt; lra). apply Rmult_lt_0_compat; [apply Rmult_lt_0_compat|]; lra. }
  rewrite sqrto_some by lra. eexists _, F. split; [reflexivity|]. split; [now apply sqrt_lt_R0|]. split; [reflexivity|]. apply pow2_sqrt. lra.
Qed.
Print Assumptions C125_screening_ipd.

(** ** the pole of J *)
(** J is a quotient of polynomials whose denominator vanishes at a degeneracy of about
    0.2516 where the numerator does not. *)
Definition Jn (t : R) : R := 1 + 32488 / 10 * t ^ 2 - 69147 / 100 * t ^ 4 - 3202700 * t ^ 7.
(** with t = s^2 *)
Definition Jd (s : R) : R := 1 + (32488 / 10 - PI ^ 2 / 6) * s ^ 4 - 45356 / 10 * s ^ 8 - 462400 * s ^ 12 + (3 * sqrt 2 * -3202700 / (4 * sqrt PI) * s ^ 15 + (3 * -3202700 / 4) * s ^ 18).
Lemma J_form s : 0 < s -> dandrea_J (s ^ 2) = qdiv (Jn (s ^ 2)) (Jd s).
Proof.
  intros Hs. unfold dandrea_J, Jn, Jd. f_equal. assert (E : Rpower (s ^ 2) (15 / 2) = s ^ 15).
  { change 15%nat with (2 * 7 + 1)%nat. rewrite <- (sqrt_pow2 s) at 2 by lra. rewrite <- Rpower_half_odd by (apply pow_lt; lra). f_equal. cbn. lra. }
  rewrite E. rewrite <- !pow_mult. reflexivity.
Qed.
Lemma s2P : 797 / 1000 < sqrt 2 / sqrt PI < 798 / 1000.
Proof.
  rewrite <- sqrt_div_alt by exact PI_RGT_0. pose proof PI_approx as [H1 H2]. pose proof PI_RGT_0.
  assert (B : (797 / 1000) * (797 / 1000) < 2 / PI < (798 / 1000) * (798 / 1000)).
  { split; apply (Rmult_lt_reg_r PI); try lra; (replace (2 / PI * PI) with 2 by (field; lra)); lra. }
  split; [rewrite <- (sqrt_square (797 / 1000)) by lra|rewrite <- (sqrt_square (798 / 1000)) by lra]; apply sqrt_lt_1_alt; lra.
Qed.
Lemma Jd_ends : 0 < Jd (5015 / 10000) /\ Jd (5017 / 10000) < 0.
Proof.
  pose proof s2P as [S1 S2]. pose proof PI_approx as [H1 H2]. assert (HP : 986 / 100 <= PI ^ 2 <= 988 / 100) by (split; nra).
  assert (E : forall s, Jd s = 1 + (32488 / 10 - PI ^ 2 / 6) * s ^ 4 - 45356 / 10 * s ^ 8 - 462400 * s ^ 12 + (3 / 4 * -3202700 * (sqrt 2 / sqrt PI) * s ^ 15 + (3 * -3202700 / 4) * s ^ 18)).
  { intros s. unfold Jd. assert (0 < sqrt PI) by (apply sqrt_lt_R0; lra). field. lra. }
  rewrite !E. split; lra.
Qed.
Lemma pow_diff_ge x y lo n : 0 < lo -> lo <= x <= y -> INR n * lo ^ (n - 1) * (y - x) <= y ^ n - x ^ n.
Proof.
  intros Hl Hx. induction n as [|n IH]; [cbn; lra|]. destruct n as [|n]; [cbn; lra|].
  replace (y ^ S (S n) - x ^ S (S n)) with (y * (y ^ S n - x ^ S n) + x ^ S n * (y - x)) by (cbn [pow]; ring).
  replace (S n - 1)%nat with n in IH by lia. replace (S (S n) - 1)%nat with (S n) by lia.
  replace (INR (S (S n)) * lo ^ S n * (y - x)) with (lo * (INR (S n) * lo ^ n * (y - x)) + lo ^ S n * (y - x)) by (rewrite (S_INR (S n)); cbn [pow]; ring).
  assert (P : 0 <= lo ^ n) by (apply pow_le; lra). assert (Q : lo ^ S n <= x ^ S n) by (apply pow_incr; lra).
  assert (0 <= INR (S n) * lo ^ n * (y - x)) by (apply Rmult_le_pos; [apply Rmult_le_pos; [apply pos_INR|exact P]|lra]).
  apply Rplus_le_compat; [|apply Rmult_le_compat_r; lra]. apply Rmult_le_compat; lra.
Qed.
Lemma pow_diff_le x y hi n : 0 <= x <= y -> y <= hi -> y ^ n - x ^ n <= INR n * hi ^ (n - 1) * (y - x).
Proof.
  intros Hx Hh. induction n as [|n IH]; [cbn; lra|]. destruct n as [|n]; [cbn; lra|].
  replace (y ^ S (S n) - x ^ S (S n)) with (y * (y ^ S n - x ^ S n) + x ^ S n * (y - x)) by (cbn [pow]; ring).
  replace (S n - 1)%nat with n in IH by lia. replace (S (S n) - 1)%nat with (S n) by lia.
  replace (INR (S (S n)) * hi ^ S n * (y - x)) with (hi * (INR (S n) * hi ^ n * (y - x)) + hi ^ S n * (y - x)) by (rewrite (S_INR (S n)); cbn [pow]; ring).
  assert (P : 0 <= hi ^ n) by (apply pow_le; lra). assert (Q : x ^ S n <= hi ^ S n) by (apply pow_incr; lra). assert (0 <= x ^ S n) by (apply pow_le; lra).
  assert (0 <= y ^ S n - x ^ S n) by (assert (x ^ S n <= y ^ S n) by (apply pow_incr; lra); lra).
  apply Rplus_le_compat; [|apply Rmult_le_compat_r; lra]. apply Rmult_le_compat; lra.
Qed.
Lemma Jd_decr x y : 5015 / 10000 <= x < y -> y <= 5017 / 10000 -> Jd y < Jd x.
Proof.
  intros [Hx Hxy] Hy. pose proof s2P as [S1 S2]. pose proof PI_approx as [H1 H2]. assert (HP : 986 / 100 <= PI ^ 2 <= 988 / 100) by (split; nra).
  pose proof (pow_diff_le x y (5017 / 10000) 4 ltac:(lra) Hy) as D4. pose proof (pow_diff_ge x y (5015 / 10000) 8 ltac:(lra) ltac:(lra)) as D8.
  pose proof (pow_diff_ge x y (5015 / 10000) 12 ltac:(lra) ltac:(lra)) as D12. pose proof (pow_diff_ge x y (5015 / 10000) 15 ltac:(lra) ltac:(lra)) as D15. pose proof (pow_diff_ge x y (5015 / 10000) 18 ltac:(lra) ltac:(lra)) as D18.
  cbn [INR Nat.sub] in *.
  assert (E : forall s, Jd s = 1 + (32488 / 10 - PI ^ 2 / 6) * s ^ 4 - 45356 / 10 * s ^ 8 - 462400 * s ^ 12 + (3 / 4 * -3202700 * (sqrt 2 / sqrt PI) * s ^ 15 + (3 * -3202700 / 4) * s ^ 18)).
  { intros s. unfold Jd. assert (0 < sqrt PI) by (apply sqrt_lt_R0; lra). field. lra. }
  rewrite !E. set (d4 := y ^ 4 - x ^ 4) in *. set (d15 := y ^ 15 - x ^ 15) in *. set (h := y - x) in *. assert (Hh : 0 < h) by (unfold h; lra).
  assert (0 <= d4) by (assert (x ^ 4 <= y ^ 4) by (apply pow_incr; lra); unfold d4; lra). assert (A4 : PI ^ 2 * d4 >= 986 / 100 * d4) by nra.
  assert (A15 : sqrt 2 / sqrt PI * d15 >= 797 / 1000 * d15). { assert (0 <= d15) by (assert (x ^ 15 <= y ^ 15) by (apply pow_incr; lra); unfold d15; lra). nra. }
  unfold d4, d15 in *. set (x4 := x ^ 4) in *. set (x8 := x ^ 8) in *. set (x12 := x ^ 12) in *. set (x15 := x ^ 15) in *. set (x18 := x ^ 18) in *.
  set (y4 := y ^ 4) in *. set (y8 := y ^ 8) in *. set (y12 := y ^ 12) in *. set (y15 := y ^ 15) in *. set (y18 := y ^ 18) in *.
  clearbody x4 x8 x12 x15 x18 y4 y8 y12 y15 y18 h. set (w := sqrt 2 / sqrt PI) in *. set (p := PI ^ 2) in *. clearbody w p. nra.
Qed.
Lemma Jn_neg s : 5015 / 10000 <= s <= 5017 / 10000 -> Jn (s ^ 2) <= - (1 / 10).
Proof.
  intros Hs. unfold Jn. rewrite <- !pow_mult. cbn [Nat.mul Nat.add].
  pose proof (pow_diff_le (5015 / 10000) s (5017 / 10000) 4 ltac:(lra) ltac:(lra)) as D4. pose proof (pow_diff_ge (5015 / 10000) s (5015 / 10000) 8 ltac:(lra) ltac:(lra)) as D8.
  pose proof (pow_diff_ge (5015 / 10000) s (5015 / 10000) 14 ltac:(lra) ltac:(lra)) as D14. cbn [INR Nat.sub] in *.
  set (a := s ^ 4) in *. set (b := s ^ 8) in *. set (c := s ^ 14) in *. clearbody a b c. lra.
Qed.
Lemma Jd_cont : continuity Jd.
Proof. unfold Jd. reg. Qed.
Theorem C125_pole_refuted : exists theta0, 0.2515 < theta0 < 0.2518 /\ dandrea_J theta0 = None /\
  forall B delta, 0 < delta -> exists theta J, Rabs (theta - theta0) < delta /\ dandrea_J theta = Some J /\ B < Rabs J.
Proof.
  destruct Jd_ends as [J1 J2]. destruct (IVT (fun s => - Jd s) (5015 / 10000) (5017 / 10000)) as (s0 & Hs0 & Z); [exact (continuity_opp _ Jd_cont)|lra|cbn; lra|cbn; lra|].
  assert (Z0 : Jd s0 = 0) by lra. clear Z. assert (Hlt : 5015 / 10000 < s0 < 5017 / 10000).
  { split; (destruct Hs0 as [[L|L] [U|U]]; subst; lra). }
  exists (s0 ^ 2). split; [split; nra|]. split.
  - rewrite J_form by lra. unfold qdiv. destruct (Req_EM_T _ 0); [reflexivity|contradiction].
  - intros B delta Hd. set (b := Rmax B 1). pose proof (Rmax_l B 1). pose proof (Rmax_r B 1). fold b in H, H0.
    destruct (Jd_cont s0 (1 / 10 / (b + 1))) as (d & Hd0 & Hc). { apply Rdiv_lt_0_compat; lra. }
    set (h := Rmin (d / 2) (Rmin (delta / 4) ((5017 / 10000 - s0) / 2))).
    assert (Hh : 0 < h) by (unfold h; repeat apply Rmin_pos; lra). assert (Hh1 : h <= d / 2) by apply Rmin_l.
    assert (Hh2 : h <= delta / 4) by (eapply Rle_trans; [apply Rmin_r|apply Rmin_l]). assert (Hh3 : h <= (5017 / 10000 - s0) / 2) by (eapply Rle_trans; [apply Rmin_r|apply Rmin_r]).
    set (s := s0 + h). assert (Hs : s0 < s < 5017 / 10000) by (unfold s; lra).
    pose proof (Jd_decr s0 s ltac:(lra) ltac:(lra)) as Hneg. rewrite Z0 in Hneg.
    assert (Hsm : Rabs (Jd s) < 1 / 10 / (b + 1)).
    { specialize (Hc s). rewrite Z0 in Hc. cbn in Hc. unfold R_dist in Hc. rewrite Rminus_0_r in Hc. apply Hc. split; [split; [exact I|lra]|]. unfold s. replace (s0 + h - s0) with h by ring. rewrite Rabs_pos_eq; lra. }
    exists (s ^ 2), (Jn (s ^ 2) / Jd s). split.
    { replace (s ^ 2 - s0 ^ 2) with (h * (2 * s0 + h)) by (unfold s; ring). rewrite Rabs_pos_eq by nra. nra. }
    split; [rewrite J_form by lra; apply qdiv_some; lra|].
    pose proof (Jn_neg s ltac:(lra)) as Hn. unfold Rdiv. rewrite Rabs_mult, Rabs_inv. rewrite (Rabs_left (Jn (s ^ 2))) by lra.
    assert (Hp : 0 < Rabs (Jd s)) by (apply Rabs_pos_lt; lra). apply (Rmult_lt_reg_r (Rabs (Jd s))); [exact Hp|]. rewrite Rmult_assoc, Rinv_l by lra.
    apply Rlt_le_trans with (1 / 10); [|lra]. apply (Rmult_lt_compat_r (b + 1)) in Hsm; [|lra]. unfold Rdiv in Hsm. rewrite Rmult_assoc, Rinv_l in Hsm by lra. nra.
Qed.
Print Assumptions C125_pole_refuted.

(** ** the coefficients the code passes in *)
(** With the fit of order 3/2 of the code the thermal term is less than a third of the
    one of the electron gas where the chemical potential is ln 7. *)
Theorem C125_thermal_refuted : exists eta v, eta < 2 /\ fermi_32_antia eta = Some v /\ forall u T n, 0 < T -> 0 < n ->
  3 * mean_v2 u (fun _ => v) T n eta < mean_v2 u (fun x => fermi_integral x (3 / 2)) T n eta.
Proof.
  destruct C122_order_32_refuted as (x & v & Hx & Hv & H). exists x, v. split; [exact Hx|]. split; [exact Hv|]. intros u T n HT Hn. unfold mean_v2.
  destruct (dbl_pos u T HT) as [Hl _]. cpos u. assert (0 < degeneracy_param u n T / 2). { unfold degeneracy_param. assert (0 < therm_de_broglie_wl u T ^ 3) by (apply pow_lt; lra). assert (0 < n * therm_de_broglie_wl u T ^ 3) by (apply Rmult_lt_0_compat; lra). lra. }
  assert (Hc : 0 < 3 * kB u * T / m_e u / (degeneracy_param u n T / 2)). { apply Rdiv_lt_0_compat; [apply Rdiv_lt_0_compat; [nra|lra]|lra]. }
  set (c := 3 * kB u * T / m_e u / (degeneracy_param u n T / 2)) in *.
  replace (3 * (3 * kB u * T / m_e u * v / (degeneracy_param u n T / 2))) with (c * (3 * v)) by (unfold c; field; lra).
  replace (3 * kB u * T / m_e u * fermi_integral x (3 / 2) / (degeneracy_param u n T / 2)) with (c * fermi_integral x (3 / 2)) by (unfold c; field; lra).
  apply Rmult_lt_compat_l; assumption.
Qed.
Print Assumptions C125_thermal_refuted.

(** ** an instance: the plasma of degeneracy one *)
Lemma theta1b : 1 / 2 * kB bohr_consts / fermi_energy bohr_consts n1 = 1.
Proof. exact theta1. Qed.
Example C125_met : exists e k, 0 < k /\ dielectric_function_Dandrea bohr_consts Fbig Fbig Fbig (fun x => x) k 0 (1 / 2) n1 = Some e /\ snd e = 0.
Proof.
  destruct (C125_screening bohr_consts Fbig Fbig Fbig (fun x => x) (1 / 2) n1 bohr_ex n1_pos ltac:(lra)) as (M & k0 & HM & Hk & H).
  { rewrite theta1b. exact fit_defined_1. }
  { unfold Fbig. lra. }
  destruct (H k0) as (e & He & Hi & _); [lra|]. exists e, k0. auto.
Qed.
Example C125_high_met : exists e E, 0 < E /\ dielectric_function_Dandrea bohr_consts Fbig Fbig Fbig (fun x => x) 1 E (1 / 2) n1 = Some e.
Proof.
  destruct (C125_bohm_gross bohr_consts Fbig Fbig Fbig (fun x => x) 1 (1 / 2) n1 bohr_ex ltac:(lra) n1_pos ltac:(lra)) as (M & E0 & HM & HE & H).
  { rewrite theta1b. exact fit_defined_1. }
  { unfold Fbig. lra. }
  destruct (H E0) as (e & He & _); [lra|]. exists e, E0. auto.
Qed.
