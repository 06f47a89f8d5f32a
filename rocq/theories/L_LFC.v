(** Lemmas on the local field corrections. *)
From Coq Require Import Reals List Lra Lia Psatz.
From Coquelicot Require Import Coquelicot.
From Verif Require Import M_Const M_PlasmaState M_PlasmaPhysics L_PlasmaPhysics M_Interp M_LFC L_Gauss.
Import ListNotations.
Open Scope R_scope.

Lemma le_div a b c : 0 < c -> a * c <= b -> a <= b / c.
Proof. intros H L. apply (proj1 (Rle_div_r a b c H)). exact L. Qed.
Lemma div_le a b c : 0 < c -> a <= b * c -> a / c <= b.
Proof. intros H L. apply (proj2 (Rle_div_l a b c H)). exact L. Qed.

(** ** The inverse hyperbolic tangent *)
Definition ath (t : R) : R := ln ((1 + t) / (1 - t)) / 2.
Lemma ath_derive (t : R) : -1 < t < 1 -> is_derive ath t (1 / (1 - t ^ 2)).
Proof.
  intros H. unfold ath. auto_derive.
  - repeat split; try lra. apply Rdiv_lt_0_compat; lra.
  - field. repeat split; try lra; nra.
Qed.
Lemma nondecreasing_from (f df : R -> R) a x : a <= x -> (forall t, a <= t <= x -> is_derive f t (df t)) ->
  (forall t, a <= t <= x -> 0 <= df t) -> f a <= f x.
Proof.
  intros Hx Hd Hp. destruct (Rle_lt_or_eq_dec _ _ Hx) as [H| ->]; [|lra].
  destruct (MVT_gen f a x df) as (c & Hc & E).
  - intros t Ht. rewrite Rmin_left, Rmax_right in Ht by lra. apply Hd; lra.
  - intros t Ht. rewrite Rmin_left, Rmax_right in Ht by lra. apply derivable_continuous_pt.
    exists (df t). apply is_derive_Reals. apply Hd; lra.
  - rewrite Rmin_left, Rmax_right in Hc by lra. pose proof (Hp c Hc). nra.
Qed.
Lemma ath_0 : ath 0 = 0.
Proof. unfold ath. replace ((1 + 0) / (1 - 0)) with 1 by field. rewrite ln_1. field. Qed.
Lemma ath_bounds t : 0 <= t <= 1 / 2 ->
  t + t ^ 3 / 3 + t ^ 5 / 5 <= ath t <= t + t ^ 3 / 3 + t ^ 5 / 5 + t ^ 7.
Proof.
  intros H. split.
  - enough (ath 0 - (0 + 0 ^ 3 / 3 + 0 ^ 5 / 5) <= ath t - (t + t ^ 3 / 3 + t ^ 5 / 5)) as E by (rewrite ath_0 in E; lra).
    apply (nondecreasing_from (fun t => ath t - (t + t ^ 3 / 3 + t ^ 5 / 5)) (fun t => 1 / (1 - t ^ 2) - (1 + t ^ 2 + t ^ 4))); [lra| |].
    + intros s Hs. apply (is_derive_minus (V := R_NormedModule) ath); [apply ath_derive; lra|]. auto_derive; [exact I|]. field.
    + intros s Hs. apply Rle_minus_r. rewrite Rplus_0_l. apply Rle_div_r; [nra|]. pose proof (pow2_ge_0 (s ^ 3)). ring_simplify. ring_simplify in H0. lra.
  - enough ((0 + 0 ^ 3 / 3 + 0 ^ 5 / 5 + 0 ^ 7) - ath 0 <= (t + t ^ 3 / 3 + t ^ 5 / 5 + t ^ 7) - ath t) as E by (rewrite ath_0 in E; lra).
    apply (nondecreasing_from (fun t => (t + t ^ 3 / 3 + t ^ 5 / 5 + t ^ 7) - ath t) (fun t => (1 + t ^ 2 + t ^ 4 + 7 * t ^ 6) - 1 / (1 - t ^ 2))); [lra| |].
    + intros s Hs. apply (is_derive_minus (V := R_NormedModule) (fun t => t + t ^ 3 / 3 + t ^ 5 / 5 + t ^ 7) ath); [|apply ath_derive; lra]. auto_derive; [exact I|]. field.
    + intros s Hs. apply Rle_minus_r. rewrite Rplus_0_l. apply Rle_div_l; [nra|].
      assert (0 <= s ^ 6 * (6 - 7 * s ^ 2)). { apply Rmult_le_pos; [apply pow_le; lra|nra]. } ring_simplify in H0. ring_simplify. lra.
Qed.
Lemma ath_rem t : 0 < t <= 1 / 2 -> exists r, 0 <= r <= 1 /\ ath t = t * (1 + t ^ 2 / 3 + t ^ 4 / 5 + t ^ 6 * r).
Proof.
  intros H. pose proof (ath_bounds t ltac:(lra)) as B. assert (0 < t ^ 7) by (apply pow_lt; lra).
  exists ((ath t - (t + t ^ 3 / 3 + t ^ 5 / 5)) / t ^ 7). split.
  - split; [apply Rdiv_le_0_compat; lra|apply Rle_div_l; lra].
  - field. lra.
Qed.

(** ** The zero temperature form *)
Lemma form_small A B C D Q : 0 < Q <= 1 -> exists g, zero_T_form A B C D Q = Some g /\
  Rabs (g - (B + D + C / 6) * Q ^ 2) <= (3 * Rabs A + Rabs B + Rabs C + Rabs D) * Q ^ 4.
Proof.
  intros H. unfold zero_T_form.
  destruct (Req_EM_T Q 0) as [E|_]; [lra|]. destruct (Req_EM_T Q 2) as [E|_]; [lra|]. destruct (Req_EM_T Q (-2)) as [E|_]; [lra|].
  eexists; split; [reflexivity|].
  destruct (ath_rem (Q / 2) ltac:(lra)) as (r & Hr & E). set (s := (Q / 2) ^ 2).
  assert (0 < s <= 1 / 4) as Hs by (unfold s; split; nra).
  assert (ln (Rabs ((2 + Q) / (2 - Q))) = 2 * ath (Q / 2)) as ->.
  { unfold ath. rewrite Rabs_pos_eq by (apply Rdiv_le_0_compat; lra).
    replace ((1 + Q / 2) / (1 - Q / 2)) with ((2 + Q) / (2 - Q)) by (field; lra). field. }
  rewrite E. set (M := - 2 / 15 + s * (r - 1 / 5) - s ^ 2 * r).
  assert (Rabs M <= 1) as HM. { apply Rabs_le. unfold M. assert (0 <= s * r <= 1 / 4) by (split; nra). assert (0 <= s ^ 2 * r <= 1 / 4) by (split; nra). split; lra. }
  replace ((4 - Q ^ 2) / (4 * Q)) with ((1 - s) / Q) by (unfold s; field; lra).
  match goal with |- Rabs ?x <= _ => replace x with (s ^ 2 * (16 * A * (2 - 2 / 3 * s + s ^ 2 * M) + D * (- 8 / 3 + 4 * s * M) + C * - M)) end.
  2:{ unfold M, s. field. lra. }
  rewrite Rabs_mult, (Rabs_pos_eq (s ^ 2)) by apply pow2_ge_0.
  replace (Q ^ 4) with (s ^ 2 * 16) by (unfold s; field). rewrite Rmult_comm, (Rmult_comm (s ^ 2) 16), <- Rmult_assoc.
  apply Rmult_le_compat_r; [apply pow2_ge_0|].
  eapply Rle_trans; [apply Rabs_triang|]. eapply Rle_trans; [apply Rplus_le_compat_r; apply Rabs_triang|].
  rewrite !Rabs_mult, Rabs_Ropp. rewrite (Rabs_pos_eq 16) by lra.
  assert (Rabs (2 - 2 / 3 * s + s ^ 2 * M) <= 2 + 1 / 16). { apply Rabs_le. apply Rabs_le_between in HM. assert (0 <= s ^ 2 <= 1 / 16) by (split; nra). split; nra. }
  assert (Rabs (- 8 / 3 + 4 * s * M) <= 4). { apply Rabs_le. apply Rabs_le_between in HM. split; nra. }
  pose proof (Rabs_pos A). pose proof (Rabs_pos B). pose proof (Rabs_pos C). pose proof (Rabs_pos D). nra.
Qed.

Lemma form_large A B C D Q : 4 <= Q -> exists g, zero_T_form A B C D Q = Some g /\
  Rabs (g - ((B - D + 8 / 3 * A) * Q ^ 2 + (2 * C + 8 / 3 * D + 32 / 15 * A))) <= 64 * (Rabs A + Rabs C + Rabs D) / Q ^ 2.
Proof.
  intros H. unfold zero_T_form.
  destruct (Req_EM_T Q 0) as [E|_]; [lra|]. destruct (Req_EM_T Q 2) as [E|_]; [lra|]. destruct (Req_EM_T Q (-2)) as [E|_]; [lra|].
  eexists; split; [reflexivity|].
  assert (0 < 2 / Q <= 1 / 2) as Ht. { split; [apply Rdiv_lt_0_compat; lra|]. apply Rle_div_l; lra. }
  destruct (ath_rem (2 / Q) Ht) as (r & Hr & E). set (s := (2 / Q) ^ 2).
  assert (0 < s <= 1 / 4) as Hs by (unfold s; split; nra).
  assert (ln (Rabs ((2 + Q) / (2 - Q))) = 2 * ath (2 / Q)) as ->.
  { unfold ath. replace ((2 + Q) / (2 - Q)) with (- ((Q + 2) / (Q - 2))) by (field; lra). rewrite Rabs_Ropp.
    rewrite Rabs_pos_eq by (apply Rdiv_le_0_compat; lra).
    replace ((1 + 2 / Q) / (1 - 2 / Q)) with ((Q + 2) / (Q - 2)) by (field; lra). field. }
  rewrite E. set (M := (r - 1 / 5) - s * r).
  assert (Rabs M <= 1) as HM. { apply Rabs_le. unfold M. assert (0 <= s * r <= 1 / 4 * r) by (split; nra). split; lra. }
  match goal with |- Rabs ?x <= _ => replace x with (s * (- 16 * A * M + D * (8 / 15 - 4 * s * M) - C * (2 / 3 + 2 / 15 * s - s ^ 2 * M))) end.
  2:{ unfold M, s. field. lra. }
  rewrite Rabs_mult, (Rabs_pos_eq s) by lra.
  replace (64 * (Rabs A + Rabs C + Rabs D) / Q ^ 2) with (s * (16 * (Rabs A + Rabs C + Rabs D))) by (unfold s; field; lra).
  apply Rmult_le_compat_l; [lra|]. unfold Rminus at 1.
  eapply Rle_trans; [apply Rabs_triang|]. eapply Rle_trans; [apply Rplus_le_compat_r; apply Rabs_triang|].
  rewrite Rabs_Ropp, !Rabs_mult. replace (Rabs (- 16)) with 16 by (rewrite Rabs_left; lra).
  assert (Rabs (8 / 15 - 4 * s * M) <= 4). { apply Rabs_le. apply Rabs_le_between in HM. split; nra. }
  assert (Rabs (2 / 3 + 2 / 15 * s - s ^ 2 * M) <= 4). { apply Rabs_le. apply Rabs_le_between in HM. assert (0 <= s ^ 2 <= 1 / 16) by (split; nra). split; nra. }
  pose proof (Rabs_pos A). pose proof (Rabs_pos C). pose proof (Rabs_pos D). pose proof (Rabs_pos M). nra.
Qed.

Lemma xlnx h : 0 < h < 1 -> Rabs (h * ln h) <= 2 * sqrt h.
Proof.
  intros H. pose proof (sqrt_lt_R0 h ltac:(lra)) as Hs. assert (sqrt h * sqrt h = h) as Hh by (apply sqrt_sqrt; lra).
  assert (ln h = 2 * ln (sqrt h)) as -> by (rewrite <- Hh at 1; rewrite ln_mult by lra; ring).
  assert (sqrt h < 1). { rewrite <- sqrt_1. apply sqrt_lt_1; lra. }
  assert (- ln (sqrt h) <= / sqrt h).
  { rewrite <- ln_Rinv by lra. pose proof (exp_ineq1_le (ln (/ sqrt h))) as E. rewrite exp_ln in E by (apply Rinv_0_lt_compat; lra). lra. }
  assert (ln (sqrt h) < 0) by (rewrite <- ln_1; apply ln_increasing; lra).
  rewrite Rabs_left1 by nra.
  replace (- (h * (2 * ln (sqrt h)))) with (2 * h * (- ln (sqrt h))) by ring.
  apply Rle_trans with (2 * h * / sqrt h); [apply Rmult_le_compat_l; lra|]. rewrite <- Hh at 1. right. field. lra.
Qed.
(** near twice the Fermi wavenumber the form has a limit, at it none *)
Lemma form_two A B C D Q : 0 < Rabs (Q - 2) < 1 -> exists g, zero_T_form A B C D Q = Some g /\
  Rabs (g - (16 * A + 4 * B + C)) <= 500 * (Rabs A + Rabs B + Rabs C + Rabs D) * sqrt (Rabs (Q - 2)).
Proof.
  intros H. unfold zero_T_form. set (h := Rabs (Q - 2)) in *.
  assert (1 < Q < 3 /\ Q <> 2) as (HQ & H2). { unfold h, Rabs in H. destruct (Rcase_abs (Q - 2)) in H; split; try lra. }
  destruct (Req_EM_T Q 0) as [E|_]; [lra|]. destruct (Req_EM_T Q 2) as [E|_]; [lra|]. destruct (Req_EM_T Q (-2)) as [E|_]; [lra|].
  eexists; split; [reflexivity|]. set (L := ln (Rabs ((2 + Q) / (2 - Q)))).
  assert (sqrt h * sqrt h = h) as Hs by (apply sqrt_sqrt; lra). assert (0 < sqrt h) by (apply sqrt_lt_R0; lra).
  assert (sqrt h < 1) as Hs1 by (rewrite <- sqrt_1; apply sqrt_lt_1; lra). assert (h <= sqrt h) as Hhs by nra.
  assert (Rabs ((4 - Q ^ 2) / (4 * Q) * L) <= 5 * sqrt h) as HL.
  { assert (L = ln (2 + Q) - ln h) as ->.
    { unfold L. rewrite Rabs_div by lra. rewrite (Rabs_pos_eq (2 + Q)) by lra. replace (Rabs (2 - Q)) with h by (unfold h; rewrite <- Rabs_Ropp; f_equal; ring).
      unfold Rdiv. rewrite ln_mult, ln_Rinv; try lra. apply Rinv_0_lt_compat; lra. }
    replace ((4 - Q ^ 2) / (4 * Q) * (ln (2 + Q) - ln h)) with ((2 - Q) * (ln (2 + Q) - ln h) * ((2 + Q) / (4 * Q))) by (field; lra).
    rewrite Rabs_mult. rewrite (Rabs_pos_eq ((2 + Q) / (4 * Q))) by (apply Rdiv_le_0_compat; lra).
    assert ((2 + Q) / (4 * Q) <= 1) by (apply Rle_div_l; lra). assert (0 <= (2 + Q) / (4 * Q)) by (apply Rdiv_le_0_compat; lra).
    assert (Rabs ((2 - Q) * (ln (2 + Q) - ln h)) <= 5 * sqrt h).
    { rewrite Rabs_mult. replace (Rabs (2 - Q)) with h by (unfold h; rewrite <- Rabs_Ropp; f_equal; ring).
      rewrite <- (Rabs_pos_eq h) at 1 by lra. rewrite <- Rabs_mult.
      replace (h * (ln (2 + Q) - ln h)) with (h * ln (2 + Q) + - (h * ln h)) by ring.
      eapply Rle_trans; [apply Rabs_triang|]. rewrite Rabs_Ropp. pose proof (xlnx h H).
      assert (0 < ln (2 + Q)) by (rewrite <- ln_1; apply ln_increasing; lra).
      assert (ln (2 + Q) <= 3).
      { pose proof (exp_ineq1_le 1). assert (exp 3 = exp 1 * exp 1 * exp 1) by (rewrite <- !exp_plus; f_equal; ring).
        rewrite <- (ln_exp 3). left. apply ln_increasing; nra. }
      rewrite Rabs_pos_eq by nra. nra. }
    pose proof (Rabs_pos ((2 - Q) * (ln (2 + Q) - ln h))). nra. }
  set (d := Q - 2) in *. assert (Q = 2 + d) as EQ by (unfold d; ring).
  assert (Rabs d = h) as Hd by reflexivity.
  replace (A * Q ^ 4 + B * Q ^ 2 + C + (A * Q ^ 4 + D * Q ^ 2 - C) * ((4 - Q ^ 2) / (4 * Q)) * L - (16 * A + 4 * B + C))
    with (A * (d * (32 + 24 * d + 8 * d ^ 2 + d ^ 3)) + B * (d * (4 + d)) + (A * Q ^ 4 + D * Q ^ 2 - C) * ((4 - Q ^ 2) / (4 * Q) * L)).
  2:{ rewrite EQ. field. lra. }
  assert (Rabs (d * (32 + 24 * d + 8 * d ^ 2 + d ^ 3)) <= 65 * sqrt h).
  { rewrite Rabs_mult, Hd. assert (Rabs (32 + 24 * d + 8 * d ^ 2 + d ^ 3) <= 65).
    { apply Rabs_le. assert (-1 <= d <= 1) by lra. assert (0 <= d ^ 2 <= 1) by (split; nra). assert (-1 <= d ^ 3 <= 1) by (split; nra). lra. }
    pose proof (Rabs_pos (32 + 24 * d + 8 * d ^ 2 + d ^ 3)). nra. }
  assert (Rabs (d * (4 + d)) <= 5 * sqrt h). { rewrite Rabs_mult, Hd, (Rabs_pos_eq (4 + d)) by lra. nra. }
  assert (Rabs (A * Q ^ 4 + D * Q ^ 2 - C) <= 81 * Rabs A + 9 * Rabs D + Rabs C).
  { unfold Rminus. eapply Rle_trans; [apply Rabs_triang|]. eapply Rle_trans; [apply Rplus_le_compat_r; apply Rabs_triang|].
    rewrite Rabs_Ropp, !Rabs_mult. rewrite (Rabs_pos_eq (Q ^ 4)), (Rabs_pos_eq (Q ^ 2)) by (apply pow_le; lra).
    assert (0 <= Q ^ 2 <= 9) by (split; nra). assert (Q ^ 4 <= 81) by (replace (Q ^ 4) with (Q ^ 2 * Q ^ 2) by ring; nra).
    pose proof (Rabs_pos A). pose proof (Rabs_pos D). nra. }
  eapply Rle_trans; [apply Rabs_triang|]. eapply Rle_trans; [apply Rplus_le_compat_r; apply Rabs_triang|].
  rewrite (Rabs_mult A), (Rabs_mult B), (Rabs_mult (A * Q ^ 4 + D * Q ^ 2 - C)).
  pose proof (Rabs_pos A). pose proof (Rabs_pos B). pose proof (Rabs_pos C). pose proof (Rabs_pos D).
  pose proof (Rabs_pos (A * Q ^ 4 + D * Q ^ 2 - C)). pose proof (Rabs_pos ((4 - Q ^ 2) / (4 * Q) * L)).
  assert (Rabs A * Rabs (d * (32 + 24 * d + 8 * d ^ 2 + d ^ 3)) <= Rabs A * (65 * sqrt h)) by (apply Rmult_le_compat_l; lra).
  assert (Rabs B * Rabs (d * (4 + d)) <= Rabs B * (5 * sqrt h)) by (apply Rmult_le_compat_l; lra).
  assert (Rabs (A * Q ^ 4 + D * Q ^ 2 - C) * Rabs ((4 - Q ^ 2) / (4 * Q) * L) <= (81 * Rabs A + 9 * Rabs D + Rabs C) * (5 * sqrt h)) by (apply Rmult_le_compat; lra).
  assert (0 <= Rabs B * sqrt h) by (apply Rmult_le_pos; lra). assert (0 <= Rabs C * sqrt h) by (apply Rmult_le_pos; lra).
  assert (0 <= Rabs D * sqrt h) by (apply Rmult_le_pos; lra). assert (0 <= Rabs A * sqrt h) by (apply Rmult_le_pos; lra). lra.
Qed.
Lemma form_none A B C D : zero_T_form A B C D 2 = None /\ zero_T_form A B C D 0 = None.
Proof.
  unfold zero_T_form. split.
  - destruct (Req_EM_T 2 0); [lra|]. destruct (Req_EM_T 2 2); [reflexivity|lra].
  - destruct (Req_EM_T 0 0); [reflexivity|lra].
Qed.

(** ** Geldart and Vosko *)
Lemma rp_third G (n : nat) : 0 < G -> Rpower G (INR n / 3) = Rpower G (1 / 3) ^ n.
Proof. intros H. rewrite <- Rpower_pow by apply exp_pos. rewrite Rpower_mult. f_equal. field. Qed.
Lemma gamma_T_pos G : 0 < G -> 0 < GV_gamma_T G.
Proof.
  intros H. unfold GV_gamma_T. apply Rmult_lt_0_compat; [apply exp_pos|].
  assert (G = Rpower G (1 / 3) ^ 3) as E. { rewrite <- rp_third by exact H. replace (INR 3 / 3) with 1 by (simpl; field). rewrite Rpower_1; lra. }
  assert (Rpower G (4 / 3) = Rpower G (1 / 3) ^ 4) as E4 by (rewrite <- rp_third by exact H; f_equal; simpl; field).
  assert (Rpower G (2 / 3) = Rpower G (1 / 3) ^ 2) as E2 by (rewrite <- rp_third by exact H; f_equal; simpl; field).
  rewrite E4, E2. rewrite E at 1. set (s := Rpower G (1 / 3)). assert (0 < s) as Hs by apply exp_pos.
  assert (0 < / s) as Hw by (apply Rinv_0_lt_compat; exact Hs). set (w := / s) in *.
  replace (999305 / 10000000 + 187058 / 10000000 / s ^ 3 + 13240 / 10000000 / s ^ 4 - 479236 / 10000000 / s ^ 2)
    with (999305 / 10000000 + 187058 / 10000000 * w ^ 3 + 13240 / 10000000 * w ^ 4 - 479236 / 10000000 * w ^ 2) by (unfold w; field; lra).
  assert (0 <= (w - 171 / 100) ^ 2 * (w + 171 / 200)) by (apply Rmult_le_pos; [apply pow2_ge_0|lra]).
  assert (0 <= w ^ 4) by (apply pow_le; lra). assert (0 <= w ^ 2) by apply pow2_ge_0. nra.
Qed.
Lemma form_GV k k_F gamma g : 0 < k -> 0 < k_F -> 0 < gamma -> g < 1 ->
  GV_form k k_F gamma g = Some (k ^ 2 / (k_F ^ 2 / gamma + k ^ 2 / (1 - g))).
Proof.
  intros Hk HF Hg H1. unfold GV_form. destruct (Req_EM_T g 1) as [E|_]; [lra|].
  rewrite qdiv_some by lra. cbn [obind]. assert (0 < k ^ 2) by (apply pow_lt; lra). assert (0 < k_F ^ 2) by (apply pow_lt; lra).
  assert (0 < / (1 - g)) by (apply Rinv_0_lt_compat; lra). assert (0 < 1 / gamma) by (apply Rdiv_lt_0_compat; lra).
  rewrite qdiv_some by nra. f_equal. f_equal. field. split; lra.
Qed.

(** the integral of the contact value *)
Lemma emin1 y : 0 < y -> y < exp y - 1.
Proof. intros H. pose proof (exp_ineq1 y ltac:(lra)). lra. Qed.
Lemma ath_ge t : 0 <= t < 1 -> t <= ath t.
Proof.
  intros H. enough (ath 0 - 0 <= ath t - t) as E by (rewrite ath_0 in E; lra).
  apply (nondecreasing_from (fun t => ath t - t) (fun t => 1 / (1 - t ^ 2) - 1)); [lra| |].
  - intros s Hs. apply (is_derive_minus (V := R_NormedModule) ath (fun t => t)); [apply ath_derive; lra|]. apply (is_derive_id (K := R_AbsRing)).
  - intros s Hs. apply Rle_minus_r. rewrite Rplus_0_l. apply Rle_div_r; nra.
Qed.
Lemma bose_lower y : 0 < y -> 1 / y - 1 / 2 <= 1 / (exp y - 1).
Proof.
  intros H. pose proof (emin1 y H). destruct (Rlt_le_dec y 2) as [H2|H2].
  - pose proof (ath_ge (y / 2) ltac:(lra)) as A. unfold ath in A.
    assert (exp y <= (2 + y) / (2 - y)).
    { replace ((2 + y) / (2 - y)) with ((1 + y / 2) / (1 - y / 2)) by (field; lra).
      rewrite <- (exp_ln ((1 + y / 2) / (1 - y / 2))) by (apply Rdiv_lt_0_compat; lra).
      destruct (Rle_lt_or_eq_dec y (ln ((1 + y / 2) / (1 - y / 2))) ltac:(lra)) as [L|L]; [left; apply exp_increasing; exact L|right; f_equal; exact L]. }
    assert (exp y - 1 <= 2 * y / (2 - y)). { replace (2 * y / (2 - y)) with ((2 + y) / (2 - y) - 1) by (field; lra). lra. }
    apply Rle_trans with (1 / (2 * y / (2 - y))); [right; field; lra|].
    unfold Rdiv at 1 3. rewrite !Rmult_1_l. apply Rinv_le_contravar; lra.
  - apply Rle_trans with 0; [|left; apply Rdiv_lt_0_compat; lra]. apply Rle_minus_l. rewrite Rplus_0_l. apply Rle_div_l; lra.
Qed.
Lemma integrand_bounds xi x : 0 < x ->
  x ^ 2 * exp (- xi * x ^ 2) / PI - x * exp (- xi * x ^ 2) / 2 <= GV_integrand xi x <= x ^ 2 * exp (- xi * x ^ 2) / PI.
Proof.
  intros H. unfold GV_integrand. pose proof PI_RGT_0. assert (0 < PI / x) as Hy by (apply Rdiv_lt_0_compat; lra).
  pose proof (emin1 _ Hy). pose proof (bose_lower _ Hy). pose proof (exp_pos (- xi * x ^ 2)) as Hp. set (p := exp (- xi * x ^ 2)) in *.
  assert (0 < x * p) by nra. split.
  - replace (x ^ 2 * p / PI - x * p / 2) with (x * p * (1 / (PI / x) - 1 / 2)) by (field; lra).
    unfold Rdiv at 5. apply Rmult_le_compat_l; [lra|]. lra.
  - replace (x ^ 2 * p / PI) with (x * p * / (PI / x)) by (field; lra).
    unfold Rdiv at 1. apply Rmult_le_compat_l; [lra|]. apply Rinv_le_contravar; lra.
Qed.
Lemma integrand_nonneg xi x : 0 <= x -> 0 <= GV_integrand xi x.
Proof.
  intros H. unfold GV_integrand. destruct (Rle_lt_or_eq_dec _ _ H) as [H0| <-].
  - pose proof (emin1 (PI / x) ltac:(apply Rdiv_lt_0_compat; [apply PI_RGT_0|lra])).
    assert (0 < PI / x) by (apply Rdiv_lt_0_compat; [apply PI_RGT_0|lra]).
    apply Rdiv_le_0_compat; [|lra]. apply Rmult_le_pos; [lra|left; apply exp_pos].
  - rewrite Rmult_0_l. unfold Rdiv. lra.
Qed.
Lemma integrand_cont xi (x : R) : continuous (GV_integrand xi) x.
Proof.
  destruct (Req_EM_T x 0) as [->|Hx].
  - unfold continuous. unfold GV_integrand at 2. rewrite Rmult_0_l. unfold Rdiv at 1. rewrite Rmult_0_l.
    apply filterlim_locally. intros eps. set (b := Rabs xi).
    assert (0 < Rmin 1 (eps / (2 * exp b))) as Hd. { apply Rmin_pos; [lra|]. apply Rdiv_lt_0_compat; [apply cond_pos|]. pose proof (exp_pos b). lra. }
    exists (mkposreal _ Hd). intros y Hy. change (Rabs (y - 0) < Rmin 1 (eps / (2 * exp b))) in Hy. change (Rabs (GV_integrand xi y - 0) < eps).
    rewrite Rminus_0_r in *. pose proof (Rmin_l 1 (eps / (2 * exp b))). pose proof (Rmin_r 1 (eps / (2 * exp b))).
    assert (Rabs y < 1) as H1 by lra. assert (Rabs y * (2 * exp b) < eps) as H2. { apply Rlt_div_r; [pose proof (exp_pos b); lra|lra]. }
    assert (exp (- xi * y ^ 2) <= exp b) as He.
    { assert (- xi * y ^ 2 <= b) as Hle.
      { unfold b. assert (0 <= y ^ 2 <= 1). { rewrite <- pow2_abs. pose proof (Rabs_pos y). split; nra. }
        pose proof (Rle_abs (- xi)). rewrite Rabs_Ropp in H4. pose proof (Rabs_pos xi). nra. }
      destruct Hle as [L|L]; [left; apply exp_increasing; exact L|right; f_equal; exact L]. }
    unfold GV_integrand. pose proof (exp_pos (- xi * y ^ 2)) as Hp.
    destruct (Req_EM_T y 0) as [->|Hy0]. { rewrite Rmult_0_l. unfold Rdiv. rewrite Rmult_0_l, Rabs_R0. apply cond_pos. }
    assert (1 / 2 <= Rabs (exp (PI / y) - 1)) as Hden.
    { pose proof PI2_3_2. destruct (Rlt_le_dec 0 y) as [P|P].
      - rewrite Rabs_pos_eq in H1 by lra. assert (1 < PI / y) by (apply Rlt_div_r; lra). pose proof (emin1 (PI / y) ltac:(lra)). rewrite Rabs_pos_eq; lra.
      - rewrite Rabs_left1 in H1 by lra. assert (PI / y < -1). { apply Ropp_lt_cancel. replace (- (PI / y)) with (PI / - y) by (field; lra). apply Rlt_div_r; lra. }
        assert (exp (PI / y) < 1 / 2).
        { apply Rlt_trans with (exp (-1)); [apply exp_increasing; lra|]. change (-1) with (- (1)). rewrite (exp_Ropp 1). pose proof (exp_ineq1 1 ltac:(lra)).
          unfold Rdiv. rewrite Rmult_1_l. apply Rinv_lt_contravar; lra. }
        rewrite Rabs_left1; lra. }
    assert (exp (PI / y) - 1 <> 0). { intros E. rewrite E, Rabs_R0 in Hden. lra. }
    rewrite Rabs_div, Rabs_mult, (Rabs_pos_eq (exp (- xi * y ^ 2))) by (try assumption; lra).
    apply Rlt_div_l; [lra|]. pose proof (Rabs_pos y). pose proof (cond_pos eps).
    apply Rle_lt_trans with (Rabs y * exp b); [apply Rmult_le_compat_l; lra|]. nra.
  - apply (ex_derive_continuous (V := R_NormedModule)). unfold GV_integrand. auto_derive. repeat split; try exact Hx.
    intros E. assert (exp (PI * / x) = exp 0) as E' by (rewrite exp_0; lra). apply exp_inv in E'. pose proof PI_RGT_0.
    assert (PI * / x <> 0) by (apply Rmult_integral_contrapositive_currified; [lra|apply Rinv_neq_0_compat; exact Hx]). contradiction.
Qed.
Lemma integrand_int xi a b : ex_RInt (GV_integrand xi) a b.
Proof. apply (ex_RInt_continuous (V := R_CompleteNormedModule)). intros z _. apply integrand_cont. Qed.

Definition mom2 (xi x : R) : R := - x * exp (- xi * x ^ 2) / (2 * xi) + FF (sqrt xi * x) / (2 * xi * sqrt xi).
Lemma mom2_int xi b : 0 < xi -> is_RInt (fun x => x ^ 2 * exp (- xi * x ^ 2) / PI) 0 b (mom2 xi b / PI).
Proof.
  intros H. pose proof PI_RGT_0. assert (0 < sqrt xi) as Hs by (apply sqrt_lt_R0; exact H).
  replace (mom2 xi b / PI) with (mom2 xi b / PI - mom2 xi 0 / PI).
  2:{ unfold mom2 at 2. rewrite Rmult_0_r. unfold FF at 1. rewrite RInt_point. change zero with 0. field. repeat split; lra. }
  apply (is_RInt_derive (V := R_CompleteNormedModule) (fun x => mom2 xi x / PI)).
  - intros x _. unfold mom2.
    assert (is_derive (fun x => FF (sqrt xi * x)) x (sqrt xi * gf (sqrt xi * x))) as HF.
    { apply (is_derive_comp (K := R_AbsRing) (V := R_NormedModule) FF (fun x => sqrt xi * x)); [apply FF_derive|]. auto_derive; [exact I|ring]. }
    assert (is_derive (fun x => - x * exp (- xi * x ^ 2) / (2 * xi)) x (- exp (- xi * x ^ 2) / (2 * xi) + x ^ 2 * exp (- xi * x ^ 2))) as HG.
    { auto_derive; [exact I|]. replace (x * (x * 1)) with (x ^ 2) by (simpl; ring). field. lra. }
    apply (is_derive_ext (fun x => / PI * (- x * exp (- xi * x ^ 2) / (2 * xi) + / (2 * xi * sqrt xi) * FF (sqrt xi * x)))).
    { intros t. unfold Rdiv. match goal with |- ?a = ?b => change (@eq R a b) end. ring. }
    replace (x ^ 2 * exp (- xi * x ^ 2) / PI)
      with (/ PI * (- exp (- xi * x ^ 2) / (2 * xi) + x ^ 2 * exp (- xi * x ^ 2) + / (2 * xi * sqrt xi) * (sqrt xi * gf (sqrt xi * x)))).
    + apply (is_derive_scal).
      apply (is_derive_plus (K := R_AbsRing) (V := R_NormedModule)); [exact HG|]. apply (is_derive_scal). exact HF.
    + unfold gf. replace (- (sqrt xi * x) ^ 2) with (- xi * x ^ 2).
      * field. repeat split; lra.
      * rewrite Rpow_mult_distr. replace (sqrt xi ^ 2) with xi by (simpl; rewrite Rmult_1_r, sqrt_sqrt; lra). ring.
  - intros x _. apply (ex_derive_continuous (V := R_NormedModule)). auto_derive. lra.
Qed.
Lemma mom1_int xi b : 0 < xi -> is_RInt (fun x => x * exp (- xi * x ^ 2) / 2) 0 b ((1 - exp (- xi * b ^ 2)) / (4 * xi)).
Proof.
  intros H. replace ((1 - exp (- xi * b ^ 2)) / (4 * xi)) with (- exp (- xi * b ^ 2) / (4 * xi) - - exp (- xi * 0 ^ 2) / (4 * xi)).
  2:{ replace (- xi * 0 ^ 2) with 0 by ring. rewrite exp_0. field. lra. }
  apply (is_RInt_derive (V := R_CompleteNormedModule) (fun x => - exp (- xi * x ^ 2) / (4 * xi))).
  - intros x _. auto_derive; [exact I|]. replace (x * (x * 1)) with (x ^ 2) by (simpl; ring). field. lra.
  - intros x _. apply (ex_derive_continuous (V := R_NormedModule)). auto_derive. exact I.
Qed.
Lemma FF_le x : 0 <= x -> FF x <= sqrt PI / 2.
Proof.
  intros H. destruct (Rle_lt_or_eq_dec _ _ H) as [Hx| <-].
  - pose proof (total_const x Hx). pose proof (GG_bounds x). pose proof (FF_nonneg x H). pose proof PI_RGT_0. pose proof (sqrt_pos PI).
    assert (sqrt PI * sqrt PI = PI) by (apply sqrt_sqrt; lra). nra.
  - unfold FF. rewrite RInt_point. change zero with 0. pose proof (sqrt_pos PI). lra.
Qed.
Lemma integral_upper xi b : 0 < xi -> 0 <= b -> 0 <= RInt (GV_integrand xi) 0 b <= sqrt PI / (4 * PI * (xi * sqrt xi)).
Proof.
  intros H Hb. pose proof PI_RGT_0. assert (0 < sqrt xi) as Hs by (apply sqrt_lt_R0; exact H). split.
  - apply RInt_ge_0; [exact Hb|apply integrand_int|]. intros x Hx. apply integrand_nonneg. lra.
  - apply Rle_trans with (mom2 xi b / PI).
    + rewrite <- (is_RInt_unique _ _ _ _ (mom2_int xi b H)). apply RInt_le; [exact Hb|apply integrand_int|eexists; apply (mom2_int xi b H)|].
      intros x Hx. apply integrand_bounds. lra.
    + unfold mom2. pose proof (FF_le (sqrt xi * b) ltac:(nra)). pose proof (exp_pos (- xi * b ^ 2)).
      assert (- b * exp (- xi * b ^ 2) / (2 * xi) <= 0). { apply Rle_div_l; nra. }
      assert (FF (sqrt xi * b) / (2 * xi * sqrt xi) <= sqrt PI / 2 / (2 * xi * sqrt xi)). { apply Rdiv_le_compat_r; [nra|assumption]. }
      replace (sqrt PI / (4 * PI * (xi * sqrt xi))) with ((sqrt PI / 2 / (2 * xi * sqrt xi)) / PI) by (field; lra).
      apply Rdiv_le_compat_r; lra.
Qed.
Lemma mom2_lower xi b : 0 < xi -> 0 <= b -> mom2 xi b / PI - 1 / (4 * xi) <= RInt (GV_integrand xi) 0 b.
Proof.
  intros H Hb. apply Rle_trans with (mom2 xi b / PI - (1 - exp (- xi * b ^ 2)) / (4 * xi)).
  - apply Rplus_le_compat_l, Ropp_le_contravar. apply Rdiv_le_compat_r; [lra|]. pose proof (exp_pos (- xi * b ^ 2)). lra.
  - pose proof (is_RInt_minus _ _ _ _ _ _ (mom2_int xi b H) (mom1_int xi b H)) as M.
    change (minus (mom2 xi b / PI) ((1 - exp (- xi * b ^ 2)) / (4 * xi))) with (mom2 xi b / PI - (1 - exp (- xi * b ^ 2)) / (4 * xi)) in M.
    rewrite <- (is_RInt_unique _ _ _ _ M). apply RInt_le; [exact Hb|eexists; exact M|apply integrand_int|].
    intros x Hx. apply (integrand_bounds xi x). lra.
Qed.

Lemma monotone_lim (f : R -> R) M : (forall a b, 0 <= a <= b -> f a <= f b) -> (forall b, 0 <= b -> f b <= M) -> exists l : R, is_lim f p_infty l.
Proof.
  intros Hm HM. destruct (completeness (fun y => exists b, 0 <= b /\ y = f b)) as [l [Hu Hl]].
  - exists M. intros y (b & Hb & ->). apply HM, Hb.
  - exists (f 0), 0. split; lra.
  - exists l. apply is_lim_spec. intros eps. cbn.
    assert (exists b, 0 <= b /\ l - eps < f b) as (b & Hb & Hf).
    { destruct (Classical_Prop.classic (exists b, 0 <= b /\ l - eps < f b)) as [H|H]; [exact H|exfalso].
      assert (l <= l - eps) as E. { apply Hl. intros y (b & Hb & ->). apply Rnot_lt_le. intros L. apply H. exists b. split; assumption. }
      pose proof (cond_pos eps). lra. }
    exists b. intros x Hx. pose proof (Hm b x ltac:(lra)). assert (f x <= l) by (apply Hu; exists x; split; lra).
    apply Rabs_def1; pose proof (cond_pos eps); lra.
Qed.
(** the quadrature is exact *)
Definition exact (quad : (R -> R) -> R) : Prop :=
  forall xi, 0 < xi -> is_lim (fun b => RInt (GV_integrand xi) 0 b) p_infty (quad (GV_integrand xi)).
Definition lim_quad (f : R -> R) : R := real (Lim (fun b => RInt f 0 b) p_infty).
Lemma lim_quad_exact : exact lim_quad.
Proof.
  intros xi H. unfold lim_quad. destruct (monotone_lim (fun b => RInt (GV_integrand xi) 0 b) (sqrt PI / (4 * PI * (xi * sqrt xi)))) as [l Hl].
  - intros a b Hab. pose proof (RInt_Chasles (V := R_CompleteNormedModule) (GV_integrand xi) 0 a b (integrand_int _ _ _) (integrand_int _ _ _)) as E.
    change (RInt (GV_integrand xi) 0 a + RInt (GV_integrand xi) a b = RInt (GV_integrand xi) 0 b) in E.
    assert (0 <= RInt (GV_integrand xi) a b). { apply RInt_ge_0; [lra|apply integrand_int|]. intros x Hx. apply integrand_nonneg. lra. }
    lra.
  - intros b Hb. apply integral_upper; assumption.
  - rewrite (is_lim_unique _ _ _ Hl). exact Hl.
Qed.
Lemma rp32 x : 0 < x -> Rpower x (3 / 2) = x * sqrt x.
Proof.
  intros H. replace (3 / 2) with (1 + / 2) by field. rewrite Rpower_plus, Rpower_1, Rpower_sqrt by lra. reflexivity.
Qed.
Lemma mom2_lim xi : 0 < xi -> is_lim (mom2 xi) p_infty (sqrt PI / 2 / (2 * xi * sqrt xi)).
Proof.
  intros H. assert (0 < sqrt xi) as Hs by (apply sqrt_lt_R0; exact H). unfold mom2.
  replace (Finite (sqrt PI / 2 / (2 * xi * sqrt xi))) with (Finite (0 + sqrt PI / 2 / (2 * xi * sqrt xi))) by (f_equal; ring).
  apply (is_lim_plus _ _ p_infty 0 (sqrt PI / 2 / (2 * xi * sqrt xi))); [| |reflexivity].
  - apply is_lim_le_le_loc with (f := fun x => - (/ (2 * xi ^ 2) * / x)) (g := fun _ => 0).
    + exists 1. intros x Hx. pose proof (exp_pos (- xi * x ^ 2)) as He. assert (0 < x ^ 2) by (apply pow_lt; lra).
      assert (exp (- xi * x ^ 2) <= / (xi * x ^ 2)).
      { replace (- xi * x ^ 2) with (- (xi * x ^ 2)) by ring. rewrite exp_Ropp. apply Rinv_le_contravar; [nra|]. pose proof (exp_ineq1 (xi * x ^ 2) ltac:(nra)). lra. }
      split.
      * replace (- x * exp (- xi * x ^ 2) / (2 * xi)) with (- (x / (2 * xi) * exp (- xi * x ^ 2))) by (field; lra). apply Ropp_le_contravar.
        replace (/ (2 * xi ^ 2) * / x) with (x / (2 * xi) * / (xi * x ^ 2)) by (field; lra).
        apply Rmult_le_compat_l; [apply Rdiv_le_0_compat; lra|assumption].
      * apply Rle_div_l; [lra|]. nra.
    + replace (Finite 0) with (Rbar_opp (Rbar_mult (/ (2 * xi ^ 2)) 0)) by (cbn; f_equal; ring).
      apply is_lim_opp. apply (is_lim_scal_l Rinv). replace (Finite 0) with (Rbar_inv p_infty) by reflexivity. apply (is_lim_inv (fun x => x)); [apply is_lim_id|discriminate].
    + apply is_lim_const.
  - apply (is_lim_ext (fun x => / (2 * xi * sqrt xi) * FF (sqrt xi * x))). { intros x. unfold Rdiv. apply Rmult_comm. }
    replace (sqrt PI / 2 / (2 * xi * sqrt xi)) with (/ (2 * xi * sqrt xi) * (sqrt PI / 2)) by (field; lra).
    apply (is_lim_scal_l (fun x => FF (sqrt xi * x)) (/ (2 * xi * sqrt xi)) p_infty (sqrt PI / 2)).
    apply (is_lim_comp FF (fun x => sqrt xi * x) p_infty (sqrt PI / 2) p_infty).
    + apply gauss_half.
    + replace p_infty with (Rbar_mult (sqrt xi) p_infty) at 2.
      * apply is_lim_scal_l. apply is_lim_id.
      * apply Rbar_mult_comm' || (cbn; destruct (Rle_dec 0 (sqrt xi)) as [L|L]; [destruct (Rle_lt_or_eq_dec 0 (sqrt xi) L); [reflexivity|lra]|lra]).
    + exists 0. intros y _. discriminate.
Qed.
Lemma contact quad xi : 0 < xi -> exact quad ->
  sqrt 2 / 4 - sqrt (2 * PI) * sqrt xi / 4 <= GV_g_bin_0 quad xi <= sqrt 2 / 4 /\ 0 <= GV_g_bin_0 quad xi.
Proof.
  intros H HE. pose proof (HE xi H) as L. set (I := quad (GV_integrand xi)) in *. pose proof PI_RGT_0 as Hpi.
  assert (0 < sqrt xi) as Hs by (apply sqrt_lt_R0; exact H). assert (0 < sqrt PI) as Hp by (apply sqrt_lt_R0; lra).
  assert (sqrt PI * sqrt PI = PI) as Epi by (apply sqrt_sqrt; lra).
  assert (0 <= I <= sqrt PI / (4 * PI * (xi * sqrt xi))) as (H0 & H1).
  { split.
    - apply (is_lim_le_loc (fun _ => 0) (fun b => RInt (GV_integrand xi) 0 b) p_infty 0 I); [exists 0; intros b Hb; apply integral_upper; lra|apply is_lim_const|exact L].
    - apply (is_lim_le_loc (fun b => RInt (GV_integrand xi) 0 b) (fun _ => sqrt PI / (4 * PI * (xi * sqrt xi))) p_infty I (sqrt PI / (4 * PI * (xi * sqrt xi)))); [exists 0; intros b Hb; apply integral_upper; lra|exact L|apply is_lim_const]. }
  assert (sqrt PI / (4 * PI * (xi * sqrt xi)) - 1 / (4 * xi) <= I) as H2.
  { apply (is_lim_le_loc (fun b => mom2 xi b / PI - 1 / (4 * xi)) (fun b => RInt (GV_integrand xi) 0 b) p_infty (sqrt PI / (4 * PI * (xi * sqrt xi)) - 1 / (4 * xi)) I); [exists 0; intros b Hb; apply mom2_lower; lra| |exact L].
    apply (is_lim_minus (fun b => mom2 xi b / PI) (fun _ => 1 / (4 * xi)) p_infty (sqrt PI / (4 * PI * (xi * sqrt xi))) (1 / (4 * xi))); [|apply is_lim_const|reflexivity].
      replace (sqrt PI / (4 * PI * (xi * sqrt xi))) with (sqrt PI / 2 / (2 * xi * sqrt xi) * / PI) by (field; lra).
      apply (is_lim_scal_r (mom2 xi) (/ PI) p_infty (sqrt PI / 2 / (2 * xi * sqrt xi))). apply mom2_lim, H. }
  unfold GV_g_bin_0. fold I. rewrite rp32 by exact H. rewrite sqrt_mult by lra. pose proof (sqrt_lt_R0 2 ltac:(lra)).
  assert (0 < sqrt 2 * sqrt PI * (xi * sqrt xi)) as Hc by (repeat apply Rmult_lt_0_compat; lra).
  split; [split|].
  - apply Rle_trans with (sqrt 2 * sqrt PI * (xi * sqrt xi) * (sqrt PI / (4 * PI * (xi * sqrt xi)) - 1 / (4 * xi))).
    + right. replace (sqrt 2 * sqrt PI * (xi * sqrt xi) * (sqrt PI / (4 * PI * (xi * sqrt xi)) - 1 / (4 * xi)))
        with (sqrt 2 * (sqrt PI * sqrt PI) / (4 * PI) - sqrt 2 * sqrt PI * sqrt xi / 4) by (field; repeat split; lra). rewrite Epi. field. lra.
    + apply Rmult_le_compat_l; lra.
  - apply Rle_trans with (sqrt 2 * sqrt PI * (xi * sqrt xi) * (sqrt PI / (4 * PI * (xi * sqrt xi)))).
    + apply Rmult_le_compat_l; lra.
    + right. replace (sqrt 2 * sqrt PI * (xi * sqrt xi) * (sqrt PI / (4 * PI * (xi * sqrt xi)))) with (sqrt 2 * (sqrt PI * sqrt PI) / (4 * PI)) by (field; repeat split; lra). rewrite Epi. field. lra.
  - apply Rmult_le_pos; lra.
Qed.

(** ** High densities *)
Lemma lamb_ge : 1 / 2 <= Rpower (4 / (9 * PI)) (1 / 3).
Proof.
  pose proof PI_RGT_0. pose proof PI_4.
  assert (Rpower (1 / 8) (1 / 3) = 1 / 2) as <-.
  { replace (1 / 8) with ((1 / 2) ^ 3) by field. rewrite <- Rpower_pow by lra. rewrite Rpower_mult. replace (INR 3 * (1 / 3)) with 1 by (simpl; field). apply Rpower_1. lra. }
  assert (PI < 32 / 9). { pose proof (PI_ineq 1) as [_ U]. unfold tg_alt, PI_tg in U. cbn -[INR] in U. rewrite !INR_IZR_INZ in U. cbn in U. lra. }
  apply Rle_Rpower_l; [lra|]. split; [lra|]. replace (1 / 8) with (/ 8) by field. rewrite <- (Rmult_1_l (/ 8)). apply (proj1 (Rle_div_r _ _ _ (Rmult_lt_0_compat 9 PI ltac:(lra) PI_RGT_0))). lra.
Qed.
Lemma gamma_0_dense rs : 0 < rs <= 1 / 1000000 -> 1 / 4 + 1 / 100 <= gamma_0 rs.
Proof.
  intros H. unfold gamma_0. pose proof lamb_ge. pose proof PI2_3_2. assert (3 < PI) as Hpi by lra.
  set (s := sqrt rs). assert (0 < s) as Hs by (apply sqrt_lt_R0; lra). assert (s * s = rs) as E by (apply sqrt_sqrt; lra). assert (s <= 1 / 1000) by nra.
  assert (6 / 100 <= rs2dEc_drs rs).
  { unfold rs2dEc_drs. fold s. apply le_div; nra. }
  assert (rs3d2Ec_d2rs rs <= - (1 / 10)).
  { unfold rs3d2Ec_d2rs. fold s. set (d := rs * s + 383243 / 100000 * rs + 133265 / 10000 * s + 135794 / 100000).
    assert (1 <= d <= 14 / 10) by (unfold d; split; nra). apply div_le; [nra|]. assert (d ^ 2 <= 196 / 100) by nra. nra. }
  set (l := Rpower (4 / (9 * PI)) (1 / 3)) in *. assert (1 / 16 <= PI * l / 24) by nra. nra.
Qed.

(** ** The fit of Dornheim *)
Lemma OnTop_dense t : OnTop 0 t = 1.
Proof. unfold OnTop. rewrite sqrt_0, !Rmult_0_r. field. Qed.
Lemma OnTop_negative : OnTop 20 (1 / 2) < 0.
Proof.
  unfold OnTop. set (a := sqrt (1 / 2)). set (b := sqrt 20).
  assert (0 < a) as Ha by (apply sqrt_lt_R0; lra). assert (a * a = 1 / 2) as Ea by (apply sqrt_sqrt; lra).
  assert (0 < b) as Hb by (apply sqrt_lt_R0; lra). assert (b * b = 20) as Eb by (apply sqrt_sqrt; lra).
  assert (7 / 10 <= a <= 71 / 100) by (split; nra). assert (b <= 448 / 100) by nra.
  match goal with |- ?n / ?d < 0 => assert (n < 0) as Hn; [|assert (0 < d) as Hd] end.
  - lra.
  - lra.
  - apply Ropp_lt_cancel. rewrite Ropp_0, <- Ropp_div. apply Rdiv_lt_0_compat; lra.
Qed.
Lemma tanh_bounds y : -1 < tanh y < 1.
Proof.
  unfold tanh, sinh, cosh. pose proof (exp_pos y). pose proof (exp_pos (- y)). split; [apply Rlt_div_r|apply Rlt_div_l]; lra.
Qed.
Lemma activation_form x a b : Activation x a b = 1 / (1 + exp (- (2 * b * (x - a)))).
Proof.
  unfold Activation, tanh, sinh, cosh. set (y := b * (x - a)). pose proof (exp_pos y). pose proof (exp_pos (- y)).
  replace (- (2 * b * (x - a))) with (- y + - y) by (unfold y; ring). rewrite exp_plus.
  assert (exp y * exp (- y) = 1) as E by (rewrite <- exp_plus; replace (y + - y) with 0 by ring; apply exp_0).
  assert (exp y = / exp (- y)) as ->. { apply Rmult_eq_reg_r with (exp (- y)); [rewrite E; field; lra|lra]. }
  field. repeat split; nra.
Qed.
Lemma G_ML_small A al be ga de : exists X K, 0 < X /\ 0 <= K /\ forall x, 0 <= x <= X -> exists g,
  G_ML A x al be ga de = Some g /\ Rabs (g - A * x ^ 2) <= K * (x ^ 2 * sqrt x).
Proof.
  set (S := Rabs ga + Rabs de + Rabs A). set (K := 2 * Rabs A * (Rabs al + Rabs be + S)).
  assert (0 <= S) as HS by (unfold S; pose proof (Rabs_pos ga); pose proof (Rabs_pos de); pose proof (Rabs_pos A); lra).
  assert (0 < / (2 * (1 + S))) as Hi by (apply Rinv_0_lt_compat; lra).
  assert (/ (2 * (1 + S)) <= 1 / 2) as Hi2. { unfold Rdiv. rewrite Rmult_1_l. apply Rinv_le_contravar; lra. }
  exists (/ (2 * (1 + S))), K. split; [exact Hi|]. split.
  { unfold K. pose proof (Rabs_pos A). pose proof (Rabs_pos al). pose proof (Rabs_pos be). apply Rmult_le_pos; lra. }
  intros x Hx. assert (x <= 1) as Hx1 by lra.
  assert (S * x <= 1 / 2) as HSx.
  { apply Rle_trans with (S * / (2 * (1 + S))); [apply Rmult_le_compat_l; lra|]. apply div_le; lra. }
  set (s := sqrt x). assert (0 <= s) as Hs by apply sqrt_pos. assert (s * s = x) as Es by (apply sqrt_sqrt; lra). assert (s <= 1) by nra.
  set (r := sqrt s). assert (0 <= r) as Hr by apply sqrt_pos. assert (r * r = s) as Er by (apply sqrt_sqrt; lra). assert (r <= 1) by nra.
  assert (Rabs (ga * x + de * (x * r) + A * x ^ 2) <= S * x) as Hd.
  { eapply Rle_trans; [apply Rabs_triang|]. eapply Rle_trans; [apply Rplus_le_compat_r; apply Rabs_triang|].
    rewrite !Rabs_mult, (Rabs_pos_eq x), (Rabs_pos_eq r), (Rabs_pos_eq (x ^ 2)) by (try lra; apply pow2_ge_0). unfold S.
    assert (0 <= x * r <= x) by (split; nra). assert (0 <= x ^ 2 <= x) by (split; nra).
    pose proof (Rabs_pos ga). pose proof (Rabs_pos de). pose proof (Rabs_pos A). nra. }
  pose proof Hd as Hd'. apply Rabs_le_between in Hd'. set (e := ga * x + de * (x * r) + A * x ^ 2) in *.
  unfold G_ML. fold s. fold r. replace (1 + ga * x + de * (x * r) + A * x ^ 2) with (1 + e) by (unfold e; ring).
  rewrite qdiv_some by lra. eexists; split; [reflexivity|].
  replace (A * x * x * (1 + al * x + be * s) / (1 + e) - A * x ^ 2) with (A * x ^ 2 * (al * x + be * s - e) * / (1 + e)) by (field; lra).
  rewrite !Rabs_mult, (Rabs_pos_eq (x ^ 2)) by apply pow2_ge_0. rewrite (Rabs_pos_eq (/ (1 + e))) by (left; apply Rinv_0_lt_compat; lra).
  assert (/ (1 + e) <= 2). { replace 2 with (/ (1 / 2)) by field. apply Rinv_le_contravar; lra. }
  assert (Rabs (al * x + be * s - e) <= (Rabs al + Rabs be + S) * s).
  { unfold Rminus. eapply Rle_trans; [apply Rabs_triang|]. eapply Rle_trans; [apply Rplus_le_compat_r; apply Rabs_triang|].
    rewrite Rabs_Ropp, !Rabs_mult, (Rabs_pos_eq x), (Rabs_pos_eq s) by lra. assert (x <= s) by nra. pose proof (Rabs_pos al). nra. }
  pose proof (Rabs_pos (al * x + be * s - e)). assert (0 <= x ^ 2) by apply pow2_ge_0. pose proof (Rabs_pos A).
  assert (0 <= / (1 + e)) by (left; apply Rinv_0_lt_compat; lra).
  unfold K. replace (2 * Rabs A * (Rabs al + Rabs be + S) * (x ^ 2 * s)) with (Rabs A * x ^ 2 * ((Rabs al + Rabs be + S) * s) * 2) by ring.
  apply Rmult_le_compat; try assumption.
  - apply Rmult_le_pos; [apply Rmult_le_pos; assumption|assumption].
  - apply Rmult_le_compat_l; [apply Rmult_le_pos; assumption|assumption].
Qed.
Lemma G_ML_large A al be ga de : A <> 0 -> exists X K, 1 <= X /\ 0 <= K /\ forall x, X <= x -> exists g,
  G_ML A x al be ga de = Some g /\ Rabs g <= K * x.
Proof.
  intros HA. assert (0 < Rabs A) as HAp by (apply Rabs_pos_lt; exact HA).
  set (S := 1 + Rabs ga + Rabs de). assert (1 <= S) as HS by (unfold S; pose proof (Rabs_pos ga); pose proof (Rabs_pos de); lra).
  set (q := 2 * S / Rabs A). assert (0 < q) by (unfold q; apply Rdiv_lt_0_compat; lra).
  exists (1 + q ^ 2), (2 * (1 + Rabs al + Rabs be)). split; [nra|]. split; [pose proof (Rabs_pos al); pose proof (Rabs_pos be); lra|].
  intros x Hx. set (s := sqrt x). assert (0 <= s) as Hs by apply sqrt_pos. assert (s * s = x) as Es by (apply sqrt_sqrt; nra). assert (1 <= s) as Hs1 by nra. assert (q <= s) as Hqs by nra.
  set (r := sqrt s). assert (0 <= r) as Hr by apply sqrt_pos. assert (r * r = s) as Er by (apply sqrt_sqrt; lra). assert (1 <= r <= s) as Hr1 by (split; nra).
  set (e := 1 + ga * x + de * (x * r)).
  assert (Rabs e <= S * (x * s)) as He.
  { unfold e. eapply Rle_trans; [apply Rabs_triang|]. eapply Rle_trans; [apply Rplus_le_compat_r; apply Rabs_triang|].
    rewrite !Rabs_mult, (Rabs_pos_eq x), (Rabs_pos_eq r), Rabs_R1 by (try lra; nra). unfold S.
    assert (1 <= x) by nra. assert (1 <= x * s) by nra. assert (x <= x * s) by nra. assert (x * r <= x * s) by nra.
    pose proof (Rabs_pos ga). pose proof (Rabs_pos de). nra. }
  assert (2 * S * (x * s) <= Rabs A * x ^ 2) as Hbig.
  { assert (q * Rabs A = 2 * S) as Eq by (unfold q; field; lra). rewrite <- Eq. rewrite <- Es. replace (Rabs A * (s * s) ^ 2) with (Rabs A * (s * s * s) * s) by ring.
    replace (q * Rabs A * (s * s * s)) with (Rabs A * (s * s * s) * q) by ring. apply Rmult_le_compat_l; [|exact Hqs]. assert (0 <= s * s * s) by nra. nra. }
  assert (Rabs A * x ^ 2 / 2 <= Rabs (e + A * x ^ 2)) as Hden.
  { pose proof (Rabs_triang (e + A * x ^ 2) (- e)) as T. replace (e + A * x ^ 2 + - e) with (A * x ^ 2) in T by ring. rewrite Rabs_Ropp, Rabs_mult, (Rabs_pos_eq (x ^ 2)) in T by apply pow2_ge_0. lra. }
  assert (0 < Rabs A * x ^ 2 / 2) as Hpos. { apply Rdiv_lt_0_compat; [|lra]. apply Rmult_lt_0_compat; [lra|]. apply pow_lt. nra. }
  assert (e + A * x ^ 2 <> 0) as Hne. { intros E. rewrite E, Rabs_R0 in Hden. lra. }
  unfold G_ML. fold s. fold r. change (1 + ga * x + de * (x * r)) with e. rewrite qdiv_some by exact Hne. eexists; split; [reflexivity|].
  rewrite Rabs_div by exact Hne. apply Rle_div_l; [apply Rabs_pos_lt; exact Hne|].
  apply Rle_trans with (2 * (1 + Rabs al + Rabs be) * x * (Rabs A * x ^ 2 / 2)).
  2:{ apply Rmult_le_compat_l; [|exact Hden]. pose proof (Rabs_pos al). pose proof (Rabs_pos be). assert (1 <= x) by nra. nra. }
  rewrite !Rabs_mult, (Rabs_pos_eq x) by nra.
  assert (Rabs (1 + al * x + be * s) <= (1 + Rabs al + Rabs be) * x).
  { eapply Rle_trans; [apply Rabs_triang|]. eapply Rle_trans; [apply Rplus_le_compat_r; apply Rabs_triang|].
    rewrite !Rabs_mult, (Rabs_pos_eq x), (Rabs_pos_eq s), Rabs_R1 by (try lra; nra). assert (s <= x) by nra. pose proof (Rabs_pos al). pose proof (Rabs_pos be). nra. }
  replace (2 * (1 + Rabs al + Rabs be) * x * (Rabs A * x ^ 2 / 2)) with (Rabs A * x * x * ((1 + Rabs al + Rabs be) * x)) by field.
  apply Rmult_le_compat_l; [|assumption]. assert (1 <= x) by nra. nra.
Qed.
