(** Property C25: instrument functions. *)
From Coq Require Import Reals List Arith Lra Lia.
From Coquelicot Require Import Coquelicot.
From Verif Require Import M_Interp L_Interp M_Instrument L_Instrument.
Import ListNotations.
Open Scope R_scope.

(** [area f v] is the improper Riemann integral over the real line.  A peak of full
    width [w]: even, positive, falling, half its height at w/2. *)
Theorem C25_gaussian : forall fwhm, 0 < fwhm ->
  let f := fun x => instrument_gaussian x (sigma_of_fwhm fwhm) in
  is_RInt_gen f (Rbar_locally m_infty) (Rbar_locally p_infty) 1 /\
  (forall x, 0 < f x) /\ (forall x, f (- x) = f x) /\ (forall x y, 0 <= x < y -> f y < f x) /\
  f (fwhm / 2) = f 0 / 2.
Proof.
  intros w Hw f. assert (Hs : 0 < sigma_of_fwhm w).
  { unfold sigma_of_fwhm. apply Rdiv_lt_0_compat; [assumption|]. apply Rmult_lt_0_compat; [lra|]. apply sqrt_lt_R0. pose proof ln2_pos. lra. }
  destruct (gaussian_shape _ Hs) as (H1 & H2 & H3 & H4). rewrite (proj2 (fwhm_sigma w)) in H4.
  split; [now apply gaussian_area|]. split; [exact H1|]. split; [exact H2|]. split; [exact H3|exact H4].
Qed.
Print Assumptions C25_gaussian.

Theorem C25_gaussian_variance_parameter : forall sigma, 0 < sigma ->
  instrument_gaussian sigma sigma = instrument_gaussian 0 sigma * exp (- 1 / 2) /\
  sigma_of_fwhm (fwhm_of_sigma sigma) = sigma.
Proof.
  intros s Hs. split; [|apply fwhm_sigma]. unfold instrument_gaussian.
  replace (- (1 / 2) * s ^ 2 / s ^ 2) with (- 1 / 2) by (field; lra).
  replace (- (1 / 2) * 0 ^ 2 / s ^ 2) with 0 by (field; lra). rewrite exp_0. ring.
Qed.
Print Assumptions C25_gaussian_variance_parameter.

(** Construction: exactly one width is needed, a given FWHM wins, energies become
    frequencies. *)
Theorem C25_construction : forall hb en s f,
  (gaussian_init hb en None None = None) /\
  (forall o, gaussian_init hb en o (Some f) = gaussian_init hb en (Some (sigma_of_fwhm f)) None) /\
  gaussian_init hb false (Some s) None = Some s /\
  gaussian_init hb true (Some s) None = Some (s / hb) /\
  gaussian_init hb true None (Some f) = gaussian_init hb false None (Some (f / hb)).
Proof.
  intros. split; [reflexivity|]. split; [reflexivity|]. split; [reflexivity|]. split; [reflexivity|].
  unfold gaussian_init, sigma_of_fwhm. f_equal. unfold Rdiv. ring.
Qed.
Print Assumptions C25_construction.

Theorem C25_twin_gaussian : forall s1 s2, 0 < s1 -> 0 < s2 ->
  is_RInt_gen (twin_gaussian s1 s2) (Rbar_locally m_infty) (Rbar_locally p_infty) 1 /\
  twin_gaussian s1 s2 (- (fwhm_of_sigma s1 / 2)) = twin_gaussian s1 s2 0 / 2 /\
  twin_gaussian s1 s2 (fwhm_of_sigma s2 / 2) = twin_gaussian s1 s2 0 / 2 /\
  (forall x, twin_gaussian s1 s1 x = instrument_gaussian x s1).
Proof.
  intros s1 s2 H1 H2. destruct (twin_half s1 s2 H1 H2). split; [now apply twin_area|]. split; [assumption|].
  split; [assumption|]. intros x. now apply twin_same.
Qed.
Print Assumptions C25_twin_gaussian.

Theorem C25_lorentzian : forall g, 0 < g ->
  is_RInt_gen (fun x => instrument_lorentzian x g) (Rbar_locally m_infty) (Rbar_locally p_infty) 1 /\
  (forall x, 0 < instrument_lorentzian x g) /\
  (forall x, instrument_lorentzian (- x) g = instrument_lorentzian x g) /\
  (forall x y, 0 <= x < y -> instrument_lorentzian y g < instrument_lorentzian x g) /\
  instrument_lorentzian g g = instrument_lorentzian 0 g / 2.
Proof. intros g Hg. split; [now apply lorentz_area|now apply lorentz_half]. Qed.
Print Assumptions C25_lorentzian.

(** Super-Gaussian: the code normalises a trapezoid sum on 600 points, so that sum
    is 1 (missing: the exact integral).  Power one is a Gaussian up to that norm. *)
Theorem C25_supergaussian_partial : forall sigma p, 0 < sigma ->
  let grid := linspace (-10 * sigma) (10 * sigma) 600 in
  trapz grid (map (fun x => instrument_supergaussian x sigma p) grid) = 1 /\
  (forall x, 0 < instrument_supergaussian x sigma p) /\
  (forall x, instrument_supergaussian (- x) sigma p = instrument_supergaussian x sigma p) /\
  (p = 1 -> exists c, forall x, instrument_supergaussian x sigma p = c * instrument_gaussian x sigma).
Proof.
  intros sigma p Hs grid. pose proof (sg_norm_pos sigma p Hs) as HN.
  split; [now apply sg_discrete_area|]. split.
  { intros x. apply Rdiv_lt_0_compat; [apply exp_pos|now apply Rmult_lt_0_compat]. }
  split; [intros x; unfold instrument_supergaussian; now replace ((- x) ^ 2) with (x ^ 2) by ring|].
  intros Hp. exists (sigma * sqrt (2 * PI) / (sg_norm sigma p * sigma)). intros x.
  pose proof (sg_power_one_shape sigma x p Hs Hp) as H. apply (Rmult_eq_reg_r (sg_norm sigma p * sigma)).
  - rewrite H. field. split; lra.
  - apply Rgt_not_eq. now apply Rmult_lt_0_compat.
Qed.
Print Assumptions C25_supergaussian_partial.

(** The stated FWHM of a super-Gaussian is wrong for every power but one. *)
Theorem C25_refuted : exists sigma p, 0 < sigma /\ 0 < p /\
  instrument_supergaussian (fwhm_of_sigma sigma / 2) sigma p <> instrument_supergaussian 0 sigma p / 2.
Proof. exists 1, 2. split; [lra|]. split; [lra|]. rewrite sg_half by lra. lra. Qed.
Print Assumptions C25_refuted.
Theorem C25_supergaussian_width_exactly_for_power_one : forall sigma p, 0 < sigma -> 0 < p ->
  (instrument_supergaussian (fwhm_of_sigma sigma / 2) sigma p = instrument_supergaussian 0 sigma p / 2 <-> p = 1).
Proof. exact sg_half. Qed.
Print Assumptions C25_supergaussian_width_exactly_for_power_one.

(** Tabulated instrument function. *)
Theorem C25_tabulated : forall w ints,
  (forall i j, (i < j < length w)%nat -> nth i w 0 < nth j w 0) ->
  length w = length ints -> (2 <= length w)%nat -> trapz w ints <> 0 ->
  is_RInt_gen (from_array w ints) (Rbar_locally m_infty) (Rbar_locally p_infty) 1 /\
  (forall i, (i < length w)%nat -> from_array w ints (nth i w 0) = nth i ints 0 / trapz w ints) /\
  (forall x, x < nth 0 w 0 \/ nth (length w - 1) w 0 < x -> from_array w ints x = 0).
Proof.
  intros w ints Hw HL Hn Ht. split; [now apply from_array_area|]. split.
  - intros i Hi. unfold from_array. change (nth i w 0) with (at_ w i). rewrite interp_knot by assumption.
    unfold from_array_ints, at_. rewrite (nth_indep _ 0 ((fun y => / trapz w ints * y) 0)) by (rewrite map_length; lia).
    rewrite (map_nth (fun y => / trapz w ints * y)). field. assumption.
  - intros x [Hx|Hx]; unfold from_array.
    + now rewrite interp_left by (try lia; try assumption; now apply incr_asc).
    + now rewrite interp_right by assumption.
Qed.
Print Assumptions C25_tabulated.

Example C25_ex_gaussian : instrument_gaussian (5 / 2) (sigma_of_fwhm 5) = instrument_gaussian 0 (sigma_of_fwhm 5) / 2.
Proof. apply (C25_gaussian 5). lra. Qed.
Example C25_ex_twin : twin_gaussian 1 3 (fwhm_of_sigma 3 / 2) = twin_gaussian 1 3 0 / 2.
Proof. apply (C25_twin_gaussian 1 3); lra. Qed.
Example C25_ex_lorentz : instrument_lorentzian 7 7 = instrument_lorentzian 0 7 / 2.
Proof. apply (C25_lorentzian 7). lra. Qed.
Example C25_ex_super : trapz (linspace (-10 * 2) (10 * 2) 600) (map (fun x => instrument_supergaussian x 2 3) (linspace (-10 * 2) (10 * 2) 600)) = 1.
Proof. apply (C25_supergaussian_partial 2 3). lra. Qed.
Example C25_ex_tab : from_array [-1; 0; 2] [1; 4; 2] 0 = 4 / (17 / 2).
Proof.
  assert (Ht : trapz [-1; 0; 2] [1; 4; 2] = 17 / 2) by (cbn; lra). rewrite <- Ht.
  apply (C25_tabulated [-1; 0; 2] [1; 4; 2]) with (i := 1%nat); cbn [length]; try lia; [|rewrite Ht; lra].
  intros i j Hij. destruct i as [|[|[|i]]], j as [|[|[|j]]]; cbn in *; try lia; lra.
Qed.
