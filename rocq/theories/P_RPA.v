(** Theorems on the two forms of the damped random phase approximation. *)
From Coq Require Import Reals List Lra Lia Psatz.
From Coquelicot Require Import Coquelicot.
From Verif Require Import M_Const M_PlasmaState M_PlasmaPhysics L_PlasmaPhysics M_Interp M_FreeFree L_FreeFree L_LFC L_RPA L_RPA2.
Import ListNotations.
Open Scope R_scope.

(** ** C113: the rewritten dielectric function is the same *)
Theorem C113_rewritten : forall u quad k T mu E, oquad_exact quad -> 0 < k -> 0 < T -> fst E <> 0 -> snd E <> 0 ->
  exists e, dielectric_function_RPA u quad k E mu T = Some e /\ dielectric_function_RPA_rewrite u quad k E mu T = Some e.
Proof. intros u quad k T mu E Hq Hk HT H0 H1. destruct (two_forms u quad Hq k T mu Hk HT E H1) as (K1 & K2 & _ & _ & A & B). eexists. split; [exact A|now apply B]. Qed.
Print Assumptions C113_rewritten.

Lemma lim_pos (f : R -> R) (K : R) : (forall x : R, continuous f x) -> (forall x, 0 < x -> 0 < f x) -> is_lim (fun X => RInt f 0 X) p_infty K -> 0 < K.
Proof.
  intros Cf Hf HK. pose (v := RInt f 0 1 : R). assert (0 < v) as P by (apply RInt_gt_0; [lra|intros x Hx; apply Hf; lra|intros x _; apply Cf]).
  apply Rlt_le_trans with v; [exact P|]. apply Rnot_lt_le. intros L. apply is_lim_spec in HK. destruct (HK (mkposreal (v - K) ltac:(lra))) as [N HN]. cbn in HN.
  set (X := Rmax (N + 1) 2). specialize (HN X ltac:(unfold X; pose proof (Rmax_l (N + 1) 2); lra)). assert (2 <= X) by (unfold X; apply Rmax_r).
  pose proof (RInt_Chasles (V := R_CompleteNormedModule) f 0 1 X (Int_ex _ _ _ Cf) (Int_ex _ _ _ Cf)) as E. pose (w := RInt f 1 X : R). pose (z := RInt f 0 X : R). change (v + w = z) in E. change (Rabs (z - K) < v - K) in HN.
  assert (0 <= w) by (apply RInt_ge_0; [lra|now apply Int_ex|intros x Hx; left; apply Hf; lra]). apply Rabs_def2 in HN. lra.
Qed.
Lemma lnF_less eta a b : a ^ 2 < b ^ 2 -> lnF eta b < lnF eta a.
Proof. intros H. unfold lnF. apply ln_increasing; [pose proof (exp_pos (eta - b ^ 2)); lra|]. apply Rplus_lt_compat_l. apply exp_increasing. lra. Qed.
Lemma strength_pos u k T : 0 < k -> 0 < T -> 0 < strength u k T.
Proof.
  intros Hk HT. destruct (t_sq u T HT) as [Ht _]. cpos u. pose proof PI_RGT_0. unfold strength. assert (0 < e_ch u ^ 2) by (apply pow_lt; lra). assert (0 < PI ^ 2) by (apply pow_lt; lra). assert (0 < hbar u ^ 2) by (apply pow_lt; lra). assert (0 < k ^ 3) by (apply pow_lt; lra). assert (0 < thermal_unit u T ^ 2) by (apply pow_lt; lra).
  repeat (assumption || lra || apply Rdiv_lt_0_compat || apply Rmult_lt_0_compat).
Qed.
Lemma red_pos u k T E : 0 < k -> 0 < T -> 0 < E -> 0 < red_w u k E T.
Proof. intros Hk HT HE. destruct (t_sq u T HT) as [Ht _]. rewrite red_eq by assumption. cpos u. repeat (assumption || lra || apply Rdiv_lt_0_compat || apply Rmult_lt_0_compat). Qed.
(** the code's static limit of the rewritten form is one *)
Theorem C113_static : forall u quad k T mu E1, oquad_exact quad -> 0 < k -> 0 < T -> 0 < E1 ->
  dielectric_function_RPA_rewrite u quad k (0, E1) mu T = Some (1, 0) /\
  exists e, dielectric_function_RPA u quad k (0, E1) mu T = Some e /\ 1 < fst e.
Proof.
  intros u quad k T mu E1 Hq Hk HT HE. split.
  - unfold dielectric_function_RPA_rewrite, part_rewrite. cbv zeta. cbn [fst snd]. replace (red_w u k 0 T) with 0 by (unfold red_w, Rdiv; ring). destruct (Req_EM_T 0 0) as [_|?]; [|lra].
    destruct (Req_EM_T (red_w u k E1 T) 0) as [E|_]; [pose proof (red_pos u k T E1 Hk HT HE); lra|]. cbn [obind]. do 2 f_equal; ring.
  - destruct (two_forms u quad Hq k T mu Hk HT (0, E1)) as (K1 & K2 & L1 & _ & A & _); [cbn; lra|]. eexists. split; [exact A|]. cbn [fst snd] in *. replace (red_w u k 0 T) with 0 in L1 by (unfold red_w, Rdiv; ring).
    pose proof (red_pos u k T E1 Hk HT HE) as Hd. set (d := red_w u k E1 T) in *. destruct (t_sq u T HT) as [Ht _]. set (c := k * thermal_unit u T / 2) in *. assert (0 < c) as Hc by (unfold c; assert (0 < k * thermal_unit u T) by (apply Rmult_lt_0_compat; lra); lra).
    assert (0 < - K1) as HK. { apply (lim_pos (fun w => - (dF u k T mu w * P_re d 0 w))).
      - intros x. apply (continuous_opp (V := R_NormedModule)). apply (f2_cont (mu / (kB u * T)) c). apply P_re_cont. lra.
      - intros w Hw. assert (dF u k T mu w < 0). { unfold dF. fold c. pose proof (lnF_less (mu / (kB u * T)) (w - c) (w + c) ltac:(nra)). lra. }
        assert (0 < P_re d 0 w). { unfold P_re, lor_p. rewrite Rplus_0_r, Rminus_0_r. pose proof (den_pos d ltac:(lra) w). assert (0 < w / (d ^ 2 + w ^ 2)) by (apply Rdiv_lt_0_compat; lra). lra. } nra.
      - apply (is_lim_ext (fun X => - RInt (fun w => dF u k T mu w * P_re d 0 w) 0 X)); [|apply (is_lim_opp _ p_infty K1); exact L1].
        intros X. symmetry. apply (RInt_opp (V := R_CompleteNormedModule) (fun w => dF u k T mu w * P_re d 0 w) 0 X). apply Int_ex. intros x. apply (f2_cont (mu / (kB u * T)) c). apply P_re_cont. lra. }
    pose proof (strength_pos u k T Hk HT). nra.
Qed.
Print Assumptions C113_static.
Theorem C113_static_refuted : exists u quad k T mu E e e', oquad_exact quad /\ 0 < k /\ 0 < T /\ 0 < snd E /\
  dielectric_function_RPA u quad k E mu T = Some e /\ dielectric_function_RPA_rewrite u quad k E mu T = Some e' /\ e <> e'.
Proof.
  destruct (C113_static unit_consts the_quad 1 1 0 1 the_quad_exact) as (A & e & B & L); try lra.
  exists unit_consts, the_quad, 1, 1, 0, (0, 1), e, (1, 0). split; [exact the_quad_exact|]. cbn [snd]. do 3 (split; [lra|]). split; [exact B|]. split; [exact A|]. intros ->. cbn in L. lra.
Qed.
Print Assumptions C113_static_refuted.

(** ** C114: damping absorbs, and the undamped function is its limit *)
Theorem C114_absorbs : forall u quad k T mu E e, oquad_exact quad -> 0 < k -> 0 < T -> 0 < fst E -> 0 < snd E ->
  (dielectric_function_RPA u quad k E mu T = Some e -> 0 < snd e) /\ (dielectric_function_RPA_rewrite u quad k E mu T = Some e -> 0 < snd e).
Proof.
  intros u quad k T mu E e Hq Hk HT H0 H1. destruct (two_forms u quad Hq k T mu Hk HT E) as (K1 & K2 & _ & L2 & A & B); [lra|]. specialize (B ltac:(lra)).
  enough (0 < strength u k T * K2) by (split; intros Q; [rewrite A in Q|rewrite B in Q]; injection Q as <-; assumption).
  apply Rmult_lt_0_compat; [now apply strength_pos|]. pose proof (red_pos u k T _ Hk HT H0) as Hr. pose proof (red_pos u k T _ Hk HT H1) as Hd. set (d := red_w u k (snd E) T) in *. set (r := red_w u k (fst E) T) in *.
  destruct (t_sq u T HT) as [Ht _]. set (c := k * thermal_unit u T / 2) in *. assert (0 < c) as Hc by (unfold c; assert (0 < k * thermal_unit u T) by (apply Rmult_lt_0_compat; lra); lra).
  apply (lim_pos (fun w => dF u k T mu w * P_im d r w)); [| |exact L2].
  - intros x. apply (f2_cont (mu / (kB u * T)) c). apply P_im_cont. lra.
  - intros w Hw. assert (dF u k T mu w < 0). { unfold dF. fold c. pose proof (lnF_less (mu / (kB u * T)) (w - c) (w + c) ltac:(nra)). lra. }
    assert (P_im d r w < 0). { unfold P_im, lor_s. pose proof (den_pos d ltac:(lra) (w + r)). pose proof (den_pos d ltac:(lra) (w - r)). assert (d / (d ^ 2 + (w + r) ^ 2) < d / (d ^ 2 + (w - r) ^ 2)); [|lra]. unfold Rdiv. apply Rmult_lt_compat_l; [lra|]. apply Rinv_lt_contravar; [now apply Rmult_lt_0_compat|]. nra. } nra.
Qed.
Print Assumptions C114_absorbs.
Lemma undamped u k T mu E : 0 < k -> 0 < T -> imag_no_damping u k E mu T = - (strength u k T * (PI * gF (mu / (kB u * T)) (k * thermal_unit u T / 2) (red_w u k E T))).
Proof.
  intros Hk HT. destruct (t_sq u T HT) as [Ht Et]. cpos u. pose proof PI_RGT_0. unfold imag_no_damping, gF, lnF, logaddexp0, kin_energy. cbv zeta. rewrite red_eq by assumption.
  set (t := thermal_unit u T) in *. set (ka := E / hbar u * m_e u / (hbar u * k)).
  assert (forall q, (mu - hbar u ^ 2 * q ^ 2 / (2 * m_e u)) / (kB u * T) = mu / (kB u * T) - (q * t) ^ 2) as Q. { intros q. rewrite Rpow_mult_distr, Et. field. repeat split; lra. }
  rewrite !Q. replace (((- k / 2 - ka) * t) ^ 2) with ((ka * t + k * t / 2) ^ 2) by field. replace (((k / 2 - ka) * t) ^ 2) with ((ka * t - k * t / 2) ^ 2) by field.
  set (l1 := ln (1 + exp (mu / (kB u * T) - (ka * t + k * t / 2) ^ 2))). set (l2 := ln (1 + exp (mu / (kB u * T) - (ka * t - k * t / 2) ^ 2))).
  unfold strength. fold t. rewrite Et. field. repeat split; lra.
Qed.
Theorem C114_small_damping : forall u quad k T mu E0, oquad_exact quad -> 0 < k -> 0 < T -> 0 < E0 ->
  forall eps, 0 < eps -> exists g, 0 < g /\ forall E1, 0 < E1 < g -> exists e,
    dielectric_function_RPA u quad k (E0, E1) mu T = Some e /\ Rabs (snd e - imag_no_damping u k E0 mu T) < eps.
Proof.
  intros u quad k T mu E0 Hq Hk HT H0 eps Heps. pose proof (red_pos u k T _ Hk HT H0) as Hr. set (r := red_w u k E0 T) in *. pose proof (strength_pos u k T Hk HT) as Hs. set (s := strength u k T) in *.
  destruct (t_sq u T HT) as [Ht _]. set (c := k * thermal_unit u T / 2) in *. assert (0 < c) as Hc by (unfold c; assert (0 < k * thermal_unit u T) by (apply Rmult_lt_0_compat; lra); lra).
  set (eta := mu / (kB u * T)) in *. set (M := 8 * exp eta * PI). pose proof PI_RGT_0. assert (0 < M) as HM by (unfold M; pose proof (exp_pos eta); apply Rmult_lt_0_compat; lra).
  assert (0 < s * M) as HsM by (now apply Rmult_lt_0_compat). set (h := Rmin r (eps / (8 * (s * M)))). assert (0 < eps / (8 * (s * M))) as Hh0 by (apply Rdiv_lt_0_compat; lra).
  assert (0 < h <= r) as Hh by (unfold h; split; [now apply Rmin_pos|apply Rmin_l]). assert (h <= eps / (8 * (s * M))) as Hh2 by (unfold h; apply Rmin_r).
  pose proof (red_pos u k T 1 Hk HT Rlt_0_1) as Hq1. set (q := red_w u k 1 T) in *. set (g := h * eps / (8 * (s * M)) / q). assert (0 < g) as Hg by (unfold g; apply Rdiv_lt_0_compat; [|lra]; apply Rdiv_lt_0_compat; [apply Rmult_lt_0_compat; lra|lra]).
  exists g. split; [exact Hg|]. intros E1 HE1. destruct (two_forms u quad Hq k T mu Hk HT (E0, E1)) as (K1 & K2 & _ & L2 & A & _); [cbn; lra|]. eexists. split; [exact A|]. cbn [fst snd] in *. fold s. rewrite undamped by assumption. fold s eta c r.
  replace (s * K2 - - (s * (PI * gF eta c r))) with (s * (K2 + PI * gF eta c r)) by ring. rewrite Rabs_mult, (Rabs_pos_eq s) by lra.
  assert (red_w u k E1 T = E1 * q) as Ed by (unfold q; rewrite !red_eq by assumption; cpos u; field; repeat split; lra). pose proof (red_pos u k T E1 Hk HT ltac:(lra)) as Hd. rewrite Ed in *.
  pose proof (delta_like eta c r ltac:(lra) Hr (E1 * q) Hd K2 h Hh L2) as B.
  apply Rle_lt_trans with (s * (3 * (E1 * q / h) * (8 * exp eta * PI) + 2 * (PI * (8 * exp eta) * h))); [apply Rmult_le_compat_l; [lra|exact B]|].
  replace (s * (3 * (E1 * q / h) * (8 * exp eta * PI) + 2 * (PI * (8 * exp eta) * h))) with (3 * (E1 * q / h * (s * M)) + 2 * (h * (s * M))) by (unfold M; field; lra).
  assert (h * (s * M) <= eps / 8). { apply Rle_trans with (eps / (8 * (s * M)) * (s * M)); [apply Rmult_le_compat_r; lra|]. right. set (y := s * M) in *. clearbody y. field. lra. }
  assert (E1 * q / h * (s * M) < eps / 8).
  { assert (E1 * q < h * eps / (8 * (s * M))) as L. { apply Rlt_le_trans with (g * q); [apply Rmult_lt_compat_r; lra|]. right. unfold g. set (y := s * M) in *. clearbody y. field. repeat split; lra. }
    apply Rlt_le_trans with (h * eps / (8 * (s * M)) / h * (s * M)); [|right; set (y := s * M) in *; clearbody y; field; repeat split; lra]. apply Rmult_lt_compat_r; [lra|]. unfold Rdiv at 1 2. apply Rmult_lt_compat_r; [apply Rinv_0_lt_compat; lra|exact L]. }
  lra.
Qed.
Print Assumptions C114_small_damping.
(** occupied states that can be scattered to the energy E *)
Theorem C114_states : forall u k T mu E, 0 < k -> 0 < T -> let kappa := m_e u * E / (hbar u ^ 2 * k) in
  imag_no_damping u k E mu T = e_ch u ^ 2 * m_e u / (2 * PI * eps0 u * hbar u ^ 2 * k ^ 3) * RInt (fun Q => Q * fermi_dirac u Q mu T) (kappa - k / 2) (kappa + k / 2).
Proof.
  intros u k T mu E Hk HT kappa. destruct (t_sq u T HT) as [Ht Et]. rewrite undamped by assumption. cpos u. pose proof PI_RGT_0. set (t := thermal_unit u T) in *. set (eta := mu / (kB u * T)).
  assert (is_RInt (fun Q => Q * fermi_dirac u Q mu T) (kappa - k / 2) (kappa + k / 2) (- (/ (2 * t ^ 2)) * lnF eta ((kappa + k / 2) * t) - - (/ (2 * t ^ 2)) * lnF eta ((kappa - k / 2) * t))) as I1.
  { refine (is_RInt_derive (V := R_CompleteNormedModule) (fun Q => - (/ (2 * t ^ 2)) * lnF eta (Q * t)) _ _ _ _ _); intros x _.
    - refine (deq _ x (- / (2 * t ^ 2) * (t * (- 2 * (x * t) * FD eta (x * t)))) _ _ _).
      + unfold eta. rewrite <- (fd_eq u T mu HT (x * t)). fold t. replace (x * t / t) with x by (field; lra). field. lra.
      + apply is_derive_scal. apply (is_derive_comp (K := R_AbsRing) (V := R_NormedModule) (lnF eta) (fun Q => Q * t)); [apply lnF_derive|]. auto_derive; [exact I|ring].
    - apply (ex_derive_continuous (V := R_NormedModule)). unfold fermi_dirac, kin_energy. auto_derive. repeat split; try exact I; try (apply Rgt_not_eq; match goal with |- exp ?a + 1 > 0 => pose proof (exp_pos a) end; lra); try lra. }
  rewrite (is_RInt_unique _ _ _ _ I1). unfold gF. rewrite red_eq by assumption. fold t.
  replace (E / hbar u * m_e u / (hbar u * k) * t + k * t / 2) with ((kappa + k / 2) * t) by (unfold kappa; field; repeat split; lra).
  replace (E / hbar u * m_e u / (hbar u * k) * t - k * t / 2) with ((kappa - k / 2) * t) by (unfold kappa; field; repeat split; lra). unfold strength. fold t. field. repeat split; lra.
Qed.
Print Assumptions C114_states.
Example C114_small_damping_ex : exists g, 0 < g /\ forall E1, 0 < E1 < g -> exists e,
  dielectric_function_RPA unit_consts the_quad 1 (2, E1) 0 1 = Some e /\ Rabs (snd e - imag_no_damping unit_consts 1 2 0 1) < / 10.
Proof. apply (C114_small_damping unit_consts the_quad 1 1 0 2 the_quad_exact); lra. Qed.
Example C113_ex : oquad_exact the_quad /\ exists e, dielectric_function_RPA unit_consts the_quad 1 (1, 1) 0 1 = Some e /\ dielectric_function_RPA_rewrite unit_consts the_quad 1 (1, 1) 0 1 = Some e /\ 0 < snd e.
Proof.
  split; [exact the_quad_exact|]. destruct (C113_rewritten unit_consts the_quad 1 1 0 (1, 1) the_quad_exact) as (e & A & B); [lra|lra|cbn; lra|cbn; lra|]. exists e. split; [exact A|]. split; [exact B|].
  apply (C114_absorbs unit_consts the_quad 1 1 0 (1, 1) e the_quad_exact); cbn [fst snd]; try lra. exact B.
Qed.
