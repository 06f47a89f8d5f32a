(** Theorems about the inverse fit and the exact Fermi integral. *)
From Coq Require Import Reals List Arith ZArith QArith Qreals Lra Lia Psatz.
From Coquelicot Require Import Coquelicot.
From Verif Require Import M_Const M_PlasmaState M_PlasmaPhysics M_FreeFree M_ChemPot P_Dandrea M_Math L_Poly L_Fermi L_FermiFit L_FermiFit2 L_FermiTables L_FermiMid P_FermiFit P_FermiMid P_FermiInv.
Import ListNotations.
Open Scope R_scope.

(** the Fermi integral of order 1/2 grows at a rate bounded below *)
Lemma fermi_growth x d : x < 2 -> 0 < d -> fermi_integral x (1 / 2) * (1 + (1 - exp (- d)) / 9) <= fermi_integral (x + d) (1 / 2) /\ 0 < fermi_integral x (1 / 2).
Proof.
  intros Hx Hd. destruct prims as (_ & (P & HP) & _). pose proof sP0 as S0. set (G := 1 / 2 * sqrt PI) in *. assert (0 < G) as G0 by (unfold G; lra).
  replace (INR 1 - 1 / 2) with (1 / 2) in HP by (cbn [INR]; field).
  assert (forall w, (1 + w) * pe [] w = 1 - (fun _ => 1) w) as Hq by (intros; cbn; ring). assert (forall w, 0 <= w <= exp x -> Rabs ((fun _ => 1) w) <= 1) as He by (intros; rewrite Rabs_R1; lra).
  destruct (fermi_poly _ P G x [] (fun _ => 1) 1 HP G0 Hq He) as (F1 & H1 & _ & L1). destruct (fermi_series _ P G (x + d) 0 HP ltac:(lra)) as (F2 & H2 & _).
  unfold fermi_integral. rewrite (gamma_prim _ _ _ HP).
  assert (RInt_gen (fun t : R => Rpower t (1 / 2) / (exp (t - x) + 1)) (at_right 0) (Rbar_locally p_infty) = F1) as -> by (apply (is_RInt_gen_unique (V := R_CompleteNormedModule)); exact H1).
  assert (RInt_gen (fun t : R => Rpower t (1 / 2) / (exp (t - (x + d)) + 1)) (at_right 0) (Rbar_locally p_infty) = F2) as -> by (apply (is_RInt_gen_unique (V := R_CompleteNormedModule)); exact H2).
  assert (0 < F1) as F10. { eapply Rlt_le_trans; [|exact L1]. apply Rmult_lt_0_compat; [exact G0|]. apply Rdiv_lt_0_compat; pose proof (exp_pos x); lra. }
  split; [|apply Rdiv_lt_0_compat; lra]. set (k := 1 + (1 - exp (- d)) / 9). replace (F1 / G * k) with (k * F1 / G) by (field; lra). apply Rmult_le_compat_r; [left; now apply Rinv_0_lt_compat|].
  assert (IG (fun t => k * fterm (1 / 2) x t) (k * F1)) as H3 by exact (is_RInt_gen_scal _ k _ H1). eapply IG_le; [|exact H3|exact H2]. intros t Ht. unfold fterm.
  assert (0 < Rpower t (1 / 2)) as R0 by apply exp_pos. replace (k * (Rpower t (1 / 2) / (exp (t - x) + 1))) with (Rpower t (1 / 2) * (k / (exp (t - x) + 1))) by (field; pose proof (exp_pos (t - x)); lra). apply Rmult_le_compat_l; [lra|].
  replace (t - (x + d)) with (- d + (t - x)) by ring. rewrite exp_plus. set (v := exp (t - x)). set (q := exp (- d)) in *. assert (0 < q < 1) as Hq1. { split; [apply exp_pos|]. unfold q. rewrite <- exp_0. apply exp_increasing. lra. }
  assert (1 / 8 < v) as Hv. { unfold v. replace (t - x) with (- (x - t)) by ring. rewrite exp_Ropp. replace (1 / 8) with (/ 8) by field. apply Rinv_lt_contravar; [apply Rmult_lt_0_compat; [apply exp_pos|lra]|]. apply Rlt_trans with (exp 2); [apply exp_increasing; lra|]. pose proof exp2_approx as [_ H]. unfold Q2R in H; cbn in H. lra. }
  assert (0 < q * v) as Qv by (apply Rmult_lt_0_compat; lra). unfold k. apply Rmult_le_reg_r with ((v + 1) * (q * v + 1)); [apply Rmult_lt_0_compat; lra|]. replace ((1 + (1 - q) / 9) / (v + 1) * ((v + 1) * (q * v + 1))) with ((1 + (1 - q) / 9) * (q * v + 1)) by (field; lra). replace (/ (q * v + 1) * ((v + 1) * (q * v + 1))) with (v + 1) by (field; lra). assert (q * v <= 1 * v) as Q1 by (apply Rmult_le_compat_r; lra). assert (0 <= (1 - q) * (9 * v - (q * v + 1))) as Q2 by (apply Rmult_le_pos; lra). lra.
Qed.
(** ** C124 *)
(** the inverse recovers the degeneracy parameter from the exact Fermi integral, not only from its fit *)
Theorem C124_exact : forall eta, eta < 199 / 100 -> exists r, inverse_fermi_12_fukushima (fermi_integral eta (1 / 2)) = Some r /\ Rabs (r - eta) <= 3 / 100000 * (1 + Rabs eta).
Proof.
  intros x Hx. pose proof sP0 as S0. set (L := low qa_12 qb_12 (1 / 2 * sqrt PI)). set (d := 1 / 50000).
  assert (forall x, x < 2 -> Rabs (L x - fermi_integral x (1 / 2)) <= 1 / 1000000 * fermi_integral x (1 / 2)) as C.
  { intros z Hz. destruct (C122_below_step z Hz) as (_ & (_ & v & Ev & _ & B) & _). rewrite fit_1 in Ev. unfold fitf in Ev. destruct (Rlt_dec z 2) as [_|N]; [|contradiction]. injection Ev as <-. exact B. }
  assert (1 - exp (- d) >= d * (99 / 100)) as Hd. { rewrite exp_Ropp. pose proof (exp_ineq1_le d) as H. assert (0 < 1 + d) by (unfold d; lra). assert (/ exp d <= / (1 + d)) by (apply Rinv_le_contravar; lra). assert (/ (1 + d) <= 1 - d * (99 / 100)). { apply Rmult_le_reg_r with (1 + d); [lra|]. rewrite Rinv_l by lra. unfold d. lra. } lra. }
  destruct (fermi_growth x d ltac:(lra) ltac:(unfold d; lra)) as [G1 P1]. destruct (fermi_growth (x - d) d ltac:(unfold d; lra) ltac:(unfold d; lra)) as [G2 P2]. replace (x - d + d) with x in G2 by ring.
  pose proof (C (x + d) ltac:(unfold d; lra)) as C1. pose proof (C (x - d) ltac:(unfold d; lra)) as C2. apply Rabs_le_between in C1, C2. set (F := fermi_integral x (1 / 2)) in *. set (Fp := fermi_integral (x + d) (1 / 2)) in *. set (Fm := fermi_integral (x - d) (1 / 2)) in *.
  assert (L (x - d) < F < L (x + d)) as IV. { set (k := (1 - exp (- d)) / 9) in *. assert (22 / 10000000 - 1 / 10000000 <= k) as Hk by (unfold k, d in *; lra). assert (Fm * (1 + 21 / 10000000) <= Fm * (1 + k)) by (apply Rmult_le_compat_l; lra). assert (F * (1 + 21 / 10000000) <= F * (1 + k)) by (apply Rmult_le_compat_l; lra). split; lra. }
  destruct (IVT (fun z => L z - F) (x - d) (x + d)) as (z & Hz & E); [| unfold d; lra | lra | lra |].
  { intros z. apply continuity_pt_minus; [|apply continuity_pt_const; intros a b; reflexivity]. apply continuity_pt_filterlim. apply (low_cont qa_12 qb_12 (1 / 2 * sqrt PI) z). vm_compute. reflexivity. }
  destruct (C124_roundtrip z) as (y & r & Ey & Er & B). rewrite fit_1 in Ey. unfold fitf in Ey. destruct (Rlt_dec z 2) as [_|N]; [|unfold d in Hz; lra]. injection Ey as <-. fold L in Er. replace (L z) with F in Er by lra. exists r. split; [exact Er|].
  assert (Rabs z <= Rabs x + d) as Hza. { replace z with (x + (z - x)) by ring. eapply Rle_trans; [apply Rabs_triang|]. apply Rplus_le_compat_l. apply Rabs_le. lra. }
  replace (r - x) with ((r - z) + (z - x)) by ring. eapply Rle_trans; [apply Rabs_triang|]. assert (Rabs (z - x) <= d) by (apply Rabs_le; lra). pose proof (Rabs_pos x). unfold d in *. lra.
Qed.
Print Assumptions C124_exact.
Example C124_exact_ex : exists r, inverse_fermi_12_fukushima (fermi_integral 1 (1 / 2)) = Some r /\ Rabs (r - 1) <= 6 / 100000.
Proof. destruct (C124_exact 1 ltac:(lra)) as (r & E & B). exists r. split; [exact E|]. rewrite Rabs_R1 in B. lra. Qed.

(** ** C125 *)
(** the screening length of ipd.py is, to one part in a million of its square, the one of the ideal Fermi gas *)
Theorem C125_screening_exact : forall u T eta, 0 < T -> eta < 2 -> exists kappa, screening_at u T eta = Some kappa /\ 0 < kappa /\
  let exact := e_ch u ^ 2 / (eps0 u * kB u * T) * (2 / therm_de_broglie_wl u T ^ 3) * fermi_integral eta (-1 / 2) in
  0 < exact /\ Rabs (kappa ^ 2 - exact) <= 1 / 1000000 * exact.
Proof.
  intros u T eta HT He. destruct (C125_screening_ipd u T eta HT) as (k & F & Ek & Hk & EF & E2). exists k. split; [exact Ek|]. split; [exact Hk|]. destruct (C122_below_step eta He) as ((_ & v & Ev & F0 & B) & _). rewrite EF in Ev. injection Ev as <-. cbv zeta.
  set (c := e_ch u ^ 2 / (eps0 u * kB u * T) * (2 / therm_de_broglie_wl u T ^ 3)) in *. set (I := fermi_integral eta (-1 / 2)) in *.
  assert (0 < F) as F1. { apply Rabs_le_between in B. lra. } assert (0 < c) as C0. { assert (0 < k ^ 2) as K by (apply pow_lt; lra). rewrite E2 in K. destruct (Rlt_le_dec 0 c) as [|N]; [assumption|]. exfalso. assert (0 <= - c * F) by (apply Rmult_le_pos; lra). lra. }
  split; [now apply Rmult_lt_0_compat|]. rewrite E2. replace (c * F - c * I) with (c * (F - I)) by ring. rewrite Rabs_mult, (Rabs_pos_eq c) by lra. replace (1 / 1000000 * (c * I)) with (c * (1 / 1000000 * I)) by ring. apply Rmult_le_compat_l; lra.
Qed.
Print Assumptions C125_screening_exact.
Example C125_screening_exact_ex : exists kappa, screening_at unit_consts 1 1 = Some kappa /\ 0 < kappa.
Proof. destruct (C125_screening_exact unit_consts 1 1 ltac:(lra) ltac:(lra)) as (k & E & H & _). exists k. split; assumption. Qed.
