(** C124: the fits of the inverse Fermi integral of order 1/2. *)
From Coq Require Import Reals List Arith ZArith QArith Qreals Lra Lia.
From Coquelicot Require Import Coquelicot.
From Verif Require Import M_Const M_PlasmaState M_Math L_Poly L_Fermi L_FermiFit L_FermiFit2 L_FermiTables L_FermiInv2 P_FermiFit.
Import ListNotations.
Open Scope R_scope.

Lemma gamma_32 : gamma (1 / 2 + 1) = 1 / 2 * sqrt PI.
Proof. destruct prims as (_ & (P & HP) & _). replace (1 / 2 + 1) with (INR 1 - 1 / 2 + 1) by (cbn [INR]; field). exact (gamma_prim _ _ _ HP). Qed.

(** Fukushima's fit of the inverse undoes Antia's fit of the integral, at every degeneracy parameter *)
Theorem C124_roundtrip : forall eta, exists y r, fermi_12_antia eta = Some y /\ inverse_fermi_12_fukushima y = Some r /\ Rabs (r - eta) <= 1 / 1000000 * (1 + Rabs eta).
Proof.
  intros x. destruct (round_all x) as (r & E & B). exists (XX x / (1 / 2 * sqrt PI)), r. split; [rewrite fit_1; f_equal; apply fitf_XX|]. split; [|exact B].
  rewrite inv_of, gamma_32, <- E. f_equal. field. pose proof sP0. lra.
Qed.
Print Assumptions C124_roundtrip.

(** two degeneracy parameters whose integrals agree to all digits are the same up to the fits' accuracy; in particular the inverse keeps the order of well separated arguments *)
Theorem C124_order : forall x y fx fy rx ry, fermi_12_antia x = Some fx -> fermi_12_antia y = Some fy -> inverse_fermi_12_fukushima fx = Some rx -> inverse_fermi_12_fukushima fy = Some ry ->
  1 / 1000000 * (2 + Rabs x + Rabs y) < y - x -> rx < ry.
Proof.
  intros x y fx fy rx ry E1 E2 E3 E4 H. destruct (C124_roundtrip x) as (y1 & r1 & A1 & A2 & A3). destruct (C124_roundtrip y) as (y2 & r2 & B1 & B2 & B3).
  rewrite E1 in A1. injection A1 as <-. rewrite E2 in B1. injection B1 as <-. rewrite E3 in A2. injection A2 as <-. rewrite E4 in B2. injection B2 as <-. apply Rabs_le_between in A3, B3. lra.
Qed.
Print Assumptions C124_order.
Example C124_ex : exists y r, fermi_12_antia 5 = Some y /\ inverse_fermi_12_fukushima y = Some r /\ 4999 / 1000 < r < 5001 / 1000.
Proof. destruct (C124_roundtrip 5) as (y & r & A & B & C). exists y, r. split; [exact A|split; [exact B|]]. rewrite (Rabs_pos_eq 5) in C by lra. apply Rabs_le_between in C. lra. Qed.

(** Antia's fit of the inverse is normalised twice: in the nondegenerate limit it is low by ln Gamma(3/2) *)
Theorem C124_antia_refuted : exists eta y r, fermi_12_antia eta = Some y /\ inverse_fermi_12_antia y = Some r /\ r < eta - 1 / 10.
Proof.
  set (z := (1 # 100)%Q). assert (Q2R z = 1 / 100) as Ez by (unfold z, Q2R; cbn; field). set (X := (z * (pval qa_12 z / pval qb_12 z))%Q). pose proof (lowX_ln z ltac:(lra)) as EX. fold X in EX.
  assert (ln (Q2R z) < 2) as L2. { rewrite Ez. apply Rlt_trans with (ln 1); [apply ln_increasing; lra|rewrite ln_1; lra]. } pose proof sP0 as H0. pose proof sqrt_PI_approx as HP.
  exists (ln (Q2R z)), (Q2R X / (1 / 2 * sqrt PI)), (ln (1 / 2 * sqrt PI * Q2R X * (pe (rq qa_inv) (Q2R X) / pe (rq qb_inv) (Q2R X)))).
  assert (0 < Q2R X) as X0 by (apply Qpos_R; vm_compute; reflexivity). assert (Q2R X < 1) as X1. { rewrite <- Q2R_1. apply not_le. vm_compute. reflexivity. }
  assert (0 < pe (rq qa_inv) (Q2R X)) as A0 by (rewrite pe_val; apply Qpos_R; vm_compute; reflexivity). assert (0 < pe (rq qb_inv) (Q2R X)) as B0 by (rewrite pe_val; apply Qpos_R; vm_compute; reflexivity).
  assert (0 < pe (rq qa_inv) (Q2R X) / pe (rq qb_inv) (Q2R X)) as R0 by now apply Rdiv_lt_0_compat.
  split; [|split].
  - rewrite fit_1. f_equal. rewrite fitf_XX. unfold XX. destruct (Rlt_dec (ln (Q2R z)) 2) as [_|N]; [|contradiction]. fold (lowX (ln (Q2R z))). rewrite EX. reflexivity.
  - unfold inverse_fermi_12_antia, X_n. rewrite gamma_32. replace (Q2R X / (1 / 2 * sqrt PI) * (1 / 2 * sqrt PI)) with (Q2R X) by (field; lra).
    destruct (Rlt_dec (Q2R X) (4 * (1 / 2 * sqrt PI))) as [_|N]; [|lra]. rewrite R1_pe, ea_inv, eb_inv, qdiv_some by lra. cbn [obind]. unfold lno. destruct (Rlt_dec 0 _) as [_|N]; [reflexivity|]. exfalso. apply N. repeat (apply Rmult_lt_0_compat; try lra).
  - set (q := pe (rq qa_inv) (Q2R X) / pe (rq qb_inv) (Q2R X)) in *. assert (Q2R X * q <= 101 / 100 * Q2R z) as B.
    { unfold q. rewrite !pe_val. rewrite <- Q2R_div by (intros E; apply Qeq_eqR in E; rewrite <- pe_val, Q2R_0 in E; lra). replace (101 / 100) with (Q2R (101 # 100)) by (unfold Q2R; cbn; field). rewrite <- !Q2R_mult. apply Q2R_le. vm_compute. reflexivity. }
    assert (0 < Q2R X * q) as P by now apply Rmult_lt_0_compat.
    assert (1 / 2 * sqrt PI * Q2R X * q <= 9 / 10 * Q2R z) as B2 by nra.
    assert (0 < 1 / 2 * sqrt PI * Q2R X * q) as P2 by (rewrite Rmult_assoc; apply Rmult_lt_0_compat; lra).
    apply Rle_lt_trans with (ln (9 / 10 * Q2R z)). { destruct (Rle_lt_or_eq_dec _ _ B2) as [L|L]; [left; now apply ln_increasing|rewrite L; lra]. }
    rewrite ln_mult by lra. pose proof (exp_ineq1 (ln (9 / 10))) as K. rewrite exp_ln in K by lra. assert (ln (9 / 10) <> 0) as N by (apply Rlt_not_eq; rewrite <- ln_1; apply ln_increasing; lra). specialize (K N). lra.
Qed.
Print Assumptions C124_antia_refuted.
