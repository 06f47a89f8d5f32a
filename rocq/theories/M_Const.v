(** Physical constants (pint's unit registry, /repo/src/jaxrts/units.py).
    Only their signs are used. *)
From Coq Require Import Reals Lra.
Open Scope R_scope.

Record consts := mkConsts {
  hbar : R; c_light : R; e_ch : R; eps0 : R; kB : R; m_e : R; amu : R; a_0 : R;
  hbar_pos : 0 < hbar; c_pos : 0 < c_light; e_pos : 0 < e_ch; eps0_pos : 0 < eps0;
  kB_pos : 0 < kB; m_e_pos : 0 < m_e; amu_pos : 0 < amu; a_0_pos : 0 < a_0
}.
(** Planck's constant *)
Definition planck (u : consts) : R := 2 * PI * hbar u.
Lemma planck_pos u : 0 < planck u.
Proof. unfold planck. pose proof PI_RGT_0. pose proof (hbar_pos u). apply Rmult_lt_0_compat; lra. Qed.

(** The record is inhabited (natural units). *)
Definition unit_consts : consts := mkConsts 1 1 1 1 1 1 1 1 Rlt_0_1 Rlt_0_1 Rlt_0_1 Rlt_0_1 Rlt_0_1 Rlt_0_1 Rlt_0_1 Rlt_0_1.

(** Square root and division as the code computes them: [None] stands for nan
    (negative radicand) or inf/nan (zero denominator). *)
Definition sqrto (x : R) : option R := if Rlt_dec x 0 then None else Some (sqrt x).
Definition qdiv (x y : R) : option R := if Req_EM_T y 0 then None else Some (x / y).
Lemma sqrto_some x : 0 <= x -> sqrto x = Some (sqrt x).
Proof. intros H. unfold sqrto. destruct (Rlt_dec x 0); [lra|reflexivity]. Qed.
Lemma qdiv_some x y : y <> 0 -> qdiv x y = Some (x / y).
Proof. intros H. unfold qdiv. destruct (Req_EM_T y 0); [contradiction|reflexivity]. Qed.
