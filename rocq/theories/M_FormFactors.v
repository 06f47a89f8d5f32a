(** Model of /repo/src/jaxrts/form_factors.py and of the form-factor models of
    /repo/src/jaxrts/models.py.  [None] is nan. *)
From Coq Require Import Reals List Arith.
From Verif Require Import M_Const M_PlasmaState M_Interp.
Import ListNotations.
Open Scope R_scope.

(** form_factors.py:18-85; 1s 2s 2p 3s 3p 3d 4s 4p 4d 4f *)
Definition screening_tables : list (list R * list R) :=
  [([1; 2], [0; 19 / 100]);
   ([3; 10], [125 / 100; 310 / 100]);
   ([5; 10], [250 / 100; 457 / 100]);
   ([11; 18; 20; 30], [66 / 10; 91 / 10; 91 / 10; 109 / 10]);
   ([13; 18; 20; 30], [87 / 10; 109 / 10; 109 / 10; 132 / 10]);
   ([21; 30], [147 / 10; 177 / 10]);
   ([19; 20; 30; 26; 38; 48; 57; 71], [134 / 10; 139 / 10; 215 / 10; 242 / 10; 242 / 10; 256 / 10; 256 / 10; 294 / 10]);
   ([31; 36; 38; 48; 57; 71], [244 / 10; 266 / 10; 266 / 10; 284 / 10; 284 / 10; 328 / 10]);
   ([39; 48; 57; 71], [318 / 10; 340 / 10; 340 / 10; 396 / 10]);
   ([58; 71], [43; 498 / 10])].
Definition pauling_size_screening_constants (Z : R) : list R :=
  map (fun '(xs, ys) => interp None None xs ys Z) screening_tables.
(** form_factors.py:88-89 *)
Definition pauling_effective_charge (Z : R) : list R := map (fun s => Z - s) (pauling_size_screening_constants Z).

Section FF.
  Variable u : consts.
  (** form_factors.py:92-94 *)
  Definition pauling_xf (k Zeff : R) : option R := qdiv (k * a_0 u) (2 * Zeff).
  (** form_factors.py:97-100; for [Zeff = 0] and [k <> 0] the argument is inf and
      the result 0, not nan *)
  Definition pauling_f10 (k Zeff : R) : option R :=
    match pauling_xf k Zeff with
    | Some x => Some (1 / (1 + x ^ 2) ^ 2)
    | None => if Req_EM_T k 0 then None else Some 0
    end.
  (** form_factors.py:103-106 *)
  Definition pauling_f21 (k Zeff : R) : option R :=
    obind (pauling_xf k Zeff) (fun x => let x := 2 * x in
    Some ((1 - x ^ 2) / ((1 + x ^ 2) ^ 4))).
  (** form_factors.py:109-112 *)
  Definition pauling_f20 (k Zeff : R) : option R :=
    obind (pauling_xf k Zeff) (fun x => let x := 2 * x in
    obind (pauling_f21 k Zeff) (fun f => Some ((1 - 2 * x ^ 2) * f))).
  (** form_factors.py:115-118 *)
  Definition pauling_f32 (k Zeff : R) : option R :=
    obind (pauling_xf k Zeff) (fun x => let x := 3 * x in
    Some (((1 - 3 * x ^ 2) * (3 - x ^ 2)) / (3 * (1 + x ^ 2) ^ 6))).
  (** form_factors.py:121-124 *)
  Definition pauling_f31 (k Zeff : R) : option R :=
    obind (pauling_xf k Zeff) (fun x => let x := 3 * x in
    obind (pauling_f32 k Zeff) (fun f => Some ((1 - 4 * x ^ 2) * f))).
  (** form_factors.py:127-130 *)
  Definition pauling_f30 (k Zeff : R) : option R :=
    obind (pauling_xf k Zeff) (fun x => let x := 3 * x in
    obind (pauling_f32 k Zeff) (fun f => Some ((1 - 6 * x ^ 2 + 3 * x ^ 4) * f))).
  (** form_factors.py:133-136 *)
  Definition pauling_f43 (k Zeff : R) : option R :=
    obind (pauling_xf k Zeff) (fun x => let x := 4 * x in
    Some (((1 - x ^ 2) * (1 - 6 * x ^ 2 + x ^ 4)) / (1 + x ^ 2) ^ 8)).
  (** form_factors.py:139-142 *)
  Definition pauling_f42 (k Zeff : R) : option R :=
    obind (pauling_xf k Zeff) (fun x => let x := 4 * x in
    obind (pauling_f43 k Zeff) (fun f => Some ((1 - 6 * x ^ 2) * f))).
  (** form_factors.py:145-148 *)
  Definition pauling_f41 (k Zeff : R) : option R :=
    obind (pauling_xf k Zeff) (fun x => let x := 4 * x in
    obind (pauling_f43 k Zeff) (fun f => Some ((1 - 10 * x ^ 2 + 10 * x ^ 4) * f))).
  (** form_factors.py:151-154 *)
  Definition pauling_f40 (k Zeff : R) : option R :=
    obind (pauling_xf k Zeff) (fun x => let x := 4 * x in
    obind (pauling_f43 k Zeff) (fun f => Some ((1 - 12 * x ^ 2 + 18 * x ^ 4 - 4 * x ^ 6) * f))).
  (** form_factors.py:157-189; [None] is KeyError or nan *)
  Definition pauling_atomic_ff (n l : nat) (k Zeff : R) : option R :=
    match n, l with
    | 1%nat, 0%nat => pauling_f10 k Zeff
    | 2%nat, 0%nat => pauling_f20 k Zeff
    | 2%nat, 1%nat => pauling_f21 k Zeff
    | 3%nat, 0%nat => pauling_f30 k Zeff
    | 3%nat, 1%nat => pauling_f31 k Zeff
    | 3%nat, 2%nat => pauling_f32 k Zeff
    | 4%nat, 0%nat => pauling_f40 k Zeff
    | 4%nat, 1%nat => pauling_f41 k Zeff
    | 4%nat, 2%nat => pauling_f42 k Zeff
    | 4%nat, 3%nat => pauling_f43 k Zeff
    | _, _ => None
    end.
  (** form_factors.py:192-207; the row of every orbital, for one ion *)
  Definition pauling_all_ff (k : R) (Zeff : list R) : list (option R) :=
    map2 (fun f Z => f k Z)
      [pauling_f10; pauling_f20; pauling_f21; pauling_f30; pauling_f31; pauling_f32;
       pauling_f40; pauling_f41; pauling_f42; pauling_f43] Zeff.

  (** form_factors.py:210-261; energies in eV *)
  Definition form_factor_lowering_Zeff_10 (binding_E : R * R) (Z_A : R) (Z_squared_correction : bool) : option (R * R) :=
    let En_H := 13605693122994 / 1000000000000 in
    let corr := if Z_squared_correction then 17728 / 100000000 * Z_A ^ 2 else 0 in
    obind (qdiv (121318355 / 10000000) Z_A) (fun d =>
    obind (obind (qdiv (fst binding_E * 1 ^ 2) (En_H + corr)) sqrto) (fun a =>
    obind (obind (qdiv (snd binding_E * 1 ^ 2) (En_H - d + corr)) sqrto) (fun b =>
    Some (a, b)))).
  Definition clip01 (x : R) : R := Rmin (Rmax x 0) 1.
  (** form_factors.py:264-306 *)
  Definition form_factor_lowering_10 (k : R) (binding_E : R * R) (Z_core Z_A : R) (Z_squared_correction : bool) : option R :=
    obind (form_factor_lowering_Zeff_10 binding_E Z_A Z_squared_correction) (fun Zeff =>
    obind (pauling_f10 k (fst Zeff)) (fun f_H =>
    obind (pauling_f10 k (snd Zeff)) (fun f_He =>
    let x_He := clip01 (Z_core - 1) in
    let x_H := 1 - x_He in
    Some (x_H * f_H + x_He * f_He)))).

  (** models.py:3119-3131 PaulingFormFactors.evaluate: ten rows, one column per ion.
      [ions] are pairs of nuclear charge and bound electrons. *)
  Definition PaulingFormFactors (k : R) (ions : list (R * R)) : nat -> nat -> option R :=
    fun orb idx =>
      let '(Z_A, Z_core) := nth idx ions (0, 0) in
      nth orb (pauling_all_ff k (map (fun s => Z_A - s) (pauling_size_screening_constants Z_core))) None.
  (** models.py:3193-3216: binding energies of the two 1s electrons, eV; [energies] are
      the element's ionisation energies as stored, [ipd] the depression *)
  Definition k_shell (Z_A : R) (energies : list R) (ipd : R) : R * R :=
    let b i := let e := nth i (rev energies) 0 + ipd in if Rlt_dec e 0 then / 1000000 else e in
    (b 0%nat, if Req_EM_T Z_A 1 then 0 else b 1%nat).
  (** models.py:3175-3228 FormFactorLowering.evaluate; [ff.at[idx, 0].set] *)
  Definition FormFactorLowering (corr : bool) (k : R) (ions : list (R * R)) (energies : list (list R)) (ipd : list R)
    : nat -> nat -> option R :=
    fold_left (fun ff idx =>
      let '(Z_A, Z_core) := nth idx ions (0, 0) in
      let f_1s := form_factor_lowering_10 k (k_shell Z_A (nth idx energies []) (at_ ipd idx)) Z_core Z_A corr in
      fun r c => if (Nat.eqb r idx && Nat.eqb c 0)%bool then f_1s else ff r c)
    (seq 0 (length ions)) (PaulingFormFactors k ions).
End FF.
