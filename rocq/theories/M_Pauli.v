(** The Pauli potentials from the classical map, hnc_potentials.py:36-252, and
    PauliClassicalMap, hnc_potentials.py:1532-1622.

    All quantities are in SI units, but [.at[...].get()] on a quantity hands out its bare
    magnitude, so the unit the caller chose enters: [uL] is the size of the unit of r2 and
    [uT] that of the temperature (1 for kelvin, e/kB for eV/kB).  k2 is then kept in 1/uL
    and the potential in uL^3 kB uT. *)
From Coq Require Import Reals List Arith.
From Verif Require Import M_Const M_PlasmaState M_PlasmaPhysics M_Interp M_HNC.
Import ListNotations.
Open Scope R_scope.

Section Pauli.
  Variable u : consts.
  Variables uL uT : R.

  (** 10^-10 m *)
  Definition angstrom : R := / 10 ^ 10.
  (** jnp.argmax(jnp.where(k < lim, jnp.arange(k.size), -1.0)), :108-113, :228-233 *)
  Fixpoint last_below (k : nat -> R) (lim : R) (N : nat) : nat :=
    match N with O => O | S m => if Rlt_dec (k m) lim then m else last_below k lim m end.
  (** potential.at[i].get() * 1 * ureg.electron_volt * ureg.a0**3, :115-116, :235-237 *)
  Definition pick_V (V : R) : R := V / (uL ^ 3 * (kB u * uT)) * (e_ch u * a_0 u ^ 3).
  (** k2.at[i].get() / (1 * ureg.a0), :117-118, :239-240 *)
  Definition pick_k (k : R) : R := k * uL / a_0 u.
  (** interp_func, :120-125, :242-247; nan for equal points *)
  Definition interp_func (f1 f2 x1 x2 x : R) : option R :=
    obind (qdiv (f2 - f1) (x2 ^ 2 - x1 ^ 2)) (fun a =>
    let c := f1 - a * x1 ^ 2 in Some (a * x ^ 2 + c)).
  (** :106-127, :226-249: [V0] is the array the two values are picked from, [V] the one to
      be completed *)
  Definition fix_origin (N : nat) (lim1 lim2 : R) (k : nat -> R) (V0 V : nat -> R) (m : nat) : option R :=
    let index1 := last_below k (lim1 / angstrom) N in
    let index2 := last_below k (lim2 / angstrom) N in
    let f1 := pick_V (V0 index1) in
    let f2 := pick_V (V0 index2) in
    let x1 := pick_k (k index1) in
    let x2 := pick_k (k index2) in
    if Rlt_dec (k m) x1 then interp_func f1 f2 x1 x2 (k m) else Some (V m).

  (** :52-68 and :146-172: the ideal pair distribution of the density [n] on r1 *)
  Definition F_T (N1 : nat) (r1 : nat -> R) (n T : R) (j : nat) : R :=
    let k_F := fermi_wavenumber n in
    let k1 := k_grid N1 r1 in
    let chem_pot := chem_pot_sommerfeld u T n in
    let n_k := fun m => fermi_dirac u (k1 m) chem_pot T in
    6 * PI ^ 2 / k_F ^ 3 * fourier_transform_sine N1 r1 k1 n_k j / (2 * PI) ^ 3.
  Definition clip (g : R) : R := if Rle_dec g 0 then / 10 ^ 14 else g.
  (** :70-90 *)
  Definition g0_averaged (N1 : nat) (r1 r2 : nat -> R) (n T : R) (j : nat) : R :=
    let g0 := fun i => 1 - F_T N1 r1 n T i ^ 2 in
    let g0 := fun i => g0 i / 2 + 1 / 2 in
    let g0 := fun i => clip (g0 i) in
    interp (Some (1 / 2)) (Some 1) (map r1 (seq 0 N1)) (map g0 (seq 0 N1)) (r2 j).
  (** :145-151, :185-199, the diagonal of the two spins; both have the density n_e / 2 *)
  Definition g0_same (N1 : nat) (r1 r2 : nat -> R) (n_e T : R) (j : nat) : R :=
    let n := n_e / 2 in
    let g0 := fun i => 1 - F_T N1 r1 n T i ^ 2 in
    let g0 := fun i => clip (g0 i) in
    interp (Some (1 / 2)) (Some 1) (map r1 (seq 0 N1)) (map g0 (seq 0 N1)) (r2 j).
  Definition g0_separated (N1 : nat) (r1 r2 : nat -> R) (n_e T : R) : arr3 :=
    fun a b j => if Nat.eqb a b then g0_same N1 r1 r2 n_e T j else 1.

  (** :92-104: the hypernetted chain equations solved for the potential of the pair
      distribution [g0] *)
  Definition potential_averaged (N2 : nat) (r2 : nat -> R) (n_e T : R) (g0 : nat -> R) (m : nat) : option R :=
    let k2 := k_grid N2 r2 in
    let h0 := fun j => g0 j - 1 in
    let Ns := fun j => ln (g0 j) in
    let N_k := fourier_transform_sine N2 k2 r2 Ns in
    let h0_k := fourier_transform_sine N2 k2 r2 h0 in
    let cs_k := fun m => h0_k m - N_k m in
    obind (qdiv (h0_k m) (1 + n_e * h0_k m)) (fun c_k =>
    Some ((cs_k m - c_k) * (1 * kB u * T))).
  (** jnp.linalg.inv of two by two matrices *)
  Definition inv2 (A : nat -> nat -> R) : option (nat -> nat -> R) :=
    let det := A 0%nat 0%nat * A 1%nat 1%nat - A 0%nat 1%nat * A 1%nat 0%nat in
    if Req_EM_T det 0 then None else
    Some (fun i j =>
      (if Nat.eqb i j then A (1 - i)%nat (1 - j)%nat else - A i j) / det).
  (** ozr_inverted, :209-222 *)
  Definition ozr_inverted (n : nat -> R) (h : nat -> nat -> R) : option (nat -> nat -> R) :=
    let d := fun i j => delta i j * n j in
    obind (inv2 (fun i j => delta i j + nsum 2 (fun s => d i s * h s j))) (fun B =>
    Some (fun i j => nsum 2 (fun s => h i s * B s j))).
  (** :200-224 *)
  Definition potential_separated (N2 : nat) (r2 : nat -> R) (n_e T : R) (g0 : arr3) (a b m : nat) : option R :=
    let n := fun _ : nat => n_e / 2 in
    let k2 := k_grid N2 r2 in
    let N_k := three_d_four N2 k2 r2 (fun a b j => ln (g0 a b j)) in
    let h0_k := three_d_four N2 k2 r2 (fun a b j => g0 a b j - 1) in
    let cs_k := fun a b m => h0_k a b m - N_k a b m in
    obind (ozr_inverted n (fun a b => h0_k a b m)) (fun c_k =>
    Some ((cs_k a b m - c_k a b) * (1 * kB u * T))).

  (** an array that may hold nan *)
  Definition all_ok (N : nat) (V : nat -> option R) : option (nat -> R) :=
    if forallb (fun m => match V m with Some _ => true | None => false end) (seq 0 N)
    then Some (fun m => match V m with Some v => v | None => 0 end) else None.
  (** pauli_potential_from_classical_map_SpinAveraged, :36-129; the potential on k2.
      nan entries of the raw potential make the whole array nan here, one of them in the
      code *)
  Definition pauli_averaged (N1 N2 : nat) (r1 r2 : nat -> R) (n_e T : R) (m : nat) : option R :=
    let k2 := k_grid N2 r2 in
    obind (all_ok N2 (potential_averaged N2 r2 n_e T (g0_averaged N1 r1 r2 n_e T))) (fun V =>
    fix_origin N2 (8 / 10) 1 k2 V V m).
  (** pauli_potential_from_classical_map_SpinSeparated, :132-252: the two values are those
      of the component (1, 1), the parabola is written into all four *)
  Definition pauli_separated (N1 N2 : nat) (r1 r2 : nat -> R) (n_e T : R) (a b m : nat) : option R :=
    let k2 := k_grid N2 r2 in
    let g0 := g0_separated N1 r1 r2 n_e T in
    obind (all_ok N2 (potential_separated N2 r2 n_e T g0 1 1)) (fun V11 =>
    obind (all_ok N2 (potential_separated N2 r2 n_e T g0 a b)) (fun V =>
    fix_origin N2 1 2 k2 V11 V m)).

  (** PauliClassicalMap.full_k, :1553-1611: the grid of the inner functions is built from
      the given one, theirs (k_) is dropped.  [ions] is the number of ion species, [N1]
      and [r_calc] the fine grid of :1560-1561. *)
  Definition r_of_k (N : nat) (k : nat -> R) (j : nat) : R :=
    let dk := k 1%nat - k 0%nat in
    let dr := PI / (INR N * dk) in
    PI / k (N - 1)%nat + INR j * dr.
  Definition r_calc (N1 : nat) : nat -> R := linspace (/ 1000 * a_0 u) (10000 * a_0 u) N1.
  Definition full_k_separated (N1 ions N : nat) (n_e T : R) (k : nat -> R) (a b m : nat) : option R :=
    if (Nat.leb ions a && Nat.leb ions b)%bool
    then pauli_separated N1 N (r_calc N1) (r_of_k N k) n_e T (a - ions) (b - ions) m else Some 0.
  Definition full_k_averaged (N1 ions N : nat) (n_e T : R) (k : nat -> R) (a b m : nat) : option R :=
    if (Nat.eqb ions a && Nat.eqb ions b)%bool
    then pauli_averaged N1 N (r_calc N1) (r_of_k N k) n_e T m else Some 0.
End Pauli.
