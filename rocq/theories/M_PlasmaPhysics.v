(** Model of /repo/src/jaxrts/plasma_physics.py.  SI values; [x ** y] with a
    non-integer exponent is [Rpower] (positive base). *)
From Coq Require Import Reals List.
From Coquelicot Require Import Complex.
From Verif Require Import M_Const M_PlasmaState.
Import ListNotations.
Open Scope R_scope.

Section PP.
  Variable u : consts.

  (** plasma_physics.py:12-37 *)
  Definition plasma_frequency (n_e : R) : R := sqrt ((e_ch u ^ 2 * n_e) / (eps0 u * m_e u)).
  (** plasma_physics.py:40-46 *)
  Definition thomson_momentum_transfer (energy angle : R) : R :=
    (2 * energy) / (hbar u * c_light u) * sin (angle / 2).
  (** plasma_physics.py:49-71 *)
  Definition coulomb_k (Z1 Z2 k : R) : R := (1 / eps0 u) * (Z1 * Z2 * e_ch u ^ 2) / k ^ 2.
  (** plasma_physics.py:74-89 *)
  Definition kin_energy (k : R) : R := (hbar u ^ 2 * k ^ 2) / (2 * m_e u).
  (** plasma_physics.py:92-118 *)
  Definition fermi_dirac (k chem_pot T : R) : R :=
    1 / (exp ((kin_energy k - chem_pot) / (kB u * T)) + 1).
  (** plasma_physics.py:121-124 *)
  Definition fermi_wavenumber (n_e : R) : R := Rpower (3 * PI ^ 2 * n_e) (1 / 3).
  (** plasma_physics.py:127-150 *)
  Definition fermi_energy (n_e : R) : R :=
    hbar u ^ 2 / (2 * m_e u) * Rpower (3 * PI ^ 2 * n_e) (2 / 3).
  (** plasma_physics.py:153-170 *)
  Definition fermi_temperature (n_e : R) : R := fermi_energy n_e / kB u.
  (** plasma_physics.py:173-197 *)
  Definition wiegner_seitz_radius (n_e : R) : R := Rpower (3 / (4 * PI * n_e)) (1 / 3).

  (** plasma_physics.py:200-221 *)
  Definition chem_lowT (x : R) : R := 1 - PI ^ 2 / 12 * x ^ 2 - PI ^ 4 / 80 * x ^ 4.
  Definition chem_highT (x : R) : R :=
    x * ln (4 / 3 / sqrt PI / Rpower x (3 / 2)) + 1 / 3 * sqrt (2 / PI) / Rpower x (1 / 2)
    - (16 * sqrt 3 - 27) / (81 * PI) / x ^ 2.
  Definition chem_pot_sommerfeld (T n_e : R) : R :=
    let E_F := fermi_energy n_e in
    let T_F := E_F / kB u in
    let x := T / T_F in
    (if Rlt_dec (chem_lowT x) (chem_highT x) then chem_highT x else chem_lowT x) * E_F.

  (** plasma_physics.py:260-284; [n] and [Z] arrays of equal length *)
  Definition debye_length (n Z : list R) (T : R) : option R :=
    let num := eps0 u * kB u * T in
    let denom := sum (map2 (fun a z => a * (z * e_ch u) ^ 2) n Z) in
    match qdiv num denom with Some q => sqrto q | None => None end.

  (** plasma_physics.py:287-318 *)
  Definition temperature_interpolation (n_e T_e power : R) : R :=
    Rpower (Rpower T_e power + Rpower (fermi_temperature n_e) power) (1 / power).

  (** plasma_physics.py:381-384 *)
  Definition therm_de_broglie_wl (T : R) : R := hbar u * sqrt ((2 * PI) / (m_e u * kB u * T)).
  (** plasma_physics.py:321-348 *)
  Definition degeneracy_param (n_e T_e : R) : R := n_e * therm_de_broglie_wl T_e ^ 3.
  (** plasma_physics.py:351-353 *)
  Definition interparticle_spacing (Z1 Z2 n_e : R) : R :=
    Rpower (3 * Rpower (Z1 * Z2) (1 / 2) / (4 * PI * n_e)) (1 / 3).
  (** plasma_physics.py:356-378 *)
  Definition coupling_param (Z1 Z2 n_e T_e : R) : R :=
    Z1 * Z2 * e_ch u ^ 2 / (4 * PI * eps0 u * interparticle_spacing Z1 Z2 n_e * kB u * T_e).
  (** plasmastate.py:365-379 *)
  Definition ee_coupling (n_e T_e : R) : R :=
    let d := Rpower (3 / (4 * PI * n_e)) (1 / 3) in
    e_ch u ^ 2 / (4 * PI * eps0 u * kB u * T_e * d).

  (** plasmastate.py:334-354 *)
  Definition Teff_e (n_e T_e : R) : option R :=
    let rs := wiegner_seitz_radius n_e / a_0 u in
    match qdiv (fermi_energy n_e) (13251 / 10000 - 1779 / 10000 * sqrt rs) with
    | Some q => let Tq := q / kB u in sqrto (Tq ^ 2 + T_e ^ 2)
    | None => None
    end.

  (** plasma_physics.py:387-402 *)
  Definition compton_energy (E angle : R) : R :=
    E * (1 - 1 / (1 + E / (m_e u * c_light u ^ 2) * (1 - cos angle))).

  (** plasma_physics.py:405-421, 423-438, 440-459; complex values *)
  Definition Vee (k : R) : C := RtoC (coulomb_k (-1) (-1) k).
  Definition susceptibility_from_epsilon (eps : C) (k : R) : C :=
    Cdiv (Cminus (Cinv eps) (RtoC 1)) (Vee k).
  Definition epsilon_from_susceptibility (xi : C) (k : R) : C :=
    Cinv (Cplus (RtoC 1) (Cmult (Vee k) xi)).
  Definition xi0_from_eps_RPA (eps : C) (k : R) : C := Cdiv (Cminus (RtoC 1) eps) (Vee k).
  (** ee_localfieldcorrections.py:27-40 *)
  Definition xi_lfc_corrected (xi0 V lfc : C) : C :=
    Cdiv xi0 (Cminus (RtoC 1) (Cmult (Cmult V (Cminus (RtoC 1) lfc)) xi0)).
End PP.
