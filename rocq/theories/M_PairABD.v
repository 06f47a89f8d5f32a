(** Model of the pair distribution functions g_ee_ABD, g_ii_ABD and g_ei_ABD
    (/repo/src/jaxrts/static_structure_factors.py:534-717).

    [quad f] is the numerical quadrature of [f] over the positive axis
    (quadax.quadts with bounds [0, inf]); one distance at a time. *)
From Coq Require Import Reals.
From Verif Require Import M_Const M_PlasmaState M_PlasmaPhysics M_StaticSF.
Open Scope R_scope.

Section ABD.
  Variable u : consts.
  Variable quad : (R -> R) -> R.

  (** 1 angstrom in metres *)
  Definition ang : R := / 10 ^ 10.

  (** the local function to_integrate, lines 574-578, 636-640 and 699-703: the
      wavenumber is counted in 1/angstrom, the value in J angstrom^2 *)
  Definition to_integrate (Phi : R -> R) (r x : R) : R :=
    let k := x / ang in
    (Phi k * (sin (k * r) * k)) / ang ^ 2.
  (** the lines below it, 580-589, 642-651 and 705-714 *)
  Definition Phi_r (Phi : R -> R) (r : R) : R :=
    let integ := quad (to_integrate Phi r) * ang in
    4 * PI / r * (integ / (2 * PI) ^ 3).

  (** g_ee_ABD, static_structure_factors.py:534-592 *)
  Definition g_ee_ABD (r Te Ti ne mi Z : R) : R :=
    exp (- Phi_r (fun k => Phi_ee_AD u k Te Ti ne mi Z) r / (kB u * Te)).
  (** g_ii_ABD, static_structure_factors.py:596-654 *)
  Definition g_ii_ABD (r Te Ti ne mi Z : R) : R :=
    exp (- Phi_r (fun k => Phi_ii_AD u k Te Ti ne mi Z) r / (kB u * Ti)).
  (** g_ei_ABD, static_structure_factors.py:658-717 *)
  Definition g_ei_ABD (r Te Ti ne mi Z : R) : R :=
    exp (- Phi_r (fun k => Phi_ei_AD u k Te Ti ne mi Z) r / (kB u * T_ei u Te Ti mi)).
End ABD.
