(** The interpolation of the chemical potential by Ichimaru and the screening length of
    the electrons at arbitrary degeneracy. *)
From Coq Require Import Reals.
From Verif Require Import M_Const M_PlasmaState M_PlasmaPhysics M_Math.
Open Scope R_scope.

Section ChemPot.
  Variable u : consts.
  (** plasma_physics.py:243-256; the temperature in units of the Fermi energy *)
  Definition ichimaru_f (Theta : R) : R :=
    let A := 25954 / 100000 in let B := 72 / 1000 in let b := 858 / 1000 in
    - (3 / 2) * ln Theta + ln (4 / (3 * sqrt PI))
    + (A * Rpower Theta (- b - 1) + B * Rpower Theta (- (b + 1) / 2)) / (1 + A * Rpower Theta (- b)).
  (** plasma_physics.py:224-257 *)
  Definition chem_pot_ichimaru (T n_e : R) : R :=
    ichimaru_f (kB u * T / fermi_energy u n_e) * kB u * T.
  (** ipd.py:42-61; the electrons' screening at the reduced chemical potential eta *)
  Definition screening_at (Te eta : R) : option R :=
    let q := -1 * e_ch u in
    let therm_wv := sqrt ((2 * PI * 1 * hbar u ^ 2) / (m_e u * 1 * kB u * Te)) in
    obind (fermi_neg12_antia eta) (fun F => sqrto (q ^ 2 / (eps0 u * kB u * Te) * (2 / therm_wv ^ 3) * F)).
  (** ipd.py:26-61 *)
  Definition inverse_screening_length_e (ne Te : R) : option R :=
    let chem_pot := chem_pot_ichimaru Te ne in
    let beta := 1 / (1 * kB u * Te) in
    screening_at Te (chem_pot * beta).
End ChemPot.
