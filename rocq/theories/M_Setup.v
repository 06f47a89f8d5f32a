(** Model of /repo/src/jaxrts/setup.py.  Angles are in radians: [jnpu.deg2rad]
    and the trigonometric functions of jpu convert their argument's unit. *)
From Coq Require Import Reals List Arith.
From Verif Require Import M_Const M_PlasmaPhysics.
Open Scope R_scope.

(** An instrument function, setup.instrument: a function of angular frequency. *)
Record setup := mkSetup {
  angle : R;
  energy : R;
  n_chan : nat;
  measured : nat -> R;       (** measured_energy, [n_chan] entries *)
  instrument : R -> R;
  correct_k_dispersion : bool;
  frc_exponent : R
}.

Section S.
  Variable u : consts.

  (** setup.py:175-181 *)
  Definition lambda0 (s : setup) : R := planck u * c_light u / energy s.
  (** setup.py:97-104 *)
  Definition k (s : setup) : R := (4 * PI / lambda0 s) * sin (angle s / 2).
  (** setup.py:106-124; entry [i] of the array; [None] is nan *)
  Definition full_k (s : setup) (i : nat) : option R :=
    if correct_k_dispersion s then
      let k_in := energy s / hbar u / c_light u in
      let k_out := measured s i / hbar u / c_light u in
      sqrto ((k_out ^ 2 + k_in ^ 2) - ((2 * k_out * k_in) * cos (angle s)))
    else Some (k s).
  (** setup.py:126-148; positive energies *)
  Definition frc (s : setup) (i : nat) : R := Rpower (measured s i / energy s) (frc_exponent s).

  (** setup.py:150-173 *)
  Definition dispersion_corrected_k (s : setup) (n_e : R) (i : nat) : option R :=
    if correct_k_dispersion s then
      let omega_in := energy s / hbar u in
      let omega_out := measured s i / hbar u in
      let omega_pl := plasma_frequency u n_e in
      match sqrto (1 - omega_pl ^ 2 / omega_in ^ 2), sqrto (1 - omega_pl ^ 2 / omega_out ^ 2) with
      | Some f_in, Some f_out =>
          let k_in := omega_in / c_light u * f_in in
          let k_out := omega_out / c_light u * f_out in
          sqrto ((k_out ^ 2 + k_in ^ 2) - (2 * k_out * k_in * cos (angle s)))
      | _, _ => None
      end
    else Some (k s).

  (** setup.py:256-301 *)
  Definition get_probe_setup (kk : R) (s : setup) : option setup :=
    match qdiv (hbar u * kk * c_light u) (2 * sin (angle s / 2)) with
    | Some E => Some (mkSetup (angle s) E (n_chan s) (measured s) (instrument s) (correct_k_dispersion s) (frc_exponent s))
    | None => None
    end.

  (** ** convolve_stucture_factor_with_instrument, setup.py:209-253 *)
  (** sum of [f 0 .. f (n-1)] *)
  Fixpoint nsum (n : nat) (f : nat -> R) : R :=
    match n with O => 0 | S m => nsum m f + f m end.
  (** minimum of [f 0 .. f n] *)
  Fixpoint nmin (n : nat) (f : nat -> R) : R :=
    match n with O => f O | S m => Rmin (nmin m f) (f n) end.
  (** jnp.convolve(a, v, mode="same") for two arrays of length [n]: the full
      convolution cut to the middle, starting at index (n-1)//2. *)
  Definition conv_full (n : nat) (a v : nat -> R) (m : nat) : R :=
    nsum n (fun j => if (Nat.leb j m && Nat.ltb (m - j) n)%bool then a j * v (m - j)%nat else 0).
  Definition conv_same (n : nat) (a v : nat -> R) (i : nat) : R := conv_full n a v (i + (n - 1) / 2)%nat.

  Definition conv_grid (s : setup) (m : nat) : R :=
    let n := n_chan s in
    let mean := nsum n (measured s) / INR n in
    let g := fun m => (measured s m - mean) / hbar u in
    g m + nmin (n - 1) (fun m => Rabs (g m)).
  (** entry [i] of the result; needs two channels for the spacing *)
  Definition convolve (s : setup) (Sfac : nat -> R) (i : nat) : R :=
    conv_same (n_chan s) Sfac (fun m => instrument s (conv_grid s m)) i
    * ((measured s 1%nat - measured s 0%nat) / hbar u).
End S.
