(** Model of ScatteringModel, /repo/src/jaxrts/models.py:157-282: how a scattering model's
    raw spectrum is sampled, convolved with the instrument and redistributed.  The raw
    spectrum of a subclass, models.py:212-221, is the parameter [evaluate_raw]: the value
    at a setup's channel; the plasma state is fixed in it. *)
From Coq Require Import Reals List Arith.
From Verif Require Import M_Const M_Interp M_Instrument M_Setup.
Import ListNotations.
Open Scope R_scope.

Section SM.
  Variable u : consts.
  Variable evaluate_raw : setup -> nat -> R.
  (** models.py:223-233 *)
  Definition sample_grid (sample_points : nat) (s : setup) : list R :=
    let min_E := measured s 0 in
    let max_E := measured s (n_chan s - 1) in
    linspace min_E max_E sample_points.
  (** models.py:254-259; the setup's further parameters take their defaults, setup.py:24-32 *)
  Definition low_res_setup (sample_points : nat) (s : setup) : setup :=
    mkSetup (angle s) (energy s) sample_points (at_ (sample_grid sample_points s)) (instrument s) true 0.
  (** models.py:251-269 *)
  Definition raw (sample_points : option nat) (s : setup) : nat -> R :=
    match sample_points with
    | None => evaluate_raw s
    | Some p =>
        let low := low_res_setup p s in
        let low_res := map (evaluate_raw low) (seq 0 p) in
        fun i => interp (Some 0) (Some 0) (sample_grid p s) low_res (measured s i)
    end.
  (** models.py:235-270 *)
  Definition evaluate (sample_points : option nat) (s : setup) (i : nat) : R :=
    convolve u s (raw sample_points s) i * frc s i.
End SM.
