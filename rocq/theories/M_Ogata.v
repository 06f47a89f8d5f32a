(** Model of fourier_transform_ogata, jaxrts/hypernetted_chain.py:54-88, the
    second Fourier transform of the file (its nodes, weights and Bessel functions
    are in [M_HNC]).  The radii and wavenumbers are in inverse units of each
    other; [N] is the static argument.  The nansum (:84) is a plain sum: the
    nan of an overflow does not exist in exact reals. *)
From Coq Require Import Reals List Arith.
Import ListNotations.
From Verif Require Import M_Interp M_HNC.
Open Scope R_scope.

(** x ** (3 / 2) for x >= 0 *)
Definition pow32 (x : R) : R := x * sqrt x.
(** fp = f * r ** (3/2), :74 *)
Definition ogata_table (r f : list R) : list R := map (fun p => snd p * pow32 (fst p)) (combine r f).
(** f_int, :71-78: [left] and [right] are the outermost entries *)
Definition ogata_f_int (r f : list R) (x : R) : R :=
  interp (Some (at_ f 0 * pow32 (at_ r 0)))
         (Some (at_ f (length f - 1) * pow32 (at_ r (length r - 1)))) r (ogata_table r f) x.
(** series_sum, :80-82, at the node j = 1 .. N *)
Definition ogata_term (k : R) (r f : list R) (h : R) (j : nat) : R :=
  PI * ogata_weight j * ogata_f_int r f (ogata_node h j / k) * bessel_0_5 (ogata_node h j) * dpsi (h * INR j).
(** fourier_transform_ogata at one wavenumber, :69-86 *)
Definition fourier_transform_ogata (k : R) (r f : list R) (N : nat) (h : R) : R :=
  nsum N (fun i => ogata_term k r f h (S i)) / k ^ 3 * pow32 k * pow32 (2 * PI).
