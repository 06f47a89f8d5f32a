(** Model of /repo/src/jaxrts/analysis.py.  Elementwise array expressions are
    fused into one function per entry. *)
From Coq Require Import Reals List Arith.
From Verif Require Import M_Interp.
Import ListNotations.
Open Scope R_scope.

(** Stable sort by a key (jnp.argsort and jnp.sort are stable). *)
Section Sort.
  Context {A : Type} (key : A -> R).
  Fixpoint insert (a : A) (l : list A) : list A :=
    match l with
    | [] => [a]
    | b :: t => if Rle_dec (key a) (key b) then a :: b :: t else b :: insert a t
    end.
  Definition isort (l : list A) : list A := fold_right insert [] l.
End Sort.

Definition rmin_list (l : list R) : R := match l with [] => 0 | x :: t => fold_right Rmin x t end.
Definition rmax_list (l : list R) : R := match l with [] => 0 | x :: t => fold_right Rmax x t end.

Section A.
  Variables (hb small : R).   (** hbar, and 1e-8 eV (analysis.py:44) *)

  (** the energies of the integration, analysis.py:37-57 *)
  Definition lap_samples (intensity E_shift : list R) : list (R * R) := isort fst (combine E_shift intensity).
  Definition lap_grid (E_shift : list R) (E_min E_max : R) : list R :=
    isort (fun x => x) (isort (fun x => x) E_shift ++ [E_min - small; E_min + small; E_max + small; E_max - small]).
  (** entry of cut_kernel, analysis.py:58-69 *)
  Definition lap_kernel (intensity E_shift : list R) (tau E_min E_max e : R) : R :=
    let s := lap_samples intensity E_shift in
    let inten := interp None None (map fst s) (map snd s) e in
    if Rle_dec E_min e then if Rle_dec e E_max then inten * exp (- tau * e) / hb else 0 else 0.
  (** analysis.py:16-74, with E_min and E_max given *)
  Definition twoSidedLaplace (intensity : list R) (tau : R) (E_shift : list R) (E_min E_max : R) : R :=
    let g := lap_grid E_shift E_min E_max in
    trapz g (map (lap_kernel intensity E_shift tau E_min E_max) g).
  (** analysis.py:34-35: the default window *)
  Definition twoSidedLaplace_default (intensity : list R) (tau : R) (E_shift : list R) : R :=
    twoSidedLaplace intensity tau E_shift (rmin_list E_shift) (rmax_list E_shift).

  (** ITCF.F, analysis.py:142-159; division by zero is not hidden: [None] *)
  Definition ITCF_F (S_ee E_shift inst inst_E : list R) (E_cut : R) (raw : bool) (tau : R) : option R :=
    let L_S := twoSidedLaplace S_ee tau E_shift (- E_cut) E_cut in
    let L_i := twoSidedLaplace inst tau inst_E (- E_cut) E_cut in
    if raw then Some L_S else if Req_EM_T L_i 0 then None else Some (L_S / L_i).
  (** analysis.py:178: the temperature belonging to a minimising tau *)
  Definition T_of_tau (kB tau : R) : R := 1 / (2 * tau * kB).
  (** ITCF_from_setup, analysis.py:251-268: a loss of energy is a positive shift *)
  Definition shift_of (energy : R) (measured : list R) : list R := map (fun E => - (E - energy)) measured.
  Definition inst_of (inst : R -> R) (energy : R) (measured : list R) : list R :=
    map (fun E => inst (- (- (E - energy)) / hb)) measured.
End A.
