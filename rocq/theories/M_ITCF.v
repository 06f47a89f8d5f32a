(** Model of the functions of /repo/src/jaxrts/analysis.py that analyse a
    measured spectrum with the setup it was taken with. *)
From Coq Require Import Reals List Arith.
From Coquelicot Require Import Coquelicot.
From Verif Require Import M_Const M_Setup M_Interp M_Analysis M_PlasmaState M_Ionization.
Import ListNotations.
Open Scope R_scope.

(** jnp.argmin: the first index of the smallest entry *)
Fixpoint argmin_from (l : list R) (i best : nat) (m : R) : nat :=
  match l with [] => best | x :: t => if Rlt_dec x m then argmin_from t (S i) i x else argmin_from t (S i) best m end.
Definition argmin (l : list R) : option nat :=
  match l with [] => None | x :: t => Some (argmin_from t 1 0 x) end.

Section ITCF.
  Variables (u : consts) (small keV : R).   (** 1e-8 eV (analysis.py:44), 1 keV *)

  (** the first lines of ITCFT_grid and ITCF_from_setup, analysis.py:244-247 and 264-267 *)
  Definition E_shift (s : setup) : list R := shift_of (energy s) (map (measured s) (seq 0 (n_chan s))).
  Definition inst_list (s : setup) : list R := inst_of (hbar u) (instrument s) (energy s) (map (measured s) (seq 0 (n_chan s))).

  (** ITCF_from_setup, analysis.py:251-268, as the function F of the object *)
  Definition ITCF_from_setup (S_ee : list R) (s : setup) (E_cut : R) (raw : bool) : R -> option R :=
    ITCF_F (hbar u) small S_ee (E_shift s) (inst_list s) (E_shift s) E_cut raw.
  (** ITCF._F, analysis.py:129-132 *)
  Definition ITCF__F (F : R -> option R) (tau_dimensionless : R) : option R := F (tau_dimensionless / keV).
  (** ITCF_ssf, analysis.py:296-314 *)
  Definition ITCF_ssf (S_ee : list R) (s : setup) (E_cut : R) (raw : bool) : option R :=
    ITCF__F (ITCF_from_setup S_ee s E_cut raw) 0.
  (** ITCF_fsum, analysis.py:271-293; jax.grad is the derivative, where there is a value *)
  Definition ITCF_fsum (S_ee : list R) (s : setup) (E_cut : R) (raw : bool) : option R :=
    let F := ITCF__F (ITCF_from_setup S_ee s E_cut raw) in
    obind (F 0) (fun _ => Some (Derive (fun t => match F t with Some x => x | None => 0 end) 0 * keV)).

  (** _ITCFT_grid and ITCFT_grid, analysis.py:78-102 and 228-248 *)
  Definition ITCFT_grid_ (S_ee tau E_sh inst inst_E : list R) (E_cut : R) : option (R * list R) :=
    let L_inst := map (fun t => twoSidedLaplace (hbar u) small inst t inst_E (- E_cut) E_cut) tau in
    let L_S_ee := map (fun t => twoSidedLaplace (hbar u) small S_ee t E_sh (- E_cut) E_cut) tau in
    obind (seq_opt (map2 qdiv L_S_ee L_inst)) (fun L =>
    obind (argmin L) (fun i =>
    let tau_min := nth i tau 0 in
    obind (qdiv 1 (2 * tau_min * kB u)) (fun T => Some (T, L)))).
  Definition ITCFT_grid (S_ee tau : list R) (s : setup) (E_cut : R) : option (R * list R) :=
    ITCFT_grid_ S_ee tau (E_shift s) (inst_list s) (E_shift s) E_cut.
End ITCF.
