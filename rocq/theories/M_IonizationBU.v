(** Model of the Bethe-Uhlenbeck iteration of /repo/src/jaxrts/ionization.py. *)
From Coq Require Import Reals List Bool Arith.
From Verif Require Import M_Const M_PlasmaState M_Helpers M_PlasmaPhysics M_Ionization.
Import ListNotations.
Open Scope R_scope.

Section BU.
  Variables (u : consts) (fuel : nat).
  (** calculate_mean_free_charge_BU, ionization.py:818-887.  [ipd], [chem_pot] and
      [n_e] are what the attached models and the state say for given charges; the
      scalar first assigned to [Z_free], line 845, is broadcast over the species. *)
  Variables (ipd : list R -> option (list R) -> option (list (list R))) (chem_pot n_e : list R -> option R).
  Definition mean_free_charge_BU (levels : list (list (list R * list R))) (els : list elem) (T_e : R) (Ns : list R) (use_ipd use_distribution : bool)
    : option (list R * list R) :=
    let Zmax := INR (fold_right Nat.max 0%nat (map (fun '(Z, _, _) => Z) els)) in
    let Z_start := map (fun _ => Zmax) els in
    (* _get_cl, lines 849-857 *)
    let get_cl Z_free dist := if use_ipd then ipd Z_free (if use_distribution then Some dist else None) else Some (no_lowering els) in
    (* lines 859-869, and the body of the loop of lines 871-885 *)
    let solve Z_free cl :=
      obind (chem_pot Z_free) (fun mu => obind (n_e Z_free) (fun ne => solve_BU u fuel levels els T_e ne Ns (Some cl) mu)) in
    let step (s : list R * list R * list R) : option (list R * list R * list R) :=
      let '(Z_free, dist, _) := s in
      obind (get_cl Z_free dist) (fun cl => obind (solve Z_free cl) (fun '(dist, _, Zm) => Some (Zm, dist, Zm))) in
    obind (solve Z_start (no_lowering els)) (fun '(dist, _, Zm) =>
    obind (Nat.iter 6 (fun s => obind s step) (Some (Z_start, dist, Zm))) (fun '(_, dist, Zm) =>
    Some (dist, Zm))).
End BU.

Section MoreSingle.
  Variable u : consts.
  (** _calculate_mean_free_charge_more_single_species, ionization.py:915-954: every
      ion is evaluated on its own; [ions] are triples of partial density, atomic mass
      and nuclear charge *)
  Definition more_single_species (T_e : R) (ions : list ion3) : list R := map (fun '(rho, m, ZA) => more u rho T_e m ZA) ions.
End MoreSingle.
