(** Model of evaluating a plasma state: [PlasmaState.probe],
    [PlasmaState.evaluate] (plasmastate.py:470-505) and [Neglect]
    (models.py:295-331).  Spectra are lists of exact reals. *)
From Coq Require Import String List Bool Arith Reals.
From Verif Require Import M_Registry.
Import ListNotations.
Open Scope string_scope.
Open Scope list_scope.

(** What an evaluation returns: a quantity in seconds per probed energy, a
    quantity in eV per ion, or [None] (falling off the end of a Python
    function, models.py:310-317). *)
Inductive value := VSpec (l : list R) | VIpd (l : list R) | VNone.

(** Adding quantities: different units or [None] raise; so do shapes that do
    not match (pint; broadcasting of length-1 arrays is not modelled). *)
Definition pw (a b : list R) : list R := map (fun p => (fst p + snd p)%R) (combine a b).
Definition vadd (a b : value) : option value :=
  match a, b with
  | VSpec x, VSpec y => if Nat.eqb (length x) (length y) then Some (VSpec (pw x y)) else None
  | VIpd x, VIpd y => if Nat.eqb (length x) (length y) then Some (VIpd (pw x y)) else None
  | _, _ => None
  end.

Definition scattering_keys : list string :=   (* models.py:287-292 *)
  ["free-free scattering"; "bound-free scattering"; "free-bound scattering"; "ionic scattering"].

Section Probe.
  Variable nE : nat.  (** [len(setup.measured_energy)] *)
  (** the evaluation of all classes other than [Neglect]; [None]: it raises *)
  Variable ext : obj -> st -> option value.

  (** [Neglect.evaluate] models.py:306-317 and dispatch to other classes. *)
  Definition eval_obj (o : obj) (s : st) : option value :=
    if String.eqb (c_name (o_cls o)) "Neglect" then
      if mem_str (o_key o) scattering_keys then Some (VSpec (repeat 0%R nE))
      else if String.eqb (o_key o) "ipd" then Some (VIpd (repeat 0%R (s_nions s)))
      else Some VNone
    else ext o s.

  (** [PlasmaState.evaluate], plasmastate.py:492-505; a missing key raises. *)
  Definition evaluate (k : string) (s : st) : option value :=
    match dict_get k (s_models s) with
    | None => None
    | Some i => match nth_error (s_heap s) i with None => None | Some o => eval_obj o s end
    end.

  Definition bind {A B} (x : option A) (f : A -> option B) : option B :=
    match x with Some a => f a | None => None end.

  (** [PlasmaState.probe], plasmastate.py:471-490. *)
  Definition probe (s : st) : option value :=
    bind (evaluate "ionic scattering" s) (fun ionic =>
    bind (evaluate "free-free scattering" s) (fun free_free =>
    bind (evaluate "bound-free scattering" s) (fun bound_free =>
    bind (evaluate "free-bound scattering" s) (fun free_bound =>
    bind (vadd ionic free_free) (fun a =>
    bind (vadd a bound_free) (fun b =>
    vadd b free_bound)))))).
End Probe.
