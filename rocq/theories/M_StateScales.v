(** Model of the properties a PlasmaState derives from its density and temperature
    (/repo/src/jaxrts/plasmastate.py) beyond those of M_PlasmaState. *)
From Coq Require Import Reals List Bool Arith.
From Verif Require Import M_Const M_PlasmaState M_PlasmaPhysics.
Import ListNotations.
Open Scope R_scope.

Section Scales.
  Variable u : consts.
  (** PlasmaState.T_F, plasmastate.py:356-363 *)
  Definition state_T_F (s : pstate) : option R := obind (n_e s) (fun n => Some (fermi_temperature u n)).
  (** PlasmaState.ee_coupling, plasmastate.py:365-379 *)
  Definition state_ee_coupling (s : pstate) : option R := obind (n_e s) (fun n => Some (ee_coupling u n (T_e s))).
  (** PlasmaState.degeneracy_param, plasmastate.py:381-387 *)
  Definition state_degeneracy_param (s : pstate) : option R := obind (n_e s) (fun n => Some (degeneracy_param u n (T_e s))).
  (** PlasmaState.__len__, plasmastate.py:119-120 *)
  Definition state_len (s : pstate) : nat := length (ions s).

  (** The argument of PlasmaState.db_wavelength: the string "e-", or an element *)
  Inductive kind := KElectron | KElement (el : element).
  (** [par in self.ions], elements compared by their attributes *)
  Definition el_eq_dec (a b : element) : {a = b} + {a <> b}.
  Proof. decide equality; apply Req_EM_T. Defined.
  Definition known (s : pstate) (k : kind) : bool :=
    match k with KElectron => true | KElement e => if in_dec el_eq_dec e (ions s) then true else false end.
  (** What a call evaluates to *)
  Inductive pyresult := AssertionError | PyNone | PyList (l : list (list R)).
  (** PlasmaState.db_wavelength, plasmastate.py:427-468.  [h / sqrt(2 pi m kB T_e)],
      the Planck constant being [2 pi hbar].  The comparison [self.ions == par] of a
      list with an element, line 460, is [False], so [np.argwhere] selects no mass and
      the array appended for an ion is empty.  The list is built and dropped: the
      method has no return statement. *)
  Definition db_entry (s : pstate) (k : kind) : list R :=
    match k with
    | KElectron => [2 * PI * hbar u / sqrt (2 * PI * m_e u * kB u * T_e s)]
    | KElement _ => []
    end.
  Definition db_wavelength (s : pstate) (ks : list kind) : pyresult :=
    if forallb (known s) ks then let _ := map (db_entry s) ks in PyNone else AssertionError.
End Scales.
