(** Model of to_array, jaxrts/units.py:13-37.  A unit is a dimension (the exponents of
    the base units) with the positive factor to the base unit of that dimension; units
    with an offset (degrees Celsius) are not modelled.  A magnitude is a Python number, or a
    JAX array with no axis or one axis. *)
From Coq Require Import Reals List ZArith.
Import ListNotations.
Open Scope R_scope.

Record unit_ := { dim : list Z; factor : R }.
Inductive magnitude := Py (x : R) | Arr0 (x : R) | Arr1 (l : list R).
(** an entry of a list: a number, or a quantity with a single magnitude *)
Inductive entry := Num (x : R) | Qty (x : R) (u : unit_).
Inductive obj :=
| OQuantity (m : magnitude) (u : unit_)
| OList (l : list entry)
| OOther (m : magnitude).
(** the value returned: an array with or without unit; [None] where the code raises *)
Definition value := (magnitude * option unit_)%type.
Definition dim_eqb (u v : unit_) : bool := if list_eq_dec Z.eq_dec (dim u) (dim v) then true else false.
(** pint's conversion of a magnitude in [u] to the unit [v] *)
Definition convert (u v : unit_) (x : R) : option R := if dim_eqb u v then Some (x * factor u / factor v) else None.
(** jnp.array of a magnitude *)
Definition jnp_array (m : magnitude) : magnitude := match m with Py x => Arr0 x | _ => m end.

Section ToArray.
  (** jnp.array of a list in which numbers and quantities are mixed *)
  Variable raw : list entry -> option value.
  (** [o.m_as(unit)], :31: an AttributeError for a number, a DimensionalityError for a
      quantity of another dimension *)
  Inductive outcome := Value (x : R) | AttributeError | OtherError.
  Definition m_as (v : unit_) (e : entry) : outcome :=
    match e with
    | Num _ => AttributeError
    | Qty x u => match convert u v x with Some y => Value y | None => OtherError end
    end.
  (** the list comprehension stops at the first exception *)
  Fixpoint comprehension (v : unit_) (l : list entry) : list R + outcome :=
    match l with
    | [] => inl []
    | e :: l =>
        match m_as v e with
        | Value y => match comprehension v l with inl ys => inl (y :: ys) | inr o => inr o end
        | o => inr o
        end
    end.
  (** jnp.array(obj), :35 *)
  Fixpoint numbers (l : list entry) : option (list R) :=
    match l with
    | [] => Some []
    | Num x :: l => match numbers l with Some xs => Some (x :: xs) | None => None end
    | Qty _ _ :: _ => None
    end.
  Definition array_of_list (l : list entry) : option value :=
    match numbers l with Some xs => Some (Arr1 xs, None) | None => raw l end.
  (** :22-37 *)
  Definition to_array (o : obj) : option value :=
    match o with
    | OQuantity m u => match m with Py x => Some (Arr0 x, Some u) | _ => Some (m, Some u) end
    | OList [] => None (* IndexError from obj[0], :30 *)
    | OList ((Num _ :: _) as l) => array_of_list l
    | OList ((Qty _ v :: _) as l) =>
        match comprehension v l with
        | inl ys => Some (Arr1 ys, Some v)
        | inr AttributeError => array_of_list l
        | inr _ => None
        end
    | OOther m => Some (jnp_array m, None)
    end.
End ToArray.
