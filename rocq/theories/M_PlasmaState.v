(** Model of the plasma parameters of a PlasmaState
    (/repo/src/jaxrts/plasmastate.py) and of the density conversions of
    /repo/src/jaxrts/helpers.py.  All quantities are in SI base units.  The
    attached models are left to M_Registry. *)
From Coq Require Import List Bool Arith Reals ZArith.
Import ListNotations.
Open Scope R_scope.

(** The attributes of an Element used here: Z, atomic_mass and
    atomic_radius_calc (elements.py:1631-1704; MixElement elements.py:1706 has
    a real-valued Z). *)
Record element := mkEl { el_Z : R; el_mass : R; el_radius : R }.

Record pstate := mkPS {
  ions : list element;
  Z_free : list R;
  mass_density : list R;
  T_e : R;
  T_i : list R;
  (** [_overwritten["ion_core_radius"]], plasmastate.py:108-112 *)
  over_radius : list R
}.

(** ** Arrays *)
Fixpoint map2 {A B C} (f : A -> B -> C) (l : list A) (m : list B) : list C :=
  match l, m with
  | a :: l', b :: m' => f a b :: map2 f l' m'
  | _, _ => []
  end.
(** NumPy elementwise operation on 1-d arrays with broadcasting: equal lengths,
    or one operand of length one; anything else raises ([None]). *)
Definition ew (f : R -> R -> R) (l m : list R) : option (list R) :=
  if Nat.eqb (length l) (length m) then Some (map2 f l m)
  else match l, m with
       | [a], _ => Some (map (fun b => f a b) m)
       | _, [b] => Some (map (fun a => f a b) l)
       | _, _ => None
       end.
Definition obind {A B} (x : option A) (f : A -> option B) : option B :=
  match x with Some a => f a | None => None end.
Definition sum (l : list R) : R := fold_right Rplus 0 l.
(** [l / s] for a scalar [s]; division by zero gives inf/nan: [None] *)
Definition div_scalar (l : list R) (s : R) : option (list R) :=
  if Req_EM_T s 0 then None else Some (map (fun x => x / s) l).

(** [jnp.repeat(l, 2)] and the list comprehension of plasmastate.py:223 *)
Definition rep2 {A} (l : list A) : list A := flat_map (fun x => [x; x]) l.
(** [jnp.where(jnp.arange(len l) % 2 == 0, f l, g l)] *)
Fixpoint alternate (f g : R -> R) (l : list R) : list R :=
  match l with
  | [] => []
  | [x] => [f x]
  | x :: y :: t => f x :: g y :: alternate f g t
  end.
Definition rfloor (x : R) : R := IZR (Int_part x).
Definition rceil (x : R) : R := - rfloor (- x).

(** ** PlasmaState.__init__, plasmastate.py:60-117.  [None]: an assertion
    fails.  [T_i = None]: T_e for every ion. *)
Definition init (els : list element) (Z rho : list R) (Te : R) (Ti : option (list R)) : option pstate :=
  if (Nat.eqb (length els) (length Z) && Nat.eqb (length els) (length rho))%bool then
    match Ti with
    | None => Some (mkPS els Z rho Te (map (fun _ => Te) els) (map (fun _ => -1) Z))
    | Some l => if Nat.eqb (length els) (length l)
                then Some (mkPS els Z rho Te l (map (fun _ => -1) Z)) else None
    end
  else None.

(** plasmastate.py:287-292 *)
Definition Z_A (s : pstate) : list R := map el_Z (ions s).
(** plasmastate.py:294-299 *)
Definition nions (s : pstate) : nat := length (ions s).
(** plasmastate.py:308-313 *)
Definition Z_core (s : pstate) : option (list R) := ew Rminus (Z_A s) (Z_free s).
(** plasmastate.py:315-322 *)
Definition atomic_masses (s : pstate) : list R := map el_mass (ions s).
(** plasmastate.py:324-327 *)
Definition n_i (s : pstate) : option (list R) := ew Rdiv (mass_density s) (atomic_masses s).
(** plasmastate.py:329-332 *)
Definition n_e (s : pstate) : option R :=
  obind (n_i s) (fun n => obind (ew Rmult n (Z_free s)) (fun l => Some (sum l))).
(** plasmastate.py:419-425 *)
Definition number_fraction (s : pstate) : option (list R) :=
  obind (n_i s) (fun n => div_scalar n (sum n)).
(** plasmastate.py:301-306 *)
Definition mean_Z_A (s : pstate) : option R :=
  obind (number_fraction s) (fun x => obind (ew Rmult (Z_A s) x) (fun l => Some (sum l))).

(** plasmastate.py:393-405; [jnpu.where] on three 1-d arrays, broadcast *)
Definition lookup_radius (s : pstate) : list R := map el_radius (ions s).
Definition ion_core_radius (s : pstate) : option (list R) :=
  ew (fun o l => if Rgt_dec o 0 then o else l) (over_radius s) (lookup_radius s).
(** plasmastate.py:401-409 *)
Definition set_ion_core_radius (s : pstate) (v : list R) : pstate :=
  mkPS (ions s) (Z_free s) (mass_density s) (T_e s) (T_i s) v.

(** ** expand_integer_ionization_states, plasmastate.py:216-243.  [deepcopy]
    keeps [_overwritten] as it is. *)
Definition expand (s : pstate) : option pstate :=
  let doub_Z := rep2 (Z_free s) in
  let new_Z := alternate rfloor rceil doub_Z in
  let xi := alternate (fun z => 1 - (z - rfloor z)) (fun z => z - rfloor z) doub_Z in
  obind (ew Rmult xi (rep2 (mass_density s)))
    (fun rho => Some (mkPS (rep2 (ions s)) new_Z rho (T_e s) (rep2 (T_i s)) (over_radius s))).

(** ** mass_from_number_fraction, helpers.py:121-163 *)
Definition mass_from_number_fraction (x : list R) (els : list element) : option (list R) :=
  let masses := map el_mass els in
  if Nat.eqb (length x) (length masses) then
    let xm := map2 Rmult x masses in
    div_scalar xm (sum xm)
  else None.

(** ** mass_density_from_electron_density, helpers.py:166-231 *)
Definition density_from_ne (ne : R) (Z x : list R) (els : list element) : option R :=
  if (Nat.eqb (length x) (length Z) && Nat.eqb (length Z) (length els))%bool then
    let nom := sum (map2 Rmult (map el_mass els) x) in
    let denom := sum (map2 Rmult Z x) in
    if Req_EM_T denom 0 then None else Some (ne * nom / denom)
  else None.
Definition density_from_ne_partial (ne : R) (Z x : list R) (els : list element) : option (list R) :=
  obind (density_from_ne ne Z x els) (fun rho =>
  obind (mass_from_number_fraction x els) (fun mf =>
  Some (map (fun f => f * rho) mf))).

(** ** averagePlasmaState, models.py:4903-4923, with MixElement
    (elements.py:1706-1730, radius zero). *)
Definition average (s : pstate) : option pstate :=
  obind (number_fraction s) (fun x =>
  obind (ew Rmult (Z_A s) x) (fun zx =>
  obind (ew Rmult (Z_free s) x) (fun fx =>
  obind (ew Rmult (atomic_masses s) x) (fun mx =>
  obind (ew Rmult (T_i s) x) (fun tx =>
  obind (ew Rmult (mass_density s) x) (fun rx =>
  Some (mkPS [mkEl (sum zx) (sum mx) 0] [sum fx] [sum rx] (T_e s) [sum tx] (over_radius s)))))))).
