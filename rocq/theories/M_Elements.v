(** Model of /repo/src/jaxrts/elements.py (tables: M_ElementTables). *)
From Coq Require Import String Reals List Arith ZArith QArith Bool.
From Verif Require Import M_Helpers M_Interp M_ElementTables.
Import ListNotations.
Open Scope list_scope.
Open Scope nat_scope.

Definition bind {A B} (x : option A) (f : A -> option B) : option B := match x with Some a => f a | None => None end.
(** d[key]; [None] is KeyError *)
Fixpoint get {K V} (eqb : K -> K -> bool) (k : K) (d : list (K * V)) : option V :=
  match d with [] => None | (k', v) :: t => if eqb k k' then Some v else get eqb k t end.
Definition getZ {V} (z : Z) (d : list (nat * V)) : option V :=
  get Z.eqb z (map (fun p => (Z.of_nat (fst p), snd p)) d).

(** orbital_map, helpers.py:22-39: the position of each orbital *)
Definition orbital_map : list (string * nat) :=
  [("1s", 0); ("2s", 1); ("2p", 2); ("3s", 3); ("3p", 4); ("3d", 5); ("4s", 6); ("4p", 7); ("4d", 8); ("4f", 9)]%string.

(** The attributes of an element, elements.py:1616-1671; the electron distribution
    is [electron_distribution_ionized_state] of the atomic number. *)
Record elem := mkElem {
  eZ : Z; esymbol : string; ename : string; emass : Q; eradius : Q;
  econfs : list (list nat); eenergies : list Q; eweights : list Q; ecold : list Q }.
(** elements.py:1654-1671; [None] is IndexError *)
Definition cold_energies (Eb : list Q) : option (list Q) :=
  let n := nth_error Eb in
  bind (n 0) (fun e0 => bind (n 1) (fun e1 => bind (n 2) (fun e2 => bind (n 3) (fun e3 =>
  bind (n 4) (fun e4 => bind (n 5) (fun e5 => bind (n 6) (fun e6 => bind (n 7) (fun e7 => bind (n 8) (fun e8 =>
  Some [e0; e1; (1 # 2) * (e2 + e3); e4; (1 # 2) * (e5 + e6); (1 # 2) * (e7 + e8); 0; 0; 0; 0]%Q))))))))).
Definition build (z : Z) (sym : string) : option elem :=
  bind (getZ z tab_names) (fun nm => bind (getZ z tab_masses) (fun m => bind (getZ z tab_radii) (fun r =>
  bind (getZ z tab_econf) (fun cf => bind (getZ z tab_energies) (fun en => bind (getZ z tab_weights) (fun w =>
  bind (getZ z tab_cold_edges) (fun Eb => bind (cold_energies Eb) (fun ce =>
  Some (mkElem z sym nm m r cf en w ce))))))))).
(** Element.__init__, elements.py:1632-1671; int() of a float truncates *)
Inductive ident := IdStr (s : string) | IdInt (z : Z) | IdFloat (q : Q).
Definition element (i : ident) : option elem :=
  match i with
  | IdStr s => bind (invert_dict String.eqb tab_symbols) (fun inv => bind (get String.eqb s inv) (fun z => build (Z.of_nat z) s))
  | IdInt z => bind (getZ z tab_symbols) (fun s => build z s)
  | IdFloat q => let z := Z.quot (Qnum q) (Zpos (Qden q)) in bind (getZ z tab_symbols) (fun s => build z s)
  end.

(** The edge table, elements.py:524-553 *)
Definition max_charge_state : nat := fold_right Nat.max 0 (map fst (concat (map snd tab_ion_edges))).
Definition max_Z : nat := fold_right Nat.max 0 (map fst tab_ion_edges).
Definition edge_table (z q i : nat) : Q :=
  match get Nat.eqb z tab_ion_edges with
  | None => 0%Q
  | Some ions => match get Nat.eqb q ions with
    | None => 0%Q
    | Some orbs => fold_left (fun acc p => match get String.eqb (fst p) orbital_map with
                              | Some j => if Nat.eqb j i then snd p else acc | None => acc end) orbs 0%Q
    end end.
(** jnp.round, elements.py:1679: halves go to the even neighbour *)
Definition round_even (r : R) : Z :=
  let f := Int_part r in let d := (r - IZR f)%R in
  if Rlt_dec d (1 / 2) then f else if Rlt_dec (1 / 2) d then (f + 1)%Z else if Z.even f then f else (f + 1)%Z.
(** jnp.clip *)
Definition clipZ (z : Z) (hi : nat) : nat := Nat.min (Z.to_nat z) hi.
(** Element.get_binding_energies, elements.py:1673-1688; out-of-range charges are clipped *)
Definition get_binding_energies (z : Z) (charge : R) : list Q :=
  map (edge_table (clipZ z max_Z) (clipZ (round_even charge) max_charge_state)) (seq 0 10).

Open Scope R_scope.
(** electron_distribution_ionized_state, elements.py:1564-1613 *)
Definition electron_distribution_ionized_state (Zc : R) : list R :=
  let f a b m := interp None None [a; b] [0; m] Zc in
  [f 0 2 2; f 2 4 2; f 4 10 6; f 10 12 2; f 12 18 6; f 20 30 10; f 18 20 2; f 30 36 6; f 0 99 0; f 0 99 0].

(** Comparison and hashing, elements.py:1690-1704, of elements, average atoms
    (MixElement, elements.py:1706-1732) and anything else. *)
Inductive pyobj := PElem (z : Z) | PMix (zm : R) | POther (n : nat).
Definition zval (o : pyobj) : R := match o with PElem z => IZR z | PMix r => r | POther _ => 0 end.
(** self.__eq__(other); [None] raises NotImplementedError *)
Definition dunder_eq (self other : pyobj) : option bool :=
  match other with
  | POther _ => None
  | PMix _ => Some false
  | PElem _ => Some (reqb (zval self) (zval other))
  end.
(** a == b: Python asks the right operand first when its class is a proper subclass
    of the left one's (language reference, 3.3.1).  Objects of other classes are
    taken to return NotImplemented themselves. *)
Definition py_eq (a b : pyobj) : option bool :=
  match a, b with
  | PElem _, PMix _ => dunder_eq b a
  | POther n, POther m => Some (Nat.eqb n m)
  | POther _, _ => dunder_eq b a
  | _, _ => dunder_eq a b
  end.
(** hash(a); [None]: TypeError, __hash__ must return an integer *)
Definition py_hash (a : pyobj) : option Z := match a with PElem z => Some z | PMix _ => None | POther n => Some (Z.of_nat n) end.
