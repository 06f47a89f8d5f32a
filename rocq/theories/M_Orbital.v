(** orbital_array and electron_distribution *)
From Coq Require Import String List ZArith.
From Verif Require Import M_ElementTables M_Elements.
Import ListNotations.

(** orbital_array, helpers.py:42-85.  [kw] holds the keyword arguments by name; those
    not given are 0. *)
Definition orbital_array {A : Type} (kw : string -> A) : list A :=
  map kw ["n1s"; "n2s"; "n2p"; "n3s"; "n3p"; "n3d"; "n4s"; "n4p"; "n4d"; "n4f"]%string.
(** electron_distribution, elements.py:1542-1560; [None] is KeyError or IndexError *)
Definition electron_distribution (atomic_number : Z) : option (list nat) :=
  bind (getZ atomic_number tab_econf) (fun confs => nth_error confs 0).
