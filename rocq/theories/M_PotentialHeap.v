(** Adding and scaling HNCPotentials as operations on Python objects,
    /repo/src/jaxrts/hnc_potentials.py:547-569, 602-638, 719-740 and 766-772.
    IPDModel.__add__, models.py:3477-3492, has the same text with
    [list_of_ipds]; an IPDSum has no [include_electrons]. *)
From Coq Require Import Reals List Bool Arith.
From Verif Require Import M_PlasmaState M_Potentials.
Import ListNotations.
Open Scope nat_scope.

Section Heap.
  (** the elementary potentials *)
  Variable C : Type.
  (** the value of one of their methods at given arguments *)
  Variable val : C -> mode -> R.

  (** An object refers to others by their number; a PotentialSum refers to a
      list object. *)
  Inductive obj := OPrim (c : C) (md : mode) | OSum (l : nat) (md : mode) | OScaled (p : nat) (f : R) (md : mode).
  Record heap := mkHeap { objs : list obj; lists : list (list nat) }.

  Fixpoint upd {A} (l : list A) (i : nat) (x : A) : list A :=
    match l, i with
    | [], _ => []
    | _ :: l, O => x :: l
    | y :: l, S i => y :: upd l i x
    end.
  Definition get (h : heap) (i : nat) : option obj := nth_error (objs h) i.
  Definition getl (h : heap) (l : nat) : option (list nat) := nth_error (lists h) l.
  Definition put (h : heap) (i : nat) (o : obj) : heap := mkHeap (upd (objs h) i o) (lists h).
  Definition putl (h : heap) (l : nat) (v : list nat) : heap := mkHeap (objs h) (upd (lists h) l v).
  Definition new (h : heap) (o : obj) : heap * nat := (mkHeap (objs h ++ [o]) (lists h), length (objs h)).
  Definition newl (h : heap) (v : list nat) : heap * nat := (mkHeap (objs h) (lists h ++ [v]), length (lists h)).

  Definition mode_of (o : obj) : mode := match o with OPrim _ m | OSum _ m | OScaled _ _ m => m end.

  (** the include_electrons setters; [fuel] is what is left of the recursion
      limit, [None] a RecursionError *)
  Fixpoint set_mode (fuel : nat) (h : heap) (i : nat) (md : mode) : option heap :=
    match fuel with
    | O => None
    | S fuel =>
      match get h i with
      | None => None
      | Some (OPrim c _) => Some (put h i (OPrim c md))
      | Some (OSum l _) =>
          obind (getl h l) (fun ps =>
          fold_left (fun oh p => obind oh (fun h => set_mode fuel h p md)) ps (Some (put h i (OSum l md))))
      | Some (OScaled p f _) => set_mode fuel (put h i (OScaled p f md)) p md
      end
    end.

  (** PotentialSum.__init__, 602-620 *)
  Definition has_mode (h : heap) (md : mode) (i : nat) : bool :=
    match get h i with Some o => mode_eqb (mode_of o) md | None => false end.
  Definition joined (h : heap) (ps : list nat) : mode :=
    if existsb (has_mode h SpinSeparated) ps then SpinSeparated
    else if existsb (has_mode h SpinAveraged) ps then SpinAveraged else Off.
  Definition new_sum (fuel : nat) (h : heap) (l : nat) : option (heap * nat) :=
    obind (getl h l) (fun ps =>
    let '(h1, s) := new h (OSum l Off) in
    obind (set_mode fuel h1 s (joined h ps)) (fun h2 => Some (h2, s))).

  Definition is_sum (h : heap) (i : nat) : option nat := match get h i with Some (OSum l _) => Some l | _ => None end.

  (** HNCPotential.__add__, 547-561: [self.potentials] is taken without a copy *)
  Definition add (fuel : nat) (h : heap) (a b : nat) : option (heap * nat) :=
    let '(h1, l) := match is_sum h a with Some l => (h, l) | None => newl h [a] end in
    match is_sum h b with
    | Some lb =>
        obind (getl h1 l) (fun pa => obind (getl h1 lb) (fun pb =>
        let '(h2, l2) := newl h1 (pa ++ pb) in new_sum fuel h2 l2))
    | None => obind (getl h1 l) (fun pa => new_sum fuel (putl h1 l (pa ++ [b])) l)
    end.

  (** HNCPotential.__mul__ and ScaledPotential.__mul__, 563-569 and 766-772,
      and ScaledPotential.__init__, 719-723 *)
  Definition mul (fuel : nat) (h : heap) (a : nat) (x : R) : option (heap * nat) :=
    let '(p, f) := match get h a with Some (OScaled p f _) => (p, (x * f)%R) | _ => (a, x) end in
    obind (get h p) (fun o =>
    let '(h1, s) := new h (OScaled p f Off) in
    obind (set_mode fuel h1 s (mode_of o)) (fun h2 => Some (h2, s))).

  (** the methods of a potential *)
  Fixpoint eval (fuel : nat) (h : heap) (i : nat) : option R :=
    match fuel with
    | O => None
    | S fuel =>
      match get h i with
      | None => None
      | Some (OPrim c md) => Some (val c md)
      | Some (OSum l _) =>
          obind (getl h l) (fun ps =>
          fold_right (fun p acc => obind (eval fuel h p) (fun x => obind acc (fun y => Some (x + y)%R))) (Some 0%R) ps)
      | Some (OScaled p f _) => obind (eval fuel h p) (fun x => Some (x * f)%R)
      end
    end.
End Heap.
