(** Taking objects apart and rebuilding them at a jit boundary (jax.tree_util), and
    the comparisons based on it.  The per-class data is in M_PytreeTable. *)
From Coq Require Import String List Bool Arith.
From Verif Require Import M_PytreeTable.
Import ListNotations.
Open Scope list_scope.
Open Scope nat_scope.

Section T.
  Variable X : Type.   (* leaf values: numbers, arrays, quantities, strings, functions, ... *)

  (** Python values as jax sees them.  An object has a class and its attributes. *)
  Inductive val :=
  | Leaf (x : X)
  | VNone
  | VSeq (tuple : bool) (l : list val)
  | VDict (kvs : list (string * val))                          (* JittableDict *)
  | VObj (c : string) (attrs : string -> option val).
  (** PyTreeDef: everything but the leaves *)
  Inductive tdef :=
  | TLeaf
  | TNone
  | TSeq (tuple : bool) (l : list tdef)
  | TDict (keys : list string) (l : list tdef)
  | TObj (c : string) (aux : list (string * val)) (l : list tdef).

  Definition class_of (c : string) : option pcls :=
    find (fun p => String.eqb (pc_name p) c) pytree_classes.
  (** The static data as labelled values; the parts of a tuple are labelled by
      position and a bare value by the empty label.  [None]: AttributeError *)
  Fixpoint get_all (attrs : string -> option val) (l : list (string * string)) : option (list (string * val)) :=
    match l with
    | [] => Some []
    | (k, a) :: t => match attrs a, get_all attrs t with Some v, Some r => Some ((k, v) :: r) | _, _ => None end
    end.
  Fixpoint label (n : nat) (l : list string) : list (string * string) :=
    match l with [] => [] | a :: t => (String (Ascii.ascii_of_nat (48 + n)) EmptyString, a) :: label (S n) t end.
  Definition slots (f : auxform) : list (string * string) :=
    match f with ATuple l => label 0 l | ADict l => l | ABare a => [(EmptyString, a)] end.

  (** jax.tree_util.tree_flatten: leaves in order and the tree definition.  Calls
      [_tree_flatten] of registered classes; JittableDict, helpers.py:234-239. *)
  Fixpoint flatten (v : val) : option (list X * tdef) :=
    match v with
    | Leaf x => Some ([x], TLeaf)
    | VNone => Some ([], TNone)
    | VSeq b l =>
        match (fix go (l : list val) := match l with
               | [] => Some ([], [])
               | v :: r => match flatten v, go r with Some (xs, t), Some (ys, ts) => Some (xs ++ ys, t :: ts) | _, _ => None end
               end) l with Some (xs, ts) => Some (xs, TSeq b ts) | None => None end
    | VDict kvs =>
        match (fix go (l : list (string * val)) := match l with
               | [] => Some ([], [])
               | (_, v) :: r => match flatten v, go r with Some (xs, t), Some (ys, ts) => Some (xs ++ ys, t :: ts) | _, _ => None end
               end) kvs with Some (xs, ts) => Some (xs, TDict (map fst kvs) ts) | None => None end
    | VObj c attrs =>
        match class_of c with
        | None => None
        | Some p =>
          match (fix go (l : list string) := match l with
                 | [] => Some ([], [])
                 | a :: r => match attrs a with
                    | None => None
                    | Some v => match flatten v, go r with Some (xs, t), Some (ys, ts) => Some (xs ++ ys, t :: ts) | _, _ => None end
                    end
                 end) (pc_children p), get_all attrs (slots (pc_aux p)) with
          | Some (xs, ts), Some aux => Some (xs, TObj c aux ts)
          | _, _ => None
          end
        end
    end.

  (** Attribute assignment *)
  Definition setattr (a : string) (v : val) (o : string -> option val) : string -> option val :=
    fun b => if String.eqb a b then Some v else o b.
  Definition no_attrs : string -> option val := fun _ => None.
  (** (obj.a, obj.b) = values; [None]: ValueError, wrong number of values *)
  Fixpoint unpack (l : list string) (vs : list val) (o : string -> option val) : option (string -> option val) :=
    match l, vs with
    | [], [] => Some o
    | a :: l, v :: vs => unpack l vs (setattr a v o)
    | _, _ => None
    end.
  Definition lookup (k : string) (d : list (string * val)) : option val :=
    match find (fun p => String.eqb (fst p) k) d with Some p => Some (snd p) | None => None end.
  (** obj.a = aux[key] for each slot; [None]: KeyError *)
  Fixpoint assign (l : list (string * string)) (aux : list (string * val)) (o : string -> option val) : option (string -> option val) :=
    match l with
    | [] => Some o
    | (k, a) :: t => match lookup k aux with Some v => assign t aux (setattr a v o) | None => None end
    end.
  (** the [_tree_unflatten] of a class.  Unpacking a tuple needs the right length. *)
  Definition rebuild (c : string) (aux : list (string * val)) (children : list val) : option val :=
    match class_of c with
    | None => None
    | Some p =>
      if match pc_un_aux p with ATuple l => negb (Nat.eqb (length l) (length aux)) | _ => false end then None else
      match assign (slots (pc_un_aux p)) aux no_attrs with
      | None => None
      | Some o => match unpack (pc_un_children p) children o with Some o' => Some (VObj (pc_new p) o') | None => None end
      end
    end.
  (** jax.tree_util.tree_unflatten: the value and the unused leaves.  JittableDict,
      helpers.py:241-246: zip(aux_data, children). *)
  Fixpoint unflatten (t : tdef) (xs : list X) : option (val * list X) :=
    let many := fix go (l : list tdef) (xs : list X) : option (list val * list X) := match l with
      | [] => Some ([], xs)
      | t :: r => match unflatten t xs with
          | None => None
          | Some (v, ys) => match go r ys with Some (vs, zs) => Some (v :: vs, zs) | None => None end
          end
      end in
    match t with
    | TLeaf => match xs with x :: r => Some (Leaf x, r) | [] => None end
    | TNone => Some (VNone, xs)
    | TSeq b l => match many l xs with Some (vs, r) => Some (VSeq b vs, r) | None => None end
    | TDict ks l => match many l xs with Some (vs, r) => Some (VDict (combine ks vs), r) | None => None end
    | TObj c aux l => match many l xs with
        | Some (vs, r) => match rebuild c aux vs with Some v => Some (v, r) | None => None end
        | None => None end
    end.
  (** What a jitted function sees of its argument [v]. *)
  Definition through_jit (v : val) : option val :=
    match flatten v with
    | Some (xs, t) => match unflatten t xs with Some (v', []) => Some v' | _ => None end
    | None => None
    end.

  (** FromCallable, instrument_function.py:314-341 *)
  Definition call_flatten (f : X) (args kwargs : val) : option (list X * (X * nat * tdef * tdef)) :=
    match flatten args, flatten kwargs with
    | Some (xs, ta), Some (ys, tk) => Some (xs ++ ys, (f, length xs, ta, tk))
    | _, _ => None
    end.
  Definition call_unflatten (aux : X * nat * tdef * tdef) (xs : list X) : option (X * val * val) :=
    let '(f, n, ta, tk) := aux in
    match unflatten ta (firstn n xs), unflatten tk (skipn n xs) with
    | Some (a, []), Some (k, []) => Some (f, a, k)
    | _, _ => None
    end.

  (** Equality of tree definitions, the key under which jit finds compiled code: node
      types, arities and static data must agree (jaxlib, pytree.cc).  The static data
      of a JittableDict are dict_keys, which Python compares as sets. *)
  Inductive treq : tdef -> tdef -> Prop :=
  | Q_leaf : treq TLeaf TLeaf
  | Q_none : treq TNone TNone
  | Q_seq b l m : Forall2 treq l m -> treq (TSeq b l) (TSeq b m)
  | Q_dict k1 k2 l m : (forall k, In k k1 <-> In k k2) -> Forall2 treq l m -> treq (TDict k1 l) (TDict k2 m)
  | Q_obj c aux l m : Forall2 treq l m -> treq (TObj c aux l) (TObj c aux m).

  (** Model.__eq__, models.py:157-163: children and static data, not the class.
      [ceq] is the outcome of == between children *)
  Variable ceq : val -> val -> Prop.
  Definition children_of (v : val) : option (list val) :=
    match v with
    | VObj c attrs => match class_of c with
        | Some p => option_map (map snd) (get_all attrs (map (fun a => (a, a)) (pc_children p)))
        | None => None end
    | _ => None end.
  Definition aux_of (v : val) : option (list (string * val)) :=
    match v with
    | VObj c attrs => match class_of c with Some p => get_all attrs (slots (pc_aux p)) | None => None end
    | _ => None end.
  Definition model_eq (a b : val) : Prop :=
    match children_of a, children_of b, aux_of a, aux_of b with
    | Some ca, Some cb, Some xa, Some xb => Forall2 ceq ca cb /\ xa = xb
    | _, _, _, _ => False
    end.

  (** sorted(self.models.keys()) *)
  Fixpoint sinsert (k : string) (l : list string) : list string :=
    match l with [] => [k] | b :: t => if String.leb k b then k :: b :: t else b :: sinsert k t end.
  Definition ssort (l : list string) : list string := fold_right sinsert [] l.
  Fixpoint all_some {A} (l : list (option A)) : option (list A) :=
    match l with [] => Some [] | Some a :: t => option_map (cons a) (all_some t) | None :: _ => None end.
  (** PlasmaState._eq_characteristic, plasmastate.py:547-553 *)
  Definition eq_characteristic (v : val) : option (list val * list (list (string * val)) * val * list string) :=
    match v with
    | VObj c attrs =>
      match attrs "models"%string, attrs "ions"%string, children_of v with
      | Some (VDict kvs), Some ions, Some ch =>
        match all_some (map (fun k => match lookup k kvs with Some m => aux_of m | None => None end) (ssort (map fst kvs))) with
        | Some st => Some (removelast ch, st, ions, map fst kvs)
        | None => None end
      | _, _, _ => None end
    | _ => None end.
  (** PlasmaState.__eq__, plasmastate.py:555-575.  [ceq]: jnpu.equal(s, o).all();
      dict_keys compare as sets *)
  Definition state_eq (a b : val) : Prop :=
    match eq_characteristic a, eq_characteristic b with
    | Some (ca, sa, ia, ka), Some (cb, sb, ib, kb) =>
        Forall2 ceq ca cb /\ sa = sb /\ ia = ib /\ (forall k, In k ka <-> In k kb)
    | _, _ => False
    end.
End T.
Arguments Leaf {X}. Arguments VNone {X}. Arguments VSeq {X}. Arguments VDict {X}. Arguments VObj {X}.
Arguments TLeaf {X}. Arguments TNone {X}. Arguments TSeq {X}. Arguments TDict {X}. Arguments TObj {X}.
Arguments flatten {X}. Arguments unflatten {X}. Arguments through_jit {X}. Arguments get_all {X}. Arguments setattr {X}.
Arguments no_attrs {X}. Arguments unpack {X}. Arguments lookup {X}. Arguments assign {X}. Arguments rebuild {X}.
Arguments call_flatten {X}. Arguments call_unflatten {X}. Arguments treq {X}. Arguments model_eq {X}. Arguments state_eq {X}.
Arguments children_of {X}. Arguments aux_of {X}. Arguments eq_characteristic {X}.
