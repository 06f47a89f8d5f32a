(** Model of the listings of /repo/src/jaxrts/collections.py. *)
From Coq Require Import Ascii String List Bool Arith.
From Verif Require Import M_Registry M_Classes.
Import ListNotations.
Open Scope string_scope.
Open Scope list_scope.

(** An attribute of a module as [get_all_models] looks at it: its name, whether
    it is an abstract class and its [allowed_keys] if it has any
    (collections.py:66-77). *)
Record attr := mkAttr { a_name : string; a_abstract : bool; a_keys : option (list string) }.

Definition starts_underscore (s : string) : bool :=
  match s with String c _ => Ascii.eqb c "_"%char | EmptyString => false end.

(** The filter of collections.py:72-76. *)
Definition listed (a : attr) : bool :=
  negb (a_abstract a) && (match a_keys a with Some _ => true | None => false end)
  && negb (starts_underscore (a_name a)).

(** [all_models[k].append(v)] on a [defaultdict(list)], collections.py:78-82. *)
Definition dd_append (k : string) (v : attr) (d : list (string * list attr)) : list (string * list attr) :=
  dict_set k (match dict_get k d with Some l => l ++ [v] | None => [v] end) d.

Definition add_attr (d : list (string * list attr)) (a : attr) : list (string * list attr) :=
  if listed a then
    fold_left (fun d k => dd_append k a d)
              (match a_keys a with Some l => l | None => [] end) d
  else d.

(** [get_all_models(types)], collections.py:58-83.  [mods] is the content of
    [jaxrts.models] and [pots] that of [jaxrts.hnc_potentials].  The argument
    [names_only] chooses between returning the class and its name; an [attr]
    carries both. *)
Definition get_all_models (mods pots : list attr) (types : list string) : list (string * list attr) :=
  let considered := (if mem_str "models" types then [mods] else []) ++
                    (if mem_str "hnc_potentials" types then [pots] else []) in
  fold_left add_attr (concat considered) [].

(** [get_all_models_list(types, names_only)], collections.py:150-162: both
    arguments are ignored.  The result is a set turned into a list: only
    membership is meaningful, so duplicates are left in. *)
Inductive entry := EClass (n : string) | EName (n : string).
Definition get_all_models_list (mods pots : list attr) (types : list string) (names_only : bool) : list entry :=
  map (fun a => EClass (a_name a))
      (concat (map snd (get_all_models mods pots ["models"; "hnc_potentials"]))).

Definition attr_of (c : cls) : attr := mkAttr (c_name c) false (Some (c_allowed c)).
(** The concrete content of the two modules (abstract bases: models.py:51,166,
    334,1362,3440,5117,5192; hnc_potentials.py:269). *)
Definition shipped_models : list attr :=
  map attr_of model_classes ++ [mkAttr "Model" true (Some []); mkAttr "np" false None].
Definition shipped_potentials : list attr :=
  map attr_of potential_classes ++ [mkAttr "HNCPotential" true (Some ["ion-ion Potential"])].
