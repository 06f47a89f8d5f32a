(** Model of how models are attached to a plasma state.
    Source: /repo/src/jaxrts/plasmastate.py and the [prepare] hooks of
    /repo/src/jaxrts/models.py and hnc_potentials.py. *)
From Coq Require Import String List Bool Arith.
Import ListNotations.
Open Scope string_scope.

(** The three values of [include_electrons].  hnc_potentials.py:297-318. *)
Inductive emode := Off | SpinAveraged | SpinSeparated.

(** A model class as seen by [PlasmaState.__setitem__]: its Python class name,
    its [allowed_keys], the [include_electrons] value a fresh instance carries
    and the list of effects of its [prepare] method, in order.
    models.py:51-100 (class Model), hnc_potentials.py:269-380.
    Simplification: the dependency graph of the defaults is acyclic in the
    source, so a class is the finite tree obtained by unfolding its defaults.
    [check] only logs in every shipped class (models.py:508,561,4611,4663,4716,
    hnc_potentials.py:843) and is left out. *)
Inductive cls : Type :=
| Cls (name : string) (allowed : list string) (elec : emode) (acts : list act)
(** One effect of a [prepare] method. *)
with act : Type :=
(** [plasma_state.update_default_model(k, C())]  plasmastate.py:245-285 *)
| ADefault (k : string) (c : cls)
(** [plasma_state[k] = C()]  e.g. models.py:4483 *)
| AAssign (k : string) (c : cls)
(** [plasma_state[k].include_electrons = m]  e.g. models.py:836,1027,4234 *)
| ASetElec (k : string) (m : emode)
(** [if len(plasma_state) == 1: a else: b]  models.py:1686-1689 *)
| AIfOne (a b : act)
(** the energy cut-offs of the model being attached are fixed from the current
    plasma when the user left them unset, models.py:1964-1974, 2224-2234 *)
| ACutoff.

Definition c_name (c : cls) : string := match c with Cls n _ _ _ => n end.
Definition c_allowed (c : cls) : list string := match c with Cls _ a _ _ => a end.
Definition c_elec (c : cls) : emode := match c with Cls _ _ e _ => e end.
Definition c_acts (c : cls) : list act := match c with Cls _ _ _ l => l end.

(** A model instance.  [o_key] is [model_key] (models.py:68-70), [o_elec] is
    [include_electrons], [o_cut] is the energy cut-off ([None]: the user's
    "not set" value -1 eV, models.py:1886).  [o_cut] records the density the
    guess was made for instead of the guess itself. *)
Record obj := mkObj { o_cls : cls; o_key : string; o_elec : emode; o_cut : option nat }.

(** A plasma state together with all model instances alive in the program.
    [s_nions] is [len(ions)]; [s_dens] identifies the current density;
    [s_models] is the insertion-ordered dictionary [models]
    (plasmastate.py:103), its values are references into [s_heap]. *)
Record st := mkSt {
  s_nions : nat;
  s_dens : nat;
  s_models : list (string * nat);
  s_heap : list obj }.

Inductive err := KeyError | BadReference.

Definition mem_str (k : string) (l : list string) : bool := existsb (String.eqb k) l.

(** Python [dict] lookup and store (update in place, new keys at the end). *)
Fixpoint dict_get {A} (k : string) (d : list (string * A)) : option A :=
  match d with
  | [] => None
  | (k', v) :: t => if String.eqb k k' then Some v else dict_get k t
  end.
Fixpoint dict_set {A} (k : string) (v : A) (d : list (string * A)) : list (string * A) :=
  match d with
  | [] => [(k, v)]
  | (k', v') :: t => if String.eqb k k' then (k', v) :: t else (k', v') :: dict_set k v t
  end.
(** Python [k in d]. *)
Definition has_key {A} (k : string) (d : list (string * A)) : bool :=
  match dict_get k d with Some _ => true | None => false end.

Fixpoint list_upd {A} (i : nat) (f : A -> A) (l : list A) : list A :=
  match l, i with
  | [], _ => []
  | x :: t, O => f x :: t
  | x :: t, S j => x :: list_upd j f t
  end.

Definition upd_obj (i : nat) (f : obj -> obj) (s : st) : st :=
  mkSt (s_nions s) (s_dens s) (s_models s) (list_upd i f (s_heap s)).

(** Constructing an instance: [Model.__init__] models.py:68-70,
    [HNCPotential.__init__] hnc_potentials.py:297-318. *)
Definition alloc (c : cls) (s : st) : st :=
  mkSt (s_nions s) (s_dens s) (s_models s)
       (s_heap s ++ [mkObj c "" (c_elec c) None]).

Definition set_elec (m : emode) (o : obj) : obj := mkObj (o_cls o) (o_key o) m (o_cut o).
Definition set_key (k : string) (o : obj) : obj := mkObj (o_cls o) k (o_elec o) (o_cut o).
(** [jnpu.where(self.E_cutoff > 0, self.E_cutoff, guess)] models.py:1964-1974 *)
Definition set_cut (d : nat) (o : obj) : obj :=
  mkObj (o_cls o) (o_key o) (o_elec o)
        (match o_cut o with Some x => Some x | None => Some d end).

(** [model.model_key = key; self.models[key] = model]  plasmastate.py:130-131 *)
Definition finish (k : string) (i : nat) (s : st) : st :=
  mkSt (s_nions s) (s_dens s) (dict_set k i (s_models s))
       (list_upd i (set_key k) (s_heap s)).

(** [self[k] = C()] for a fresh instance, plasmastate.py:125-131, with the
    [prepare] hook run first.  Effects made before an exception persist. *)
Fixpoint attach_new (k : string) (c : cls) (s : st) {struct c} : st * option err :=
  match c with
  | Cls nm al el acts =>
      let i := length (s_heap s) in
      let s1 := alloc c s in
      if mem_str k al then
        match
          (fix run (l : list act) (s : st) : st * option err :=
             match l with
             | [] => (s, None)
             | a :: t =>
                 match run_act i a s with
                 | (s', None) => run t s'
                 | (s', Some e) => (s', Some e)
                 end
             end) acts s1
        with
        | (s2, None) => (finish k i s2, None)
        | (s2, Some e) => (s2, Some e)
        end
      else (s1, Some KeyError)
  end
with run_act (self : nat) (a : act) (s : st) {struct a} : st * option err :=
  match a with
  | ADefault k c => if has_key k (s_models s) then (s, None) else attach_new k c s
  | AAssign k c => attach_new k c s
  | ASetElec k m =>
      match dict_get k (s_models s) with
      | None => (s, Some KeyError)
      | Some i => (upd_obj i (set_elec m) s, None)
      end
  | AIfOne a b => if Nat.eqb (s_nions s) 1 then run_act self a s else run_act self b s
  | ACutoff => (upd_obj self (set_cut (s_dens s)) s, None)
  end.

Fixpoint run_acts (self : nat) (l : list act) (s : st) : st * option err :=
  match l with
  | [] => (s, None)
  | a :: t =>
      match run_act self a s with
      | (s', None) => run_acts self t s'
      | (s', Some e) => (s', Some e)
      end
  end.

(** [PlasmaState.__setitem__] for an existing instance, plasmastate.py:125-131. *)
Definition setitem (k : string) (i : nat) (s : st) : st * option err :=
  match nth_error (s_heap s) i with
  | None => (s, Some BadReference)
  | Some o =>
      if mem_str k (c_allowed (o_cls o)) then
        match run_acts i (c_acts (o_cls o)) s with
        | (s2, None) => (finish k i s2, None)
        | (s2, Some e) => (s2, Some e)
        end
      else (s, Some KeyError)
  end.

(** User-visible operations. *)
Inductive op :=
| ONew (c : cls)                (* m = C() *)
| OSet (k : string) (i : nat)   (* state[k] = m *)
| ODens (d : nat)               (* state.mass_density = ... *)
| OElec (i : nat) (m : emode).  (* m.include_electrons = ... *)

Definition step (s : st) (o : op) : st * option err :=
  match o with
  | ONew c => (alloc c s, None)
  | OSet k i => setitem k i s
  | ODens d => (mkSt (s_nions s) d (s_models s) (s_heap s), None)
  | OElec i m => (upd_obj i (set_elec m) s, None)
  end.

(** A history continues after a caught exception. *)
Definition run_ops (l : list op) (s : st) : st := fold_left (fun s o => fst (step s o)) l s.
