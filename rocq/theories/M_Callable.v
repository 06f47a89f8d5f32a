(** Model of FromCallable.__init__ and __call__, jaxrts/instrument_function.py:283-310, of
    _check_callable_for_deprication (:23-41) and of the conversion in Setup.__init__
    (setup.py:34-35); Python's functools.partial as documented.  A callable is a
    function with a __name__, a partial, or an instance of a class with __call__; only the first
    has the attribute __name__.  [None] stands for an exception. *)
From Coq Require Import String List Bool.
Import ListNotations.
Open Scope string_scope.
Open Scope list_scope.

Section Callable.
  Variable V : Type.
  (** the body of a function: positional and keyword arguments *)
  Definition body := list V -> list (string * V) -> option V.
  Inductive callable :=
  | Function (name : string) (f : body)
  | Instance (f : body)
  | Partial (f : callable) (args : list V) (keywords : list (string * V)).
  (** [{**k1, **k2}] *)
  Definition has_key (k : string) (d : list (string * V)) : bool := existsb (fun p => String.eqb (fst p) k) d.
  Fixpoint set_key (k : string) (v : V) (d : list (string * V)) : list (string * V) :=
    match d with
    | [] => [(k, v)]
    | (k', w) :: d => if String.eqb k' k then (k, v) :: d else (k', w) :: set_key k v d
    end.
  Definition merge (d1 d2 : list (string * V)) : list (string * V) := fold_left (fun d p => set_key (fst p) (snd p) d) d2 d1.
  (** functools.partial of f, args and keywords: the arguments of an inner partial come first *)
  Definition partial (f : callable) (args : list V) (keywords : list (string * V)) : callable :=
    match f with
    | Partial g a k => Partial g (a ++ args) (merge k keywords)
    | _ => Partial f args keywords
    end.
  (** calling f with args and keywords *)
  Fixpoint call (f : callable) (args : list V) (keywords : list (string * V)) : option V :=
    match f with
    | Function _ g => g args keywords
    | Instance g => g args keywords
    | Partial g a k => call g (a ++ args) (merge k keywords)
    end.
  (** [func.__name__] *)
  Definition name_of (f : callable) : option string := match f with Function n _ => Some n | _ => None end.
  (** instrument_function.py:28-41: the replacement named in the warning *)
  Definition alternatives : list (string * string) :=
    [("instrument_gaussian", "Gaussian"); ("instrument_supergaussian", "SuperGaussian"); ("instrument_lorentzian", "Lorentzian")].
  Definition check_deprication (f : callable) : option (option string) :=
    match name_of f with
    | Some n => Some (match find (fun p => String.eqb (fst p) n) alternatives with Some p => Some (snd p) | None => None end)
    | None => None
    end.
  (** a FromCallable instance *)
  Record from_callable := { function : callable; partial_args : list V; partial_kwargs : list (string * V) }.
  (** :294-306, with the warning that is issued *)
  Definition FromCallable (f : callable) (disable_partial_unwrapping : bool) : option (from_callable * option string) :=
    let plain f := match check_deprication f with
                   | Some w => Some ({| function := f; partial_args := []; partial_kwargs := [] |}, w)
                   | None => None
                   end in
    match f with
    | Partial g a k =>
        if disable_partial_unwrapping then plain f
        else match check_deprication g with
             | Some w => Some ({| function := g; partial_args := a; partial_kwargs := k |}, w)
             | None => None
             end
    | _ => plain f
    end.
  (** :308-310 *)
  Definition call_instrument (o : from_callable) (omega : V) : option V :=
    call (function o) (partial_args o ++ [omega]) (partial_kwargs o).
End Callable.
Arguments Function {V}. Arguments Instance {V}. Arguments Partial {V}. Arguments call {V}. Arguments partial {V}.
Arguments FromCallable {V}. Arguments call_instrument {V}. Arguments merge {V}. Arguments name_of {V}.
