(** Model of saving and loading, /repo/src/jaxrts/saving.py.  The text level (json.dumps,
    json.loads) is taken to reproduce numbers, strings, lists and objects. *)
From Coq Require Import String List Bool Arith Reals.
From Verif Require Import M_PytreeTable M_Pytree M_Registry M_Classes M_Collections M_Elements.
Import ListNotations.
Open Scope list_scope.
Open Scope nat_scope.

Inductive json :=
| JNull | JBool (b : bool) | JNum (r : R) | JStr (s : string)
| JList (l : list json) | JObj (kvs : list (string * json)).

(** An array: its shape and its entries in C order. *)
Record arr := Arr { dims : list nat; data : list R }.
Fixpoint size (ds : list nat) : nat := match ds with [] => 1 | d :: t => d * size t end.
(** The values that occur besides lists, dictionaries and objects.  Numbers are reals
    (int and float are not told apart); [AArr true] is a jax array and [AArr false] a numpy
    array of 64 bit numbers; a unit is a list of base units and exponents, pint's
    [Quantity.to_tuple]. *)
Inductive mag := MNum (r : R) | MArr (jx : bool) (a : arr).
Inductive atom :=
| ABool (b : bool) | ANum (r : R) | AStr (s : string)
| ANpInt (r : R)                                       (* onp.int32, onp.int64 *)
| AArr (jx : bool) (a : arr)
| AQuant (m : mag) (u : list (string * R))
| AElem (symbol : string).
(** Python values.  [VDict] stands for dictionaries, JittableDict or not. *)
Definition pyval := val atom.

(** ** Encoder, saving.py:60-154 *)
Definition tagged (t : string) (v : json) : json := JObj [("_type"%string, JStr t); ("value"%string, v)].
(** list(array): the rows *)
Fixpoint rows (n sz : nat) (l : list R) : list (list R) :=
  match n with 0 => [] | S n => firstn sz l :: rows n sz (skipn sz l) end.
(** An item of list(array): a number or an array of one dimension less, which is encoded
    by the branch of line 132 *)
Fixpoint enc_item (ds : list nat) (l : list R) : json :=
  match ds with
  | [] => JNum (hd 0%R l)
  | d :: t => tagged "ndArray" (JList (map (enc_item t) (rows d (size t) l)))
  end.
(** Lines 127-136: iterating a 0-d array raises a TypeError, which is only caught for
    jax arrays *)
Definition enc_arr (jx : bool) (a : arr) : option json :=
  match dims a with
  | [] => if jx then Some (JNum (hd 0%R (data a))) else None
  | d :: t => Some (tagged (if jx then "Array" else "ndArray") (JList (map (enc_item t) (rows d (size t) (data a)))))
  end.
Definition enc_mag (m : mag) : option json := match m with MNum r => Some (JNum r) | MArr jx a => enc_arr jx a end.
Definition enc_units (u : list (string * R)) : json := JList (map (fun p => JList [JStr (fst p); JNum (snd p)]) u).
Definition enc_quant (m : mag) (u : list (string * R)) : option json :=
  option_map (fun j => tagged "Quantity" (JList [j; enc_units u])) (enc_mag m).
Definition enc_atom (x : atom) : option json :=
  match x with
  | ABool b => Some (JBool b)
  | ANum r => Some (JNum r)
  | AStr s => Some (JStr s)
  | ANpInt r => Some (JNum r)                                        (* lines 137-138 *)
  | AArr jx a => enc_arr jx a
  | AQuant m u => enc_quant m u                                      (* lines 125-126 *)
  | AElem s => Some (tagged "Element" (JStr s))                      (* lines 120-124 *)
  end.
(** jnpu.min, jnpu.max of a non-empty array *)
Definition rmin (l : list R) : R := match l with [] => 0%R | x :: t => fold_left Rmin t x end.
Definition rmax (l : list R) : R := match l with [] => 0%R | x :: t => fold_left Rmax t x end.
(** Lines 86-108; a one-dimensional array with a unit.  [None]: min of an empty array,
    len of a 0-d array (other kinds of grid are not modelled) *)
Definition enc_grid (v : pyval) : option json :=
  match v with
  | Leaf (AQuant (MArr _ (Arr [n] l)) u) =>
      match l with
      | [] => None
      | _ => match enc_quant (MNum (rmin l)) u, enc_quant (MNum (rmax l)) u with
             | Some a, Some b => Some (JObj [("start"%string, a); ("stop"%string, b); ("num"%string, JNum (INR n))])
             | _, _ => None end
      end
  | _ => None
  end.

(** Which branch of [default] (lines 69-119) an instance of a class takes.  FreeBoundFlippedSetup
    derives from Setup (free_bound.py:34). *)
Inductive kind := KState | KSetup | KPot | KModel | KInstr.
Definition names_of (l : list cls) : list string := map c_name l.
Definition memb (a : string) (l : list string) : bool := existsb (String.eqb a) l.
Definition kind_of (c : string) : option kind :=
  if String.eqb c "PlasmaState" then Some KState
  else if memb c ["Setup"; "FreeBoundFlippedSetup"]%string then Some KSetup
  else if memb c (names_of potential_classes) then Some KPot
  else if memb c (names_of model_classes) then Some KModel
  else if memb c ["Gaussian"; "TwinGaussian"; "SuperGaussian"; "Lorentzian"; "FromArray"]%string then Some KInstr
  else None.
(** [obj.__name__]: the class attribute (lines 109, 113), for instrument functions the name
    of the class (line 118) *)
Definition saved_name (c : string) : string :=
  match find (fun p => String.eqb (fst p) c) saved_name_table with Some p => snd p | None => c end.
(** instrument_function.py:89,163,230,273,378; plasmastate.py:507-515 *)
Definition children_labels (c : string) : option (list string) :=
  match find (fun p => String.eqb (fst p) c)
    [("Gaussian", ["sigma"]); ("TwinGaussian", ["sigma1"; "sigma2"]); ("SuperGaussian", ["sigma"; "power"]);
     ("Lorentzian", ["gamma"]); ("FromArray", ["omega"; "intensity"]);
     ("PlasmaState", ["Z_free"; "mass_density"; "T_e"; "T_i"; "ion_core_radius"; "models"])]%string
  with Some p => Some (snd p) | None => None end.
Definition aux_labels (c : string) : option (list string) := if String.eqb c "PlasmaState" then Some ["ions"%string] else None.
(** [_flatten_obj], lines 37-46 *)
Definition enc_children (c : string) (l : list json) : json :=
  match children_labels c with Some ls => JObj (combine ls l) | None => JList l end.
Definition enc_aux (c : string) (f : auxform) (l : list (string * json)) : json :=
  match aux_labels c with
  | Some ls => JObj (combine ls (map snd l))
  | None => match f with
      | ATuple _ => JList (map snd l)
      | ADict _ => JObj l
      | ABare _ => match l with (_, j) :: _ => j | [] => JNull end end
  end.
(** Lines 69-119 for the flattened instance *)
Definition enc_obj (k : kind) (c : string) (ch aux : json) : json :=
  match k with
  | KState => tagged "PlasmaState" (JList [ch; aux])
  | KSetup => tagged "Setup" (JList [ch; aux])
  | KPot => tagged "HNCPotential" (JList [JStr (saved_name c); JList [ch; aux]])
  | KModel => tagged "Model" (JList [JStr (saved_name c); JList [ch; aux]])
  | KInstr => tagged "InstrumentFunction" (JList [JStr c; JList [ch; aux]])
  end.
(** hasattr(obj, "_transform_r") and a potential: the first child is the grid *)
Definition has_grid (k : kind) (attrs : string -> option pyval) : bool :=
  match k, attrs "_transform_r"%string with KPot, Some _ => true | _, _ => false end.

Definition opt_cons {A} (x : option A) (l : option (list A)) : option (list A) :=
  match x, l with Some a, Some t => Some (a :: t) | _, _ => None end.
(** json.dumps(v, cls=JaXRTSEncoder); [None]: TypeError *)
Fixpoint enc (v : pyval) : option json :=
  match v with
  | Leaf x => enc_atom x
  | VNone => Some JNull
  | VSeq _ l => option_map JList ((fix go l := match l with [] => Some [] | v :: r => opt_cons (enc v) (go r) end) l)
  | VDict kvs => option_map JObj ((fix go l := match l with [] => Some [] | (k, v) :: r => opt_cons (option_map (pair k) (enc v)) (go r) end) kvs)
  | VObj c attrs =>
      match class_of c, kind_of c with
      | Some p, Some k =>
          match (fix go (l : list string) := match l with
                 | [] => Some []
                 | a :: r => opt_cons (match attrs a with Some v => enc v | None => None end) (go r)
                 end) (if has_grid k attrs then tl (pc_children p) else pc_children p),
                (fix go (l : list (string * string)) := match l with
                 | [] => Some []
                 | (s, a) :: r => opt_cons (match attrs a with Some v => option_map (pair s) (enc v) | None => None end) (go r)
                 end) (slots (pc_aux p)) with
          | Some ch, Some aux =>
              match (if has_grid k attrs
                     then opt_cons (match pc_children p with a :: _ => match attrs a with Some v => enc_grid v | None => None end | [] => None end) (Some ch)
                     else Some ch) with
              | Some ch => Some (enc_obj k c (enc_children c ch) (enc_aux c (pc_aux p) aux))
              | None => None
              end
          | _, _ => None
          end
      | _, _ => None
      end
  end.

(** ** Decoder, saving.py:157-276 *)
(** jnp.array, onp.array of a list of numbers or of arrays of one shape *)
Definition as_arr (v : pyval) : option arr :=
  match v with Leaf (ANum r) => Some (Arr [] [r]) | Leaf (AArr _ a) => Some a | _ => None end.
Definition same_dims (a b : arr) : bool := if list_eq_dec Nat.eq_dec (dims a) (dims b) then true else false.
Definition stack (l : list arr) : option arr :=
  match l with
  | [] => Some (Arr [0] [])
  | a :: t => if forallb (same_dims a) t then Some (Arr (length l :: dims a) (concat (map data l))) else None
  end.
Fixpoint allsome {A} (l : list (option A)) : option (list A) :=
  match l with [] => Some [] | x :: t => opt_cons x (allsome t) end.
Definition np_array (v : pyval) : option arr :=
  match v with VSeq _ l => match allsome (map as_arr l) with Some l => stack l | None => None end | _ => None end.
(** pint's Quantity.from_tuple *)
Definition unit_of (v : pyval) : option (string * R) :=
  match v with VSeq _ [Leaf (AStr s); Leaf (ANum r)] => Some (s, r) | _ => None end.
Definition quantity (v : pyval) : option (mag * list (string * R)) :=
  match v with
  | VSeq _ [m; VSeq _ u] =>
      match (match m with Leaf (ANum r) => Some (MNum r) | Leaf (AArr jx a) => Some (MArr jx a) | _ => None end), allsome (map unit_of u) with
      | Some m, Some u => Some (m, u) | _, _ => None end
  | _ => None
  end.
Section Dec.
  (** the argument [additional_mappings]: names to classes *)
  Variable extra : list (string * string).
  (** self.models, self.hnc_potentials, lines 193-205: both list all models and potentials
      (C62) under the name of the class; additional mappings take precedence *)
  Definition all_classes : list string :=
    map (fun e => match e with EClass n => n | EName n => n end) (get_all_models_list shipped_models shipped_potentials [] false).
  Definition class_named (n : string) : option string :=
    match find (fun p => String.eqb (fst p) n) extra with
    | Some p => Some (snd p)
    | None => if memb n all_classes then Some n else None end.
  (** lines 207-212 *)
  Definition instr_named (n : string) : option string :=
    match find (fun p => String.eqb (fst p) n) extra with
    | Some p => Some (snd p)
    | None => if memb n ["Gaussian"; "TwinGaussian"; "SuperGaussian"; "Lorentzian"; "FromArray"]%string then Some n else None end.
  (** [_parse_tree_save], lines 49-57 *)
  Definition pick (ls : list string) (v : pyval) : option (list pyval) :=
    match v with VDict kvs => allsome (map (fun k => lookup k kvs) ls) | _ => None end.
  Definition parse_children (c : string) (v : pyval) : option (list pyval) :=
    match children_labels c with
    | Some ls => pick ls v
    | None => match v with VSeq _ l => Some l | _ => None end end.
  Fixpoint relabel (n : nat) (l : list pyval) : list (string * pyval) :=
    match l with [] => [] | v :: t => (String (Ascii.ascii_of_nat (48 + n)) EmptyString, v) :: relabel (S n) t end.
  (** the static data as [_tree_unflatten] of the class takes it *)
  Definition parse_aux (c : string) (f : auxform) (v : pyval) : option (list (string * pyval)) :=
    match aux_labels c with
    | Some ls => option_map (relabel 0) (pick ls v)
    | None => match f, v with
        | ATuple _, VSeq _ l => Some (relabel 0 l)
        | ADict _, VDict kvs => Some kvs
        | ABare _, _ => Some [(EmptyString, v)]
        | _, _ => None end
    end.
  (** object.__new__, _parse_tree_save, _tree_unflatten, e.g. lines 237-241; also the children *)
  Definition restore (c : string) (tree : pyval) : option (pyval * list pyval) :=
    match class_of c, tree with
    | Some p, VSeq _ [ch; aux] =>
        match parse_children c ch, parse_aux c (pc_un_aux p) aux with
        | Some vs, Some a => match rebuild c a vs with Some v => Some (v, vs) | None => None end
        | _, _ => None end
    | _, _ => None
    end.
  (** jnp.linspace *)
  Definition linspace (a b : R) (n : nat) : list R :=
    match n with
    | 0 => [] | 1 => [a]
    | _ => map (fun i => (a + INR i * ((b - a) / INR (n - 1)))%R) (seq 0 n) end.
  Definition as_num (r : R) : nat := Z.to_nat (up (r - 1 / 2)%R).
  (** jnpu.linspace called with a saved grid, line 264, whose ends have the same unit *)
  Definition regrid (v : pyval) : option pyval :=
    match v with
    | VDict [("start"%string, Leaf (AQuant (MNum a) u)); ("stop"%string, Leaf (AQuant (MNum b) _)); ("num"%string, Leaf (ANum n))] =>
        Some (Leaf (AQuant (MArr true (Arr [as_num n] (linspace a b (as_num n)))) u))
    | _ => None
    end.
  Definition fix_grid (r : pyval * list pyval) : option pyval :=
    match fst r with
    | VObj c attrs => match attrs "_transform_r"%string with
        | None => Some (fst r)
        | Some _ => match snd r with
            | g :: _ => match regrid g with Some g' => Some (VObj c (setattr "_transform_r" g' attrs)) | None => None end
            | [] => None end
        end
    | v => Some v
    end.
  (** [object_hook], lines 214-276, on an object whose values are decoded.  Pickled
      functions are not modelled. *)
  Definition hook (kvs : list (string * pyval)) : option pyval :=
    match lookup "_type" kvs with
    | None => Some (VDict kvs)
    | Some t =>
      match lookup "value" kvs with
      | None => None
      | Some v =>
        match t with
        | Leaf (AStr t) =>
          if String.eqb t "ndArray" then option_map (fun a => Leaf (AArr false a)) (np_array v)
          else if String.eqb t "Quantity" then option_map (fun q => Leaf (AQuant (fst q) (snd q))) (quantity v)
          else if String.eqb t "Array" then option_map (fun a => Leaf (AArr true a)) (np_array v)
          else if String.eqb t "Element" then
            match v with Leaf (AStr s) => match element (IdStr s) with Some _ => Some (Leaf (AElem s)) | None => None end | _ => None end
          else if String.eqb t "Model" then
            match v with VSeq _ [Leaf (AStr n); tree] =>
              match class_named n with Some c => option_map fst (restore c tree) | None => None end | _ => None end
          else if String.eqb t "InstrumentFunction" then
            match v with VSeq _ [Leaf (AStr n); tree] =>
              match instr_named n with Some c => option_map fst (restore c tree) | None => None end | _ => None end
          else if String.eqb t "HNCPotential" then
            match v with VSeq _ [Leaf (AStr n); tree] =>
              match class_named n with
              | Some c => match restore c tree with Some r => fix_grid r | None => None end
              | None => None end | _ => None end
          else if String.eqb t "PlasmaState" then option_map fst (restore "PlasmaState" v)
          else if String.eqb t "Setup" then option_map fst (restore "Setup" v)
          else Some (VDict kvs)
        | _ => Some (VDict kvs)
        end
      end
    end.
  (** json.loads(text, cls=JaXRTSDecoder): objects are decoded from the inside out;
      [None]: an exception *)
  Fixpoint dec (j : json) : option pyval :=
    match j with
    | JNull => Some VNone
    | JBool b => Some (Leaf (ABool b))
    | JNum r => Some (Leaf (ANum r))
    | JStr s => Some (Leaf (AStr s))
    | JList l => option_map (VSeq false) ((fix go l := match l with [] => Some [] | j :: r => opt_cons (dec j) (go r) end) l)
    | JObj kvs =>
        match (fix go l := match l with [] => Some [] | (k, j) :: r => opt_cons (option_map (pair k) (dec j)) (go r) end) kvs with
        | Some l => hook l
        | None => None end
    end.
End Dec.
(** load(dump(v)), saving.py:279-400 *)
Definition save_load (extra : list (string * string)) (v : pyval) : option pyval :=
  match enc v with Some j => dec extra j | None => None end.
