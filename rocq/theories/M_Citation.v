(** Model of the citation functions: literature.py, Model.citation (models.py:102-141,
    repeated verbatim in hnc_potentials.py:315-354) and PlasmaState.citation
    (plasmastate.py:175-214).  pybtex is external: [fmt] is the list of lines of
    its plain formatting of some keys, [bib] the text of one entry, with the given
    value of its note field; [None] is a KeyError. *)
From Coq Require Import String Ascii List Bool.
Import ListNotations.
Open Scope string_scope.
Open Scope list_scope.

Definition nl : ascii := "010"%char.
Definition nls : string := String nl "".
(** str.isspace of an ASCII character, and s.strip() == "" *)
Definition is_space (c : ascii) : bool :=
  let n := nat_of_ascii c in (Nat.leb 9 n && Nat.leb n 13) || (Nat.leb 28 n && Nat.leb n 32).
Fixpoint blank (s : string) : bool :=
  match s with EmptyString => true | String c s => is_space c && blank s end.
(** s[3:] *)
Fixpoint drop (n : nat) (s : string) : string :=
  match n, s with O, _ => s | S n, String _ s => drop n s | _, EmptyString => EmptyString end.

(** an item of cite_keys: a key, or keys with a comment (models.py:60-66) *)
Inductive entry := Key (k : string) | Noted (ks : list string) (note : string).
Inductive style := Plain | Cite | Bibtex.

Definition obind {A B} (o : option A) (f : A -> option B) : option B := match o with Some x => f x | None => None end.
Fixpoint mapM {A B} (f : A -> option B) (l : list A) : option (list B) :=
  match l with [] => Some [] | x :: l => obind (f x) (fun y => obind (mapM f l) (fun r => Some (y :: r))) end.

Section Lit.
  Variable fmt : list string -> option (list string).
  Variable bib : string -> option string -> option string.

  (** get_formatted_ref_string, literature.py:28-58 *)
  Definition formatted (keys : list string) (comment : option string) : option string :=
    obind (fmt keys) (fun l =>
      let out := map (drop 3) l in
      let out := match comment with Some c => c :: out | None => out end in
      Some (String.concat nls (filter (fun s => negb (blank s)) out))).
  (** get_cite_ref_string, literature.py:61-73 *)
  Definition cite_ref (keys : list string) (comment : option string) : option string :=
    let out := ("\cite{" ++ String.concat "," keys ++ "}")%string in
    Some (match comment with Some c => (c ++ "~" ++ out)%string | None => out end).
  (** get_bibtex_ref_string, literature.py:76-99 *)
  Definition bibtex_ref (keys : list string) (comment : option string) : option string :=
    obind (mapM (fun k => bib k comment) keys) (fun l => Some (String.concat nls (filter (fun s => negb (blank s)) l))).

  (** Model.citation, models.py:124-141 *)
  Definition ref_function (st : style) : list string -> option string -> option string :=
    match st with Plain => formatted | Cite => cite_ref | Bibtex => bibtex_ref end.
  Definition model_citation (st : style) (comment : option string) (cite_keys : list entry) : option string :=
    obind (mapM (fun e => match e with
                          | Key k => ref_function st [k] comment
                          | Noted ks note =>
                              ref_function st ks (Some (match comment with Some c => (c ++ ". " ++ note)%string | None => note end))
                          end) cite_keys)
          (fun l => Some (String.concat nls l)).
  (** PlasmaState.citation, plasmastate.py:195-214; the models in the order of the dictionary *)
  Definition state_citation (st : style) (models : list (string * list entry)) : option string :=
    obind (mapM (fun '(key, keys) =>
                   match st with
                   | Bibtex => obind (model_citation st (Some key) keys) (fun s => Some (if blank s then [] else [s]))
                   | _ => obind (model_citation st None keys) (fun s => Some (if blank s then [] else [""; key; s]))
                   end) models)
          (fun l => let out := concat l in
                    let out := match st with Bibtex => out | _ => tl out end in
                    Some (String.concat nls out)).
End Lit.
