(** Model of read_nist_file, jaxrts/helpers.py:415-440: the level tables that the
    Bethe-Uhlenbeck balance reads.  A file is the list of its lines; the regular
    expression (:424-431)

      ,term,(?P<g>\d+),"=""(?P<energy>\d+(?:\.\d+)?)"""

    is searched for in each of them.  After each group of digits comes a
    character that is not a digit, so that the greedy match is the only one; \d is
    restricted to the ASCII digits. *)
From Coq Require Import Reals String Ascii List Bool.
Import ListNotations.
Open Scope string_scope.
Open Scope list_scope.

Definition is_digit (c : ascii) : bool := let n := nat_of_ascii c in Nat.leb 48 n && Nat.leb n 57.
Definition digit_val (c : ascii) : nat := nat_of_ascii c - 48.
(** the literal characters of the expression *)
Fixpoint eat (p s : string) : option string :=
  match p, s with
  | EmptyString, _ => Some s
  | String a p, String b s => if Ascii.eqb a b then eat p s else None
  | _, _ => None
  end.
(** \d+, greedy: the digits and what follows them *)
Fixpoint span (s : string) : string * string :=
  match s with
  | String c t => if is_digit c then let '(d, r) := span t in (String c d, r) else ("", s)
  | EmptyString => ("", "")
  end.
Definition digits (s : string) : option (string * string) :=
  match span s with (EmptyString, _) => None | p => Some p end.
Definition obind {A B} (o : option A) (f : A -> option B) : option B := match o with Some x => f x | None => None end.
(** the expression at the beginning of a string: the groups g and energy, the
    latter as the digits before and after the point *)
Definition match_here (s : string) : option (string * (string * string)) :=
  obind (eat ",term," s) (fun s =>
  obind (digits s) (fun '(g, s) =>
  obind (eat ",""=""""" s) (fun s =>
  obind (digits s) (fun '(e, s) =>
  let '(f, s) := match obind (eat "." s) digits with Some p => p | None => ("", s) end in
  obind (eat """""""" s) (fun _ => Some (g, (e, f))))))).
(** pattern.search(line), :435 *)
Fixpoint search (s : string) : option (string * (string * string)) :=
  match match_here s with
  | Some m => Some m
  | None => match s with EmptyString => None | String _ t => search t end
  end.
(** int(...), :437 *)
Fixpoint dec_acc (n : nat) (s : string) : nat :=
  match s with EmptyString => n | String c s => dec_acc (10 * n + digit_val c) s end.
Definition dec (s : string) : nat := dec_acc 0 s.
(** float(...), :438 *)
Definition decimal (e f : string) : R := (INR (dec (e ++ f)) / 10 ^ String.length f)%R.
(** :432-440; the energies are in eV *)
Definition read_nist_file (lines : list string) : list nat * list R :=
  let ms := flat_map (fun l => match search l with Some m => [m] | None => [] end) lines in
  (map (fun m => dec (fst m)) ms, map (fun m => decimal (fst (snd m)) (snd (snd m))) ms).
