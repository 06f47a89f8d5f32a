(** Instrument functions made from callables: C138. *)
From Coq Require Import String List Bool.
From Verif Require Import M_Callable.
Import ListNotations.
Open Scope string_scope.
Open Scope list_scope.

Lemma merge_nil V (d : list (string * V)) : merge d [] = d.
Proof. reflexivity. Qed.
(** An instrument function made from a function is that function. *)
Theorem C138_function : forall V n (f : body V) b, exists o w, FromCallable (Function n f) b = Some (o, w) /\
  forall omega, call_instrument o omega = call (Function n f) [omega] [].
Proof. intros V n f b. unfold FromCallable, check_deprication. cbn [name_of]. do 2 eexists. split; [reflexivity|]. intros omega. reflexivity. Qed.
Print Assumptions C138_function.
(** The value of a keyword in a dictionary, and in a list of dictionaries the last of which counts. *)
Definition get {V} (k : string) (d : list (string * V)) : option V :=
  match find (fun p => String.eqb (fst p) k) d with Some p => Some (snd p) | None => None end.
Definition last_get {V} (k : string) (ds : list (list (string * V))) : option V :=
  fold_left (fun acc d => match get k d with Some v => Some v | None => acc end) ds None.
Lemma get_set V k k' (v : V) d : get k (set_key V k' v d) = if String.eqb k' k then Some v else get k d.
Proof.
  unfold get. induction d as [|[a w] d IH]; cbn [set_key find fst snd].
  - destruct (String.eqb k' k); reflexivity.
  - destruct (String.eqb_spec a k').
    + subst a. cbn [find fst snd]. destruct (String.eqb k' k); reflexivity.
    + cbn [find fst snd]. destruct (String.eqb_spec a k).
      * subst a. destruct (String.eqb_spec k' k); [congruence|reflexivity].
      * exact IH.
Qed.
Lemma get_none V k (d : list (string * V)) : ~ In k (map fst d) -> get k d = None.
Proof.
  unfold get. induction d as [|[a w] d IH]; intros H; [reflexivity|]. cbn [find fst] in *. destruct (String.eqb_spec a k).
  - exfalso. apply H. now left.
  - apply IH. intros Hi. apply H. now right.
Qed.
Lemma get_merge V k (d2 d1 : list (string * V)) : NoDup (map fst d2) ->
  get k (merge d1 d2) = match get k d2 with Some v => Some v | None => get k d1 end.
Proof.
  unfold merge. revert d1. induction d2 as [|[a w] d2 IH]; intros d1 H; [reflexivity|]. inversion H as [|? ? Ha Hd]; subst.
  cbn [fold_left fst snd]. rewrite IH by assumption. rewrite get_set. unfold get at 3. cbn [find fst snd].
  destruct (String.eqb_spec a k); [|reflexivity]. subst a. now rewrite get_none.
Qed.
(** One made from a function with some arguments bound, once or several times over, is what the
    partial object itself gives: the arguments bound first come first, the shift comes last, the last
    binding of a keyword counts. *)
Theorem C138_bound_arguments : forall V n (f : body V) (binds : list (list V * list (string * V))),
  (forall b, In b binds -> NoDup (map fst (snd b))) ->
  let p := fold_left (fun g b => partial g (fst b) (snd b)) binds (Function n f) in
  exists o w kw, FromCallable p false = Some (o, w) /\
  (forall omega, call_instrument o omega = call p [omega] []) /\
  (forall omega, call_instrument o omega = f (List.concat (map fst binds) ++ [omega]) kw) /\
  forall k, get k kw = last_get k (map snd binds).
Proof.
  intros V n f binds HD. cbv zeta.
  assert (H : forall bs a k, fold_left (fun g b => partial g (fst b) (snd b)) bs (Partial (Function n f) a k)
                             = Partial (Function n f) (a ++ List.concat (map fst bs)) (fold_left merge (map snd bs) k)).
  { induction bs as [|[a1 k1] bs IH]; intros a k; cbn [fold_left map List.concat fst snd].
    - now rewrite app_nil_r.
    - cbn [partial]. now rewrite IH, app_assoc. }
  destruct binds as [|[a k] bs].
  - cbn [fold_left map List.concat app]. destruct (C138_function V n f false) as (o & w & E & C). exists o, w, []. split; [exact E|].
    split; [exact C|]. split; [exact C|]. reflexivity.
  - cbn [fold_left fst snd partial]. rewrite H. unfold FromCallable, check_deprication. cbn [name_of].
    do 2 eexists. exists (fold_left merge (map snd bs) k). split; [reflexivity|].
    unfold call_instrument. cbn [function partial_args partial_kwargs call map fst snd List.concat]. split; [|split].
    + intros omega. now rewrite merge_nil.
    + intros omega. reflexivity.
    + intros key. unfold last_get. cbn [fold_left].
      replace (match get key k with Some v => Some v | None => None end) with (get key k) by now destruct (get key k).
      assert (HD' : forall b, In b bs -> NoDup (map fst (snd b))) by (intros b Hb; apply HD; now right). clear - HD'.
      revert k. induction bs as [|[a1 k1] bs IH]; intros k; [reflexivity|]. cbn [map fold_left snd].
      rewrite IH by (intros b Hb; apply HD'; now right). rewrite get_merge by (apply (HD' (a1, k1)); now left). reflexivity.
Qed.
Print Assumptions C138_bound_arguments.
Lemma find_alternatives n :
  (match find (fun p => String.eqb (fst p) n) alternatives with Some p => Some (snd p) | None => None end) <> None <->
  In n ["instrument_gaussian"; "instrument_supergaussian"; "instrument_lorentzian"].
Proof.
  unfold alternatives. cbn [find fst snd In].
  destruct (String.eqb_spec "instrument_gaussian" n); [split; [now left|discriminate]|].
  destruct (String.eqb_spec "instrument_supergaussian" n); [split; [right; now left|discriminate]|].
  destruct (String.eqb_spec "instrument_lorentzian" n); [split; [right; right; now left|discriminate]|].
  split; [intros Hw; exfalso; now apply Hw|]. intros [?|[?|[?|[]]]]; contradiction.
Qed.
(** The three old functions, and no others, raise the deprecation warning, bare or with arguments bound. *)
Theorem C138_warning : forall V n (f : body V) a k b o w o' w', FromCallable (Function n f) b = Some (o, w) ->
  FromCallable (Partial (Function n f) a k) false = Some (o', w') ->
  w = w' /\ (w <> None <-> In n ["instrument_gaussian"; "instrument_supergaussian"; "instrument_lorentzian"]).
Proof.
  intros V n f a k b o w o' w' E E'. unfold FromCallable, check_deprication in E, E'. cbn [name_of] in E, E'.
  assert (Hw : w = w') by congruence. split; [exact Hw|].
  assert (Ew : w = match find (fun p => String.eqb (fst p) n) alternatives with Some p => Some (snd p) | None => None end) by congruence.
  rewrite Ew. apply find_alternatives.
Qed.
Print Assumptions C138_warning.
(** The documented flag that leaves a partial as it is never works: a partial object has no
    __name__, and the look-up for the warning raises; so does every callable instance. *)
Theorem C138_flag_refuted : forall V (f : callable V) a k, FromCallable (Partial f a k) true = None.
Proof. reflexivity. Qed.
Print Assumptions C138_flag_refuted.
Theorem C138_instance_refuted : forall V (f : body V) b, FromCallable (Instance f) b = None.
Proof. reflexivity. Qed.
Print Assumptions C138_instance_refuted.

Definition show_args : body string := fun args kw => Some (String.concat "," (args ++ map (fun p => append (fst p) (append "=" (snd p))) kw)).
Example C138_ex : match FromCallable (partial (partial (Function "f" show_args) ["1"] [("s", "2")]) ["3"] [("s", "4")]) false with
  | Some (o, w) => call_instrument o "x" = Some "1,3,x,s=4" /\ w = None | None => False end.
Proof. split; reflexivity. Qed.
Example C138_ex_warn : match FromCallable (Function "instrument_gaussian" show_args) false with
  | Some (_, w) => w = Some "Gaussian" | None => False end.
Proof. reflexivity. Qed.
