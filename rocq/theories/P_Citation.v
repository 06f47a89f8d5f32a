(** Theorems about the citation strings. *)
From Coq Require Import String Ascii List Bool Lia.
From Verif Require Import M_Citation M_CitationKeys.
Import ListNotations.
Open Scope string_scope.
Open Scope list_scope.

(** ** Reading a string back *)
(** s.split(c) *)
Fixpoint split (c : ascii) (s : string) : list string :=
  match s with
  | EmptyString => [""]
  | String a s => if Ascii.eqb a c then "" :: split c s
                  else match split c s with w :: r => String a w :: r | [] => [String a ""] end
  end.
(** the character does not occur *)
Fixpoint free (c : ascii) (s : string) : bool :=
  match s with EmptyString => true | String a s => negb (Ascii.eqb a c) && free c s end.
(** what precedes, and what follows, the first occurrence of a character *)
Fixpoint before (c : ascii) (s : string) : string :=
  match s with EmptyString => "" | String a s => if Ascii.eqb a c then "" else String a (before c s) end.
Fixpoint from (c : ascii) (s : string) : string :=
  match s with EmptyString => "" | String a t => if Ascii.eqb a c then s else from c t end.
(** the keys of the first \cite{...} of a line, none if there is no backslash *)
Definition keys_of_line (s : string) : list string :=
  match from "\" s with
  | EmptyString => []
  | t => if String.prefix "\cite{" t then split "," (before "}" (drop 6 t)) else []
  end.

Lemma split_nonempty c s : split c s <> [].
Proof. destruct s as [|a s]; cbn; [easy|]. destruct (Ascii.eqb a c); [easy|]. now destruct (split c s). Qed.
Lemma split_app c a b : split c (a ++ String c b)%string = split c a ++ split c b.
Proof.
  induction a as [|x a IH]; cbn; [now rewrite Ascii.eqb_refl|]. destruct (Ascii.eqb x c); [now rewrite IH|].
  rewrite IH. pose proof (split_nonempty c a). now destruct (split c a).
Qed.
Lemma split_free c s : free c s = true -> split c s = [s].
Proof.
  induction s as [|a s IH]; cbn; [easy|]. rewrite andb_true_iff, negb_true_iff. intros [-> H]. now rewrite IH.
Qed.
Lemma split_concat c l : l <> [] -> split c (String.concat (String c "") l) = flat_map (split c) l.
Proof.
  induction l as [|x l IH]; [easy|]. intros _. destruct l as [|y l].
  - cbn. now rewrite app_nil_r.
  - change (String.concat (String c "") (x :: y :: l)) with (x ++ String c "" ++ String.concat (String c "") (y :: l))%string.
    change (String c "" ++ ?z)%string with (String c z). rewrite split_app, IH by easy. reflexivity.
Qed.
Lemma flat_map_free c l : forallb (free c) l = true -> flat_map (split c) l = l.
Proof.
  induction l as [|x l IH]; cbn; [easy|]. rewrite andb_true_iff. intros [H1 H2]. rewrite split_free, IH by assumption. reflexivity.
Qed.
Lemma app_assoc_s a b c : ((a ++ b) ++ c = a ++ (b ++ c))%string.
Proof. induction a as [|x a IH]; cbn; [reflexivity|]. now rewrite IH. Qed.
Lemma free_app c a b : free c (a ++ b)%string = free c a && free c b.
Proof. induction a as [|x a IH]; cbn; [reflexivity|]. rewrite IH. apply andb_assoc. Qed.
Lemma free_concat c sep l : free c sep = true -> forallb (free c) l = true -> free c (String.concat sep l) = true.
Proof.
  intros Hs. induction l as [|x l IH]; [easy|]. cbn [forallb]. rewrite andb_true_iff. intros [H1 H2]. destruct l as [|y l].
  - exact H1.
  - change (String.concat sep (x :: y :: l)) with (x ++ sep ++ String.concat sep (y :: l))%string.
    rewrite !free_app, H1, Hs. cbn. now apply IH.
Qed.
Lemma before_free c a b : free c a = true -> before c (a ++ String c b)%string = a.
Proof.
  induction a as [|x a IH]; cbn; [now rewrite Ascii.eqb_refl|]. rewrite andb_true_iff, negb_true_iff. intros [-> H]. now rewrite IH.
Qed.
Lemma from_free c a b : free c a = true -> from c (a ++ String c b)%string = String c b.
Proof.
  induction a as [|x a IH]; cbn; [now rewrite Ascii.eqb_refl|]. rewrite andb_true_iff, negb_true_iff. intros [-> H]. now apply IH.
Qed.
Lemma from_none c a : free c a = true -> from c a = "".
Proof. induction a as [|x a IH]; cbn; [easy|]. rewrite andb_true_iff, negb_true_iff. intros [-> H]. now apply IH. Qed.

(** ** Well-formed keys, comments and headings *)
Definition word_ok (s : string) : bool := free nl s && free "," s && free "}" s && free "\" s.
Definition text_ok (s : string) : bool := free nl s && free "\" s.
Definition entry_ok (e : entry) : bool :=
  match e with
  | Key k => word_ok k
  | Noted ks note => negb (Nat.eqb (length ks) 0) && forallb word_ok ks && text_ok note
  end.
Definition entry_keys (e : entry) : list string := match e with Key k => [k] | Noted ks _ => ks end.
(** the line that belongs to an entry *)
Definition entry_line (e : entry) : string :=
  match e with
  | Key k => ("\cite{" ++ k ++ "}")%string
  | Noted ks note => (note ++ "~\cite{" ++ String.concat "," ks ++ "}")%string
  end.

Lemma words_free c l : (forall s, word_ok s = true -> free c s = true) -> forallb word_ok l = true -> forallb (free c) l = true.
Proof. intros H. rewrite !forallb_forall. auto. Qed.
Lemma word_ok_iff s : word_ok s = true <-> free nl s = true /\ free "," s = true /\ free "}" s = true /\ free "\" s = true.
Proof. unfold word_ok. rewrite !andb_true_iff. tauto. Qed.
Lemma read_cite ks : ks <> [] -> forallb word_ok ks = true -> forall pre, free "\" pre = true ->
  keys_of_line (pre ++ "\cite{" ++ String.concat "," ks ++ "}")%string = ks.
Proof.
  intros Hn Hk pre Hp. unfold keys_of_line.
  change ("\cite{" ++ ?z)%string with (String "\" ("cite{" ++ z))%string. rewrite from_free by assumption.
  change (String.prefix "\cite{" (String "\" ("cite{" ++ String.concat "," ks ++ "}"))%string) with (String.prefix "" (String.concat "," ks ++ "}")%string).
  assert (E : forall z, String.prefix "" z = true) by now intros []. rewrite E.
  change (drop 6 (String "\" ("cite{" ++ String.concat "," ks ++ "}"))%string) with (String.concat "," ks ++ String "}" "")%string.
  rewrite before_free.
  - rewrite split_concat by assumption. apply flat_map_free. apply words_free; [|assumption]. intros w Hw. now apply word_ok_iff in Hw.
  - apply free_concat; [reflexivity|]. apply words_free; [|assumption]. intros w Hw. now apply word_ok_iff in Hw.
Qed.
Lemma read_line e : entry_ok e = true -> keys_of_line (entry_line e) = entry_keys e.
Proof.
  destruct e as [k|ks note]; unfold entry_ok; intros H.
  - apply (read_cite [k] ltac:(easy)) with (pre := ""); cbn; [now rewrite H|reflexivity].
  - apply andb_true_iff in H. destruct H as [H Ht]. apply andb_true_iff in H. destruct H as [Hn Hk].
    apply andb_true_iff in Ht. destruct Ht as [_ Ht]. cbn [entry_line entry_keys].
    change ("~\cite{" ++ ?z)%string with ("~" ++ ("\cite{" ++ z))%string. rewrite <- app_assoc_s.
    apply read_cite; [now destruct ks|assumption|]. rewrite free_app, Ht. reflexivity.
Qed.
Lemma line_free e : entry_ok e = true -> free nl (entry_line e) = true.
Proof.
  destruct e as [k|ks note]; unfold entry_ok; intros H; cbn [entry_line].
  - apply word_ok_iff in H. rewrite !free_app. destruct H as [-> _]. reflexivity.
  - apply andb_true_iff in H. destruct H as [H Ht]. apply andb_true_iff in H. destruct H as [_ Hk].
    apply andb_true_iff in Ht. destruct Ht as [Ht _]. rewrite !free_app, Ht. rewrite free_concat; [reflexivity|reflexivity|].
    apply words_free; [|assumption]. intros w Hw. now apply word_ok_iff in Hw.
Qed.
Lemma blank_app a b : blank (a ++ b)%string = blank a && blank b.
Proof. induction a as [|x a IH]; cbn; [reflexivity|]. rewrite IH. apply andb_assoc. Qed.
Lemma line_not_blank e : blank (entry_line e) = false.
Proof.
  destruct e as [k|ks note]; cbn [entry_line]; rewrite !blank_app; cbn; try reflexivity. apply andb_false_r.
Qed.

Section C.
  Variables (fmt : list string -> option (list string)) (bib : string -> option string -> option string).
  Notation mc := (model_citation fmt bib).
  Notation sc := (state_citation fmt bib).

  Lemma mapM_total {A B} (f : A -> option B) g l : (forall x, In x l -> f x = Some (g x)) -> mapM f l = Some (map g l).
  Proof.
    induction l as [|x l IH]; intros H; [reflexivity|]. cbn. rewrite H by now left. cbn. rewrite IH; [reflexivity|]. intros y Hy. apply H. now right.
  Qed.
  Lemma mc_cite es : mc Cite None es = Some (String.concat nls (map entry_line es)).
  Proof.
    unfold model_citation. rewrite (mapM_total _ entry_line); [reflexivity|]. intros [k|ks note] _; reflexivity.
  Qed.
  Lemma concat_blank es : blank (String.concat nls (map entry_line es)) = match es with [] => true | _ => false end.
  Proof.
    destruct es as [|e es]; [reflexivity|]. destruct es as [|e2 es].
    - cbn. apply line_not_blank.
    - change (String.concat nls (map entry_line (e :: e2 :: es))) with (entry_line e ++ nls ++ String.concat nls (map entry_line (e2 :: es)))%string.
      rewrite blank_app, line_not_blank. reflexivity.
  Qed.
  Definition cites_something (m : string * list entry) : bool := match snd m with [] => false | _ => true end.
  Definition block (m : string * list entry) : list string := "" :: fst m :: map entry_line (snd m).
  Lemma flat_split l : (forall m, In m l -> free nl (fst m) = true /\ forallb entry_ok (snd m) = true) ->
    flat_map (split nl) (flat_map (fun m => if cites_something m then [""; fst m; String.concat nls (map entry_line (snd m))] else []) l)
    = flat_map block (filter cites_something l).
  Proof.
    induction l as [|[h es] l IH]; intros H; [reflexivity|]. cbn [flat_map filter]. rewrite flat_map_app, IH by (intros m Hm; apply H; now right).
    destruct (H (h, es) ltac:(now left)) as [Hh He]. cbn [fst snd] in *. unfold cites_something at 1 3. cbn [snd].
    destruct es as [|e es]; [reflexivity|]. cbn [flat_map]. unfold block at 1. cbn [fst snd].
    rewrite (split_free nl h Hh). unfold nls. rewrite split_concat by easy. rewrite flat_map_free.
    - cbn. now rewrite app_nil_r.
    - rewrite forallb_forall. intros s Hs. apply in_map_iff in Hs. destruct Hs as (e' & <- & He'). apply line_free.
      rewrite forallb_forall in He. auto.
  Qed.

  Lemma cite_lines : forall models,
    (forall h es, In (h, es) models -> free nl h = true /\ forallb entry_ok es = true) ->
    exists out, sc Cite models = Some out /\
      split nl out = match filter cites_something models with
                     | [] => [""]
                     | l => tl (flat_map (fun m => "" :: fst m :: map entry_line (snd m)) l)
                     end.
  Proof.
    intros models H. unfold state_citation.
    rewrite (mapM_total _ (fun m => if cites_something m then [""; fst m; String.concat nls (map entry_line (snd m))] else [])).
    2:{ intros [h es] _. rewrite mc_cite. cbn [obind]. rewrite concat_blank. unfold cites_something. cbn. now destruct es. }
    cbn [obind]. eexists. split; [reflexivity|]. rewrite <- flat_map_concat_map.
    assert (HS := flat_split models ltac:(intros [h es] Hm; apply H; exact Hm)).
    set (big := flat_map (fun m => if cites_something m then _ else []) models) in *.
    destruct (filter cites_something models) as [|m l] eqn:EF.
    - assert (big = []). { destruct big as [|x b]; [reflexivity|]. cbn in HS. pose proof (split_nonempty nl x). destruct (split nl x); [contradiction|discriminate]. }
      rewrite H0. reflexivity.
    - assert (Hb : exists h s rest, big = "" :: h :: s :: rest).
      { unfold big. clear -EF. induction models as [|[h es] ms IH]; [discriminate|]. cbn [filter flat_map] in *.
        destruct es as [|e es]; [apply IH; exact EF|]. cbn. eauto. }
      destruct Hb as (h & s & rest & Hb). rewrite Hb in HS |- *. cbn [tl]. unfold nls. rewrite split_concat by easy.
      change (flat_map (fun m0 => "" :: fst m0 :: map entry_line (snd m0))) with (flat_map block).
      rewrite <- HS. reflexivity.
  Qed.
  Lemma cite_keys_read : forall models,
    (forall h es, In (h, es) models -> text_ok h = true /\ forallb entry_ok es = true) ->
    exists out, sc Cite models = Some out /\
      flat_map keys_of_line (split nl out) = flat_map (fun m => flat_map entry_keys (snd m)) models.
  Proof.
    intros models H. destruct (cite_lines models) as (out & E & L).
    { intros h es Hm. destruct (H h es Hm) as [Ht He]. apply andb_true_iff in Ht. tauto. }
    exists out. split; [exact E|].
    assert (HT : flat_map keys_of_line (split nl out) = flat_map keys_of_line (flat_map block (filter cites_something models))).
    { rewrite L. destruct (filter cites_something models); [reflexivity|]. reflexivity. }
    rewrite HT. clear -H. induction models as [|[h es] ms IH]; [reflexivity|].
    assert (IH' := IH ltac:(intros h' es' Hm; apply H; now right)). cbn [filter flat_map].
    destruct (H h es ltac:(now left)) as [Hh He]. apply andb_true_iff in Hh. destruct Hh as [_ Hh].
    unfold cites_something at 1. cbn [snd]. destruct es as [|e es]; [exact IH'|].
    cbn [flat_map]. rewrite flat_map_app, IH'. f_equal. unfold block. cbn [fst snd flat_map]. 
    assert (Kh : keys_of_line h = []) by (unfold keys_of_line; now rewrite from_none). rewrite Kh. cbn [app].
    change (keys_of_line "") with (@nil string). cbn [app].
    assert (G : forall l, forallb entry_ok l = true -> flat_map keys_of_line (map entry_line l) = flat_map entry_keys l).
    { induction l as [|x l IHl]; [reflexivity|]. cbn. rewrite andb_true_iff. intros [A B]. now rewrite read_line, IHl. }
    apply (G (e :: es) He).
  Qed.
End C.
(** The string consists of one block for every model that cites something, in the
    order of the dictionary, separated by an empty line: the key it is attached
    under, then one line for every item of its list. *)
Theorem C135_cite_lines : forall fmt bib models,
  (forall h es, In (h, es) models -> free nl h = true /\ forallb entry_ok es = true) ->
  exists out, state_citation fmt bib Cite models = Some out /\
    split nl out = match filter (fun m => match snd m with [] => false | _ => true end) models with
                   | [] => [""]
                   | l => tl (flat_map (fun m => "" :: fst m :: map entry_line (snd m)) l)
                   end.
Proof. exact cite_lines. Qed.
Print Assumptions C135_cite_lines.
(** Whoever collects the arguments of \cite from the string finds the keys of all
    attached models, in order, and nothing else. *)
Theorem C135_cite_keys : forall fmt bib models,
  (forall h es, In (h, es) models -> text_ok h = true /\ forallb entry_ok es = true) ->
  exists out, state_citation fmt bib Cite models = Some out /\
    flat_map keys_of_line (split nl out) = flat_map (fun m => flat_map entry_keys (snd m)) models.
Proof. exact cite_keys_read. Qed.
Print Assumptions C135_cite_keys.

(** ** The package's own lists *)
Definition known (k : string) : bool := existsb (String.eqb k) bib_keys.
Lemma own_lists_ok :
  forallb (fun c => forallb (fun e => entry_ok e && forallb known (entry_keys e)) (snd c)) class_citations = true.
Proof. vm_compute. reflexivity. Qed.
(** Every key that a class of the package names is in literature.bib, and the
    hypotheses of the theorems above hold of every such list. *)
Theorem C135_keys_exist : forall c es, In (c, es) class_citations ->
  forallb entry_ok es = true /\ forall e k, In e es -> In k (entry_keys e) -> In k bib_keys.
Proof.
  intros c es H. pose proof own_lists_ok as A. rewrite forallb_forall in A. specialize (A _ H). cbn [snd] in A.
  rewrite forallb_forall in A. split.
  - rewrite forallb_forall. intros e He. specialize (A e He). apply andb_true_iff in A. tauto.
  - intros e k He Hk. specialize (A e He). apply andb_true_iff in A. destruct A as [_ A]. rewrite forallb_forall in A.
    specialize (A k Hk). unfold known in A. apply existsb_exists in A. destruct A as (x & Hx & E). apply String.eqb_eq in E. now subst.
Qed.
Print Assumptions C135_keys_exist.

Lemma mapM_some {A B} (f : A -> option B) l : (forall x, In x l -> f x <> None) -> exists r, mapM f l = Some r.
Proof.
  induction l as [|x l IH]; intros H; [now exists []|]. destruct (f x) as [y|] eqn:E; [|exfalso; apply (H x); [now left|assumption]].
  destruct IH as [r Hr]; [intros z Hz; apply H; now right|]. exists (y :: r). cbn. now rewrite E, Hr.
Qed.
(** So no style raises a KeyError, whatever models of the package are attached and
    under whatever keys, if the bibliography gives what its file lists. *)
Theorem C135_no_error : forall fmt bib st models,
  (forall ks, (forall k, In k ks -> In k bib_keys) -> fmt ks <> None) ->
  (forall k c, In k bib_keys -> bib k c <> None) ->
  (forall h es, In (h, es) models -> exists c, In (c, es) class_citations) ->
  exists out, state_citation fmt bib st models = Some out.
Proof.
  intros fmt bib st models Hf Hb Hm.
  assert (HR : forall ks c, (forall k, In k ks -> In k bib_keys) -> ref_function fmt bib st ks c <> None).
  { intros ks c Hk. destruct st; cbn.
    - unfold formatted. specialize (Hf ks Hk). now destruct (fmt ks).
    - discriminate.
    - unfold bibtex_ref. destruct (mapM_some (fun k => bib k c) ks) as [r ->]; [|discriminate]. intros k H. apply Hb. auto. }
  assert (HM : forall h es c, In (h, es) models -> exists s, model_citation fmt bib st c es = Some s).
  { intros h es c H. destruct (Hm h es H) as [cl Hc]. destruct (C135_keys_exist cl es Hc) as [_ Hk]. unfold model_citation.
    match goal with |- context [mapM ?f es] => destruct (mapM_some f es) as [r ->] end; [|eexists; reflexivity].
    intros [k|ks n] He; apply HR; intros k' Hk'; apply (Hk _ k' He); exact Hk'. }
  unfold state_citation.
  match goal with |- context [mapM ?f models] => destruct (mapM_some f models) as [r ->] end; [|eexists; reflexivity].
  intros [h es] H. destruct (HM h es None H) as [s1 E1]. destruct (HM h es (Some h) H) as [s2 E2].
  destruct st; rewrite ?E1, ?E2; discriminate.
Qed.
Print Assumptions C135_no_error.

(** ** Bibtex *)
Lemma concat_flat l : (forall x, In x l -> x <> []) -> String.concat nls (map (String.concat nls) l) = String.concat nls (concat l).
Proof.
  assert (J : forall a b, a <> [] -> b <> [] -> (String.concat nls a ++ nls ++ String.concat nls b = String.concat nls (a ++ b))%string).
  { induction a as [|x a IH]; [easy|]. intros b _ Hb. destruct a as [|y a].
    - cbn [app String.concat]. destruct b; [contradiction|reflexivity].
    - change (String.concat nls (x :: y :: a)) with (x ++ nls ++ String.concat nls (y :: a))%string.
      change (((x :: y :: a) ++ b)) with (x :: ((y :: a) ++ b)).
      destruct ((y :: a) ++ b) as [|z r] eqn:E; [discriminate|]. rewrite <- E in *.
      replace (String.concat nls (x :: (y :: a) ++ b)) with (x ++ nls ++ String.concat nls ((y :: a) ++ b))%string by (rewrite E; reflexivity).
      rewrite <- IH by easy. now rewrite !app_assoc_s. }
  induction l as [|a l IH]; intros H; [reflexivity|]. destruct l as [|b l].
  - cbn. now rewrite app_nil_r.
  - change (map (String.concat nls) (a :: b :: l)) with (String.concat nls a :: map (String.concat nls) (b :: l)).
    change (String.concat nls (String.concat nls a :: map (String.concat nls) (b :: l)))
      with (String.concat nls a ++ nls ++ String.concat nls (map (String.concat nls) (b :: l)))%string.
    rewrite IH by (intros x Hx; apply H; now right).
    change (concat (a :: b :: l)) with (a ++ concat (b :: l)). apply J.
    + apply H. now left.
    + cbn. specialize (H b ltac:(right; now left)). now destruct b.
Qed.
Lemma filter_all {A} (f : A -> bool) l : (forall x, In x l -> f x = true) -> filter f l = l.
Proof. induction l as [|x l IH]; intros H; [reflexivity|]. cbn. rewrite H by now left. f_equal. apply IH. intros y Hy. apply H. now right. Qed.
Definition bibtex_texts (text : string -> string -> string) (h : string) (e : entry) : list string :=
  match e with
  | Key k => [text k h]
  | Noted ks note => map (fun k => text k (h ++ ". " ++ note)%string) ks
  end.
Lemma concat_not_blank l : l <> [] -> (forall s, In s l -> blank s = false) -> blank (String.concat nls l) = false.
Proof.
  intros Hn H. destruct l as [|x l]; [easy|]. destruct l as [|y l].
  - apply H. now left.
  - change (String.concat nls (x :: y :: l)) with (x ++ nls ++ String.concat nls (y :: l))%string. rewrite blank_app, (H x) by now left. reflexivity.
Qed.
(** One entry for every key of every model, in order, its note telling what the
    model is attached as, followed by the comment if there is one. *)
Theorem C135_bibtex : forall fmt bib text models,
  (forall h es e k, In (h, es) models -> In e es -> In k (entry_keys e) -> forall c, bib k (Some c) = Some (text k c) /\ blank (text k c) = false) ->
  (forall h es e, In (h, es) models -> In e es -> entry_keys e <> []) ->
  state_citation fmt bib Bibtex models =
  Some (String.concat nls (flat_map (fun m => flat_map (bibtex_texts text (fst m)) (snd m)) models)).
Proof.
  intros fmt bib text models Hb Hn. unfold state_citation.
  rewrite (mapM_total _ (fun m => match snd m with [] => [] | _ => [String.concat nls (flat_map (bibtex_texts text (fst m)) (snd m))] end)).
  - cbn [obind]. f_equal. rewrite <- flat_map_concat_map.
    assert (G : flat_map (fun m => match snd m with [] => [] | _ => [String.concat nls (flat_map (bibtex_texts text (fst m)) (snd m))] end) models
                = map (String.concat nls) (map (fun m => flat_map (bibtex_texts text (fst m)) (snd m)) (filter (fun m => match snd m with [] => false | _ => true end) models))).
    { clear. induction models as [|[h es] ms IH]; [reflexivity|]. cbn [flat_map filter fst snd]. destruct es as [|e es]; [exact IH|]. cbn [app map fst snd]. now rewrite IH. }
    rewrite G, concat_flat.
    + f_equal. clear. induction models as [|[h es] ms IH]; [reflexivity|]. cbn [filter flat_map fst snd]. destruct es as [|e es]; [exact IH|]. cbn [map concat fst snd]. now rewrite IH.
    + intros x Hx. apply in_map_iff in Hx. destruct Hx as ([h es] & <- & Hm). apply filter_In in Hm. destruct Hm as [Hm He]. cbn [fst snd] in *.
      destruct es as [|e es]; [discriminate|]. specialize (Hn h (e :: es) e Hm ltac:(now left)). destruct e as [k|[|k ks] note]; cbn in *; easy.
  - intros [h es] Hm. cbn [fst snd]. unfold model_citation.
    rewrite (mapM_total _ (fun e => String.concat nls (bibtex_texts text h e))).
    + cbn [obind]. rewrite <- (map_map (bibtex_texts text h) (String.concat nls)), concat_flat.
      * rewrite <- flat_map_concat_map. destruct es as [|e es]; [reflexivity|]. rewrite concat_not_blank; [reflexivity| |].
        { specialize (Hn h (e :: es) e Hm ltac:(now left)). cbn. destruct e as [k|[|k ks] note]; cbn in *; easy. }
        intros s Hs. apply in_flat_map in Hs. destruct Hs as (e' & He' & Hs).
        destruct e' as [k|ks note]; cbn in Hs.
        -- destruct Hs as [<-|[]]. apply (Hb h _ _ k Hm He'). now left.
        -- apply in_map_iff in Hs. destruct Hs as (k & <- & Hk). now apply (Hb h _ _ k Hm He').
      * intros x Hx. apply in_map_iff in Hx. destruct Hx as (e & <- & He). specialize (Hn h es e Hm He). destruct e as [k|[|k ks] note]; cbn in *; easy.
    + intros e He. assert (R : forall ks c, (forall k, In k ks -> bib k (Some c) = Some (text k c) /\ blank (text k c) = false) ->
        bibtex_ref bib ks (Some c) = Some (String.concat nls (map (fun k => text k c) ks))).
      { intros ks c H. unfold bibtex_ref. rewrite (mapM_total _ (fun k => text k c)) by (intros k Hk; now apply H). cbn [obind].
        rewrite filter_all; [reflexivity|]. intros s Hs. apply in_map_iff in Hs. destruct Hs as (k & <- & Hk). destruct (H k Hk) as [_ ->]. reflexivity. }
      destruct e as [k|ks note]; cbn [ref_function]; rewrite R; try reflexivity; intros k' Hk'; apply (Hb h es _ k' Hm He Hk').
Qed.
Print Assumptions C135_bibtex.

(** ** Plain text *)
Definition plain_lines (texts : list string -> list string) (e : entry) : list string :=
  match e with Key k => texts [k] | Noted ks note => note :: texts ks end.
(** With the empty labels that the package chooses, pybtex puts "[] " before every
    reference and ends with a newline.  Both are removed: below the heading come,
    for every item, its comment and its references, a line each. *)
Theorem C135_plain : forall fmt bib texts models,
  (forall h es, In (h, es) models -> free nl h = true /\
     forall e, In e es ->
       (forall note ks, e = Noted ks note -> free nl note = true /\ blank note = false) /\
       fmt (entry_keys e) = Some (map (fun t => "[] " ++ t)%string (texts (entry_keys e)) ++ [""]) /\
       texts (entry_keys e) <> [] /\
       forall t, In t (texts (entry_keys e)) -> free nl t = true /\ blank t = false) ->
  exists out, state_citation fmt bib Plain models = Some out /\
    split nl out = match filter (fun m => negb (Nat.eqb (length (snd m)) 0)) models with
                   | [] => [""]
                   | l => tl (flat_map (fun m => "" :: fst m :: flat_map (plain_lines texts) (snd m)) l)
                   end.
Proof.
  intros fmt bib texts models H.
  assert (HD : forall l, (forall t : string, In t l -> blank t = false) ->
            filter (fun s => negb (blank s)) (map (drop 3) (map (fun t => "[] " ++ t)%string l ++ [""])) = l).
  { intros l Hl. rewrite map_app, filter_app, map_map. cbn [map filter drop blank negb app]. rewrite app_nil_r.
    rewrite (map_ext _ (fun t => t)) by reflexivity. rewrite map_id. apply filter_all. intros t Ht. now rewrite Hl. }
  assert (HR : forall h es e, In (h, es) models -> In e es ->
            match e with Key k => formatted fmt [k] None | Noted ks note => formatted fmt ks (Some note) end
            = Some (String.concat nls (plain_lines texts e)) /\
            plain_lines texts e <> [] /\ forallb (free nl) (plain_lines texts e) = true /\ forall t, In t (plain_lines texts e) -> blank t = false).
  { intros h es e Hm He. destruct (H h es Hm) as [_ He']. destruct (He' e He) as (Hn & Hf & Hne & Ht).
    destruct e as [k|ks note]; cbn [entry_keys plain_lines] in *; unfold formatted; rewrite Hf; cbn [obind].
    - rewrite HD by (intros t T; now apply Ht). split; [reflexivity|]. split; [assumption|]. split; [|intros t T; now apply Ht].
      rewrite forallb_forall. intros t T. now apply Ht.
    - destruct (Hn note ks eq_refl) as [N1 N2]. cbn [filter]. rewrite N2. cbn [negb]. rewrite HD by (intros t T; now apply Ht).
      split; [reflexivity|]. split; [easy|]. split.
      + cbn [forallb]. rewrite N1. cbn [andb]. rewrite forallb_forall. intros t T. now apply Ht.
      + intros t [<-|T]; [assumption|now apply Ht]. }
  assert (HM : forall h es, In (h, es) models -> model_citation fmt bib Plain None es = Some (String.concat nls (flat_map (plain_lines texts) es))).
  { intros h es Hm. unfold model_citation. rewrite (mapM_total _ (fun e => String.concat nls (plain_lines texts e))).
    - cbn [obind]. rewrite <- (map_map (plain_lines texts) (String.concat nls)), concat_flat; [now rewrite <- flat_map_concat_map|].
      intros x Hx. apply in_map_iff in Hx. destruct Hx as (e & <- & He). now apply (HR h es e Hm He).
    - intros e He. destruct (HR h es e Hm He) as [E _]. destruct e; exact E. }
  set (some := fun m : string * list entry => negb (Nat.eqb (length (snd m)) 0)).
  unfold state_citation.
  rewrite (mapM_total _ (fun m => if some m then [""; fst m; String.concat nls (flat_map (plain_lines texts) (snd m))] else [])).
  2:{ intros [h es] Hm. rewrite (HM h es Hm). cbn [obind]. f_equal. unfold some. cbn [snd fst]. destruct es as [|e es]; [reflexivity|].
      rewrite concat_not_blank; [reflexivity| |].
      - cbn. destruct (HR h (e :: es) e Hm ltac:(now left)) as (_ & N & _). now destruct (plain_lines texts e).
      - intros t T. apply in_flat_map in T. destruct T as (e' & He' & T). now apply (HR h (e :: es) e' Hm He'). }
  cbn [obind]. eexists. split; [reflexivity|]. rewrite <- flat_map_concat_map.
  assert (HS : flat_map (split nl) (flat_map (fun m => if some m then [""; fst m; String.concat nls (flat_map (plain_lines texts) (snd m))] else []) models)
               = flat_map (fun m => "" :: fst m :: flat_map (plain_lines texts) (snd m)) (filter some models)).
  { assert (HR' : forall h es, In (h, es) models -> free nl h = true /\ forall e, In e es -> plain_lines texts e <> [] /\ forallb (free nl) (plain_lines texts e) = true).
    { intros h es Hm. split; [now apply (H h es Hm)|]. intros e He. destruct (HR h es e Hm He) as (_ & A & B & _). now split. }
    clear - HR'. induction models as [|[h es] ms IH]; [reflexivity|]. cbn [flat_map filter].
    rewrite flat_map_app, IH by (intros h' es' Hm; apply HR'; now right). destruct (HR' h es ltac:(now left)) as [Hh He].
    unfold some at 1 3. cbn [snd fst]. destruct es as [|e es]; [reflexivity|]. cbn [length Nat.eqb negb flat_map fst snd].
    rewrite (split_free nl h Hh). unfold nls. rewrite split_concat.
    - change (plain_lines texts e ++ flat_map (plain_lines texts) es) with (flat_map (plain_lines texts) (e :: es)).
      rewrite flat_map_free; [cbn; now rewrite app_nil_r|]. rewrite forallb_forall. intros t T. apply in_flat_map in T. destruct T as (e' & He' & T).
      destruct (He e' He') as [_ F]. rewrite forallb_forall in F. auto.
    - destruct (He e ltac:(now left)) as [N _]. now destruct (plain_lines texts e). }
  set (big := flat_map (fun m => if some m then _ else []) models) in *.
  destruct (filter some models) as [|m l] eqn:EF.
  - assert (Hb : big = []). { destruct big as [|x b]; [reflexivity|]. cbn in HS. pose proof (split_nonempty nl x). destruct (split nl x); [contradiction|discriminate]. }
    rewrite Hb. reflexivity.
  - assert (Hb : exists h s rest, big = "" :: h :: s :: rest).
    { unfold big. clear -EF. induction models as [|[h es] ms IH]; [discriminate|]. cbn [filter flat_map] in *.
      destruct es as [|e es]; [apply IH; exact EF|]. cbn. eauto. }
    destruct Hb as (h & s & rest & Hb). rewrite Hb in HS |- *. cbn [tl]. unfold nls. rewrite split_concat by easy.
    rewrite <- HS. reflexivity.
Qed.
Print Assumptions C135_plain.

(** ** Composite models cite nothing *)
(** A PotentialSum (hnc_potentials.py:594-709), a ScaledPotential (:712-789), an
    IPDSum (models.py:4008-4068) and a Sum_Sii (:4926-4983) inherit the empty list of
    the base class, whatever their parts cite. *)
Theorem C135_composite_refuted :
  exists part es, In (part, es) class_citations /\ es <> [] /\
  forall sum, In sum ["PotentialSum"; "ScaledPotential"; "IPDSum"; "Sum_Sii"] ->
    exists es', In (sum, es') class_citations /\
    forall fmt bib st h, state_citation fmt bib st [(h, es')] = Some "".
Proof.
  exists "DebyeHueckelPotential", [Key "Wunsch.2008"].
  split; [apply (find_some (fun p => String.eqb (fst p) "DebyeHueckelPotential")); reflexivity|]. split; [easy|].
  intros sum Hs. exists []. split; [|intros fmt bib [] h; reflexivity].
  destruct Hs as [<-|[<-|[<-|[<-|[]]]]];
    match goal with |- In (?c, _) _ => apply (find_some (fun p => String.eqb (fst p) c)); reflexivity end.
Qed.
Print Assumptions C135_composite_refuted.

(** ** An example *)
Example C135_ex :
  state_citation (fun _ => None) (fun _ _ => None) Cite
    [("screening length", [Key "Debye.1923"; Key "Gericke.2010"]); ("free-bound scattering", []);
     ("ee-lfc", [Noted ["Farid.1993"; "Geldart.1966"] "Limits."])]
  = Some ("screening length" ++ nls ++ "\cite{Debye.1923}" ++ nls ++ "\cite{Gericke.2010}" ++ nls ++ nls ++
          "ee-lfc" ++ nls ++ "Limits.~\cite{Farid.1993,Geldart.1966}")%string /\
  text_ok "screening length" = true /\ forallb entry_ok [Key "Debye.1923"; Noted ["Farid.1993"; "Geldart.1966"] "Limits."] = true.
Proof. repeat split. Qed.
Example C135_bibtex_ex :
  state_citation (fun _ => None) (fun k c => match c with Some n => Some ("@" ++ k ++ n)%string | None => None end) Bibtex
    [("a", [Key "x"]); ("b", []); ("c", [Noted ["y"; "z"] "n"])]
  = Some ("@xa" ++ nls ++ "@yc. n" ++ nls ++ "@zc. n")%string.
Proof. reflexivity. Qed.
Example C135_plain_ex :
  state_citation (fun ks => Some (map (fun k => "[] " ++ k)%string ks ++ [""])) (fun _ _ => None) Plain
    [("a", [Key "x"]); ("b", []); ("c", [Noted ["y"; "z"] "n"])]
  = Some ("a" ++ nls ++ "x" ++ nls ++ nls ++ "c" ++ nls ++ "n" ++ nls ++ "y" ++ nls ++ "z")%string.
Proof. reflexivity. Qed.
