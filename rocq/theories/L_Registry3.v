(** Capabilities of attached models and frozen cut-offs. *)
From Coq Require Import String List Bool Arith Lia.
From Verif Require Import M_Registry M_Classes L_Registry L_Registry2.
Import ListNotations.
Open Scope string_scope.
Open Scope list_scope.

(** Class [c] has method [m] (methods table of M_Classes). *)
Definition offers (c : cls) (m : string) : bool :=
  match dict_get (c_name c) methods_table with Some l => mem_str m l | None => false end.

(** The reads for which some shipped class allowed at the key lacks the method. *)
Definition fragile (p : string * string) : bool :=
  existsb (fun c => mem_str (fst p) (c_allowed c) && negb (offers c (snd p))) shipped.

Lemma fragile_reads :
  flat_map (fun c => map (fun p => (c_name c, p)) (filter fragile (reads_of c))) shipped =
  [("LinearResponseScreening", ("free-free scattering", "susceptibility"));
   ("Sum_Sii", ("ionic scattering", "check_supports_S_ii_grid"));
   ("Sum_Sii", ("ionic scattering", "S_ii_on_grid"));
   ("Sum_Sii", ("ionic scattering", "S_ii"))].
Proof. vm_compute. reflexivity. Qed.

Lemma offers_unless_fragile c key meth :
  In c shipped -> In key (c_allowed c) -> fragile (key, meth) = false -> offers c meth = true.
Proof.
  intros Hc Hk Hf. destruct (offers c meth) eqn:E; [reflexivity|]. exfalso.
  assert (fragile (key, meth) = true); [|congruence].
  unfold fragile. apply existsb_exists. exists c. split; [assumption|]. cbn.
  rewrite E. apply mem_str_In in Hk. now rewrite Hk.
Qed.

Lemma not_fragile c key meth :
  In c shipped -> In (key, meth) (reads_of c) ->
  c_name c <> "LinearResponseScreening" -> c_name c <> "Sum_Sii" ->
  fragile (key, meth) = false.
Proof.
  intros Hc Hr H1 H2. destruct (fragile (key, meth)) eqn:E; [|reflexivity]. exfalso.
  assert (Hin : In (c_name c, (key, meth))
     (flat_map (fun c => map (fun p => (c_name c, p)) (filter fragile (reads_of c))) shipped)).
  { apply in_flat_map. exists c. split; [assumption|]. apply in_map_iff.
    exists (key, meth). split; [reflexivity|]. now apply filter_In. }
  rewrite fragile_reads in Hin. cbn in Hin.
  destruct Hin as [H|[H|[H|[H|[]]]]]; injection H as H _ _; congruence.
Qed.

(** All instances of a history made of shipped classes are of shipped classes. *)
Definition heap_shipped (s : st) : Prop := forall i o, nth_error (s_heap s) i = Some o -> In (o_cls o) shipped.

(** Boolean equality of classes. *)
Definition emode_eqb (a b : emode) : bool :=
  match a, b with
  | Off, Off | SpinAveraged, SpinAveraged | SpinSeparated, SpinSeparated => true
  | _, _ => false
  end.
Lemma emode_eqb_eq a b : emode_eqb a b = true -> a = b.
Proof. destruct a, b; easy. Qed.
Fixpoint strs_eqb (a b : list string) : bool :=
  match a, b with
  | [], [] => true
  | x :: a, y :: b => String.eqb x y && strs_eqb a b
  | _, _ => false
  end.
Lemma strs_eqb_eq a b : strs_eqb a b = true -> a = b.
Proof.
  revert b; induction a as [|x a IH]; intros [|y b]; cbn; try easy.
  intros H. apply andb_prop in H as [H1 H2]. apply String.eqb_eq in H1. f_equal; auto.
Qed.
Fixpoint cls_eqb (c d : cls) {struct c} : bool :=
  match c, d with
  | Cls n al e acts, Cls n' al' e' acts' =>
      String.eqb n n' && strs_eqb al al' && emode_eqb e e' &&
      (fix go (l l' : list act) : bool :=
         match l, l' with
         | [], [] => true
         | a :: t, a' :: t' => act_eqb a a' && go t t'
         | _, _ => false
         end) acts acts'
  end
with act_eqb (a b : act) {struct a} : bool :=
  match a, b with
  | ADefault k c, ADefault k' c' | AAssign k c, AAssign k' c' => String.eqb k k' && cls_eqb c c'
  | ASetElec k m, ASetElec k' m' => String.eqb k k' && emode_eqb m m'
  | AIfOne a b, AIfOne a' b' => act_eqb a a' && act_eqb b b'
  | ACutoff, ACutoff => true
  | _, _ => false
  end.
Lemma eqb_sound : (forall c, (fun c => forall d, cls_eqb c d = true -> c = d) c) /\
                  (forall a, (fun a => forall b, act_eqb a b = true -> a = b) a).
Proof.
  apply cls_act_ind.
  - intros n al e acts Hall [n' al' e' acts']. cbn. intros H.
    apply andb_prop in H as [H H4]. apply andb_prop in H as [H H3]. apply andb_prop in H as [H1 H2].
    apply String.eqb_eq in H1. apply strs_eqb_eq in H2. apply emode_eqb_eq in H3. subst. f_equal.
    revert acts' H4. induction Hall as [|a t Ha _ IH]; intros [|a' t']; try easy.
    intros H. apply andb_prop in H as [H1 H2]. f_equal; auto.
  - intros k c Hc [k' c'|k' c'| | |]; cbn; try easy. intros H. apply andb_prop in H as [H1 H2].
    apply String.eqb_eq in H1. f_equal; auto.
  - intros k c Hc [k' c'|k' c'| | |]; cbn; try easy. intros H. apply andb_prop in H as [H1 H2].
    apply String.eqb_eq in H1. f_equal; auto.
  - intros k m [| |k' m'| |]; cbn; try easy. intros H. apply andb_prop in H as [H1 H2].
    apply String.eqb_eq in H1. apply emode_eqb_eq in H2. now subst.
  - intros a b Ha Hb [| | |a' b'|]; cbn; try easy. intros H. apply andb_prop in H as [H1 H2].
    f_equal; auto.
  - intros [| | | |]; easy.
Qed.

(** Every class instantiated by the defaults of a shipped class is shipped. *)
Definition is_shipped (c : cls) : bool := existsb (cls_eqb c) shipped.
Lemma is_shipped_In c : is_shipped c = true -> In c shipped.
Proof.
  unfold is_shipped. rewrite existsb_exists. intros (d & Hd & E).
  apply (proj1 eqb_sound) in E. now subst.
Qed.
Fixpoint closed_act (a : act) : bool :=
  match a with
  | ADefault _ c | AAssign _ c => closed c
  | ASetElec _ _ | ACutoff => true
  | AIfOne a b => closed_act a && closed_act b
  end
with closed (c : cls) : bool :=
  match c with Cls _ _ _ acts => is_shipped c &&
    (fix go (l : list act) : bool := match l with [] => true | a :: t => closed_act a && go t end) acts end.
Lemma closed_eq n al e acts : closed (Cls n al e acts) = is_shipped (Cls n al e acts) && forallb closed_act acts.
Proof.
  cbn [closed]. generalize (is_shipped (Cls n al e acts)) as b. intros b. f_equal.
Qed.
Lemma shipped_closed_b : forallb closed shipped = true.
Proof. vm_compute. reflexivity. Qed.
Lemma shipped_closed c : In c shipped -> closed c = true.
Proof. apply forallb_forall. exact shipped_closed_b. Qed.

Local Opaque shipped.

Lemma heap_upd i f s : (forall o, o_cls (f o) = o_cls o) ->
  heap_shipped s -> forall n d m, heap_shipped (mkSt n d m (list_upd i f (s_heap s))).
Proof.
  intros Hf H n d m j o. cbn. rewrite nth_list_upd.
  destruct (Nat.eqb i j); [|apply H]. destruct (nth_error (s_heap s) j) as [o'|] eqn:E; [|discriminate].
  cbn. intros X. injection X as <-. rewrite Hf. eapply H; eassumption.
Qed.
Lemma heap_alloc c s : In c shipped -> heap_shipped s -> heap_shipped (alloc c s).
Proof.
  intros Hc H i o. cbn. intros Hi. destruct (Nat.lt_ge_cases i (length (s_heap s))) as [L|L].
  - rewrite nth_error_app1 in Hi by assumption. eapply H; eassumption.
  - rewrite nth_error_app2 in Hi by assumption. destruct (i - length (s_heap s)) as [|[|]]; cbn in Hi; try discriminate.
    injection Hi as <-. exact Hc.
Qed.
Definition Ph (c : cls) : Prop := closed c = true -> forall k s, heap_shipped s -> heap_shipped (fst (attach_new k c s)).
Definition Qh (a : act) : Prop := closed_act a = true -> forall i s, heap_shipped s -> heap_shipped (fst (run_act i a s)).
Lemma run_acts_heap l : Forall Qh l -> forallb closed_act l = true ->
  forall i s, heap_shipped s -> heap_shipped (fst (run_acts i l s)).
Proof.
  induction 1 as [|a t Ha _ IH]; cbn [forallb run_acts]; intros Hc i s H; [exact H|].
  apply andb_prop in Hc as [H1 H2]. specialize (Ha H1 i s H).
  destruct (run_act i a s) as [s1 [x|]]; cbn in *; auto.
Qed.
Lemma all_heap : (forall c, Ph c) /\ (forall a, Qh a).
Proof.
  apply cls_act_ind.
  - intros n al e acts Hall Hc k s H. rewrite closed_eq in Hc. apply andb_prop in Hc as [Hc Hl].
    rewrite attach_new_eq. apply is_shipped_In in Hc. apply (heap_alloc _ _ Hc) in H. unfold setitem.
    destruct (nth_error _ _) as [o|] eqn:Eo; [|exact H].
    assert (Eoc : o_cls o = Cls n al e acts).
    { cbn in Eo. rewrite nth_error_app2 in Eo by lia. rewrite Nat.sub_diag in Eo.
      injection Eo as <-. reflexivity. }
    rewrite Eoc. destruct (mem_str _ _); [|exact H]. cbn [c_acts].
    pose proof (run_acts_heap acts Hall Hl (length (s_heap s)) _ H) as H2.
    destruct (run_acts _ _ _) as [s2 [x|]]; cbn [fst] in *; [assumption|].
    apply heap_upd; auto.
  - intros k c Hc H i s HS. cbn in *. destruct (has_key k (s_models s)); [exact HS|]. now apply Hc.
  - intros k c Hc H i s HS. cbn in *. now apply Hc.
  - intros k m _ i s HS. cbn. destruct (dict_get k (s_models s)); [|exact HS]. apply heap_upd; auto.
  - intros a b Ha Hb H i s HS. cbn in *. apply andb_prop in H as [H1 H2].
    destruct (Nat.eqb (s_nions s) 1); auto.
  - intros _ i s HS. cbn. apply heap_upd; auto.
Qed.
Definition shipped_op (o : op) : Prop := match o with ONew c => In c shipped | _ => True end.
Lemma heap_step s o : shipped_op o -> heap_shipped s -> heap_shipped (fst (step s o)).
Proof.
  destruct o as [c|k i|d|i m]; cbn [step fst shipped_op]; intros Ho HS.
  - now apply heap_alloc.
  - unfold setitem. destruct (nth_error (s_heap s) i) as [o|] eqn:Ei; [|exact HS].
    destruct (mem_str _ _); [|exact HS].
    pose proof (shipped_closed _ (HS _ _ Ei)) as Hc. destruct (o_cls o) as [n al e acts].
    rewrite closed_eq in Hc. apply andb_prop in Hc as [_ Hl]. cbn [c_acts].
    pose proof (run_acts_heap acts (proj2 (Forall_forall _ _) (fun a _ => proj2 all_heap a)) Hl i s HS) as H2.
    destruct (run_acts i acts s) as [s2 [x|]]; cbn [fst] in *; [assumption|]. apply heap_upd; auto.
  - exact HS.
  - apply heap_upd; auto.
Qed.
Lemma heap_run l s : Forall shipped_op l -> heap_shipped s -> heap_shipped (run_ops l s).
Proof.
  revert s. induction l as [|o l IH]; intros s Hl HS; [exact HS|].
  inversion Hl; subst. cbn. apply IH; [assumption|]. now apply heap_step.
Qed.
Definition shipped_op_b (o : op) : bool := match o with ONew c => is_shipped c | _ => true end.
Lemma shipped_op_b_ok o : shipped_op_b o = true -> shipped_op o.
Proof. destruct o; cbn; auto using is_shipped_In. Qed.
Lemma shipped_ops_b l : forallb shipped_op_b l = true -> Forall shipped_op l.
Proof.
  intros H. apply Forall_forall. intros o Ho. apply shipped_op_b_ok.
  now apply (proj1 (forallb_forall _ _) H).
Qed.
Lemma heap_init n d : heap_shipped (init_state n d).
Proof.
  unfold init_state. apply heap_run.
  - apply shipped_ops_b. vm_compute. reflexivity.
  - intros i o. cbn. now destruct i.
Qed.
Lemma heap_history n d l : Forall shipped_op l -> heap_shipped (run_ops l (init_state n d)).
Proof. intros H. apply heap_run; [exact H|apply heap_init]. Qed.

Lemma shipped_covers c b : In c shipped -> covered b c = true.
Proof. apply forallb_forall. apply shipped_covered. Qed.

Lemma capability n d l k i o key meth :
  let s := run_ops l (init_state n d) in
  Forall shipped_op l ->
  dict_get k (s_models s) = Some i ->
  nth_error (s_heap s) i = Some o ->
  c_name (o_cls o) <> "LinearResponseScreening" -> c_name (o_cls o) <> "Sum_Sii" ->
  In (key, meth) (reads_of (o_cls o)) ->
  exists j oj, dict_get key (s_models s) = Some j /\ nth_error (s_heap s) j = Some oj
               /\ offers (o_cls oj) meth = true.
Proof.
  intros s Hl Hk Hi Hn1 Hn2 Hr.
  pose proof (heap_history n d l Hl : heap_shipped s) as HS.
  destruct (reads_present n d l k i o key meth Hk Hi) as (j & oj & Hj & Hoj & Ha).
  - intros b. apply shipped_covers. exact (HS i o Hi).
  - exact Hr.
  - exists j, oj. split; [exact Hj|]. split; [exact Hoj|].
    apply (offers_unless_fragile _ key); [exact (HS j oj Hoj)|exact Ha|].
    apply (not_fragile (o_cls o)); [|exact Hr|exact Hn1|exact Hn2].
    exact (HS i o Hi).
Qed.

(** ** Cut-offs *)
Definition cutrel (s s' : st) : Prop :=
  s_dens s' = s_dens s /\
  forall i o, nth_error (s_heap s) i = Some o ->
    exists o', nth_error (s_heap s') i = Some o' /\
      (o_cut o' = o_cut o \/ (o_cut o = None /\ o_cut o' = Some (s_dens s))).
Lemma cutrel_refl s : cutrel s s.
Proof. split; [reflexivity|]. eauto. Qed.
Lemma cutrel_trans a b c : cutrel a b -> cutrel b c -> cutrel a c.
Proof.
  intros (D1 & H1) (D2 & H2). split; [congruence|]. intros i o Hi.
  destruct (H1 i o Hi) as (o1 & Ho1 & C1). destruct (H2 i o1 Ho1) as (o2 & Ho2 & C2).
  exists o2. split; [assumption|]. rewrite D1 in C2.
  destruct C1 as [E|[E1 E2]], C2 as [F|[F1 F2]]; try (left; congruence); right; split; congruence.
Qed.
Lemma cutrel_prim a b : prim a b -> cutrel a b.
Proof.
  intros H. destruct H as [c s|i m s|i s|k i o s Ho _ _]; split; cbn; auto; intros j oj Hj.
  - exists oj. split; [|auto]. rewrite nth_error_app1; [assumption|]. apply nth_error_Some. congruence.
  - rewrite nth_list_upd, Hj. destruct (Nat.eqb i j); cbn; eauto.
  - rewrite nth_list_upd, Hj. destruct (Nat.eqb i j); cbn; eexists; split; eauto.
    cbn. destruct (o_cut oj); auto.
  - rewrite nth_list_upd, Hj. destruct (Nat.eqb i j); cbn; eauto.
Qed.
Lemma cutrel_prims a b : prims a b -> cutrel a b.
Proof.
  induction 1 as [a|a b c H _ IH]; [apply cutrel_refl|].
  eapply cutrel_trans; [apply cutrel_prim; eassumption|assumption].
Qed.

Lemma run_acts_cut l i s s' o :
  nth_error (s_heap s) i = Some o -> In ACutoff l -> run_acts i l s = (s', None) ->
  exists o', nth_error (s_heap s') i = Some o' /\ o_cut o' <> None.
Proof.
  revert s o. induction l as [|a t IH]; intros s o Hi Hin; [easy|]. cbn [run_acts].
  destruct (run_act i a s) as [s1 [x|]] eqn:E1; [discriminate|]. intros H.
  destruct Hin as [->|Hin].
  - cbn in E1. injection E1 as <-.
    assert (Hp : prims (upd_obj i (set_cut (s_dens s)) s) s').
    { eapply run_acts_prims; [|exact H]. apply Forall_forall. intros a _. apply all_prims. }
    destruct (cutrel_prims _ _ Hp) as [_ Hc].
    destruct (Hc i (set_cut (s_dens s) o)) as (o' & Ho' & C).
    { cbn. now rewrite nth_list_upd, Nat.eqb_refl, Hi. }
    exists o'. split; [exact Ho'|]. cbn in C. destruct (o_cut o); destruct C as [->|[? ->]]; discriminate.
  - destruct (proj2 all_prims a _ _ _ _ E1) as [Hp _].
    destruct (mono_prims _ _ Hp) as (_ & Hh & _). destruct (Hh i o Hi) as (o1 & Ho1 & _).
    eapply IH; eassumption.
Qed.

Lemma cut_at_attach k i s s' o :
  nth_error (s_heap s) i = Some o -> In ACutoff (c_acts (o_cls o)) ->
  setitem k i s = (s', None) ->
  exists o', nth_error (s_heap s') i = Some o' /\
    o_cut o' = match o_cut o with None => Some (s_dens s) | Some x => Some x end.
Proof.
  intros Hi Hin HS.
  assert (Hc : cutrel s s').
  { apply cutrel_prims. replace s' with (fst (setitem k i s)) by now rewrite HS. apply setitem_prims. }
  destruct (proj2 Hc i o Hi) as (o' & Ho' & C). exists o'. split; [exact Ho'|].
  assert (Hne : o_cut o' <> None).
  { unfold setitem in HS. rewrite Hi in HS. destruct (mem_str _ _); [|discriminate].
    destruct (run_acts i (c_acts (o_cls o)) s) as [s2 [x|]] eqn:Er; [discriminate|].
    destruct (run_acts_cut _ _ _ _ _ Hi Hin Er) as (o2 & Ho2 & Hne2).
    injection HS as <-. cbn in Ho'. rewrite nth_list_upd, Nat.eqb_refl, Ho2 in Ho'. cbn in Ho'.
    injection Ho' as <-. exact Hne2. }
  destruct (o_cut o) as [x|]; destruct C as [E|[E1 E2]]; congruence.
Qed.
