(** Proofs about the registry model. *)
From Coq Require Import String List Bool Arith Lia.
From Verif Require Import M_Registry M_Classes.
Import ListNotations.
Open Scope string_scope.

(** ** Dictionaries *)
Lemma dict_get_set_same {A} k (v : A) d : dict_get k (dict_set k v d) = Some v.
Proof.
  induction d as [|[k' v'] d IH]; cbn.
  - now rewrite String.eqb_refl.
  - destruct (String.eqb k k') eqn:E; cbn; rewrite E; auto.
Qed.

Lemma dict_get_set_other {A} k k' (v : A) d :
  k' <> k -> dict_get k' (dict_set k v d) = dict_get k' d.
Proof.
  intros Hn. induction d as [|[k2 v2] d IH]; cbn.
  - destruct (String.eqb_spec k' k); [contradiction|reflexivity].
  - destruct (String.eqb_spec k k2) as [->|Hk]; cbn.
    + destruct (String.eqb_spec k' k2); [contradiction|reflexivity].
    + now rewrite IH.
Qed.

Lemma dict_get_In {A} k (v : A) d : dict_get k d = Some v -> In (k, v) d.
Proof.
  induction d as [|[k' v'] d IH]; cbn; [discriminate|].
  destruct (String.eqb_spec k k') as [->|]; intros H.
  - injection H as ->. now left.
  - right; auto.
Qed.

Lemma In_dict_get {A} k (v : A) d :
  NoDup (map fst d) -> In (k, v) d -> dict_get k d = Some v.
Proof.
  induction d as [|[k' v'] d IH]; cbn; [easy|].
  intros Hnd [H|H].
  - injection H as -> ->. now rewrite String.eqb_refl.
  - inversion Hnd as [|? ? Hni Hnd']; subst.
    destruct (String.eqb_spec k k') as [->|]; auto.
    exfalso. apply Hni. now apply in_map_iff; exists (k', v).
Qed.

Lemma dict_set_In {A} k (v : A) d k' v' :
  In (k', v') (dict_set k v d) -> (k' = k /\ v' = v) \/ In (k', v') d.
Proof.
  induction d as [|[k2 v2] d IH]; cbn.
  - intros [H|[]]. injection H as -> ->. now left.
  - destruct (String.eqb_spec k k2) as [->|]; cbn; intros [H|H].
    + injection H as -> ->. now left.
    + tauto.
    + tauto.
    + destruct (IH H) as [?|?]; tauto.
Qed.

Lemma dict_set_fst {A} k (v : A) d x :
  In x (map fst (dict_set k v d)) <-> x = k \/ In x (map fst d).
Proof.
  induction d as [|[k2 v2] d IH]; cbn.
  - intuition.
  - destruct (String.eqb_spec k k2) as [->|]; cbn.
    + intuition.
    + rewrite IH. intuition.
Qed.

Lemma dict_set_NoDup {A} k (v : A) d :
  NoDup (map fst d) -> NoDup (map fst (dict_set k v d)).
Proof.
  induction d as [|[k2 v2] d IH]; cbn; intros H.
  - constructor; [easy|constructor].
  - inversion H as [|? ? Hni Hnd]; subst.
    destruct (String.eqb_spec k k2) as [->|]; cbn; [now constructor|].
    constructor; [|auto]. rewrite dict_set_fst. intros [->|]; tauto.
Qed.

Lemma has_key_get {A} k (d : list (string * A)) :
  has_key k d = true <-> exists v, dict_get k d = Some v.
Proof.
  unfold has_key. destruct (dict_get k d) as [v|]; split; try easy.
  - intros _. now exists v.
  - now intros [v H].
Qed.

Lemma has_key_set {A} k k' (v : A) d :
  has_key k' (dict_set k v d) = true <-> k' = k \/ has_key k' d = true.
Proof.
  unfold has_key. destruct (String.eqb_spec k' k) as [->|Hn].
  - rewrite dict_get_set_same. intuition.
  - rewrite dict_get_set_other by assumption. destruct (dict_get k' d); intuition.
Qed.

Lemma mem_str_In k l : mem_str k l = true <-> In k l.
Proof.
  unfold mem_str. rewrite existsb_exists. split.
  - intros (x & Hx & E). apply String.eqb_eq in E. now subst.
  - intros H. exists k. split; [assumption|apply String.eqb_refl].
Qed.

(** ** Heap updates *)
Lemma list_upd_length {A} i (f : A -> A) l : length (list_upd i f l) = length l.
Proof. revert i; induction l as [|x l IH]; intros [|i]; cbn; auto. Qed.

Lemma nth_list_upd {A} i j (f : A -> A) l :
  nth_error (list_upd i f l) j =
  if Nat.eqb i j then option_map f (nth_error l j) else nth_error l j.
Proof.
  revert i j; induction l as [|x l IH]; intros [|i] [|j]; cbn; auto.
  - destruct (Nat.eqb i j); reflexivity.
Qed.

(** ** Induction principle for classes and effects *)
Section ClsInd.
  Variable P : cls -> Prop.
  Variable Q : act -> Prop.
  Hypothesis HC : forall n al e acts, Forall Q acts -> P (Cls n al e acts).
  Hypothesis HD : forall k c, P c -> Q (ADefault k c).
  Hypothesis HA : forall k c, P c -> Q (AAssign k c).
  Hypothesis HS : forall k m, Q (ASetElec k m).
  Hypothesis HI : forall a b, Q a -> Q b -> Q (AIfOne a b).
  Hypothesis HX : Q ACutoff.
  Fixpoint cls_ind2 (c : cls) : P c :=
    match c with
    | Cls n al e acts =>
        HC n al e acts
           ((fix go (l : list act) : Forall Q l :=
               match l with
               | [] => Forall_nil Q
               | a :: t => Forall_cons a (act_ind2 a) (go t)
               end) acts)
    end
  with act_ind2 (a : act) : Q a :=
    match a with
    | ADefault k c => HD k c (cls_ind2 c)
    | AAssign k c => HA k c (cls_ind2 c)
    | ASetElec k m => HS k m
    | AIfOne a b => HI a b (act_ind2 a) (act_ind2 b)
    | ACutoff => HX
    end.
  Lemma cls_act_ind : (forall c, P c) /\ (forall a, Q a).
  Proof. split; [exact cls_ind2 | exact act_ind2]. Qed.
End ClsInd.

(** [attach_new] is allocation followed by [setitem]. *)
Lemma attach_new_eq k c s :
  attach_new k c s = setitem k (length (s_heap s)) (alloc c s).
Proof.
  destruct c as [nm al el acts]. unfold setitem.
  assert (E : nth_error (s_heap (alloc (Cls nm al el acts) s)) (length (s_heap s))
              = Some (mkObj (Cls nm al el acts) "" el None)).
  { cbn. rewrite nth_error_app2 by lia. now rewrite Nat.sub_diag. }
  rewrite E. cbn [attach_new o_cls c_allowed c_acts].
  destruct (mem_str k al); [|reflexivity].
  generalize (alloc (Cls nm al el acts) s) as s1. intros s1. clear E.
  assert (R : forall l s0,
     (fix run (l : list act) (s : st) : st * option err :=
        match l with
        | [] => (s, None)
        | a :: t =>
            match run_act (length (s_heap s0)) a s with
            | (s', None) => run t s'
            | (s', Some e) => (s', Some e)
            end
        end) l s1 = run_acts (length (s_heap s0)) l s1).
  { intros l s0. revert s1. induction l as [|a t IH]; intros s1; cbn; [reflexivity|].
    destruct (run_act _ a s1) as [s' [e|]]; auto. }
  now rewrite R.
Qed.

(** ** Reducing everything to primitive steps

    Keys a [prepare] hook is certain to fill (spec side: read off the list of
    effects, independent of how they are executed). *)
Fixpoint fills (one : bool) (a : act) : list string :=
  match a with
  | ADefault k _ | AAssign k _ => [k]
  | ASetElec _ _ | ACutoff => []
  | AIfOne a b => if one then fills one a else fills one b
  end.
Definition fills_all (one : bool) (l : list act) : list string :=
  flat_map (fills one) l.

Definition one (s : st) : bool := Nat.eqb (s_nions s) 1.

Inductive prim : st -> st -> Prop :=
| p_alloc c s : prim s (alloc c s)
| p_elec i m s : prim s (upd_obj i (set_elec m) s)
| p_cut i s : prim s (upd_obj i (set_cut (s_dens s)) s)
| p_fin k i o s :
    nth_error (s_heap s) i = Some o ->
    In k (c_allowed (o_cls o)) ->
    (forall r, In r (fills_all (one s) (c_acts (o_cls o))) -> has_key r (s_models s) = true) ->
    prim s (finish k i s).

Inductive star (R : st -> st -> Prop) : st -> st -> Prop :=
| star_refl a : star R a a
| star_step a b c : R a b -> star R b c -> star R a c.
Arguments star_refl {R a}.
Arguments star_step {R a b c}.
Definition prims := star prim.

Lemma prims_trans a b c : prims a b -> prims b c -> prims a c.
Proof.
  intros H; revert c; induction H as [a|a b c' Hp _ IH]; intros c Hc; [assumption|].
  eapply star_step; [exact Hp|now apply IH].
Qed.
Lemma prims_one a b : prim a b -> prims a b.
Proof. intros H. eapply star_step; [exact H|apply star_refl]. Qed.

(** Primitive steps keep instances' classes, and never unfill a key. *)
Definition mono (a b : st) : Prop :=
  s_nions b = s_nions a /\
  (forall i o, nth_error (s_heap a) i = Some o ->
     exists o', nth_error (s_heap b) i = Some o' /\ o_cls o' = o_cls o) /\
  (forall k, has_key k (s_models a) = true -> has_key k (s_models b) = true).

Lemma mono_refl a : mono a a.
Proof. repeat split; eauto. Qed.
Lemma mono_trans a b c : mono a b -> mono b c -> mono a c.
Proof.
  intros (N1 & H1 & K1) (N2 & H2 & K2). split; [congruence|split].
  - intros i o Hi. destruct (H1 i o Hi) as (o' & Ho' & E).
    destruct (H2 i o' Ho') as (o2 & Ho2 & E2). exists o2. split; congruence.
  - auto.
Qed.
Lemma mono_prim a b : prim a b -> mono a b.
Proof.
  intros H. destruct H as [c s|i m s|i s|k i o s Hi Hk Hf]; repeat split; cbn; auto.
  - intros j o Hj. exists o. split; [|reflexivity].
    rewrite nth_error_app1; [assumption|]. apply nth_error_Some. congruence.
  - intros j o Hj. rewrite nth_list_upd. rewrite Hj. destruct (Nat.eqb i j); cbn; eauto.
  - intros j o Hj. rewrite nth_list_upd. rewrite Hj. destruct (Nat.eqb i j); cbn; eauto.
  - intros j o' Hj. rewrite nth_list_upd. rewrite Hj. destruct (Nat.eqb i j); cbn; eauto.
  - intros k' Hk'. apply has_key_set. now right.
Qed.
Lemma mono_prims a b : prims a b -> mono a b.
Proof.
  induction 1 as [a|a b c Hp _ IH]; [apply mono_refl|].
  eapply mono_trans; [apply mono_prim; eassumption|assumption].
Qed.

Lemma has_key_mono a b k : mono a b -> has_key k (s_models a) = true -> has_key k (s_models b) = true.
Proof. intros (_ & _ & H). apply H. Qed.

Definition Pc (c : cls) : Prop :=
  forall k s s' e, attach_new k c s = (s', e) ->
    prims s s' /\ (e = None -> has_key k (s_models s') = true).
Definition Qa (a : act) : Prop :=
  forall i s s' e, run_act i a s = (s', e) ->
    prims s s' /\ (e = None -> forall r, In r (fills (one s) a) -> has_key r (s_models s') = true).

Lemma run_acts_prims l :
  Forall Qa l ->
  forall i s s' e, run_acts i l s = (s', e) ->
    prims s s' /\ (e = None -> forall r, In r (fills_all (one s) l) -> has_key r (s_models s') = true).
Proof.
  induction 1 as [|a t Ha _ IH]; intros i s s' e; cbn [run_acts].
  - intros H. injection H as <- <-. split; [apply star_refl|easy].
  - destruct (run_act i a s) as [s1 [x|]] eqn:E1; intros H.
    + injection H as <- <-. destruct (Ha _ _ _ _ E1) as [Hp _]. split; [assumption|easy].
    + destruct (Ha _ _ _ _ E1) as [Hp Hf].
      destruct (IH _ _ _ _ H) as [Hp2 Hf2].
      split; [eapply prims_trans; eassumption|].
      intros He r Hr. unfold fills_all in Hr. cbn in Hr. apply in_app_or in Hr as [Hr|Hr].
      * eapply has_key_mono; [apply mono_prims; eassumption|]. now apply Hf.
      * apply Hf2; [assumption|]. replace (one s1) with (one s); [assumption|].
        unfold one. now rewrite (proj1 (mono_prims _ _ Hp)).
Qed.

Lemma setitem_prims_gen (k : string) (i : nat) (s s' : st) (e : option err) (o : obj) :
  nth_error (s_heap s) i = Some o ->
  Forall Qa (c_acts (o_cls o)) ->
  setitem k i s = (s', e) ->
  prims s s' /\ (e = None -> has_key k (s_models s') = true).
Proof.
  intros Hi Hall. unfold setitem. rewrite Hi.
  destruct (mem_str k (c_allowed (o_cls o))) eqn:Em.
  2:{ intros H. injection H as <- <-. split; [apply star_refl|easy]. }
  destruct (run_acts i (c_acts (o_cls o)) s) as [s2 [x|]] eqn:Er; intros H.
  - injection H as <- <-. split; [|easy]. now apply (run_acts_prims _ Hall _ _ _ _ Er).
  - injection H as <- <-. destruct (run_acts_prims _ Hall _ _ _ _ Er) as [Hp Hf].
    split.
    + eapply prims_trans; [exact Hp|]. apply prims_one.
      destruct (mono_prims _ _ Hp) as (N & Hh & _).
      destruct (Hh i o Hi) as (o' & Ho' & Ec).
      apply p_fin with (o := o'); [assumption| |].
      * rewrite Ec. now apply mem_str_In.
      * rewrite Ec. intros r Hr. apply Hf; [reflexivity|].
        unfold one in *. now rewrite N in Hr.
    + intros _. cbn. apply has_key_set. now left.
Qed.

Lemma all_prims : (forall c, Pc c) /\ (forall a, Qa a).
Proof.
  apply cls_act_ind.
  - intros n al e acts Hall k s s' x H. rewrite attach_new_eq in H.
    eapply setitem_prims_gen with (o := mkObj (Cls n al e acts) "" e None) in H.
    + destruct H as [Hp Hk]. split; [|assumption].
      eapply prims_trans; [apply prims_one, (p_alloc (Cls n al e acts))|exact Hp].
    + cbn. rewrite nth_error_app2 by lia. now rewrite Nat.sub_diag.
    + assumption.
  - intros k c Hc i s s' e. cbn [run_act].
    destruct (has_key k (s_models s)) eqn:Ek; intros H.
    + injection H as <- <-. split; [apply star_refl|]. intros _ r [<-|[]]. assumption.
    + destruct (Hc _ _ _ _ H) as [Hp Hk]. split; [assumption|].
      intros He r [<-|[]]. auto.
  - intros k c Hc i s s' e. cbn [run_act]. intros H.
    destruct (Hc _ _ _ _ H) as [Hp Hk]. split; [assumption|].
    intros He r [<-|[]]. auto.
  - intros k m i s s' e. cbn [run_act].
    destruct (dict_get k (s_models s)) as [j|]; intros H; injection H as <- <-.
    + split; [apply prims_one, p_elec|]. cbn. easy.
    + split; [apply star_refl|easy].
  - intros a b Ha Hb i s s' e. cbn [run_act fills].
    unfold one. destruct (Nat.eqb (s_nions s) 1) eqn:E; intros H.
    + destruct (Ha _ _ _ _ H) as [Hp Hf]. split; [assumption|].
      unfold one in Hf. rewrite E in Hf. exact Hf.
    + destruct (Hb _ _ _ _ H) as [Hp Hf]. split; [assumption|].
      unfold one in Hf. rewrite E in Hf. exact Hf.
  - intros i s s' e H. injection H as <- <-. split; [apply prims_one, p_cut|]. cbn. easy.
Qed.

Lemma setitem_prims k i s : prims s (fst (setitem k i s)).
Proof.
  destruct (nth_error (s_heap s) i) as [o|] eqn:Hi.
  - destruct (setitem k i s) as [s' e] eqn:E. cbn.
    eapply setitem_prims_gen; [eassumption| |eassumption].
    apply Forall_forall. intros a _. apply all_prims.
  - unfold setitem. rewrite Hi. apply star_refl.
Qed.

(** Every user operation is a sequence of primitive steps, or a change of density. *)
Inductive prim' : st -> st -> Prop :=
| p'_prim a b : prim a b -> prim' a b
| p'_dens d s : prim' s (mkSt (s_nions s) d (s_models s) (s_heap s)).
Definition prims' := star prim'.
Lemma prims'_trans a b c : prims' a b -> prims' b c -> prims' a c.
Proof.
  intros H; revert c; induction H as [a|a b c' Hp _ IH]; intros c Hc; [assumption|].
  eapply star_step; [exact Hp|now apply IH].
Qed.
Lemma prims_prims' a b : prims a b -> prims' a b.
Proof.
  induction 1 as [a|a b c H _ IH]; [apply star_refl|].
  eapply star_step; [apply p'_prim; exact H|assumption].
Qed.
Lemma step_prims' s o : prims' s (fst (step s o)).
Proof.
  destruct o as [c|k i|d|i m]; cbn [step fst].
  - apply prims_prims', prims_one, p_alloc.
  - apply prims_prims', setitem_prims.
  - eapply star_step; [apply p'_dens|apply star_refl].
  - apply prims_prims', prims_one, p_elec.
Qed.
Lemma run_ops_prims' l s : prims' s (run_ops l s).
Proof.
  revert s. induction l as [|o l IH]; intros s; cbn; [apply star_refl|].
  eapply prims'_trans; [apply step_prims'|apply IH].
Qed.

Lemma run_ops_app l1 l2 s : run_ops (l1 ++ l2) s = run_ops l2 (run_ops l1 s).
Proof. unfold run_ops. apply fold_left_app. Qed.

(** ** The initial state

    [PlasmaState.__init__] attaches three models, plasmastate.py:110-114. *)
Definition blank (nions dens : nat) : st := mkSt nions dens [] [].
Definition init_ops : list op :=
  [ONew k_DebyeHueckelScreeningLength; OSet "screening length" 0;
   ONew k_LFCConstant; OSet "ee-lfc" 1;
   ONew k_Neglect; OSet "free-bound scattering" 2].
Definition init_state (nions dens : nat) : st := run_ops init_ops (blank nions dens).

(** ** Invariant for every history *)
Definition Inv (s : st) : Prop :=
  NoDup (map fst (s_models s)) /\
  (forall k i, In (k, i) (s_models s) ->
     exists o, nth_error (s_heap s) i = Some o /\
       In k (c_allowed (o_cls o)) /\
       (forall r, In r (fills_all (one s) (c_acts (o_cls o))) -> has_key r (s_models s) = true)).

Lemma Inv_blank n d : Inv (blank n d).
Proof. split; cbn; [constructor|easy]. Qed.

Lemma Inv_prim' a b : prim' a b -> Inv a -> Inv b.
Proof.
  intros H [Hn Hi]. destruct H as [a b H|d s].
  - pose proof (mono_prim _ _ H) as (N & Hh & Hk).
    destruct H as [c s|i m s|i s|k i o s Ho Ha Hf].
    1,2,3: split; cbn; [assumption|]; intros k' i' Hin;
      destruct (Hi _ _ Hin) as (o & Ho & HA & HF);
      destruct (Hh _ _ Ho) as (o' & Ho' & Ec); exists o'; rewrite Ec; auto.
    split; cbn; [now apply dict_set_NoDup|].
    intros k' i' Hin. apply dict_set_In in Hin as [[-> ->]|Hin].
    + destruct (Hh _ _ Ho) as (o' & Ho' & Ec). exists o'. rewrite Ec. split; [assumption|]. split; [assumption|].
      intros r Hr. apply Hk. now apply Hf.
    + destruct (Hi _ _ Hin) as (o1 & Ho1 & HA & HF).
      destruct (Hh _ _ Ho1) as (o' & Ho' & Ec). exists o'. rewrite Ec. split; [assumption|]. split; [assumption|].
      intros r Hr. apply Hk. now apply HF.
  - split; cbn; auto.
Qed.
Lemma Inv_prims' a b : prims' a b -> Inv a -> Inv b.
Proof.
  induction 1 as [a|a b c H _ IH]; [auto|]. intros Ha. apply IH. eapply Inv_prim'; eassumption.
Qed.
Lemma Inv_run l s : Inv s -> Inv (run_ops l s).
Proof. apply Inv_prims', run_ops_prims'. Qed.
Lemma Inv_history n d l : Inv (run_ops l (init_state n d)).
Proof. unfold init_state. apply Inv_run, Inv_run, Inv_blank. Qed.

(** ** C01 *)
Lemma keys_allowed_history n d l k i :
  dict_get k (s_models (run_ops l (init_state n d))) = Some i ->
  exists o, nth_error (s_heap (run_ops l (init_state n d))) i = Some o /\
            In k (c_allowed (o_cls o)).
Proof.
  intros H. apply dict_get_In in H.
  destruct (Inv_history n d l) as [_ Hi]. destruct (Hi _ _ H) as (o & Ho & Ha & _). eauto.
Qed.

Lemma rejected_untouched k i s o :
  nth_error (s_heap s) i = Some o -> ~ In k (c_allowed (o_cls o)) ->
  setitem k i s = (s, Some KeyError).
Proof.
  intros Hi Hn. unfold setitem. rewrite Hi.
  destruct (mem_str k (c_allowed (o_cls o))) eqn:E; [|reflexivity].
  apply mem_str_In in E. contradiction.
Qed.

Lemma accepted_attached k i s s' :
  setitem k i s = (s', None) ->
  dict_get k (s_models s') = Some i /\
  exists o, nth_error (s_heap s') i = Some o /\ o_key o = k.
Proof.
  unfold setitem. destruct (nth_error (s_heap s) i) as [o|] eqn:Hi; [|discriminate].
  destruct (mem_str _ _); [|discriminate].
  destruct (run_acts i (c_acts (o_cls o)) s) as [s2 [x|]] eqn:Er; [discriminate|].
  intros H. injection H as <-. cbn. split; [apply dict_get_set_same|].
  assert (Hp : prims s s2).
  { eapply run_acts_prims; [|exact Er]. apply Forall_forall. intros a _. apply all_prims. }
  destruct (mono_prims _ _ Hp) as (_ & Hh & _). destruct (Hh _ _ Hi) as (o' & Ho' & _).
  exists (set_key k o'). split; [|reflexivity].
  rewrite nth_list_upd, Nat.eqb_refl, Ho'. reflexivity.
Qed.

(** ** Attaching never fails inside the dependency defaults

    Spec side: a class is coherent if each default it installs is allowed at
    the key it is installed under, and each potential whose electron mode it
    sets is filled by an earlier effect. *)
Fixpoint coherent_act (avail : list string) (a : act) : bool :=
  match a with
  | ADefault k c | AAssign k c => mem_str k (c_allowed c) && coherent c
  | ASetElec k _ => mem_str k avail
  | AIfOne a b => coherent_act avail a && coherent_act avail b
  | ACutoff => true
  end
with coherent (c : cls) : bool :=
  match c with
  | Cls _ _ _ acts =>
      (fix go (avail : list string) (l : list act) : bool :=
         match l with
         | [] => true
         | a :: t => coherent_act avail a &&
             go (match a with ADefault k _ | AAssign k _ => k :: avail | _ => avail end) t
         end) [] acts
  end.
Fixpoint coherent_list (avail : list string) (l : list act) : bool :=
  match l with
  | [] => true
  | a :: t => coherent_act avail a &&
      coherent_list (match a with ADefault k _ | AAssign k _ => k :: avail | _ => avail end) t
  end.
Lemma coherent_eq n al e acts : coherent (Cls n al e acts) = coherent_list [] acts.
Proof.
  cbn. generalize (@nil string) as av. induction acts as [|a t IH]; intros av; cbn; [reflexivity|].
  now rewrite IH.
Qed.

Definition Pn (c : cls) : Prop :=
  forall k s, coherent c = true -> In k (c_allowed c) -> snd (attach_new k c s) = None.
Definition Qn (a : act) : Prop :=
  forall avail i s, coherent_act avail a = true ->
    (forall r, In r avail -> has_key r (s_models s) = true) -> snd (run_act i a s) = None.

Lemma run_acts_ok l : Forall Qn l ->
  forall avail i s, coherent_list avail l = true ->
    (forall r, In r avail -> has_key r (s_models s) = true) -> snd (run_acts i l s) = None.
Proof.
  induction 1 as [|a t Ha _ IH]; intros avail i s; cbn [run_acts coherent_list]; [easy|].
  intros H Hav. apply andb_prop in H as [H1 H2].
  pose proof (Ha avail i s H1 Hav) as E.
  destruct (run_act i a s) as [s1 x] eqn:E1. cbn in E. subst x.
  eapply IH; [eassumption|].
  destruct (proj2 all_prims a _ _ _ _ E1) as [Hp Hf].
  intros r Hr.
  destruct a as [k c|k c|k m|a b|]; cbn in Hr.
  1,2: destruct Hr as [<-|Hr]; [apply Hf; [reflexivity|now left]|].
  all: eapply has_key_mono; [apply mono_prims; eassumption|auto].
Qed.

Lemma all_ok : (forall c, Pn c) /\ (forall a, Qn a).
Proof.
  apply cls_act_ind.
  - intros n al e acts Hall k s Hc Hk. rewrite coherent_eq in Hc. rewrite attach_new_eq.
    unfold setitem. cbn [alloc s_heap]. rewrite nth_error_app2 by lia. rewrite Nat.sub_diag.
    cbn [nth_error o_cls c_allowed c_acts]. cbn in Hk. apply mem_str_In in Hk. rewrite Hk.
    pose proof (run_acts_ok acts Hall [] (length (s_heap s)) (alloc (Cls n al e acts) s) Hc) as H.
    cbn [alloc] in H. destruct (run_acts _ _ _) as [s2 x]. cbn in H.
    rewrite H; [reflexivity|]. intros r [].
  - intros k c Hc avail i s H _. cbn in *. apply andb_prop in H as [H1 H2].
    destruct (has_key k (s_models s)); [reflexivity|]. apply Hc; [assumption|]. now apply mem_str_In.
  - intros k c Hc avail i s H _. cbn in *. apply andb_prop in H as [H1 H2].
    apply Hc; [assumption|]. now apply mem_str_In.
  - intros k m avail i s H Hav. cbn in *. apply mem_str_In in H. apply Hav in H.
    apply has_key_get in H as [v ->]. reflexivity.
  - intros a b Ha Hb avail i s H Hav. cbn in *. apply andb_prop in H as [H1 H2].
    destruct (Nat.eqb (s_nions s) 1); eauto.
  - intros avail i s _ _. reflexivity.
Qed.

Lemma setitem_ok k i s o :
  nth_error (s_heap s) i = Some o -> coherent (o_cls o) = true ->
  In k (c_allowed (o_cls o)) -> snd (setitem k i s) = None.
Proof.
  intros Hi Hc Hk. unfold setitem. rewrite Hi. apply mem_str_In in Hk. rewrite Hk.
  destruct (o_cls o) as [n al e acts]. rewrite coherent_eq in Hc.
  pose proof (run_acts_ok acts (proj2 (Forall_forall _ _) (fun a _ => proj2 all_ok a)) [] i s Hc) as H.
  cbn [c_acts] in *. destruct (run_acts i acts s) as [s2 x]. cbn in H.
  rewrite H; [reflexivity|]. intros r [].
Qed.

Lemma shipped_coherent : forallb coherent shipped = true.
Proof. vm_compute. reflexivity. Qed.

(** ** C02: everything an attached model reads is there *)
Definition reads_of (c : cls) : list (string * string) :=
  match dict_get (c_name c) reads_table with Some l => l | None => [] end.
Definition init_keys : list string := ["screening length"; "ee-lfc"; "free-bound scattering"].
Definition covered (one : bool) (c : cls) : bool :=
  forallb (fun p => mem_str (fst p) (fills_all one (c_acts c) ++ init_keys)) (reads_of c).

Lemma shipped_covered b : forallb (covered b) shipped = true.
Proof. destruct b; vm_compute; reflexivity. Qed.

Lemma mono_prim' a b : prim' a b -> mono a b.
Proof. intros [x y H|d s]; [now apply mono_prim|]. repeat split; cbn; eauto. Qed.
Lemma mono_prims' a b : prims' a b -> mono a b.
Proof.
  induction 1 as [a|a b c H _ IH]; [apply mono_refl|].
  eapply mono_trans; [apply mono_prim'; eassumption|assumption].
Qed.

Lemma init_has n d k : In k init_keys -> has_key k (s_models (init_state n d)) = true.
Proof. intros [<-|[<-|[<-|[]]]]; reflexivity. Qed.

Lemma history_has_init n d l k :
  In k init_keys -> has_key k (s_models (run_ops l (init_state n d))) = true.
Proof.
  intros H. eapply has_key_mono; [apply mono_prims', run_ops_prims'|]. now apply init_has.
Qed.

Lemma reads_present n d l k i o key meth :
  let s := run_ops l (init_state n d) in
  dict_get k (s_models s) = Some i ->
  nth_error (s_heap s) i = Some o ->
  (forall b, covered b (o_cls o) = true) ->
  In (key, meth) (reads_of (o_cls o)) ->
  exists j oj, dict_get key (s_models s) = Some j /\ nth_error (s_heap s) j = Some oj
               /\ In key (c_allowed (o_cls oj)).
Proof.
  intros s Hk Hi Hcov Hr.
  destruct (Inv_history n d l) as [_ HI]. fold s in HI.
  destruct (HI _ _ (dict_get_In _ _ _ Hk)) as (o' & Ho' & _ & Hf).
  rewrite Hi in Ho'. injection Ho' as <-.
  specialize (Hcov (one s)). unfold covered in Hcov. rewrite forallb_forall in Hcov.
  specialize (Hcov _ Hr). apply mem_str_In in Hcov. cbn in Hcov.
  assert (Hh : has_key key (s_models s) = true).
  { apply in_app_or in Hcov as [H|H]; [now apply Hf|]. now apply history_has_init. }
  apply has_key_get in Hh as [j Hj].
  destruct (HI _ _ (dict_get_In _ _ _ Hj)) as (oj & Hoj & Ha & _). eauto.
Qed.

(** ** C03: attaching does not replace the model under another key *)
Fixpoint assigns_act (a : act) : bool :=
  match a with
  | ADefault _ c => assigns c
  | AAssign _ _ => true
  | ASetElec _ _ | ACutoff => false
  | AIfOne a b => assigns_act a || assigns_act b
  end
with assigns (c : cls) : bool :=
  match c with Cls _ _ _ acts =>
    (fix go (l : list act) : bool :=
       match l with [] => false | a :: t => assigns_act a || go t end) acts end.

Lemma assigns_eq n al e acts : assigns (Cls n al e acts) = existsb assigns_act acts.
Proof. cbn. induction acts as [|a t IH]; cbn; [reflexivity|]. now rewrite IH. Qed.

Definition keeps (s s' : st) : Prop :=
  forall k j, dict_get k (s_models s) = Some j -> dict_get k (s_models s') = Some j.

Definition Pk (c : cls) : Prop :=
  assigns c = false -> forall k s, has_key k (s_models s) = false ->
    keeps s (fst (attach_new k c s)).
Definition Qk (a : act) : Prop :=
  assigns_act a = false -> forall i s, keeps s (fst (run_act i a s)).

Lemma keeps_trans a b c : keeps a b -> keeps b c -> keeps a c.
Proof. unfold keeps. eauto. Qed.

Lemma run_acts_keeps l : Forall Qk l -> existsb assigns_act l = false ->
  forall i s, keeps s (fst (run_acts i l s)).
Proof.
  induction 1 as [|a t Ha _ IH]; cbn [existsb run_acts]; intros H i s; [unfold keeps; auto|].
  apply orb_false_elim in H as [H1 H2]. specialize (Ha H1 i s). specialize (IH H2 i).
  destruct (run_act i a s) as [s1 [x|]]; cbn in *; [assumption|].
  eapply keeps_trans; [exact Ha|apply IH].
Qed.

Lemma all_keeps : (forall c, Pk c) /\ (forall a, Qk a).
Proof.
  apply cls_act_ind.
  - intros n al e acts Hall Hno k s Hk k' j Hj. rewrite assigns_eq in Hno.
    rewrite attach_new_eq. unfold setitem.
    destruct (nth_error _ _) as [o|] eqn:Eo; [|exact Hj].
    assert (Eoc : o_cls o = Cls n al e acts).
    { cbn in Eo. rewrite nth_error_app2 in Eo by lia. rewrite Nat.sub_diag in Eo.
      injection Eo as <-. reflexivity. }
    rewrite Eoc. destruct (mem_str _ _); [|exact Hj]. cbn [c_acts].
    pose proof (run_acts_keeps acts Hall Hno (length (s_heap s)) (alloc (Cls n al e acts) s)) as HK.
    destruct (run_acts _ _ _) as [s2 [x|]]; cbn in *.
    + now apply HK.
    + destruct (String.eqb_spec k' k) as [->|Hne].
      * unfold has_key in Hk. rewrite Hj in Hk. discriminate.
      * rewrite dict_get_set_other by assumption. now apply HK.
  - intros k c Hc Hno i s. cbn in *. destruct (has_key k (s_models s)) eqn:E; cbn.
    + unfold keeps; auto.
    + now apply Hc.
  - intros k c _ H. discriminate.
  - intros k m _ i s. cbn. destruct (dict_get k (s_models s)); unfold keeps; cbn; auto.
  - intros a b Ha Hb H i s. cbn in *. apply orb_false_elim in H as [H1 H2].
    destruct (Nat.eqb (s_nions s) 1); auto.
  - intros _ i s. unfold keeps; cbn; auto.
Qed.

Lemma setitem_keeps k i s o :
  nth_error (s_heap s) i = Some o -> assigns (o_cls o) = false ->
  forall k' j, k' <> k -> dict_get k' (s_models s) = Some j ->
    dict_get k' (s_models (fst (setitem k i s))) = Some j.
Proof.
  intros Hi Hno k' j Hne Hj. unfold setitem. rewrite Hi.
  destruct (mem_str _ _); [|exact Hj].
  destruct (o_cls o) as [n al e acts]. rewrite assigns_eq in Hno. cbn [c_acts].
  pose proof (run_acts_keeps acts (proj2 (Forall_forall _ _) (fun a _ => proj2 all_keeps a)) Hno i s) as HK.
  destruct (run_acts i acts s) as [s2 [x|]]; cbn in *.
  - now apply HK.
  - rewrite dict_get_set_other by assumption. now apply HK.
Qed.

Lemma shipped_assigns :
  filter assigns shipped = [k_LinearResponseScreening].
Proof. vm_compute. reflexivity. Qed.
Lemma shipped_no_assign c : In c shipped -> c_name c <> "LinearResponseScreening" -> assigns c = false.
Proof.
  intros Hin Hn. destruct (assigns c) eqn:E; [|reflexivity]. exfalso.
  assert (H : In c (filter assigns shipped)) by now apply filter_In.
  rewrite shipped_assigns in H. destruct H as [<-|[]]. now apply Hn.
Qed.

(** ** Distinct instances: [model_key] is the key the model sits under *)
Definition fresh_op (s : st) (o : op) : Prop :=
  match o with
  | OSet k i => forall k', dict_get k' (s_models s) = Some i -> k' = k
  | _ => True
  end.
Fixpoint fresh_history (l : list op) (s : st) : Prop :=
  match l with
  | [] => True
  | o :: t => fresh_op s o /\ fresh_history t (fst (step s o))
  end.

(** references are valid and injective, and [o_key] points back *)
Definition KeyInv (s : st) : Prop :=
  NoDup (map fst (s_models s)) /\
  (forall k i, dict_get k (s_models s) = Some i ->
     exists o, nth_error (s_heap s) i = Some o /\ o_key o = k).

Definition SelfOk (i : nat) (s s' : st) : Prop :=
  (* instance [i] keeps being attached exactly where it was *)
  length (s_heap s) <= length (s_heap s') /\
  (forall j, j < length (s_heap s) -> forall k, dict_get k (s_models s') = Some j -> dict_get k (s_models s) = Some j).

Lemma KeyInv_upd s i f :
  (forall o, o_key (f o) = o_key o) -> KeyInv s -> KeyInv (upd_obj i f s).
Proof.
  intros Hf [Hn Hk]. split; cbn; [assumption|]. intros k j Hj.
  destruct (Hk _ _ Hj) as (o & Ho & E). rewrite nth_list_upd, Ho.
  destruct (Nat.eqb i j); cbn; eexists; split; eauto. now rewrite Hf.
Qed.
Lemma KeyInv_alloc s c : KeyInv s -> KeyInv (alloc c s).
Proof.
  intros [Hn Hk]. split; cbn; [assumption|]. intros k j Hj.
  destruct (Hk _ _ Hj) as (o & Ho & E). exists o. split; [|assumption].
  rewrite nth_error_app1; [assumption|]. apply nth_error_Some. congruence.
Qed.
Lemma KeyInv_finish s k i o :
  nth_error (s_heap s) i = Some o ->
  (forall k', dict_get k' (s_models s) = Some i -> k' = k) ->
  KeyInv s -> KeyInv (finish k i s).
Proof.
  intros Ho Hu [Hn Hk]. split; cbn; [now apply dict_set_NoDup|]. intros k' j Hj.
  destruct (String.eqb_spec k' k) as [->|Hne].
  - rewrite dict_get_set_same in Hj. injection Hj as <-.
    rewrite nth_list_upd, Nat.eqb_refl, Ho. cbn. eauto.
  - rewrite dict_get_set_other in Hj by assumption.
    destruct (Hk _ _ Hj) as (o' & Ho' & E). rewrite nth_list_upd.
    destruct (Nat.eqb_spec i j) as [->|]; [|eauto].
    exfalso. apply Hne. now apply Hu.
Qed.

Definition good (s s' : st) : Prop :=
  KeyInv s -> KeyInv s' /\ length (s_heap s) <= length (s_heap s') /\
  (forall j k, j < length (s_heap s) -> dict_get k (s_models s') = Some j ->
               dict_get k (s_models s) = Some j).
Lemma good_refl s : good s s.
Proof. intros H. auto. Qed.
Lemma good_trans a b c : good a b -> good b c -> good a c.
Proof.
  intros H1 H2 Ha. destruct (H1 Ha) as (Hb & L1 & G1). destruct (H2 Hb) as (Hc & L2 & G2).
  split; [assumption|]. split; [lia|]. intros j k Hj Hk. apply G1; [assumption|].
  apply G2; [lia|assumption].
Qed.

Definition Pg (c : cls) : Prop := forall k s, good s (fst (attach_new k c s)).
Definition Qg (a : act) : Prop := forall i s, good s (fst (run_act i a s)).
Lemma run_acts_good l : Forall Qg l -> forall i s, good s (fst (run_acts i l s)).
Proof.
  induction 1 as [|a t Ha _ IH]; intros i s; cbn [run_acts]; [apply good_refl|].
  specialize (Ha i s). specialize (IH i).
  destruct (run_act i a s) as [s1 [x|]]; cbn in *; [assumption|].
  eapply good_trans; [exact Ha|apply IH].
Qed.
Lemma all_good : (forall c, Pg c) /\ (forall a, Qg a).
Proof.
  apply cls_act_ind.
  - intros n al e acts Hall k s HK. rewrite attach_new_eq. unfold setitem.
    assert (E : nth_error (s_heap (alloc (Cls n al e acts) s)) (length (s_heap s))
                = Some (mkObj (Cls n al e acts) "" e None)).
    { cbn. rewrite nth_error_app2 by lia. now rewrite Nat.sub_diag. }
    rewrite E. cbn [o_cls c_allowed c_acts].
    assert (HA : KeyInv (alloc (Cls n al e acts) s)) by now apply KeyInv_alloc.
    assert (HL : length (s_heap (alloc (Cls n al e acts) s)) = S (length (s_heap s))).
    { cbn. rewrite app_length. cbn. lia. }
    destruct (mem_str k al).
    2:{ cbn [fst]. split; [assumption|]. split; [lia|]. intros j k' _ H. exact H. }
    destruct (run_acts_good acts Hall (length (s_heap s)) _ HA) as (H2 & L2 & G2).
    assert (Hfree : forall k', dict_get k' (s_models (alloc (Cls n al e acts) s)) = Some (length (s_heap s)) -> False).
    { intros k' H. cbn in H. destruct HK as [_ HK]. destruct (HK _ _ H) as (o & Ho & _).
      assert (length (s_heap s) < length (s_heap s)) by (apply nth_error_Some; congruence). lia. }
    destruct (run_acts _ _ _) as [s2 [x|]]; cbn [fst] in *.
    + split; [assumption|]. split; [lia|]. intros j k' Hj H. exact (G2 j k' ltac:(lia) H).
    + split; [|split].
      * destruct (nth_error (s_heap s2) (length (s_heap s))) as [o|] eqn:Eo.
        2:{ apply nth_error_None in Eo. lia. }
        eapply KeyInv_finish; [eassumption| |assumption].
        intros k' H. exfalso. eapply Hfree. apply G2; [lia|exact H].
      * cbn. rewrite list_upd_length. lia.
      * intros j k' Hj H. cbn in H. destruct (String.eqb_spec k' k) as [->|Hne].
        -- rewrite dict_get_set_same in H. injection H as <-. lia.
        -- rewrite dict_get_set_other in H by assumption. exact (G2 j k' ltac:(lia) H).
  - intros k c Hc i s. cbn. destruct (has_key k (s_models s)); [apply good_refl|apply Hc].
  - intros k c Hc i s. cbn. apply Hc.
  - intros k m i s. cbn. destruct (dict_get k (s_models s)) as [j|]; [|apply good_refl].
    intros HK. split; [apply KeyInv_upd; auto|]. cbn. rewrite list_upd_length. split; auto.
  - intros a b Ha Hb i s. cbn. destruct (Nat.eqb (s_nions s) 1); auto.
  - intros i s HK. cbn. split; [apply KeyInv_upd; auto|]. cbn. rewrite list_upd_length. split; auto.
Qed.

Lemma KeyInv_step s o : fresh_op s o -> KeyInv s -> KeyInv (fst (step s o)).
Proof.
  destruct o as [c|k i|d|i m]; cbn [step fst fresh_op]; intros Hf HK.
  - now apply KeyInv_alloc.
  - unfold setitem. destruct (nth_error (s_heap s) i) as [o|] eqn:Hi; [|assumption].
    destruct (mem_str _ _); [|assumption].
    destruct (run_acts_good (c_acts (o_cls o)) (proj2 (Forall_forall _ _) (fun a _ => proj2 all_good a)) i s HK)
      as (H2 & L2 & G2).
    assert (Li : i < length (s_heap s)) by (apply nth_error_Some; congruence).
    destruct (run_acts i _ s) as [s2 [x|]]; cbn [fst] in *; [assumption|].
    destruct (nth_error (s_heap s2) i) as [o2|] eqn:E2.
    2:{ apply nth_error_None in E2. lia. }
    eapply KeyInv_finish; [eassumption| |assumption]. intros k' H. apply Hf. now apply G2.
  - exact HK.
  - now apply KeyInv_upd.
Qed.
Lemma KeyInv_run l s : fresh_history l s -> KeyInv s -> KeyInv (run_ops l s).
Proof.
  revert s. induction l as [|o l IH]; cbn [fresh_history]; intros s Hf HK; [assumption|].
  destruct Hf as [Hf Hf']. cbn. apply IH; [assumption|]. now apply KeyInv_step.
Qed.
Lemma KeyInv_init n d : KeyInv (init_state n d).
Proof.
  split; [cbn; repeat constructor; cbn; intuition discriminate|].
  intros k i H. cbn in H.
  repeat match type of H with
         | (if String.eqb k ?x then _ else _) = _ =>
             destruct (String.eqb_spec k x) as [->|]; [injection H as <-; cbn; eauto|]
         end.
  discriminate.
Qed.

(** ** C04 *)
Definition elec_at (k : string) (s : st) : option emode :=
  match dict_get k (s_models s) with
  | Some i => option_map o_elec (nth_error (s_heap s) i)
  | None => None
  end.
