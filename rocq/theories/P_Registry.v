(** Property theorems C01-C04, C13, C62-C64: attaching models to a plasma state.

    Histories are arbitrary lists of operations: creating an instance of any
    class ([ONew]), assigning an instance to a key ([OSet]), changing the
    density ([ODens]) and changing an instance's electron mode ([OElec]).
    A history carries on after a caught exception. *)
From Coq Require Import String List Bool Arith Reals Lia Lra.
From Verif Require Import M_Registry M_Classes L_Registry L_Registry2 L_Registry3
  M_Collections M_Probe L_Probe.
Import ListNotations.
Open Scope string_scope.
Open Scope list_scope.

(** The state after any history starting from [PlasmaState.__init__]. *)
Definition after (nions dens : nat) (l : list op) : st := run_ops l (init_state nions dens).

(** ** C01 *)

(** An instance that does not declare the key is refused and nothing changes. *)
Theorem C01_rejected_leaves_state_untouched :
  forall (s : st) (k : string) (i : nat) (o : obj),
    nth_error (s_heap s) i = Some o -> ~ In k (c_allowed (o_cls o)) ->
    step s (OSet k i) = (s, Some KeyError).
Proof. exact (fun s k i o => rejected_untouched k i s o). Qed.
Print Assumptions C01_rejected_leaves_state_untouched.
Example C01_rejected_ex :
  step (run_ops [ONew k_RPA] (init_state 2 0)) (OSet "ipd" 3)
  = (run_ops [ONew k_RPA] (init_state 2 0), Some KeyError).
Proof. vm_compute. reflexivity. Qed.

(** A shipped class is always accepted under a key it declares. *)
Theorem C01_declared_key_accepted :
  forall (s : st) (k : string) (i : nat) (o : obj),
    nth_error (s_heap s) i = Some o -> In (o_cls o) shipped -> In k (c_allowed (o_cls o)) ->
    snd (step s (OSet k i)) = None /\
    dict_get k (s_models (fst (step s (OSet k i)))) = Some i /\
    exists o', nth_error (s_heap (fst (step s (OSet k i)))) i = Some o' /\ o_key o' = k.
Proof.
  exact (fun s k i o Hi Hs Hk =>
    let H := setitem_ok k i s o Hi (proj1 (forallb_forall _ _) shipped_coherent _ Hs) Hk in
    conj H (accepted_attached k i s (fst (setitem k i s))
      (eq_trans (surjective_pairing _) (f_equal (pair _) H)))).
Qed.
Print Assumptions C01_declared_key_accepted.
Example C01_accepted_ex : In k_BornMermin shipped /\ In "free-free scattering" (c_allowed k_BornMermin).
Proof. split; [apply is_shipped_In; vm_compute; reflexivity | cbn; auto]. Qed.

(** After any history, over any (also user-defined) classes, every key holds a
    model that declares it, and no key occurs twice. *)
Theorem C01_every_attached_model_declares_its_key :
  forall (nions dens : nat) (l : list op),
    NoDup (map fst (s_models (after nions dens l))) /\
    forall k i, dict_get k (s_models (after nions dens l)) = Some i ->
      exists o, nth_error (s_heap (after nions dens l)) i = Some o /\ In k (c_allowed (o_cls o)).
Proof. exact (fun n d l => conj (proj1 (Inv_history n d l)) (keys_allowed_history n d l)). Qed.
Print Assumptions C01_every_attached_model_declares_its_key.

(** A history in which no instance is assigned while it sits under another key. *)
Fixpoint distinct_instances (l : list op) (s : st) : Prop :=
  match l with
  | [] => True
  | o :: t =>
      match o with
      | OSet k i => forall k', dict_get k' (s_models s) = Some i -> k' = k
      | _ => True
      end /\ distinct_instances t (fst (step s o))
  end.

(** The [model_key] half of C01 holds when instances are not shared ... *)
Theorem C01_model_key_partial :
  forall (nions dens : nat) (l : list op),
    distinct_instances l (init_state nions dens) ->
    forall k i, dict_get k (s_models (after nions dens l)) = Some i ->
      exists o, nth_error (s_heap (after nions dens l)) i = Some o /\ o_key o = k.
Proof. exact (fun n d l H => proj2 (KeyInv_run l _ H (KeyInv_init n d))). Qed.
Print Assumptions C01_model_key_partial.
Example C01_model_key_ex :
  distinct_instances [ONew k_RPA; OSet "free-free scattering" 3; ONew k_Neglect; OSet "ipd" 5]
    (init_state 1 0).
Proof.
  cbn [distinct_instances]. split; [exact I|]. split.
  - intros k'. vm_compute. repeat (match goal with |- context[if ?b then _ else _] => destruct b end); discriminate.
  - split; [exact I|]. split; [|exact I].
    intros k'. vm_compute. repeat (match goal with |- context[if ?b then _ else _] => destruct b end); discriminate.
Qed.

(** ... and fails when one instance is assigned to two keys. *)
Theorem C01_model_key_refuted :
  exists (nions dens : nat) (l : list op) (k : string) (i : nat) (o : obj),
    Forall shipped_op l /\
    dict_get k (s_models (after nions dens l)) = Some i /\
    nth_error (s_heap (after nions dens l)) i = Some o /\ o_key o <> k.
Proof.
  exists 1, 0, [ONew k_Neglect; OSet "bound-free scattering" 3; OSet "ipd" 3],
    "bound-free scattering", 3, (mkObj k_Neglect "ipd" Off None).
  split; [apply shipped_ops_b; vm_compute; reflexivity|].
  split; [vm_compute; reflexivity|]. split; [vm_compute; reflexivity|]. cbn. discriminate.
Qed.
Print Assumptions C01_model_key_refuted.

(** ** C02 *)

(** After any history of shipped classes, every key an attached model looks up
    during evaluation holds a model that may sit there.  This applies to the
    automatically attached models as well. *)
Theorem C02_everything_read_is_attached :
  forall (nions dens : nat) (l : list op),
    Forall shipped_op l ->
    forall k i o key meth,
      dict_get k (s_models (after nions dens l)) = Some i ->
      nth_error (s_heap (after nions dens l)) i = Some o ->
      In (key, meth) (reads_of (o_cls o)) ->
      exists j oj, dict_get key (s_models (after nions dens l)) = Some j /\
                   nth_error (s_heap (after nions dens l)) j = Some oj /\
                   In key (c_allowed (o_cls oj)).
Proof.
  exact (fun n d l Hl k i o key meth Hk Hi Hr =>
    reads_present n d l k i o key meth Hk Hi
      (fun b => shipped_covers _ b (heap_history n d l Hl i o Hi)) Hr).
Qed.
Print Assumptions C02_everything_read_is_attached.
Example C02_ex :
  let s := after 2 0 [ONew k_BornMermin; OSet "free-free scattering" 3] in
  dict_get "free-free scattering" (s_models s) = Some 3 /\
  In ("BM S_ii", "evaluate") (reads_of k_BornMermin) /\
  map fst (s_models s) = ["screening length"; "ee-lfc"; "free-bound scattering"; "chemical potential";
    "BM V_eiS"; "ion-ion Potential"; "form-factors"; "screening"; "ionic scattering"; "BM S_ii";
    "free-free scattering"].
Proof. split; [vm_compute; reflexivity|]. split; [vm_compute; tauto|vm_compute; reflexivity]. Qed.

(** No operation ever detaches a key. *)
Theorem C02_no_key_ever_removed :
  forall (s : st) (l : list op) (k : string),
    has_key k (s_models s) = true -> has_key k (s_models (run_ops l s)) = true.
Proof. exact (fun s l k => has_key_mono _ _ k (mono_prims' _ _ (run_ops_prims' l s))). Qed.
Print Assumptions C02_no_key_ever_removed.

(** ** C03 *)

(** Every shipped class but one leaves all other keys' models in place. *)
Theorem C03_other_keys_kept_partial :
  forall (s : st) (k : string) (i : nat) (o : obj),
    nth_error (s_heap s) i = Some o -> In (o_cls o) shipped ->
    c_name (o_cls o) <> "LinearResponseScreening" ->
    forall k' j, k' <> k -> dict_get k' (s_models s) = Some j ->
      dict_get k' (s_models (fst (step s (OSet k i)))) = Some j.
Proof. exact (fun s k i o Hi Hs Hn => setitem_keeps k i s o Hi (shipped_no_assign _ Hs Hn)). Qed.
Print Assumptions C03_other_keys_kept_partial.
Example C03_ex : In k_ThreePotentialHNCIonFeat shipped /\
  c_name k_ThreePotentialHNCIonFeat <> "LinearResponseScreening".
Proof. split; [apply is_shipped_In; vm_compute; reflexivity|discriminate]. Qed.

(** Attaching [LinearResponseScreening] replaces the free-free model the user chose. *)
Theorem C03_refuted :
  exists (s : st) (k k' : string) (i j : nat) (o : obj),
    (exists l, Forall shipped_op l /\ s = after 1 0 l) /\
    nth_error (s_heap s) i = Some o /\ In (o_cls o) shipped /\ k' <> k /\
    dict_get k' (s_models s) = Some j /\
    dict_get k' (s_models (fst (step s (OSet k i)))) <> Some j.
Proof.
  exists (after 1 0 [ONew k_BornMermin; OSet "free-free scattering" 3; ONew k_LinearResponseScreening]),
    "screening", "free-free scattering", 11, 3, (mkObj k_LinearResponseScreening "" Off None).
  split.
  - eexists. split; [|reflexivity]. apply shipped_ops_b; vm_compute; reflexivity.
  - split; [vm_compute; reflexivity|]. split; [apply is_shipped_In; vm_compute; reflexivity|].
    split; [discriminate|]. split; [vm_compute; reflexivity|]. vm_compute. discriminate.
Qed.
Print Assumptions C03_refuted.

(** ** C04 *)
Definition hnc_potential_keys : list string :=
  ["ion-ion Potential"; "electron-ion Potential"; "electron-electron Potential"].

(** Classes whose attachment can switch the electrons off again; with a single
    ion species the Born-Mermin models are not among them. *)
Definition disturbers (one_species : bool) : list string :=
  if one_species then ["OnePotentialHNCIonFeat"; "AverageAtom_Sii"]
  else ["OnePotentialHNCIonFeat"; "BornMermin_Full"; "BornMermin"; "BornMermin_Fit";
        "BornMermin_Fortmann"; "AverageAtom_Sii"].

Fixpoint calm_history (one_species : bool) (l : list op) (s : st) : Prop :=
  match l with
  | [] => True
  | o :: t =>
      match o with
      | OSet k i => ~ In k hnc_potential_keys /\
          forall ob, nth_error (s_heap s) i = Some ob ->
            In (o_cls ob) shipped /\ ~ In (c_name (o_cls ob)) (disturbers one_species)
      | OElec _ m => m = SpinAveraged
      | _ => True
      end /\ calm_history one_species t (fst (step s o))
  end.

Lemma calm_quiet b l s : calm_history b l s -> quiet_history P4 b l s.
Proof.
  revert s. induction l as [|o l IH]; cbn [calm_history quiet_history]; intros s; [auto|].
  intros [H1 H2]. split; [|now apply IH]. destruct o as [c|k i|d|i m]; cbn [quiet_op]; auto.
  destruct H1 as [Hk H1]. split; [exact Hk|]. intros ob Hob. destruct (H1 ob Hob) as [Ha Hb].
  apply quiet_shipped; [exact Ha|]. destruct b; exact Hb.
Qed.

Lemma C04_aux n d l1 i l2 :
  (exists o, nth_error (s_heap (after n d l1)) i = Some o /\ o_cls o = k_ThreePotentialHNCIonFeat) ->
  calm_history (Nat.eqb n 1) l2 (fst (step (after n d l1) (OSet "ionic scattering" i))) ->
  forall kk, In kk hnc_potential_keys ->
    elec_at kk (run_ops l2 (fst (step (after n d l1) (OSet "ionic scattering" i)))) = Some SpinAveraged.
Proof.
  intros (o & Hi & Hc) Hcalm kk Hkk.
  set (s := after n d l1) in *.
  assert (Hk : In "ionic scattering" (c_allowed (o_cls o))) by (rewrite Hc; cbn; auto).
  assert (Hcoh : coherent (o_cls o) = true) by (rewrite Hc; vm_compute; reflexivity).
  pose proof (setitem_ok _ _ _ _ Hi Hcoh Hk) as Hok.
  cbn [step] in *. destruct (setitem "ionic scattering" i s) as [s' e] eqn:ES. cbn in Hok, Hcalm. subst e.
  cbn [fst].
  assert (HJ : J P4 (Nat.eqb n 1) s').
  { split; [|split].
    - unfold one. f_equal.
      assert (Hm : mono s s').
      { apply mono_prims. replace s' with (fst (setitem "ionic scattering" i s)) by now rewrite ES.
        apply setitem_prims. }
      rewrite (proj1 Hm). unfold s, after.
      rewrite (proj1 (mono_prims' _ _ (run_ops_prims' l1 (init_state n d)))). reflexivity.
    - intros k Hkin. eapply three_potential_sets; try eassumption. apply Inv_history.
    - intros k [<-|Hkin].
      + destruct (accepted_attached _ _ _ _ ES) as [H _]. unfold has_key. now rewrite H.
      + assert (HE : elec_at k s' = Some SpinAveraged).
        { eapply three_potential_sets; try eassumption. apply Inv_history. }
        destruct (elec_at_Some _ _ _ HE) as (j & oj & Hj & _). unfold has_key. now rewrite Hj. }
  apply (proj1 (proj2 (J_run _ _ _ _ (calm_quiet _ _ _ Hcalm) HJ))). exact Hkk.
Qed.

(** From attaching [ThreePotentialHNCIonFeat] on, all three potentials stay
    spin averaged as long as no disturber is attached and the user does not
    replace a potential. Missing from C04: the disturbers (see below). *)
Theorem C04_partial :
  forall (nions dens : nat) (before : list op) (i : nat) (later : list op),
    (exists o, nth_error (s_heap (after nions dens before)) i = Some o /\
               o_cls o = k_ThreePotentialHNCIonFeat) ->
    let s := fst (step (after nions dens before) (OSet "ionic scattering" i)) in
    calm_history (Nat.eqb nions 1) later s ->
    forall k, In k hnc_potential_keys -> elec_at k (run_ops later s) = Some SpinAveraged.
Proof. exact C04_aux. Qed.
Print Assumptions C04_partial.
Example C04_ex :
  (exists o, nth_error (s_heap (after 1 0 [ONew k_ThreePotentialHNCIonFeat])) 3 = Some o /\
               o_cls o = k_ThreePotentialHNCIonFeat) /\
  calm_history true [ONew k_BornMermin; OSet "free-free scattering" 8]
    (fst (step (after 1 0 [ONew k_ThreePotentialHNCIonFeat]) (OSet "ionic scattering" 3))).
Proof.
  split; [eexists; split; [vm_compute; reflexivity|reflexivity]|].
  cbn [calm_history]. split; [exact I|]. split; [|exact I]. split.
  - intros [H|[H|[H|[]]]]; discriminate.
  - intros ob Hob. vm_compute in Hob. injection Hob as <-. split.
    + apply is_shipped_In. vm_compute. reflexivity.
    + cbn. intuition discriminate.
Qed.

(** With two species, attaching Born-Mermin under the free-free key switches
    the electrons of the ion-ion potential off. *)
Theorem C04_refuted :
  exists (nions dens : nat) (before later : list op) (i : nat),
    Forall shipped_op (before ++ later) /\
    (exists o, nth_error (s_heap (after nions dens before)) i = Some o /\
               o_cls o = k_ThreePotentialHNCIonFeat) /\
    Forall (fun o => match o with OSet k _ => k = "free-free scattering" | OElec _ _ => False | _ => True end) later /\
    let s := fst (step (after nions dens before) (OSet "ionic scattering" i)) in
    elec_at "ion-ion Potential" s = Some SpinAveraged /\
    elec_at "ion-ion Potential" (run_ops later s) = Some Off.
Proof.
  exists 2, 0, [ONew k_ThreePotentialHNCIonFeat], [ONew k_BornMermin; OSet "free-free scattering" 8], 3.
  split; [apply shipped_ops_b; vm_compute; reflexivity|].
  split; [eexists; split; [vm_compute; reflexivity|reflexivity]|].
  split; [repeat constructor|]. split; vm_compute; reflexivity.
Qed.
Print Assumptions C04_refuted.

(** ** C13 *)

(** [nE] energies are probed; [ext] is any evaluation of the non-[Neglect]
    models that returns one intensity per energy for scattering models. *)
Theorem C13_probe_is_the_sum_partial :
  forall (nE nions dens : nat) (ext : obj -> st -> option value) (l : list op),
    distinct_instances l (init_state nions dens) ->
    let s := after nions dens l in
    spectral nE ext s ->
    (* a spectrum exactly when ionic, free-free and bound-free models are attached *)
    (probe nE ext s = None <-> exists k, In k ["ionic scattering"; "free-free scattering"; "bound-free scattering"]
                                    /\ has_key k (s_models s) = false) /\
    (* and then it is the sum, energy by energy *)
    (forall v, probe nE ext s = Some v ->
       exists fi ff fb fo sp,
         evaluate nE ext "ionic scattering" s = Some (VSpec fi) /\
         evaluate nE ext "free-free scattering" s = Some (VSpec ff) /\
         evaluate nE ext "bound-free scattering" s = Some (VSpec fb) /\
         evaluate nE ext "free-bound scattering" s = Some (VSpec fo) /\
         v = VSpec sp /\ length sp = nE /\
         forall e, (nth e sp 0 = nth e fi 0 + nth e ff 0 + nth e fb 0 + nth e fo 0)%R) /\
    (* a neglected contribution is zero at every energy *)
    (forall k i o f, In k scattering_keys -> dict_get k (s_models s) = Some i ->
       nth_error (s_heap s) i = Some o -> o_cls o = k_Neglect ->
       evaluate nE ext k s = Some (VSpec f) -> forall e, nth e f 0%R = 0%R).
Proof.
  intros nE n d ext l Hd s Hsp.
  assert (HK : KeyInv s) by exact (KeyInv_run l _ Hd (KeyInv_init n d)).
  assert (Hdec : (exists k, In k ["ionic scattering"; "free-free scattering"; "bound-free scattering"]
                                    /\ has_key k (s_models s) = false) \/
                 (forall k, In k scattering_keys -> has_key k (s_models s) = true)).
  { destruct (has_key "ionic scattering" (s_models s)) eqn:E1; [|left; eexists; split; [|exact E1]; cbn; auto].
    destruct (has_key "free-free scattering" (s_models s)) eqn:E2; [|left; eexists; split; [|exact E2]; cbn; auto].
    destruct (has_key "bound-free scattering" (s_models s)) eqn:E3; [|left; eexists; split; [|exact E3]; cbn; auto].
    right. intros k [<-|[<-|[<-|[<-|[]]]]]; auto. apply history_has_init. cbn; auto. }
  split; [split|split].
  - intros Hnone. destruct Hdec as [H|H]; [exact H|]. exfalso.
    destruct (probe_sum nE ext s HK Hsp H) as (fi & ff & fb & fo & sp & _ & _ & _ & _ & E & _). congruence.
  - intros (k & Hk & Hm). eapply probe_missing; [|exact Hm].
    destruct Hk as [<-|[<-|[<-|[]]]]; cbn; auto.
  - intros v Hv. destruct Hdec as [(k & Hk & Hm)|H].
    + exfalso. rewrite (probe_missing nE ext s k) in Hv; [discriminate| |exact Hm].
      destruct Hk as [<-|[<-|[<-|[]]]]; cbn; auto.
    + destruct (probe_sum nE ext s HK Hsp H) as (fi & ff & fb & fo & sp & H1 & H2 & H3 & H4 & E & L & HS).
      exists fi, ff, fb, fo, sp. rewrite E in Hv. injection Hv as <-. repeat split; auto.
  - intros k i o f Hk Hi Ho Hc. apply (neglect_zero nE ext s k i o f HK Hk Hi Ho). now rewrite Hc.
Qed.
Print Assumptions C13_probe_is_the_sum_partial.
Definition C13_ops := [ONew k_RPA; OSet "free-free scattering" 3; ONew k_Neglect; OSet "bound-free scattering" 5;
  ONew k_FixedSii; OSet "ionic scattering" 6].
Example C13_ex :
  exists v, probe 2 (fun o _ => Some (VSpec [1%R; 2%R])) (after 1 0 C13_ops) = Some v.
Proof. eexists. cbv -[Rplus IZR]. reflexivity. Qed.

(** Missing: with an instance shared between a scattering key and the
    continuum-lowering key a complete state cannot be probed at all. *)
Theorem C13_shared_instance_refuted :
  exists (l : list op),
    Forall shipped_op l /\
    (forall k, In k scattering_keys -> has_key k (s_models (after 1 0 l)) = true) /\
    spectral 2 (fun _ _ => Some (VSpec [1%R; 2%R])) (after 1 0 l) /\
    probe 2 (fun _ _ => Some (VSpec [1%R; 2%R])) (after 1 0 l) = None.
Proof.
  exists (C13_ops ++ [OSet "ipd" 5]). split; [|split; [|split]].
  - apply shipped_ops_b. vm_compute. reflexivity.
  - intros k [<-|[<-|[<-|[<-|[]]]]]; vm_compute; reflexivity.
  - intros k i o _ _ _ _. eexists; split; reflexivity.
  - cbv -[Rplus IZR]. reflexivity.
Qed.
Print Assumptions C13_shared_instance_refuted.

(** ** C62 *)

(** [get_all_models] lists under a key exactly the concrete public classes of
    the requested modules that declare the key (any module contents). *)
Theorem C62_get_all_models :
  forall (mods pots : list attr) (types : list string) (k : string) (a : attr),
    In a (at_key k (get_all_models mods pots types)) <->
    ((In "models" types /\ In a mods) \/ (In "hnc_potentials" types /\ In a pots)) /\
    a_abstract a = false /\ starts_underscore (a_name a) = false /\
    exists ks, a_keys a = Some ks /\ In k ks.
Proof. exact get_all_models_spec. Qed.
Print Assumptions C62_get_all_models.
Example C62_ex : In (attr_of k_RPA)
  (at_key "free-free scattering" (get_all_models shipped_models shipped_potentials ["models"])).
Proof. vm_compute. tauto. Qed.

(** [get_all_models_list] lists exactly the concrete public classes with at
    least one key, of both modules. *)
Theorem C62_get_all_models_list_partial :
  forall (mods pots : list attr) (types : list string) (names_only : bool) (n : string),
    In (EClass n) (get_all_models_list mods pots types names_only) <->
    exists a, (In a mods \/ In a pots) /\ a_name a = n /\ a_abstract a = false /\
      starts_underscore n = false /\ exists ks, a_keys a = Some ks /\ ks <> [].
Proof. exact get_all_models_list_spec. Qed.
Print Assumptions C62_get_all_models_list_partial.

(** It ignores both its arguments: asked for names of models it returns a
    potential's class. *)
Theorem C62_refuted :
  exists e, In e (get_all_models_list shipped_models shipped_potentials ["models"] true) /\
    e = EClass "CoulombPotential" /\
    ~ In (EName "RPA") (get_all_models_list shipped_models shipped_potentials ["models"] true).
Proof.
  exists (EClass "CoulombPotential"). split; [vm_compute; tauto|]. split; [reflexivity|].
  unfold get_all_models_list. rewrite in_map_iff. intros (a & E & _). discriminate.
Qed.
Print Assumptions C62_refuted.

(** ** C63 *)

(** Whatever an attached model calls on the models it looks up is there,
    except for two classes. *)
Theorem C63_capabilities_partial :
  forall (nions dens : nat) (l : list op),
    Forall shipped_op l ->
    forall k i o key meth,
      dict_get k (s_models (after nions dens l)) = Some i ->
      nth_error (s_heap (after nions dens l)) i = Some o ->
      c_name (o_cls o) <> "LinearResponseScreening" -> c_name (o_cls o) <> "Sum_Sii" ->
      In (key, meth) (reads_of (o_cls o)) ->
      exists j oj, dict_get key (s_models (after nions dens l)) = Some j /\
        nth_error (s_heap (after nions dens l)) j = Some oj /\ offers (o_cls oj) meth = true.
Proof. exact (fun n d l Hl k i o key meth Hk Hi H1 H2 => capability n d l k i o key meth Hl Hk Hi H1 H2). Qed.
Print Assumptions C63_capabilities_partial.
Example C63_ex : In ("BM V_eiS", "V") (reads_of k_BornMermin) /\ offers k_FiniteWavelength_BM_V "V" = true.
Proof. split; vm_compute; tauto. Qed.

(** With the ionic part neglected, Born-Mermin's default structure factor
    model finds no structure factor to call. *)
Theorem C63_refuted :
  exists (l : list op) (k key meth : string) (i j : nat) (o oj : obj),
    Forall shipped_op l /\
    dict_get k (s_models (after 1 0 l)) = Some i /\ nth_error (s_heap (after 1 0 l)) i = Some o /\
    In (key, meth) (reads_of (o_cls o)) /\
    dict_get key (s_models (after 1 0 l)) = Some j /\ nth_error (s_heap (after 1 0 l)) j = Some oj /\
    offers (o_cls oj) meth = false.
Proof.
  exists [ONew k_Neglect; OSet "ionic scattering" 3; ONew k_BornMermin; OSet "free-free scattering" 4],
    "BM S_ii", "ionic scattering", "S_ii", 7, 3,
    (mkObj k_Sum_Sii "BM S_ii" Off None), (mkObj k_Neglect "ionic scattering" Off None).
  split; [apply shipped_ops_b; vm_compute; reflexivity|].
  repeat split; try (vm_compute; reflexivity). vm_compute. tauto.
Qed.
Print Assumptions C63_refuted.

(** ** C64 *)

(** A freshly created Born-Mermin model gets the cut-off of the density at the
    moment of attaching; a cut-off already present is kept. *)
Theorem C64_cutoff_at_attachment_partial :
  forall (s : st) (k : string) (i : nat) (o : obj),
    nth_error (s_heap s) i = Some o ->
    In (o_cls o) [k_BornMermin; k_BornMermin_Fit; k_BornMermin_Fortmann] ->
    In k (c_allowed (o_cls o)) ->
    exists o', nth_error (s_heap (fst (step s (OSet k i)))) i = Some o' /\
      o_cut o' = match o_cut o with None => Some (s_dens s) | Some x => Some x end.
Proof.
  intros s k i o Hi Hc Hk.
  assert (Hcoh : coherent (o_cls o) = true /\ In ACutoff (c_acts (o_cls o))).
  { destruct Hc as [<-|[<-|[<-|[]]]]; (split; [vm_compute; reflexivity|vm_compute; tauto]). }
  destruct Hcoh as [Hcoh Hcut].
  pose proof (setitem_ok k i s o Hi Hcoh Hk) as E. cbn [step].
  destruct (setitem k i s) as [s' e] eqn:ES. cbn in E. subst e.
  exact (cut_at_attach k i s s' o Hi Hcut ES).
Qed.
Print Assumptions C64_cutoff_at_attachment_partial.
Example C64_ex : nth_error (s_heap (after 1 7 [ONew k_BornMermin])) 3 = Some (mkObj k_BornMermin "" Off None).
Proof. vm_compute. reflexivity. Qed.

(** After changing the density the cut-off still is the one of the old
    density, even when the model is attached again. *)
Theorem C64_refuted :
  exists (l : list op) (o : obj) (d : nat),
    Forall shipped_op l /\
    dict_get "free-free scattering" (s_models (after 1 0 l)) = Some 3 /\
    nth_error (s_heap (after 1 0 l)) 3 = Some o /\
    o_cut o = Some d /\ d <> s_dens (after 1 0 l).
Proof.
  exists [ONew k_BornMermin; OSet "free-free scattering" 3; ODens 5; OSet "free-free scattering" 3],
    (mkObj k_BornMermin "free-free scattering" Off (Some 0)), 0.
  split; [apply shipped_ops_b; vm_compute; reflexivity|].
  repeat split; try (vm_compute; reflexivity). discriminate.
Qed.
Print Assumptions C64_refuted.
