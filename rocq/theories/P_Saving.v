(** Properties C15-C17: saving and loading. *)
From Coq Require Import String List Bool Arith Lia Reals Lra.
From Verif Require Import M_PytreeTable M_Pytree L_Pytree M_Registry M_Classes M_Elements M_Saving L_Saving.
Import ListNotations.
Open Scope list_scope.
Open Scope nat_scope.

(** ** C15 *)
(** Data in the form loading produces: lists, dictionaries without the key "_type",
    numbers, strings, non-scalar arrays whose shape has a zero at most at its end,
    quantities of those and elements. *)
Definition full_shape (ds : list nat) : Prop := ds <> [] /\ forall i, nth_error ds i = Some 0 -> S i = length ds.
Definition good_arr (a : arr) : Prop := length (data a) = fold_right Nat.mul 1 (dims a) /\ full_shape (dims a).
Inductive plain : pyval -> Prop :=
| P_none : plain VNone
| P_bool b : plain (Leaf (ABool b))
| P_num r : plain (Leaf (ANum r))
| P_str s : plain (Leaf (AStr s))
| P_arr jx a : good_arr a -> plain (Leaf (AArr jx a))
| P_quant r u : plain (Leaf (AQuant (MNum r) u))
| P_quant_arr jx a u : good_arr a -> plain (Leaf (AQuant (MArr jx a) u))
| P_elem s : element (IdStr s) <> None -> plain (Leaf (AElem s))
| P_list l : (forall v, In v l -> plain v) -> plain (VSeq false l)
| P_dict kvs : ~ In "_type"%string (map fst kvs) -> (forall k v, In (k, v) kvs -> plain v) -> plain (VDict kvs).
Lemma cut_full ds : (forall i, nth_error ds i = Some 0 -> S i = length ds) -> cut ds = ds.
Proof.
  induction ds as [|d ds IH]; intros H; [reflexivity|]. destruct d as [|d]; cbn.
  - specialize (H 0 eq_refl). destruct ds; [reflexivity|discriminate].
  - f_equal. apply IH. intros i Hi. specialize (H (S i) Hi). cbn in H. lia.
Qed.
Lemma size_fold ds : size ds = fold_right Nat.mul 1 ds.
Proof. induction ds; cbn; congruence. Qed.
Lemma good_ok jx a : good_arr a -> ok_arr jx a.
Proof. intros [H [H1 _]]. split; [unfold wf_arr; now rewrite size_fold|intros _; exact H1]. Qed.
Lemma good_norm a : good_arr a -> norm_arr a = a /\ dims a <> [].
Proof. intros [_ [H1 H2]]. split; [|assumption]. unfold norm_arr. rewrite (cut_full _ H2). now destruct a. Qed.
Lemma plain_savable v : plain v -> savable [] v /\ norm v = v.
Proof.
  induction 1 as [|b|r|s|jx a Ha|r u|jx a u Ha|s Hs|l _ IH|kvs HT _ IH]; try (split; [constructor; exact I|reflexivity]).
  - split; [constructor; now apply good_ok|]. cbn. destruct (good_norm a Ha) as [E N]. destruct (dims a); [congruence|now rewrite E].
  - split; [constructor; cbn; now apply good_ok|]. cbn. destruct (good_norm a Ha) as [E N]. destruct (dims a); [congruence|now rewrite E].
  - split; [constructor; exact Hs|reflexivity].
  - split; [constructor; intros v Hv; now apply IH|]. cbn. f_equal. rewrite <- (map_id l) at 2. apply map_ext_in. intros v Hv. now apply IH.
  - split; [constructor; [assumption|]; intros k v Hv; now apply (IH k)|]. cbn. f_equal. rewrite <- (map_id kvs) at 2. apply map_ext_in. intros [k v] Hv. cbn. f_equal. now apply (IH k).
Qed.
Theorem C15_data_comes_back_partial : forall v, plain v -> save_load [] v = Some v.
Proof.
  intros v H. destruct (plain_savable v H) as [HS HN]. destruct (savable_rt [] v HS) as (j & E & D). unfold save_load. now rewrite E, D, HN.
Qed.
Print Assumptions C15_data_comes_back_partial.
(** Other data: tuples become lists, numpy integers numbers, 0-d jax arrays numbers. *)
Theorem C15_conversions : forall l r (x : R) u, (forall v, In v l -> plain v) ->
  save_load [] (VSeq true l) = Some (VSeq false l) /\
  save_load [] (Leaf (ANpInt r)) = Some (Leaf (ANum r)) /\
  save_load [] (Leaf (AArr true (Arr [] [x]))) = Some (Leaf (ANum x)) /\
  save_load [] (Leaf (AQuant (MArr true (Arr [] [x])) u)) = Some (Leaf (AQuant (MNum x) u)).
Proof.
  intros l r x u H. split; [|split; [|split]].
  - pose proof (C15_data_comes_back_partial (VSeq false l) (P_list l H)) as E. unfold save_load in *. now rewrite enc_seq in *.
  - reflexivity.
  - reflexivity.
  - destruct (savable_rt [] (Leaf (AQuant (MArr true (Arr [] [x])) u))) as (j & E & D); [constructor; split; [reflexivity|discriminate]|]. unfold save_load. now rewrite E, D.
Qed.
Print Assumptions C15_conversions.
(** Exceptions: a dictionary with the key "_type", arrays with a zero inside their shape,
    0-d numpy arrays, MixElement. *)
Theorem C15_refuted :
  save_load [] (VDict [("_type", Leaf (AStr "Element")); ("value", Leaf (AStr "C"))]%string) = Some (Leaf (AElem "C")) /\
  save_load [] (VDict [("_type", Leaf (AStr "laser"))]%string) = None /\
  save_load [] (Leaf (AArr true (Arr [0; 3] []))) = Some (Leaf (AArr true (Arr [0] []))) /\
  (forall x, save_load [] (Leaf (AArr false (Arr [] [x]))) = None) /\
  save_load [] (Leaf (AElem "MIX")) = None.
Proof. repeat split; vm_compute; reflexivity. Qed.
Print Assumptions C15_refuted.
Example C15_ex : plain (VDict [("E", Leaf (AQuant (MArr true (Arr [2; 2] [1; 2; 3; 4]%R)) [("electron_volt", 1%R)])); ("ions", VSeq false [Leaf (AElem "C"); VNone])]%string).
Proof.
  constructor; [cbn; intuition discriminate|]. intros k v [[= <- <-]|[[= <- <-]|[]]].
  - constructor. split; [reflexivity|]. split; [discriminate|]. intros [|[|i]] H; cbn in *; try discriminate. now destruct i.
  - constructor. intros v [<-|[<-|[]]]; constructor. vm_compute. discriminate.
Qed.

(** ** C16 *)
Definition renamed : list string :=
  ["ThreePotentialHNCIonFeat"; "DebyeHueckelIPD"; "StewartPyattPrestonIPD"; "StewartPyattIPD"; "IonSphereIPD"; "EckerKroellIPD"; "PauliBlockingIPD"]%string.
Definition shipped_names : list string := map c_name shipped.
Lemma resolves_table : forallb (fun c => Bool.eqb (match kind_of c with
   | Some KPot | Some KModel => match class_named [] (saved_name c) with Some d => String.eqb d c | None => false end
   | _ => false end) (negb (memb c renamed))) shipped_names = true.
Proof. vm_compute. reflexivity. Qed.
Lemma memb_spec a l : memb a l = true <-> In a l.
Proof. apply inb_spec. Qed.
Lemma resolves_shipped c : In c shipped_names -> ~ In c renamed -> resolves [] c.
Proof.
  intros HI HN. pose proof resolves_table as HT. rewrite forallb_forall in HT. specialize (HT c HI). apply eqb_prop in HT.
  destruct (memb c renamed) eqn:E; [apply memb_spec in E; contradiction|]. cbn [negb] in HT. unfold resolves.
  destruct (kind_of c) as [[]|]; try discriminate; destruct (class_named [] (saved_name c)) as [d|]; try discriminate; apply String.eqb_eq in HT; now subst.
Qed.
(** Every shipped model and potential but seven comes back as an instance of the same
    class; its attributes come back as they would by themselves. *)
Theorem C16_partial : forall p attrs, In p pytree_classes -> In (pc_name p) shipped_names -> ~ In (pc_name p) renamed ->
  (forall a, attrs a <> None <-> In a (pc_attrs p)) ->
  (forall a v, attrs a = Some v -> savable [] v) ->
  (forall v, attrs "_transform_r"%string = Some v -> grid v) ->
  exists o, save_load [] (VObj (pc_name p) attrs) = Some (VObj (pc_name p) o) /\
    forall a v, attrs a = Some v -> a <> "_transform_r"%string -> o a = save_load [] v.
Proof.
  intros p attrs HI HS HR HD HV HG.
  assert (HX : pc_name p <> "IonSphereIPD"%string) by (intros E; apply HR; rewrite E; cbn; tauto).
  assert (SV : savable [] (VObj (pc_name p) attrs)).
  { eapply S_obj; eauto; [now apply resolves_shipped|]. intros a v Hg. apply HG || intros Ha. unfold is_grid in Hg. destruct (kind_of _) as [[]|]; try discriminate. apply String.eqb_eq in Hg. subst. now apply HG. }
  destruct (savable_rt [] _ SV) as (j & E & D). unfold save_load at 1. rewrite E, D. cbn [norm].
  eexists. split; [reflexivity|]. intros a v Ha Hn. cbn. rewrite Ha.
  replace (is_grid (pc_name p) a) with false. 2:{ unfold is_grid. destruct (kind_of _) as [[]|]; try reflexivity. symmetry. now apply String.eqb_neq. }
  destruct (savable_rt [] v (HV a v Ha)) as (j' & E' & D'). unfold save_load. now rewrite E', D'.
Qed.
Print Assumptions C16_partial.
(** Those seven are saved under a name that is not their class's: loading always raises. *)
Lemma class_named_renamed c : In c renamed -> kind_of c = Some KModel /\ class_named [] (saved_name c) = None.
Proof. intros H. cbn in H. repeat (destruct H as [<-|H]; [split; vm_compute; reflexivity|]). destruct H. Qed.
Theorem C16_refuted : forall c attrs, In c renamed -> save_load [] (VObj c attrs) = None.
Proof.
  intros c attrs H. destruct (class_named_renamed c H) as [HK HC]. unfold save_load. rewrite enc_vobj, HK.
  destruct (class_of c) as [p|]; [|reflexivity]. cbn [has_grid]. destruct (allsome _) as [ch|]; [|reflexivity]. destruct (allsome _) as [aux|]; [|reflexivity].
  unfold enc_obj, tagged. rewrite dec_obj. cbn [map]. unfold fstmap. cbn [fst snd].
  change (dec [] (JStr "Model")) with (Some (@Leaf atom (AStr "Model"))). cbn [option_map allsome opt_cons].
  rewrite dec_list. cbn [map allsome]. change (dec [] (JStr (saved_name c))) with (Some (@Leaf atom (AStr (saved_name c)))).
  destruct (dec [] (JList [_; _])) as [t|]; [|reflexivity]. cbn [opt_cons option_map allsome].
  unfold hook. cbn -[class_named saved_name restore]. now rewrite HC.
Qed.
Print Assumptions C16_refuted.
(** Passing the right additional_mappings to load repairs six of them (IonSphereIPD loses
    an attribute, see C10). *)
Theorem C16_additional_mappings : forall c p attrs, In c renamed -> c <> "IonSphereIPD"%string -> In p pytree_classes -> pc_name p = c ->
  (forall a, attrs a <> None <-> In a (pc_attrs p)) -> (forall a v, attrs a = Some v -> savable [(saved_name c, c)] v) ->
  exists o, save_load [(saved_name c, c)] (VObj c attrs) = Some (VObj c o).
Proof.
  intros c p attrs H HX HI HP HD HV. destruct (class_named_renamed c H) as [HK _].
  destruct (savable_rt [(saved_name c, c)] (VObj c attrs)) as (j & E & D).
  - eapply S_obj; eauto.
    + unfold resolves. rewrite HK. unfold class_named. cbn [find fst]. now rewrite String.eqb_refl.
    + intros a v Hg. unfold is_grid in Hg. now rewrite HK in Hg.
  - unfold save_load. rewrite E, D. now eexists.
Qed.
Print Assumptions C16_additional_mappings.
(** Plasma states, setups and instrument functions *)
Theorem C16_states_and_setups : forall p attrs,
  In p pytree_classes -> In (pc_name p) ["PlasmaState"; "Setup"; "Gaussian"; "TwinGaussian"; "SuperGaussian"; "Lorentzian"; "FromArray"]%string ->
  (forall a, attrs a <> None <-> In a (pc_attrs p)) -> (forall a v, attrs a = Some v -> savable [] v) ->
  exists o, save_load [] (VObj (pc_name p) attrs) = Some (VObj (pc_name p) o) /\ forall a v, attrs a = Some v -> o a = save_load [] v.
Proof.
  intros p attrs HI HC HD HV.
  assert (HK : resolves [] (pc_name p) /\ kind_of (pc_name p) <> Some KPot /\ pc_name p <> "IonSphereIPD"%string).
  { cbn in HC. repeat (destruct HC as [<-|HC]; [repeat split; vm_compute; try reflexivity; discriminate|]). destruct HC. }
  destruct HK as (HR & HK & HX). assert (NG : forall a, is_grid (pc_name p) a = false). { intros a. unfold is_grid. destruct (kind_of _) as [[]|]; congruence. }
  destruct (savable_rt [] (VObj (pc_name p) attrs)) as (j & E & D).
  { eapply S_obj; eauto. intros a v Hg. now rewrite NG in Hg. }
  unfold save_load at 1. rewrite E, D. cbn [norm]. eexists. split; [reflexivity|]. intros a v Ha. cbn. rewrite Ha, NG.
  destruct (savable_rt [] v (HV a v Ha)) as (j' & E' & D'). unfold save_load. now rewrite E', D'.
Qed.
Print Assumptions C16_states_and_setups.
(** A FreeBoundFlippedSetup is saved as a Setup, which it cannot be loaded as. *)
Theorem C16_flipped_setup_refuted : forall attrs, save_load [] (VObj "FreeBoundFlippedSetup" attrs) = None.
Proof.
  intros attrs. unfold save_load. rewrite enc_vobj.
  assert (EC : exists p, class_of "FreeBoundFlippedSetup" = Some p /\ length (pc_children p) = 4) by (eexists; split; reflexivity).
  destruct EC as (p & -> & EL). change (kind_of "FreeBoundFlippedSetup") with (Some KSetup). cbn [has_grid].
  destruct (allsome _) as [ch|] eqn:EA; [|reflexivity]. apply allsome_length in EA. rewrite map_length, EL in EA.
  destruct (allsome _) as [aux|]; [|reflexivity].
  unfold enc_obj, tagged. rewrite dec_obj. cbn [map]. unfold fstmap. cbn [fst snd].
  change (dec [] (JStr "Setup")) with (Some (@Leaf atom (AStr "Setup"))). cbn [option_map allsome opt_cons].
  rewrite dec_list. cbn [map allsome]. change (enc_children "FreeBoundFlippedSetup" ch) with (JList ch). rewrite dec_list.
  destruct (allsome (map (dec []) ch)) as [vs|] eqn:EV; [|reflexivity]. apply allsome_length in EV. rewrite map_length, EA in EV.
  destruct (dec [] (enc_aux _ _ _)) as [a|]; [|reflexivity]. cbn [option_map opt_cons allsome].
  change (hook [] [("_type"%string, Leaf (AStr "Setup")); ("value"%string, VSeq false [VSeq false vs; a])]) with (option_map fst (restore "Setup" (VSeq false [VSeq false vs; a]))).
  unfold restore. assert (ES : exists q, class_of "Setup" = Some q /\ length (pc_un_children q) = 5) by (eexists; split; reflexivity).
  destruct ES as (q & EQ & EL2). rewrite EQ. change (parse_children "Setup" (VSeq false vs)) with (Some vs).
  destruct (parse_aux _ _ a) as [x|]; [|reflexivity]. unfold rebuild. rewrite EQ.
  assert (UN : forall l (ws : list pyval) o, length l <> length ws -> unpack l ws o = None).
  { clear. induction l as [|b l IH]; intros [|w ws] o H; cbn in *; try reflexivity; try congruence. apply IH. congruence. }
  destruct (match pc_un_aux q with ATuple _ => _ | _ => _ end); [reflexivity|]. destruct (assign _ _ _) as [o|]; [|reflexivity].
  rewrite UN; [reflexivity|]. rewrite EL2, EV. discriminate.
Qed.
Print Assumptions C16_flipped_setup_refuted.
Definition quant1 (r : R) : pyval := Leaf (AQuant (MNum r) [("kelvin"%string, 1%R)]).
Definition const_lfc : pyval := VObj "LFCConstant" (setattr "value" (quant1 2) (setattr "model_key" (Leaf (AStr "ee-lfc")) no_attrs)).
Example C16_ex : exists o, save_load [] const_lfc = Some (VObj "LFCConstant" o) /\ o "value"%string = Some (quant1 2).
Proof.
  destruct (class_of "LFCConstant") as [p|] eqn:E; [|discriminate]. pose proof (class_of_in _ _ E) as [HI HN]. vm_compute in E. injection E as <-.
  destruct (C16_partial _ (setattr "value" (quant1 2) (setattr "model_key" (Leaf (AStr "ee-lfc")) no_attrs)) HI) as (o & S & A).
  - vm_compute. tauto.
  - vm_compute. intuition discriminate.
  - intros a. cbn [pc_attrs]. unfold setattr, no_attrs. destruct (String.eqb_spec "value" a) as [<-|n1]; [split; [cbn; tauto|discriminate]|].
    destruct (String.eqb_spec "model_key" a) as [<-|n2]; [split; [cbn; tauto|discriminate]|]. split; [intros h; now elim h|cbn; tauto].
  - intros a v. unfold setattr, no_attrs. destruct (String.eqb "value" a); [intros [= <-]; constructor; exact I|]. destruct (String.eqb "model_key" a); [intros [= <-]; constructor; exact I|discriminate].
  - intros v. discriminate.
  - exists o. split; [exact S|]. rewrite (A "value"%string (quant1 2)); [reflexivity|reflexivity|discriminate].
Qed.

(** ** C17 *)
Lemma fold_min_asc a h m k : (0 <= h)%R -> fold_left Rmin (map (fun i => (a + INR i * h)%R) (seq (S k) m)) a = a.
Proof.
  intros Hh. revert k. induction m as [|m IH]; intros k; [reflexivity|]. cbn [seq map fold_left].
  rewrite Rmin_left; [apply IH|]. pose proof (pos_INR (S k)). nra.
Qed.
Lemma fold_max_asc a h m k : (0 <= h)%R -> fold_left Rmax (map (fun i => (a + INR i * h)%R) (seq (S k) m)) (a + INR k * h)%R = (a + INR (k + m) * h)%R.
Proof.
  intros Hh. revert k. induction m as [|m IH]; intros k; cbn [seq map fold_left]; [now rewrite Nat.add_0_r|].
  rewrite Rmax_right; [rewrite IH; do 3 f_equal; lia|]. rewrite S_INR. nra.
Qed.
Lemma fold_min_le l x : (fold_left Rmin l x <= x)%R.
Proof. revert x. induction l as [|y l IH]; intros x; cbn; [lra|]. eapply Rle_trans; [apply IH|apply Rmin_l]. Qed.
Lemma fold_max_ge l x : (x <= fold_left Rmax l x)%R.
Proof. revert x. induction l as [|y l IH]; intros x; cbn; [lra|]. eapply Rle_trans; [apply Rmax_l|apply IH]. Qed.
(** The grid of a loaded potential is the saved one exactly when that is ascending and
    equidistant. *)
Definition equidistant (l : list R) : Prop := exists a h, (0 <= h)%R /\ l = map (fun i => (a + INR i * h)%R) (seq 0 (length l)).
Lemma linspace_equidistant l : l <> [] -> (linspace (rmin l) (rmax l) (length l) = l <-> equidistant l).
Proof.
  intros HN. split.
  - intros E. destruct l as [|x [|y l]]; [congruence| |].
    + exists x, 0%R. split; [lra|]. cbn. f_equal. lra.
    + set (n := length (x :: y :: l)) in *. exists (rmin (x :: y :: l)), ((rmax (x :: y :: l) - rmin (x :: y :: l)) / INR (n - 1))%R. split.
      * assert (0 < INR (n - 1))%R by (apply lt_0_INR; unfold n; cbn; lia).
        assert (rmin (x :: y :: l) <= rmax (x :: y :: l))%R. { unfold rmin, rmax. pose proof (fold_min_le (y :: l) x). pose proof (fold_max_ge (y :: l) x). lra. }
        apply Rmult_le_pos; [lra|]. left. now apply Rinv_0_lt_compat.
      * symmetry. etransitivity; [|exact E]. unfold n. cbn [length linspace]. reflexivity.
  - intros (a & h & Hh & E). remember (length l) as n eqn:En. destruct n as [|n]; [destruct l; [congruence|discriminate]|].
    rewrite E. cbn [seq map]. unfold rmin, rmax. cbn [INR]. rewrite !Rmult_0_l, !Rplus_0_r.
    rewrite (fold_min_asc a h n 0 Hh). pose proof (fold_max_asc a h n 0 Hh) as M. cbn [INR Nat.add] in M. rewrite Rmult_0_l, Rplus_0_r in M. rewrite M.
    destruct n as [|n]; [reflexivity|]. unfold linspace.
    change (seq 0 (S (S n))) with (0 :: seq 1 (S n)). cbn [map]. replace (S (S n) - 1) with (S n) by lia.
    assert (INR (S n) <> 0)%R by (apply not_0_INR; lia). f_equal; [cbn [INR]; lra|].
    apply map_ext. intros i. field. assumption.
Qed.
Theorem C17_grid_partial : forall p attrs jx n l u, In p pytree_classes -> In (pc_name p) (map c_name potential_classes) ->
  (forall a, attrs a <> None <-> In a (pc_attrs p)) -> (forall a v, attrs a = Some v -> savable [] v) ->
  attrs "_transform_r"%string = Some (Leaf (AQuant (MArr jx (Arr [n] l)) u)) -> l <> [] ->
  exists o l', save_load [] (VObj (pc_name p) attrs) = Some (VObj (pc_name p) o) /\
    o "_transform_r"%string = Some (Leaf (AQuant (MArr true (Arr [n] l')) u)) /\ (l' = l <-> equidistant l).
Proof.
  intros p attrs jx n l u HI HC HD HV HT HN.
  assert (TB : forallb (fun c => memb c shipped_names && negb (memb c renamed) && match kind_of c with Some KPot => true | _ => false end) (map c_name potential_classes) = true) by (vm_compute; reflexivity).
  rewrite forallb_forall in TB. specialize (TB _ HC). apply andb_prop in TB as [TB HK]. apply andb_prop in TB as [T1 T2]. apply memb_spec in T1.
  assert (HR : ~ In (pc_name p) renamed) by (intros h; apply memb_spec in h; now rewrite h in T2).
  destruct (kind_of (pc_name p)) as [[]|] eqn:EK; try discriminate.
  assert (LN : length l = n). { specialize (HV _ _ HT). inversion HV as [x Hx| | | |]; subst. destruct Hx as [Hx _]. unfold wf_arr in Hx. cbn in Hx. lia. }
  assert (HG : grid (Leaf (AQuant (MArr jx (Arr [n] l)) u))). { exists jx, n, l, u. repeat split; [assumption|]. destruct l; [congruence|cbn in LN; lia]. }
  destruct (savable_rt [] (VObj (pc_name p) attrs)) as (j & E & D).
  { eapply S_obj; eauto; [|now apply resolves_shipped|]. { intros h. apply HR. rewrite h. cbn. tauto. }
    intros a v Hg Ha. unfold is_grid in Hg. rewrite EK in Hg. apply String.eqb_eq in Hg. subst a. rewrite HT in Ha. now injection Ha as <-. }
  exists (fun a => match attrs a with Some v => Some (if is_grid (pc_name p) a then norm_grid v else norm v) | None => None end), (linspace (rmin l) (rmax l) n).
  split; [unfold save_load; rewrite E; exact D|]. split.
  - rewrite HT. unfold is_grid. rewrite EK. reflexivity.
  - rewrite <- LN. now apply linspace_equidistant.
Qed.
Print Assumptions C17_grid_partial.
Theorem C17_refuted : exists l, l <> [] /\ ~ equidistant l /\ linspace (rmin l) (rmax l) (length l) <> l.
Proof.
  exists [1; 2; 4]%R. split; [discriminate|]. assert (H : ~ equidistant [1; 2; 4]%R). { intros (a & h & _ & E). cbn in E. injection E as E1 E2 E3. lra. }
  split; [exact H|]. intros E. apply H, linspace_equidistant; [discriminate|exact E].
Qed.
Print Assumptions C17_refuted.
Example C17_ex : equidistant [1; 3; 5]%R.
Proof. exists 1%R, 2%R. split; [lra|]. cbn. repeat f_equal; lra. Qed.
