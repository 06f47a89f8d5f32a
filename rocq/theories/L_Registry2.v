(** Electron modes, capabilities, cut-offs, probe and listings. *)
From Coq Require Import String List Bool Arith Lia.
From Verif Require Import M_Registry M_Classes L_Registry M_Collections.
Import ListNotations.
Open Scope string_scope.
Open Scope list_scope.

(** ** C04 *)
Definition K3 : list string :=
  ["ion-ion Potential"; "electron-ion Potential"; "electron-electron Potential"].

Definition is_avg (m : emode) : bool := match m with SpinAveraged => true | _ => false end.

(** Spec side: effects that cannot switch a potential to another mode, given
    that the keys in [present] are filled. *)
Fixpoint quiet_act (present : list string) (one : bool) (a : act) : bool :=
  match a with
  | ADefault k c => mem_str k present || quiet present one c
  | AAssign k c => negb (mem_str k K3) && quiet present one c
  | ASetElec _ m => is_avg m
  | AIfOne a b => if one then quiet_act present one a else quiet_act present one b
  | ACutoff => true
  end
with quiet (present : list string) (one : bool) (c : cls) : bool :=
  match c with Cls _ _ _ acts =>
    (fix go (l : list act) : bool :=
       match l with [] => true | a :: t => quiet_act present one a && go t end) acts end.
Lemma quiet_eq p b n al e acts : quiet p b (Cls n al e acts) = forallb (quiet_act p b) acts.
Proof. cbn. induction acts as [|a t IH]; cbn; [reflexivity|]. now rewrite IH. Qed.

Definition J (p : list string) (b : bool) (s : st) : Prop :=
  one s = b /\
  (forall k, In k K3 -> elec_at k s = Some SpinAveraged) /\
  (forall k, In k p -> has_key k (s_models s) = true).

Lemma elec_at_Some k s m : elec_at k s = Some m ->
  exists i o, dict_get k (s_models s) = Some i /\ nth_error (s_heap s) i = Some o /\ o_elec o = m.
Proof.
  unfold elec_at. destruct (dict_get k (s_models s)) as [i|]; [|discriminate].
  destruct (nth_error (s_heap s) i) as [o|] eqn:E; [|discriminate].
  cbn. intros H. injection H as <-. eauto.
Qed.
Lemma elec_at_intro k s i o : dict_get k (s_models s) = Some i -> nth_error (s_heap s) i = Some o ->
  elec_at k s = Some (o_elec o).
Proof. unfold elec_at. intros -> ->. reflexivity. Qed.

Lemma J_alloc p b c s : J p b s -> J p b (alloc c s).
Proof.
  intros (H1 & H2 & H3). split; [exact H1|]. split; [|exact H3].
  intros k Hk. destruct (elec_at_Some _ _ _ (H2 k Hk)) as (i & o & Hd & Ho & He).
  rewrite <- He. eapply elec_at_intro; [exact Hd|]. cbn.
  rewrite nth_error_app1; [assumption|]. apply nth_error_Some. congruence.
Qed.
Lemma J_upd p b i f s : (forall o, o_elec o = SpinAveraged -> o_elec (f o) = SpinAveraged) ->
  J p b s -> J p b (upd_obj i f s).
Proof.
  intros Hf (H1 & H2 & H3). split; [exact H1|]. split; [|exact H3].
  intros k Hk. destruct (elec_at_Some _ _ _ (H2 k Hk)) as (j & o & Hd & Ho & He).
  unfold elec_at. cbn. rewrite Hd, nth_list_upd, Ho. destruct (Nat.eqb i j); cbn; f_equal; auto.
Qed.
Lemma J_finish p b k i s : ~ In k K3 -> J p b s -> J p b (finish k i s).
Proof.
  intros Hn (H1 & H2 & H3). split; [exact H1|]. split.
  - intros k' Hk. destruct (elec_at_Some _ _ _ (H2 k' Hk)) as (j & o & Hd & Ho & He).
    unfold elec_at. cbn. rewrite dict_get_set_other by (intros ->; contradiction).
    rewrite Hd, nth_list_upd, Ho. destruct (Nat.eqb i j); cbn; f_equal; auto.
  - intros k' Hk'. cbn. apply has_key_set. right. auto.
Qed.

Definition PJ (c : cls) : Prop := forall p b k s, quiet p b c = true -> ~ In k K3 ->
  J p b s -> J p b (fst (attach_new k c s)).
Definition QJ (a : act) : Prop := forall p b i s, quiet_act p b a = true ->
  J p b s -> J p b (fst (run_act i a s)).
Lemma run_acts_J l : Forall QJ l -> forall p b i s, forallb (quiet_act p b) l = true ->
  J p b s -> J p b (fst (run_acts i l s)).
Proof.
  induction 1 as [|a t Ha _ IH]; intros p b i s; cbn [forallb run_acts]; [auto|].
  intros H HJ. apply andb_prop in H as [H1 H2]. specialize (Ha p b i s H1 HJ).
  destruct (run_act i a s) as [s1 [x|]]; cbn in *; auto.
Qed.
Lemma all_J : (forall c, PJ c) /\ (forall a, QJ a).
Proof.
  apply cls_act_ind.
  - intros n al e acts Hall p b k s Hq Hk HJ. rewrite quiet_eq in Hq. rewrite attach_new_eq.
    apply (J_alloc p b (Cls n al e acts)) in HJ. unfold setitem.
    destruct (nth_error _ _) as [o|] eqn:Eo; [|exact HJ].
    assert (Eoc : o_cls o = Cls n al e acts).
    { cbn in Eo. rewrite nth_error_app2 in Eo by lia. rewrite Nat.sub_diag in Eo.
      injection Eo as <-. reflexivity. }
    rewrite Eoc. destruct (mem_str _ _); [|exact HJ]. cbn [c_acts].
    pose proof (run_acts_J acts Hall p b (length (s_heap s)) _ Hq HJ) as H.
    destruct (run_acts _ _ _) as [s2 [x|]]; cbn [fst] in *; [assumption|].
    now apply J_finish.
  - intros k c Hc p b i s Hq HJ. cbn in *. destruct (has_key k (s_models s)) eqn:E; [exact HJ|].
    apply Hc; [| |exact HJ].
    + apply orb_prop in Hq as [H|H]; [|assumption]. exfalso. apply mem_str_In in H.
      apply (proj2 (proj2 HJ)) in H. congruence.
    + intros Hin. destruct (elec_at_Some _ _ _ (proj1 (proj2 HJ) k Hin)) as (j & o & Hd & _).
      unfold has_key in E. rewrite Hd in E. discriminate.
  - intros k c Hc p b i s Hq HJ. cbn [quiet_act run_act] in *. apply andb_prop in Hq as [H1 H2].
    apply Hc; [assumption| |assumption]. intros Hin. apply mem_str_In in Hin.
    rewrite Hin in H1. discriminate.
  - intros k m p b i s Hq HJ. cbn in *. destruct m; try discriminate.
    destruct (dict_get k (s_models s)); [|exact HJ]. now apply J_upd.
  - intros a c Ha Hc p b i s Hq HJ. cbn [run_act]. cbn in Hq.
    pose proof (proj1 HJ) as E. unfold one in E. rewrite E.
    destruct b; auto.
  - intros p b i s _ HJ. cbn. now apply J_upd.
Qed.

(** The operations after which the electron modes are guaranteed to survive. *)
Definition quiet_op (p : list string) (b : bool) (s : st) (o : op) : Prop :=
  match o with
  | ONew _ => True
  | OSet k i => ~ In k K3 /\
      forall ob, nth_error (s_heap s) i = Some ob -> quiet p b (o_cls ob) = true
  | ODens _ => True
  | OElec _ m => m = SpinAveraged
  end.
Fixpoint quiet_history (p : list string) (b : bool) (l : list op) (s : st) : Prop :=
  match l with
  | [] => True
  | o :: t => quiet_op p b s o /\ quiet_history p b t (fst (step s o))
  end.
Lemma J_step p b s o : quiet_op p b s o -> J p b s -> J p b (fst (step s o)).
Proof.
  destruct o as [c|k i|d|i m]; cbn [step fst quiet_op]; intros Hq HJ.
  - now apply J_alloc.
  - destruct Hq as [Hk Hc]. unfold setitem. destruct (nth_error (s_heap s) i) as [ob|] eqn:Ei; [|exact HJ].
    specialize (Hc ob eq_refl). destruct (mem_str _ _); [|exact HJ].
    destruct (o_cls ob) as [n al e acts]. rewrite quiet_eq in Hc. cbn [c_acts].
    pose proof (run_acts_J acts (proj2 (Forall_forall _ _) (fun a _ => proj2 all_J a)) p b i s Hc HJ) as H.
    destruct (run_acts i acts s) as [s2 [x|]]; cbn [fst] in *; [assumption|].
    now apply J_finish.
  - exact HJ.
  - subst m. now apply J_upd.
Qed.
Lemma J_run p b l s : quiet_history p b l s -> J p b s -> J p b (run_ops l s).
Proof.
  revert s. induction l as [|o l IH]; cbn [quiet_history]; intros s Hq HJ; [assumption|].
  destruct Hq as [H1 H2]. cbn. apply IH; [assumption|]. now apply J_step.
Qed.

(** Attaching [ThreePotentialHNCIonFeat] sets all three modes. *)
Lemma run_acts_app i l1 l2 s :
  run_acts i (l1 ++ l2) s =
  match run_acts i l1 s with (s1, None) => run_acts i l2 s1 | r => r end.
Proof.
  revert s. induction l1 as [|a t IH]; intros s; cbn [app run_acts].
  - reflexivity.
  - destruct (run_act i a s) as [s1 [x|]]; [reflexivity|]. apply IH.
Qed.

Lemma elec_at_set k k' m s i :
  dict_get k (s_models s) = Some i ->
  (k' = k \/ elec_at k' s = Some m) -> (exists o, nth_error (s_heap s) i = Some o) ->
  elec_at k' (upd_obj i (set_elec m) s) = Some m.
Proof.
  intros Hd Hor (o & Ho). unfold elec_at. cbn. destruct Hor as [->|Hor].
  - rewrite Hd, nth_list_upd, Nat.eqb_refl, Ho. reflexivity.
  - destruct (elec_at_Some _ _ _ Hor) as (j & oj & Hj & Hoj & He).
    rewrite Hj, nth_list_upd, Hoj. destruct (Nat.eqb i j); cbn; congruence.
Qed.

Lemma three_potential_sets s k i o s' :
  Inv s -> nth_error (s_heap s) i = Some o -> o_cls o = k_ThreePotentialHNCIonFeat ->
  setitem k i s = (s', None) ->
  forall kk, In kk K3 -> elec_at kk s' = Some SpinAveraged.
Proof.
  intros HI Hi Hc HS.
  assert (HInv' : Inv s').
  { replace s' with (fst (setitem k i s)) by now rewrite HS.
    eapply Inv_prims'; [apply prims_prims', setitem_prims|exact HI]. }
  unfold setitem in HS. rewrite Hi, Hc in HS.
  destruct (mem_str k (c_allowed k_ThreePotentialHNCIonFeat)) eqn:Ek; [|discriminate].
  set (l4 := firstn 4 (c_acts k_ThreePotentialHNCIonFeat)) in *.
  replace (c_acts k_ThreePotentialHNCIonFeat)
    with (l4 ++ skipn 4 (c_acts k_ThreePotentialHNCIonFeat)) in HS by apply firstn_skipn.
  rewrite run_acts_app in HS.
  destruct (run_acts i l4 s) as [s4 [x|]] eqn:E4; [discriminate|].
  destruct (run_acts_prims l4 (proj2 (Forall_forall _ _) (fun a _ => proj2 all_prims a)) _ _ _ _ E4) as [Hp Hf].
  assert (HI4 : Inv s4) by (eapply Inv_prims'; [apply prims_prims'; exact Hp|exact HI]).
  assert (HK : forall kk, In kk K3 -> exists j oj, dict_get kk (s_models s4) = Some j /\ nth_error (s_heap s4) j = Some oj).
  { intros kk Hkk. assert (Hh : has_key kk (s_models s4) = true).
    { apply Hf; [reflexivity|]. destruct Hkk as [<-|[<-|[<-|[]]]]; cbn; auto. }
    apply has_key_get in Hh as [j Hj]. destruct (proj2 HI4 _ _ (dict_get_In _ _ _ Hj)) as (oj & Hoj & _). eauto. }
  destruct (HK "ion-ion Potential") as (j1 & o1 & Hd1 & Ho1); [cbn; auto|].
  destruct (HK "electron-ion Potential") as (j2 & o2 & Hd2 & Ho2); [cbn; auto|].
  destruct (HK "electron-electron Potential") as (j3 & o3 & Hd3 & Ho3); [cbn; auto|].
  cbn [skipn c_acts k_ThreePotentialHNCIonFeat run_acts run_act] in HS. rewrite Hd1 in HS. cbn [upd_obj s_models] in HS.
  rewrite Hd2 in HS. cbn [upd_obj s_models] in HS. rewrite Hd3 in HS.
  fold (upd_obj j1 (set_elec SpinAveraged) s4) in HS.
  set (sa := upd_obj j1 (set_elec SpinAveraged) s4) in *.
  set (sb := upd_obj j2 (set_elec SpinAveraged) sa) in *.
  set (sc := upd_obj j3 (set_elec SpinAveraged) sb) in *.
  assert (E : s' = finish k i sc) by (injection HS as <-; reflexivity).
  assert (Ha : elec_at "ion-ion Potential" sa = Some SpinAveraged)
    by (eapply elec_at_set; eauto).
  assert (Hb1 : elec_at "ion-ion Potential" sb = Some SpinAveraged).
  { eapply elec_at_set with (k := "electron-ion Potential"); [exact Hd2|right; exact Ha|].
    cbn. rewrite nth_list_upd, Ho2. destruct (Nat.eqb j1 j2); cbn; eauto. }
  assert (Hb2 : elec_at "electron-ion Potential" sb = Some SpinAveraged).
  { eapply elec_at_set with (k := "electron-ion Potential"); [exact Hd2|left; reflexivity|].
    cbn. rewrite nth_list_upd, Ho2. destruct (Nat.eqb j1 j2); cbn; eauto. }
  assert (Hex : exists o', nth_error (s_heap sb) j3 = Some o').
  { cbn. rewrite !nth_list_upd, Ho3. destruct (Nat.eqb j2 j3), (Nat.eqb j1 j3); cbn; eauto. }
  assert (Hc' : forall kk, In kk K3 -> elec_at kk sc = Some SpinAveraged).
  { intros kk [<-|[<-|[<-|[]]]]; eapply elec_at_set with (k := "electron-electron Potential"); eauto. }
  rewrite E. intros kk Hkk.
  assert (Hne : kk <> k).
  { apply mem_str_In in Ek. destruct Ek as [<-|[]]. destruct Hkk as [<-|[<-|[<-|[]]]]; discriminate. }
  destruct (elec_at_Some _ _ _ (Hc' kk Hkk)) as (j & oj & Hj & Hoj & He).
  unfold elec_at. cbn [finish s_models s_heap]. rewrite dict_get_set_other by assumption.
  rewrite Hj, nth_list_upd, Hoj. destruct (Nat.eqb i j); cbn; congruence.
Qed.

(** Which shipped classes can disturb the modes once everything is in place. *)
Definition P4 : list string := "ionic scattering" :: K3.
Lemma loud_one :
  map c_name (filter (fun c => negb (quiet P4 true c)) shipped) =
  ["OnePotentialHNCIonFeat"; "AverageAtom_Sii"].
Proof. vm_compute. reflexivity. Qed.
Lemma loud_many :
  map c_name (filter (fun c => negb (quiet P4 false c)) shipped) =
  ["OnePotentialHNCIonFeat"; "BornMermin_Full"; "BornMermin"; "BornMermin_Fit";
   "BornMermin_Fortmann"; "AverageAtom_Sii"].
Proof. vm_compute. reflexivity. Qed.

Lemma quiet_shipped (b : bool) c : In c shipped ->
  ~ In (c_name c) (if b then ["OnePotentialHNCIonFeat"; "AverageAtom_Sii"]
     else ["OnePotentialHNCIonFeat"; "BornMermin_Full"; "BornMermin"; "BornMermin_Fit";
           "BornMermin_Fortmann"; "AverageAtom_Sii"]) ->
  quiet P4 b c = true.
Proof.
  intros Hin Hn. destruct (quiet P4 b c) eqn:E; [reflexivity|]. exfalso. apply Hn.
  assert (H : In (c_name c) (map c_name (filter (fun c => negb (quiet P4 b c)) shipped))).
  { apply in_map, filter_In. rewrite E. auto. }
  destruct b; [rewrite loud_one in H|rewrite loud_many in H]; exact H.
Qed.

(** ** Listings *)
Lemma dd_get k v d k' a :
  In a (match dict_get k' (dd_append k v d) with Some l => l | None => [] end) <->
  In a (match dict_get k' d with Some l => l | None => [] end) \/ (k' = k /\ a = v).
Proof.
  unfold dd_append. destruct (String.eqb_spec k' k) as [->|Hn].
  - rewrite dict_get_set_same. destruct (dict_get k d) as [l|]; [rewrite in_app_iff|]; cbn; intuition.
  - rewrite dict_get_set_other by assumption. intuition.
Qed.
Definition at_key (k : string) (d : list (string * list attr)) : list attr :=
  match dict_get k d with Some l => l | None => [] end.
Lemma add_keys_get ks v d k a :
  In a (at_key k (fold_left (fun d k => dd_append k v d) ks d)) <->
  In a (at_key k d) \/ (In k ks /\ a = v).
Proof.
  revert d. induction ks as [|k0 ks IH]; intros d; cbn [fold_left].
  - cbn. intuition.
  - rewrite IH. unfold at_key at 1. rewrite dd_get. cbn. intuition.
Qed.
Lemma add_attrs_get l d k a :
  In a (at_key k (fold_left add_attr l d)) <->
  In a (at_key k d) \/
  (In a l /\ listed a = true /\ exists ks, a_keys a = Some ks /\ In k ks).
Proof.
  revert d. induction l as [|x l IH]; intros d; cbn [fold_left].
  - cbn. intuition.
  - rewrite IH. unfold add_attr. destruct (listed x) eqn:E.
    + rewrite add_keys_get. unfold listed in E.
      destruct (a_keys x) as [ks|] eqn:Ek; [|rewrite andb_false_r in E; discriminate].
      cbn. split.
      * intros [[H|[H ->]]|H]; [tauto| |tauto].
        right. split; [tauto|]. split; [unfold listed; rewrite Ek; exact E|eauto].
      * intros [H|[[->|H] [Hl (ks' & Hk & Hin)]]]; [tauto| |right; eauto].
        left. right. split; [congruence|reflexivity].
    + cbn. split; [tauto|]. intros [H|[[->|H] [Hl Hr]]]; [tauto|congruence|tauto].
Qed.
Lemma get_all_models_spec mods pots types k a :
  In a (at_key k (get_all_models mods pots types)) <->
  ((In "models" types /\ In a mods) \/ (In "hnc_potentials" types /\ In a pots)) /\
  a_abstract a = false /\ starts_underscore (a_name a) = false /\
  exists ks, a_keys a = Some ks /\ In k ks.
Proof.
  unfold get_all_models. rewrite add_attrs_get. cbn [at_key dict_get].
  assert (HL : (exists ks, a_keys a = Some ks /\ In k ks) ->
     (listed a = true <-> a_abstract a = false /\ starts_underscore (a_name a) = false)).
  { intros (ks & E & _). unfold listed. rewrite E. destruct (a_abstract a), (starts_underscore (a_name a)); cbn; intuition. }
  assert (HC : In a (concat ((if mem_str "models" types then [mods] else []) ++
                    (if mem_str "hnc_potentials" types then [pots] else []))) <->
     ((In "models" types /\ In a mods) \/ (In "hnc_potentials" types /\ In a pots))).
  { rewrite concat_app, in_app_iff. rewrite <- !mem_str_In.
    destruct (mem_str "models" types), (mem_str "hnc_potentials" types); cbn; rewrite ?app_nil_r; intuition discriminate. }
  rewrite HC. cbn. split.
  - intros [[]|(H1 & H2 & H3)]. apply HL in H2; [|exact H3]. tauto.
  - intros (H1 & H2 & H3 & H4). right. split; [exact H1|]. split; [|exact H4]. apply HL; auto.
Qed.

Lemma values_at_key_aux (d : list (string * list attr)) a :
  NoDup (map fst d) -> (In a (concat (map snd d)) <-> exists k, In a (at_key k d)).
Proof.
  intros Hn. rewrite in_concat. split.
  - intros (l & Hl & Ha). apply in_map_iff in Hl as ([k l'] & E & Hin). cbn in E. subst l'.
    exists k. unfold at_key. now rewrite (In_dict_get _ _ _ Hn Hin).
  - intros (k & Ha). unfold at_key in Ha. destruct (dict_get k d) as [l|] eqn:E; [|easy].
    exists l. split; [|assumption]. apply in_map_iff. exists (k, l). split; [reflexivity|].
    now apply dict_get_In.
Qed.
Lemma get_all_models_NoDup mods pots types : NoDup (map fst (get_all_models mods pots types)).
Proof.
  unfold get_all_models.
  assert (H1 : forall ks v d, NoDup (map fst d) ->
            NoDup (map fst (fold_left (fun d k => dd_append k v d) ks d))).
  { induction ks as [|k ks IH]; cbn; intros v d Hd; [assumption|]. apply IH. now apply dict_set_NoDup. }
  assert (H2 : forall l d, NoDup (map fst d) -> NoDup (map fst (fold_left add_attr l d))).
  { induction l as [|x l IH]; cbn; intros d Hd; [assumption|]. apply IH. unfold add_attr.
    destruct (listed x); auto. }
  apply H2. constructor.
Qed.
Lemma get_all_models_list_spec mods pots types names_only n :
  In (EClass n) (get_all_models_list mods pots types names_only) <->
  exists a, (In a mods \/ In a pots) /\ a_name a = n /\ a_abstract a = false /\
    starts_underscore n = false /\ exists ks, a_keys a = Some ks /\ ks <> [].
Proof.
  unfold get_all_models_list. rewrite in_map_iff. split.
  - intros (a & E & H). injection E as E. apply values_at_key_aux in H; [|apply get_all_models_NoDup].
    destruct H as (k & H). apply get_all_models_spec in H. destruct H as (H1 & H2 & H3 & ks & H4 & H5).
    exists a. subst n. repeat split; try tauto. exists ks. split; [assumption|]. now intros ->.
  - intros (a & H1 & E & H2 & H3 & ks & H4 & H5). subst n. exists a. split; [reflexivity|].
    apply values_at_key_aux; [apply get_all_models_NoDup|].
    destruct ks as [|k ks]; [contradiction|]. exists k. apply get_all_models_spec.
    cbn. repeat split; try tauto. exists (k :: ks). split; [assumption|now left].
Qed.
