(** Properties C10-C12 and C73: objects at jit boundaries and their comparison. *)
From Coq Require Import String List Bool Arith Lia.
From Verif Require Import M_PytreeTable M_Pytree L_Pytree.
Import ListNotations.
Open Scope list_scope.
Open Scope nat_scope.

(** ** C10 *)
(** Every value, however nested, whose objects have the attributes their constructors
    set comes back unchanged, unless it contains an IonSphereIPD. *)
Theorem C10_round_trip_partial : forall (X : Type) (v : val X),
  built ["IonSphereIPD"%string] v -> through_jit v = Some v.
Proof. intros X v H. exact (built_through v H). Qed.
Print Assumptions C10_round_trip_partial.
(** An IonSphereIPD always loses the attribute arb_deg. *)
Theorem C10_refuted : forall (X : Type) (C k d : val X), built ["IonSphereIPD"%string] C ->
  exists o, through_jit (VObj "IonSphereIPD" (setattr "arb_deg" d (setattr "C" C (setattr "model_key" k no_attrs))))
            = Some (VObj "IonSphereIPD" o) /\ o "arb_deg"%string = None /\ o "C"%string = Some C /\ o "model_key"%string = Some k.
Proof.
  intros X C k d H. destruct (built_rt C H) as (xs & t & E & U).
  unfold through_jit. set (o := setattr "arb_deg" d (setattr "C" C (setattr "model_key" k no_attrs))).
  rewrite flatten_obj.
  assert (EC : exists p, class_of "IonSphereIPD" = Some p /\ pc_children p = ["C"%string] /\ pc_aux p = ABare "model_key" /\
      pc_un_children p = ["C"%string] /\ pc_un_aux p = ABare "model_key" /\ pc_new p = "IonSphereIPD"%string)
    by (eexists; split; [reflexivity|]; repeat split).
  destruct EC as (p & EC & E1 & E2 & E3 & E4 & E5). rewrite EC, E1, E2. cbn -[flatten]. rewrite E. cbn -[flatten unflatten].
  rewrite app_nil_r. cbn [unflatten]. fold (many (X := X) unflatten). cbn [many]. 
  specialize (U []). rewrite app_nil_r in U. rewrite U. unfold rebuild. rewrite EC, E3, E4, E5. cbn.
  eexists. split; [reflexivity|]. repeat split.
Qed.
Print Assumptions C10_refuted.
(** Instrument functions made from a partially applied function. *)
Theorem C10_callables : forall (X : Type) (f : X) (args kwargs : val X),
  built ["IonSphereIPD"%string] args -> built ["IonSphereIPD"%string] kwargs ->
  exists xs aux, call_flatten f args kwargs = Some (xs, aux) /\ call_unflatten aux xs = Some (f, args, kwargs).
Proof.
  intros X f a k Ha Hk. destruct (built_rt a Ha) as (xs & ta & E1 & U1). destruct (built_rt k Hk) as (ys & tk & E2 & U2).
  unfold call_flatten. rewrite E1, E2. do 2 eexists. split; [reflexivity|]. unfold call_unflatten.
  rewrite firstn_app, Nat.sub_diag, firstn_all, skipn_app, Nat.sub_diag, skipn_all. cbn [firstn skipn app].
  specialize (U2 []). rewrite app_nil_r in U2. now rewrite U1, U2.
Qed.
Print Assumptions C10_callables.
(** The attributes per class are those of every shipped class. *)
Theorem C10_every_class : length pytree_classes = 85 /\
  forall p, In p pytree_classes -> pc_name p <> "IonSphereIPD"%string ->
    (forall a, In a (pc_attrs p) -> In a (pc_children p) \/ In a (map snd (slots (pc_aux p)))).
Proof.
  split; [reflexivity|]. intros p HI HN a Ha.
  pose proof fits_table as HT. rewrite forallb_forall in HT. specialize (HT p HI). apply eqb_prop in HT.
  apply String.eqb_neq in HN. rewrite HN in HT. cbn [negb] in HT. unfold fits in HT. repeat (apply andb_prop in HT as [HT ?HX]).
  unfold inclb in HX0. rewrite forallb_forall in HX0. apply HX0, inb_spec, in_app_or in Ha.
  unfold listb in HT. destruct (list_eq_dec _ _ _) as [Ech|]; [|discriminate]. rewrite Ech. destruct Ha as [Ha|Ha]; [now left|right].
  rewrite forallb_forall in HX2. apply in_map_iff in Ha as (s & <- & Hs). apply in_map, pair_inb_spec, HX2, Hs.
Qed.
Print Assumptions C10_every_class.

(** A concrete plasma state, used below. *)
Inductive atom := AS (s : string) | AN (n : nat).
Definition at_key (k : string) : val atom := Leaf (AS k).
Definition num (n : nat) : val atom := Leaf (AN n).
Definition lfc (v : nat) : val atom := VObj "LFCConstant" (setattr "value" (num v) (setattr "model_key" (at_key "ee-lfc") no_attrs)).
Definition neglect (k : string) : val atom := VObj "Neglect" (setattr "model_key" (at_key k) no_attrs).
Definition fitted : val atom := VObj "SLFCUtsumi1982" (setattr "model_key" (at_key "ee-lfc") no_attrs).
Definition state (l : list (string * val atom)) : val atom :=
  VObj "PlasmaState" (setattr "ions" (VSeq false [Leaf (AS "C")]) (setattr "Z_free" (num 4) (setattr "mass_density" (num 2)
   (setattr "T_e" (num 10) (setattr "T_i" (num 10) (setattr "_overwritten" (num 0) (setattr "models" (VDict l) no_attrs))))))).
Ltac dom := intros a; unfold setattr, no_attrs; cbn [pc_attrs]; repeat (match goal with |- context [String.eqb ?x a] => destruct (String.eqb_spec x a) end; [subst; split; [intros _; cbn [In]; auto 20|discriminate]|]); split; [intros HIN; exfalso; apply HIN; reflexivity|intros HIN; exfalso; cbn [In] in HIN; tauto].
Ltac vals := intros a v; unfold setattr, no_attrs; repeat (match goal with |- context [String.eqb ?x a] => destruct (String.eqb_spec x a) end; [intros [= <-]|]); try discriminate.
Lemma in_table c : existsb (fun p => String.eqb (pc_name p) c) pytree_classes = true -> exists p, In p pytree_classes /\ pc_name p = c /\ class_of c = Some p.
Proof.
  intros H. apply existsb_exists in H as (p & HI & E). apply String.eqb_eq in E. exists p. split; [assumption|]. split; [assumption|].
  rewrite <- E. now apply class_of_name.
Qed.
Ltac bobj c := let p := fresh "p" in let HI := fresh in let HN := fresh in let HC := fresh in
  destruct (in_table c ltac:(vm_compute; reflexivity)) as (p & HI & HN & HC); vm_compute in HC; injection HC as <-;
  eapply B_obj; [exact HI|reflexivity|cbn; intuition discriminate|dom|vals; try constructor].
Lemma built_lfc n : built ["IonSphereIPD"%string] (lfc n).
Proof. unfold lfc. bobj "LFCConstant"%string. Qed.
Lemma built_neglect k : built ["IonSphereIPD"%string] (neglect k).
Proof. unfold neglect. bobj "Neglect"%string. Qed.
Lemma built_fitted : built ["IonSphereIPD"%string] fitted.
Proof. unfold fitted. bobj "SLFCUtsumi1982"%string. Qed.
Lemma built_state l : NoDup (map fst l) -> (forall k v, In (k, v) l -> built ["IonSphereIPD"%string] v) -> built ["IonSphereIPD"%string] (state l).
Proof.
  intros HN HB. unfold state. bobj "PlasmaState"%string; try assumption.
  intros v [<-|[]]. constructor.
Qed.
Definition st0 := state [("ee-lfc"%string, lfc 1); ("free-bound scattering"%string, neglect "free-bound scattering")].
Example C10_ex : through_jit st0 = Some st0.
Proof.
  apply C10_round_trip_partial, built_state.
  - repeat constructor; cbn; intuition discriminate.
  - intros k v [[= <- <-]|[[= <- <-]|[]]]; [apply built_lfc|apply built_neglect].
Qed.

(** ** C11 *)
(** Equal states have equal ions, equal plasma parameters, the same keys, and the models
    under each key have the same static data ... *)
Theorem C11_partial : forall (X : Type) (ceq : val X -> val X -> Prop) o1 o2 m1 m2,
  built [] (VObj "PlasmaState" o1) -> built [] (VObj "PlasmaState" o2) ->
  o1 "models"%string = Some (VDict m1) -> o2 "models"%string = Some (VDict m2) ->
  state_eq ceq (VObj "PlasmaState" o1) (VObj "PlasmaState" o2) ->
  o1 "ions"%string = o2 "ions"%string /\
  (forall a, In a ["Z_free"; "mass_density"; "T_e"; "T_i"; "_overwritten"]%string ->
     exists v w, o1 a = Some v /\ o2 a = Some w /\ ceq v w) /\
  (forall k, In k (map fst m1) <-> In k (map fst m2)) /\
  (forall k a b, lookup k m1 = Some a -> lookup k m2 = Some b -> aux_of a = aux_of b).
Proof.
  intros X ceq o1 o2 m1 m2 B1 B2 M1 M2 H.
  assert (EC : exists p, class_of "PlasmaState" = Some p /\ pc_children p = ["Z_free"; "mass_density"; "T_e"; "T_i"; "_overwritten"; "models"]%string)
    by (eexists; split; reflexivity).
  destruct EC as (p & EC & E1).
  unfold state_eq, eq_characteristic, children_of in H. rewrite M1, M2, EC, E1 in H.
  destruct (o1 "ions"%string) as [i1|] eqn:I1; [|contradiction].
  destruct (o2 "ions"%string) as [i2|] eqn:I2.
  2:{ destruct (option_map _ (get_all o1 _)); [|contradiction]. destruct (all_some _); contradiction. }
  cbn [map get_all] in H. rewrite M1, M2 in H.
  destruct (o1 "Z_free"%string) as [a1|] eqn:A1; [|contradiction]. destruct (o1 "mass_density"%string) as [a2|] eqn:A2; [|contradiction].
  destruct (o1 "T_e"%string) as [a3|] eqn:A3; [|contradiction]. destruct (o1 "T_i"%string) as [a4|] eqn:A4; [|contradiction].
  destruct (o1 "_overwritten"%string) as [a5|] eqn:A5; [|contradiction].
  cbn [option_map map snd] in H. destruct (all_some (map _ (ssort (map fst m1)))) as [s1|] eqn:S1; [|contradiction].
  destruct (o2 "Z_free"%string) as [b1|] eqn:D1; [|contradiction]. destruct (o2 "mass_density"%string) as [b2|] eqn:D2; [|contradiction].
  destruct (o2 "T_e"%string) as [b3|] eqn:D3; [|contradiction]. destruct (o2 "T_i"%string) as [b4|] eqn:D4; [|contradiction].
  destruct (o2 "_overwritten"%string) as [b5|] eqn:D5; [|contradiction].
  cbn [option_map map snd] in H. destruct (all_some (map _ (ssort (map fst m2)))) as [s2|] eqn:S2; [|contradiction].
  cbn [removelast] in H. destruct H as (HC & <- & <- & HK).
  repeat match goal with H : Forall2 _ (_ :: _) _ |- _ => inversion H; clear H; subst end.
  split; [reflexivity|]. split.
  { intros a [<-|[<-|[<-|[<-|[<-|[]]]]]]; do 2 eexists; (split; [eassumption|]); (split; [eassumption|]); assumption. }
  split; [exact HK|].
  assert (N1 : NoDup (map fst m1)). { inversion B1 as [| | | |? ? ? ? ? ? ? HB]; subst. specialize (HB _ _ M1). now inversion HB. }
  assert (N2 : NoDup (map fst m2)). { inversion B2 as [| | | |? ? ? ? ? ? ? HB]; subst. specialize (HB _ _ M2). now inversion HB. }
  rewrite <- (ssort_same _ _ N1 N2 HK) in S2. intros k a b La Lb.
  assert (Hk : In k (ssort (map fst m1))).
  { apply (Permutation.Permutation_in _ (Permutation.Permutation_sym (ssort_perm _))). unfold lookup in La.
    destruct (find _ m1) as [[k' v']|] eqn:F; [|discriminate]. apply find_some in F as [F1 F2]. cbn in F2. apply String.eqb_eq in F2. subst. now apply (in_map fst) in F1. }
  clear - La Lb Hk S1 S2. revert s1 S1 S2. induction (ssort (map fst m1)) as [|k' l IH]; intros s1 S1 S2; [destruct Hk|].
  cbn in S1, S2. destruct Hk as [->|Hk].
  - rewrite La in S1. rewrite Lb in S2. destruct (aux_of a); [|discriminate]. destruct (aux_of b); [|discriminate].
    destruct (all_some _); [|discriminate]. destruct (all_some (map _ l)); [|discriminate]. cbn in S1, S2. congruence.
  - destruct (match lookup k' m1 with Some m => aux_of m | None => None end); [|discriminate].
    destruct (match lookup k' m2 with Some m => aux_of m | None => None end); [|discriminate].
    destruct (all_some (map (fun k => match lookup k m1 with _ => _ end) l)) as [r1|]; [|discriminate].
    destruct (all_some (map (fun k => match lookup k m2 with _ => _ end) l)) as [r2|]; [|discriminate].
    cbn in S1, S2. apply (IH Hk r1); [reflexivity|congruence].
Qed.
Print Assumptions C11_partial.
(** ... but neither the parameters nor the class of an attached model are compared. *)
Theorem C11_refuted : exists a b c : list (string * val atom),
  state_eq eq (state a) (state b) /\ lookup "ee-lfc" a = Some (lfc 0) /\ lookup "ee-lfc" b = Some (lfc 1) /\
  state_eq eq (state a) (state c) /\ lookup "ee-lfc" c = Some fitted.
Proof.
  exists [("ee-lfc"%string, lfc 0)], [("ee-lfc"%string, lfc 1)], [("ee-lfc"%string, fitted)].
  assert (S : forall m, aux_of m = Some [("0"%string, at_key "ee-lfc")] ->
    eq_characteristic (state [("ee-lfc"%string, m)]) = Some ([num 4; num 2; num 10; num 10; num 0], [[("0"%string, at_key "ee-lfc")]], VSeq false [Leaf (AS "C")], ["ee-lfc"%string])).
  { intros m Hm. unfold eq_characteristic, state. cbn [setattr String.eqb Ascii.eqb Bool.eqb]. 
    change (children_of (VObj "PlasmaState" _)) with (Some [num 4; num 2; num 10; num 10; num 0; VDict [("ee-lfc"%string, m)]]).
    cbn -[aux_of]. now rewrite Hm. }
  assert (Q : forall m n, aux_of m = Some [("0"%string, at_key "ee-lfc")] -> aux_of n = Some [("0"%string, at_key "ee-lfc")] ->
     state_eq eq (state [("ee-lfc"%string, m)]) (state [("ee-lfc"%string, n)])).
  { intros m n Hm Hn. unfold state_eq. rewrite (S m Hm), (S n Hn). split; [repeat constructor|]. split; [reflexivity|]. split; [reflexivity|reflexivity]. }
  split; [apply Q; vm_compute; reflexivity|]. split; [reflexivity|]. split; [reflexivity|]. split; [apply Q; vm_compute; reflexivity|reflexivity].
Qed.
Print Assumptions C11_refuted.

(** ** C12 *)
(** Within one class == is sound, except for IonSphereIPD ... *)
Theorem C12_same_class_partial : forall (X : Type) c (o1 o2 : string -> option (val X)),
  c <> "IonSphereIPD"%string -> built ["IonSphereIPD"%string] (VObj c o1) -> built ["IonSphereIPD"%string] (VObj c o2) ->
  model_eq eq (VObj c o1) (VObj c o2) -> forall a, o1 a = o2 a.
Proof.
  intros X c o1 o2 HC B1 B2 H a. inversion B1 as [| | | |? p ? HI HP _ D1 _]; subst. inversion B2 as [| | | |? p' ? HI' HP' _ D2 _]; subst.
  unfold model_eq, children_of, aux_of in H. rewrite (class_of_name p HI) in H.
  assert (p' = p). { pose proof (class_of_name p' HI') as E. rewrite HP', (class_of_name p HI) in E. now injection E. } subst p'.
  destruct (get_all o1 (map _ _)) as [c1|] eqn:G1; [|contradiction]. destruct (get_all o2 (map _ _)) as [c2|] eqn:G2; [|contradiction].
  cbn [option_map] in H. destruct (get_all o1 (slots _)) as [x1|] eqn:A1; [|contradiction]. destruct (get_all o2 (slots _)) as [x2|] eqn:A2; [|contradiction].
  destruct H as [HF <-].
  assert (HE : c1 = c2).
  { revert c1 c2 G1 G2 HF. clear. induction (pc_children p) as [|b l IH]; intros c1 c2 G1 G2 HF; cbn in G1, G2; [congruence|].
    destruct (o1 b) as [v|]; [|discriminate]. destruct (get_all o1 (map _ l)) as [r1|] eqn:E1; [|discriminate].
    destruct (o2 b) as [w|]; [|discriminate]. destruct (get_all o2 (map _ l)) as [r2|] eqn:E2; [|discriminate].
    injection G1 as <-. injection G2 as <-. cbn in HF. inversion HF; subst. f_equal. now apply IH. }
  subst c2. destruct (o1 a) as [v|] eqn:Ea.
  - assert (Ha : In a (pc_attrs p)) by (apply D1; congruence).
    destruct (proj2 C10_every_class p HI HC a Ha) as [h|h].
    + rewrite <- Ea. apply (get_all_in o1 o2 (map (fun a => (a, a)) (pc_children p)) c1); [exact G1|exact G2|]. rewrite map_map. cbn. now rewrite map_id.
    + rewrite <- Ea. now apply (get_all_in o1 o2 (slots (pc_aux p)) x1).
  - destruct (o2 a) as [w|] eqn:Eb; [|reflexivity]. exfalso. assert (Ha : In a (pc_attrs p)) by (apply D2; congruence). apply D1 in Ha. congruence.
Qed.
Print Assumptions C12_same_class_partial.
(** ... but models of different classes are equal when their data are. *)
Theorem C12_refuted :
  (exists a b : val atom, a = VObj "ArkhipovIonFeat" (setattr "model_key" (at_key "ionic scattering") no_attrs) /\
     b = VObj "Gregori2003IonFeat" (setattr "model_key" (at_key "ionic scattering") no_attrs) /\ model_eq eq a b) /\
  (exists o1 o2 : string -> option (val atom), model_eq eq (VObj "IonSphereIPD" o1) (VObj "IonSphereIPD" o2) /\ o1 "arb_deg"%string <> o2 "arb_deg"%string).
Proof.
  split.
  - do 2 eexists. split; [reflexivity|]. split; [reflexivity|]. cbn. split; [constructor|reflexivity].
  - exists (setattr "arb_deg" (num 0) (setattr "C" (num 1) (setattr "model_key" (at_key "ipd") no_attrs))),
           (setattr "arb_deg" (num 1) (setattr "C" (num 1) (setattr "model_key" (at_key "ipd") no_attrs))).
    split; [|discriminate]. cbn. split; [repeat constructor|reflexivity].
Qed.
Print Assumptions C12_refuted.
Example C12_ex : model_eq eq (lfc 1) (lfc 1) /\ ~ model_eq eq (lfc 1) (lfc 2).
Proof. split; cbn; [split; [repeat constructor|reflexivity]|]. intros [H _]. inversion H. discriminate. Qed.

(** ** C73: compiled code is only reused for states it fits

    jit reuses compiled code when the tree definitions compare equal, feeding it the new
    leaves.  With every model carrying the key it sits under (C01), what the compiled
    code sees is the new value. *)
Theorem C73_reuse_is_sound_partial : forall (X : Type) (str : string -> X), (forall a b, str a = str b -> a = b) ->
  forall v1 v2 x1 t1 x2 t2, built ["IonSphereIPD"%string] v1 -> built ["IonSphereIPD"%string] v2 -> keyed str v1 -> keyed str v2 ->
  flatten v1 = Some (x1, t1) -> flatten v2 = Some (x2, t2) -> treq t1 t2 -> unflatten t1 x2 = Some (v2, []).
Proof.
  intros X str Hinj v1 v2 x1 t1 x2 t2 B1 B2 K1 K2 F1 F2 Q.
  rewrite (treq_eq str Hinj v1 _ B1 K1 v2 x1 t1 x2 t2 B2 K2 F1 F2 Q).
  destruct (built_rt v2 B2) as (xs & t & E & U). rewrite F2 in E. injection E as -> ->. specialize (U []). now rewrite app_nil_r in U.
Qed.
Print Assumptions C73_reuse_is_sound_partial.
(** After one instance sat under two keys and one of them was reassigned, two models carry
    the same model_key; states built in different orders then share compiled code that
    swaps their parameters. *)
Definition yukawa (sigma : nat) : val atom :=
  VObj "YukawaShortRangeRepulsion" (setattr "_transform_r" (num 0) (setattr "sigma" (num sigma)
    (setattr "include_electrons" (at_key "off") (setattr "model_key" (at_key "electron-ion Potential") no_attrs)))).
Lemma built_yukawa n : built ["IonSphereIPD"%string] (yukawa n).
Proof. unfold yukawa. bobj "YukawaShortRangeRepulsion"%string. Qed.
Theorem C73_refuted : exists v1 v2 v3 x1 t1 x2 t2, built ["IonSphereIPD"%string] v1 /\ built ["IonSphereIPD"%string] v2 /\
  flatten v1 = Some (x1, t1) /\ flatten v2 = Some (x2, t2) /\ treq t1 t2 /\
  v2 = VDict [("electron-ion Potential"%string, yukawa 2); ("ion-ion Potential"%string, yukawa 1)] /\
  unflatten t1 x2 = Some (VDict v3, []) /\ lookup "ion-ion Potential" v3 = Some (yukawa 2).
Proof.
  exists (VDict [("ion-ion Potential"%string, yukawa 1); ("electron-ion Potential"%string, yukawa 2)]),
         (VDict [("electron-ion Potential"%string, yukawa 2); ("ion-ion Potential"%string, yukawa 1)]).
  destruct (built_rt (yukawa 1) (built_yukawa 1)) as (x1 & t1 & E1 & U1).
  destruct (built_rt (yukawa 2) (built_yukawa 2)) as (x2 & t2 & E2 & U2).
  assert (ET : t2 = t1). { vm_compute in E1, E2. congruence. } subst t2.
  exists [("ion-ion Potential"%string, yukawa 2); ("electron-ion Potential"%string, yukawa 1)]. do 4 eexists.
  assert (B : forall k l : string, k <> l -> forall m n, built ["IonSphereIPD"%string] (VDict [(k, yukawa m); (l, yukawa n)])).
  { intros k l Hkl m n. constructor.
    - cbn. constructor; [cbn; intuition congruence|]. constructor; [easy|constructor].
    - intros k' v [[= _ <-]|[[= _ <-]|[]]]; apply built_yukawa. }
  split; [apply B; discriminate|]. split; [apply B; discriminate|].
  split; [rewrite flatten_dict; cbn [flat_dict]; rewrite E1, E2; reflexivity|].
  split; [rewrite flatten_dict; cbn [flat_dict]; rewrite E1, E2; reflexivity|].
  assert (R : treq t1 t1). { vm_compute in E1. injection E1 as _ <-. repeat constructor. }
  split. { cbn [map fst]. constructor; [intros k; cbn; tauto|]. repeat constructor; assumption. }
  split; [reflexivity|]. split; [|reflexivity].
  cbn [unflatten map fst]. fold (many (X := atom) unflatten). cbn [many]. rewrite app_nil_r, U2.
  rewrite <- (app_nil_r x1), U1. reflexivity.
Qed.
Print Assumptions C73_refuted.
Ltac vals' := let a := fresh "a" in let v := fresh "v" in intros a v; unfold setattr, no_attrs; repeat (match goal with |- context [String.eqb ?x a] => destruct (String.eqb_spec x a); [intros [= <-]|] end); try discriminate; try solve [constructor].
Example C73_ex : keyed AS st0.
Proof.
  unfold st0, state. constructor. vals'.
  - constructor. intros v [<-|[]]. constructor.
  - constructor.
    + intros k v [[= <- <-]|[[= <- <-]|[]]]; constructor; vals'.
    + intros k v [[= <- <-]|[[= <- <-]|[]]]; do 2 eexists; (split; [reflexivity|reflexivity]).
Qed.
