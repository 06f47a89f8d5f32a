(** Lemmas for C10-C12 and C73. *)
From Coq Require Import String List Bool Arith Lia FunctionalExtensionality Permutation.
From Verif Require Import M_PytreeTable M_Pytree.
Import ListNotations.
Open Scope list_scope.
Open Scope nat_scope.
Local Opaque pytree_classes.

Section L.
  Context {X : Type}.
  Notation val := (val X). Notation tdef := (tdef X).

  (** A value all of whose objects carry exactly the attributes their constructor
      sets, none of them of a class in [bad]. *)
  Inductive built (bad : list string) : val -> Prop :=
  | B_leaf x : built bad (Leaf x)
  | B_none : built bad VNone
  | B_seq b l : (forall v, In v l -> built bad v) -> built bad (VSeq b l)
  | B_dict kvs : NoDup (map fst kvs) -> (forall k v, In (k, v) kvs -> built bad v) -> built bad (VDict kvs)
  | B_obj c p attrs : In p pytree_classes -> pc_name p = c -> ~ In c bad ->
      (forall a, attrs a <> None <-> In a (pc_attrs p)) ->
      (forall a v, attrs a = Some v -> built bad v) -> built bad (VObj c attrs).

  Definition flat_list (f : val -> option (list X * tdef)) := fix go (l : list val) : option (list X * list tdef) := match l with
    | [] => Some ([], [])
    | v :: r => match f v, go r with Some (xs, t), Some (ys, ts) => Some (xs ++ ys, t :: ts) | _, _ => None end
    end.
  Definition flat_dict (f : val -> option (list X * tdef)) := fix go (l : list (string * val)) : option (list X * list tdef) := match l with
    | [] => Some ([], [])
    | (_, v) :: r => match f v, go r with Some (xs, t), Some (ys, ts) => Some (xs ++ ys, t :: ts) | _, _ => None end
    end.
  Definition flat_attrs (f : val -> option (list X * tdef)) (o : string -> option val) := fix go (l : list string) : option (list X * list tdef) := match l with
    | [] => Some ([], [])
    | a :: r => match o a with
       | None => None
       | Some v => match f v, go r with Some (xs, t), Some (ys, ts) => Some (xs ++ ys, t :: ts) | _, _ => None end
       end
    end.
  Definition many (f : tdef -> list X -> option (val * list X)) := fix go (l : list tdef) (xs : list X) : option (list val * list X) := match l with
      | [] => Some ([], xs)
      | t :: r => match f t xs with
          | None => None
          | Some (v, ys) => match go r ys with Some (vs, zs) => Some (v :: vs, zs) | None => None end
          end
      end.
  Lemma flatten_seq b l : flatten (VSeq b l) = match flat_list flatten l with Some (xs, ts) => Some (xs, TSeq b ts) | None => None end.
  Proof. reflexivity. Qed.
  Lemma flatten_dict kvs : flatten (VDict kvs) = match flat_dict flatten kvs with Some (xs, ts) => Some (xs, TDict (map fst kvs) ts) | None => None end.
  Proof. reflexivity. Qed.
  Lemma flatten_obj c o : flatten (VObj c o) = match class_of c with None => None | Some p =>
    match flat_attrs flatten o (pc_children p), get_all o (slots (pc_aux p)) with
    | Some (xs, ts), Some aux => Some (xs, TObj c aux ts) | _, _ => None end end.
  Proof. reflexivity. Qed.
  Lemma flat_dict_list f kvs : flat_dict f kvs = flat_list f (map snd kvs).
  Proof. induction kvs as [|[k v] r IH]; cbn; [reflexivity|]. now rewrite <- IH. Qed.
  Lemma flat_attrs_list f o l vs : Forall2 (fun a v => o a = Some v) l vs -> flat_attrs f o l = flat_list f vs.
  Proof. induction 1 as [|a v l vs H _ IH]; cbn; [reflexivity|]. rewrite H. now rewrite <- IH. Qed.

  Definition rt (v : val) : Prop := exists xs t, flatten v = Some (xs, t) /\ forall r, unflatten t (xs ++ r) = Some (v, r).
  Lemma rt_list l : (forall v, In v l -> rt v) ->
    exists xs ts, flat_list flatten l = Some (xs, ts) /\ forall r, many unflatten ts (xs ++ r) = Some (l, r).
  Proof.
    induction l as [|v l IH]; intros H.
    - exists [], []. now split.
    - destruct (H v (or_introl eq_refl)) as (xs & t & E & U). destruct IH as (ys & ts & E2 & U2); [intros w Hw; apply H; now right|].
      exists (xs ++ ys), (t :: ts). cbn. rewrite E, E2. split; [reflexivity|]. intros r. rewrite <- app_assoc, U, U2. reflexivity.
  Qed.

  (** Rebuilding from the attributes read off an object. *)
  Definition inb (a : string) (l : list string) : bool := existsb (String.eqb a) l.
  Lemma inb_spec a l : inb a l = true <-> In a l.
  Proof. unfold inb. rewrite existsb_exists. split; [intros (b & H & E); apply String.eqb_eq in E; now subst|intros H; exists a; now rewrite String.eqb_refl]. Qed.
  Lemma get_all_lookup (o : string -> option val) l r k a : NoDup (map fst l) -> get_all o l = Some r -> In (k, a) l ->
    exists v, o a = Some v /\ lookup k r = Some v.
  Proof.
    revert r. induction l as [|[k' a'] l IH]; intros r HN HG HI; [destruct HI|]. cbn in HG.
    destruct (o a') as [v|] eqn:E; [|discriminate]. destruct (get_all o l) as [r'|] eqn:E2; [|discriminate]. injection HG as <-.
    cbn in HN. inversion HN as [|x y HNI HND]; subst. destruct HI as [[= -> ->]|HI].
    - exists v. split; [assumption|]. unfold lookup. cbn. now rewrite String.eqb_refl.
    - destruct (IH r' HND eq_refl HI) as (w & Hw & HL). exists w. split; [assumption|]. unfold lookup in *. cbn.
      destruct (String.eqb_spec k' k) as [->|_]; [|exact HL]. elim HNI. now apply (in_map fst) in HI.
  Qed.
  Lemma get_all_length (o : string -> option val) l r : get_all o l = Some r -> length r = length l.
  Proof.
    revert r. induction l as [|[k a] l IH]; intros r H; cbn in H; [injection H as <-; reflexivity|].
    destruct (o a); [|discriminate]. destruct (get_all o l); [|discriminate]. injection H as <-. cbn. f_equal. now apply IH.
  Qed.
  Lemma get_all_some (o : string -> option val) l : (forall k a, In (k, a) l -> o a <> None) -> exists r, get_all o l = Some r.
  Proof.
    induction l as [|[k a] l IH]; intros H; cbn; [now eexists|].
    destruct (o a) eqn:E; [|elim (H k a (or_introl eq_refl) E)]. destruct IH as [r ->]; [intros k' a' h; apply (H k'); now right|]. now eexists.
  Qed.
  Lemma assign_spec (o : string -> option val) l aux o0 :
    (forall k a, In (k, a) l -> exists v, o a = Some v /\ lookup k aux = Some v) ->
    exists o1, assign l aux o0 = Some o1 /\ forall b, o1 b = if inb b (map snd l) then o b else o0 b.
  Proof.
    revert o0. induction l as [|[k a] l IH]; intros o0 H; cbn [assign].
    - exists o0. split; [reflexivity|]. reflexivity.
    - destruct (H k a (or_introl eq_refl)) as (v & Hv & HL). rewrite HL.
      destruct (IH (setattr a v o0)) as (o1 & E & S); [intros k' a' h; apply H; now right|].
      exists o1. split; [exact E|]. intros b. rewrite S. cbn [map snd inb existsb]. unfold setattr. fold (inb b (map snd l)).
      rewrite (String.eqb_sym b a). destruct (String.eqb_spec a b) as [->|n]; cbn [orb]; destruct (inb b (map snd l)); congruence.
  Qed.
  Lemma unpack_spec (o : string -> option val) l vs o0 :
    Forall2 (fun a v => o a = Some v) l vs ->
    exists o1, unpack l vs o0 = Some o1 /\ forall b, o1 b = if inb b l then o b else o0 b.
  Proof.
    intros H. revert o0. induction H as [|a v l vs Hv HF IH]; intros o0; cbn [unpack].
    - exists o0. now split.
    - destruct (IH (setattr a v o0)) as (o1 & E & S). exists o1. split; [exact E|]. intros b. rewrite S.
      cbn [inb existsb]. unfold setattr. fold (inb b l). rewrite (String.eqb_sym b a).
      destruct (String.eqb_spec a b) as [->|n]; cbn [orb]; destruct (inb b l); congruence.
  Qed.
  Lemma attrs_list (o : string -> option val) l : (forall a, In a l -> o a <> None) -> exists vs, Forall2 (fun a v => o a = Some v) l vs.
  Proof.
    induction l as [|a l IH]; intros H; [exists []; constructor|]. destruct (o a) as [v|] eqn:E; [|elim (H a (or_introl eq_refl) E)].
    destruct IH as [vs HF]; [intros b h; apply H; now right|]. exists (v :: vs). now constructor.
  Qed.
End L.

(** The classes whose methods fit together, by computation over the table. *)
Definition listb (l m : list string) : bool := if list_eq_dec string_dec l m then true else false.
Definition inclb (l m : list string) : bool := forallb (fun a => inb a m) l.
Definition ndb (l : list string) : bool := listb l (nodup string_dec l).
Lemma ndb_spec l : ndb l = true -> NoDup l.
Proof. unfold ndb, listb. destruct (list_eq_dec _ _ _) as [->|]; [intros _; apply NoDup_nodup|discriminate]. Qed.
Definition pair_inb (p : string * string) (l : list (string * string)) : bool :=
  existsb (fun q => String.eqb (fst p) (fst q) && String.eqb (snd p) (snd q)) l.
Definition fits (p : pcls) : bool :=
  listb (pc_children p) (pc_un_children p) && String.eqb (pc_new p) (pc_name p) &&
  ndb (map fst (slots (pc_aux p))) && forallb (fun s => pair_inb s (slots (pc_aux p))) (slots (pc_un_aux p)) &&
  match pc_un_aux p with ATuple l => Nat.eqb (length l) (length (slots (pc_aux p))) | _ => true end &&
  inclb (pc_attrs p) (pc_un_children p ++ map snd (slots (pc_un_aux p))) &&
  inclb (pc_children p ++ map snd (slots (pc_aux p)) ++ map snd (slots (pc_un_aux p))) (pc_attrs p).
Lemma fits_table : forallb (fun p => Bool.eqb (fits p) (negb (String.eqb (pc_name p) "IonSphereIPD"))) pytree_classes = true.
Proof. vm_compute. reflexivity. Qed.
Lemma names_table : map pc_name pytree_classes = nodup string_dec (map pc_name pytree_classes).
Proof. vm_compute. reflexivity. Qed.
Lemma key_table : forallb (fun p => inb (pc_name p) ["PlasmaState"; "Setup"; "FreeBoundFlippedSetup"; "ITCF"; "Gaussian"; "TwinGaussian"; "SuperGaussian"; "Lorentzian"; "FromArray"]
   || existsb (String.eqb "model_key") (map snd (slots (pc_aux p)))) pytree_classes = true.
Proof. vm_compute. reflexivity. Qed.

Lemma class_of_in c p : class_of c = Some p -> In p pytree_classes /\ pc_name p = c.
Proof. unfold class_of. intros H. apply find_some in H as [H1 H2]. apply String.eqb_eq in H2. now split. Qed.
Lemma class_of_name p : In p pytree_classes -> class_of (pc_name p) = Some p.
Proof.
  intros H. unfold class_of.
  assert (HN : NoDup (map pc_name pytree_classes)) by (rewrite names_table; apply NoDup_nodup).
  revert HN H. induction pytree_classes as [|q l IH]; intros HN H; [destruct H|]. cbn in *. inversion HN as [|x y N1 N2]; subst.
  destruct H as [->|H]; [now rewrite String.eqb_refl|]. destruct (String.eqb_spec (pc_name q) (pc_name p)) as [e|_]; [|now apply IH].
  elim N1. rewrite e. now apply in_map.
Qed.
Lemma pair_inb_spec p l : pair_inb p l = true -> In p l.
Proof.
  unfold pair_inb. rewrite existsb_exists. intros ([a b] & H & E). destruct p. cbn in E. apply andb_prop in E as [E1 E2].
  apply String.eqb_eq in E1, E2. now subst.
Qed.

Section R.
  Context {X : Type}.
  Notation val := (val X).
  Lemma rebuild_fits p (o : string -> option val) : In p pytree_classes -> fits p = true ->
    (forall a, o a <> None <-> In a (pc_attrs p)) ->
    exists vs aux, Forall2 (fun a v => o a = Some v) (pc_children p) vs /\ get_all o (slots (pc_aux p)) = Some aux /\
      rebuild (pc_name p) aux vs = Some (VObj (pc_name p) o).
  Proof.
    intros HI HF HD. unfold fits in HF. repeat (apply andb_prop in HF as [HF ?HX]). rename HX into Hincl2, HX0 into Hincl1, HX1 into Htup, HX2 into Hslots, HX3 into Hnd, HX4 into Hnew.
    unfold inclb in Hincl1, Hincl2. rewrite forallb_forall in Hincl1, Hincl2.
    unfold listb in HF. destruct (list_eq_dec _ _ _) as [Ech|]; [|discriminate].
    pose proof (ndb_spec _ Hnd) as HN.
    apply String.eqb_eq in Hnew. rewrite forallb_forall in Hslots.
    destruct (attrs_list o (pc_children p)) as [vs Hvs].
    { intros a Ha. apply HD. apply inb_spec, Hincl2, in_or_app. now left. }
    destruct (get_all_some o (slots (pc_aux p))) as [aux Haux].
    { intros k a Ha. apply HD. apply inb_spec, Hincl2, in_or_app. right. apply in_or_app. left. now apply (in_map snd) in Ha. }
    exists vs, aux. split; [exact Hvs|]. split; [exact Haux|].
    unfold rebuild. rewrite (class_of_name p HI).
    replace (match pc_un_aux p with ATuple l => negb (Nat.eqb (length l) (length aux)) | _ => false end) with false.
    2:{ rewrite (get_all_length o _ _ Haux). destruct (pc_un_aux p); try reflexivity. now rewrite Htup. }
    destruct (assign_spec o (slots (pc_un_aux p)) aux no_attrs) as (o1 & E1 & S1).
    { intros k a Hka. apply (get_all_lookup o (slots (pc_aux p))); [exact HN|exact Haux|]. now apply pair_inb_spec, Hslots. }
    rewrite E1. rewrite <- Ech.
    destruct (unpack_spec o (pc_children p) vs o1 Hvs) as (o2 & E2 & S2). rewrite E2, Hnew. f_equal. f_equal.
    apply functional_extensionality. intros b. rewrite S2, S1. unfold no_attrs.
    destruct (inb b (pc_children p)) eqn:Eb; [reflexivity|]. destruct (inb b (map snd (slots (pc_un_aux p)))) eqn:Eb2; [reflexivity|].
    destruct (o b) eqn:Eo; [|reflexivity]. exfalso.
    assert (Hb : In b (pc_attrs p)) by (apply HD; congruence). apply Hincl1, inb_spec, in_app_or in Hb. rewrite <- Ech in Hb.
    destruct Hb as [Hb|Hb]; apply inb_spec in Hb; congruence.
  Qed.

  Lemma built_rt (v : val) : built ["IonSphereIPD"%string] v -> rt v.
  Proof.
    induction 1 as [x| |b l _ IH|kvs HN _ IH|c p attrs HI HP HB HD _ IH].
    - exists [x], TLeaf. now split.
    - exists [], TNone. now split.
    - destruct (rt_list l IH) as (xs & ts & E & U). exists xs, (TSeq b ts). rewrite flatten_seq, E. split; [reflexivity|].
      intros r. cbn [unflatten]. fold (many (X := X) unflatten). now rewrite U.
    - destruct (rt_list (map snd kvs)) as (xs & ts & E & U).
      { intros v Hv. apply in_map_iff in Hv as ([k w] & <- & Hk). now apply (IH k). }
      exists xs, (TDict (map fst kvs) ts). rewrite flatten_dict, flat_dict_list, E. split; [reflexivity|].
      intros r. cbn [unflatten]. fold (many (X := X) unflatten). rewrite U. f_equal. f_equal. f_equal.
      clear. induction kvs as [|[k v] l IH]; cbn; congruence.
    - assert (HF : fits p = true).
      { pose proof fits_table as HT. rewrite forallb_forall in HT. specialize (HT p HI). apply eqb_prop in HT. rewrite HT.
        apply negb_true_iff. apply String.eqb_neq. intros E. apply HB. left. now rewrite <- HP. }
      destruct (rebuild_fits p attrs HI HF HD) as (vs & aux & Hvs & Haux & HR).
      destruct (rt_list vs) as (xs & ts & E & U).
      { intros v Hv. clear - Hv Hvs IH. induction Hvs as [|a w l ws Ha _ IHf]; [destruct Hv|]. destruct Hv as [->|Hv]; [now apply (IH a)|now apply IHf]. }
      exists xs, (TObj c aux ts). rewrite flatten_obj. subst c. rewrite (class_of_name p HI), (flat_attrs_list _ _ _ _ Hvs), E, Haux.
      split; [reflexivity|]. intros r. cbn [unflatten]. fold (many (X := X) unflatten). now rewrite U, HR.
  Qed.
  Lemma built_through (v : val) : built ["IonSphereIPD"%string] v -> through_jit v = Some v.
  Proof.
    intros H. destruct (built_rt v H) as (xs & t & E & U). unfold through_jit. rewrite E. specialize (U []). rewrite app_nil_r in U. now rewrite U.
  Qed.
End R.

(** ** Equal tree definitions *)
Lemma key_in_aux : forallb (fun p => implb (inb "model_key" (pc_attrs p)) (inb "model_key" (map snd (slots (pc_aux p))))) pytree_classes = true.
Proof. vm_compute. reflexivity. Qed.

Section Q.
  Context {X : Type} (str : string -> X).
  Hypothesis str_inj : forall a b, str a = str b -> a = b.
  Notation val := (val X). Notation tdef := (tdef X).
  (** Each model in a dictionary carries its key as model_key. *)
  Inductive keyed : val -> Prop :=
  | K_leaf x : keyed (Leaf x)
  | K_none : keyed VNone
  | K_seq b l : (forall v, In v l -> keyed v) -> keyed (VSeq b l)
  | K_dict kvs : (forall k v, In (k, v) kvs -> keyed v) ->
      (forall k v, In (k, v) kvs -> exists c o, v = VObj c o /\ o "model_key"%string = Some (Leaf (str k))) -> keyed (VDict kvs)
  | K_obj c o : (forall a v, o a = Some v -> keyed v) -> keyed (VObj c o).

  Lemma get_all_in (o o' : string -> option val) l r a : get_all o l = Some r -> get_all o' l = Some r -> In a (map snd l) -> o a = o' a.
  Proof.
    revert r. induction l as [|[k b] l IH]; intros r H1 H2 HI; [destruct HI|]. cbn in H1, H2.
    destruct (o b) eqn:E1; [|discriminate]. destruct (get_all o l) eqn:G1; [|discriminate].
    destruct (o' b) eqn:E2; [|discriminate]. destruct (get_all o' l) eqn:G2; [|discriminate].
    injection H1 as <-. injection H2 as -> ->. destruct HI as [<-|HI]; [cbn; congruence|]. now apply (IH l0).
  Qed.
  Lemma flat_list_inv (l : list val) xs ts : flat_list flatten l = Some (xs, ts) ->
    Forall2 (fun v t => exists ys, flatten v = Some (ys, t)) l ts.
  Proof.
    revert xs ts. induction l as [|v l IH]; intros xs ts H; cbn in H; [injection H as _ <-; constructor|].
    destruct (flatten v) as [[a t]|] eqn:E; [|discriminate]. destruct (flat_list flatten l) as [[b r]|]; [|discriminate].
    injection H as _ <-. constructor; [now exists a|]. now apply (IH b).
  Qed.
  Lemma flat_attrs_inv (o : string -> option val) l xs ts : flat_attrs flatten o l = Some (xs, ts) ->
    exists vs, Forall2 (fun a v => o a = Some v) l vs /\ flat_list flatten vs = Some (xs, ts).
  Proof.
    revert xs ts. induction l as [|a l IH]; intros xs ts H; cbn in H.
    - exists []. split; [constructor|exact H].
    - destruct (o a) as [v|] eqn:Ea; [|discriminate]. destruct (flatten v) as [[ys t]|] eqn:E; [|discriminate].
      destruct (flat_attrs flatten o l) as [[b r]|] eqn:E2; [|discriminate]. injection H as <- <-.
      destruct (IH b r eq_refl) as (vs & HF & HL). exists (v :: vs). split; [now constructor|]. cbn. now rewrite E, HL.
  Qed.
  Lemma list_treq (l1 l2 : list val) ts1 ts2 :
    (forall v, In v l1 -> forall w, In w l2 -> forall x t y u, flatten v = Some (x, t) -> flatten w = Some (y, u) -> treq t u -> t = u) ->
    Forall2 (fun v t => exists ys, flatten v = Some (ys, t)) l1 ts1 ->
    Forall2 (fun v t => exists ys, flatten v = Some (ys, t)) l2 ts2 ->
    Forall2 treq ts1 ts2 -> ts1 = ts2.
  Proof.
    intros H F1. revert l2 ts2 H. induction F1 as [|v t l1 ts1 [ys E] F1 IH]; intros l2 ts2 H F2 FQ; inversion FQ; subst; [reflexivity|].
    inversion F2 as [|w u l2' ts2' [zs E2] F2']; subst. f_equal.
    - eapply (H v); [now left| |exact E|exact E2|assumption]. now left.
    - apply (IH l2'); [|assumption|assumption]. intros v' Hv w' Hw. apply H; now right.
  Qed.

  Lemma treq_eq (v1 : val) : forall bad, built bad v1 -> keyed v1 -> forall v2 x1 t1 x2 t2, built bad v2 -> keyed v2 ->
    flatten v1 = Some (x1, t1) -> flatten v2 = Some (x2, t2) -> treq t1 t2 -> t1 = t2.
  Proof.
    intros bad HB1. induction HB1 as [x| |b l _ IH|kvs HN HB IH|c p o HI HP HBad HD HB IH];
      intros HK1 v2 x1 t1 x2 t2 HB2 HK2 F1 F2 HQ.
    - cbn in F1. injection F1 as <- <-. now inversion HQ.
    - cbn in F1. injection F1 as <- <-. now inversion HQ.
    - rewrite flatten_seq in F1. destruct (flat_list flatten l) as [[xs ts]|] eqn:E1; [|discriminate]. injection F1 as <- <-.
      inversion HQ as [| |b' l' m HF| |]; subst.
      destruct v2 as [y| |b2 l2|kvs2|c2 o2]; [discriminate|discriminate| | |].
      2:{ rewrite flatten_dict in F2. destruct (flat_dict flatten kvs2) as [[? ?]|]; discriminate. }
      2:{ rewrite flatten_obj in F2. destruct (class_of c2); [|discriminate]. destruct (flat_attrs _ _ _) as [[? ?]|]; [|discriminate]. destruct (get_all _ _); discriminate. }
      rewrite flatten_seq in F2. destruct (flat_list flatten l2) as [[ys us]|] eqn:E2; [|discriminate]. injection F2 as <- <- <-.
      f_equal. apply (list_treq l l2); [|now apply (flat_list_inv _ xs)|now apply (flat_list_inv _ ys)|assumption].
      inversion HK1; subst. inversion HK2; subst. inversion HB2; subst.
      intros v Hv w Hw x t y u Fx Fy Q. apply (IH v Hv ltac:(auto) w x t y u); auto.
    - rewrite flatten_dict, flat_dict_list in F1. destruct (flat_list flatten (map snd kvs)) as [[xs ts]|] eqn:E1; [|discriminate]. injection F1 as <- <-.
      inversion HQ as [| | |k1 k2 l' m HKS HF|]; subst.
      destruct v2 as [y| |b2 l2|kvs2|c2 o2]; [discriminate|discriminate| | |].
      1:{ rewrite flatten_seq in F2. destruct (flat_list flatten l2) as [[? ?]|]; discriminate. }
      2:{ rewrite flatten_obj in F2. destruct (class_of c2); [|discriminate]. destruct (flat_attrs _ _ _) as [[? ?]|]; [|discriminate]. destruct (get_all _ _); discriminate. }
      rewrite flatten_dict, flat_dict_list in F2. destruct (flat_list flatten (map snd kvs2)) as [[ys us]|] eqn:E2; [|discriminate].
      injection F2 as <- <- <-.
      inversion HK1 as [| | |? KV1 KO1|]; subst. inversion HK2 as [| | |? KV2 KO2|]; subst. inversion HB2 as [| | |? HN2 HB2'|]; subst.
      assert (ET : ts = us).
      { apply (list_treq (map snd kvs) (map snd kvs2)); [|now apply (flat_list_inv _ xs)|now apply (flat_list_inv _ ys)|assumption].
        intros v Hv w Hw x t y u Fx Fy Q. apply in_map_iff in Hv as ([k v'] & <- & Hv). apply in_map_iff in Hw as ([k' w'] & <- & Hw).
        apply (IH k v' Hv (KV1 k v' Hv) w' x t y u); eauto. }
      subst us. f_equal. apply flat_list_inv in E1, E2. clear HF HQ HN HN2 HKS IH HK1 HK2 HB2 KV1 KV2.
      revert kvs2 KO2 HB2' ts E1 E2. induction kvs as [|[k v] kvs IHk]; intros kvs2 KO2 HB2' ts E1 E2; inversion E1; subst; inversion E2 as [|w t l2 ts2 Hw HR EQ]; subst.
      + destruct kvs2; [reflexivity|discriminate].
      + destruct kvs2 as [|[k2 w'] kvs2]; [discriminate|]. cbn in EQ. injection EQ as -> ->. cbn [map fst]. f_equal.
        * destruct H1 as [zs Fv]. destruct Hw as [ws Fw].
          destruct (KO1 k v (or_introl eq_refl)) as (c1 & o1 & -> & M1). destruct (KO2 k2 w' (or_introl eq_refl)) as (c2 & o2 & -> & M2).
          pose proof (HB k _ (or_introl eq_refl)) as B1. inversion B1 as [| | | |? p1 ? I1 P1 _ D1 _]; subst.
          rewrite flatten_obj in Fv, Fw. rewrite (class_of_name p1 I1) in Fv.
          destruct (flat_attrs flatten o1 _) as [[? ?]|]; [|discriminate]. destruct (get_all o1 _) as [a1|] eqn:G1; [|discriminate]. injection Fv as _ <-.
          destruct (class_of c2) as [p2|] eqn:C2; [|discriminate]. destruct (flat_attrs flatten o2 _) as [[? ?]|]; [|discriminate]. destruct (get_all o2 _) as [a2|] eqn:G2; [|discriminate].
          injection Fw as _ Ec Ea _. subst c2 a2. rewrite (class_of_name p1 I1) in C2. injection C2 as <-.
          pose proof key_in_aux as HT. rewrite forallb_forall in HT. specialize (HT p1 I1).
          assert (HM : In "model_key"%string (pc_attrs p1)) by (apply D1; congruence). apply inb_spec in HM. rewrite HM in HT. cbn [implb] in HT. apply inb_spec in HT.
          pose proof (get_all_in o1 o2 _ _ _ G1 G2 HT) as EM. rewrite M1, M2 in EM. injection EM as EM. now apply str_inj.
        * apply (IHk ltac:(intros; eapply HB; right; eassumption) ltac:(intros; eapply KO1; right; eassumption) kvs2 ltac:(intros; eapply KO2; right; eassumption) ltac:(intros; eapply HB2'; right; eassumption) l'); assumption.
    - rewrite flatten_obj in F1. subst c. rewrite (class_of_name p HI) in F1. destruct (flat_attrs flatten o _) as [[xs ts]|] eqn:E1; [|discriminate].
      destruct (get_all o _) as [aux|] eqn:G1; [|discriminate]. injection F1 as <- <-.
      inversion HQ as [| | | |c' a' l' m HF]; subst.
      destruct v2 as [y| |b2 l2|kvs2|c2 o2]; [discriminate|discriminate| | |].
      1:{ rewrite flatten_seq in F2. destruct (flat_list flatten l2) as [[? ?]|]; discriminate. }
      1:{ rewrite flatten_dict in F2. destruct (flat_dict flatten kvs2) as [[? ?]|]; discriminate. }
      rewrite flatten_obj in F2. destruct (class_of c2) as [p2|] eqn:C2; [|discriminate]. destruct (flat_attrs flatten o2 _) as [[ys us]|] eqn:E2; [|discriminate].
      destruct (get_all o2 _) as [a2|] eqn:G2; [|discriminate]. injection F2 as <- -> -> <-.
      rewrite (class_of_name p HI) in C2. injection C2 as <-.
      apply flat_attrs_inv in E1 as (vs1 & A1 & L1), E2 as (vs2 & A2 & L2). f_equal.
      apply (list_treq vs1 vs2); [|now apply (flat_list_inv _ xs)|now apply (flat_list_inv _ ys)|assumption].
      inversion HK1; subst. inversion HK2; subst. inversion HB2; subst.
      assert (In_a : forall (o : string -> option val) l vs v, Forall2 (fun a v => o a = Some v) l vs -> In v vs -> exists a, o a = Some v).
      { clear. intros o l vs v F. induction F as [|a w l ws Ha _ IHf]; intros Hv; [destruct Hv|]. destruct Hv as [->|Hv]; [now exists a|now apply IHf]. }
      intros v Hv w Hw x t y u Fx Fy Q. destruct (In_a o _ _ v A1 Hv) as [a Ea]. destruct (In_a o2 _ _ w A2 Hw) as [a' Ea'].
      apply (IH a v Ea ltac:(eauto) w x t y u); eauto.
  Qed.
End Q.

(** ** Sorting of keys *)
Lemma ascii_compare_trans a b c : Ascii.compare a b = Lt -> Ascii.compare b c = Lt -> Ascii.compare a c = Lt.
Proof. unfold Ascii.compare. rewrite !BinNat.N.compare_lt_iff. apply BinNat.N.lt_trans. Qed.
Lemma ascii_compare_eq a b : Ascii.compare a b = Eq <-> a = b.
Proof.
  unfold Ascii.compare. rewrite BinNat.N.compare_eq_iff. split; [|now intros ->]. intros H.
  rewrite <- (Ascii.ascii_N_embedding a), <- (Ascii.ascii_N_embedding b). now rewrite H.
Qed.
Lemma leb_trans a b c : String.leb a b = true -> String.leb b c = true -> String.leb a c = true.
Proof.
  unfold String.leb. revert b c. induction a as [|x a IH]; intros [|y b] [|z c]; cbn; try reflexivity; try discriminate.
  destruct (Ascii.compare x y) eqn:E1; try discriminate; destruct (Ascii.compare y z) eqn:E2; try discriminate; intros H1 H2.
  - apply ascii_compare_eq in E1, E2. subst. replace (Ascii.compare z z) with Eq by (symmetry; now apply ascii_compare_eq). now apply (IH b).
  - apply ascii_compare_eq in E1. subst. now rewrite E2.
  - apply ascii_compare_eq in E2. subst. now rewrite E1.
  - now rewrite (ascii_compare_trans _ _ _ E1 E2).
Qed.
Inductive sorted : list string -> Prop :=
| S_nil : sorted []
| S_cons a l : sorted l -> (forall b, In b l -> String.leb a b = true) -> sorted (a :: l).
Lemma sinsert_perm k l : Permutation (sinsert k l) (k :: l).
Proof.
  induction l as [|b l IH]; cbn; [reflexivity|]. destruct (String.leb k b); [reflexivity|]. rewrite IH. apply perm_swap.
Qed.
Lemma ssort_perm l : Permutation (ssort l) l.
Proof. induction l as [|a l IH]; cbn; [reflexivity|]. rewrite sinsert_perm. now constructor. Qed.
Lemma sinsert_sorted k l : sorted l -> sorted (sinsert k l).
Proof.
  induction 1 as [|b l HS IH HB]; cbn; [constructor; [constructor|easy]|]. destruct (String.leb k b) eqn:E.
  - constructor; [now constructor|]. intros x [<-|Hx]; [exact E|]. eapply leb_trans; [exact E|]. now apply HB.
  - constructor; [exact IH|]. intros x Hx. apply (Permutation_in _ (sinsert_perm k l)) in Hx. destruct Hx as [<-|Hx]; [|now apply HB].
    destruct (String.leb_total k b) as [h|h]; congruence.
Qed.
Lemma ssort_sorted l : sorted (ssort l).
Proof. induction l as [|a l IH]; cbn; [constructor|]. now apply sinsert_sorted. Qed.
Lemma sorted_unique l m : sorted l -> sorted m -> NoDup l -> NoDup m -> (forall k, In k l <-> In k m) -> l = m.
Proof.
  intros H. revert m. induction H as [|a l HS IH HB]; intros m Hm NL NM HE.
  - destruct m as [|b m]; [reflexivity|]. elim (proj2 (HE b) (or_introl eq_refl)).
  - inversion Hm as [|b m' HS' HB']; subst; [elim (proj1 (HE a) (or_introl eq_refl))|].
    inversion NL as [|? ? N1 N2]; subst. inversion NM as [|? ? M1 M2]; subst.
    assert (E : a = b).
    { destruct (proj1 (HE a) (or_introl eq_refl)) as [e|Ha]; [easy|]. destruct (proj2 (HE b) (or_introl eq_refl)) as [e|Hb]; [easy|].
      apply String.leb_antisym; [now apply HB|now apply HB']. }
    subst b. f_equal. apply IH; [assumption|assumption|assumption|]. intros k. split; intros Hk.
    + destruct (proj1 (HE k) (or_intror Hk)) as [<-|h]; [contradiction|assumption].
    + destruct (proj2 (HE k) (or_intror Hk)) as [<-|h]; [contradiction|assumption].
Qed.
Lemma ssort_same l m : NoDup l -> NoDup m -> (forall k, In k l <-> In k m) -> ssort l = ssort m.
Proof.
  intros NL NM HE. apply sorted_unique; try apply ssort_sorted.
  - eapply Permutation_NoDup; [symmetry; apply ssort_perm|exact NL].
  - eapply Permutation_NoDup; [symmetry; apply ssort_perm|exact NM].
  - intros k. split; intros H; apply (Permutation_in _ (ssort_perm _)) in H; apply (Permutation_in _ (Permutation_sym (ssort_perm _))), HE, H.
Qed.
