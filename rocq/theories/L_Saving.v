(** Lemmas for C15-C17. *)
From Coq Require Import String List Bool Arith Lia Reals Lra FunctionalExtensionality ZArith.
From Verif Require Import M_PytreeTable M_Pytree L_Pytree M_Registry M_Classes M_Collections M_Elements M_Saving.
Import ListNotations.
Open Scope list_scope.
Open Scope nat_scope.
Local Opaque pytree_classes shipped_models shipped_potentials potential_classes model_classes saved_name_table.

(** ** What loading returns *)
(** A shape after saving: everything behind a zero is lost. *)
Fixpoint cut (ds : list nat) : list nat := match ds with [] => [] | 0 :: _ => [0] | d :: t => d :: cut t end.
Definition norm_arr (a : arr) : arr := Arr (cut (dims a)) (data a).
Definition norm_mag (m : mag) : mag :=
  match m with
  | MNum r => MNum r
  | MArr jx a => match dims a with [] => MNum (hd 0%R (data a)) | _ => MArr jx (norm_arr a) end end.
Definition norm_atom (x : atom) : atom :=
  match x with
  | ANpInt r => ANum r
  | AArr jx a => match dims a with [] => ANum (hd 0%R (data a)) | _ => AArr jx (norm_arr a) end
  | AQuant m u => AQuant (norm_mag m) u
  | _ => x end.
Definition norm_grid (v : pyval) : pyval :=
  match v with
  | Leaf (AQuant (MArr _ (Arr [n] l)) u) => Leaf (AQuant (MArr true (Arr [n] (linspace (rmin l) (rmax l) n))) u)
  | _ => v end.
Definition is_grid (c a : string) : bool := match kind_of c with Some KPot => String.eqb a "_transform_r" | _ => false end.
Fixpoint norm (v : pyval) : pyval :=
  match v with
  | Leaf x => Leaf (norm_atom x)
  | VNone => VNone
  | VSeq _ l => VSeq false (map norm l)
  | VDict kvs => VDict (map (fun p => (fst p, norm (snd p))) kvs)
  | VObj c attrs => VObj c (fun a => match attrs a with
      | Some v => Some (if is_grid c a then norm_grid v else norm v)
      | None => None end)
  end.

(** ** What can be saved *)
Definition wf_arr (a : arr) : Prop := length (data a) = size (dims a).
Definition ok_arr (jx : bool) (a : arr) : Prop := wf_arr a /\ (jx = false -> dims a <> []).
Definition ok_atom (x : atom) : Prop :=
  match x with
  | AArr jx a => ok_arr jx a
  | AQuant (MArr jx a) _ => ok_arr jx a
  | AElem s => element (IdStr s) <> None
  | _ => True end.
Definition grid (v : pyval) : Prop :=
  exists jx n l u, v = Leaf (AQuant (MArr jx (Arr [n] l)) u) /\ length l = n /\ n <> 0.
(** the saved name leads back to the class *)
Definition resolves (extra : list (string * string)) (c : string) : Prop :=
  match kind_of c with
  | Some KState => c = "PlasmaState"%string
  | Some KSetup => c = "Setup"%string
  | Some KInstr => instr_named extra c = Some c
  | Some _ => class_named extra (saved_name c) = Some c
  | None => False end.
Inductive savable (extra : list (string * string)) : pyval -> Prop :=
| S_leaf x : ok_atom x -> savable extra (Leaf x)
| S_none : savable extra VNone
| S_seq b l : (forall v, In v l -> savable extra v) -> savable extra (VSeq b l)
| S_dict kvs : ~ In "_type"%string (map fst kvs) -> (forall k v, In (k, v) kvs -> savable extra v) -> savable extra (VDict kvs)
| S_obj c p attrs : In p pytree_classes -> pc_name p = c -> c <> "IonSphereIPD"%string -> resolves extra c ->
    (forall a, attrs a <> None <-> In a (pc_attrs p)) ->
    (forall a v, attrs a = Some v -> savable extra v) ->
    (forall a v, is_grid c a = true -> attrs a = Some v -> grid v) -> savable extra (VObj c attrs).

(** ** Encoder and decoder on lists *)
Definition fstmap {A B} (f : A -> option B) (p : string * A) : option (string * B) := option_map (pair (fst p)) (f (snd p)).
Definition enc_at (attrs : string -> option pyval) (a : string) : option json := match attrs a with Some v => enc v | None => None end.
Definition enc_slot (attrs : string -> option pyval) (p : string * string) : option (string * json) :=
  match attrs (snd p) with Some v => option_map (pair (fst p)) (enc v) | None => None end.
Lemma enc_seq b l : enc (VSeq b l) = option_map JList (allsome (map enc l)).
Proof. cbn. f_equal. induction l; cbn; congruence. Qed.
Lemma enc_dict kvs : enc (VDict kvs) = option_map JObj (allsome (map (fstmap enc) kvs)).
Proof. cbn. f_equal. induction kvs as [|[k v] l IH]; cbn; [reflexivity|]. now rewrite IH. Qed.
Lemma enc_vobj c attrs : enc (VObj c attrs) =
  match class_of c, kind_of c with
  | Some p, Some k =>
    match allsome (map (enc_at attrs) (if has_grid k attrs then tl (pc_children p) else pc_children p)),
          allsome (map (enc_slot attrs) (slots (pc_aux p))) with
    | Some ch, Some aux =>
        match (if has_grid k attrs
               then opt_cons (match pc_children p with a :: _ => match attrs a with Some v => enc_grid v | None => None end | [] => None end) (Some ch)
               else Some ch) with
        | Some ch => Some (enc_obj k c (enc_children c ch) (enc_aux c (pc_aux p) aux))
        | None => None
        end
    | _, _ => None
    end
  | _, _ => None
  end.
Proof.
  cbn [enc]. destruct (class_of c) as [p|]; [|reflexivity]. destruct (kind_of c) as [k|]; [|reflexivity].
  assert (E1 : forall l, (fix go (l : list string) := match l with [] => Some [] | a :: r => opt_cons (match attrs a with Some v => enc v | None => None end) (go r) end) l = allsome (map (enc_at attrs) l)).
  { induction l as [|a l IH]; cbn; [reflexivity|]. now rewrite IH. }
  assert (E2 : forall l, (fix go (l : list (string * string)) := match l with [] => Some [] | (s, a) :: r => opt_cons (match attrs a with Some v => option_map (pair s) (enc v) | None => None end) (go r) end) l = allsome (map (enc_slot attrs) l)).
  { induction l as [|[s a] l IH]; cbn; [reflexivity|]. now rewrite IH. }
  now rewrite E1, E2.
Qed.

Section D.
  Variable extra : list (string * string).
  Notation dec := (dec extra). Notation hook := (hook extra).
  Lemma dec_list l : dec (JList l) = option_map (VSeq false) (allsome (map dec l)).
  Proof. cbn. f_equal. induction l; cbn; congruence. Qed.
  Lemma dec_obj kvs : dec (JObj kvs) = match allsome (map (fstmap dec) kvs) with Some l => hook l | None => None end.
  Proof.
    cbn [M_Saving.dec].
    replace ((fix go (l : list (string * json)) := match l with [] => Some [] | (k, j) :: r => opt_cons (option_map (pair k) (dec j)) (go r) end) kvs)
      with (allsome (map (fstmap dec) kvs)); [reflexivity|].
    induction kvs as [|[k j] l IH]; cbn; [reflexivity|]. now rewrite <- IH.
  Qed.
  Lemma dec_tagged t j v : dec j = Some v ->
    dec (tagged t j) = hook [("_type"%string, Leaf (AStr t)); ("value"%string, v)].
  Proof. intros H. unfold tagged. rewrite dec_obj. cbn [map fstmap fst snd]. unfold fstmap. cbn [fst snd]. rewrite H. reflexivity. Qed.

  Definition rt (v : pyval) : Prop := exists j, enc v = Some j /\ dec j = Some (norm v).
  Lemma rt_list l : (forall v, In v l -> rt v) ->
    exists js, allsome (map enc l) = Some js /\ allsome (map dec js) = Some (map norm l).
  Proof.
    induction l as [|v l IH]; intros H; [now exists []|].
    destruct (H v (or_introl eq_refl)) as (j & E & D). destruct IH as (js & Es & Ds); [intros w Hw; apply H; now right|].
    exists (j :: js). cbn. now rewrite E, Es, D, Ds.
  Qed.
  Lemma rt_kvs (l : list (string * pyval)) : (forall k v, In (k, v) l -> rt v) ->
    exists js, allsome (map (fstmap enc) l) = Some js /\ allsome (map (fstmap dec) js) = Some (map (fun p => (fst p, norm (snd p))) l).
  Proof.
    induction l as [|[k v] l IH]; intros H; [now exists []|].
    destruct (H k v (or_introl eq_refl)) as (j & E & D). destruct IH as (js & Es & Ds); [intros k' w Hw; apply (H k'); now right|].
    exists ((k, j) :: js). cbn. unfold fstmap at 1 3. cbn [fst snd]. now rewrite E, Es, D, Ds.
  Qed.

  (** *** Arrays *)
  Lemma rows_length n sz l : length (rows n sz l) = n.
  Proof. revert l. induction n; intros; cbn; congruence. Qed.
  Lemma rows_concat n sz l : length l = n * sz -> concat (rows n sz l) = l.
  Proof.
    revert l. induction n as [|n IH]; intros l H; cbn.
    - now destruct l.
    - cbn in H. rewrite IH; [now rewrite firstn_skipn|]. rewrite skipn_length. lia.
  Qed.
  Lemma rows_each n sz l r : length l = n * sz -> In r (rows n sz l) -> length r = sz.
  Proof.
    revert l. induction n as [|n IH]; intros l H [<-|HI] || intros l H []; cbn in *.
    - rewrite firstn_length. lia.
    - apply (IH (skipn sz l)); [rewrite skipn_length; lia|assumption].
  Qed.
  Definition item (ds : list nat) (l : list R) : pyval :=
    match ds with [] => Leaf (ANum (hd 0%R l)) | _ => Leaf (AArr false (Arr (cut ds) l)) end.
  Lemma as_arr_item ds l : length l = size ds -> as_arr (item ds l) = Some (Arr (cut ds) l).
  Proof. intros H. destruct ds; [|reflexivity]. destruct l as [|x [|y l]]; cbn in *; try discriminate. reflexivity. Qed.
  Lemma stack_rows d ds l : length l = d * size ds ->
    np_array (VSeq false (map (item ds) (rows d (size ds) l))) = Some (Arr (cut (d :: ds)) l).
  Proof.
    intros H. unfold np_array. rewrite map_map.
    assert (E : allsome (map (fun r => as_arr (item ds r)) (rows d (size ds) l)) = Some (map (fun r => Arr (cut ds) r) (rows d (size ds) l))).
    { assert (HE : forall r, In r (rows d (size ds) l) -> length r = size ds) by (intros r; now apply rows_each).
      revert HE. generalize (rows d (size ds) l). induction l0 as [|r t IH]; intros HE; [reflexivity|]. cbn [map allsome].
      rewrite (as_arr_item ds r (HE r (or_introl eq_refl))), IH; [reflexivity|]. intros q Hq. apply HE. now right. }
    rewrite E. clear E. destruct d as [|d].
    - cbn. cbn in H. destruct l; [reflexivity|discriminate].
    - unfold stack. set (rs := rows (S d) (size ds) l) in *. destruct (map _ rs) as [|a t] eqn:ER.
      { apply (f_equal (@length _)) in ER. unfold rs in ER. rewrite map_length, rows_length in ER. discriminate. }
      assert (HA : a :: t = map (fun r => Arr (cut ds) r) rs) by (now rewrite ER).
      assert (HD : dims a = cut ds). { destruct rs; [discriminate|]. cbn in HA. now injection HA as -> _. }
      replace (forallb (same_dims a) t) with true.
      2:{ symmetry. apply forallb_forall. intros b Hb. assert (HB : In b (map (fun r => Arr (cut ds) r) rs)) by (rewrite <- HA; now right).
          apply in_map_iff in HB as (r & <- & _). unfold same_dims. rewrite HD. cbn. now destruct (list_eq_dec _ _ _). }
      rewrite HD, HA. rewrite map_length, map_map. cbn [data]. rewrite map_id. unfold rs. rewrite rows_length, rows_concat; [|assumption].
      reflexivity.
  Qed.
  Lemma dec_item ds : forall l, length l = size ds -> dec (enc_item ds l) = Some (item ds l).
  Proof.
    induction ds as [|d ds IH]; intros l H; [reflexivity|]. cbn [enc_item]. cbn [size] in H.
    rewrite (dec_tagged "ndArray" _ (VSeq false (map (item ds) (rows d (size ds) l)))).
    - change (hook [("_type"%string, Leaf (AStr "ndArray")); ("value"%string, VSeq false (map (item ds) (rows d (size ds) l)))])
        with (option_map (fun a => @Leaf atom (AArr false a)) (np_array (VSeq false (map (item ds) (rows d (size ds) l))))).
      now rewrite stack_rows.
    - rewrite dec_list, map_map.
      assert (HE : forall r, In r (rows d (size ds) l) -> length r = size ds) by (intros r; now apply rows_each).
      revert HE. generalize (rows d (size ds) l). intros rs. 
      assert (Q : (forall r, In r rs -> length r = size ds) -> allsome (map (fun x => dec (enc_item ds x)) rs) = Some (map (item ds) rs)).
      { induction rs as [|r t IHt]; intros HE; [reflexivity|]. cbn [map allsome]. rewrite IH, IHt; [reflexivity| |]; [intros q Hq|]; apply HE; [now right|now left]. }
      intros HE. rewrite (Q HE). reflexivity.
  Qed.
  Lemma arr_rt jx a : ok_arr jx a -> exists j, enc_arr jx a = Some j /\
    dec j = Some (match dims a with [] => Leaf (ANum (hd 0%R (data a))) | _ => Leaf (AArr jx (norm_arr a)) end).
  Proof.
    intros [HW HJ]. destruct a as [ds l]. unfold wf_arr in HW. cbn [dims data] in *. unfold enc_arr, norm_arr. cbn [dims data].
    destruct ds as [|d ds].
    - destruct jx; [|now elim HJ]. eexists. now split.
    - eexists. split; [reflexivity|]. cbn [size] in HW.
      pose proof (dec_item (d :: ds) l HW) as H. cbn [enc_item item] in H.
      destruct jx; [|exact H].
      assert (DL : dec (JList (map (enc_item ds) (rows d (size ds) l))) = Some (VSeq false (map (item ds) (rows d (size ds) l)))).
      { rewrite dec_list, map_map. assert (HE : forall r, In r (rows d (size ds) l) -> length r = size ds) by (intros r; now apply rows_each).
        assert (Q : forall rs, (forall r, In r rs -> length r = size ds) -> allsome (map (fun x => dec (enc_item ds x)) rs) = Some (map (item ds) rs)).
        { induction rs as [|r t IHt]; intros HH; [reflexivity|]. cbn [map allsome]. rewrite dec_item, IHt; [reflexivity| |]; [intros q Hq|]; apply HH; [now right|now left]. }
        now rewrite (Q _ HE). }
      rewrite (dec_tagged "Array" _ _ DL).
      change (hook [("_type"%string, Leaf (AStr "Array")); ("value"%string, VSeq false (map (item ds) (rows d (size ds) l)))])
        with (option_map (fun a => @Leaf atom (AArr true a)) (np_array (VSeq false (map (item ds) (rows d (size ds) l))))).
      now rewrite stack_rows.
  Qed.

  (** *** Quantities *)
  Lemma dec_units u : dec (enc_units u) = Some (VSeq false (map (fun p => VSeq false [Leaf (AStr (fst p)); Leaf (ANum (snd p))]) u)).
  Proof. unfold enc_units. rewrite dec_list, map_map. induction u as [|[s r] u IH]; [reflexivity|]. cbn in *. destruct (allsome _); [|discriminate]. cbn in *. now injection IH as ->. Qed.
  Lemma units_back u : allsome (map unit_of (map (fun p => VSeq false [Leaf (AStr (fst p)); Leaf (ANum (snd p))]) u)) = Some u.
  Proof. induction u as [|[s r] u IH]; [reflexivity|]. cbn in *. now rewrite IH. Qed.
  Lemma quant_rt m u : (match m with MArr jx a => ok_arr jx a | _ => True end) ->
    exists j, enc_quant m u = Some j /\ dec j = Some (Leaf (AQuant (norm_mag m) u)).
  Proof.
    intros H. unfold enc_quant.
    assert (HM : exists j, enc_mag m = Some j /\ dec j = Some (match norm_mag m with MNum r => Leaf (ANum r) | MArr jx a => Leaf (AArr jx a) end)).
    { destruct m as [r|jx a]; cbn [enc_mag norm_mag]; [now eexists|]. destruct (arr_rt jx a H) as (j & E & D). exists j. split; [assumption|]. rewrite D. now destruct (dims a). }
    destruct HM as (j & -> & D). eexists. split; [reflexivity|].
    rewrite (dec_tagged "Quantity" _ (VSeq false [match norm_mag m with MNum r => Leaf (ANum r) | MArr jx a => Leaf (AArr jx a) end; VSeq false (map (fun p => VSeq false [Leaf (AStr (fst p)); Leaf (ANum (snd p))]) u)])).
    - unfold M_Saving.hook. cbn [lookup find fst snd String.eqb Ascii.eqb Bool.eqb]. cbn -[allsome norm_mag unit_of].
      destruct (norm_mag m) as [r|jx a]; cbn [quantity]; rewrite units_back; reflexivity.
    - rewrite dec_list. cbn [map]. rewrite D, dec_units. reflexivity.
  Qed.
  Lemma atom_rt x : ok_atom x -> rt (Leaf x).
  Proof.
    intros H. unfold rt. cbn [enc norm]. destruct x as [b|r|s|r|jx a|m u|s]; cbn [enc_atom norm_atom]; try (now eexists).
    - destruct (arr_rt jx a H) as (j & E & D). exists j. split; [assumption|]. rewrite D. now destruct (dims a).
    - apply quant_rt. exact H.
    - eexists. split; [reflexivity|]. rewrite (dec_tagged "Element" _ (Leaf (AStr s))) by reflexivity.
      cbn -[element]. cbn [ok_atom] in H. destruct (element (IdStr s)); [reflexivity|now elim H].
  Qed.
End D.

(** ** Objects *)
Definition no_tag (l : list string) : bool := negb (inb "_type" l).
Definition tables_ok (p : pcls) : bool :=
  let c := pc_name p in
  match children_labels c with Some ls => Nat.eqb (length ls) (length (pc_children p)) && ndb ls && no_tag ls | None => true end &&
  match aux_labels c with
  | Some ls => match pc_aux p with ATuple l => Nat.eqb (length ls) (length l) && ndb ls && no_tag ls | _ => false end
  | None => match pc_aux p, pc_un_aux p with
      | ATuple _, ATuple _ => true | ADict l, ADict _ => ndb (map fst l) && no_tag (map fst l) | _, _ => false end
  end &&
  match kind_of c with
  | Some KPot => implb (inb "_transform_r" (pc_attrs p))
      (match pc_children p with a :: t => String.eqb a "_transform_r" && negb (inb "_transform_r" t) | [] => false end &&
       negb (inb "_transform_r" (map snd (slots (pc_aux p)))))
  | _ => true end.
Lemma tables_table : forallb (fun p => Bool.eqb (fits p && tables_ok p) (negb (String.eqb (pc_name p) "IonSphereIPD"))) pytree_classes = true.
Proof. vm_compute. reflexivity. Qed.
Lemma tables_use p : In p pytree_classes -> pc_name p <> "IonSphereIPD"%string -> fits p = true /\ tables_ok p = true.
Proof.
  intros HI HN. pose proof tables_table as HT. rewrite forallb_forall in HT. specialize (HT p HI). apply eqb_prop in HT.
  apply String.eqb_neq in HN. rewrite HN in HT. cbn [negb] in HT. now apply andb_prop in HT.
Qed.
Lemma no_tag_spec l : no_tag l = true -> ~ In "_type"%string l.
Proof. unfold no_tag. intros H HI. apply inb_spec in HI. now rewrite HI in H. Qed.
Lemma lookup_none (k : string) (l : list (string * val atom)) : ~ In k (map fst l) -> lookup k l = None.
Proof.
  unfold lookup. intros H. destruct (find _ l) as [p|] eqn:F; [|reflexivity]. apply find_some in F as [F1 F2]. apply String.eqb_eq in F2. elim H. rewrite <- F2. now apply in_map.
Qed.
Lemma hook_plain extra kvs : ~ In "_type"%string (map fst kvs) -> hook extra kvs = Some (VDict kvs).
Proof. intros H. unfold hook. now rewrite lookup_none. Qed.

Section O.
  Variable extra : list (string * string).
  Notation dec := (dec extra).
  Lemma fstmap_dec_fst js l : allsome (map (fstmap dec) js) = Some l -> map fst l = map fst js.
  Proof.
    revert l. induction js as [|[k j] js IH]; intros l H; cbn in H; [now injection H as <-|].
    unfold fstmap at 1 in H. cbn [fst snd] in H. destruct (dec j); [|discriminate]. cbn in H. destruct (allsome _) as [r|]; [|discriminate].
    cbn in H. injection H as <-. cbn. f_equal. now apply IH.
  Qed.
  Lemma fstmap_combine ls js vs : length ls = length js -> allsome (map dec js) = Some vs ->
    allsome (map (fstmap dec) (combine ls js)) = Some (combine ls vs).
  Proof.
    revert js vs. induction ls as [|k ls IH]; intros [|j js] vs HL H; try discriminate; [now injection H as <-|].
    cbn in H. cbn [combine map]. unfold fstmap at 1. cbn [fst snd]. destruct (dec j) as [v|]; [|discriminate]. destruct (allsome _) as [r|] eqn:E; [|discriminate].
    injection H as <-. cbn [option_map allsome]. rewrite (IH js r); [reflexivity|now injection HL|assumption].
  Qed.
  Lemma allsome_length {A} (l : list (option A)) r : allsome l = Some r -> length r = length l.
  Proof. revert r. induction l as [|x l IH]; intros r H; cbn in H; [now injection H as <-|]. destruct x; [|discriminate]. destruct (allsome l); [|discriminate]. injection H as <-. cbn. f_equal. now apply IH. Qed.
  Lemma pick_combine ls (vs : list pyval) : NoDup ls -> length ls = length vs -> pick ls (VDict (combine ls vs)) = Some vs.
  Proof.
    intros HN HL. unfold pick.
    assert (Q : forall (ls' : list string) (vs' : list (val atom)) (pre : list (string * val atom)), length ls' = length vs' -> NoDup ls' -> (forall k, In k ls' -> lookup k pre = None) ->
       allsome (map (fun k => lookup k (pre ++ combine ls' vs')) ls') = Some vs').
    { clear. induction ls' as [|k ls IH]; intros [|v vs] pre HL HN HP; try discriminate; [reflexivity|].
      assert (F : forall q : list (string * val atom), lookup k pre = None -> lookup k (pre ++ (k, v) :: q) = Some v).
      { intros q. unfold lookup. induction pre as [|[k' w] pre IHp]; cbn; [now rewrite String.eqb_refl|]. destruct (String.eqb k' k); [discriminate|]. apply IHp.
        intros k0 h. specialize (HP k0 h). unfold lookup in *. cbn in HP. destruct (String.eqb k' k0); [discriminate|assumption]. }
      inversion HN as [|x y HNI HND]; subst. cbn [combine map allsome]. rewrite (F _ (HP k (or_introl eq_refl))).
      replace (pre ++ (k, v) :: combine ls vs) with ((pre ++ [(k, v)]) ++ combine ls vs) by (now rewrite <- app_assoc).
      rewrite IH; [reflexivity|now injection HL|assumption|]. intros k0 h. specialize (HP k0 (or_intror h)).
      unfold lookup in *. revert HP. clear - h HNI. induction pre as [|[k' w] pre IHp]; cbn.
      - intros _. destruct (String.eqb_spec k k0) as [->|]; [contradiction|reflexivity].
      - destruct (String.eqb k' k0); [discriminate|assumption]. }
    apply (Q ls vs []); try assumption. reflexivity.
  Qed.
  Lemma relabel_get (o : string -> option pyval) l : forall n r, get_all o (label n l) = Some r -> relabel n (map snd r) = r.
  Proof.
    induction l as [|a l IH]; intros n r H; cbn [label get_all] in H; [now injection H as <-|].
    destruct (o a); [|discriminate]. destruct (get_all o (label (S n) l)) as [q|] eqn:E; [|discriminate]. injection H as <-. cbn [map snd relabel]. f_equal. now apply IH.
  Qed.

  Lemma restore_rt p (o : string -> option pyval) js vs ajs aux : In p pytree_classes -> pc_name p <> "IonSphereIPD"%string ->
    (forall a, o a <> None <-> In a (pc_attrs p)) ->
    allsome (map dec js) = Some vs -> Forall2 (fun a v => o a = Some v) (pc_children p) vs ->
    allsome (map (fstmap dec) ajs) = Some aux -> get_all o (slots (pc_aux p)) = Some aux ->
    exists chv auxv, dec (enc_children (pc_name p) js) = Some chv /\ dec (enc_aux (pc_name p) (pc_aux p) ajs) = Some auxv /\
      restore (pc_name p) (VSeq false [chv; auxv]) = Some (VObj (pc_name p) o, vs).
  Proof.
    intros HI HN HD Ejs Fvs Eajs Gaux. destruct (tables_use p HI HN) as [HF HT].
    destruct (rebuild_fits p o HI HF HD) as (vs' & aux' & F' & G' & RB).
    assert (vs' = vs). { clear - Fvs F'. revert vs' F'. induction Fvs; intros vs' F'; inversion F'; subst; [reflexivity|]. f_equal; [congruence|now apply IHFvs]. } subst vs'.
    assert (aux' = aux) by congruence. subst aux'.
    set (c := pc_name p) in *. unfold tables_ok in HT. fold c in HT. apply andb_prop in HT as [HT _]. apply andb_prop in HT as [HC HA].
    assert (LV : length vs = length (pc_children p)) by (clear - Fvs; induction Fvs; cbn; congruence).
    assert (Lj : length js = length (pc_children p)). { apply allsome_length in Ejs. rewrite map_length in Ejs. congruence. }
    assert (X1 : exists chv, dec (enc_children c js) = Some chv /\ parse_children c chv = Some vs).
    { unfold enc_children, parse_children. destruct (children_labels c) as [ls|].
      - apply andb_prop in HC as [HC HC3]. apply andb_prop in HC as [HC1 HC2]. apply Nat.eqb_eq in HC1. apply ndb_spec in HC2. apply no_tag_spec in HC3.
        exists (VDict (combine ls vs)). rewrite dec_obj, (fstmap_combine ls js vs); [|congruence|assumption]. split.
        + apply hook_plain. intros h. apply HC3. clear - h. revert vs h. induction ls as [|k ls IH]; intros [|v vs]; cbn; try tauto. intros [->|h]; [now left|right; now apply (IH vs)].
        + apply pick_combine; [assumption|congruence].
      - exists (VSeq false vs). rewrite dec_list, Ejs. now split. }
    assert (LA : length aux = length (slots (pc_aux p))) by (eapply get_all_length; eassumption).
    assert (Lja : length ajs = length aux). { apply allsome_length in Eajs. now rewrite map_length in Eajs. }
    assert (SV : allsome (map dec (map snd ajs)) = Some (map snd aux)).
    { clear - Eajs. revert aux Eajs. induction ajs as [|[k j] l IH]; intros aux H; cbn in H; [now injection H as <-|]. unfold fstmap at 1 in H. cbn [fst snd] in H.
      cbn. destruct (dec j); [|discriminate]. cbn in H. destruct (allsome (map (fstmap dec) l)) as [r|]; [|discriminate]. injection H as <-. now rewrite (IH r). }
    assert (X2 : exists auxv, dec (enc_aux c (pc_aux p) ajs) = Some auxv /\ parse_aux c (pc_un_aux p) auxv = Some aux).
    { unfold enc_aux, parse_aux. destruct (aux_labels c) as [ls|].
      - destruct (pc_aux p) as [l|l|a] eqn:EA; try discriminate. apply andb_prop in HA as [HA HA3]. apply andb_prop in HA as [HA1 HA2].
        apply Nat.eqb_eq in HA1. apply ndb_spec in HA2. apply no_tag_spec in HA3.
        assert (LL : length ls = length (map snd aux)). { rewrite map_length, LA. cbn [slots]. rewrite HA1. clear. generalize 0. induction l; intros; cbn [label length]; congruence. }
        exists (VDict (combine ls (map snd aux))). rewrite dec_obj, (fstmap_combine ls _ (map snd aux)); [|rewrite map_length in *; congruence|exact SV]. split.
        + apply hook_plain. intros h. apply HA3. clear - h. revert h. generalize (map snd aux). induction ls as [|k ls IH]; intros [|v vs]; cbn; try tauto. intros [->|h]; [now left|right; now apply (IH vs)].
        + rewrite pick_combine; [|assumption|assumption]. cbn [option_map]. f_equal. apply (relabel_get o l 0). exact Gaux.
      - destruct (pc_aux p) as [l|l|a] eqn:EA; destruct (pc_un_aux p) as [m|m|b]; try discriminate.
        + exists (VSeq false (map snd aux)). rewrite dec_list, SV. split; [reflexivity|]. f_equal. apply (relabel_get o l 0). exact Gaux.
        + apply andb_prop in HA as [HA1 HA2]. apply no_tag_spec in HA2. exists (VDict aux). rewrite dec_obj, Eajs. split; [|reflexivity].
          apply hook_plain. intros h. apply HA2. cbn [slots] in Gaux. clear - h Gaux. revert aux Gaux h. induction l as [|[k a] l IH]; intros aux G h; cbn in G; [injection G as <-; destruct h|].
          destruct (o a); [|discriminate]. destruct (get_all o l) as [q|] eqn:E; [|discriminate]. injection G as <-. cbn in *. destruct h as [->|h]; [now left|right; now apply (IH q)]. }
    destruct X1 as (chv & D1 & P1). destruct X2 as (auxv & D2 & P2). exists chv, auxv. split; [assumption|]. split; [assumption|].
    unfold restore. unfold c in *. rewrite (class_of_name p HI), P1, P2, RB. reflexivity.
  Qed.

  Lemma enc_children_rt (attrs o : string -> option pyval) l :
    (forall a, In a l -> exists v j w, attrs a = Some v /\ enc v = Some j /\ dec j = Some w /\ o a = Some w) ->
    exists js vs, allsome (map (enc_at attrs) l) = Some js /\ allsome (map dec js) = Some vs /\ Forall2 (fun a v => o a = Some v) l vs.
  Proof.
    induction l as [|a l IH]; intros H; [exists [], []; repeat split; constructor|].
    destruct (H a (or_introl eq_refl)) as (v & j & w & E1 & E2 & E3 & E4). destruct IH as (js & vs & I1 & I2 & I3); [intros b hb; apply H; now right|].
    exists (j :: js), (w :: vs). cbn. unfold enc_at at 1. rewrite E1, E2, I1, E3, I2. split; [reflexivity|]. split; [reflexivity|]. now constructor.
  Qed.
  Lemma enc_slots_rt (attrs o : string -> option pyval) l :
    (forall a, In a (map snd l) -> exists v j w, attrs a = Some v /\ enc v = Some j /\ dec j = Some w /\ o a = Some w) ->
    exists js aux, allsome (map (enc_slot attrs) l) = Some js /\ allsome (map (fstmap dec) js) = Some aux /\ get_all o l = Some aux.
  Proof.
    induction l as [|[k a] l IH]; intros H; [exists [], []; repeat split; constructor|].
    destruct (H a (or_introl eq_refl)) as (v & j & w & E1 & E2 & E3 & E4). destruct IH as (js & vs & I1 & I2 & I3); [intros b hb; apply H; now right|].
    exists ((k, j) :: js), ((k, w) :: vs). cbn. unfold enc_slot at 1. cbn [fst snd]. rewrite E1, E2, I1. cbn. unfold fstmap at 1. cbn [fst snd]. rewrite E3, I2, E4, I3. repeat split.
  Qed.
End O.

Section M.
  Variable extra : list (string * string).
  Notation dec := (dec extra). Notation rt := (rt extra).
  Lemma dec_pair a b x y : dec a = Some x -> dec b = Some y -> dec (JList [a; b]) = Some (VSeq false [x; y]).
  Proof. intros H1 H2. rewrite dec_list. cbn [map allsome]. now rewrite H1, H2. Qed.
  Lemma dec_enc_obj k c ch aux chv auxv o vs : kind_of c = Some k -> resolves extra c ->
    dec ch = Some chv -> dec aux = Some auxv -> restore c (VSeq false [chv; auxv]) = Some (VObj c o, vs) ->
    dec (enc_obj k c ch aux) = match k with KPot => fix_grid (VObj c o, vs) | _ => Some (VObj c o) end.
  Proof.
    intros HK HR D1 D2 R. unfold resolves in HR. rewrite HK in HR. pose proof (dec_pair _ _ _ _ D1 D2) as DP.
    destruct k; unfold enc_obj.
    - subst c. rewrite (dec_tagged extra _ _ _ DP). unfold hook. cbn -[restore]. now rewrite R.
    - subst c. rewrite (dec_tagged extra _ _ _ DP). unfold hook. cbn -[restore]. now rewrite R.
    - rewrite (dec_tagged extra _ _ (VSeq false [Leaf (AStr (saved_name c)); VSeq false [chv; auxv]])) by (now apply dec_pair).
      unfold hook. cbn -[restore saved_name class_named]. now rewrite HR, R.
    - rewrite (dec_tagged extra _ _ (VSeq false [Leaf (AStr (saved_name c)); VSeq false [chv; auxv]])) by (now apply dec_pair).
      unfold hook. cbn -[restore saved_name class_named]. now rewrite HR, R.
    - rewrite (dec_tagged extra _ _ (VSeq false [Leaf (AStr c); VSeq false [chv; auxv]])) by (now apply dec_pair).
      unfold hook. cbn -[restore instr_named]. now rewrite HR, R.
  Qed.
  Lemma fix_none c o vs : o "_transform_r"%string = None -> fix_grid (VObj c o, vs) = Some (VObj c o).
  Proof. intros H. unfold fix_grid. cbn. now rewrite H. Qed.
  Lemma as_num_INR n : as_num (INR n) = n.
  Proof.
    unfold as_num. destruct (archimed (INR n - 1 / 2)) as [H1 H2]. rewrite INR_IZR_INZ in *.
    assert (HU : (Z.of_nat n < up (IZR (Z.of_nat n) - 1 / 2) + 1)%Z) by (apply lt_IZR; rewrite plus_IZR; lra).
    assert (HL : (up (IZR (Z.of_nat n) - 1 / 2) < Z.of_nat n + 1)%Z) by (apply lt_IZR; rewrite plus_IZR; lra).
    replace (up (IZR (Z.of_nat n) - 1 / 2)) with (Z.of_nat n) by lia. apply Nat2Z.id.
  Qed.
  Lemma grid_rt v : grid v -> exists j g, enc_grid v = Some j /\ dec j = Some g /\ regrid g = Some (norm_grid v).
  Proof.
    intros (jx & n & l & u & -> & HL & HN). cbn [enc_grid]. destruct l as [|x l]; [cbn in HL; congruence|].
    destruct (quant_rt extra (MNum (rmin (x :: l))) u I) as (j1 & E1 & D1). destruct (quant_rt extra (MNum (rmax (x :: l))) u I) as (j2 & E2 & D2).
    rewrite E1, E2. do 2 eexists. split; [reflexivity|]. split.
    - rewrite dec_obj. unfold fstmap. cbn [map fst snd]. rewrite D1, D2. cbn [option_map allsome opt_cons M_Saving.dec]. apply hook_plain. cbn. intuition discriminate.
    - cbn [regrid norm_mag norm_grid]. now rewrite as_num_INR.
  Qed.

  Theorem savable_rt v : savable extra v -> rt v.
  Proof.
    induction 1 as [x Hx| |b l _ IH|kvs HT _ IH|c p attrs HI HP HB HR HD HS IH HG].
    - now apply atom_rt.
    - eexists. split; reflexivity.
    - destruct (rt_list extra l IH) as (js & E & D). exists (JList js). rewrite enc_seq, E. split; [reflexivity|]. rewrite dec_list, D. reflexivity.
    - destruct (rt_kvs extra kvs IH) as (js & E & D). exists (JObj js). rewrite enc_dict, E. split; [reflexivity|]. rewrite dec_obj, D.
      apply hook_plain. rewrite map_map. cbn [fst]. exact HT.
    - subst c. destruct (kind_of (pc_name p)) as [k|] eqn:HK; [|unfold resolves in HR; now rewrite HK in HR].
      destruct (tables_use p HI HB) as [HF HTB].
      set (o := fun a => match attrs a with Some v => Some (if is_grid (pc_name p) a then norm_grid v else norm v) | None => None end).
      assert (DO : forall a, o a <> None <-> In a (pc_attrs p)). { intros a. rewrite <- HD. unfold o. destruct (attrs a); split; congruence. }
      assert (INC : forall a, In a (pc_children p) \/ In a (map snd (slots (pc_aux p))) -> In a (pc_attrs p)).
      { intros a Ha. unfold fits in HF. repeat (apply andb_prop in HF as [HF ?HX]). unfold inclb in HX. rewrite forallb_forall in HX. apply inb_spec, HX, in_or_app.
        destruct Ha; [now left|right; apply in_or_app; now left]. }
      assert (AT : forall a, In a (pc_attrs p) -> is_grid (pc_name p) a = false ->
        exists v j w, attrs a = Some v /\ enc v = Some j /\ dec j = Some w /\ o a = Some w).
      { intros a Ha Hg. destruct (attrs a) as [v|] eqn:Ea; [|exfalso; apply HD in Ha; congruence].
        destruct (IH a v Ea) as (j & E & D). exists v, j, (norm v). unfold o. rewrite Ea, Hg. now repeat split. }
      unfold rt, L_Saving.rt. rewrite enc_vobj, (class_of_name p HI), HK. change (norm (VObj (pc_name p) attrs)) with (VObj (pc_name p) o).
      destruct (has_grid k attrs) eqn:HGr.
      + unfold has_grid in HGr. destruct k; try discriminate. destruct (attrs "_transform_r"%string) as [gv|] eqn:EG; [|discriminate].
        unfold tables_ok in HTB. apply andb_prop in HTB as [_ HTB]. rewrite HK in HTB.
        assert (HIn : In "_transform_r"%string (pc_attrs p)) by (apply HD; congruence). apply inb_spec in HIn. rewrite HIn in HTB. cbn [implb] in HTB.
        apply andb_prop in HTB as [HTB Hns]. destruct (pc_children p) as [|a0 rest] eqn:EC; [discriminate|]. apply andb_prop in HTB as [Ha0 Hnr]. apply String.eqb_eq in Ha0. subst a0.
        assert (NR : forall a, In a rest -> is_grid (pc_name p) a = false).
        { intros a Ha. unfold is_grid. rewrite HK. destruct (String.eqb_spec a "_transform_r") as [->|]; [|reflexivity]. apply inb_spec in Ha. now rewrite Ha in Hnr. }
        assert (NS : forall a, In a (map snd (slots (pc_aux p))) -> is_grid (pc_name p) a = false).
        { intros a Ha. unfold is_grid. rewrite HK. destruct (String.eqb_spec a "_transform_r") as [->|]; [|reflexivity]. apply inb_spec in Ha. now rewrite Ha in Hns. }
        destruct (grid_rt gv) as (jg & g & E1 & D1 & RG). { apply (HG "_transform_r"%string); [|assumption]. unfold is_grid. now rewrite HK. }
        set (o2 := setattr "_transform_r" g o).
        assert (O2 : forall a, is_grid (pc_name p) a = false -> o2 a = o a).
        { intros a. unfold is_grid, o2, setattr. rewrite HK, String.eqb_sym. now intros ->. }
        destruct (enc_children_rt extra attrs o2 rest) as (js & vs & I1 & I2 & I3).
        { intros a Ha. destruct (AT a) as (v & j & w & A1 & A2 & A3 & A4); [apply INC; left; now right|now apply NR|]. exists v, j, w. rewrite O2; [now repeat split|now apply NR]. }
        destruct (enc_slots_rt extra attrs o2 (slots (pc_aux p))) as (ajs & aux & J1 & J2 & J3).
        { intros a Ha. destruct (AT a) as (v & j & w & A1 & A2 & A3 & A4); [apply INC; now right|now apply NS|]. exists v, j, w. rewrite O2; [now repeat split|now apply NS]. }
        cbn [tl]. rewrite I1, J1, EG, E1. cbn [opt_cons]. eexists. split; [reflexivity|].
        destruct (restore_rt extra p o2 (jg :: js) (g :: vs) ajs aux) as (chv & auxv & R1 & R2 & R3); try assumption.
        { intros a. unfold o2, setattr. destruct (String.eqb_spec "_transform_r" a) as [<-|]; [|apply DO]. split; [intros _; now apply inb_spec|discriminate]. }
        { cbn. now rewrite D1, I2. }
        { rewrite EC. constructor; [|assumption]. unfold o2, setattr. reflexivity. }
        rewrite (dec_enc_obj KPot (pc_name p) _ _ _ _ _ _ HK HR R1 R2 R3).
        unfold fix_grid. cbn [fst snd]. replace (o2 "_transform_r"%string) with (Some g) by reflexivity. rewrite RG. f_equal. f_equal.
        apply functional_extensionality. intros a. unfold o2, setattr, o. destruct (String.eqb_spec "_transform_r" a) as [<-|]; [|reflexivity].
        rewrite EG. unfold is_grid. rewrite HK. reflexivity.
      + assert (NG : forall a, In a (pc_attrs p) -> is_grid (pc_name p) a = false).
        { intros a Ha. unfold is_grid. rewrite HK. destruct k; try reflexivity. destruct (String.eqb_spec a "_transform_r") as [->|]; [|reflexivity].
          exfalso. apply HD in Ha. unfold has_grid in HGr. destruct (attrs "_transform_r"%string); congruence. }
        destruct (enc_children_rt extra attrs o (pc_children p)) as (js & vs & I1 & I2 & I3).
        { intros a Ha. apply AT; [apply INC; now left|]. apply NG, INC. now left. }
        destruct (enc_slots_rt extra attrs o (slots (pc_aux p))) as (ajs & aux & J1 & J2 & J3).
        { intros a Ha. apply AT; [apply INC; now right|]. apply NG, INC. now right. }
        rewrite I1, J1. eexists. split; [reflexivity|].
        destruct (restore_rt extra p o js vs ajs aux) as (chv & auxv & R1 & R2 & R3); try assumption.
        rewrite (dec_enc_obj k (pc_name p) _ _ _ _ _ _ HK HR R1 R2 R3). destruct k; try reflexivity.
        apply fix_none. unfold o. unfold has_grid in HGr. now destruct (attrs "_transform_r"%string).
  Qed.
End M.
