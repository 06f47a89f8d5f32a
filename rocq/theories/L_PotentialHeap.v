From Coq Require Import Reals List Bool Arith Lia Lra.
From Verif Require Import M_PlasmaState M_Potentials M_PotentialHeap.
Import ListNotations.
Open Scope nat_scope.

Section H.
  Variable C : Type.
  Variable val : C -> mode -> R.
  Notation heap := (heap C).
  Notation eval := (eval C val).
  Notation set_mode := (set_mode C).
  Notation get := (get C).
  Notation getl := (getl C).
  Notation objs := (objs C).
  Notation lists := (lists C).

  (** every object has the same include_electrons *)
  Definition homogeneous (h : heap) (md : mode) : Prop := forall i o, get h i = Some o -> mode_of C o = md.
  (** every reference points somewhere, and no sum is empty *)
  Definition closed (h : heap) : Prop := forall i o, get h i = Some o ->
    match o with
    | OPrim _ _ => True
    | OSum l _ => exists ps, getl h l = Some ps /\ ps <> [] /\ forall p, In p ps -> p < length (objs h)
    | OScaled p _ _ => p < length (objs h)
    end.

  Lemma upd_same {A} (l : list A) i x : nth_error l i = Some x -> upd l i x = l.
  Proof.
    revert i. induction l as [|y l IH]; intros [|i] H; cbn in *; try reflexivity; [now inversion H|]. now rewrite IH.
  Qed.
  Lemma nth_upd_eq {A} (l : list A) i x : i < length l -> nth_error (upd l i x) i = Some x.
  Proof. revert i. induction l as [|y l IH]; intros [|i] H; cbn in *; try lia; [reflexivity|]. apply IH. lia. Qed.
  Lemma nth_upd_neq {A} (l : list A) i j x : i <> j -> nth_error (upd l i x) j = nth_error l j.
  Proof. revert i j. induction l as [|y l IH]; intros [|i] [|j] H; cbn; try reflexivity; try lia. apply IH. lia. Qed.
  Lemma upd_app_last {A} (l : list A) x y : upd (l ++ [x]) (length l) y = l ++ [y].
  Proof. induction l as [|z l IH]; cbn; [reflexivity|now rewrite IH]. Qed.
  Lemma upd_len {A} (l : list A) i x : length (upd l i x) = length l.
  Proof. revert i. induction l as [|y l IH]; intros [|i]; cbn; auto. Qed.
  Lemma put_same (h : heap) i o : get h i = Some o -> put C h i o = h.
  Proof. intros H. unfold put. rewrite upd_same by exact H. now destruct h. Qed.

  Lemma set_mode_id fuel h i md h' : homogeneous h md -> set_mode fuel h i md = Some h' -> h' = h.
  Proof.
    revert h i h'. induction fuel as [|fuel IH]; intros h i h' Hh H; cbn in H; [discriminate|].
    destruct (get h i) as [o|] eqn:E; [|discriminate]. pose proof (Hh i o E) as Hm. destruct o as [c m|l m|p f m]; cbn in Hm; subst m.
    - injection H as <-. now apply put_same.
    - destruct (getl h l) as [ps|] eqn:El; [cbn [obind] in H|discriminate H]. rewrite put_same in H by exact E.
      clear El E. revert H. assert (G : forall oh, (forall k, oh = Some k -> k = h) ->
        fold_left (fun oh p => obind oh (fun h0 => set_mode fuel h0 p md)) ps oh = Some h' -> h' = h).
      { induction ps as [|p ps IHp]; cbn; intros oh Hoh H; [now apply Hoh|]. apply IHp in H; [exact H|].
        intros k Hk. destruct oh as [k0|]; [|discriminate]. cbn in Hk. rewrite (Hoh k0 eq_refl) in Hk. now apply IH in Hk. }
      intros H. eapply G; [|exact H]. now intros k [= ->].
    - rewrite put_same in H by exact E. now apply IH in H.
  Qed.

  (** what evaluates can also be set *)
  Lemma set_mode_ok fuel h i md x : homogeneous h md -> eval fuel h i = Some x -> set_mode fuel h i md = Some h.
  Proof.
    revert i x. induction fuel as [|fuel IH]; intros i x Hh H; cbn in *; [discriminate|].
    destruct (get h i) as [o|] eqn:E; [|discriminate]. pose proof (Hh i o E) as Hm. destruct o as [c m|l m|p f m]; cbn in Hm; subst m.
    - now rewrite put_same.
    - destruct (getl h l) as [ps|]; [cbn [obind] in *|discriminate H]. rewrite put_same by exact E. revert x H.
      induction ps as [|p ps IHp]; cbn; intros x H; [reflexivity|].
      destruct (eval fuel h p) as [y|] eqn:Ep; [cbn [obind] in H|discriminate]. rewrite (IH p y Hh Ep).
      destruct (fold_right _ _ ps) as [z|]; [|discriminate]. now apply IHp with z.
    - rewrite put_same by exact E. destruct (eval fuel h p) as [y|] eqn:Ep; [|discriminate]. now apply IH with y.
  Qed.

  Definition total (fuel : nat) (h : heap) (ps : list nat) : option R :=
    fold_right (fun p acc => obind (eval fuel h p) (fun x => obind acc (fun y => Some (x + y)%R))) (Some 0%R) ps.
  Lemma eval_S fuel h i x : eval fuel h i = Some x -> eval (S fuel) h i = Some x.
  Proof.
    revert i x. induction fuel as [|fuel IH]; intros i x H; [discriminate|].
    cbn in H. change (eval (S (S fuel)) h i) with
      (match get h i with None => None | Some (OPrim c md) => Some (val c md)
       | Some (OSum l _) => obind (getl h l) (fun ps => total (S fuel) h ps)
       | Some (OScaled p f _) => obind (eval (S fuel) h p) (fun x => Some (x * f)%R) end).
    destruct (get h i) as [[c m|l m|p f m]|]; try discriminate.
    - exact H.
    - destruct (getl h l) as [ps|]; [cbn [obind] in *|discriminate]. revert x H. unfold total.
      induction ps as [|p ps IHp]; intros x H; [exact H|]. cbn [fold_right] in *.
      destruct (eval fuel h p) as [y|] eqn:Ep; [cbn [obind] in H|discriminate]. rewrite (IH p y Ep).
      destruct (fold_right _ _ ps) as [z|] eqn:Ez; [|discriminate]. cbn [obind] in *. now rewrite (IHp z eq_refl).
    - destruct (eval fuel h p) as [y|] eqn:Ep; [|discriminate]. now rewrite (IH p y Ep).
  Qed.
  Lemma total_S fuel h ps x : total fuel h ps = Some x -> total (S fuel) h ps = Some x.
  Proof.
    revert x. induction ps as [|p ps IHp]; intros x H; [exact H|]. unfold total in *. cbn [fold_right] in *.
    destruct (eval fuel h p) as [y|] eqn:Ep; [cbn [obind] in H|discriminate]. rewrite (eval_S fuel h p y Ep).
    destruct (fold_right _ _ ps) as [z|] eqn:Ez; [|discriminate]. cbn [obind] in *. now rewrite (IHp z eq_refl).
  Qed.
  Lemma total_app fuel h ps qs x y : total fuel h ps = Some x -> total fuel h qs = Some y -> total fuel h (ps ++ qs) = Some (x + y)%R.
  Proof.
    revert x. induction ps as [|p ps IHp]; intros x H Hy; cbn [app].
    - cbn in H. injection H as <-. rewrite Hy. f_equal. lra.
    - unfold total in *. cbn [fold_right] in *.
      destruct (eval fuel h p) as [v|] eqn:Ep; [cbn [obind] in *|discriminate].
      destruct (fold_right _ _ ps) as [z|] eqn:Ez; [|discriminate]. cbn [obind] in *. injection H as <-.
      rewrite (IHp z eq_refl Hy). cbn [obind]. f_equal. lra.
  Qed.
  Lemma total_In fuel h ps x p : total fuel h ps = Some x -> In p ps -> exists y, eval fuel h p = Some y.
  Proof.
    revert x. induction ps as [|q ps IHp]; [intros x _ []|]. intros x H Hp. unfold total in *. cbn [fold_right] in H.
    destruct (eval fuel h q) as [v|] eqn:Ep; [cbn [obind] in H|discriminate].
    destruct Hp as [->|Hp]; [now exists v|].
    destruct (fold_right _ _ ps) as [z|] eqn:Ez; [|discriminate]. now apply IHp with z.
  Qed.

  (** more objects and lists *)
  Definition extends (h h' : heap) : Prop := exists X Y, objs h' = objs h ++ X /\ lists h' = lists h ++ Y.
  Lemma eval_ext h h' fuel i : closed h -> extends h h' -> i < length (objs h) -> eval fuel h' i = eval fuel h i.
  Proof.
    intros Hc (X & Y & EX & EY). revert i. induction fuel as [|fuel IH]; intros i Hi; [reflexivity|]. cbn.
    assert (Eg : get h' i = get h i) by (unfold get; rewrite EX; now apply nth_error_app1). rewrite Eg.
    destruct (get h i) as [o|] eqn:E; [|reflexivity]. pose proof (Hc i o E) as Ho. destruct o as [c m|l m|p f m].
    - reflexivity.
    - destruct Ho as (ps & El & _ & Hp). assert (El' : getl h' l = Some ps).
      { unfold getl in *. rewrite EY. rewrite nth_error_app1; [exact El|]. apply nth_error_Some. now rewrite El. }
      rewrite El, El'. cbn [obind]. clear El El'. induction ps as [|p ps IHp]; [reflexivity|]. cbn [fold_right].
      rewrite IH by (apply Hp; now left). rewrite IHp by (intros q Hq; apply Hp; now right). reflexivity.
    - now rewrite IH.
  Qed.
  Lemma total_ext h h' fuel ps : closed h -> extends h h' -> (forall p, In p ps -> p < length (objs h)) -> total fuel h' ps = total fuel h ps.
  Proof.
    intros Hc He Hp. induction ps as [|p ps IHp]; [reflexivity|]. unfold total in *. cbn [fold_right].
    rewrite (eval_ext h h') by (auto; apply Hp; now left). rewrite IHp by (intros q Hq; apply Hp; now right). reflexivity.
  Qed.

  Lemma has_mode_hom h md i o m : homogeneous h md -> get h i = Some o -> has_mode C h m i = mode_eqb md m.
  Proof. intros Hh E. unfold has_mode. rewrite E. now rewrite (Hh i o E). Qed.
  Lemma joined_hom h md ps x fuel : homogeneous h md -> ps <> [] -> total fuel h ps = Some x -> joined C h ps = md.
  Proof.
    intros Hh Hne Ht.
    assert (Hg : forall p, In p ps -> exists o, get h p = Some o).
    { intros p Hp. destruct (total_In fuel h ps x p Ht Hp) as [y Hy]. destruct fuel; [discriminate|]. cbn in Hy.
      destruct (get h p) as [o|]; [now exists o|discriminate]. }
    assert (He : forall m, existsb (has_mode C h m) ps = mode_eqb md m).
    { intros m. destruct (mode_eqb md m) eqn:Em.
      - destruct ps as [|p ps]; [contradiction|]. cbn. destruct (Hg p (or_introl eq_refl)) as [o Ho]. now rewrite (has_mode_hom h md p o m Hh Ho), Em.
      - apply not_true_iff_false. intros H. apply existsb_exists in H. destruct H as (p & Hp & H). destruct (Hg p Hp) as [o Ho].
        rewrite (has_mode_hom h md p o m Hh Ho) in H. congruence. }
    unfold joined. rewrite !He. now destruct md.
  Qed.

  (** creating a sum over existing potentials *)
  Lemma new_sum_ok fuel h md l ps x : closed h -> homogeneous h md -> getl h l = Some ps -> ps <> [] ->
    (forall p, In p ps -> p < length (objs h)) -> total fuel h ps = Some x ->
    exists h', new_sum C (S fuel) h l = Some (h', length (objs h)) /\ extends h h' /\ lists h' = lists h /\
      eval (S fuel) h' (length (objs h)) = Some x.
  Proof.
    intros Hc Hh El Hne Hp Ht. unfold new_sum. rewrite El. cbn [obind new]. rewrite (joined_hom h md ps x fuel Hh Hne Ht).
    set (h1 := mkHeap C (objs h ++ [OSum C l Off]) (lists h)).
    set (h2 := mkHeap C (objs h ++ [OSum C l md]) (lists h)).
    assert (Eg : get h1 (length (objs h)) = Some (OSum C l Off)) by (unfold get, h1; cbn; rewrite nth_error_app2, Nat.sub_diag by lia; reflexivity).
    assert (Eg2 : get h2 (length (objs h)) = Some (OSum C l md)) by (unfold get, h2; cbn; rewrite nth_error_app2, Nat.sub_diag by lia; reflexivity).
    assert (E2 : put C h1 (length (objs h)) (OSum C l md) = h2) by (unfold put, h1, h2; cbn; now rewrite upd_app_last).
    assert (He : extends h h2) by (exists [OSum C l md], []; cbn; split; [reflexivity|now rewrite app_nil_r]).
    assert (Hh2 : homogeneous h2 md).
    { intros i o H. destruct (Nat.lt_ge_cases i (length (objs h))) as [Hi|Hi].
      - apply (Hh i). unfold get, h2 in H. cbn in H. rewrite nth_error_app1 in H by assumption. exact H.
      - unfold get, h2 in H. cbn in H. rewrite nth_error_app2 in H by assumption. destruct (i - length (objs h)) as [|j]; cbn in H.
        + injection H as <-. reflexivity.
        + destruct j; discriminate. }
    assert (Ht2 : total fuel h2 ps = Some x) by (rewrite (total_ext h h2) by assumption; exact Ht).
    exists h2. split; [|split; [exact He|split; [reflexivity|]]].
    - cbn [set_mode M_PotentialHeap.set_mode]. rewrite Eg. change (getl h1 l) with (getl h l). rewrite El. cbn [obind]. rewrite E2.
      assert (F : fold_left (fun oh p => obind oh (fun h0 => set_mode fuel h0 p md)) ps (Some h2) = Some h2).
      { clear - Ht2 Hh2. revert x Ht2. induction ps as [|p ps IHp]; intros x Ht2; [reflexivity|]. cbn.
        unfold total in Ht2. cbn [fold_right] in Ht2. destruct (eval fuel h2 p) as [y|] eqn:Ep; [cbn [obind] in Ht2|discriminate].
        rewrite (set_mode_ok fuel h2 p md y Hh2 Ep). destruct (fold_right _ _ ps) as [z|] eqn:Ez; [|discriminate].
        now apply IHp with z. }
      rewrite F. reflexivity.
    - cbn. rewrite Eg2. change (getl h2 l) with (getl h l). rewrite El. exact Ht2.
  Qed.

  Lemma eval_lt fuel h i x : eval fuel h i = Some x -> i < length (objs h).
  Proof.
    destruct fuel; [discriminate|]. cbn. intros H. destruct (get h i) eqn:E; [|discriminate]. unfold get in E. apply nth_error_Some. now rewrite E.
  Qed.
  Lemma sum_parts fuel h i l x : closed h -> is_sum C h i = Some l -> eval fuel h i = Some x ->
    exists ps, getl h l = Some ps /\ ps <> [] /\ (forall p, In p ps -> p < length (objs h)) /\ total fuel h ps = Some x.
  Proof.
    intros Hc Hs He. destruct fuel; [discriminate|]. unfold is_sum in Hs. destruct (get h i) as [o|] eqn:E; [|discriminate].
    pose proof (Hc i o E) as Ho. destruct o as [c m|l' m|p f m]; try discriminate. injection Hs as ->. destruct Ho as (ps & El & Hne & Hp).
    exists ps. split; [exact El|]. split; [exact Hne|]. split; [exact Hp|]. apply total_S. cbn in He. rewrite E, El in He. exact He.
  Qed.
  Lemma hom_lists h L md : homogeneous h md -> homogeneous (mkHeap C (objs h) L) md.
  Proof. intros H i o Hi. now apply (H i). Qed.
  Lemma closed_newl h v : closed h -> closed (mkHeap C (objs h) (lists h ++ [v])).
  Proof.
    intros Hc i o Hi. specialize (Hc i o Hi). destruct o as [c m|l m|p f m]; [exact I| |exact Hc].
    destruct Hc as (ps & El & Hne & Hp). exists ps. split; [|split; [exact Hne|exact Hp]]. unfold getl in *. cbn. rewrite nth_error_app1; [exact El|].
    apply nth_error_Some. now rewrite El.
  Qed.
  Lemma extends_trans h1 h2 h3 : extends h1 h2 -> extends h2 h3 -> extends h1 h3.
  Proof.
    intros (X & Y & A & B) (X' & Y' & A' & B'). exists (X ++ X'), (Y ++ Y'). rewrite A', A, B', B, !app_assoc. split; reflexivity.
  Qed.
  Lemma total1 fuel h a x : eval fuel h a = Some x -> total fuel h [a] = Some x.
  Proof. intros H. unfold total. cbn. rewrite H. cbn. f_equal. lra. Qed.
End H.
