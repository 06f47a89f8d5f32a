(** Properties C47-C49, C80 and C81: pair potentials. *)
From Coq Require Import Reals List Bool Arith ZArith Lra Lia Psatz.
From Coquelicot Require Import Coquelicot.
From Verif Require Import M_Const M_PlasmaState M_Interp L_Gauss L_Fourier M_Potentials M_PotentialHeap L_PotentialHeap L_Potentials.
Import ListNotations.
Open Scope R_scope.

(** ** C49 *)
(** Nothing is modified when the left operand is not a sum, or both are. *)
Theorem C49_partial : forall C val (h : heap C) md a b fuel x y,
  closed C h -> homogeneous C h md -> (is_sum C h a = None \/ is_sum C h b <> None) ->
  eval C val fuel h a = Some x -> eval C val fuel h b = Some y ->
  exists h' s, add C (S fuel) h a b = Some (h', s) /\
    eval C val (S fuel) h' s = Some (x + y) /\
    forall i g, (i < length (objs C h))%nat -> eval C val g h' i = eval C val g h i /\ get C h' i = get C h i.
Proof.
  intros C val h md a b f x y Hc Hh Hab Ha Hb.
  assert (K : forall v, v <> [] -> (forall p, In p v -> (p < length (objs C h))%nat) -> total C val f h v = Some (x + y) ->
    exists h' s, new_sum C (S f) (mkHeap C (objs C h) (lists C h ++ [v])) (length (lists C h)) = Some (h', s) /\
    eval C val (S f) h' s = Some (x + y) /\
    forall i g, (i < length (objs C h))%nat -> eval C val g h' i = eval C val g h i /\ get C h' i = get C h i).
  { intros v Hne Hv Ht. set (h1 := mkHeap C (objs C h) (lists C h ++ [v])).
    assert (He : extends C h h1) by (exists [], [v]; cbn; split; [now rewrite app_nil_r|reflexivity]).
    assert (Hg : getl C h1 (length (lists C h)) = Some v) by (unfold getl, h1; cbn; rewrite nth_error_app2, Nat.sub_diag by lia; reflexivity).
    destruct (new_sum_ok C val f h1 md (length (lists C h)) v (x + y)) as (h' & E1 & E2 & E3 & E4); try assumption.
    - now apply closed_newl.
    - rewrite (total_ext C val h h1) by assumption. exact Ht.
    - exists h', (length (objs C h1)). split; [exact E1|]. split; [exact E4|]. intros i g Hi.
      pose proof (extends_trans C h h1 h' He E2) as He'. split; [now apply eval_ext|].
      destruct He' as (X & _ & EX & _). unfold get. rewrite EX. now apply nth_error_app1. }
  pose proof (eval_lt C val f h a x Ha) as La. pose proof (eval_lt C val f h b y Hb) as Lb.
  unfold add. destruct (is_sum C h a) as [la|] eqn:Sa.
  - destruct Hab as [Hab|Hab]; [discriminate|]. destruct (is_sum C h b) as [lb|] eqn:Sb; [clear Hab|contradiction].
    destruct (sum_parts C val f h a la x Hc Sa Ha) as (pa & Ea & Na & Pa & Ta).
    destruct (sum_parts C val f h b lb y Hc Sb Hb) as (pb & Eb & Nb & Pb & Tb).
    rewrite Ea, Eb. cbn [obind newl]. apply K.
    + destruct pa; [contradiction|discriminate].
    + intros p Hp. apply in_app_or in Hp. destruct Hp; auto.
    + now apply total_app.
  - cbn [newl]. set (h1 := mkHeap C (objs C h) (lists C h ++ [[a]])).
    assert (Hg : getl C h1 (length (lists C h)) = Some [a]) by (unfold getl, h1; cbn; rewrite nth_error_app2, Nat.sub_diag by lia; reflexivity).
    rewrite Hg. destruct (is_sum C h b) as [lb|] eqn:Sb.
    + destruct (sum_parts C val f h b lb y Hc Sb Hb) as (pb & Eb & Nb & Pb & Tb). cbn [obind].
      assert (Eb1 : getl C h1 lb = Some pb).
      { unfold getl, h1 in *. cbn. rewrite nth_error_app1; [exact Eb|]. apply nth_error_Some. now rewrite Eb. }
      rewrite Eb1. cbn [obind newl app].
      assert (Hv : forall p, In p (a :: pb) -> (p < length (objs C h))%nat) by (intros p [<-|Hp]; auto).
      assert (Ht : total C val f h (a :: pb) = Some (x + y)) by (apply (total_app C val f h [a] pb); [now apply total1|exact Tb]).
      set (v := a :: pb) in *.
      (* one unused list more *)
      set (h2 := mkHeap C (objs C h1) (lists C h1 ++ [v])).
      assert (He : extends C h h2) by (exists [], ([[a]] ++ [v]); cbn; rewrite app_nil_r, <- app_assoc; split; reflexivity).
      assert (Hg2 : getl C h2 (length (lists C h1)) = Some v) by (unfold getl, h2; cbn; rewrite nth_error_app2, Nat.sub_diag by lia; reflexivity).
      assert (Hc2 : closed C h2) by (apply (closed_newl C h1 v); now apply closed_newl).
      destruct (new_sum_ok C val f h2 md (length (lists C h1)) v (x + y)) as (h' & E1 & E2 & E3 & E4); try assumption.
      * discriminate.
      * rewrite (total_ext C val h h2) by assumption. exact Ht.
      * exists h', (length (objs C h2)). split; [exact E1|]. split; [exact E4|]. intros i g Hi.
        pose proof (extends_trans C h h2 h' He E2) as He'. split; [now apply eval_ext|].
        destruct He' as (X & _ & EX & _). unfold get. rewrite EX. now apply nth_error_app1.
    + cbn [obind app]. unfold putl, h1. cbn [objs lists]. rewrite upd_app_last. apply K.
      * discriminate.
      * intros p [<-|[<-|[]]]; assumption.
      * apply (total_app C val f h [a] [b]); now apply total1.
Qed.
Print Assumptions C49_partial.

(** Multiples leave everything as it was. *)
Theorem C49_multiples : forall C val (h : heap C) md a x y fuel,
  closed C h -> homogeneous C h md -> eval C val fuel h a = Some y ->
  exists h' s, mul C (S fuel) h a x = Some (h', s) /\ eval C val (S fuel) h' s = Some (y * x) /\
    forall i g, (i < length (objs C h))%nat -> eval C val g h' i = eval C val g h i /\ get C h' i = get C h i.
Proof.
  intros C val h md a x y f Hc Hh Ha.
  assert (K : forall p w v, eval C val f h p = Some w -> exists h' s, obind (get C h p) (fun o =>
    let '(h1, s) := new C h (OScaled C p v Off) in
    obind (set_mode C (S f) h1 s (mode_of C o)) (fun h2 => Some (h2, s))) = Some (h', s) /\ eval C val (S f) h' s = Some (w * v) /\
    forall i g, (i < length (objs C h))%nat -> eval C val g h' i = eval C val g h i /\ get C h' i = get C h i).
  { intros p w v Hp. pose proof (eval_lt C val f h p w Hp) as Hl.
    destruct (get C h p) as [o|] eqn:Eo; [|unfold get in Eo; apply nth_error_None in Eo; lia].
    cbn [obind new]. rewrite (Hh p o Eo).
    set (h1 := mkHeap C (objs C h ++ [OScaled C p v md]) (lists C h)).
    assert (He : extends C h h1) by (exists [OScaled C p v md], []; cbn; rewrite app_nil_r; split; reflexivity).
    assert (Hg : get C h1 (length (objs C h)) = Some (OScaled C p v md)) by (unfold get, h1; cbn; rewrite nth_error_app2, Nat.sub_diag by lia; reflexivity).
    assert (Hh1 : homogeneous C h1 md).
    { intros i o' Hi. unfold get, h1 in Hi. cbn in Hi. destruct (Nat.lt_ge_cases i (length (objs C h))) as [H|H].
      - rewrite nth_error_app1 in Hi by exact H. now apply (Hh i).
      - rewrite nth_error_app2 in Hi by exact H. destruct (i - length (objs C h))%nat as [|[|k]]; cbn in Hi; try discriminate. now injection Hi as <-. }
    assert (Ep : eval C val f h1 p = Some w) by (rewrite (eval_ext C val h h1); assumption).
    exists h1, (length (objs C h)). split; [|split].
    - cbn [set_mode]. unfold get at 1. cbn [objs]. rewrite nth_error_app2, Nat.sub_diag by lia. cbn [nth_error].
      unfold put. cbn [objs lists]. rewrite upd_app_last. fold h1. now rewrite (set_mode_ok C val f h1 p md w Hh1 Ep).
    - cbn [eval]. rewrite Hg, Ep. reflexivity.
    - intros i g Hi. split; [now apply eval_ext|]. unfold get, h1. cbn. now apply nth_error_app1. }
  unfold mul. destruct (get C h a) as [o|] eqn:E; [|destruct f; [discriminate|]; cbn in Ha; rewrite E in Ha; discriminate].
  destruct o as [c m|l m|p w m]; try now apply K.
  destruct f as [|f]; [discriminate|]. cbn [eval] in Ha. rewrite E in Ha.
  destruct (eval C val f h p) as [z|] eqn:Ez; [|discriminate]. injection Ha as <-.
  destruct (K p z (x * w) (eval_S C val f h p z Ez)) as (h' & s & H1 & H2 & H3). exists h', s. split; [exact H1|]. split; [|exact H3].
  rewrite H2. f_equal. ring.
Qed.
Print Assumptions C49_multiples.

(** With a sum on the left and a single potential on the right, the sum itself
    grows and shares its list with the result. *)
Theorem C49_refuted : forall C (val : C -> mode -> R) c1 c2 c3 md,
  let h0 := mkHeap C [OPrim C c1 md; OPrim C c2 md; OPrim C c3 md] [] in
  exists h1 s h2 t, add C 2 h0 0 1 = Some (h1, s) /\ add C 2 h1 s 2 = Some (h2, t) /\ s <> t /\
    eval C val 2 h1 s = Some (val c1 md + (val c2 md + 0)) /\
    eval C val 2 h2 s = Some (val c1 md + (val c2 md + (val c3 md + 0))) /\
    is_sum C h2 s = is_sum C h2 t.
Proof.
  intros C val c1 c2 c3 md h0.
  set (o := [OPrim C c1 md; OPrim C c2 md; OPrim C c3 md; OSum C 0 md]).
  exists (mkHeap C o [[0%nat; 1%nat]]), 3%nat, (mkHeap C (o ++ [OSum C 0 md]) [[0%nat; 1%nat; 2%nat]]), 4%nat.
  destruct md; (split; [reflexivity|]; split; [reflexivity|]; split; [discriminate|]; split; [reflexivity|]; split; reflexivity).
Qed.
Print Assumptions C49_refuted.

(** ... in general: *)
Theorem C49_left_sum_grows_refuted : forall C fuel (h : heap C) a b l pa h' t,
  is_sum C h a = Some l -> is_sum C h b = None -> getl C h l = Some pa ->
  add C fuel h a b = Some (h', t) ->
  getl C h' l = Some (pa ++ [b]) /\ is_sum C h' t = Some l /\ is_sum C h' a = Some l.
Proof.
  intros C fuel h a b l pa h' t Sa Sb El H. unfold add in H. rewrite Sa, Sb, El in H. cbn [obind] in H.
  set (h1 := putl C h l (pa ++ [b])) in *.
  assert (Hl : (l < length (lists C h))%nat) by (apply nth_error_Some; unfold getl in El; now rewrite El).
  assert (El1 : getl C h1 l = Some (pa ++ [b])) by (unfold getl, h1, putl; cbn; now apply nth_upd_eq).
  unfold new_sum in H. rewrite El1 in H. cbn [obind new] in H.
  set (h2 := mkHeap C (objs C h1 ++ [OSum C l Off]) (lists C h1)) in *.
  destruct (set_mode C fuel h2 _ _) as [h3|] eqn:E; [|discriminate]. cbn [obind] in H. injection H as <- <-.
  (* the setters change neither lists nor which list a sum has *)
  assert (K : forall fuel h i md h', set_mode C fuel h i md = Some h' -> lists C h' = lists C h /\ forall j, is_sum C h' j = is_sum C h j).
  { clear. induction fuel as [|fuel IH]; intros h i md h' H; [discriminate|]. cbn in H.
    assert (P : forall h i o o', get C h i = Some o -> (match o with OSum l _ => Some l | _ => None end) = (match o' with OSum l _ => Some l | _ => None end) ->
      forall j, is_sum C (put C h i o') j = is_sum C h j).
    { clear. intros h i o o' Hg Ho j. unfold is_sum, get, put in *. cbn. destruct (Nat.eq_dec i j) as [<-|Hn].
      - rewrite nth_upd_eq by (apply nth_error_Some; now rewrite Hg). rewrite Hg. now destruct o, o'.
      - now rewrite nth_upd_neq by assumption. }
    destruct (get C h i) as [o|] eqn:E; [|discriminate]. destruct o as [c m|l m|p f m].
    - injection H as <-. split; [reflexivity|]. now apply (P _ _ _ _ E).
    - destruct (getl C h l) as [ps|]; [cbn [obind] in H|discriminate].
      assert (G : forall ps k, fold_left (fun oh p => obind oh (fun h0 => set_mode C fuel h0 p md)) ps (Some k) = Some h' ->
        lists C h' = lists C k /\ forall j, is_sum C h' j = is_sum C k j).
      { clear - IH. induction ps as [|p ps IHp]; cbn; intros k H; [injection H as <-; split; reflexivity|].
        destruct (set_mode C fuel k p md) as [k'|] eqn:Ek.
        - destruct (IHp k' H) as [E1 E2]. destruct (IH _ _ _ _ Ek) as [E3 E4]. split; [congruence|]. intros j. now rewrite E2, E4.
        - exfalso. clear - H. induction ps as [|q ps IHp]; cbn in H; [discriminate|now apply IHp]. }
      destruct (G ps _ H) as [E1 E2]. split; [exact E1|]. intros j. rewrite E2. now apply (P _ _ _ _ E).
    - destruct (IH _ _ _ _ H) as [E1 E2]. split; [exact E1|]. intros j. rewrite E2. now apply (P _ _ _ _ E). }
  destruct (K _ _ _ _ _ E) as [K1 K2]. split; [|split].
  - unfold getl. rewrite K1. exact El1.
  - rewrite K2. unfold is_sum, get, h2. cbn. rewrite nth_error_app2, Nat.sub_diag by lia. reflexivity.
  - rewrite K2. unfold is_sum, get, h2 in *. cbn. destruct (nth_error (objs C h) a) as [o|] eqn:Eo; [|discriminate].
    rewrite nth_error_app1 by (apply nth_error_Some; now rewrite Eo). now rewrite Eo.
Qed.
Print Assumptions C49_left_sum_grows_refuted.

(** (a + b) + (a + b) * x: the sum becomes a part of itself and the addition
    never returns, whatever the recursion limit. *)
Theorem C49_cycle_refuted : forall C (c1 c2 : C) md x fuel,
  let h0 := mkHeap C [OPrim C c1 md; OPrim C c2 md] [] in
  exists h1 s h2 t, add C 2 h0 0 1 = Some (h1, s) /\ mul C 3 h1 s x = Some (h2, t) /\ add C fuel h2 s t = None.
Proof.
  intros C c1 c2 md x fuel h0.
  set (h1 := mkHeap C [OPrim C c1 md; OPrim C c2 md; OSum C 0 md] [[0%nat; 1%nat]]).
  set (h2 := mkHeap C [OPrim C c1 md; OPrim C c2 md; OSum C 0 md; OScaled C 2 x md] [[0%nat; 1%nat]]).
  exists h1, 2%nat, h2, 3%nat. split; [now destruct md|]. split; [now destruct md|].
  set (h3 := mkHeap C [OPrim C c1 md; OPrim C c2 md; OSum C 0 md; OScaled C 2 x md] [[0%nat; 1%nat; 3%nat]]).
  change (add C fuel h2 2 3) with (new_sum C fuel h3 0). unfold new_sum.
  change (getl C h3 0) with (Some [0%nat; 1%nat; 3%nat]). unfold new, h3. cbn [obind objs lists app length].
  match goal with |- context [joined C ?h ?l] => generalize (joined C h l) end. intros md'.
  assert (K : forall n fuel m m' m0 m1 m4, (fuel <= n)%nat -> set_mode C fuel (mkHeap C [OPrim C c1 m0; OPrim C c2 m1; OSum C 0 m; OScaled C 2 x m'; OSum C 0 m4] [[0%nat; 1%nat; 3%nat]]) 2 md' = None).
  { induction n as [|n IH]; intros [|f] m m' m0 m1 m4 Hf; try reflexivity; try lia.
    cbn [set_mode get objs nth_error getl lists obind put upd fold_left].
    destruct f as [|f]; [reflexivity|].
    cbn [set_mode get objs nth_error getl lists obind put upd fold_left]. apply IH. lia. }
  destruct fuel as [|f]; [reflexivity|].
  cbn [set_mode get objs nth_error getl lists obind put upd fold_left].
  destruct f as [|f]; [reflexivity|].
  cbn [set_mode get objs nth_error getl lists obind put upd fold_left].
  unfold put. cbn [objs lists upd]. now rewrite (K f) by lia.
Qed.
Print Assumptions C49_cycle_refuted.

(** The electrons' treatment is pushed into the operands. *)
Theorem C49_mode_refuted : forall C (val : C -> mode -> R) c1 c2,
  let h0 := mkHeap C [OPrim C c1 Off; OPrim C c2 SpinSeparated] [] in
  exists h1 s, add C 2 h0 0 1 = Some (h1, s) /\
    eval C val 1 h0 0 = Some (val c1 Off) /\ eval C val 1 h1 0 = Some (val c1 SpinSeparated).
Proof. intros. do 2 eexists. repeat split. Qed.
Print Assumptions C49_mode_refuted.

Example C49_ex : let val := fun (c : R) (_ : mode) => c in
  let h := mkHeap R [OPrim R 1 Off; OPrim R 2 Off; OSum R 0 Off; OScaled R 2 3 Off] [[0%nat; 1%nat]] in
  closed R h /\ homogeneous R h Off /\ is_sum R h 0 = None /\ is_sum R h 2 = Some 0%nat /\ eval R val 3 h 3 = Some ((1 + (2 + 0)) * 3).
Proof.
  repeat split.
  - intros [|[|[|[|i]]]] o H; cbn in H; try (injection H as <-); try exact I; try (cbn; lia).
    + exists [0%nat; 1%nat]. split; [reflexivity|]. split; [discriminate|]. intros p [<-|[<-|[]]]; cbn; lia.
    + destruct i; discriminate.
  - intros [|[|[|[|i]]]] o H; cbn in H; try (injection H as <-); try reflexivity. destruct i; discriminate.
Qed.

(** ** C47 *)
Theorem C47_partial : forall u E a b p f g h,
  peval (full_r u) E a b p = Some f -> peval (short_r u) E a b p = Some g -> peval (long_r u) E a b p = Some h ->
  forall r, f r = g r + h r.
Proof.
  intros u E a b p. induction p as [c md|l IH|p x IH] using pot_ind'; intros f g h.
  - cbn. apply parts_add_up.
  - cbn. revert f g h. induction IH as [|p l Hp _ IHl]; cbn; intros f g h.
    + intros [= <-] [= <-] [= <-] r. lra.
    + destruct (peval (full_r u) E a b p) as [f1|], (peval (short_r u) E a b p) as [g1|], (peval (long_r u) E a b p) as [h1|]; try discriminate.
      destruct (osum (map (peval (full_r u) E a b) l)) as [f2|], (osum (map (peval (short_r u) E a b) l)) as [g2|], (osum (map (peval (long_r u) E a b) l)) as [h2|]; try discriminate.
      cbn. intros [= <-] [= <-] [= <-] r. rewrite (Hp f1 g1 h1 eq_refl eq_refl eq_refl r), (IHl f2 g2 h2 eq_refl eq_refl eq_refl r). ring.
  - cbn. destruct (peval (full_r u) E a b p) as [f1|], (peval (short_r u) E a b p) as [g1|], (peval (long_r u) E a b p) as [h1|]; try discriminate.
    cbn. intros [= <-] [= <-] [= <-] r. rewrite (IH f1 g1 h1 eq_refl eq_refl eq_refl r). ring.
Qed.
Print Assumptions C47_partial.

(** Both parts exist whenever the potential does, soft cores excepted. *)
Fixpoint no_soft (p : pot) : Prop :=
  match p with
  | Prim (SoftCore _) _ => False
  | Prim _ _ => True
  | PSum l => fold_right (fun p P => no_soft p /\ P) True l
  | Scaled p _ => no_soft p
  end.
Theorem C47_parts_exist : forall u E a b p f, no_soft p -> peval (full_r u) E a b p = Some f ->
  (exists g, peval (short_r u) E a b p = Some g) /\ exists h, peval (long_r u) E a b p = Some h.
Proof.
  intros u E a b p. induction p as [c md|l IH|p x IH] using pot_ind'; intros f Hs.
  - cbn. now apply parts_exist.
  - cbn in *. revert f. induction IH as [|p l Hp _ IHl]; cbn; intros f.
    + intros _. split; now eexists.
    + destruct Hs as [Hs1 Hs2]. destruct (peval (full_r u) E a b p) as [f1|]; [|discriminate].
      destruct (osum (map (peval (full_r u) E a b) l)) as [f2|]; [|discriminate]. intros _.
      destruct (Hp f1 Hs1 eq_refl) as [[g1 ->] [h1 ->]]. destruct (IHl Hs2 f2 eq_refl) as [[g2 ->] [h2 ->]].
      split; now eexists.
  - cbn in *. destruct (peval (full_r u) E a b p) as [f1|]; [|discriminate]. intros _.
    destruct (IH f1 Hs eq_refl) as [[g1 ->] [h1 ->]]. split; now eexists.
Qed.
Print Assumptions C47_parts_exist.

(** A sum is the sum of its terms, a multiple the multiple. *)
Theorem C47_sum : forall (m : method) E a b l f, peval m E a b (PSum l) = Some f ->
  exists gs, List.Forall2 (fun p g => peval m E a b p = Some g) l gs /\
    forall r, f r = fold_right Rplus 0 (map (fun g => g r) gs).
Proof.
  intros m E a b l. cbn. induction l as [|p l IH]; cbn; intros f H.
  - injection H as <-. exists []. split; [constructor|reflexivity].
  - destruct (peval m E a b p) as [g|] eqn:Eg; [|discriminate]. destruct (osum _) as [k|] eqn:Ek; [|discriminate]. injection H as <-.
    destruct (IH k eq_refl) as (gs & H1 & H2). exists (g :: gs). split; [now constructor|]. intros r. cbn. now rewrite H2.
Qed.
Print Assumptions C47_sum.
Theorem C47_multiple : forall (m : method) E a b p x f, peval m E a b (Scaled p x) = Some f ->
  exists g, peval m E a b p = Some g /\ forall r, f r = x * g r.
Proof.
  intros m E a b p x f. cbn. destruct (peval m E a b p) as [g|]; [|discriminate]. intros [= <-]. exists g. split; [reflexivity|]. intros r. ring.
Qed.
Print Assumptions C47_multiple.

(** The Yukawa potential has parts of which the sum cannot be formed. *)
Theorem C47_yukawa_refuted : forall u md E a b sigma,
  full_r u md E a b (Yukawa sigma) = None /\
  (exists g, short_r u md E a b (Yukawa sigma) = Some g) /\ exists h, long_r u md E a b (Yukawa sigma) = Some h.
Proof. intros. split; [reflexivity|]. split; eexists; reflexivity. Qed.
Print Assumptions C47_yukawa_refuted.

(** The soft core potential has no short-ranged part, nor Fourier parts. *)
Theorem C47_soft_core_refuted : forall u tr md E a b beta,
  (exists f, full_r u md E a b (SoftCore beta) = Some f) /\ short_r u md E a b (SoftCore beta) = None /\
  long_k u tr md E a b (SoftCore beta) = None /\ short_k u tr md E a b (SoftCore beta) = None.
Proof. intros. split; [eexists; reflexivity|]. repeat split. Qed.
Print Assumptions C47_soft_core_refuted.

Definition ex_state : pstate := mkPS [mkEl 1 1 1] [1] [1] 1 [1] [1 / 2].
Definition ex_env : env := mkEnv ex_state [1] 1 [1 / 2] (fun _ _ => 1).
Example C47_ex : exists f g h,
  peval (full_r unit_consts) ex_env 0 1 (PSum [Scaled (Prim Deutsch SpinAveraged) 2; Prim EmptyCore SpinAveraged; PSum [Prim Kelbg SpinAveraged; Prim DebyeHueckel SpinAveraged]]) = Some f /\
  peval (short_r unit_consts) ex_env 0 1 (PSum [Scaled (Prim Deutsch SpinAveraged) 2; Prim EmptyCore SpinAveraged; PSum [Prim Kelbg SpinAveraged; Prim DebyeHueckel SpinAveraged]]) = Some g /\
  peval (long_r unit_consts) ex_env 0 1 (PSum [Scaled (Prim Deutsch SpinAveraged) 2; Prim EmptyCore SpinAveraged; PSum [Prim Kelbg SpinAveraged; Prim DebyeHueckel SpinAveraged]]) = Some h.
Proof. do 3 eexists. split; [reflexivity|]. split; reflexivity. Qed.

(** ** C48 *)
(** The potentials with a closed transform; [fourier f k F]: F is the transform
    of f at k. *)
Theorem C48_coulomb : forall u md E a b tr k f F, 0 < k ->
  full_r u md E a b Coulomb = Some f -> full_k u tr tr md E a b Coulomb = Some F -> fourier f k (F k).
Proof.
  intros u md E a b tr k f F Hk [= <-] [= <-]. pose proof (eps0_pos u) as He. pose proof PI_RGT_0.
  set (q := q2 u md E a b).
  eapply fourier_eq; [apply (fourier_two _ k (q / (4 * PI * eps0 u)) 0 0 0 Hk); [|lra|lra]|].
  - intros r Hr. unfold coulomb_r. fold q. rewrite Ropp_0, !Rmult_0_l, exp_0. field. lra.
  - unfold coulomb_kk. fold q. field. lra.
Qed.
Print Assumptions C48_coulomb.

Theorem C48_long_coulomb : forall u md E a b tr k c f F, 0 < k -> (c = Coulomb \/ c = Kelbg \/ c = Deutsch) ->
  long_r u md E a b c = Some f -> long_k u tr md E a b c = Some F -> fourier f k (F k).
Proof.
  intros u md E a b tr k c f F Hk Hc Hf HF.
  assert (E1 : forall r, f r = coulomb_r u md E a b r * (1 - exp (- alpha md E a b * r))) by
    (destruct Hc as [->|[->| ->]]; injection Hf as <-; reflexivity).
  assert (E2 : F = coulomb_long_k u md E a b) by (destruct Hc as [->|[->| ->]]; injection HF as <-; reflexivity).
  rewrite E2. clear Hf HF Hc E2. pose proof (eps0_pos u) as He. pose proof PI_RGT_0. pose proof (alpha_pos md E a b) as Ha.
  eapply fourier_eq; [apply (fourier_two _ k (q2 u md E a b / (4 * PI * eps0 u)) (- (q2 u md E a b / (4 * PI * eps0 u))) 0 (alpha md E a b) Hk); [|lra|lra]|].
  - intros r Hr. rewrite E1. unfold coulomb_r. rewrite Ropp_0, Rmult_0_l, exp_0. field. lra.
  - unfold coulomb_long_k. pose proof (den_sk (alpha md E a b) k Hk) as D. cbn in D. field. cbn. repeat split; lra.
Qed.
Print Assumptions C48_long_coulomb.

Theorem C48_debye : forall u md E a b tr k f F, 0 < k -> 0 < e_len E a b ->
  full_r u md E a b DebyeHueckel = Some f -> full_k u tr tr md E a b DebyeHueckel = Some F ->
  fourier f k (F k) /\
  is_RInt_gen (fun r => 4 * PI / k * (r * f r * sin (k * r))) (at_right 0) (Rbar_locally p_infty) (F k).
Proof.
  intros u md E a b tr k f F Hk Hl Hf HF.
  assert (Ef : f = fun r => coulomb_r u md E a b r * exp (- kappa E a b * r)) by (injection Hf as <-; reflexivity).
  assert (EF : F = fun k => coulomb_kk u md E a b k / (1 + (kappa E a b / k) ^ 2)) by (injection HF as <-; reflexivity). subst f F. clear Hf HF. cbv beta.
  pose proof (eps0_pos u) as He. pose proof PI_RGT_0.
  pose proof (kappa_pos E a b Hl) as Hx.
  set (q := q2 u md E a b). set (x := kappa E a b) in *.
  assert (HR : forall r, 0 < r -> r * (coulomb_r u md E a b r * exp (- x * r)) = q / (4 * PI * eps0 u) * exp (- x * r) + 0 * exp (- x * r)).
  { intros r Hr. unfold coulomb_r. fold q. field. lra. }
  assert (HE : 4 * PI * (q / (4 * PI * eps0 u) / (x ^ 2 + k ^ 2) + 0 / (x ^ 2 + k ^ 2)) = coulomb_kk u md E a b k / (1 + (x / k) ^ 2)).
  { unfold coulomb_kk. fold q. clearbody x q. pose proof (den_sk x k Hk) as D. cbn in D. field. cbn. repeat split; lra. }
  rewrite <- HE. split.
  - apply fourier_two; try assumption; lra.
  - apply direct_two; assumption.
Qed.
Print Assumptions C48_debye.

Theorem C48_long_debye : forall u md E a b tr k f F, 0 < k -> 0 < e_len E a b ->
  long_r u md E a b DebyeHueckel = Some f -> long_k u tr md E a b DebyeHueckel = Some F ->
  fourier f k (F k) /\
  is_RInt_gen (fun r => 4 * PI / k * (r * f r * sin (k * r))) (at_right 0) (Rbar_locally p_infty) (F k).
Proof.
  intros u md E a b tr k f F Hk Hl Hf HF.
  assert (Ef : f = fun r => coulomb_r u md E a b r * exp (- kappa E a b * r) * (1 - exp (- alpha md E a b * r))) by (injection Hf as <-; reflexivity).
  assert (EF : F = fun k => q2 u md E a b / (k ^ 2 * eps0 u) * k ^ 2 * (alpha md E a b ^ 2 + 2 * alpha md E a b * kappa E a b)
          / ((k ^ 2 + kappa E a b ^ 2) * (k ^ 2 + (kappa E a b + alpha md E a b) ^ 2))) by (injection HF as <-; reflexivity). subst f F. clear Hf HF. cbv beta.
  pose proof (eps0_pos u) as He. pose proof PI_RGT_0.
  pose proof (kappa_pos E a b Hl) as Hx. pose proof (alpha_pos md E a b) as Ha.
  set (q := q2 u md E a b). set (x := kappa E a b) in *. set (al := alpha md E a b) in *.
  assert (HR : forall r, 0 < r -> r * (coulomb_r u md E a b r * exp (- x * r) * (1 - exp (- al * r)))
    = q / (4 * PI * eps0 u) * exp (- x * r) + - (q / (4 * PI * eps0 u)) * exp (- (x + al) * r)).
  { intros r Hr. unfold coulomb_r. fold q. replace (- (x + al) * r) with (- x * r + - al * r) by ring. rewrite exp_plus. field. lra. }
  assert (HE : 4 * PI * (q / (4 * PI * eps0 u) / (x ^ 2 + k ^ 2) + - (q / (4 * PI * eps0 u)) / ((x + al) ^ 2 + k ^ 2))
    = q / (k ^ 2 * eps0 u) * k ^ 2 * (al ^ 2 + 2 * al * x) / ((k ^ 2 + x ^ 2) * (k ^ 2 + (x + al) ^ 2))).
  { clearbody x q al. pose proof (den_sk x k Hk) as D. pose proof (den_sk (x + al) k Hk) as D'. cbn in D, D'. field. cbn. repeat split; lra. }
  rewrite <- HE. split.
  - apply fourier_two; try assumption; lra.
  - apply direct_two; try assumption; lra.
Qed.
Print Assumptions C48_long_debye.

Theorem C48_long_yukawa : forall u md E a b tr k sigma f F, 0 < k -> 0 < e_len E a b ->
  long_r u md E a b (Yukawa sigma) = Some f -> long_k u tr md E a b (Yukawa sigma) = Some F -> fourier f k (F k).
Proof.
  intros u md E a b tr k sigma f F Hk Hl Hf HF. now apply (C48_debye u md E a b tr k f F).
Qed.
Print Assumptions C48_long_yukawa.

Theorem C48_empty_core : forall u md E a b tr k f F, 0 < k -> 0 <= r_cut E a b ->
  full_r u md E a b EmptyCore = Some f -> full_k u tr tr md E a b EmptyCore = Some F -> fourier f k (F k).
Proof.
  intros u md E a b tr k f F Hk Hc [= <-] [= <-]. pose proof (eps0_pos u) as He. pose proof PI_RGT_0.
  eapply fourier_eq; [apply (fourier_core _ k (q2 u md E a b / (4 * PI * eps0 u)) (r_cut E a b) Hk Hc)|].
  - intros r Hr. destruct (Rlt_dec _ _); [lra|]. ring.
  - intros r Hr. destruct (Rlt_dec _ _); [|lra]. unfold coulomb_r. field. lra.
  - unfold coulomb_kk. field. lra.
Qed.
Print Assumptions C48_empty_core.
Theorem C48_long_empty_core : forall u tr md E a b k f F, 0 < k -> 0 <= r_cut E a b ->
  long_r u md E a b EmptyCore = Some f -> long_k u tr md E a b EmptyCore = Some F -> fourier f k (F k).
Proof.
  intros u tr md E a b k f F Hk Hc Hf HF. apply (C48_empty_core u md E a b tr k f F Hk Hc); [exact Hf|]. cbn in HF |- *. exact HF.
Qed.
Print Assumptions C48_long_empty_core.

(** The transform of Deutsch's potential is pi times what the code returns. *)
Theorem C48_deutsch_refuted : forall u md E a b tr k f F, 0 < k -> 0 < lambda_ab u md E a b ->
  full_r u md E a b Deutsch = Some f -> full_k u tr tr md E a b Deutsch = Some F ->
  fourier f k (PI * F k) /\ (q2 u md E a b <> 0 -> ~ fourier f k (F k)).
Proof.
  intros u md E a b tr k f F Hk Hl Hf HF.
  assert (Ef : f = fun r => coulomb_r u md E a b r * (1 - exp (- r / (lambda_ab u md E a b / sqrt PI)))) by (injection Hf as <-; reflexivity).
  assert (EF : F = fun k => q2 u md E a b / (k ^ 2 * eps0 u) * (1 / lambda_ab u md E a b) ^ 2
          / (k ^ 2 + (1 / (lambda_ab u md E a b / sqrt PI)) ^ 2)) by (injection HF as <-; reflexivity). subst f F. clear Hf HF. cbv beta.
  pose proof (eps0_pos u) as He. pose proof PI_RGT_0 as HP.
  pose proof (sqrt_lt_R0 PI HP) as Hs. pose proof (sqrt_sqrt PI (Rlt_le _ _ HP)) as Hss.
  set (q := q2 u md E a b). set (l := lambda_ab u md E a b) in *. set (sp := sqrt PI) in *.
  set (x := sp / l). assert (Hx : 0 < x) by now apply Rdiv_lt_0_compat.
  pose proof (den_sk x k Hk) as D.
  assert (HF : PI * (q / (k ^ 2 * eps0 u) * (1 / l) ^ 2 / (k ^ 2 + (1 / (l / sp)) ^ 2)) = 4 * PI * (q / (4 * PI * eps0 u) / (0 ^ 2 + k ^ 2) + - (q / (4 * PI * eps0 u)) / (x ^ 2 + k ^ 2))).
  { replace (1 / (l / sp)) with x by (unfold x; field; lra).
    replace (PI * (q / (k ^ 2 * eps0 u) * (1 / l) ^ 2 / (k ^ 2 + x ^ 2))) with (q / (k ^ 2 * eps0 u) * (sp * sp / (l * l)) / (k ^ 2 + x ^ 2)) by (rewrite Hss; field; cbn in *; lra).
    replace (sp * sp / (l * l)) with (x ^ 2) by (unfold x; field; lra).
    clearbody x q. field. cbn in *; lra. }
  assert (G : fourier (fun r => coulomb_r u md E a b r * (1 - exp (- r / (l / sp)))) k (PI * (q / (k ^ 2 * eps0 u) * (1 / l) ^ 2 / (k ^ 2 + (1 / (l / sp)) ^ 2)))).
  { rewrite HF. apply fourier_two; try lra. intros r Hr. unfold coulomb_r. fold q. rewrite Ropp_0, Rmult_0_l, exp_0.
    replace (- r / (l / sp)) with (- x * r) by (unfold x; field; lra). field. lra. }
  split; [exact G|]. intros Hq G'. pose proof (fourier_unique _ _ _ _ G G') as EQ.
  set (V := q / (k ^ 2 * eps0 u) * (1 / l) ^ 2 / (k ^ 2 + (1 / (l / sp)) ^ 2)) in *.
  assert (HV : V <> 0).
  { assert (HPF : 0 < (1 / l) ^ 2 / (k ^ 2 * eps0 u) / (x ^ 2 + k ^ 2)).
    { apply Rdiv_lt_0_compat; [|exact D]. apply Rdiv_lt_0_compat; [apply pow_lt, Rdiv_lt_0_compat; lra|].
      apply Rmult_lt_0_compat; [now apply pow_lt|exact He]. }
    assert (EV : V = q * ((1 / l) ^ 2 / (k ^ 2 * eps0 u) / (x ^ 2 + k ^ 2))).
    { unfold V. replace (1 / (l / sp)) with x by (unfold x; field; lra). rewrite (Rplus_comm (k ^ 2)). unfold Rdiv. ring. }
    rewrite EV. clear - Hq HPF. clearbody q. intros E0. apply Rmult_integral in E0. destruct E0; [contradiction|lra]. }
  pose proof PI2_3_2 as H32. assert (1 < PI) by lra. apply HV. nra.
Qed.
Print Assumptions C48_deutsch_refuted.

Example C48_ex : let u := unit_consts in 0 < e_len ex_env 0 1 /\ r_cut ex_env 0 1 = 1 / 2 /\ q2 u SpinAveraged ex_env 0 1 = -1 /\ 0 < lambda_ab u SpinAveraged ex_env 0 1.
Proof.
  cbn. split; [lra|]. split; [reflexivity|]. unfold q2, lambda_ab, mu, T_ab. cbn. split; [lra|].
  apply Rmult_lt_0_compat; [lra|]. apply sqrt_lt_R0. apply Rdiv_lt_0_compat; lra.
Qed.

(** ** C80: potentials do not depend on the order of the species *)
Theorem C80_symmetric : forall u tr tg md E a b c,
  e_len E a b = e_len E b a ->
  (forall f g, c = Pauli f g -> f md E a b = f md E b a /\ g md E a b = g md E b a) ->
  full_r u md E a b c = full_r u md E b a c /\ short_r u md E a b c = short_r u md E b a c /\
  long_r u md E a b c = long_r u md E b a c /\ full_k u tr tg md E a b c = full_k u tr tg md E b a c /\
  short_k u tr md E a b c = short_k u tr md E b a c /\ long_k u tr md E a b c = long_k u tr md E b a c.
Proof. exact sym_all. Qed.
Print Assumptions C80_symmetric.
Theorem C80_symmetric_exprs : forall (m : method) E a b p,
  (forall md c, m md E a b c = m md E b a c) -> peval m E a b p = peval m E b a p.
Proof.
  intros m E a b p H. induction p as [c md|l IH|p x IH] using pot_ind'; cbn.
  - apply H.
  - induction IH as [|p l Hp _ IHl]; cbn; [reflexivity|]. now rewrite Hp, IHl.
  - now rewrite IH.
Qed.
Print Assumptions C80_symmetric_exprs.
Example C80_ex : e_len ex_env 0 1 = e_len ex_env 1 0 /\ (0 <> 1)%nat /\ charges SpinAveraged ex_env = [1; -1].
Proof. repeat split. discriminate. Qed.

(** ** C81: screening and quantum effects only weaken the Coulomb interaction *)
Theorem C81_weaker : forall u md E a b c f r, 0 < r -> q2 u md E a b <> 0 -> 0 < e_len E a b ->
  0 < lambda_ab u md E a b -> 0 < T_ab u md E a b ->
  (c = DebyeHueckel \/ c = Kelbg \/ c = KlimontovichKraeft \/ c = Deutsch) ->
  full_r u md E a b c = Some f -> 0 < Rabs (f r) < Rabs (coulomb_r u md E a b r).
Proof. exact weaker_strict. Qed.
Print Assumptions C81_weaker.
Theorem C81_cores : forall u md E a b c f r,
  (c = EmptyCore \/ exists beta, c = SoftCore beta) ->
  full_r u md E a b c = Some f -> Rabs (f r) <= Rabs (coulomb_r u md E a b r).
Proof. exact weaker_cores. Qed.
Print Assumptions C81_cores.
(** ... and all but one keep its sign *)
Theorem C81_sign : forall u md E a b c f r, 0 < r -> 0 < lambda_ab u md E a b ->
  (c = DebyeHueckel \/ c = Kelbg \/ c = Deutsch \/ c = EmptyCore \/ exists beta, c = SoftCore beta) ->
  full_r u md E a b c = Some f -> 0 <= f r * coulomb_r u md E a b r.
Proof. exact same_sign. Qed.
Print Assumptions C81_sign.
Theorem C81_klimontovich_kraeft_sign_refuted : forall u md E a b f r, 0 < r -> q2 u md E a b <> 0 ->
  0 < lambda_ab u md E a b -> 0 < T_ab u md E a b ->
  full_r u md E a b KlimontovichKraeft = Some f -> f r < 0.
Proof. exact kk_attractive. Qed.
Print Assumptions C81_klimontovich_kraeft_sign_refuted.
Example C81_ex : let u := unit_consts in q2 u SpinAveraged ex_env 0 1 <> 0 /\ q2 u SpinAveraged ex_env 1 1 = 1 /\ 0 < T_ab u SpinAveraged ex_env 0 1 /\
  0 < lambda_ab u SpinAveraged ex_env 0 1 /\ 0 <= r_cut ex_env 0 1.
Proof.
  destruct C48_ex as (_ & H1 & H2 & H3). cbv zeta. split; [rewrite H2; lra|]. split; [unfold q2; cbn; lra|].
  split; [unfold T_ab; cbn; lra|]. split; [exact H3|rewrite H1; lra].
Qed.
