(** Arrays of quantities: C137. *)
From Coq Require Import Reals List ZArith Lra.
From Verif Require Import M_Units.
Import ListNotations.
Open Scope R_scope.

(** The magnitude of an entry in base units, and its dimension. *)
Definition base (e : entry) : R := match e with Num x => x | Qty x u => x * factor u end.
Definition dimension (e : entry) : list Z := match e with Num _ => [] | Qty _ u => dim u end.
Definition is_quantity (e : entry) : Prop := match e with Num _ => False | Qty _ u => 0 < factor u end.

Lemma comprehension_some v l : 0 < factor v -> (forall e, In e l -> is_quantity e /\ dimension e = dim v) ->
  exists ys, comprehension v l = inl ys /\ map (fun y => y * factor v) ys = map base l.
Proof.
  intros Hv. induction l as [|e l IH]; intros H; [now exists []|].
  destruct IH as (ys & E & M); [intros e' He; apply H; now right|].
  destruct (H e ltac:(now left)) as [Hq Hd]. destruct e as [x|x u]; [contradiction|]. cbn in Hq, Hd.
  cbn [comprehension m_as]. unfold convert, dim_eqb. destruct (list_eq_dec Z.eq_dec (dim u) (dim v)); [|contradiction].
  rewrite E. exists (x * factor u / factor v :: ys). split; [reflexivity|]. cbn [map base]. rewrite M. f_equal. field. lra.
Qed.
(** A list of quantities of one dimension becomes one array in the unit of the first
    entry, in which every entry keeps its value and its place. *)
Theorem C137_quantities : forall raw x v l, 0 < factor v ->
  (forall e, In e l -> is_quantity e /\ dimension e = dim v) ->
  exists ys, to_array raw (OList (Qty x v :: l)) = Some (Arr1 (x :: ys), Some v) /\
             map (fun y => y * factor v) ys = map base l.
Proof.
  intros raw x v l Hv H. destruct (comprehension_some v l Hv H) as (ys & E & M).
  exists ys. split; [|exact M]. cbn [to_array comprehension m_as]. unfold convert, dim_eqb.
  destruct (list_eq_dec Z.eq_dec (dim v) (dim v)); [|contradiction]. rewrite E. do 4 f_equal. field. lra.
Qed.
Print Assumptions C137_quantities.
(** The values of the result do not depend on the units in which the entries are written. *)
Theorem C137_unit_independent : forall raw x v l x' v' l', 0 < factor v -> 0 < factor v' -> dim v = dim v' ->
  (forall e, In e l -> is_quantity e /\ dimension e = dim v) ->
  (forall e, In e l' -> is_quantity e /\ dimension e = dim v) ->
  x * factor v = x' * factor v' -> map base l = map base l' ->
  exists ys ys', to_array raw (OList (Qty x v :: l)) = Some (Arr1 ys, Some v) /\
    to_array raw (OList (Qty x' v' :: l')) = Some (Arr1 ys', Some v') /\
    map (fun y => y * factor v) ys = map (fun y => y * factor v') ys'.
Proof.
  intros raw x v l x' v' l' Hv Hv' Hd H H' Hx Hl.
  destruct (C137_quantities raw x v l Hv H) as (ys & E & M).
  destruct (C137_quantities raw x' v' l' Hv') as (ys' & E' & M'); [now rewrite <- Hd|].
  exists (x :: ys), (x' :: ys'). split; [exact E|]. split; [exact E'|]. cbn [map]. congruence.
Qed.
Print Assumptions C137_unit_independent.
(** Two quantities of different dimension are never put into one array: the call raises,
    unless a plain number stands before the offending entry. *)
Theorem C137_dimensions : forall raw x v l1 y u l2, 0 < factor v ->
  (forall e, In e l1 -> is_quantity e /\ dimension e = dim v) -> dim u <> dim v ->
  to_array raw (OList (Qty x v :: l1 ++ Qty y u :: l2)) = None.
Proof.
  intros raw x v l1 y u l2 Hv H Hu. cbn [to_array].
  assert (E : comprehension v (Qty x v :: l1 ++ Qty y u :: l2) = inr OtherError).
  { change (Qty x v :: l1 ++ Qty y u :: l2) with ((Qty x v :: l1) ++ Qty y u :: l2).
    assert (H' : forall e, In e (Qty x v :: l1) -> is_quantity e /\ dimension e = dim v).
    { intros e [<-|He]; [now split|now apply H]. }
    clear H. revert H'. generalize (Qty x v :: l1). intros l. induction l as [|e l IH]; intros H.
    - cbn. unfold convert, dim_eqb. destruct (list_eq_dec Z.eq_dec (dim u) (dim v)); [contradiction|reflexivity].
    - cbn [app comprehension]. destruct (H e ltac:(now left)) as [Hq Hd]. destruct e as [z|z w]; [contradiction|]. cbn in Hd.
      unfold m_as, convert, dim_eqb. destruct (list_eq_dec Z.eq_dec (dim w) (dim v)); [|contradiction].
      now rewrite IH by (intros e' He; apply H; now right). }
  now rewrite E.
Qed.
Print Assumptions C137_dimensions.
(** A list of numbers is returned as it is, without unit. *)
Theorem C137_numbers : forall raw x xs, to_array raw (OList (map Num (x :: xs))) = Some (Arr1 (x :: xs), None).
Proof.
  intros raw x xs. cbn [map to_array]. unfold array_of_list.
  assert (E : forall l, numbers (map Num l) = Some l).
  { induction l as [|a l IH]; [reflexivity|]. cbn [map numbers]. now rewrite IH. }
  change (Num x :: map Num xs) with (map Num (x :: xs)). now rewrite E.
Qed.
Print Assumptions C137_numbers.
(** What has been made an array is left alone, and a single quantity keeps its unit. *)
Theorem C137_idempotent : forall raw o m u, to_array raw o = Some (m, u) -> (forall l r, raw l <> Some r) ->
  to_array raw (match u with Some u => OQuantity m u | None => OOther m end) = Some (m, u).
Proof.
  intros raw o m u E Hr. assert (Hm : forall x, m <> Py x).
  { intros x ->. destruct o as [m' u'|l|m']; cbn in E.
    - destruct m'; inversion E.
    - destruct l as [|[z|z w] l]; [discriminate| |].
      + unfold array_of_list in E. destruct (numbers _); [inversion E|]. now apply Hr in E.
      + destruct (comprehension w _) as [ys|[| |]]; try discriminate. unfold array_of_list in E. destruct (numbers _); [inversion E|]. now apply Hr in E.
    - destruct m'; inversion E. }
  destruct u as [u|]; cbn; destruct m; try reflexivity; now apply Hm in E || (exfalso; now apply (Hm x)).
Qed.
Print Assumptions C137_idempotent.
(** The empty list has no first unit, and raises instead of giving an empty array. *)
Theorem C137_empty : forall raw, to_array raw (OList []) = None.
Proof. reflexivity. Qed.
Print Assumptions C137_empty.

Definition metre : unit_ := {| dim := [1%Z; 0%Z]; factor := 1 |}.
Definition cm : unit_ := {| dim := [1%Z; 0%Z]; factor := 1 / 100 |}.
Definition second : unit_ := {| dim := [0%Z; 1%Z]; factor := 1 |}.
Example C137_ex : to_array (fun _ => None) (OList [Qty 2 cm; Qty 3 metre]) = Some (Arr1 [2; 300], Some cm).
Proof.
  destruct (C137_quantities (fun _ => None) 2 cm [Qty 3 metre]) as (ys & E & M).
  - cbn. lra.
  - intros e [<-|[]]. cbn. split; [lra|reflexivity].
  - destruct ys as [|y [|z ys]]; try discriminate. cbn in M. injection M as M. rewrite E. assert (y = 300) as -> by lra. reflexivity.
Qed.
Example C137_ex_dim : to_array (fun _ => None) (OList [Qty 2 cm; Qty 3 second]) = None /\ dim second <> dim cm.
Proof. split; [reflexivity|discriminate]. Qed.
