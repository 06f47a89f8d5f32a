(** C20: the array of populations is ordered like the map of orbitals. *)
From Coq Require Import String List Arith ZArith Lia Reals Lra QArith Bool.
From Verif Require Import M_ElementTables M_Elements L_Elements M_Orbital P_Elements.
Import ListNotations.
Open Scope list_scope.
Open Scope nat_scope.

Theorem C20_named_orbitals : forall (A : Type) (kw : string -> A) name i,
  get String.eqb name orbital_map = Some i -> nth_error (orbital_array kw) i = Some (kw ("n" ++ name)%string).
Proof.
  intros A kw name i. unfold orbital_map. cbn [get].
  repeat (match goal with |- context [String.eqb name ?s] => destruct (String.eqb_spec name s) as [->|?] end; [intros [= <-]; reflexivity|]).
  discriminate.
Qed.
Print Assumptions C20_named_orbitals.
Example C20_named_met : get String.eqb "3d"%string orbital_map = Some 5 /\
  nth_error (orbital_array (fun n => if String.eqb n "n3d" then 7 else 0)) 5 = Some 7.
Proof. split; reflexivity. Qed.
(** Every orbital has its own place, and every place an orbital. *)
Theorem C20_orbital_places : forall i, i < 10 <-> exists name, get String.eqb name orbital_map = Some i /\
  forall other, get String.eqb other orbital_map = Some i -> other = name.
Proof.
  intros i. split.
  - intros H. exists (nth i (map fst orbital_map) EmptyString).
    do 10 (destruct i as [|i]; [split; [reflexivity|intros other; unfold orbital_map; cbn [get];
      repeat (match goal with |- context [String.eqb other ?s] => destruct (String.eqb_spec other s) as [->|?] end; [intros E; try discriminate E; reflexivity|]); discriminate]|]). lia.
  - intros (name & E & _). revert E. unfold orbital_map. cbn [get].
    repeat (match goal with |- context [String.eqb name ?s] => destruct (String.eqb_spec name s) as [->|?] end; [intros [= <-]; lia|]). discriminate.
Qed.
Print Assumptions C20_orbital_places.
(** The tabulated neutral atom has all its electrons, and none for other numbers. *)
Lemma neutral_table : forallb (fun z => match electron_distribution (Z.of_nat z) with
  | Some c => Nat.eqb (fold_right Nat.add 0 c) z && Nat.eqb (length c) 10 | None => false end) (seq 1 36) = true.
Proof. vm_compute. reflexivity. Qed.
Theorem C20_electron_distribution : forall z c, electron_distribution z = Some c ->
  (1 <= z <= 36)%Z /\ Z.of_nat (fold_right Nat.add 0 c) = z /\ length c = 10.
Proof.
  intros z c E.
  assert (R : (1 <= z <= 36)%Z).
  { unfold electron_distribution, getZ in E. destruct (get Z.eqb z _) as [cs|] eqn:G; [|discriminate].
    assert (I : In z (map fst (map (fun p : nat * list (list nat) => (Z.of_nat (fst p), snd p)) tab_econf))).
    { revert G. generalize (map (fun p : nat * list (list nat) => (Z.of_nat (fst p), snd p)) tab_econf). induction l as [|[k v] l IH]; cbn [get map fst]; [discriminate|].
      destruct (Z.eqb_spec z k); [left; now subst|right; now apply IH]. }
    rewrite map_map in I. cbn [fst] in I. apply in_map_iff in I as (p & <- & Hp).
    assert (T : forallb (fun p : nat * list (list nat) => (1 <=? fst p) && (fst p <=? 36)) tab_econf = true) by (vm_compute; reflexivity).
    rewrite forallb_forall in T. specialize (T p Hp). apply andb_true_iff in T as [T1 T2]. apply Nat.leb_le in T1, T2. lia. }
  split; [exact R|]. pose proof neutral_table as T. rewrite forallb_forall in T.
  specialize (T (Z.to_nat z) ltac:(apply in_seq; lia)). rewrite Z2Nat.id, E in T by lia. apply andb_true_iff in T as [T1 T2]. apply Nat.eqb_eq in T1, T2. split; [lia|exact T2].
Qed.
Print Assumptions C20_electron_distribution.
Example C20_electron_distribution_met : electron_distribution 26 = Some [2; 2; 6; 2; 6; 6; 2; 0; 0; 0].
Proof. vm_compute. reflexivity. Qed.
