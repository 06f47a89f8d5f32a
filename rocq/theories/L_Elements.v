From Coq Require Import String Reals List Arith ZArith QArith Bool Lia Lra Psatz.
From Verif Require Import M_Helpers M_Interp L_Interp M_ElementTables M_Elements.
Import ListNotations.
Open Scope list_scope.
Open Scope nat_scope.

(** ** Lookups *)
Lemma get_in {K V} (eqb : K -> K -> bool) (d : list (K * V)) k v :
  (forall a b, eqb a b = true -> a = b) -> get eqb k d = Some v -> In (k, v) d.
Proof.
  intros He. induction d as [|[k' v'] d IH]; cbn; [discriminate|]. destruct (eqb k k') eqn:E.
  - intros [= ->]. left. f_equal. symmetry. now apply He.
  - intros H. right. now apply IH.
Qed.
Lemma get_none {K V} (eqb : K -> K -> bool) (d : list (K * V)) k :
  (forall a b, eqb a b = true -> a = b) -> ~ In k (map fst d) -> get eqb k d = None.
Proof.
  intros He. induction d as [|[k' v'] d IH]; cbn; [reflexivity|]. intros H. destruct (eqb k k') eqn:E.
  - exfalso. apply H. left. symmetry. now apply He.
  - apply IH. tauto.
Qed.

Definition zs : list Z := map Z.of_nat (seq 1 36).
Lemma zs_spec z : In z zs <-> (1 <= z <= 36)%Z.
Proof.
  unfold zs. rewrite in_map_iff. split.
  - intros (n & <- & Hn). apply in_seq in Hn. lia.
  - intros H. exists (Z.to_nat z). split; [lia|]. apply in_seq. lia.
Qed.
Lemma symbols_keys : map fst (map (fun p => (Z.of_nat (fst p), snd p)) tab_symbols) = zs.
Proof. reflexivity. Qed.
Lemma element_int_none z : ~ (1 <= z <= 36)%Z -> element (IdInt z) = None.
Proof.
  intros H. unfold element, getZ. rewrite get_none; [reflexivity|apply Z.eqb_eq|]. rewrite symbols_keys, zs_spec. assumption.
Qed.
Definition inv_symbols : list (string * nat) := map (fun p => (snd p, fst p)) tab_symbols.
Lemma invert_symbols : invert_dict String.eqb tab_symbols = Some inv_symbols.
Proof. vm_compute. reflexivity. Qed.
Lemma element_str_none s : ~ In s (map snd tab_symbols) -> element (IdStr s) = None.
Proof.
  intros H. unfold element. rewrite invert_symbols. cbn [bind]. rewrite get_none; [reflexivity|apply String.eqb_eq|].
  unfold inv_symbols. rewrite map_map. exact H.
Qed.

(** every supported element, both ways *)
Definition both (n : nat) : Prop :=
  exists e, element (IdInt (Z.of_nat n)) = Some e /\ eZ e = Z.of_nat n /\ In (esymbol e) (map snd tab_symbols) /\
    get Nat.eqb n tab_symbols = Some (esymbol e) /\ element (IdStr (esymbol e)) = Some e.
Lemma both_all n : 1 <= n <= 36 -> both n.
Proof.
  intros H. assert (Hin : In n (seq 1 36)) by (apply in_seq; lia). clear H. revert n Hin.
  apply Forall_forall. cbn [seq].
  repeat (constructor; [unfold both; eexists; split; [vm_compute; reflexivity|split; [reflexivity|split; [vm_compute; tauto|split; vm_compute; reflexivity]]]|]).
  constructor.
Qed.
Lemma element_by_number z e : element (IdInt z) = Some e ->
  eZ e = z /\ (1 <= z <= 36)%Z /\ element (IdStr (esymbol e)) = Some e.
Proof.
  intros H. destruct (Z_le_dec 1 z) as [h1|h1]; [destruct (Z_le_dec z 36) as [h2|h2]|]; try (rewrite element_int_none in H by lia; discriminate).
  destruct (both_all (Z.to_nat z) ltac:(lia)) as (e' & H1 & H2 & H3 & H4 & H5). rewrite Z2Nat.id in * by lia.
  rewrite H in H1. injection H1 as <-. auto.
Qed.
Lemma element_by_symbol s e : element (IdStr s) = Some e ->
  esymbol e = s /\ In s (map snd tab_symbols) /\ element (IdInt (eZ e)) = Some e.
Proof.
  intros H. destruct (in_dec string_dec s (map snd tab_symbols)) as [h|h]; [|rewrite element_str_none in H by assumption; discriminate].
  assert (G : forall n, In (n, s) tab_symbols -> 1 <= n <= 36 /\ get Nat.eqb n tab_symbols = Some s).
  { intros n Hn. clear H h e. revert n s Hn.
    enough (forall p, In p tab_symbols -> 1 <= fst p <= 36 /\ get Nat.eqb (fst p) tab_symbols = Some (snd p)) by (intros n s Hn; apply (H (n, s) Hn)).
    apply Forall_forall. unfold tab_symbols at 1. repeat (constructor; [split; [cbn; lia|vm_compute; reflexivity]|]). constructor. }
  apply in_map_iff in h as ((n & s') & Hs & Hin). cbn in Hs. subst s'. destruct (G n Hin) as [Hn Hg].
  destruct (both_all n Hn) as (e' & H1 & H2 & H3 & H4 & H5). rewrite Hg in H4. injection H4 as H4. rewrite <- H4 in H5.
  rewrite H in H5. injection H5 as <-. rewrite H2. split; [now symmetry|]. split; [|assumption]. rewrite H4. assumption.
Qed.
Lemma element_defined z : (exists e, element (IdInt z) = Some e) <-> (1 <= z <= 36)%Z.
Proof.
  split; [intros [e H]; now apply element_by_number in H|].
  intros H. destruct (both_all (Z.to_nat z) ltac:(lia)) as (e' & H1 & _). rewrite Z2Nat.id in H1 by lia. now exists e'.
Qed.
Lemma element_str_defined s : (exists e, element (IdStr s) = Some e) <-> In s (map snd tab_symbols).
Proof.
  split; [intros [e H]; now apply element_by_symbol in H|]. intros H. apply in_map_iff in H as ((n & s') & Hs & Hin). cbn in Hs. subst s'.
  assert (G : 1 <= n <= 36 /\ get Nat.eqb n tab_symbols = Some s).
  { revert n s Hin.
    enough (forall p, In p tab_symbols -> 1 <= fst p <= 36 /\ get Nat.eqb (fst p) tab_symbols = Some (snd p)) by (intros n s Hn; apply (H (n, s) Hn)).
    apply Forall_forall. unfold tab_symbols at 1. repeat (constructor; [split; [cbn; lia|vm_compute; reflexivity]|]). constructor. }
  destruct (both_all n (proj1 G)) as (e' & _ & _ & _ & H4 & H5). rewrite (proj2 G) in H4. injection H4 as H4. rewrite <- H4 in H5. now exists e'.
Qed.

(** ** Shell populations *)
Open Scope R_scope.
Definition shell (a b x : R) : R := Rmax 0 (Rmin (b - a) (x - a)).
Lemma interp2 a b x : a < b -> interp None None [a; b] [0; b - a] x = shell a b x.
Proof.
  intros Hab. unfold interp, searchsorted. change (Nat.log2_up (length [a; b] + 1)) with 2%nat. cbn [length Nat.sub].
  unfold at_. cbn [nth]. unfold shell, Rmax, Rmin.
  destruct (Rgt_dec x b); [repeat destruct (Rle_dec _ _); lra|].
  destruct (Rlt_dec x a); [repeat destruct (Rle_dec _ _); lra|].
  match goal with |- context [Nat.min (Nat.max ?s 1) 1] => replace (Nat.min (Nat.max s 1) 1) with 1%nat by lia end. cbn [nth Nat.sub].
  destruct (Req_EM_T (b - a) 0); [lra|].
  replace (0 + (x - a) / (b - a) * (b - a - 0)) with (x - a) by (field; lra).
  repeat destruct (Rle_dec _ _); lra.
Qed.
Lemma interp_zero a b x : a < b -> interp None None [a; b] [0; 0] x = 0.
Proof.
  intros Hab. unfold interp. cbn [length Nat.sub]. set (i := Nat.min _ _).
  assert (Hy : forall j, at_ [0; 0] j = 0) by (intros [|[|[|j]]]; reflexivity). rewrite !Hy.
  destruct (Rgt_dec _ _); [reflexivity|]. destruct (Rlt_dec _ _); [reflexivity|]. destruct (Req_EM_T _ _); [reflexivity|]. ring.
Qed.
Lemma distribution_shells x : electron_distribution_ionized_state x =
  [shell 0 2 x; shell 2 4 x; shell 4 10 x; shell 10 12 x; shell 12 18 x; shell 20 30 x; shell 18 20 x; shell 30 36 x; 0; 0].
Proof.
  unfold electron_distribution_ionized_state.
  assert (E : forall a b m, a < b -> m = b - a -> interp None None [a; b] [0; m] x = shell a b x) by (intros a b m H ->; now apply interp2).
  rewrite !interp_zero by lra. rewrite !E by lra. reflexivity.
Qed.
Lemma shell_bounds a b x : a <= b -> 0 <= shell a b x <= b - a.
Proof. intros H. unfold shell, Rmax, Rmin. repeat destruct (Rle_dec _ _); lra. Qed.
Lemma shell_mono a b x y : x <= y -> shell a b x <= shell a b y.
Proof. intros H. unfold shell, Rmax, Rmin. repeat destruct (Rle_dec _ _); lra. Qed.
Lemma shell_join a b c x : a <= b <= c -> shell a b x + shell b c x = shell a c x.
Proof. intros H. unfold shell, Rmax, Rmin. repeat destruct (Rle_dec _ _); lra. Qed.
Definition rsum (l : list R) : R := fold_right Rplus 0 l.
Lemma distribution_sum x : rsum (electron_distribution_ionized_state x) = Rmax 0 (Rmin 36 x).
Proof.
  rewrite distribution_shells. unfold rsum. cbn [fold_right].
  replace (Rmax 0 (Rmin 36 x)) with (shell 0 36 x) by (unfold shell; f_equal; f_equal; lra).
  rewrite <- (shell_join 0 30 36), <- (shell_join 0 20 30), <- (shell_join 0 18 20), <- (shell_join 0 12 18), <- (shell_join 0 10 12),
    <- (shell_join 0 4 10), <- (shell_join 0 2 4) by lra. ring.
Qed.
Definition capacities : list nat := [2; 2; 6; 2; 6; 10; 2; 6; 10; 14]%nat.
Lemma distribution_bounds x : Forall2 (fun p c => 0 <= p <= INR c) (electron_distribution_ionized_state x) capacities.
Proof.
  rewrite distribution_shells. unfold capacities.
  repeat (constructor; [match goal with
    | |- 0 <= shell ?a ?b x <= _ => pose proof (shell_bounds a b x ltac:(lra)); cbn [INR]; lra
    | |- 0 <= 0 <= _ => cbn [INR]; lra end|]). constructor.
Qed.
Lemma distribution_mono x y : x <= y -> Forall2 Rle (electron_distribution_ionized_state x) (electron_distribution_ionized_state y).
Proof.
  intros H. rewrite !distribution_shells. repeat (constructor; [first [now apply shell_mono|lra]|]). constructor.
Qed.
Definition shellN (a b n : nat) : nat := Nat.min (b - a) (n - a).
Lemma shell_nat a b n : (a <= b)%nat -> shell (INR a) (INR b) (INR n) = INR (shellN a b n).
Proof.
  intros H. unfold shell, shellN. destruct (le_dec a n) as [h|h].
  - rewrite <- !minus_INR by assumption. rewrite Rmax_right by (apply Rmin_glb; apply pos_INR).
    destruct (le_dec (b - a) (n - a)) as [h2|h2].
    + rewrite Rmin_left by now apply le_INR. f_equal. lia.
    + rewrite Rmin_right by (apply le_INR; lia). f_equal. lia.
  - replace (Nat.min (b - a) (n - a)) with 0%nat by lia. cbn [INR]. apply Rmax_left.
    assert (INR n < INR a) by (apply lt_INR; lia). unfold Rmin. destruct (Rle_dec _ _); [|lra]. lra.
Qed.
Definition distN (n : nat) : list nat :=
  [shellN 0 2 n; shellN 2 4 n; shellN 4 10 n; shellN 10 12 n; shellN 12 18 n; shellN 20 30 n; shellN 18 20 n; shellN 30 36 n; O; O]%nat.
Lemma distribution_nat n : electron_distribution_ionized_state (INR n) = map INR (distN n).
Proof.
  rewrite distribution_shells. unfold distN. cbn [map].
  rewrite <- !shell_nat by lia. cbn [INR].
  repeat (f_equal; try reflexivity; try (f_equal; lra)).
Qed.

(** ** Table checks by computation *)
Open Scope nat_scope.
Lemma forallb_In {A} (f : A -> bool) l x : forallb f l = true -> In x l -> f x = true.
Proof. intros H. rewrite forallb_forall in H. apply H. Qed.
Definition eq_list_nat (a b : list nat) : bool := if list_eq_dec Nat.eq_dec a b then true else false.
Lemma map_INR_inj a b : map INR a = map INR b -> a = b.
Proof.
  revert b. induction a as [|x a IH]; intros [|y b] H; cbn [map] in H; try discriminate; [reflexivity|].
  injection H as H1 H2. f_equal; [now apply INR_eq|now apply IH].
Qed.

(** one electron fewer, in one orbital *)
Fixpoint one_less (c d : list nat) : bool :=
  match c, d with
  | x :: c', y :: d' => (Nat.eqb x y && one_less c' d') || (Nat.eqb x (S y) && eq_list_nat c' d')
  | _, _ => false
  end.
Lemma one_less_spec c d : one_less c d = true ->
  exists a x b, c = a ++ S x :: b /\ d = a ++ x :: b.
Proof.
  revert d. induction c as [|x c IH]; intros [|y d] H; cbn in H; try discriminate.
  apply orb_true_iff in H as [H|H]; apply andb_true_iff in H as [H1 H2]; apply Nat.eqb_eq in H1; subst x.
  - destruct (IH d H2) as (a & z & b & -> & ->). now exists (y :: a), z, b.
  - unfold eq_list_nat in H2. destruct (list_eq_dec Nat.eq_dec c d) as [->|]; [|discriminate]. now exists [], y, d.
Qed.
Fixpoint chain (f : list nat -> list nat -> bool) (l : list (list nat)) : bool :=
  match l with a :: (b :: _) as t => f a b && chain f t | _ => true end.
Lemma chain_spec f l q c d : chain f l = true -> nth_error l q = Some c -> nth_error l (S q) = Some d -> f c d = true.
Proof.
  revert q. induction l as [|a l IH]; intros q H Hc Hd; [destruct q; discriminate|].
  destruct l as [|b l]; [destruct q as [|q]; cbn in Hd; [discriminate|destruct q; discriminate]|].
  cbn [chain] in H. apply andb_true_iff in H as [H1 H2]. destruct q as [|q].
  - cbn in Hc, Hd. injection Hc as <-. injection Hd as <-. exact H1.
  - apply (IH q H2 Hc Hd).
Qed.
Definition leb_list (a b : list nat) : bool := Nat.eqb (length a) (length b) && forallb (fun p => Nat.leb (fst p) (snd p)) (combine a b).
Lemma leb_list_spec a b : leb_list a b = true -> Forall2 le a b.
Proof.
  unfold leb_list. revert b. induction a as [|x a IH]; intros [|y b] H; cbn in H; try discriminate; [constructor|].
  apply andb_true_iff in H as [H1 H2]. apply andb_true_iff in H2 as [H2 H3]. constructor; [now apply Nat.leb_le|].
  apply IH. now rewrite H1, H3.
Qed.
Definition econf_ok (p : nat * list (list nat)) : bool :=
  let '(z, cs) := p in
  Nat.eqb (length cs) (S z) &&
  forallb (fun i => match nth_error cs i with Some c => leb_list c capacities && Nat.eqb (fold_right Nat.add 0 c + i) z | None => false end) (seq 0 (S z)) &&
  chain one_less cs.
Lemma econf_all : forallb econf_ok tab_econf = true.
Proof. vm_compute. reflexivity. Qed.
Lemma econf_spec z cs : In (z, cs) tab_econf ->
  length cs = S z /\
  (forall q c, nth_error cs q = Some c -> Forall2 le c capacities /\ fold_right Nat.add 0 c = z - q) /\
  (forall q c d, nth_error cs q = Some c -> nth_error cs (S q) = Some d ->
     exists a x b, c = a ++ S x :: b /\ d = a ++ x :: b).
Proof.
  intros H. pose proof (forallb_In _ _ _ econf_all H) as HO. unfold econf_ok in HO.
  apply andb_true_iff in HO as [HO H3]. apply andb_true_iff in HO as [H1 H2]. apply Nat.eqb_eq in H1.
  split; [assumption|]. split.
  - intros q c Hq. assert (Hlt : q < S z) by (rewrite <- H1; apply nth_error_Some; congruence).
    pose proof (forallb_In _ _ q H2 ltac:(apply in_seq; lia)) as HQ. cbv beta in HQ. rewrite Hq in HQ.
    apply andb_true_iff in HQ as [Ha Hb]. apply Nat.eqb_eq in Hb. split; [now apply leb_list_spec|lia].
  - intros q c d Hc Hd. apply one_less_spec. now apply (chain_spec _ _ _ _ _ H3 Hc Hd).
Qed.

Definition qpos (q : Q) : bool := Z.ltb 0 (Qnum q).
Lemma qpos_spec q : qpos q = true <-> (0 < q)%Q.
Proof. unfold qpos, Qlt. cbn. rewrite Z.ltb_lt, Z.mul_1_r. reflexivity. Qed.
Definition keys_ok {V} (d : list (nat * V)) : Prop := map fst d = seq 1 36.
Lemma energies_all : forallb (fun p => Nat.eqb (length (snd p)) (fst p) && forallb qpos (snd p)) tab_energies = true.
Proof. vm_compute. reflexivity. Qed.
Lemma weights_all : forallb (fun p => Nat.eqb (length (snd p)) (S (fst p)) && forallb qpos (snd p)) tab_weights = true.
Proof. vm_compute. reflexivity. Qed.
Lemma energies_spec z es : In (z, es) tab_energies -> length es = z /\ (forall e, In e es -> (0 < e)%Q).
Proof.
  intros H. pose proof (forallb_In _ _ _ energies_all H) as HO. cbn [fst snd] in HO. apply andb_true_iff in HO as [H1 H2].
  apply Nat.eqb_eq in H1. split; [assumption|]. intros e He. apply qpos_spec. now apply (forallb_In _ _ _ H2).
Qed.
Lemma weights_spec z ws : In (z, ws) tab_weights -> length ws = S z /\ (forall e, In e ws -> (0 < e)%Q).
Proof.
  intros H. pose proof (forallb_In _ _ _ weights_all H) as HO. cbn [fst snd] in HO. apply andb_true_iff in HO as [H1 H2].
  apply Nat.eqb_eq in H1. split; [assumption|]. intros e He. apply qpos_spec. now apply (forallb_In _ _ _ H2).
Qed.

(** ascending lists of rationals *)
Fixpoint asc (l : list Q) : bool :=
  match l with a :: (b :: _) as t => Qle_bool a b && asc t | _ => true end.
Lemma asc_spec l : asc l = true <-> (forall i a b, nth_error l i = Some a -> nth_error l (S i) = Some b -> (a <= b)%Q).
Proof.
  induction l as [|x l IH]; [split; [intros _ i a b H; destruct i; discriminate|reflexivity]|].
  destruct l as [|y l].
  - split; [|reflexivity]. intros _ i a b Ha Hb. destruct i as [|i]; cbn in Hb; [discriminate|destruct i; discriminate].
  - cbn [asc]. rewrite andb_true_iff, IH, Qle_bool_iff. split.
    + intros [H1 H2] i a b Ha Hb. destruct i as [|i].
      * cbn in Ha, Hb. injection Ha as <-. injection Hb as <-. assumption.
      * now apply (H2 i).
    + intros H. split; [now apply (H 0)|]. intros i a b Ha Hb. now apply (H (S i)).
Qed.
Lemma asc_table : forallb (fun p => Bool.eqb (asc (snd p)) (Nat.leb (fst p) 8)) tab_energies = true.
Proof. vm_compute. reflexivity. Qed.
(** move the entry at position [k] four places to the right *)
Definition move4 (k : nat) (l : list Q) : list Q :=
  if Nat.ltb (k + 4) (length l)
  then firstn k l ++ firstn 4 (skipn (S k) l) ++ firstn 1 (skipn k l) ++ skipn (k + 5) l else l.
Definition repaired (l : list Q) : list Q := move4 24 (move4 14 (move4 4 l)).
Lemma repaired_table : forallb (fun p => asc (repaired (snd p))) tab_energies = true.
Proof. vm_compute. reflexivity. Qed.

(** the distribution against the tables *)
Lemma neutral_table : forallb (fun p => match snd p with c :: _ => Bool.eqb (eq_list_nat (distN (fst p)) c) (negb (Nat.eqb (fst p) 24 || Nat.eqb (fst p) 29)) | [] => false end) tab_econf = true.
Proof. vm_compute. reflexivity. Qed.
Lemma light_table : forallb (fun p => implb (Nat.leb (fst p) 20)
   (forallb (fun q => match nth_error (snd p) q with Some c => eq_list_nat (distN (fst p - q)) c | None => false end) (seq 0 (S (fst p))))) tab_econf = true.
Proof. vm_compute. reflexivity. Qed.
Lemma eq_list_nat_spec a b : eq_list_nat a b = true <-> a = b.
Proof. unfold eq_list_nat. destruct (list_eq_dec _ _ _); split; intros; congruence. Qed.

(** occupied orbitals and tabulated energies of ions *)
Lemma ion_edges_table : forallb (fun p => let '(z, cs) := p in
   forallb (fun q => match nth_error cs q with
      | Some c => forallb (fun i => Bool.eqb (qpos (edge_table z q i)) (Nat.ltb 0 (nth i c 0))) (seq 0 10)
      | None => false end) (seq 0 z)) tab_econf = true.
Proof. vm_compute. reflexivity. Qed.
Lemma ion_edges_nonneg : forallb (fun z => forallb (fun q => forallb (fun i => Qle_bool 0 (edge_table z q i)) (seq 0 10)) (seq 0 36)) (seq 0 37) = true.
Proof. vm_compute. reflexivity. Qed.
Lemma bare_zero : forallb (fun z => forallb (fun q => forallb (fun i => Z.eqb (Qnum (edge_table z q i)) 0) (seq 0 10)) (seq z (36 - z))) (seq 1 36) = true.
Proof. vm_compute. reflexivity. Qed.
Lemma max_Z_36 : max_Z = 36. Proof. vm_compute. reflexivity. Qed.
Lemma max_charge_35 : max_charge_state = 35. Proof. vm_compute. reflexivity. Qed.
Lemma int_part_IZR q : Int_part (IZR q) = q.
Proof. unfold Int_part. rewrite <- (up_tech (IZR q) q); [lia|lra|]. rewrite plus_IZR. lra. Qed.
Lemma round_even_Z q : round_even (IZR q) = q.
Proof.
  unfold round_even. rewrite int_part_IZR. destruct (Rlt_dec (IZR q - IZR q) (1 / 2)) as [|h]; [reflexivity|lra].
Qed.
