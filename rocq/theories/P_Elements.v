(** Properties C18-C21 and C69-C72: elements and their tables. *)
From Coq Require Import String Reals List Arith ZArith QArith Qreals Bool Lia Lra.
From Verif Require Import M_Helpers M_Interp L_Interp M_ElementTables M_Elements L_Elements.
Import ListNotations.
Open Scope list_scope.
Open Scope nat_scope.

(** ** C18 *)
Theorem C18_number_to_symbol_and_back : forall z e, element (IdInt z) = Some e ->
  eZ e = z /\ element (IdStr (esymbol e)) = Some e.
Proof. intros z e H. destruct (element_by_number z e H) as (H1 & _ & H2). now split. Qed.
Print Assumptions C18_number_to_symbol_and_back.
Theorem C18_symbol_to_number_and_back : forall s e, element (IdStr s) = Some e ->
  esymbol e = s /\ element (IdInt (eZ e)) = Some e.
Proof. intros s e H. destruct (element_by_symbol s e H) as (H1 & _ & H2). now split. Qed.
Print Assumptions C18_symbol_to_number_and_back.
(** Exactly the atomic numbers 1 to 36, and 36 symbols, are accepted. *)
Theorem C18_exactly_36_elements :
  (forall z, (exists e, element (IdInt z) = Some e) <-> (1 <= z <= 36)%Z) /\
  exists symbols, length symbols = 36 /\ NoDup symbols /\
    (forall s, (exists e, element (IdStr s) = Some e) <-> In s symbols).
Proof.
  split; [exact element_defined|]. exists (map snd tab_symbols). split; [reflexivity|]. split; [|exact element_str_defined].
  cbn. repeat (constructor; [cbn; intuition discriminate|]). constructor.
Qed.
Print Assumptions C18_exactly_36_elements.
(** A fractional atomic number is silently truncated. *)
Theorem C18_fractions_are_truncated : forall z (p : positive) r, (0 <= z)%Z -> (0 <= r < Zpos p)%Z ->
  element (IdFloat ((z * Zpos p + r) # p)) = element (IdInt z).
Proof.
  intros z p r Hz Hr. unfold element. cbn [Qnum Qden]. replace (Z.quot (z * Zpos p + r) (Zpos p)) with z; [reflexivity|].
  rewrite Z.quot_div_nonneg by lia. apply (Z.div_unique _ _ _ r); lia.
Qed.
Print Assumptions C18_fractions_are_truncated.
Example C18_ex : exists e, element (IdStr "Fe") = Some e /\ eZ e = 26%Z /\ ename e = "Iron"%string /\ element (IdInt 26) = Some e.
Proof. eexists. split; [vm_compute; reflexivity|]. split; [reflexivity|]. split; [reflexivity|]. vm_compute. reflexivity. Qed.
Example C18_ex_trunc : element (IdFloat (69 # 10)) = element (IdInt 6).
Proof. apply (C18_fractions_are_truncated 6 10 9); lia. Qed.

(** ** C19 *)
(** On real elements, == is an equivalence and agrees with hash. *)
Theorem C19_elements_partial : forall a b c,
  py_eq (PElem a) (PElem a) = Some true /\
  py_eq (PElem a) (PElem b) = py_eq (PElem b) (PElem a) /\
  (py_eq (PElem a) (PElem b) = Some true -> py_eq (PElem b) (PElem c) = Some true -> py_eq (PElem a) (PElem c) = Some true) /\
  (py_eq (PElem a) (PElem b) = Some true <-> py_hash (PElem a) = py_hash (PElem b)) /\
  (exists r, py_eq (PElem a) (PElem b) = Some r).
Proof.
  intros a b c. cbn. unfold reqb.
  assert (E : forall x y, (if Req_EM_T (IZR x) (IZR y) then true else false) = Z.eqb x y).
  { intros x y. destruct (Req_EM_T _ _) as [h|h].
    - apply eq_IZR in h. subst. symmetry. apply Z.eqb_refl.
    - symmetry. apply Z.eqb_neq. intros ->. now apply h. }
  rewrite !E, Z.eqb_refl. split; [reflexivity|]. split; [now rewrite Z.eqb_sym|]. split; [|split].
  - intros [= H1] [= H2]. apply Z.eqb_eq in H1, H2. subst. now rewrite Z.eqb_refl.
  - split; intros H; injection H as H.
    + apply Z.eqb_eq in H. now subst.
    + subst. now rewrite Z.eqb_refl.
  - now eexists.
Qed.
Print Assumptions C19_elements_partial.
(** With average atoms it is symmetric, but neither reflexive nor transitive, and
    average atoms cannot be hashed. *)
Theorem C19_symmetric : forall a b, py_eq a b = py_eq b a.
Proof.
  intros [a|a|a] [b|b|b]; cbn; try reflexivity; unfold reqb.
  - destruct (Req_EM_T (IZR a) (IZR b)), (Req_EM_T (IZR b) (IZR a)); congruence.
  - f_equal. apply Nat.eqb_sym.
Qed.
Print Assumptions C19_symmetric.
Theorem C19_refuted :
  (exists m, py_eq m m = Some false) /\
  (exists a b c, py_eq a b = Some true /\ py_eq b c = Some true /\ py_eq a c = Some false) /\
  (exists a b, py_eq a b = Some true /\ py_hash a <> py_hash b).
Proof.
  assert (E : py_eq (PMix 6) (PElem 6) = Some true) by (cbn; unfold reqb; now destruct (Req_EM_T 6 6)).
  split; [exists (PMix 6); reflexivity|]. split.
  - exists (PMix 6), (PElem 6), (PMix 6). split; [exact E|]. split; [rewrite C19_symmetric; exact E|reflexivity].
  - exists (PMix 6), (PElem 6). split; [exact E|discriminate].
Qed.
Print Assumptions C19_refuted.
(** Comparing with an object of another kind raises instead of returning False. *)
Theorem C19_other_types_raise : forall n, (forall z, py_eq (PElem z) (POther n) = None) /\ (forall r, py_eq (PMix r) (POther n) = None).
Proof. intros n. split; reflexivity. Qed.
Print Assumptions C19_other_types_raise.
Example C19_ex : py_eq (PElem 6) (PElem 7) = Some false /\ py_eq (PElem 6) (PElem 6) = Some true.
Proof. cbn. unfold reqb. split; [destruct (Req_EM_T 6 7); [lra|reflexivity]|now destruct (Req_EM_T 6 6)]. Qed.

(** ** C20 *)
Open Scope R_scope.
Theorem C20_populations : forall Zc,
  let p := electron_distribution_ionized_state Zc in
  (0 <= Zc <= 36 -> fold_right Rplus 0 p = Zc) /\
  (Zc <= 0 -> fold_right Rplus 0 p = 0) /\ (36 <= Zc -> fold_right Rplus 0 p = 36) /\
  Forall2 (fun n c => 0 <= n <= INR c) p [2; 2; 6; 2; 6; 10; 2; 6; 10; 14]%nat /\
  (forall Zc', Zc <= Zc' -> Forall2 Rle p (electron_distribution_ionized_state Zc')).
Proof.
  intros Zc p. change (fold_right Rplus 0 p) with (rsum p). unfold p. rewrite distribution_sum. unfold Rmax, Rmin.
  split; [intros; repeat destruct (Rle_dec _ _); lra|]. split; [intros; repeat destruct (Rle_dec _ _); lra|].
  split; [intros; repeat destruct (Rle_dec _ _); lra|]. split; [exact (distribution_bounds Zc)|].
  intros Zc' H. now apply distribution_mono.
Qed.
Print Assumptions C20_populations.
(** It reproduces every tabulated neutral atom except chromium and copper ... *)
Theorem C20_neutral_atoms : forall z c cs, In (z, c :: cs) tab_econf ->
  (electron_distribution_ionized_state (INR z) = map INR c <-> z <> 24%nat /\ z <> 29%nat).
Proof.
  intros z c cs H. pose proof (forallb_In _ _ _ neutral_table H) as HO. cbn [fst snd] in HO. apply eqb_prop in HO.
  rewrite distribution_nat. split.
  - intros HE. apply map_INR_inj in HE. apply eq_list_nat_spec in HE. rewrite HE in HO.
    symmetry in HO. apply negb_true_iff, orb_false_iff in HO as [H1 H2]. now apply Nat.eqb_neq in H1, H2.
  - intros [H1 H2]. f_equal. apply eq_list_nat_spec. rewrite HO. apply negb_true_iff, orb_false_iff.
    now rewrite !Nat.eqb_neq.
Qed.
Print Assumptions C20_neutral_atoms.
(** ... and every tabulated ion of the elements up to calcium. *)
Theorem C20_light_ions : forall z cs q c, In (z, cs) tab_econf -> (z <= 20)%nat -> nth_error cs q = Some c ->
  electron_distribution_ionized_state (INR (z - q)) = map INR c.
Proof.
  intros z cs q c H Hz Hq. pose proof (forallb_In _ _ _ light_table H) as HO. cbn [fst snd] in HO.
  rewrite (proj2 (Nat.leb_le z 20) Hz) in HO. cbn [implb] in HO.
  destruct (econf_spec z cs H) as (HL & _).
  assert (Hlt : (q < S z)%nat) by (rewrite <- HL; apply nth_error_Some; congruence).
  pose proof (forallb_In _ _ q HO ltac:(apply in_seq; lia)) as HQ. cbv beta in HQ. rewrite Hq in HQ.
  apply eq_list_nat_spec in HQ. rewrite distribution_nat. now rewrite HQ.
Qed.
Print Assumptions C20_light_ions.
Example C20_ex : fold_right Rplus 0 (electron_distribution_ionized_state (45 / 10)) = 45 / 10.
Proof. apply (C20_populations (45/10)). lra. Qed.

(** ** C21 *)
Open Scope nat_scope.
Theorem C21_configurations : forall z cs, In (z, cs) tab_econf ->
  length cs = S z /\
  (forall q c, nth_error cs q = Some c ->
     Forall2 le c [2; 2; 6; 2; 6; 10; 2; 6; 10; 14] /\ fold_right Nat.add 0 c = z - q) /\
  (forall q c d, nth_error cs q = Some c -> nth_error cs (S q) = Some d ->
     exists a x b, c = a ++ S x :: b /\ d = a ++ x :: b).
Proof. exact econf_spec. Qed.
Print Assumptions C21_configurations.
Theorem C21_energies_and_weights :
  (forall z es, In (z, es) tab_energies -> length es = z /\ (forall e, In e es -> (0 < e)%Q)) /\
  (forall z ws, In (z, ws) tab_weights -> length ws = S z /\ (forall e, In e ws -> (0 < e)%Q)) /\
  map fst tab_econf = seq 1 36 /\ map fst tab_energies = seq 1 36 /\ map fst tab_weights = seq 1 36.
Proof.
  split; [exact energies_spec|]. split; [exact weights_spec|]. repeat split; reflexivity.
Qed.
Print Assumptions C21_energies_and_weights.
Example C21_ex : exists cs, In (6, cs) tab_econf /\ nth_error cs 1 = Some [2; 2; 1; 0; 0; 0; 0; 0; 0; 0].
Proof.
  eexists. split; [|shelve]. unfold tab_econf. do 5 right. left. reflexivity.
  Unshelve. reflexivity.
Qed.

(** ** C69: ionisation energies rise with the charge *)
Theorem C69_partial : forall z es, In (z, es) tab_energies ->
  ((forall i a b, nth_error es i = Some a -> nth_error es (S i) = Some b -> (a <= b)%Q) <-> z <= 8).
Proof.
  intros z es H. pose proof (forallb_In _ _ _ asc_table H) as HO. cbn [fst snd] in HO. apply eqb_prop in HO.
  rewrite <- asc_spec, HO. apply Nat.leb_le.
Qed.
Print Assumptions C69_partial.
Example C69_ex : exists es, In (8, es) tab_energies /\ forall i a b, nth_error es i = Some a -> nth_error es (S i) = Some b -> (a <= b)%Q.
Proof.
  eexists. split; [unfold tab_energies; do 7 right; left; reflexivity|]. apply (C69_partial 8); [unfold tab_energies; do 7 right; left; reflexivity|lia].
Qed.
Theorem C69_refuted : exists z es i a b, In (z, es) tab_energies /\ nth_error es i = Some a /\ nth_error es (S i) = Some b /\ (b < a)%Q.
Proof.
  exists 9. eexists. exists 4. eexists. eexists. split; [unfold tab_energies; do 8 right; left; reflexivity|].
  split; [reflexivity|]. split; [reflexivity|]. vm_compute. reflexivity.
Qed.
Print Assumptions C69_refuted.
(** What is wrong: the 9th, 19th and 29th energies sit four places too early. *)
Theorem C69_misplaced_entries : forall z es, In (z, es) tab_energies ->
  let move k l := if k + 4 <? length l
                  then firstn k l ++ firstn 4 (skipn (S k) l) ++ firstn 1 (skipn k l) ++ skipn (k + 5) l else l in
  forall i a b, nth_error (move 24 (move 14 (move 4 es))) i = Some a ->
                nth_error (move 24 (move 14 (move 4 es))) (S i) = Some b -> (a <= b)%Q.
Proof.
  intros z es H move. pose proof (forallb_In _ _ _ repaired_table H) as HO. cbn [fst snd] in HO.
  exact (proj1 (asc_spec _) HO).
Qed.
Print Assumptions C69_misplaced_entries.

(** ** C70: statistical weights are 2J+1 (elements.py:1463-1466)

    J of an open shell, as in tools/ionization_econfig.py:18-68, times two. *)
Definition twoJ (l n : nat) : nat :=
  match l, n with
  | 0, 1 => 1
  | 1, 1 => 1 | 1, 3 => 3 | 1, 4 => 4 | 1, 5 => 3
  | 2, 1 => 3 | 2, 2 => 4 | 2, 3 => 3 | 2, 5 => 5 | 2, 6 => 8 | 2, 7 => 9 | 2, 8 => 8 | 2, 9 => 5
  | _, _ => 0
  end.
Definition weight_of (c : list nat) : nat :=
  1 + fold_right Nat.add 0 (map (fun p => twoJ (fst p) (snd p)) (combine [0; 0; 1; 0; 1; 2; 0; 1; 2; 3] c)).
Lemma weight_table : forallb (fun p => match get Nat.eqb (fst p) tab_econf with
   | Some cs => forallb (fun t => Qeq_bool (fst t) (inject_Z (Z.of_nat (weight_of (snd t))))) (combine (snd p) cs) | None => false end) tab_weights = true.
Proof. vm_compute. reflexivity. Qed.
Lemma nth_combine {A B} (l : list A) (m : list B) q a b : nth_error l q = Some a -> nth_error m q = Some b -> In (a, b) (combine l m).
Proof.
  revert m q. induction l as [|x l IH]; intros [|y m] [|q] Ha Hb; cbn in *; try discriminate.
  - injection Ha as <-. injection Hb as <-. now left.
  - right. now apply (IH m q).
Qed.
Theorem C70_statistical_weights : forall z e q c w, element (IdInt z) = Some e ->
  nth_error (econfs e) q = Some c -> nth_error (eweights e) q = Some w ->
  (w == inject_Z (Z.of_nat (weight_of c)))%Q.
Proof.
  intros z e q c w He Hc Hw. destruct (element_by_number z e He) as (HZ & Hz & _).
  assert (HI : exists n, z = Z.of_nat n /\ In n (seq 1 36)) by (exists (Z.to_nat z); rewrite in_seq; lia).
  destruct HI as (n & -> & Hn). clear Hz HZ.
  assert (HT : In (n, eweights e) tab_weights /\ get Nat.eqb n tab_econf = Some (econfs e)).
  { revert e He Hc Hw. revert n Hn. 
    enough (G : forall n, In n (seq 1 36) -> forall e, element (IdInt (Z.of_nat n)) = Some e -> get Nat.eqb n tab_weights = Some (eweights e) /\ get Nat.eqb n tab_econf = Some (econfs e)).
    { intros n Hn e He _ _. destruct (G n Hn e He) as [G1 G2]. split; [|exact G2]. eapply get_in; [apply Nat.eqb_eq|exact G1]. }
    clear. refine (proj1 (Forall_forall (fun n => forall e, element (IdInt (Z.of_nat n)) = Some e -> get Nat.eqb n tab_weights = Some (eweights e) /\ get Nat.eqb n tab_econf = Some (econfs e)) (seq 1 36)) _). cbn [seq].
    repeat (constructor; [intros e He; vm_compute in He; injection He as <-; split; vm_compute; reflexivity|]). constructor. }
  destruct HT as [HT1 HT2].
  pose proof (forallb_In _ _ _ weight_table HT1) as HO. cbn [fst snd] in HO. rewrite HT2 in HO.
  pose proof (forallb_In _ _ _ HO (nth_combine _ _ _ _ _ Hw Hc)) as HQ. cbn [fst snd] in HQ. now apply Qeq_bool_eq in HQ.
Qed.
Print Assumptions C70_statistical_weights.
Example C70_ex : weight_of [2; 2; 6; 2; 6; 6; 2; 0; 0; 0] = 9.  (* iron *)
Proof. reflexivity. Qed.

(** ** C71: cold binding energies belong to their orbital

    Each row of the table lists the orbitals in order, the 2p entry already being
    the mean of L2 and L3; [__init__] averages once more and reads shifted columns. *)
Definition row_read_ok (z : nat) : bool :=
  match element (IdInt (Z.of_nat z)), get Nat.eqb z tab_cold_edges with
  | Some e, Some row => forallb (fun i => implb (Nat.ltb 0 (nth i (nth 0 (econfs e) []) 0)) (Qeq_bool (nth i (ecold e) 0%Q) (nth i row 0%Q))) (seq 0 6)
  | _, _ => false end.
Lemma cold_table : forallb (fun z => Bool.eqb (row_read_ok z) (Nat.leb z 4)) (seq 1 36) = true.
Proof. vm_compute. reflexivity. Qed.
Theorem C71_partial : forall n e row, 1 <= n <= 36 -> element (IdInt (Z.of_nat n)) = Some e ->
  get Nat.eqb n tab_cold_edges = Some row ->
  ((forall i, i < 6 -> 0 < nth i (nth 0 (econfs e) []) 0 -> (nth i (ecold e) 0 == nth i row 0)%Q) <-> n <= 4).
Proof.
  intros n e row Hn He Hr. pose proof (forallb_In _ _ n cold_table ltac:(apply in_seq; lia)) as HO. cbv beta in HO.
  apply eqb_prop in HO. rewrite <- (Nat.leb_le n 4), <- HO. unfold row_read_ok. rewrite He, Hr. rewrite forallb_forall. split.
  - intros H i Hi. apply in_seq in Hi. destruct (Nat.ltb_spec 0 (nth i (nth 0 (econfs e) []) 0)) as [h|h]; [|reflexivity].
    cbn [implb]. apply Qeq_bool_iff, H; [lia|assumption].
  - intros H i Hi Ho. specialize (H i ltac:(apply in_seq; lia)). apply Nat.ltb_lt in Ho. rewrite Ho in H. now apply Qeq_bool_eq in H.
Qed.
Print Assumptions C71_partial.
Example C71_ex : exists e row, element (IdInt (Z.of_nat 4)) = Some e /\ get Nat.eqb 4 tab_cold_edges = Some row /\
  forall i, i < 6 -> 0 < nth i (nth 0 (econfs e) []) 0 -> (nth i (ecold e) 0 == nth i row 0)%Q.
Proof.
  destruct (element (IdInt (Z.of_nat 4))) as [e|] eqn:E; [|discriminate]. destruct (get Nat.eqb 4 tab_cold_edges) as [row|] eqn:R; [|discriminate].
  exists e, row. split; [reflexivity|]. split; [reflexivity|]. apply (C71_partial 4 e row); [lia|exact E|exact R|lia].
Qed.
(** Iron: the 2p energy comes out as 402 eV (tabulated: 713 eV), 3d as 0 eV. *)
Theorem C71_refuted : exists e row, element (IdStr "Fe") = Some e /\ getZ (eZ e) tab_cold_edges = Some row /\
  (nth 2 row 0 == 71335 # 100)%Q /\ (nth 2 (ecold e) 0 == 402325 # 1000)%Q /\
  nth 5 (nth 0 (econfs e) []) 0 = 6 /\ (nth 5 (ecold e) 0 == 0)%Q.
Proof.
  do 2 eexists. split; [vm_compute; reflexivity|]. split; [vm_compute; reflexivity|].
  repeat split; vm_compute; reflexivity.
Qed.
Print Assumptions C71_refuted.

(** ** C72: binding energies of ions *)
Lemma seq_nth_map {B} (f : nat -> B) n i d : i < n -> nth i (map f (seq 0 n)) d = f i.
Proof. intros H. rewrite (nth_indep _ d (f 0)) by (rewrite map_length, seq_length; lia). rewrite map_nth, seq_nth by lia. reflexivity. Qed.
Lemma gbe_at z q i : (0 <= z <= 36)%Z -> (0 <= q <= 35)%Z -> i < 10 ->
  nth i (get_binding_energies z (IZR q)) 0%Q = edge_table (Z.to_nat z) (Z.to_nat q) i.
Proof.
  intros Hz Hq Hi. unfold get_binding_energies. rewrite seq_nth_map by assumption. rewrite round_even_Z.
  unfold clipZ. rewrite max_Z_36, max_charge_35. f_equal; lia.
Qed.
(** An orbital of an ion has a positive binding energy exactly when it is occupied. *)
Theorem C72_positive_exactly_when_occupied : forall z cs q c i, In (z, cs) tab_econf ->
  q < z -> nth_error cs q = Some c -> i < 10 ->
  ((0 < nth i (get_binding_energies (Z.of_nat z) (IZR (Z.of_nat q))) 0)%Q <-> 0 < nth i c 0).
Proof.
  intros z cs q c i H Hq Hc Hi.
  assert (Hz : z <= 36). { assert (Hk : In z (map fst tab_econf)) by now apply (in_map fst) in H. change (map fst tab_econf) with (seq 1 36) in Hk. apply in_seq in Hk. lia. }
  rewrite gbe_at by lia. rewrite !Nat2Z.id.
  pose proof (forallb_In _ _ _ ion_edges_table H) as HO. cbv beta iota in HO.
  pose proof (forallb_In _ _ q HO ltac:(apply in_seq; lia)) as HQ. cbv beta in HQ. rewrite Hc in HQ.
  pose proof (forallb_In _ _ i HQ ltac:(apply in_seq; lia)) as HI. cbv beta in HI. apply eqb_prop in HI.
  rewrite <- qpos_spec, HI. apply Nat.ltb_lt.
Qed.
Print Assumptions C72_positive_exactly_when_occupied.
(** Charges are rounded to the nearest integer. *)
Theorem C72_charge_is_rounded : forall z q r, (Rabs (r - IZR q) < 1 / 2)%R ->
  get_binding_energies z r = get_binding_energies z (IZR q).
Proof.
  intros z q r H. unfold get_binding_energies. rewrite round_even_Z. replace (round_even r) with q; [reflexivity|].
  apply Rabs_def2 in H. unfold round_even. destruct (base_Int_part r) as [B1 B2]. set (f := Int_part r) in *.
  assert (Hf : f = q \/ (f = q - 1)%Z).
  { assert (IZR f < IZR (q + 1))%R by (rewrite plus_IZR; lra). assert (IZR (q - 2) < IZR f)%R by (rewrite minus_IZR; lra).
    apply lt_IZR in H0, H1. lia. }
  destruct Hf as [->| ->].
  - destruct (Rlt_dec (r - IZR q) (1 / 2)); [reflexivity|lra].
  - rewrite minus_IZR in *. destruct (Rlt_dec (r - (IZR q - 1)) (1 / 2)); [lra|]. destruct (Rlt_dec (1 / 2) (r - (IZR q - 1))); [lia|lra].
Qed.
Print Assumptions C72_charge_is_rounded.
(** Up to calcium, each orbital the bound-free model populates has a binding energy. *)
Theorem C72_populated_orbitals_partial : forall z cs q i, In (z, cs) tab_econf -> z <= 20 -> q < z -> i < 10 ->
  (0 < nth i (electron_distribution_ionized_state (INR (z - q))) 0)%R ->
  (0 < nth i (get_binding_energies (Z.of_nat z) (IZR (Z.of_nat q))) 0)%Q.
Proof.
  intros z cs q i H Hz Hq Hi Hp. destruct (econf_spec z cs H) as (HL & _).
  destruct (nth_error cs q) as [c|] eqn:Hc; [|apply nth_error_None in Hc; lia].
  rewrite (C72_positive_exactly_when_occupied z cs q c i) by assumption.
  rewrite (C20_light_ions z cs q c H Hz Hc) in Hp. change 0%R with (INR 0) in Hp. rewrite map_nth in Hp. now apply INR_lt.
Qed.
Print Assumptions C72_populated_orbitals_partial.
(** Fe2+: two 4s electrons are assumed, tabulated without 4s electrons. *)
Theorem C72_refuted : exists z q i, q < z /\ z <= 36 /\
  (0 < nth i (electron_distribution_ionized_state (INR (z - q))) 0)%R /\
  (nth i (get_binding_energies (Z.of_nat z) (IZR (Z.of_nat q))) 0 == 0)%Q.
Proof.
  exists 26, 2, 6. split; [lia|]. split; [lia|]. split.
  - rewrite distribution_nat. change 0%R with (INR 0). rewrite map_nth. apply lt_INR. vm_compute. lia.
  - rewrite gbe_at by lia. vm_compute. reflexivity.
Qed.
Print Assumptions C72_refuted.
Example C72_ex : (0 < nth 1 (get_binding_energies 6 (IZR 2)) 0)%Q.
Proof. rewrite gbe_at by lia. vm_compute. reflexivity. Qed.
