(** Lemmas on form factors *)
From Coq Require Import Reals List Arith Bool Lra Lia Psatz.
From Coquelicot Require Import Coquelicot.
From Verif Require M_Elements L_Elements.
From Verif Require Import M_Const M_PlasmaState M_Interp L_Interp M_FormFactors.
Import ListNotations.
Open Scope R_scope.

(** The shells of the tables *)
Definition shells : list (nat * nat) := [(1, 0); (2, 0); (2, 1); (3, 0); (3, 1); (3, 2); (4, 0); (4, 1); (4, 2); (4, 3)]%nat.
(** Mean squared radius of the hydrogenic state, in units of (a_0/Z)^2 *)
Definition mean_r2 (n l : nat) : R := INR n ^ 2 * (5 * INR n ^ 2 + 1 - 3 * INR l * (INR l + 1)) / 2.

(** as functions of t = (n k a_0 / 2 Z)^2 *)
Definition F (n l : nat) (t : R) : R :=
  match n, l with
  | 1%nat, 0%nat => 1 / (1 + t) ^ 2
  | 2%nat, 0%nat => (1 - 2 * t) * ((1 - t) / (1 + t) ^ 4)
  | 2%nat, 1%nat => (1 - t) / (1 + t) ^ 4
  | 3%nat, 0%nat => (1 - 6 * t + 3 * t ^ 2) * ((1 - 3 * t) * (3 - t) / (3 * (1 + t) ^ 6))
  | 3%nat, 1%nat => (1 - 4 * t) * ((1 - 3 * t) * (3 - t) / (3 * (1 + t) ^ 6))
  | 3%nat, 2%nat => (1 - 3 * t) * (3 - t) / (3 * (1 + t) ^ 6)
  | 4%nat, 0%nat => (1 - 12 * t + 18 * t ^ 2 - 4 * t ^ 3) * ((1 - t) * (1 - 6 * t + t ^ 2) / (1 + t) ^ 8)
  | 4%nat, 1%nat => (1 - 10 * t + 10 * t ^ 2) * ((1 - t) * (1 - 6 * t + t ^ 2) / (1 + t) ^ 8)
  | 4%nat, 2%nat => (1 - 6 * t) * ((1 - t) * (1 - 6 * t + t ^ 2) / (1 + t) ^ 8)
  | 4%nat, 3%nat => (1 - t) * (1 - 6 * t + t ^ 2) / (1 + t) ^ 8
  | _, _ => 0
  end.
Ltac shell H := unfold shells in H; cbn [In] in H; repeat (destruct H as [H|H]; [injection H as <- <-|]); [..|destruct H].

Lemma ff_F u n l k Z : In (n, l) shells -> Z <> 0 ->
  pauling_atomic_ff u n l k Z = Some (F n l (INR n ^ 2 / 4 * (k * a_0 u / Z) ^ 2)).
Proof.
  intros Hs HZ. set (x := k * a_0 u / (2 * Z)).
  assert (Ex : pauling_xf u k Z = Some x) by (unfold pauling_xf; apply qdiv_some; lra).
  assert (Et : (k * a_0 u / Z) ^ 2 = 4 * x ^ 2) by (unfold x; field; exact HZ). rewrite Et. clearbody x. clear Et.
  shell Hs; cbn [pauling_atomic_ff]; unfold pauling_f10, pauling_f20, pauling_f21, pauling_f30, pauling_f31, pauling_f32, pauling_f40, pauling_f41, pauling_f42, pauling_f43;
    rewrite Ex; cbn [obind]; rewrite ?Ex; cbn [obind]; unfold pauling_f21, pauling_f32, pauling_f43; rewrite ?Ex; cbn [obind]; apply f_equal; unfold F; cbn [INR];
    match goal with |- context [?c ^ 2 / 4 * (4 * x ^ 2)] => replace (c ^ 2 / 4 * (4 * x ^ 2)) with ((c * x) ^ 2) by field end;
    try replace ((1 + 1) * x) with (2 * x) by ring; try replace ((1 + 1 + 1) * x) with (3 * x) by ring; try replace ((1 + 1 + 1 + 1) * x) with (4 * x) by ring; rewrite ?Rmult_1_l.
  - reflexivity.
  - set (z := 2 * x). clearbody z. reflexivity.
  - set (z := 2 * x). clearbody z. reflexivity.
  - set (z := 3 * x). clearbody z. replace ((z ^ 2) ^ 2) with (z ^ 4) by ring. reflexivity.
  - reflexivity.
  - reflexivity.
  - set (z := 4 * x). clearbody z. replace ((z ^ 2) ^ 2) with (z ^ 4) by ring. replace ((z ^ 2) ^ 3) with (z ^ 6) by ring. reflexivity.
  - set (z := 4 * x). clearbody z. replace ((z ^ 2) ^ 2) with (z ^ 4) by ring. reflexivity.
  - set (z := 4 * x). clearbody z. replace ((z ^ 2) ^ 2) with (z ^ 4) by ring. reflexivity.
  - set (z := 4 * x). clearbody z. replace ((z ^ 2) ^ 2) with (z ^ 4) by ring. reflexivity.
Qed.
Lemma F0 n l : In (n, l) shells -> F n l 0 = 1.
Proof. intros H. shell H; unfold F; field. Qed.
Lemma F_derive n l : In (n, l) shells -> is_derive (F n l) 0 (- (mean_r2 n l) / 6 * (4 / INR n ^ 2)).
Proof.
  intros H. shell H; unfold F, mean_r2; auto_derive; try (repeat split; try lra; auto); cbn [INR]; try field; try lra.
  all: try (apply Rgt_not_eq; apply Rmult_lt_0_compat; [lra|]; apply pow_lt; lra); try (apply Rgt_not_eq; apply pow_lt; lra); try (apply pow_nonzero; lra).
Qed.

(** Bounds: every factor separately *)
Lemma frac_le a d : 0 < d -> - d <= a -> a <= d -> Rabs (a / d) <= 1.
Proof.
  intros Hd H1 H2. unfold Rdiv. rewrite Rabs_mult, Rabs_inv. rewrite (Rabs_pos_eq d) by lra.
  apply (Rmult_le_reg_r d); [lra|]. rewrite Rmult_assoc, Rinv_l by lra. rewrite Rmult_1_r, Rmult_1_l. apply Rabs_le. lra.
Qed.

Lemma inv_pow_le t n : 0 <= t -> 0 <= / (1 + t) ^ n <= 1.
Proof.
  intros Ht. assert (1 <= (1 + t) ^ n) by (apply pow_R1_Rle; lra). split; [left; apply Rinv_0_lt_compat; lra|].
  apply Rle_trans with (/ 1); [apply Rinv_le_contravar; lra|lra].
Qed.
Lemma abs_prod a b : Rabs a <= 1 -> Rabs b <= 1 -> Rabs (a * b) <= 1.
Proof. intros Ha Hb. rewrite Rabs_mult. pose proof (Rabs_pos a). pose proof (Rabs_pos b). nra. Qed.
Lemma abs_inv t n : 0 <= t -> Rabs (/ (1 + t) ^ n) <= 1.
Proof. intros Ht. pose proof (inv_pow_le t n Ht). rewrite Rabs_pos_eq; lra. Qed.
Ltac rab e := match goal with |- Rabs ?x <= _ => replace x with e by (field; lra) end.
Ltac aprod := repeat (first [assumption | now apply abs_inv | apply abs_prod]).
Lemma F_le1 n l t : In (n, l) shells -> 0 <= t -> Rabs (F n l t) <= 1.
Proof.
  intros H Ht. assert (P : forall m, 0 < (1 + t) ^ m) by (intros; apply pow_lt; lra).
  pose proof (pow_le t 2 Ht) as T2. pose proof (pow_le t 3 Ht) as T3. pose proof (pow_le t 4 Ht) as T4. pose proof (pow_le t 5 Ht) as T5.
  assert (B1 : Rabs ((1 - t) / (1 + t)) <= 1) by (apply frac_le; lra).
  assert (B2 : Rabs ((1 - 2 * t) / (1 + t) ^ 2) <= 1) by (apply frac_le; [apply P|nra|nra]).
  assert (B3 : Rabs ((1 - 3 * t) * (3 - t) / (3 * (1 + t) ^ 2)) <= 1) by (apply frac_le; [specialize (P 2%nat); lra|nra|nra]).
  assert (B4 : Rabs ((1 - 4 * t) / (1 + t) ^ 4) <= 1) by (apply frac_le; [apply P|ring_simplify ((1 + t) ^ 4); nra|ring_simplify ((1 + t) ^ 4); nra]).
  assert (B5 : Rabs ((1 - 6 * t + 3 * t ^ 2) / (1 + t) ^ 4) <= 1) by (apply frac_le; [apply P|ring_simplify ((1 + t) ^ 4); nra|ring_simplify ((1 + t) ^ 4); nra]).
  assert (B6 : Rabs ((1 - 6 * t + t ^ 2) / (1 + t) ^ 2) <= 1) by (pose proof (pow2_ge_0 (1 - t)); apply frac_le; [apply P|nra|nra]).
  assert (B7 : Rabs ((1 - 6 * t) / (1 + t) ^ 5) <= 1) by (apply frac_le; [apply P|ring_simplify ((1 + t) ^ 5); nra|ring_simplify ((1 + t) ^ 5); nra]).
  assert (B8 : Rabs ((1 - 10 * t + 10 * t ^ 2) / (1 + t) ^ 5) <= 1) by (apply frac_le; [apply P|ring_simplify ((1 + t) ^ 5); nra|ring_simplify ((1 + t) ^ 5); nra]).
  assert (B9 : Rabs ((1 - 12 * t + 18 * t ^ 2 - 4 * t ^ 3) / (1 + t) ^ 5) <= 1).
  { apply frac_le; [apply P| |]; ring_simplify ((1 + t) ^ 5); [nra|]. assert (0 <= t * (17 - 8 * t + 14 * t ^ 2)) by (apply Rmult_le_pos; nra). nra. }
  shell H; unfold F.
  - replace (1 / (1 + t) ^ 2) with (/ (1 + t) ^ 2) by (field; lra). now apply abs_inv.
  - rab ((1 - 2 * t) / (1 + t) ^ 2 * ((1 - t) / (1 + t)) * / (1 + t) ^ 1). aprod.
  - rab ((1 - t) / (1 + t) * / (1 + t) ^ 3). aprod.
  - rab ((1 - 6 * t + 3 * t ^ 2) / (1 + t) ^ 4 * ((1 - 3 * t) * (3 - t) / (3 * (1 + t) ^ 2))). aprod.
  - rab ((1 - 4 * t) / (1 + t) ^ 4 * ((1 - 3 * t) * (3 - t) / (3 * (1 + t) ^ 2))). aprod.
  - rab ((1 - 3 * t) * (3 - t) / (3 * (1 + t) ^ 2) * / (1 + t) ^ 4). aprod.
  - rab ((1 - 12 * t + 18 * t ^ 2 - 4 * t ^ 3) / (1 + t) ^ 5 * ((1 - t) / (1 + t) * ((1 - 6 * t + t ^ 2) / (1 + t) ^ 2))). aprod.
  - rab ((1 - 10 * t + 10 * t ^ 2) / (1 + t) ^ 5 * ((1 - t) / (1 + t) * ((1 - 6 * t + t ^ 2) / (1 + t) ^ 2))). aprod.
  - rab ((1 - 6 * t) / (1 + t) ^ 5 * ((1 - t) / (1 + t) * ((1 - 6 * t + t ^ 2) / (1 + t) ^ 2))). aprod.
  - rab ((1 - t) / (1 + t) * ((1 - 6 * t + t ^ 2) / (1 + t) ^ 2) * / (1 + t) ^ 5). aprod.
Qed.

(** ** Tables *)
Lemma increasing_cons x xs : (forall y, In y xs -> x < y) -> increasing xs -> increasing (x :: xs).
Proof.
  intros Hx Hs i j [Hij Hj]. destruct j as [|j]; [lia|]. cbn [length] in Hj. unfold at_. destruct i as [|i]; cbn [nth].
  - apply Hx. apply nth_In. lia.
  - apply (Hs i j). lia.
Qed.
Lemma increasing_nil : increasing [].
Proof. intros i j [_ H]. cbn in H. lia. Qed.
Ltac incr := repeat (apply increasing_cons; [intros y Hy; cbn [In] in Hy; repeat (destruct Hy as [<-|Hy]; [lra|]); contradiction|]); apply increasing_nil.

(** the bisection on the 4s table, whose abscissae are not sorted *)
Definition t4s : list R * list R := nth 6 screening_tables ([], []).
Ltac at_list := unfold at_; cbn [nth].
Ltac leaf xs ys := cbn [snd Nat.max Nat.min]; unfold xs, ys, at_; cbn [nth Nat.sub];
  repeat match goal with |- context [Rgt_dec ?a ?b] => destruct (Rgt_dec a b) | |- context [Rlt_dec ?a ?b] => destruct (Rlt_dec a b) | |- context [Req_EM_T ?a ?b] => destruct (Req_EM_T a b) end;
  first [exfalso; lra | reflexivity | field].
Lemma t4s_value q : interp None None (fst t4s) (snd t4s) q =
  if Rlt_dec q 19 then 134 / 10 else if Rlt_dec q 20 then 134 / 10 + (q - 19) / 2 else if Rlt_dec q 30 then 139 / 10 + (q - 20) * (76 / 100)
  else if Rlt_dec q 38 then 242 / 10 else if Rlt_dec q 48 then 242 / 10 + (q - 38) * (14 / 100) else if Rlt_dec q 57 then 256 / 10
  else if Rlt_dec q 71 then 256 / 10 + (q - 57) * (38 / 140) else 294 / 10.
Proof.
  unfold t4s, screening_tables. cbn [nth fst snd]. unfold interp, searchsorted.
  set (xs := [19; 20; 30; 26; 38; 48; 57; 71]). set (ys := [134 / 10; _; _; _; _; _; _; _]).
  change (length xs) with 8%nat. change (8 - 1)%nat with 7%nat. change (Nat.log2_up (8 + 1)) with 4%nat.
  cbn [Nat.iter nat_rect]. unfold Nat.iter. cbn [nat_rect].
  assert (S1 : bs_step xs q (0, 8)%nat = if Rlt_dec q 38 then (0, 4)%nat else (4, 8)%nat) by reflexivity. rewrite S1.
  assert (S2 : forall a b, bs_step xs q (a, b) = if Rlt_dec q (at_ xs ((a + b) / 2)) then (a, ((a + b) / 2)%nat) else (((a + b) / 2)%nat, b)) by reflexivity.
  destruct (Rlt_dec q 38) as [H38|H38].
  - rewrite S2. change ((0 + 4) / 2)%nat with 2%nat. change (at_ xs 2) with 30. destruct (Rlt_dec q 30) as [H30|H30].
    + rewrite S2. change ((0 + 2) / 2)%nat with 1%nat. change (at_ xs 1) with 20. destruct (Rlt_dec q 20) as [H20|H20].
      * rewrite S2. change ((0 + 1) / 2)%nat with 0%nat. change (at_ xs 0) with 19. destruct (Rlt_dec q 19) as [H19|H19]; leaf xs ys.
      * rewrite S2. change ((1 + 2) / 2)%nat with 1%nat. change (at_ xs 1) with 20. destruct (Rlt_dec q 20) as [?|_]; [lra|].
        leaf xs ys.
    + rewrite S2. change ((2 + 4) / 2)%nat with 3%nat. change (at_ xs 3) with 26. destruct (Rlt_dec q 26) as [?|_]; [lra|].
      rewrite S2. change ((3 + 4) / 2)%nat with 3%nat. change (at_ xs 3) with 26. destruct (Rlt_dec q 26) as [?|_]; [lra|].
      leaf xs ys.
  - destruct (Rlt_dec q 30); [lra|]. destruct (Rlt_dec q 20); [lra|]. destruct (Rlt_dec q 19); [lra|].
    rewrite S2. change ((4 + 8) / 2)%nat with 6%nat. change (at_ xs 6) with 57. destruct (Rlt_dec q 57) as [H57|H57].
    + rewrite S2. change ((4 + 6) / 2)%nat with 5%nat. change (at_ xs 5) with 48. destruct (Rlt_dec q 48) as [H48|H48].
      * rewrite S2. change ((4 + 5) / 2)%nat with 4%nat. change (at_ xs 4) with 38. destruct (Rlt_dec q 38) as [?|_]; [lra|].
        leaf xs ys.
      * rewrite S2. change ((5 + 6) / 2)%nat with 5%nat. change (at_ xs 5) with 48. destruct (Rlt_dec q 48) as [?|_]; [lra|].
        leaf xs ys.
    + destruct (Rlt_dec q 48); [lra|]. rewrite S2. change ((6 + 8) / 2)%nat with 7%nat. change (at_ xs 7) with 71. destruct (Rlt_dec q 71) as [H71|H71].
      * rewrite S2. change ((6 + 7) / 2)%nat with 6%nat. change (at_ xs 6) with 57. destruct (Rlt_dec q 57) as [?|_]; [lra|].
        leaf xs ys.
      * rewrite S2. change ((7 + 8) / 2)%nat with 7%nat. change (at_ xs 7) with 71. destruct (Rlt_dec q 71) as [?|_]; [lra|].
        cbn [snd Nat.max Nat.min]. unfold xs, ys. at_list. destruct (Rlt_dec q 19); [lra|]. cbn [nth Nat.sub]. destruct (Rgt_dec q 71); [reflexivity|].
        destruct (Req_EM_T _ _); [lra|]. assert (q = 71) by lra. subst q. field.
Qed.
(** The other tables: any value lies between the entries of the table. *)
Lemma table_bounds xs ys a b q : increasing xs -> (1 <= length xs)%nat -> (forall i, (i < length xs)%nat -> a <= at_ ys i <= b) ->
  a <= interp None None xs ys q <= b.
Proof. intros H1 H2 H3. apply interp_bounds; [now apply incr_asc|assumption|assumption|discriminate|discriminate]. Qed.
Ltac entries := let i := fresh "i" in intros i; unfold at_; do 8 (destruct i as [|i]; [cbn [length nth]; first [lra | intros; exfalso; lia]|]); cbn [length]; lia.
Ltac tb a b xs ys q := let H := fresh "B" in assert (H : a <= interp None None xs ys q <= b) by (apply table_bounds; [incr|cbn; lia|entries]).
Lemma screening_values q : let s := pauling_size_screening_constants q in
  Forall2 (fun '(a, b) v => a <= v <= b)
    [(0, 19 / 100); (125 / 100, 31 / 10); (25 / 10, 457 / 100); (66 / 10, 109 / 10); (87 / 10, 132 / 10); (147 / 10, 177 / 10);
     (134 / 10, 294 / 10); (244 / 10, 328 / 10); (318 / 10, 396 / 10); (43, 498 / 10)] s.
Proof.
  intros s. unfold s, pauling_size_screening_constants, screening_tables. cbn [map].
  repeat match goal with
  | |- Forall2 _ (_ :: _) (interp None None [19; _; _; _; _; _; _; _] _ _ :: _) => constructor
  | |- Forall2 _ (_ :: _) _ => constructor; [apply table_bounds; [incr|cbn; lia|entries]|]
  | |- Forall2 _ [] [] => constructor
  | _ => idtac end.
  pose proof (t4s_value q) as E. unfold t4s, screening_tables in E. cbn [nth fst snd] in E. rewrite E.
  cbv beta iota. repeat destruct (Rlt_dec _ _); lra.
Qed.
Lemma shell_pos a b x : 0 < L_Elements.shell a b x -> a < x.
Proof. unfold L_Elements.shell, Rmax, Rmin. repeat destruct (Rle_dec _ _); lra. Qed.
Lemma left_value xs ys q : increasing xs -> (1 <= length xs)%nat -> q < at_ xs 0 -> interp None None xs ys q = at_ ys 0.
Proof. intros H1 H2 H3. rewrite interp_left; [reflexivity|assumption|now apply incr_asc|assumption]. Qed.
Lemma populated_charge i Zc : 0 < nth i (M_Elements.electron_distribution_ionized_state Zc) 0 ->
  nth i (pauling_size_screening_constants Zc) 0 < Zc.
Proof.
  rewrite L_Elements.distribution_shells. pose proof (screening_values Zc) as V. cbv zeta in V.
  unfold pauling_size_screening_constants, screening_tables in *. cbn [map] in V.
  repeat match type of V with Forall2 _ (_ :: _) _ => let B := fresh "B" in inversion_clear V as [|? ? ? ? B V']; rename V' into V end. clear V.
  cbv beta iota in *.
  destruct i as [|[|[|[|[|[|[|[|[|[|i]]]]]]]]]]; cbn [nth map]; intros H; try (apply shell_pos in H); try lra.
  all: try (match goal with j : nat |- _ => destruct j; cbn [nth] in *; lra end).
  - destruct (Rlt_dec Zc 1); [|lra]. rewrite left_value; [unfold at_; cbn [nth]; lra|incr|cbn; lia|unfold at_; cbn [nth]; lra].
  - destruct (Rlt_dec Zc 3). { rewrite left_value; [unfold at_; cbn [nth]; lra|incr|cbn; lia|unfold at_; cbn [nth]; lra]. }
    destruct (Rlt_dec Zc 4); [|lra]. rewrite (interp_segment None None [3; 10] [125 / 100; 310 / 100] 0); [unfold at_; cbn [nth]; lra|incr|cbn; lia|unfold at_; cbn [nth]; lra].
  - destruct (Rlt_dec Zc 5); [|lra]. rewrite left_value; [unfold at_; cbn [nth]; lra|incr|cbn; lia|unfold at_; cbn [nth]; lra].
  - destruct (Rlt_dec Zc 11); [|lra]. rewrite left_value; [unfold at_; cbn [nth]; lra|incr|cbn; lia|unfold at_; cbn [nth]; lra].
  - destruct (Rlt_dec Zc 13). { rewrite left_value; [unfold at_; cbn [nth]; lra|incr|cbn; lia|unfold at_; cbn [nth]; lra]. }
    destruct (Rlt_dec Zc 14); [|lra]. rewrite (interp_segment None None [13; 18; 20; 30] [87 / 10; 109 / 10; 109 / 10; 132 / 10] 0); [unfold at_; cbn [nth]; lra|incr|cbn; lia|unfold at_; cbn [nth]; lra].
  - pose proof (t4s_value Zc) as E. unfold t4s, screening_tables in E. cbn [nth fst snd] in E. rewrite E. repeat destruct (Rlt_dec _ _); lra.
  - destruct (Rlt_dec Zc 31). { rewrite left_value; [unfold at_; cbn [nth]; lra|incr|cbn; lia|unfold at_; cbn [nth]; lra]. }
    destruct (Rlt_dec Zc 36); [|lra]. rewrite (interp_segment None None [31; 36; 38; 48; 57; 71] [244 / 10; 266 / 10; 266 / 10; 284 / 10; 284 / 10; 328 / 10] 0); [unfold at_; cbn [nth]; lra|incr|cbn; lia|unfold at_; cbn [nth]; lra].
Qed.

(** ** The 1s form factor and its lowering *)
Definition g10 (u : consts) (k Z : R) : R := 1 / (1 + (k * a_0 u / (2 * Z)) ^ 2) ^ 2.
Lemma f10_some u k Z : Z <> 0 -> pauling_f10 u k Z = Some (g10 u k Z).
Proof. intros H. unfold pauling_f10, pauling_xf. rewrite qdiv_some by lra. reflexivity. Qed.
Lemma f10_zero u k : k <> 0 -> pauling_f10 u k 0 = Some 0.
Proof.
  intros H. unfold pauling_f10, pauling_xf, qdiv. destruct (Req_EM_T (2 * 0) 0); [|exfalso; lra]. destruct (Req_EM_T k 0); [contradiction|reflexivity].
Qed.
Lemma sq_mono x y : 0 <= x <= y -> 1 / (1 + y) ^ 2 <= 1 / (1 + x) ^ 2.
Proof.
  intros H. unfold Rdiv. rewrite !Rmult_1_l. apply Rinv_le_contravar; [apply pow_lt; lra|]. apply pow_incr. lra.
Qed.
Lemma sq_mono_strict x y : 0 <= x < y -> 1 / (1 + y) ^ 2 < 1 / (1 + x) ^ 2.
Proof.
  intros H. unfold Rdiv. rewrite !Rmult_1_l. apply Rinv_lt_contravar; [apply Rmult_lt_0_compat; apply pow_lt; lra|]. nra.
Qed.
Lemma g10_sq u k Z : Z <> 0 -> (k * a_0 u / (2 * Z)) ^ 2 = (k * a_0 u) ^ 2 / (4 * Z ^ 2).
Proof. intros H. field. lra. Qed.
Lemma g10_range u k Z : 0 < g10 u k Z <= 1.
Proof.
  unfold g10. pose proof (pow2_ge_0 (k * a_0 u / (2 * Z))) as H. split.
  - apply Rdiv_lt_0_compat; [lra|]. apply pow_lt. lra.
  - pose proof (sq_mono 0 _ (conj (Rle_refl 0) H)). replace (1 / (1 + 0) ^ 2) with 1 in H0 by field. assumption.
Qed.
Lemma f10_mono u k Z Z' : 0 <= Z <= Z' -> k <> 0 -> exists f f', pauling_f10 u k Z = Some f /\ pauling_f10 u k Z' = Some f' /\ 0 <= f <= f' /\ f' <= 1 /\ (Z < Z' -> f < f').
Proof.
  intros HZ Hk. pose proof (a_0_pos u) as Ha. destruct (Req_dec Z 0) as [->|HZ0].
  - rewrite f10_zero by assumption. destruct (Req_dec Z' 0) as [->|HZ'].
    + rewrite f10_zero by assumption. exists 0, 0. repeat split; try lra.
    + rewrite f10_some by assumption. pose proof (g10_range u k Z'). exists 0, (g10 u k Z'). repeat split; lra.
  - rewrite !f10_some by lra. exists (g10 u k Z), (g10 u k Z'). pose proof (g10_range u k Z). pose proof (g10_range u k Z').
    assert (K : 0 < (k * a_0 u) ^ 2). { apply pow2_gt_0. apply Rmult_integral_contrapositive_currified; lra. }
    repeat split; try lra.
    + unfold g10. rewrite !g10_sq by lra. apply sq_mono. split.
      * apply Rmult_le_pos; [lra|]. left. apply Rinv_0_lt_compat. nra.
      * apply Rmult_le_compat_l; [lra|]. apply Rinv_le_contravar; nra.
    + intros HL. unfold g10. rewrite !g10_sq by lra. apply sq_mono_strict. split.
      * apply Rmult_le_pos; [lra|]. left. apply Rinv_0_lt_compat. nra.
      * apply Rmult_lt_compat_l; [lra|]. apply Rinv_lt_contravar; [|nra]. apply Rmult_lt_0_compat; nra.
Qed.
Definition EnH : R := 13605693122994 / 1000000000000.
Definition quad (corr : bool) (ZA : R) : R := if corr then 17728 / 100000000 * ZA ^ 2 else 0.
Lemma quad_nonneg c ZA : 0 <= quad c ZA.
Proof. unfold quad. destruct c; [|lra]. pose proof (pow2_ge_0 ZA). nra. Qed.
Lemma lowering_Zeff E1 E2 ZA corr : 1 <= ZA -> 0 <= E1 -> 0 <= E2 ->
  0 < EnH + quad corr ZA /\ 0 < EnH - 121318355 / 10000000 / ZA + quad corr ZA /\
  form_factor_lowering_Zeff_10 (E1, E2) ZA corr =
  Some (sqrt (E1 / (EnH + quad corr ZA)), sqrt (E2 / (EnH - 121318355 / 10000000 / ZA + quad corr ZA))).
Proof.
  intros HZ H1 H2. pose proof (quad_nonneg corr ZA) as HQ.
  assert (HD : 121318355 / 10000000 / ZA <= 121318355 / 10000000).
  { unfold Rdiv at 1. rewrite <- (Rmult_1_r (121318355 / 10000000)) at 2. apply Rmult_le_compat_l; [lra|]. apply Rle_trans with (/ 1); [apply Rinv_le_contravar; lra|lra]. }
  assert (P1 : 0 < EnH + quad corr ZA) by (unfold EnH; lra).
  assert (P2 : 0 < EnH - 121318355 / 10000000 / ZA + quad corr ZA) by (unfold EnH; lra).
  split; [assumption|]. split; [assumption|].
  unfold form_factor_lowering_Zeff_10. cbn [fst snd]. fold (quad corr ZA). fold EnH.
  rewrite qdiv_some by lra. cbn [obind]. rewrite !qdiv_some by lra. cbn [obind].
  rewrite !sqrto_some by (apply Rmult_le_pos; [lra|left; apply Rinv_0_lt_compat; lra]). cbn [obind].
  rewrite !pow1, !Rmult_1_r. reflexivity.
Qed.
Lemma clip01_range x : 0 <= clip01 x <= 1.
Proof. unfold clip01, Rmin, Rmax. repeat destruct (Rle_dec _ _); lra. Qed.
Lemma sqrt_div_mono a b d : 0 < d -> 0 <= a <= b -> 0 <= sqrt (a / d) <= sqrt (b / d).
Proof.
  intros Hd H. split; [apply sqrt_pos|]. apply sqrt_le_1; try (apply Rmult_le_pos; [lra|left; now apply Rinv_0_lt_compat]).
  apply Rmult_le_compat_r; [left; now apply Rinv_0_lt_compat|lra].
Qed.
Lemma lowering_mono u k E1 E2 E1' E2' Zc ZA corr : 1 <= ZA -> k <> 0 -> 0 <= E1 <= E1' -> 0 <= E2 <= E2' ->
  exists f f', form_factor_lowering_10 u k (E1, E2) Zc ZA corr = Some f /\ form_factor_lowering_10 u k (E1', E2') Zc ZA corr = Some f' /\
    0 <= f <= f' /\ f' <= 1.
Proof.
  intros HZ Hk H1 H2.
  destruct (lowering_Zeff E1 E2 ZA corr) as (P1 & P2 & Q); [lra..|].
  destruct (lowering_Zeff E1' E2' ZA corr) as (_ & _ & Q'); [lra..|].
  unfold form_factor_lowering_10. rewrite Q, Q'. cbn [obind fst snd].
  destruct (f10_mono u k _ _ (sqrt_div_mono E1 E1' _ P1 H1) Hk) as (a & a' & -> & -> & A1 & A2 & _).
  destruct (f10_mono u k _ _ (sqrt_div_mono E2 E2' _ P2 H2) Hk) as (b & b' & -> & -> & B1 & B2 & _).
  cbn [obind]. pose proof (clip01_range (Zc - 1)) as C. generalize dependent (clip01 (Zc - 1)). intros c C.
  do 2 eexists. split; [reflexivity|]. split; [reflexivity|]. split; [split|]; nra.
Qed.
Lemma lowering_entries u corr k ions energies ipd r c :
  FormFactorLowering u corr k ions energies ipd r c =
  if (Nat.ltb r (length ions) && Nat.eqb c 0)%bool
  then let '(Z_A, Z_core) := nth r ions (0, 0) in form_factor_lowering_10 u k (k_shell Z_A (nth r energies []) (at_ ipd r)) Z_core Z_A corr
  else PaulingFormFactors u k ions r c.
Proof.
  unfold FormFactorLowering. set (n := length ions). clearbody n.
  set (step := fun ff idx => _). generalize (PaulingFormFactors u k ions) as ff0. intros ff0.
  induction n as [|n IH]; [reflexivity|].
  rewrite seq_S, fold_left_app. cbn [fold_left Nat.add]. unfold step at 1. destruct (nth n ions (0, 0)) as [za zc] eqn:En.
  destruct (Nat.eqb r n) eqn:Er.
  - apply Nat.eqb_eq in Er. subst r. rewrite En. replace (n <? S n)%nat with true by (symmetry; apply Nat.ltb_lt; lia). cbn [andb].
    destruct (Nat.eqb c 0); [reflexivity|]. rewrite IH. rewrite andb_false_r. reflexivity.
  - cbn [andb]. rewrite IH. replace (r <? S n)%nat with (r <? n)%nat; [reflexivity|].
    apply Nat.eqb_neq in Er. destruct (r <? n)%nat eqn:A; symmetry; [apply Nat.ltb_lt in A; apply Nat.ltb_lt; lia|apply Nat.ltb_ge in A; apply Nat.ltb_ge; lia].
Qed.
