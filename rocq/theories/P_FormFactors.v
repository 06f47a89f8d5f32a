(** Form factors: C56, C57, C104, C105 *)
From Coq Require Import Reals List Arith Bool QArith Qreals Lra Lia Psatz.
From Coquelicot Require Import Coquelicot.
From Verif Require M_Elements L_Elements.
From Verif Require Import M_Const M_PlasmaState M_Interp L_Interp M_ElementTables M_FormFactors L_FormFactors L_FormFactorsFT.
Import ListNotations.
Open Scope R_scope.

Lemma ff_F2 u n l k Z : In (n, l) shells -> Z <> 0 -> pauling_atomic_ff u n l k Z = Some (F n l ((INR n * (k * a_0 u / (2 * Z))) ^ 2)).
Proof. intros H HZ. rewrite ff_F by assumption. f_equal. f_equal. field. assumption. Qed.
(** ** C56: form factors are the Fourier transforms of hydrogenic densities *)
Theorem C56_hydrogenic_transform : forall u n l k Z, In (n, l) [(1, 0); (2, 0); (2, 1); (3, 0); (3, 1); (3, 2); (4, 0); (4, 1); (4, 2); (4, 3)]%nat ->
  k <> 0 -> Z <> 0 ->
  exists f, pauling_atomic_ff u n l k Z = Some f /\
    is_lim (fun x => RInt (fun s => radial_density n l s * sinc (INR n * k * a_0 u / (2 * Z) * s)) 0 x) p_infty f.
Proof.
  intros u n l k Z H Hk HZ. exists (F n l ((INR n * (k * a_0 u / (2 * Z))) ^ 2)). split; [now apply ff_F2|].
  replace (INR n * k * a_0 u / (2 * Z)) with (INR n * (k * a_0 u / (2 * Z))) by (field; assumption).
  apply imp_integral. apply hydrogenic; [assumption|].
  pose proof (a_0_pos u). assert (INR n <> 0) by (apply not_0_INR; shell H; lia).
  apply Rmult_integral_contrapositive_currified; [assumption|]. unfold Rdiv.
  repeat apply Rmult_integral_contrapositive_currified; try lra. apply Rinv_neq_0_compat. lra.
Qed.
Print Assumptions C56_hydrogenic_transform.
Example C56_hydrogenic_transform_ex : exists f, pauling_atomic_ff unit_consts 3 1 2 5 = Some f /\
  is_lim (fun x => RInt (fun s => radial_density 3 1 s * sinc (INR 3 * 2 * a_0 unit_consts / (2 * 5) * s)) 0 x) p_infty f.
Proof. apply C56_hydrogenic_transform; [cbn; tauto|lra|lra]. Qed.
(** these densities are probability densities *)
Theorem C56_density : forall n l, In (n, l) [(1, 0); (2, 0); (2, 1); (3, 0); (3, 1); (3, 2); (4, 0); (4, 1); (4, 2); (4, 3)]%nat ->
  (forall s, 0 <= s -> 0 <= radial_density n l s) /\ is_lim (fun x => RInt (radial_density n l) 0 x) p_infty 1.
Proof. intros n l H. split; [intros; now apply density_nonneg|]. apply imp_integral. now apply normalised. Qed.
Print Assumptions C56_density.
Theorem C56_bounded : forall u n l k Z, In (n, l) [(1, 0); (2, 0); (2, 1); (3, 0); (3, 1); (3, 2); (4, 0); (4, 1); (4, 2); (4, 3)]%nat -> Z <> 0 ->
  (exists f, pauling_atomic_ff u n l k Z = Some f /\ Rabs f <= 1) /\ pauling_atomic_ff u n l 0 Z = Some 1 /\
  pauling_atomic_ff u n l (- k) Z = pauling_atomic_ff u n l k Z.
Proof.
  intros u n l k Z H HZ. split; [|split].
  - eexists. split; [now apply ff_F2|]. apply F_le1; [assumption|apply pow2_ge_0].
  - rewrite ff_F2 by assumption. f_equal. replace ((INR n * (0 * a_0 u / (2 * Z))) ^ 2) with 0 by (field; assumption). now apply F0.
  - rewrite !ff_F2 by assumption. f_equal. f_equal. field. assumption.
Qed.
Print Assumptions C56_bounded.
Example C56_bounded_ex : pauling_atomic_ff unit_consts 4 2 0 (7 / 2) = Some 1.
Proof. apply (C56_bounded unit_consts 4 2 1 (7 / 2)); [cbn; tauto|lra]. Qed.
(** for small k the mean squared radius of the shell *)
Theorem C56_small_k : forall u n l Z, In (n, l) [(1, 0); (2, 0); (2, 1); (3, 0); (3, 1); (3, 2); (4, 0); (4, 1); (4, 2); (4, 3)]%nat -> 0 < Z ->
  exists G : R -> R, (forall k, pauling_atomic_ff u n l k Z = Some (G (k ^ 2))) /\
    is_derive G 0 (- (INR n ^ 2 * (5 * INR n ^ 2 + 1 - 3 * INR l * (INR l + 1)) / 2 * (a_0 u / Z) ^ 2) / 6).
Proof.
  intros u n l Z H HZ. set (c := (INR n * (a_0 u / (2 * Z))) ^ 2).
  assert (Hn : INR n <> 0) by (apply not_0_INR; shell H; lia).
  exists (fun x => F n l (c * x)). split.
  - intros k. rewrite ff_F2 by (assumption || lra). f_equal. f_equal. unfold c. field. lra.
  - pose proof (F_derive n l H) as D. replace 0 with (c * 0) in D at 1 by ring.
    pose proof (is_derive_comp (F n l) (fun x => c * x) 0 _ c D) as E.
    match goal with |- is_derive _ _ ?t => replace t with (scal c (- mean_r2 n l / 6 * (4 / INR n ^ 2))) end.
    + apply E. auto_derive; [auto|]. ring.
    + unfold scal, mean_r2, c. cbn. unfold mult. cbn. field. split; [lra|assumption].
Qed.
Print Assumptions C56_small_k.
Example C56_small_k_ex : exists G : R -> R, (forall k, pauling_atomic_ff unit_consts 2 1 k 6 = Some (G (k ^ 2))) /\
    is_derive G 0 (- (INR 2 ^ 2 * (5 * INR 2 ^ 2 + 1 - 3 * INR 1 * (INR 1 + 1)) / 2 * (a_0 unit_consts / 6) ^ 2) / 6).
Proof. apply C56_small_k; [cbn; tauto|lra]. Qed.
(** a vanishing effective charge gives nan, e.g. 2p in the average atom of BeH (Z = 5/2) *)
Theorem C56_refuted : forall u k, exists Z_A Z_core orb, 0 < Z_core <= Z_A /\
  nth orb (M_Elements.electron_distribution_ionized_state Z_core) 0 = 0 /\ PaulingFormFactors u k [(Z_A, Z_core)] orb 0 = None.
Proof.
  intros u k. exists (5 / 2), (5 / 2), 2%nat. split; [lra|]. split.
  - rewrite L_Elements.distribution_shells. cbn [nth]. unfold L_Elements.shell, Rmax, Rmin. repeat destruct (Rle_dec _ _); lra.
  - unfold PaulingFormFactors. cbn [nth]. unfold pauling_size_screening_constants, screening_tables. cbn [map pauling_all_ff map2 nth].
    unfold pauling_all_ff. cbn [map2 nth].
    rewrite (left_value [5; 10]); [|incr|cbn; lia|unfold at_; cbn [nth]; lra]. unfold at_. cbn [nth].
    unfold pauling_f21, pauling_xf, qdiv. destruct (Req_EM_T (2 * (5 / 2 - 250 / 100)) 0); [reflexivity|exfalso; lra].
Qed.
Print Assumptions C56_refuted.
(** the 1s form factor falls with k and rises with the charge *)
Theorem C56_1s_monotone : forall u k k' Z Z', 0 < k <= k' -> 0 < Z <= Z' ->
  exists f f', pauling_f10 u k' Z = Some f /\ pauling_f10 u k Z' = Some f' /\ 0 < f <= f' /\ f' <= 1 /\ (k < k' \/ Z < Z' -> f < f').
Proof.
  intros u k k' Z Z' Hk HZ. rewrite !f10_some by lra. exists (g10 u k' Z), (g10 u k Z').
  pose proof (g10_range u k' Z). pose proof (g10_range u k Z'). pose proof (a_0_pos u) as Ha.
  assert (K : 0 < (k * a_0 u) ^ 2 <= (k' * a_0 u) ^ 2) by (split; [apply pow_lt; nra|apply pow_incr; split; nra]).
  assert (V : forall z, 0 < z -> 0 < / (4 * z ^ 2)) by (intros; apply Rinv_0_lt_compat; nra).
  pose proof (V Z ltac:(lra)) as V1. pose proof (V Z' ltac:(lra)) as V2.
  assert (V3 : / (4 * Z' ^ 2) <= / (4 * Z ^ 2)) by (apply Rinv_le_contravar; nra).
  split; [reflexivity|]. split; [reflexivity|]. split; [split|split]; try lra.
  - unfold g10. rewrite !g10_sq by lra. apply sq_mono. unfold Rdiv. split; [nra|]. apply Rmult_le_compat; lra.
  - intros S. unfold g10. rewrite !g10_sq by lra. apply sq_mono_strict. unfold Rdiv. split; [nra|].
    destruct S as [S|S].
    + assert ((k * a_0 u) ^ 2 < (k' * a_0 u) ^ 2) by (assert (k * a_0 u < k' * a_0 u) by nra; assert (0 < k * a_0 u) by nra; nra).
      apply Rlt_le_trans with ((k' * a_0 u) ^ 2 * / (4 * Z' ^ 2)); [apply Rmult_lt_compat_r; lra|apply Rmult_le_compat_l; lra].
    + assert (/ (4 * Z' ^ 2) < / (4 * Z ^ 2)) by (apply Rinv_lt_contravar; [apply Rmult_lt_0_compat; nra|nra]).
      apply Rle_lt_trans with ((k' * a_0 u) ^ 2 * / (4 * Z' ^ 2)); [apply Rmult_le_compat_r; lra|apply Rmult_lt_compat_l; lra].
Qed.
Print Assumptions C56_1s_monotone.
Example C56_1s_monotone_ex : exists f f', pauling_f10 unit_consts 2 3 = Some f /\ pauling_f10 unit_consts 1 3 = Some f' /\ 0 < f <= f' /\ f' <= 1 /\ (1 < 2 \/ 3 < 3 -> f < f').
Proof. apply (C56_1s_monotone unit_consts 1 2 3 3); lra. Qed.
(** the rows of the array and the single shells are the same functions *)
Theorem C56_rows : forall u k Zeff i n l, nth_error [(1, 0); (2, 0); (2, 1); (3, 0); (3, 1); (3, 2); (4, 0); (4, 1); (4, 2); (4, 3)]%nat i = Some (n, l) ->
  length Zeff = 10%nat -> nth i (pauling_all_ff u k Zeff) None = pauling_atomic_ff u n l k (nth i Zeff 0).
Proof.
  intros u k Zeff i n l H HL. do 10 (destruct Zeff as [|? Zeff]; [discriminate|]).
  do 10 (destruct i as [|i]; [cbn in H; injection H as <- <-; reflexivity|]). destruct i; discriminate.
Qed.
Print Assumptions C56_rows.
Example C56_rows_ex : nth 4 (pauling_all_ff unit_consts 1 [1; 1; 1; 1; 1; 1; 1; 1; 1; 1]) None = pauling_atomic_ff unit_consts 3 1 1 1.
Proof. now apply (C56_rows unit_consts 1 [1; 1; 1; 1; 1; 1; 1; 1; 1; 1] 4 3 1). Qed.

(** ** C57: the screening tables *)
Theorem C57_tables_partial : forall i xs ys, nth_error screening_tables i = Some (xs, ys) ->
  length xs = length ys /\
  (i <> 6%nat -> (forall a b, (a < b < length xs)%nat -> at_ xs a < at_ xs b) /\
    (forall j, (j < length xs)%nat -> nth i (pauling_size_screening_constants (at_ xs j)) 0 = at_ ys j) /\
    (forall a b, (a <= b < length ys)%nat -> 0 <= at_ ys a <= at_ ys b)).
Proof.
  intros i xs ys H.
  assert (K : forall j, (j < length xs)%nat -> increasing xs -> (2 <= length xs)%nat -> nth i (pauling_size_screening_constants (at_ xs j)) 0 = at_ ys j).
  { intros j Hj Hs Hn. unfold pauling_size_screening_constants.
    set (g := fun '(xs0, ys0) => _). rewrite (nth_indep _ 0 (g ([], []))).
    2: { rewrite map_length. apply nth_error_Some. congruence. }
    rewrite map_nth. rewrite (nth_error_nth screening_tables i ([], []) H). now apply interp_knot. }
  assert (AC : forall x zs, 0 <= x -> (forall y, In y zs -> x <= y) -> (forall a b, (a <= b < length zs)%nat -> 0 <= at_ zs a <= at_ zs b) ->
    forall a b, (a <= b < length (x :: zs))%nat -> 0 <= at_ (x :: zs) a <= at_ (x :: zs) b).
  { intros x zs Hx Hy Hz a b [Hab Hb]. cbn [length] in Hb. unfold at_ in *. destruct b as [|b].
    - destruct a; [cbn; lra|lia].
    - destruct a as [|a]; cbn [nth]; [split; [lra|]; apply Hy; apply nth_In; lia|]. apply Hz. lia. }
  assert (AN : forall a b, (a <= b < length (@nil R))%nat -> 0 <= at_ [] a <= at_ [] b) by (intros a b [_ X]; cbn in X; lia).
  unfold screening_tables in H.
  do 10 (destruct i as [|i]; [cbn in H; injection H as <- <-; split; [reflexivity|]; intros Hi; first [congruence | (
    match goal with |- (forall a b, (a < b < length ?l)%nat -> _) /\ _ => assert (Hs : increasing l) by incr end;
    split; [exact Hs|split; [intros j Hj; apply K; [exact Hj|exact Hs|cbn; lia]|]];
    repeat (apply AC; [lra|intros y Hy; cbn [In] in Hy; repeat (destruct Hy as [<-|Hy]; [lra|]); contradiction|]); apply AN)] |]).
  destruct i; discriminate.
Qed.
Print Assumptions C57_tables_partial.
Example C57_tables_ex : nth 4 (pauling_size_screening_constants 18) 0 = 109 / 10.
Proof. apply (C57_tables_partial 4 [13; 18; 20; 30] [87 / 10; 109 / 10; 109 / 10; 132 / 10]) with (j := 1%nat); [reflexivity|lia|cbn; lia]. Qed.
(** the 4s table is not sorted: at its own knot 30 (value 21.5) it returns 24.2, jumping from 21.5 *)
Theorem C57_refuted : exists xs ys, nth_error screening_tables 6 = Some (xs, ys) /\
  (exists a b, (a < b < length xs)%nat /\ at_ xs b < at_ xs a) /\
  at_ xs 2 = 30 /\ at_ ys 2 = 215 / 10 /\ nth 6 (pauling_size_screening_constants 30) 0 = 242 / 10 /\
  (forall q, 20 <= q < 30 -> nth 6 (pauling_size_screening_constants q) 0 <= 215 / 10).
Proof.
  do 2 eexists. split; [reflexivity|]. split; [exists 2%nat, 3%nat; split; [cbn; lia|unfold at_; cbn [nth]; lra]|].
  split; [reflexivity|]. split; [reflexivity|].
  assert (E : forall q, nth 6 (pauling_size_screening_constants q) 0 = interp None None (fst t4s) (snd t4s) q) by reflexivity.
  split; [|intros q Hq]; rewrite E, t4s_value; repeat destruct (Rlt_dec _ _); lra.
Qed.
Print Assumptions C57_refuted.
(** every shell that holds electrons has a positive effective charge, whence a form factor *)
Theorem C57_populated_shells : forall u k Z_A Z_core i, Z_core <= Z_A ->
  0 < nth i (M_Elements.electron_distribution_ionized_state Z_core) 0 ->
  nth i (pauling_size_screening_constants Z_core) 0 < Z_A /\
  exists f, PaulingFormFactors u k [(Z_A, Z_core)] i 0 = Some f /\ Rabs f <= 1.
Proof.
  intros u k Z_A Z_core i HZ Hp. pose proof (populated_charge i Z_core Hp) as HS. split; [lra|].
  assert (Hi : (i < 10)%nat).
  { destruct (Nat.lt_ge_cases i 10) as [|G]; [assumption|]. rewrite nth_overflow in Hp by (cbn; lia). lra. }
  unfold PaulingFormFactors. cbn [nth]. set (Zs := map (fun s => Z_A - s) (pauling_size_screening_constants Z_core)).
  assert (HN : exists n l, nth_error shells i = Some (n, l)).
  { destruct (nth_error shells i) as [[n l]|] eqn:E; [eauto|]. apply nth_error_None in E. cbn in E. lia. }
  destruct HN as (n & l & HN). rewrite (C56_rows u k Zs i n l HN) by reflexivity.
  assert (HZi : nth i Zs 0 = Z_A - nth i (pauling_size_screening_constants Z_core) 0).
  { unfold Zs. rewrite (nth_indep _ 0 (Z_A - 0)) by (rewrite map_length; exact Hi). now rewrite (map_nth (fun s => Z_A - s)). }
  destruct (C56_bounded u n l k (nth i Zs 0)) as [HB _]; [now apply nth_error_In with i|lra|exact HB].
Qed.
Print Assumptions C57_populated_shells.
Example C57_populated_ex : exists f, PaulingFormFactors unit_consts 2 [(26, 20)] 6 0 = Some f /\ Rabs f <= 1.
Proof.
  apply C57_populated_shells; [lra|]. rewrite L_Elements.distribution_shells. cbn [nth]. unfold L_Elements.shell, Rmax, Rmin. repeat destruct (Rle_dec _ _); lra.
Qed.

(** ** C104: lowering of the 1s form factor *)
Theorem C104_lowered : forall u k E1 E2 E1' E2' Zc Z_A corr, 1 <= Z_A -> k <> 0 -> 0 <= E1 <= E1' -> 0 <= E2 <= E2' ->
  exists f f', form_factor_lowering_10 u k (E1, E2) Zc Z_A corr = Some f /\ form_factor_lowering_10 u k (E1', E2') Zc Z_A corr = Some f' /\
    0 <= f <= f' /\ f' <= 1.
Proof. exact lowering_mono. Qed.
Print Assumptions C104_lowered.
Example C104_lowered_ex : exists f f', form_factor_lowering_10 unit_consts 1 (100, 50) 2 4 true = Some f /\ form_factor_lowering_10 unit_consts 1 (200, 150) 2 4 true = Some f' /\
    0 <= f <= f' /\ f' <= 1.
Proof. apply C104_lowered; lra. Qed.
(** one electron: the hydrogenic 1s form factor of the charge Z with E = Z^2 E_n; two: that of the
    screened level; in between the mean *)
Theorem C104_charge : forall u k E1 E2 Zc Z_A (corr : bool), 1 <= Z_A -> 0 < E1 -> 0 < E2 ->
  let En := 13605693122994 / 1000000000000 + (if corr then 17728 / 100000000 * Z_A ^ 2 else 0) in
  exists Z1 Z2 f1 f2, 0 < Z1 /\ 0 < Z2 /\ Z1 ^ 2 * En = E1 /\ Z2 ^ 2 * (En - 121318355 / 10000000 / Z_A) = E2 /\
    pauling_atomic_ff u 1 0 k Z1 = Some f1 /\ pauling_atomic_ff u 1 0 k Z2 = Some f2 /\
    (Zc <= 1 -> form_factor_lowering_10 u k (E1, E2) Zc Z_A corr = Some f1) /\
    (2 <= Zc -> form_factor_lowering_10 u k (E1, E2) Zc Z_A corr = Some f2) /\
    (1 <= Zc <= 2 -> form_factor_lowering_10 u k (E1, E2) Zc Z_A corr = Some ((2 - Zc) * f1 + (Zc - 1) * f2)).
Proof.
  intros u k E1 E2 Zc Z_A corr HZ H1 H2 En.
  destruct (lowering_Zeff E1 E2 Z_A corr) as (P1 & P2 & Q); [lra..|].
  assert (EE : En = EnH + quad corr Z_A) by reflexivity.
  exists (sqrt (E1 / (EnH + quad corr Z_A))), (sqrt (E2 / (EnH - 121318355 / 10000000 / Z_A + quad corr Z_A))).
  set (d := 121318355 / 10000000 / Z_A) in *. clearbody d.
  assert (Q1 : 0 < E1 / (EnH + quad corr Z_A)) by now apply Rdiv_lt_0_compat.
  assert (Q2 : 0 < E2 / (EnH - d + quad corr Z_A)) by now apply Rdiv_lt_0_compat.
  assert (S1 : 0 < sqrt (E1 / (EnH + quad corr Z_A))) by now apply sqrt_lt_R0.
  assert (S2 : 0 < sqrt (E2 / (EnH - d + quad corr Z_A))) by now apply sqrt_lt_R0.
  do 2 eexists. split; [assumption|]. split; [assumption|].
  split; [rewrite EE, pow2_sqrt by lra; field; lra|]. split; [rewrite EE, pow2_sqrt by lra; field; lra|].
  split; [unfold pauling_atomic_ff; apply f10_some; lra|]. split; [unfold pauling_atomic_ff; apply f10_some; lra|].
  unfold form_factor_lowering_10. rewrite Q. cbn [obind fst snd]. rewrite !f10_some by lra. cbn [obind].
  unfold clip01, Rmin, Rmax. repeat split; intros; f_equal; repeat destruct (Rle_dec _ _); try lra; try ring.
  all: try (assert (Zc = 2) by lra; subst Zc; ring); try (assert (Zc = 1) by lra; subst Zc; ring).
Qed.
Print Assumptions C104_charge.
Example C104_charge_ex : exists f, form_factor_lowering_10 unit_consts 1 (100, 50) (3 / 2) 4 false = Some f.
Proof. destruct (C104_charge unit_consts 1 100 50 (3 / 2) 4 false) as (? & ? & ? & ? & _ & _ & _ & _ & _ & _ & _ & _ & H); [lra..|]. eexists. apply H. lra. Qed.
(** a plasma of one species: only its 1s entry changes *)
Theorem C104_single_species_partial : forall u corr k Z_A Z_core es ipd r,
  FormFactorLowering u corr k [(Z_A, Z_core)] [es] [ipd] r 0 =
  match r with
  | 0%nat => form_factor_lowering_10 u k (k_shell Z_A es ipd) Z_core Z_A corr
  | _ => PaulingFormFactors u k [(Z_A, Z_core)] r 0
  end.
Proof. intros. rewrite lowering_entries. cbn [length]. destruct r; reflexivity. Qed.
Print Assumptions C104_single_species_partial.
(** in a mixture the lowered form factors land in the wrong row and column: the 1s
    electrons of every later ion keep their unlowered form factor, and orbitals of the first ion are replaced *)
Theorem C104_refuted : forall u k, k <> 0 -> exists ions energies ipd Z_A Z_core,
  length ions = 2%nat /\ nth_error ions 1 = Some (Z_A, Z_core) /\
  FormFactorLowering u false k ions energies ipd 0 1 <> form_factor_lowering_10 u k (k_shell Z_A (nth 1 energies []) (at_ ipd 1)) Z_core Z_A false /\
  FormFactorLowering u false k ions energies ipd 1 0 = form_factor_lowering_10 u k (k_shell Z_A (nth 1 energies []) (at_ ipd 1)) Z_core Z_A false.
Proof.
  intros u k Hk. exists [(1, 1); (1, 1)], [[13]; [13]], [-1; -1], 1, 1. split; [reflexivity|]. split; [reflexivity|].
  rewrite !lowering_entries. cbn [length Nat.ltb Nat.leb andb Nat.eqb nth]. split; [|reflexivity].
  assert (EK : k_shell 1 [13] (at_ [-1; -1] 1) = (13 + -1, 0)).
  { unfold k_shell, at_. cbn [rev app nth]. destruct (Rlt_dec _ _); [lra|]. destruct (Req_EM_T 1 1); [reflexivity|lra]. }
  rewrite EK. unfold form_factor_lowering_10. destruct (lowering_Zeff (13 + -1) 0 1 false) as (P1 & P2 & Q); [lra..|].
  rewrite Q. cbn [obind fst snd].
  assert (S0 : sqrt (0 / (EnH - 121318355 / 10000000 / 1 + quad false 1)) = 0) by (unfold Rdiv at 1; rewrite Rmult_0_l; apply sqrt_0).
  rewrite S0, f10_zero by assumption.
  assert (HS : 0 < sqrt ((13 + -1) / (EnH + quad false 1)) < 1).
  { assert (0 < (13 + -1) / (EnH + quad false 1)) by (apply Rdiv_lt_0_compat; lra).
    split; [now apply sqrt_lt_R0|]. apply Rlt_le_trans with (sqrt 1); [|rewrite sqrt_1; lra]. apply sqrt_lt_1; try lra.
    apply (Rmult_lt_reg_r (EnH + quad false 1)); [lra|]. unfold Rdiv. rewrite Rmult_assoc, Rinv_l by lra. unfold EnH, quad. lra. }
  set (z := sqrt _) in *. clearbody z.
  destruct (f10_mono u k z 1) as (f & f' & E1 & E2 & A & B & C); [lra|assumption|]. rewrite E1. cbn [obind].
  unfold PaulingFormFactors, pauling_all_ff. cbn [nth map2]. unfold pauling_size_screening_constants, screening_tables. cbn [map map2 nth].
  assert (EI : interp None None [1; 2] [0; 19 / 100] 1 = 0).
  { apply (interp_knot None None [1; 2] [0; 19 / 100] 0); [incr|cbn; lia|cbn; lia]. }
  rewrite EI. replace (1 - 0) with 1 by ring. rewrite E2. intros X. injection X as X. specialize (C ltac:(lra)).
  assert (c0 : clip01 (1 - 1) = 0) by (unfold clip01, Rmin, Rmax; repeat destruct (Rle_dec _ _); lra). rewrite c0 in X. lra.
Qed.
Print Assumptions C104_refuted.

(** ** C105: the two binding energies taken for the K shell *)
Definition top2 (es : list Q) : bool :=
  match rev es with
  | a :: b :: r => Qle_bool b a && forallb (fun e => Qle_bool e b) r
  | _ => false
  end.
Lemma top2_table : forallb (fun p => Bool.eqb (Nat.eqb (fst p) 1 || top2 (snd p)) (negb (existsb (Nat.eqb (fst p)) [9; 10; 19; 20; 29; 30]%nat))) tab_energies = true.
Proof. vm_compute. reflexivity. Qed.
Theorem C105_k_shell_partial : forall z es, In (z, es) tab_energies -> (2 <= z)%nat ->
  let '(E1, E2) := k_shell (INR z) (map Q2R es) 0 in
  ((E2 <= E1 /\ (forall i e, nth_error es i = Some e -> (i + 2 < z)%nat -> Q2R e <= E2)) <-> ~ In z [9; 10; 19; 20; 29; 30]%nat).
Proof.
  intros z es H Hz. pose proof (L_Elements.forallb_In _ _ _ top2_table H) as T. cbn [fst snd] in T. apply eqb_prop in T.
  replace (Nat.eqb z 1) with false in T by (symmetry; apply Nat.eqb_neq; lia). cbn [orb] in T.
  destruct (L_Elements.energies_spec z es H) as [HL HP].
  rewrite <- (rev_involutive es) in HL, HP |- *. rewrite rev_length in HL. unfold top2 in T.
  destruct (rev es) as [|a [|b r]]; cbn [length] in HL; [lia|lia|].
  assert (PA : 0 < Q2R a /\ 0 < Q2R b).
  { rewrite <- RMicromega.Q2R_0. split; apply Qlt_Rlt, HP; rewrite <- in_rev; cbn; tauto. }
  unfold k_shell. rewrite map_rev, rev_involutive. cbn [map nth].
  destruct (Req_EM_T (INR z) 1) as [Z1|_]; [apply (INR_eq z 1) in Z1; lia|].
  rewrite !Rplus_0_r. destruct (Rlt_dec (Q2R a) 0); [lra|]. destruct (Rlt_dec (Q2R b) 0); [lra|].
  assert (I : ~ In z [9; 10; 19; 20; 29; 30]%nat <-> existsb (Nat.eqb z) [9; 10; 19; 20; 29; 30]%nat = false).
  { rewrite <- not_true_iff_false, existsb_exists. split; intros X Y; apply X; [destruct Y as (y & Y1 & Y2)|].
    - apply Nat.eqb_eq in Y2. now subst y.
    - exists z. split; [assumption|apply Nat.eqb_refl]. }
  rewrite I. assert (T' : existsb (Nat.eqb z) [9; 10; 19; 20; 29; 30]%nat = false <-> (Qle_bool b a && forallb (fun e => Qle_bool e b) r = true)).
  { rewrite T. destruct (existsb _ _); cbn; split; congruence. }
  rewrite T'. rewrite andb_true_iff, Qle_bool_iff, forallb_forall. split.
  - intros [X Y]. split; [now apply Rle_Qle|]. intros e He. apply Qle_bool_iff, Rle_Qle.
    apply In_nth_error in He. destruct He as [i Hi].
    assert (Hir : (i < length r)%nat) by (apply nth_error_Some; congruence).
    apply (Y (length r - S i)%nat); [|lia]. cbn [rev]. rewrite <- app_assoc. rewrite nth_error_app1 by (rewrite rev_length; lia).
    rewrite <- Hi. clear - Hir. rewrite (nth_error_nth' (rev r) 0%Q) by (rewrite rev_length; lia). rewrite rev_nth by lia.
    rewrite (nth_error_nth' r 0%Q Hir). do 2 f_equal. lia.
  - intros [X Y]. split; [now apply Qle_Rle|]. intros i e Hi Hlt. apply Qle_Rle, Qle_bool_iff, Y.
    cbn [rev] in Hi. rewrite <- app_assoc in Hi. rewrite nth_error_app1 in Hi by (rewrite rev_length; lia). apply nth_error_In in Hi. now apply in_rev.
Qed.
Print Assumptions C105_k_shell_partial.
Example C105_ex : exists es, In (6%nat, es) tab_energies /\ snd (k_shell (INR 6) (map Q2R es) 0) <= fst (k_shell (INR 6) (map Q2R es) 0).
Proof.
  eexists. split; [unfold tab_energies; do 5 right; left; reflexivity|].
  match goal with |- snd (k_shell _ (map Q2R ?es) _) <= _ => pose proof (C105_k_shell_partial 6 es ltac:(unfold tab_energies; do 5 right; left; reflexivity) ltac:(lia)) as H end.
  destruct (k_shell _ _ _) as [E1 E2]. apply H. cbn. lia.
Qed.
Theorem C105_refuted : exists z es e, In (z, es) tab_energies /\ In e es /\ fst (k_shell (INR z) (map Q2R es) 0) < Q2R e.
Proof.
  exists 9%nat. eexists. eexists. split; [unfold tab_energies; do 8 right; left; reflexivity|]. split; [do 4 right; left; reflexivity|].
  unfold k_shell. cbn [map rev app nth fst]. rewrite Rplus_0_r. destruct (Rlt_dec _ _) as [A|_].
  - exfalso. revert A. apply Rle_not_lt. rewrite <- RMicromega.Q2R_0. apply Qle_Rle. vm_compute. discriminate.
  - apply Qlt_Rlt. vm_compute. reflexivity.
Qed.
Print Assumptions C105_refuted.
