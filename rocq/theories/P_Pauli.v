(** C127: the Pauli potentials from the classical map. *)
From Coq Require Import Reals Lra Psatz List Lia Arith Bool.
From Coquelicot Require Import Coquelicot.
From Verif Require Import M_Const M_PlasmaState L_PlasmaState M_PlasmaPhysics L_PlasmaPhysics M_Interp L_Interp M_Helpers L_Helpers
  M_HNC L_HNC L_HNC2 L_HNC3 L_RPA0K P_RPA0K L_FermiFit L_ChemPot P_ChemPot M_Pauli L_Pauli P_HNC.
Import ListNotations.
Open Scope R_scope.

(** ** The pair distributions *)
Lemma clip_range x : x <= 1 -> / 10 ^ 14 <= clip x <= 1 \/ 0 < clip x < / 10 ^ 14.
Proof. intros H. unfold clip. destruct (Rle_dec x 0); lra. Qed.
Lemma clip_pos x : x <= 1 -> 0 < clip x <= 1.
Proof. intros H. unfold clip. destruct (Rle_dec x 0); lra. Qed.
Lemma at_map f N i : (i < N)%nat -> at_ (map f (seq 0 N)) i = f i.
Proof. intros H. unfold at_. now apply nth_tab. Qed.
Lemma ascending_map r N : (forall i j, (i <= j < N)%nat -> r i <= r j) -> ascending (map r (seq 0 N)).
Proof. intros H i j Hij. rewrite map_length, seq_length in Hij. rewrite !at_map by lia. apply H. exact Hij. Qed.
Lemma interp_pos r1 y N q : (1 <= N)%nat -> (forall i j, (i <= j < N)%nat -> r1 i <= r1 j) -> (forall i, (i < N)%nat -> 0 < y i <= 1) ->
  0 < interp (Some (1 / 2)) (Some 1) (map r1 (seq 0 N)) (map y (seq 0 N)) q <= 1.
Proof.
  intros HN Hs Hy. pose proof (ascending_map r1 N Hs) as As.
  destruct (interp_convex (Some (1 / 2)) (Some 1) (map r1 (seq 0 N)) (map y (seq 0 N)) q As) as [(i & j & t & Hi & Hj & Ht & E)|[(v & Hv & E)|(v & Hv & E)]];
    try (rewrite map_length, seq_length in *; lia).
  - rewrite map_length, seq_length in Hi, Hj. rewrite E, !at_map by assumption. pose proof (Hy i Hi). pose proof (Hy j Hj). split; nra.
  - rewrite E. injection Hv as <-. lra.
  - rewrite E. injection Hv as <-. lra.
Qed.

(** Every pair distribution the two functions start from lies in (0, 1], so that its
    logarithm is a number. *)
Theorem C127_positive : forall u N1 r1 r2 n T j, (1 <= N1)%nat -> (forall i j, (i <= j < N1)%nat -> r1 i <= r1 j) ->
  0 < g0_averaged u N1 r1 r2 n T j <= 1 /\ forall a b, 0 < g0_separated u N1 r1 r2 n T a b j <= 1.
Proof.
  intros u N1 r1 r2 n T j HN Hs.
  assert (A : forall x, 1 - x ^ 2 <= 1) by (intros x; pose proof (pow2_ge_0 x); lra).
  split.
  - unfold g0_averaged. cbv zeta. apply interp_pos; [exact HN|exact Hs|]. intros i Hi. apply clip_pos. pose proof (A (F_T u N1 r1 n T i)). lra.
  - intros a b. unfold g0_separated. destruct (Nat.eqb a b); [|lra]. unfold g0_same. cbv zeta. apply interp_pos; [exact HN|exact Hs|]. intros i Hi. apply clip_pos. apply A.
Qed.
Print Assumptions C127_positive.

(** ** The inversion *)
(** The potential before the repair at the origin, transformed to r by the code's own
    transform, keeps the given pair distribution: one step of the hypernetted-chain solver
    with this potential as the short-ranged one and none long-ranged returns the state it
    started from, whatever the mixing. *)
Theorem C127_averaged_inverts : forall u solve N_max N2 r2 n_e T mix i (g0 V : nat -> R), (1 <= N_max)%nat -> good_grid N2 r2 -> 0 < T ->
  (forall j, (j < N2)%nat -> 0 < g0 j) ->
  (forall m, (m < N2)%nat -> potential_averaged u N2 r2 n_e T g0 m = Some (V m)) ->
  let V_r := fun (a b : nat) j => fourier_transform_sine N2 r2 (k_grid N2 r2) V j / (2 * PI) ^ 3 in
  let v := fun a b j => V_r a b j / (kB u * T) in
  let s := mkHS (fun _ _ j => ln (g0 j)) (fun a b j => ln (g0 j) + v a b j) (fun a b j => ln (g0 j) + v a b j) i in
  exists s', step (ozr solve N_max 1 (fun _ => n_e)) N2 r2 mix v (fun _ _ _ => 0) s = Some s' /\
    forall j, (j < N2)%nat -> exp (log_g s' 0%nat 0%nat j) = g0 j /\ Ns s' 0%nat 0%nat j = Ns s 0%nat 0%nat j.
Proof.
  intros u solve N_max N2 r2 n_e T mix i g0 V HM G HT Hg HV V_r v s. cpos u.
  set (h := fun m => forward N2 r2 (fun j => g0 j - 1) m). set (y := fun m => forward N2 r2 (fun j => ln (g0 j)) m).
  assert (Hc : forall m, (m < N2)%nat -> 1 + n_e * h m <> 0 /\ V m = (h m - y m - h m / (1 + n_e * h m)) * (kB u * T)).
  { intros m Hm. pose proof (HV m Hm) as E. unfold potential_averaged in E. cbv zeta in E. rewrite !forward_model in E by assumption. fold (h m) (y m) in E.
    unfold qdiv in E. destruct (Req_EM_T (1 + n_e * h m) 0) as [Z|Z]; [discriminate|]. split; [exact Z|]. cbn [obind] in E. injection E as E. rewrite <- E. ring. }
  destruct (chain_fixed solve N_max 1 N2 r2 (fun _ => n_e) mix (fun _ _ j => g0 j) (fun _ _ m => h m / (1 + n_e * h m)) v i) as (s' & E & K).
  - lia.
  - exact HM.
  - exact G.
  - intros a b j _ _ Hj. now apply Hg.
  - intros m Hm a b _ _. reflexivity.
  - intros m Hm a b Ha Hb. cbn [nsum]. fold (h m). destruct (Hc m Hm) as [Z _]. field. exact Z.
  - intros m Hm. cbn. unfold oz_matrix, delta. cbn. destruct (Hc m Hm) as [Z _].
    replace (_ + _) with (/ (1 + n_e * h m)) by (field; exact Z). now apply Rinv_neq_0_compat.
  - intros a b m _ _ Hm. fold (h m) (y m). unfold v, V_r.
    rewrite (forward_ext N2 r2 _ (fun j => / (kB u * T) * backward N2 r2 V j)).
    2:{ intros j Hj. rewrite backward_model by assumption. unfold Rdiv. ring. }
    rewrite forward_scal, forward_backward by assumption. destruct (Hc m Hm) as [Z ->]. field. repeat split; first [exact Z|lra].
  - exists s'. split; [exact E|]. intros j Hj. destruct (K 0%nat 0%nat j) as [K1 K2]; try lia. split; [|exact K1].
    rewrite K2. cbn [chain_state log_g]. now apply exp_ln, Hg.
Qed.
Print Assumptions C127_averaged_inverts.

(** The raw potential of the spin-separated function: none between unlike spins, and
    between like spins that of the spin-averaged formula at the density n_e / 2. *)
Theorem C127_separated_raw : forall u N1 N2 r1 r2 n_e T a b m, good_grid N2 r2 -> (a < 2)%nat -> (b < 2)%nat -> (m < N2)%nat ->
  potential_averaged u N2 r2 (n_e / 2) T (g0_same u N1 r1 r2 n_e T) m <> None ->
  potential_separated u N2 r2 n_e T (g0_separated u N1 r1 r2 n_e T) a b m =
  if Nat.eqb a b then potential_averaged u N2 r2 (n_e / 2) T (g0_same u N1 r1 r2 n_e T) m else Some 0.
Proof.
  intros u N1 N2 r1 r2 n_e T a b m G Ha Hb Hm Hd.
  apply separated_raw; try assumption.
  - intros a' b' j Ha' Hb'. unfold g0_separated. cbn [Nat.eqb]. reflexivity.
  - intros Z. apply Hd. unfold potential_averaged. cbv zeta. rewrite (forward_model N2 r2 G (fun j => g0_same u N1 r1 r2 n_e T j - 1) m Hm).
    unfold qdiv. destruct (Req_EM_T _ 0) as [_|Z']; [reflexivity|]. exfalso. apply Z'. exact Z.
Qed.
Print Assumptions C127_separated_raw.

(** It keeps its pair distribution under the solver for the two spins. *)
Theorem C127_separated_inverts : forall u solve N_max N1 N2 r1 r2 n_e T mix i (V : arr3), (2 <= N_max)%nat -> good_grid N2 r2 -> 0 < T ->
  (1 <= N1)%nat -> (forall i j, (i <= j < N1)%nat -> r1 i <= r1 j) ->
  (forall m, (m < N2)%nat -> potential_averaged u N2 r2 (n_e / 2) T (g0_same u N1 r1 r2 n_e T) m <> None) ->
  (forall a b m, (a < 2)%nat -> (b < 2)%nat -> (m < N2)%nat ->
    potential_separated u N2 r2 n_e T (g0_separated u N1 r1 r2 n_e T) a b m = Some (V a b m)) ->
  let g0 := g0_separated u N1 r1 r2 n_e T in
  let V_r := fun a b j => three_d_four N2 r2 (k_grid N2 r2) V a b j / (2 * PI) ^ 3 in
  let v := fun a b j => V_r a b j / (kB u * T) in
  let s := mkHS (fun a b j => ln (g0 a b j)) (fun a b j => ln (g0 a b j) + v a b j) (fun a b j => ln (g0 a b j) + v a b j) i in
  exists s', step (ozr solve N_max 2 (fun _ => n_e / 2)) N2 r2 mix v (fun _ _ _ => 0) s = Some s' /\
    forall a b j, (a < 2)%nat -> (b < 2)%nat -> (j < N2)%nat -> exp (log_g s' a b j) = g0 a b j /\ Ns s' a b j = Ns s a b j.
Proof.
  intros u solve N_max N1 N2 r1 r2 n_e T mix i V HM G HT HN1 Hs Hd HV g0 V_r v s. cpos u.
  assert (Hg : forall a b j, 0 < g0 a b j) by (intros a b j; apply (C127_positive u N1 r1 r2 n_e T j HN1 Hs)).
  set (gs := g0_same u N1 r1 r2 n_e T) in *.
  set (h := fun m => forward N2 r2 (fun j => gs j - 1) m). set (y := fun m => forward N2 r2 (fun j => ln (gs j)) m).
  assert (Hc : forall m, (m < N2)%nat -> 1 + n_e / 2 * h m <> 0 /\ forall a b, (a < 2)%nat -> (b < 2)%nat ->
    V a b m = if Nat.eqb a b then (h m - y m - h m / (1 + n_e / 2 * h m)) * (kB u * T) else 0).
  { intros m Hm. assert (Z : 1 + n_e / 2 * h m <> 0 /\ potential_averaged u N2 r2 (n_e / 2) T gs m = Some ((h m - y m - h m / (1 + n_e / 2 * h m)) * (kB u * T))).
    { pose proof (Hd m Hm) as E. unfold potential_averaged in *. cbv zeta in *. rewrite !forward_model in * by assumption. fold (h m) (y m) in E |- *.
      unfold qdiv in *. destruct (Req_EM_T (1 + n_e / 2 * h m) 0) as [Z|Z]; [exfalso; now apply E|]. split; [exact Z|]. cbn [obind]. f_equal. ring. }
    destruct Z as [Z E1]. split; [exact Z|]. intros a b Ha Hb. pose proof (HV a b m Ha Hb Hm) as E. unfold g0_separated in E. fold gs in E.
    pose proof (C127_separated_raw u N1 N2 r1 r2 n_e T a b m G Ha Hb Hm (Hd m Hm)) as E2. unfold g0_separated in E2. fold gs in E2. rewrite E2, E1 in E.
    destruct (Nat.eqb a b); injection E as E; now rewrite <- E. }
  assert (Hf : forall a b m, (a < 2)%nat -> (b < 2)%nat -> (m < N2)%nat -> forward N2 r2 (fun j => g0 a b j - 1) m = (if Nat.eqb a b then h m else 0) /\
     forward N2 r2 (fun j => ln (g0 a b j)) m = if Nat.eqb a b then y m else 0).
  { intros a b m Ha Hb Hm. unfold g0, g0_separated. fold gs. destruct (Nat.eqb a b); [now split|]. split.
    - rewrite (forward_ext N2 r2 _ (fun _ => 0)) by (intros; ring). apply forward_0.
    - rewrite (forward_ext N2 r2 _ (fun _ => 0)) by (intros; apply ln_1). apply forward_0. }
  destruct (chain_fixed solve N_max 2 N2 r2 (fun _ => n_e / 2) mix g0 (fun a b m => if Nat.eqb a b then h m / (1 + n_e / 2 * h m) else 0) v i) as (s' & E & K).
  - lia.
  - exact HM.
  - exact G.
  - intros a b j _ _ Hj. now apply Hg.
  - intros m Hm a b _ _. now rewrite Nat.eqb_sym.
  - intros m Hm a b Ha Hb. cbn [nsum]. rewrite (proj1 (Hf a b m Ha Hb Hm)), (proj1 (Hf 0%nat b m ltac:(lia) Hb Hm)), (proj1 (Hf 1%nat b m ltac:(lia) Hb Hm)). destruct (Hc m Hm) as [Z _].
    destruct a as [|[|a]]; destruct b as [|[|b]]; try lia; cbn [Nat.eqb]; first [unfold Rdiv; ring|field; intros Z2; apply Z; lra].
  - intros m Hm. cbn. unfold minor, oz_matrix, delta. cbn. destruct (Hc m Hm) as [Z _]. assert (Z2 : 2 + n_e * h m <> 0) by (intros Z2; apply Z; lra).
    match goal with |- ?l <> 0 => replace l with (/ (1 + n_e / 2 * h m) * / (1 + n_e / 2 * h m)) by (field; exact Z2) end.
    apply Rmult_integral_contrapositive_currified; now apply Rinv_neq_0_compat.
  - intros a b m Ha Hb Hm. destruct (Hf a b m Ha Hb Hm) as [-> ->]. unfold v, V_r, three_d_four.
    rewrite (forward_ext N2 r2 _ (fun j => / (kB u * T) * backward N2 r2 (V a b) j)).
    2:{ intros j Hj. rewrite backward_model by assumption. unfold Rdiv. rewrite Rmult_comm. reflexivity. }
    rewrite forward_scal, forward_backward by assumption. destruct (Hc m Hm) as [Z Ev]. rewrite (Ev a b Ha Hb).
    destruct (Nat.eqb a b); field; repeat split; try lra; intros Z2; apply Z; lra.
  - exists s'. split; [exact E|]. intros a b j Ha Hb Hj. destruct (K a b j) as [K1 K2]; try assumption. split; [|exact K1].
    rewrite K2. cbn [chain_state log_g]. apply exp_ln, Hg.
Qed.
Print Assumptions C127_separated_inverts.

(** ** The repair at the origin *)
(** Above the wave number picked the potential is left alone. *)
Lemma fix_origin_above u uL uT N l1 l2 k V0 V m : k (last_below k (l1 / angstrom) N) * uL / a_0 u <= k m ->
  fix_origin u uL uT N l1 l2 k V0 V m = Some (V m).
Proof. intros H. unfold fix_origin, pick_k. cbv zeta. destruct (Rlt_dec _ _); [lra|reflexivity]. Qed.

Lemma repair : forall u uL uT N l1 l2 k V m, uL = a_0 u -> kB u * uT = e_ch u -> (forall i j, (i < j < N)%nat -> k i < k j) ->
  (forall i, (i < N)%nat -> 0 < k i) -> l1 <= l2 -> (m < N)%nat -> k 0%nat < l1 / angstrom ->
  exists i1 i2, (i1 <= i2 < N)%nat /\
    k i1 < l1 / angstrom /\ k i2 < l2 / angstrom /\
    (forall i, (i1 < i < N)%nat -> l1 / angstrom <= k i) /\ (forall i, (i2 < i < N)%nat -> l2 / angstrom <= k i) /\
    ((i1 <= m)%nat -> fix_origin u uL uT N l1 l2 k V V m = Some (V m)) /\
    ((m < i1 < i2)%nat -> exists A B, fix_origin u uL uT N l1 l2 k V V m = Some (A * k m ^ 2 + B) /\
       A * k i1 ^ 2 + B = V i1 /\ A * k i2 ^ 2 + B = V i2) /\
    ((m < i1)%nat -> i1 = i2 -> fix_origin u uL uT N l1 l2 k V V m = None).
Proof.
  intros u uL uT N l1 l2 k V m HL HT Hk Hp Hl Hm H0. cpos u.
  assert (Ha : 0 < angstrom) by (unfold angstrom; lra).
  assert (Hll : l1 / angstrom <= l2 / angstrom). { unfold Rdiv. apply Rmult_le_compat_r; [|exact Hl]. left. now apply Rinv_0_lt_compat. }
  destruct (last_below_spec k (l1 / angstrom) N) as (A1 & A2 & A3); [exists 0%nat; split; [lia|exact H0]|].
  destruct (last_below_spec k (l2 / angstrom) N) as (B1 & B2 & B3); [exists 0%nat; split; [lia|lra]|].
  set (i1 := last_below k (l1 / angstrom) N) in *. set (i2 := last_below k (l2 / angstrom) N) in *.
  assert (PK : forall x, pick_k u uL x = x) by (intros x; unfold pick_k; rewrite HL; field; lra).
  assert (PV : forall x, pick_V u uL uT x = x) by (intros x; unfold pick_V; rewrite HL, HT; field; lra).
  exists i1, i2. repeat split; try assumption.
  - destruct (Nat.le_gt_cases i1 i2) as [L|L]; [exact L|]. exfalso. pose proof (B3 i1 ltac:(lia)). lra.
  - intros L. unfold fix_origin. fold i1. cbv zeta. rewrite PK. destruct (Rlt_dec _ _) as [Z|Z]; [|reflexivity]. exfalso.
    destruct (Nat.eq_dec i1 m) as [E|E]; [rewrite E in Z; lra|]. pose proof (Hk i1 m ltac:(lia)). lra.
  - intros L. pose proof (Hk m i1 ltac:(lia)) as K1. pose proof (Hk i1 i2 ltac:(lia)) as K2. pose proof (Hp i1 A1) as P1. pose proof (Hp i2 B1) as P2.
    assert (D : k i2 ^ 2 - k i1 ^ 2 <> 0) by nra.
    exists ((V i2 - V i1) / (k i2 ^ 2 - k i1 ^ 2)), (V i1 - (V i2 - V i1) / (k i2 ^ 2 - k i1 ^ 2) * k i1 ^ 2). repeat split.
    + unfold fix_origin. fold i1 i2. cbv zeta. rewrite !PK, !PV. destruct (Rlt_dec _ _) as [Z|Z]; [|contradiction].
      unfold interp_func. rewrite qdiv_some by exact D. cbn [obind]. reflexivity.
    + ring.
    + field. exact D.
  - intros L E. unfold fix_origin. fold i1 i2. cbv zeta. rewrite <- E, !PK, !PV. pose proof (Hk m i1 ltac:(lia)). destruct (Rlt_dec _ _) as [Z|Z]; [|contradiction].
    unfold interp_func, qdiv. destruct (Req_EM_T _ 0) as [_|Z2]; [reflexivity|]. exfalso. apply Z2. ring.
Qed.
Lemma k_grid_incr N r i j : good_grid N r -> (i < j)%nat -> k_grid N r i < k_grid N r j.
Proof. intros G H. unfold k_grid. pose proof (k_step_pos N r G). apply lt_INR in H. nra. Qed.

(** With lengths in Bohr radii and the temperature in eV / kB: from the grid point next
    below 0.8 per angstrom upwards the spin-averaged function returns what the inversion
    gave; below, the parabola in k through the values there and at the grid point next
    below 1.0 per angstrom - or nan when these two points coincide. *)
Theorem C127_repair_averaged : forall u uL uT N1 N2 r1 r2 n_e T V m, uL = a_0 u -> kB u * uT = e_ch u -> good_grid N2 r2 ->
  (forall m, (m < N2)%nat -> potential_averaged u N2 r2 n_e T (g0_averaged u N1 r1 r2 n_e T) m = Some (V m)) ->
  let k := k_grid N2 r2 in
  (m < N2)%nat -> k 0%nat < 8 / 10 * 10 ^ 10 ->
  exists i1 i2, (i1 <= i2 < N2)%nat /\ k i1 < 8 / 10 * 10 ^ 10 /\ k i2 < 10 ^ 10 /\
    (forall i, (i1 < i < N2)%nat -> 8 / 10 * 10 ^ 10 <= k i) /\ (forall i, (i2 < i < N2)%nat -> 10 ^ 10 <= k i) /\
    ((i1 <= m)%nat -> pauli_averaged u uL uT N1 N2 r1 r2 n_e T m = Some (V m)) /\
    ((m < i1 < i2)%nat -> exists A B, pauli_averaged u uL uT N1 N2 r1 r2 n_e T m = Some (A * k m ^ 2 + B) /\
       A * k i1 ^ 2 + B = V i1 /\ A * k i2 ^ 2 + B = V i2) /\
    ((m < i1)%nat -> i1 = i2 -> pauli_averaged u uL uT N1 N2 r1 r2 n_e T m = None).
Proof.
  intros u uL uT N1 N2 r1 r2 n_e T V m HL HT G HV k Hm H0.
  destruct (all_ok_make N2 (potential_averaged u N2 r2 n_e T (g0_averaged u N1 r1 r2 n_e T))) as [W EW]; [intros i Hi; rewrite HV by exact Hi; discriminate|].
  assert (HW : forall i, (i < N2)%nat -> W i = V i). { intros i Hi. pose proof (all_ok_spec _ _ _ EW i Hi) as E. rewrite HV in E by exact Hi. congruence. }
  assert (E1 : 8 / 10 / angstrom = 8 / 10 * 10 ^ 10) by (unfold angstrom; field). assert (E2 : 1 / angstrom = 10 ^ 10) by (unfold angstrom; field).
  destruct (repair u uL uT N2 (8 / 10) 1 k W m HL HT) as (i1 & i2 & A1 & A2 & A3 & A4 & A5 & A6 & A7 & A8).
  { intros i j Hij. apply k_grid_incr; [exact G|lia]. } { intros i _. now apply k_grid_pos. } { lra. } { exact Hm. } { rewrite E1. exact H0. }
  rewrite E1 in A2, A4. rewrite E2 in A3, A5. unfold pauli_averaged. cbv zeta. rewrite EW. cbn [obind]. fold k.
  exists i1, i2. rewrite <- !(HW m Hm), <- (HW i1), <- (HW i2) by lia. repeat split; try assumption; try lia.
Qed.
Print Assumptions C127_repair_averaged.

(** The spin-separated function, with 1.0 and 2.0 per angstrom.  Below the first point all
    four components are the parabola through the values of the component (1, 1). *)
Theorem C127_repair_separated : forall u uL uT N1 N2 r1 r2 n_e T (V : arr3) a b m, uL = a_0 u -> kB u * uT = e_ch u -> good_grid N2 r2 ->
  (forall a b m, (a < 2)%nat -> (b < 2)%nat -> (m < N2)%nat -> potential_separated u N2 r2 n_e T (g0_separated u N1 r1 r2 n_e T) a b m = Some (V a b m)) ->
  let k := k_grid N2 r2 in
  (a < 2)%nat -> (b < 2)%nat -> (m < N2)%nat -> k 0%nat < 10 ^ 10 ->
  exists i1 i2, (i1 <= i2 < N2)%nat /\ k i1 < 10 ^ 10 /\ k i2 < 2 * 10 ^ 10 /\
    (forall i, (i1 < i < N2)%nat -> 10 ^ 10 <= k i) /\ (forall i, (i2 < i < N2)%nat -> 2 * 10 ^ 10 <= k i) /\
    ((i1 <= m)%nat -> pauli_separated u uL uT N1 N2 r1 r2 n_e T a b m = Some (V a b m)) /\
    ((m < i1 < i2)%nat -> exists A B, pauli_separated u uL uT N1 N2 r1 r2 n_e T a b m = Some (A * k m ^ 2 + B) /\
       A * k i1 ^ 2 + B = V 1%nat 1%nat i1 /\ A * k i2 ^ 2 + B = V 1%nat 1%nat i2).
Proof.
  intros u uL uT N1 N2 r1 r2 n_e T V a b m HL HT G HV k Ha Hb Hm H0.
  assert (OK : forall a b, (a < 2)%nat -> (b < 2)%nat -> exists W, all_ok N2 (potential_separated u N2 r2 n_e T (g0_separated u N1 r1 r2 n_e T) a b) = Some W /\ forall i, (i < N2)%nat -> W i = V a b i).
  { intros a' b' Ha' Hb'. destruct (all_ok_make N2 (potential_separated u N2 r2 n_e T (g0_separated u N1 r1 r2 n_e T) a' b')) as [W EW]; [intros i Hi; rewrite HV by assumption; discriminate|].
    exists W. split; [exact EW|]. intros i Hi. pose proof (all_ok_spec _ _ _ EW i Hi) as E. rewrite HV in E by assumption. congruence. }
  destruct (OK 1%nat 1%nat ltac:(lia) ltac:(lia)) as (W1 & EW1 & HW1). destruct (OK a b Ha Hb) as (W & EW & HW).
  assert (E1 : 1 / angstrom = 10 ^ 10) by (unfold angstrom; field). assert (E2 : 2 / angstrom = 2 * 10 ^ 10) by (unfold angstrom; field).
  destruct (repair u uL uT N2 1 2 k W1 m HL HT) as (i1 & i2 & A1 & A2 & A3 & A4 & A5 & A6 & A7 & A8).
  { intros i j Hij. apply k_grid_incr; [exact G|lia]. } { intros i _. now apply k_grid_pos. } { lra. } { exact Hm. } { rewrite E1. exact H0. }
  unfold pauli_separated. cbv zeta. rewrite EW1, EW. cbn [obind]. fold k.
  exists i1, i2. rewrite <- !(HW m Hm), <- (HW1 i1), <- (HW1 i2) by lia. cpos u.
  assert (PK : forall x, pick_k u uL x = x) by (intros x; unfold pick_k; rewrite HL; field; lra).
  rewrite E1 in A2, A4. rewrite E2 in A3, A5.
  assert (I1 : last_below k (1 / angstrom) N2 = i1).
  { destruct (last_below_spec k (1 / angstrom) N2) as (B1 & B2 & B3); [exists 0%nat; split; [lia|rewrite E1; exact H0]|]. set (i := last_below k (1 / angstrom) N2) in *. rewrite E1 in B2, B3.
    destruct (Nat.lt_trichotomy i i1) as [L|[L|L]]; [|exact L|].
    - pose proof (B3 i1 ltac:(lia)). lra.
    - pose proof (A4 i ltac:(lia)). lra. }
  repeat split; first [assumption|lia|idtac].
  - intros L. unfold fix_origin. cbv zeta. rewrite I1, PK. destruct (Rlt_dec _ _) as [Z|Z]; [|reflexivity]. exfalso.
    destruct (Nat.eq_dec i1 m) as [E|E]; [rewrite E in Z; lra|]. pose proof (k_grid_incr N2 r2 i1 m G ltac:(lia)) as KK. fold k in KK. lra.
  - intros L. destruct (A7 L) as (A & B & E & F). exists A, B. split; [|exact F]. rewrite <- E. unfold fix_origin. cbv zeta. rewrite I1, PK.
    destruct (Rlt_dec _ _) as [Z|Z]; [reflexivity|]. exfalso. apply Z. apply k_grid_incr; [exact G|lia].
Qed.
Print Assumptions C127_repair_separated.

(** ** What is wrong *)
(** the unit the temperature is given in scales the repaired part *)
Lemma units_scale u uL uT uT' N l1 l2 k V0 V m : 0 < uL -> 0 < uT -> 0 < uT' -> k m < k (last_below k (l1 / angstrom) N) * uL / a_0 u ->
  fix_origin u uL uT' N l1 l2 k V0 V m = obind (fix_origin u uL uT N l1 l2 k V0 V m) (fun x => Some (uT / uT' * x)).
Proof.
  intros HL HT HT' Hk. cpos u. unfold fix_origin. cbv zeta. set (i1 := last_below k (l1 / angstrom) N) in *. set (i2 := last_below k (l2 / angstrom) N).
  change (k i1 * uL / a_0 u) with (pick_k u uL (k i1)) in Hk. destruct (Rlt_dec (k m) (pick_k u uL (k i1))) as [Z|Z]; [|contradiction].
  assert (PV : forall x, pick_V u uL uT' x = uT / uT' * pick_V u uL uT x) by (intros x; unfold pick_V; field; repeat split; lra).
  rewrite !PV. set (f1 := pick_V u uL uT (V0 i1)). set (f2 := pick_V u uL uT (V0 i2)). set (x1 := pick_k u uL (k i1)). set (x2 := pick_k u uL (k i2)).
  unfold interp_func, qdiv. destruct (Req_EM_T (x2 ^ 2 - x1 ^ 2) 0) as [D|D]; [reflexivity|]. cbn [obind]. apply f_equal. field. split; [exact D|lra].
Qed.

(** *** A grid of four points *)
Lemma sin_bounds x : 0 <= x <= 1 -> x - x ^ 3 / 6 <= sin x <= x - x ^ 3 / 6 + x ^ 5 / 120.
Proof.
  intros H. destruct (pre_sin_bound x 0 ltac:(lra) ltac:(lra)) as [A B]. unfold sin_approx, sin_term in A, B. cbn in A, B.
  split; [eapply Rle_trans; [|exact A]; right; field|eapply Rle_trans; [exact B|]; right; field].
Qed.
Lemma cos_bounds x : 0 <= x <= 1 -> 1 - x ^ 2 / 2 <= cos x <= 1 - x ^ 2 / 2 + x ^ 4 / 24.
Proof.
  intros H. destruct (pre_cos_bound x 0 ltac:(lra) ltac:(lra)) as [A B]. unfold cos_approx, cos_term in A, B. cbn in A, B.
  split; [eapply Rle_trans; [|exact A]; right; field|eapply Rle_trans; [exact B|]; right; field].
Qed.
Definition r_ex (j : nat) : R := (INR j + 1) * (2 / 10 ^ 10).
Definition r1_ex (j : nat) : R := (INR j + 1) / 10 ^ 9.
Lemma r_ex_grid : good_grid 4 r_ex.
Proof.
  split; [reflexivity|]. split; [lia|]. split.
  - intros j _. unfold r_ex. pose proof (pos_INR j). apply Rmult_lt_0_compat; [lra|]. apply Rdiv_lt_0_compat; [lra|]. apply pow_lt; lra.
  - unfold r_ex. cbn [INR]. assert (0 < 2 / 10 ^ 10) by (apply Rdiv_lt_0_compat; [lra|apply pow_lt; lra]). lra.
Qed.
Lemma k_ex m : k_grid 4 r_ex m = (INR m + 1) * (PI / 8) * 10 ^ 10.
Proof. unfold k_grid, k_step, r_ex. cbn [INR Nat.sub]. replace (1 + 1 + 1) with 3 by ring. replace (3 + 1) with 4 by ring. field. Qed.
(** the transform of 1, but for a positive factor *)
Definition sig (m : nat) : R := nsum 4 (fun j => (INR j + 1) * dst_kernel 4 j m).
Lemma one_ex m : forward 4 r_ex (fun _ => 1) m = 128 / 10 ^ 30 / (INR m + 1) * sig m.
Proof.
  unfold forward, sig. rewrite k_ex. rewrite (nsum_ext 4 (fun j => r_ex j * 1 * dst_kernel 4 j m) (fun j => 2 / 10 ^ 10 * ((INR j + 1) * dst_kernel 4 j m))) by (intros; unfold r_ex; ring).
  rewrite nsum_scal. unfold r_ex. cbn [INR]. pose proof PI_RGT_0. pose proof (pos_INR m). field. split; lra.
Qed.
Lemma sig_bound m : Rabs (sig m) <= 10.
Proof.
  unfold sig. cbn [nsum INR]. assert (B : forall j, -1 <= dst_kernel 4 j m <= 1) by (intros j; unfold dst_kernel; apply SIN_bound).
  pose proof (B 0%nat). pose proof (B 1%nat). pose proof (B 2%nat). pose proof (B 3%nat). apply Rabs_le. lra.
Qed.
Lemma sig_1 : sig 1 < 0.
Proof.
  unfold sig, dst_kernel. cbn [nsum INR]. destruct PI_approx as [P1 P2].
  replace (PI * (2 * 0 + 1) * (2 * 1 + 1) / (4 * (1 + 1 + 1 + 1))) with (3 * PI / 16) by field.
  replace (PI * (2 * (1 + 1) + 1) * (2 * 1 + 1) / (4 * (1 + 1 + 1 + 1))) with (PI - PI / 16) by field.
  replace (PI * (2 * (1 + 1 + 1) + 1) * (2 * 1 + 1) / (4 * (1 + 1 + 1 + 1))) with (5 * PI / 16 + PI) by field.
  rewrite neg_sin, sin_PI_x. pose proof (SIN_bound (PI * (2 * 1 + 1) * (2 * 1 + 1) / (4 * (1 + 1 + 1 + 1)))) as [_ S9].
  destruct (sin_bounds (3 * PI / 16)) as [_ S3]; [lra|]. destruct (sin_bounds (5 * PI / 16)) as [S5 _]; [lra|]. destruct (sin_bounds (PI / 16)) as [_ S1]; [lra|].
  assert (Q3 : 3 * PI / 16 - (3 * PI / 16) ^ 3 / 6 + (3 * PI / 16) ^ 5 / 120 <= 57 / 100).
  { set (x := 3 * PI / 16). assert (58 / 100 <= x <= 59 / 100) by (unfold x; lra). assert (19 / 100 <= x ^ 3 <= 206 / 1000) by (split; [eapply Rle_trans; [|apply (pow_incr (58/100) x 3); lra]; lra|eapply Rle_trans; [apply (pow_incr x (59/100) 3); lra|]; lra]).
    assert (x ^ 5 <= 72 / 1000) by (eapply Rle_trans; [apply (pow_incr x (59/100) 5); lra|]; lra). lra. }
  assert (Q5 : 81 / 100 <= 5 * PI / 16 - (5 * PI / 16) ^ 3 / 6).
  { set (x := 5 * PI / 16). assert (98 / 100 <= x <= 982 / 1000) by (unfold x; lra). assert (x ^ 3 <= 95 / 100) by (eapply Rle_trans; [apply (pow_incr x (982/1000) 3); lra|]; lra). lra. }
  assert (Q1 : PI / 16 - (PI / 16) ^ 3 / 6 + (PI / 16) ^ 5 / 120 <= 20 / 100).
  { set (x := PI / 16). assert (0 <= x <= 197 / 1000) by (unfold x; lra). assert (0 <= x ^ 3) by (apply pow_le; lra). assert (x ^ 5 <= 1 / 1000) by (eapply Rle_trans; [apply (pow_incr x (197/1000) 5); lra|]; lra). lra. }
  lra.
Qed.
Lemma sig_3 : 0 < sig 3.
Proof.
  unfold sig, dst_kernel. cbn [nsum INR]. destruct PI_approx as [P1 P2].
  replace (PI * (2 * 0 + 1) * (2 * (1 + 1 + 1) + 1) / (4 * (1 + 1 + 1 + 1))) with (PI / 2 - PI / 16) by field.
  replace (PI * (2 * 1 + 1) * (2 * (1 + 1 + 1) + 1) / (4 * (1 + 1 + 1 + 1))) with ((PI / 2 - 3 * PI / 16) + PI) by field.
  replace (PI * (2 * (1 + 1) + 1) * (2 * (1 + 1 + 1) + 1) / (4 * (1 + 1 + 1 + 1))) with (3 * PI / 16 + 2 * INR 1 * PI) by (cbn [INR]; field).
  replace (PI * (2 * (1 + 1 + 1) + 1) * (2 * (1 + 1 + 1) + 1) / (4 * (1 + 1 + 1 + 1))) with ((PI / 16 + PI) + 2 * INR 1 * PI) by (cbn [INR]; field).
  rewrite !sin_period, !neg_sin, !sin_shift.
  destruct (sin_bounds (3 * PI / 16)) as [S3 _]; [lra|]. destruct (cos_bounds (3 * PI / 16)) as [_ S5]; [lra|]. destruct (sin_bounds (PI / 16)) as [_ S1]; [lra|]. destruct (cos_bounds (PI / 16)) as [S7 _]; [lra|].
  assert (Q3 : 55 / 100 <= 3 * PI / 16 - (3 * PI / 16) ^ 3 / 6 /\ 1 - (3 * PI / 16) ^ 2 / 2 + (3 * PI / 16) ^ 4 / 24 <= 84 / 100).
  { set (x := 3 * PI / 16). assert (589 / 1000 <= x <= 590 / 1000) by (unfold x; lra). assert (x ^ 3 <= 206 / 1000) by (eapply Rle_trans; [apply (pow_incr x (59/100) 3); lra|]; lra).
    assert (346 / 1000 <= x ^ 2) by (eapply Rle_trans; [|apply (pow_incr (589/1000) x 2); lra]; lra). assert (x ^ 4 <= 122 / 1000) by (eapply Rle_trans; [apply (pow_incr x (59/100) 4); lra|]; lra). lra. }
  assert (Q1 : PI / 16 - (PI / 16) ^ 3 / 6 + (PI / 16) ^ 5 / 120 <= 197 / 1000 /\ 98 / 100 <= 1 - (PI / 16) ^ 2 / 2).
  { set (x := PI / 16). assert (0 <= x <= 197 / 1000) by (unfold x; lra). assert (X3 : 0 <= x ^ 3) by (apply pow_le; lra). assert (X5 : x ^ 5 <= x ^ 3). { replace (x ^ 5) with (x ^ 3 * (x * x)) by ring. assert (x * x <= 1) by nra. rewrite <- (Rmult_1_r (x ^ 3)) at 2. now apply Rmult_le_compat_l. }
    assert (x ^ 2 <= 39 / 1000) by (eapply Rle_trans; [apply (pow_incr x (197/1000) 2); lra|]; lra). lra. }
  lra.
Qed.

Lemma last_ex : last_below (k_grid 4 r_ex) (1 / angstrom) 4 = 1%nat.
Proof.
  destruct PI_approx as [P1 P2]. unfold angstrom. cbn [last_below]. rewrite !k_ex. cbn [INR].
  destruct (Rlt_dec _ _) as [Z|_]; [exfalso; lra|]. destruct (Rlt_dec _ _) as [Z|_]; [exfalso; lra|]. destruct (Rlt_dec _ _) as [_|Z]; [reflexivity|exfalso; lra].
Qed.
(** density and raw potentials of the example; the temperature is free *)
Definition n_ex : R := 10 ^ 30 / 1280.
Lemma g_ex u T j : (j < 4)%nat -> g0_same u 2 r1_ex r_ex n_ex T j = 1 / 2.
Proof.
  intros Hj. unfold g0_same. cbv zeta. rewrite interp_left; [reflexivity| | |].
  - rewrite map_length, seq_length. lia.
  - apply ascending_map. intros a b Hab. unfold r1_ex. assert (INR a <= INR b) by (apply le_INR; lia). unfold Rdiv. apply Rmult_le_compat_r; [left; apply Rinv_0_lt_compat, pow_lt; lra|lra].
  - rewrite at_map by lia. unfold r1_ex, r_ex. cbn [INR]. assert (INR j <= 3). { replace 3 with (INR 3) by (cbn; ring). apply le_INR. lia. } lra.
Qed.
Definition B_ex (m : nat) : R := 128 / 10 ^ 30 / (INR m + 1) * ((ln 2 - 1 / 2) + 1 / 2 / (1 - n_ex / 4 * (128 / 10 ^ 30 / (INR m + 1) * sig m))).
Lemma det_ex m : 3 / 4 <= 1 - n_ex / 4 * (128 / 10 ^ 30 / (INR m + 1) * sig m).
Proof.
  pose proof (sig_bound m) as S. pose proof (pos_INR m) as Pm. apply Rabs_le_between in S.
  replace (n_ex / 4 * (128 / 10 ^ 30 / (INR m + 1) * sig m)) with (sig m / 40 / (INR m + 1)) by (unfold n_ex; field; lra).
  assert (sig m / 40 / (INR m + 1) <= 1 / 4); [|lra]. apply (Rmult_le_reg_r (INR m + 1)); [lra|]. unfold Rdiv. rewrite !Rmult_assoc, Rinv_l by lra. lra.
Qed.
Lemma B_ex_pos m : 0 < B_ex m.
Proof.
  unfold B_ex. pose proof (det_ex m) as D. pose proof (pos_INR m) as Pm. pose proof ln_lt_2. apply Rmult_lt_0_compat.
  - apply Rdiv_lt_0_compat; [|lra]. apply Rdiv_lt_0_compat; [lra|apply pow_lt; lra].
  - set (d := 1 - _) in *. assert (0 < 1 / 2 / d) by (apply Rdiv_lt_0_compat; lra). lra.
Qed.
Lemma raw_ex u T m : (m < 4)%nat -> potential_averaged u 4 r_ex (n_ex / 2) T (g0_same u 2 r1_ex r_ex n_ex T) m = Some (B_ex m * sig m * (kB u * T)).
Proof.
  intros Hm. unfold potential_averaged. cbv zeta. rewrite !(forward_model 4 r_ex r_ex_grid) by exact Hm.
  rewrite (forward_ext 4 r_ex (fun j => g0_same u 2 r1_ex r_ex n_ex T j - 1) (fun j => - (1 / 2) * 1)) by (intros j Hj; rewrite g_ex by exact Hj; field).
  rewrite (forward_ext 4 r_ex (fun j => ln (g0_same u 2 r1_ex r_ex n_ex T j)) (fun j => - ln 2 * 1)).
  2:{ intros j Hj. rewrite g_ex by exact Hj. replace (1 / 2) with (/ 2) by field. rewrite ln_Rinv by lra. ring. }
  rewrite !(forward_scal 4 r_ex), one_ex. pose proof (det_ex m) as D. unfold B_ex. set (s := 128 / 10 ^ 30 / (INR m + 1)) in *.
  assert (D' : 1 + n_ex / 2 * (- (1 / 2) * (s * sig m)) = 1 - n_ex / 4 * (s * sig m)) by field.
  rewrite D', qdiv_some by lra. cbn [obind]. f_equal. field. lra.
Qed.
Definition V_ex (u : consts) (T : R) : arr3 := fun a b m => if Nat.eqb a b then B_ex m * sig m * (kB u * T) else 0.
Lemma raw2_ex u T a b m : (a < 2)%nat -> (b < 2)%nat -> (m < 4)%nat ->
  potential_separated u 4 r_ex n_ex T (g0_separated u 2 r1_ex r_ex n_ex T) a b m = Some (V_ex u T a b m).
Proof.
  intros Ha Hb Hm. rewrite C127_separated_raw; try assumption; [|exact r_ex_grid|rewrite raw_ex by exact Hm; discriminate].
  unfold V_ex. destruct (Nat.eqb a b); [now apply raw_ex|reflexivity].
Qed.
Lemma pauli_ex u uT T a b : kB u * uT = e_ch u -> 0 < T -> (a < 2)%nat -> (b < 2)%nat ->
  exists x, pauli_separated u (a_0 u) uT 2 4 r1_ex r_ex n_ex T a b 0 = Some x /\ x < 0.
Proof.
  intros HT HTp Ha Hb. cpos u.
  destruct (C127_repair_separated u (a_0 u) uT 2 4 r1_ex r_ex n_ex T (V_ex u T) a b 0 eq_refl HT r_ex_grid (raw2_ex u T) Ha Hb) as (i1 & i2 & A1 & A2 & A3 & A4 & A5 & _ & A7).
  { lia. } { rewrite k_ex. cbn [INR]. destruct PI_approx. assert (0 < 10 ^ 10) by lra. nra. }
  rewrite k_ex in A2, A3. destruct PI_approx as [P1 P2].
  assert (I1 : i1 = 1%nat).
  { destruct i1 as [|[|[|[|i1]]]]; try lia.
    - pose proof (A4 1%nat ltac:(lia)) as Z. rewrite k_ex in Z. cbn [INR] in Z. lra.
    - cbn [INR] in A2. lra.
    - cbn [INR] in A2. lra. }
  assert (I2 : i2 = 3%nat).
  { destruct i2 as [|[|[|[|i2]]]]; try lia; exfalso; pose proof (A5 3%nat ltac:(lia)) as Z; rewrite k_ex in Z; cbn [INR] in Z; lra. }
  subst i1 i2. destruct (A7 ltac:(lia)) as (A & B & E & E1 & E3). exists (A * k_grid 4 r_ex 0 ^ 2 + B). split; [exact E|].
  unfold V_ex in E1, E3. cbn [Nat.eqb] in E1, E3.
  pose proof sig_1 as S1. pose proof sig_3 as S3. pose proof (B_ex_pos 1) as B1. pose proof (B_ex_pos 3) as B3.
  assert (Hk : 0 < kB u * T) by (apply Rmult_lt_0_compat; lra).
  assert (V1 : A * k_grid 4 r_ex 1 ^ 2 + B < 0). { rewrite E1. assert (B_ex 1 * sig 1 < 0) by nra. nra. }
  assert (V3 : 0 < A * k_grid 4 r_ex 3 ^ 2 + B). { rewrite E3. apply Rmult_lt_0_compat; [apply Rmult_lt_0_compat; lra|exact Hk]. }
  rewrite k_ex in V1, V3 |- *. cbn [INR] in *. set (q := PI / 8 * 10 ^ 10) in *. assert (Hq : 0 < q) by (unfold q; lra).
  replace ((0 + 1) * (PI / 8) * 10 ^ 10) with q by (unfold q; ring). replace ((1 + 1) * (PI / 8) * 10 ^ 10) with (2 * q) in V1 by (unfold q; ring).
  replace ((1 + 1 + 1 + 1) * (PI / 8) * 10 ^ 10) with (4 * q) in V3 by (unfold q; ring).
  assert (0 < q ^ 2) by (apply pow_lt; lra). assert (0 < A * q ^ 2) by nra. nra.
Qed.

(** The unlike-spin component, for which the inversion gives no potential at all, is
    overwritten near the origin with the parabola of the like-spin one. *)
Theorem C127_unlike_refuted : forall u uT T, kB u * uT = e_ch u -> 0 < T ->
  exists N1 N2 r1 r2 n_e m x, good_grid N2 r2 /\ 0 < n_e /\ (m < N2)%nat /\
    potential_separated u N2 r2 n_e T (g0_separated u N1 r1 r2 n_e T) 0 1 m = Some 0 /\
    pauli_separated u (a_0 u) uT N1 N2 r1 r2 n_e T 0 1 m = Some x /\ x <> 0.
Proof.
  intros u uT T HT HTp. destruct (pauli_ex u uT T 0 1 HT HTp) as (x & E & Hx); try lia.
  exists 2%nat, 4%nat, r1_ex, r_ex, n_ex, 0%nat, x. split; [exact r_ex_grid|]. split; [unfold n_ex; lra|]. split; [lia|].
  split; [rewrite raw2_ex by lia; reflexivity|]. split; [exact E|lra].
Qed.
Print Assumptions C127_unlike_refuted.
Theorem C127_unlike : forall u uL uT N1 N2 r1 r2 n_e T a b m, good_grid N2 r2 -> (a < 2)%nat -> (b < 2)%nat -> (m < N2)%nat ->
  (forall a b m, (a < 2)%nat -> (b < 2)%nat -> (m < N2)%nat -> potential_separated u N2 r2 n_e T (g0_separated u N1 r1 r2 n_e T) a b m <> None) ->
  let k := k_grid N2 r2 in
  k m < k (last_below k (10 ^ 10) N2) * uL / a_0 u ->
  pauli_separated u uL uT N1 N2 r1 r2 n_e T a b m = pauli_separated u uL uT N1 N2 r1 r2 n_e T 1 1 m.
Proof.
  intros u uL uT N1 N2 r1 r2 n_e T a b m G Ha Hb Hm Hok k Hk.
  assert (E1 : 1 / angstrom = 10 ^ 10) by (unfold angstrom; field). rewrite <- E1 in Hk.
  unfold pauli_separated. cbv zeta. destruct (all_ok_make N2 (potential_separated u N2 r2 n_e T (g0_separated u N1 r1 r2 n_e T) 1 1)) as [W1 ->]; [intros i Hi; apply Hok; lia|].
  destruct (all_ok_make N2 (potential_separated u N2 r2 n_e T (g0_separated u N1 r1 r2 n_e T) a b)) as [W ->]; [intros i Hi; apply Hok; lia|].
  cbn [obind]. fold k. unfold fix_origin. cbv zeta. destruct (Rlt_dec _ _) as [Z|Z]; [reflexivity|]. exfalso. apply Z. exact Hk.
Qed.
Print Assumptions C127_unlike.

(** The same plasma, its temperature given in another unit: the repaired part comes out
    scaled by the ratio of the units. *)
Theorem C127_units_refuted : forall u uT uT' T, kB u * uT = e_ch u -> 0 < uT' -> uT' <> uT -> 0 < T ->
  exists N1 N2 r1 r2 n_e m x x', good_grid N2 r2 /\ 0 < n_e /\ (m < N2)%nat /\
    pauli_separated u (a_0 u) uT N1 N2 r1 r2 n_e T 1 1 m = Some x /\
    pauli_separated u (a_0 u) uT' N1 N2 r1 r2 n_e T 1 1 m = Some x' /\ x' = uT / uT' * x /\ x' <> x.
Proof.
  intros u uT uT' T HT HT' Hne HTp. cpos u. assert (HuT : 0 < uT). { apply (Rmult_lt_reg_l (kB u)); [lra|]. lra. }
  destruct (pauli_ex u uT T 1 1 HT HTp) as (x & E & Hx); try lia.
  exists 2%nat, 4%nat, r1_ex, r_ex, n_ex, 0%nat, x, (uT / uT' * x). split; [exact r_ex_grid|]. split; [unfold n_ex; lra|]. split; [lia|]. split; [exact E|].
  split; [|split; [reflexivity|]].
  - unfold pauli_separated in *. cbv zeta in *. destruct (all_ok_make 4 (potential_separated u 4 r_ex n_ex T (g0_separated u 2 r1_ex r_ex n_ex T) 1 1)) as [W EW]; [intros i Hi; rewrite raw2_ex by lia; discriminate|].
    rewrite EW in *. cbn [obind] in *. rewrite (units_scale u (a_0 u) uT uT'); [now rewrite E|lra|lra|lra|]. rewrite last_ex.
    replace (k_grid 4 r_ex 1 * a_0 u / a_0 u) with (k_grid 4 r_ex 1) by (field; lra). apply k_grid_incr; [exact r_ex_grid|lia].
  - intros Z. assert (Z2 : (uT / uT' - 1) * x = 0) by lra. apply Rmult_integral in Z2 as [Z2|Z2]; [|lra]. apply Hne. apply (Rmult_eq_reg_r (/ uT')); [|apply Rinv_neq_0_compat; lra]. rewrite Rinv_r by lra. unfold Rdiv in Z2. lra.
Qed.
Print Assumptions C127_units_refuted.

(** ** The density of a spin *)
(** Parseval for the exchange term: what it takes out of the pair distribution around an
    electron is fixed by the occupation numbers. *)
Theorem C127_exchange_hole : forall u N1 r1 n T, good_grid N1 r1 -> 0 < n ->
  let k := k_grid N1 r1 in
  let f := fun m => fermi_dirac u (k m) (chem_pot_sommerfeld u T n) T in
  nsum N1 (fun j => 4 * PI * r1 j ^ 2 * (r1 1%nat - r1 0%nat) * F_T u N1 r1 n T j ^ 2) =
  (2 / n) ^ 2 * nsum N1 (fun m => 4 * PI * k m ^ 2 * (k 1%nat - k 0%nat) * f m ^ 2 / (2 * PI) ^ 3).
Proof.
  intros u N1 r1 n T G Hn k f. pose proof (cube_kf n Hn) as E3. pose proof PI_RGT_0 as HPI. pose proof (k_step_pos N1 r1 G) as Hs. pose proof (grid_N N1 r1 G) as HN.
  pose proof G as (He & _ & Hr & Hd).
  unfold F_T. cbv zeta. fold k. fold f. rewrite E3.
  rewrite (nsum_ext N1 _ (fun j => (2 / n) ^ 2 * (4 * PI * (r1 1%nat - r1 0%nat)) * (4 * PI * k_step N1 r1 / (2 * PI) ^ 3) ^ 2 * dst4 N1 (fun m => k m * f m) j ^ 2)).
  2:{ intros j Hj. unfold fourier_transform_sine. rewrite <- (k_grid_step N1 r1). fold k. pose proof (Hr j Hj). set (D := dst4 N1 _ j). field. repeat split; lra. }
  rewrite nsum_scal, C44_parseval by exact He.
  rewrite (nsum_ext N1 (fun m => 4 * PI * k m ^ 2 * (k 1%nat - k 0%nat) * f m ^ 2 / (2 * PI) ^ 3) (fun m => 4 * PI * k_step N1 r1 / (2 * PI) ^ 3 * (k m * f m) ^ 2)).
  2:{ intros m Hm. rewrite <- (k_grid_step N1 r1). fold k. field. lra. }
  rewrite nsum_scal. unfold k_step. field. repeat split; lra.
Qed.
Print Assumptions C127_exchange_hole.

(** At a point of the fine grid where nothing is clipped: the spin-averaged function at
    the density n and the spin-separated one at 2 n start from the same exchange term. *)
Theorem C127_same_exchange : forall u N1 r1 r2 n T i j, (2 <= N1)%nat -> (forall i j, (i < j < N1)%nat -> r1 i < r1 j) -> (i < N1)%nat ->
  r2 j = r1 i -> Rabs (F_T u N1 r1 n T i) < 1 ->
  g0_averaged u N1 r1 r2 n T j = 1 - F_T u N1 r1 n T i ^ 2 / 2 /\
  g0_same u N1 r1 r2 (2 * n) T j = 1 - F_T u N1 r1 n T i ^ 2 /\
  g0_averaged u N1 r1 r2 n T j = (1 + g0_same u N1 r1 r2 (2 * n) T j) / 2.
Proof.
  intros u N1 r1 r2 n T i j HN Hs Hi Hr HF. apply Rabs_def2 in HF.
  assert (I : forall y, interp (Some (1 / 2)) (Some 1) (map r1 (seq 0 N1)) (map y (seq 0 N1)) (r1 i) = y i).
  { intros y. rewrite <- (at_map r1 N1 i Hi). rewrite interp_knot.
    - now apply at_map.
    - intros a b Hab. rewrite map_length, seq_length in Hab. rewrite !at_map by lia. apply Hs. lia.
    - rewrite map_length, seq_length. lia.
    - rewrite map_length, seq_length. exact Hi. }
  assert (A : g0_averaged u N1 r1 r2 n T j = 1 - F_T u N1 r1 n T i ^ 2 / 2).
  { unfold g0_averaged. cbv zeta. rewrite Hr, I. unfold clip. destruct (Rle_dec _ 0) as [Z|Z]; [exfalso; nra|]. field. }
  assert (B : g0_same u N1 r1 r2 (2 * n) T j = 1 - F_T u N1 r1 n T i ^ 2).
  { unfold g0_same. cbv zeta. replace (2 * n / 2) with n by field. rewrite Hr, I. unfold clip. destruct (Rle_dec _ 0) as [Z|Z]; [exfalso; nra|reflexivity]. }
  split; [exact A|]. split; [exact B|]. rewrite A, B. field.
Qed.
Print Assumptions C127_same_exchange.

Lemma kin_fermi u n : kin_energy u (fermi_wavenumber n) = fermi_energy u n.
Proof. symmetry. apply fermi_energy_kin. Qed.
(** The occupation numbers of a cold plasma at the chemical potential of the density n
    fill the sphere of radius k_F(n), which holds n / 2 states of each spin.  So the
    spin-averaged function normalises its exchange term by the states occupied, and takes
    them for the n_e / 2 electrons of a spin; the spin-separated one, which evaluates
    everything at the density n_e / 2 of a spin, has n_e / 4 occupied. *)
Theorem C127_density_refuted : forall u n, 0 < n ->
  (forall k, 0 <= k < fermi_wavenumber n -> forall eps, 0 < eps -> exists T0, 0 < T0 /\ forall T, 0 < T < T0 ->
     Rabs (fermi_dirac u k (chem_pot_sommerfeld u T n) T - 1) < eps) /\
  (forall k, fermi_wavenumber n < k -> forall eps, 0 < eps -> exists T0, 0 < T0 /\ forall T, 0 < T < T0 ->
     Rabs (fermi_dirac u k (chem_pot_sommerfeld u T n) T) < eps) /\
  4 * PI / 3 * fermi_wavenumber n ^ 3 / (2 * PI) ^ 3 = n / 2 /\
  4 * PI / 3 * fermi_wavenumber (n / 2) ^ 3 / (2 * PI) ^ 3 = n / 4.
Proof.
  intros u n Hn. cpos u. pose proof (EF_pos u n) as HE. pose proof PI_RGT_0 as HPI. assert (HF : 0 < fermi_temperature u n) by (unfold fermi_temperature; apply Rdiv_lt_0_compat; lra).
  assert (C : forall d eps, 0 < d -> 0 < eps -> exists T0, 0 < T0 /\ forall T, 0 < T < T0 -> Rabs (chem_pot_sommerfeld u T n - fermi_energy u n) <= d / 2 /\ exp (- (d / 2 / (kB u * T))) < eps).
  { intros d eps Hd Heps. exists (Rmin (fermi_temperature u n / 10) (Rmin (d / (2 * fermi_energy u n) * fermi_temperature u n) (eps * d / (2 * kB u)))). split.
    - apply Rmin_pos; [lra|]. apply Rmin_pos; [apply Rmult_lt_0_compat; [apply Rdiv_lt_0_compat; lra|exact HF]|apply Rdiv_lt_0_compat; [apply Rmult_lt_0_compat; lra|lra]].
    - intros T HT. pose proof (Rmin_l (fermi_temperature u n / 10) (Rmin (d / (2 * fermi_energy u n) * fermi_temperature u n) (eps * d / (2 * kB u)))) as L1.
      pose proof (Rmin_r (fermi_temperature u n / 10) (Rmin (d / (2 * fermi_energy u n) * fermi_temperature u n) (eps * d / (2 * kB u)))) as L2.
      pose proof (Rmin_l (d / (2 * fermi_energy u n) * fermi_temperature u n) (eps * d / (2 * kB u))) as L3. pose proof (Rmin_r (d / (2 * fermi_energy u n) * fermi_temperature u n) (eps * d / (2 * kB u))) as L4.
      split.
      + destruct (C126_cold u n T Hn) as (_ & K & _); [lra|]. eapply Rle_trans; [exact K|]. set (x := T / fermi_temperature u n) in *.
        assert (Hx : 0 < x <= 1 / 10). { split; [apply Rdiv_lt_0_compat; lra|]. unfold x. apply (Rmult_le_reg_r (fermi_temperature u n)); [lra|]. unfold Rdiv. rewrite Rmult_assoc, Rinv_l by lra. lra. }
        assert (Hx2 : x * fermi_energy u n <= d / 2).
        { apply (Rmult_le_reg_r (fermi_temperature u n)); [lra|]. unfold x. replace (T / fermi_temperature u n * fermi_energy u n * fermi_temperature u n) with (T * fermi_energy u n) by (field; lra).
          assert (HTd : T <= d / (2 * fermi_energy u n) * fermi_temperature u n) by lra. apply (Rmult_le_compat_r (fermi_energy u n)) in HTd; [|lra]. replace (d / (2 * fermi_energy u n) * fermi_temperature u n * fermi_energy u n) with (d / 2 * fermi_temperature u n) in HTd by (field; lra). exact HTd. }
        assert (x ^ 2 <= x) by nra. assert (x ^ 2 * fermi_energy u n <= x * fermi_energy u n) by (apply Rmult_le_compat_r; lra). lra.
      + assert (Hz : 0 < kB u * T) by (apply Rmult_lt_0_compat; lra). set (z := d / 2 / (kB u * T)). assert (Hzp : 0 < z) by (unfold z; apply Rdiv_lt_0_compat; lra).
        rewrite exp_Ropp. pose proof (exp_ineq1 z ltac:(lra)) as X. apply Rle_lt_trans with (/ z); [apply Rinv_le_contravar; lra|].
        apply (Rmult_lt_reg_r z); [exact Hzp|]. rewrite Rinv_l by lra. unfold z. apply (Rmult_lt_reg_r (kB u * T)); [exact Hz|]. replace (eps * (d / 2 / (kB u * T)) * (kB u * T)) with (eps * d / 2) by (field; lra).
        assert (Q : T < eps * d / (2 * kB u)) by lra. apply (Rmult_lt_compat_l (kB u)) in Q; [|lra]. replace (kB u * (eps * d / (2 * kB u))) with (eps * d / 2) in Q by (field; lra). lra. }
  assert (S : forall m, 0 < m -> 4 * PI / 3 * fermi_wavenumber m ^ 3 / (2 * PI) ^ 3 = m / 2) by (intros m Hm; rewrite (cube_kf m Hm); field; lra).
  assert (Kin : forall a b, 0 <= a < b -> kin_energy u a < kin_energy u b).
  { intros a b Hab. unfold kin_energy. apply Rmult_lt_compat_r; [apply Rinv_0_lt_compat; lra|]. apply Rmult_lt_compat_l; [apply pow_lt; lra|]. nra. }
  repeat split.
  - intros k Hk eps Heps. pose proof (Kin k (fermi_wavenumber n) Hk) as L. rewrite (kin_fermi u n) in L. destruct (C (fermi_energy u n - kin_energy u k) eps) as (T0 & HT0 & HC); [lra|exact Heps|].
    exists T0. split; [exact HT0|]. intros T HT. destruct (HC T HT) as [M1 M2]. apply Rabs_le_between in M1. assert (Hz : 0 < kB u * T) by (apply Rmult_lt_0_compat; lra).
    unfold fermi_dirac. set (y := (kin_energy u k - chem_pot_sommerfeld u T n) / (kB u * T)).
    assert (Hy : y <= - ((fermi_energy u n - kin_energy u k) / 2 / (kB u * T))). { unfold y. replace (- ((fermi_energy u n - kin_energy u k) / 2 / (kB u * T))) with (- ((fermi_energy u n - kin_energy u k) / 2) / (kB u * T)) by (field; lra). apply Rmult_le_compat_r; [left; now apply Rinv_0_lt_compat|lra]. }
    pose proof (exp_pos y) as Py. pose proof (exp_le _ _ Hy) as Hle. replace (1 / (exp y + 1) - 1) with (- (exp y / (exp y + 1))) by (field; lra). rewrite Rabs_Ropp, Rabs_pos_eq by (left; apply Rdiv_lt_0_compat; lra).
    apply Rle_lt_trans with (exp y); [|lra]. apply (Rmult_le_reg_r (exp y + 1)); [lra|]. unfold Rdiv. rewrite Rmult_assoc, Rinv_l by lra. nra.
  - intros k Hk eps Heps. pose proof (kf_pos n) as Kp. pose proof (Kin (fermi_wavenumber n) k ltac:(lra)) as L. rewrite (kin_fermi u n) in L. destruct (C (kin_energy u k - fermi_energy u n) eps) as (T0 & HT0 & HC); [lra|exact Heps|].
    exists T0. split; [exact HT0|]. intros T HT. destruct (HC T HT) as [M1 M2]. apply Rabs_le_between in M1. assert (Hz : 0 < kB u * T) by (apply Rmult_lt_0_compat; lra).
    unfold fermi_dirac. set (y := (kin_energy u k - chem_pot_sommerfeld u T n) / (kB u * T)).
    assert (Hy : - y <= - ((kin_energy u k - fermi_energy u n) / 2 / (kB u * T))). { apply Ropp_le_contravar. unfold y. apply Rmult_le_compat_r; [left; now apply Rinv_0_lt_compat|lra]. }
    pose proof (exp_pos y) as Py. pose proof (exp_le _ _ Hy) as Hle. rewrite exp_Ropp in Hle. rewrite Rabs_pos_eq by (left; apply Rdiv_lt_0_compat; lra).
    apply Rle_lt_trans with (/ exp y); [|lra]. unfold Rdiv. rewrite Rmult_1_l. apply Rinv_le_contravar; lra.
  - apply S. exact Hn.
  - rewrite S by lra. field.
Qed.
Print Assumptions C127_density_refuted.

(** ** The grid handed on *)
(** full_k builds its own r from the k it is given and drops the k the inversion then
    used.  On a uniform r the two differ by a constant, which vanishes only if r starts
    one step from the origin. *)
Theorem C127_grid : forall N r0 dr m, (2 <= N)%nat -> 0 < r0 -> 0 < dr ->
  let r := fun j => r0 + INR j * dr in
  let k := k_grid N r in
  let k_ := k_grid N (r_of_k N k) in
  k_ m - k m = k_ 0%nat - k 0%nat /\ (k_ m = k m <-> r0 = dr).
Proof.
  intros N r0 dr m HN H0 Hd r k k_. pose proof PI_RGT_0 as HPI. assert (HN2 : 2 <= INR N) by (replace 2 with (INR 2) by (cbn; ring); now apply le_INR).
  assert (E1 : INR (N - 1) = INR N - 1) by (rewrite minus_INR by lia; cbn; ring).
  assert (Ed : r 1%nat - r 0%nat = dr) by (unfold r; cbn [INR]; ring). assert (Es : k_step N r = PI / (INR N * dr)) by (unfold k_step; now rewrite Ed).
  assert (HNd : 0 < (INR N - 1) * dr) by (apply Rmult_lt_0_compat; lra). assert (HNd2 : 0 < INR N * dr) by (apply Rmult_lt_0_compat; lra).
  set (L := r0 + (INR N - 1) * dr). assert (HL : 0 < L) by (unfold L; lra). assert (Er : r (N - 1)%nat = L) by (unfold r, L; now rewrite E1).
  assert (Hk : forall i, k i = PI / L + INR i * (PI / (INR N * dr))) by (intros i; unfold k, k_grid; rewrite Er, Es; reflexivity).
  assert (Hstep : k 1%nat - k 0%nat = PI / (INR N * dr)) by (rewrite !Hk; cbn [INR]; ring).
  assert (Hr' : forall j, r_of_k N k j = PI / k (N - 1)%nat + INR j * dr). { intros j. unfold r_of_k. cbv zeta. rewrite Hstep. f_equal. f_equal. field. repeat split; lra. }
  set (q := PI / k (N - 1)%nat) in *. set (L' := q + (INR N - 1) * dr).
  assert (Hk' : forall i, k_ i = PI / L' + INR i * (PI / (INR N * dr))).
  { intros i. unfold k_, k_grid, k_step. rewrite !Hr', E1. cbn [INR]. fold L'. replace (q + 1 * dr - (q + 0 * dr)) with dr by ring. reflexivity. }
  assert (Ek : k (N - 1)%nat = PI * (1 / L + (INR N - 1) / (INR N * dr))) by (rewrite Hk, E1; field; lra).
  set (w := 1 / L + (INR N - 1) / (INR N * dr)) in *. assert (Hw : 0 < w). { unfold w. assert (0 < 1 / L) by (apply Rdiv_lt_0_compat; lra). assert (0 < (INR N - 1) / (INR N * dr)) by (apply Rdiv_lt_0_compat; [lra|apply Rmult_lt_0_compat; lra]). lra. }
  assert (Eq : q = 1 / w) by (unfold q; rewrite Ek; field; lra).
  assert (Hq : 0 < q) by (rewrite Eq; apply Rdiv_lt_0_compat; lra). assert (HL' : 0 < L') by (unfold L'; lra).
  split; [rewrite !Hk, !Hk'; cbn [INR]; ring|]. rewrite Hk, Hk'. split.
  - intros E. assert (E2 : PI / L' = PI / L) by lra. assert (E3 : L' = L). { assert (Z : PI / L' * (L' * L) = PI / L * (L' * L)) by now rewrite E2. replace (PI / L' * (L' * L)) with (PI * L) in Z by (field; lra). replace (PI / L * (L' * L)) with (PI * L') in Z by (field; lra). apply (Rmult_eq_reg_l PI); [lra|lra]. }
    assert (E4 : q = r0) by (unfold L', L in E3; lra). assert (E5 : r0 * w = 1) by (rewrite <- E4, Eq; field; lra).
    assert (E6 : r0 * (INR N * dr) + r0 * (INR N - 1) * L = L * (INR N * dr)). { replace (r0 * (INR N * dr) + r0 * (INR N - 1) * L) with (r0 * w * (L * (INR N * dr))) by (unfold w; field; repeat split; lra). rewrite E5. ring. }
    assert (E7 : (r0 - dr) * (INR N - 1) * (r0 + INR N * dr) = 0). { unfold L in E6. replace ((r0 - dr) * (INR N - 1) * (r0 + INR N * dr)) with (r0 * (INR N * dr) + r0 * (INR N - 1) * (r0 + (INR N - 1) * dr) - (r0 + (INR N - 1) * dr) * (INR N * dr)) by ring. lra. }
    apply Rmult_integral in E7 as [E7|E7]; [|exfalso; lra]. apply Rmult_integral in E7 as [E7|E7]; lra.
  - intros E. assert (E4 : q = r0). { rewrite Eq. unfold w, L. rewrite E. field. split; [lra|]. nra. }
    unfold L', L. rewrite E4. reflexivity.
Qed.
Print Assumptions C127_grid.

(** full_k: no potential for pairs with an ion, the same one for a pair and its swap. *)
Lemma r_of_k_grid N r : good_grid N r -> good_grid N (r_of_k N (k_grid N r)).
Proof.
  intros G. pose proof G as (He & HN & _ & _). pose proof (k_step_pos N r G) as Hs. pose proof (grid_N N r G) as HNR. pose proof PI_RGT_0 as HPI.
  assert (Hd : 0 < PI / (INR N * (k_grid N r 1 - k_grid N r 0))). { rewrite k_grid_step. apply Rdiv_lt_0_compat; [exact HPI|]. now apply Rmult_lt_0_compat. }
  split; [exact He|]. split; [exact HN|]. split.
  - intros j _. unfold r_of_k. cbv zeta. pose proof (pos_INR j) as Hj. pose proof (k_grid_pos N r G (N - 1)) as Hk.
    assert (0 < PI / k_grid N r (N - 1)) by (apply Rdiv_lt_0_compat; lra). assert (0 <= INR j * (PI / (INR N * (k_grid N r 1 - k_grid N r 0)))) by (apply Rmult_le_pos; lra). lra.
  - unfold r_of_k. cbv zeta. cbn [INR]. lra.
Qed.
Theorem C127_full_k : forall u uL uT N1 ions N r n_e T a b m, good_grid N r -> (a < ions + 2)%nat -> (b < ions + 2)%nat -> (m < N)%nat ->
  let k := k_grid N r in
  (forall i, (i < N)%nat -> potential_averaged u N (r_of_k N k) (n_e / 2) T (g0_same u N1 (r_calc u N1) (r_of_k N k) n_e T) i <> None) ->
  full_k_separated u uL uT N1 ions N n_e T k a b m = full_k_separated u uL uT N1 ions N n_e T k b a m /\
  ((a < ions)%nat \/ (b < ions)%nat -> full_k_separated u uL uT N1 ions N n_e T k a b m = Some 0) /\
  ((ions <= a)%nat -> full_k_separated u uL uT N1 ions N n_e T k a a m = pauli_separated u uL uT N1 N (r_calc u N1) (r_of_k N k) n_e T 1 1 m).
Proof.
  intros u uL uT N1 ions N r n_e T a b m G Ha Hb Hm k Hok. unfold full_k_separated. pose proof (r_of_k_grid N r G) as G'. fold k in G'.
  assert (SW : forall a b i, (a < 2)%nat -> (b < 2)%nat -> (i < N)%nat -> potential_separated u N (r_of_k N k) n_e T (g0_separated u N1 (r_calc u N1) (r_of_k N k) n_e T) a b i =
     if Nat.eqb a b then potential_averaged u N (r_of_k N k) (n_e / 2) T (g0_same u N1 (r_calc u N1) (r_of_k N k) n_e T) i else Some 0).
  { intros a' b' i Ha' Hb' Hi. apply C127_separated_raw; try assumption. now apply Hok. }
  assert (AO : forall V W, (forall i, (i < N)%nat -> V i = W i) -> forall X, all_ok N V = Some X -> exists Y, all_ok N W = Some Y /\ forall i, (i < N)%nat -> X i = Y i).
  { intros V W E X EX. destruct (all_ok_make N W) as [Y EY]. { intros i Hi. rewrite <- E by exact Hi. rewrite (all_ok_spec _ _ _ EX i Hi). discriminate. }
    exists Y. split; [exact EY|]. intros i Hi. pose proof (all_ok_spec _ _ _ EX i Hi) as E1. pose proof (all_ok_spec _ _ _ EY i Hi) as E2. rewrite E, E2 in E1 by exact Hi. congruence. }
  assert (PS : forall a b a' b', (a < 2)%nat -> (b < 2)%nat -> (a' < 2)%nat -> (b' < 2)%nat -> Nat.eqb a b = Nat.eqb a' b' ->
     pauli_separated u uL uT N1 N (r_calc u N1) (r_of_k N k) n_e T a b m = pauli_separated u uL uT N1 N (r_calc u N1) (r_of_k N k) n_e T a' b' m).
  { intros a1 b1 a2 b2 L1 L2 L3 L4 E. unfold pauli_separated. cbv zeta.
    destruct (all_ok N (potential_separated u N (r_of_k N k) n_e T (g0_separated u N1 (r_calc u N1) (r_of_k N k) n_e T) 1 1)) as [V11|]; [|reflexivity]. cbn [obind].
    destruct (all_ok_make N (potential_separated u N (r_of_k N k) n_e T (g0_separated u N1 (r_calc u N1) (r_of_k N k) n_e T) a1 b1)) as [X EX].
    { intros i Hi. rewrite SW by assumption. destruct (Nat.eqb a1 b1); [now apply Hok|discriminate]. }
    destruct (AO (potential_separated u N (r_of_k N k) n_e T (g0_separated u N1 (r_calc u N1) (r_of_k N k) n_e T) a1 b1) (potential_separated u N (r_of_k N k) n_e T (g0_separated u N1 (r_calc u N1) (r_of_k N k) n_e T) a2 b2)) with (X := X) as (Y & EY & XY); [|exact EX|].
    { intros i Hi. rewrite !SW by assumption. now rewrite E. }
    rewrite EX, EY. cbn [obind]. unfold fix_origin. cbv zeta. now rewrite (XY m Hm). }
  repeat split.
  - rewrite andb_comm. destruct (Nat.leb_spec ions a); destruct (Nat.leb_spec ions b); cbn [andb]; try reflexivity. apply PS; try lia. apply Nat.eqb_sym.
  - intros [L|L]; destruct (Nat.leb_spec ions a); destruct (Nat.leb_spec ions b); cbn [andb]; try lia; reflexivity.
  - intros L. apply Nat.leb_le in L as L'. rewrite L'. cbn [andb]. apply Nat.leb_le in L'. apply PS; try lia. now rewrite !Nat.eqb_refl.
Qed.
Print Assumptions C127_full_k.

(** The hypotheses above are met. *)
Example C127_met : good_grid 4 r_ex /\ (forall i j, (i <= j < 2)%nat -> r1_ex i <= r1_ex j) /\ 0 < n_ex /\
  (forall m, (m < 4)%nat -> potential_averaged unit_consts 4 r_ex (n_ex / 2) 1 (g0_same unit_consts 2 r1_ex r_ex n_ex 1) m <> None) /\
  k_grid 4 r_ex 0 < 10 ^ 10 /\ last_below (k_grid 4 r_ex) (10 ^ 10) 4 = 1%nat /\ kB unit_consts * 1 = e_ch unit_consts.
Proof.
  split; [exact r_ex_grid|]. split.
  { intros a b Hab. unfold r1_ex. assert (INR a <= INR b) by (apply le_INR; lia). unfold Rdiv. apply Rmult_le_compat_r; [left; apply Rinv_0_lt_compat, pow_lt; lra|lra]. }
  split; [unfold n_ex; lra|]. split; [intros m Hm; rewrite raw_ex by exact Hm; discriminate|].
  split; [rewrite k_ex; cbn [INR]; destruct PI_approx; lra|]. split; [|cbn; ring].
  pose proof last_ex as E. replace (1 / angstrom) with (10 ^ 10) in E by (unfold angstrom; field). exact E.
Qed.
(** the averaged function on the same grids: its pair distribution is 1 / 2 as well *)
Example C127_averaged_met : exists V, forall m, (m < 4)%nat -> potential_averaged unit_consts 4 r_ex (n_ex / 2) 1 (g0_averaged unit_consts 2 r1_ex r_ex (n_ex / 2) 1) m = Some (V m).
Proof.
  exists (fun m => B_ex m * sig m * (kB unit_consts * 1)). intros m Hm. rewrite <- (raw_ex unit_consts 1 m Hm).
  unfold potential_averaged. cbv zeta. rewrite !(forward_model 4 r_ex r_ex_grid) by exact Hm.
  assert (E : forall j, (j < 4)%nat -> g0_averaged unit_consts 2 r1_ex r_ex (n_ex / 2) 1 j = g0_same unit_consts 2 r1_ex r_ex n_ex 1 j).
  { intros j Hj. rewrite (g_ex unit_consts 1 j Hj). unfold g0_averaged. cbv zeta. rewrite interp_left; [reflexivity| | |].
    - rewrite map_length, seq_length. lia.
    - apply ascending_map. apply C127_met.
    - rewrite at_map by lia. unfold r1_ex, r_ex. cbn [INR]. assert (INR j <= 3). { replace 3 with (INR 3) by (cbn; ring). apply le_INR. lia. } lra. }
  rewrite (forward_ext 4 r_ex _ (fun j => g0_same unit_consts 2 r1_ex r_ex n_ex 1 j - 1)) by (intros j Hj; now rewrite E).
  rewrite (forward_ext 4 r_ex (fun j => ln (g0_averaged unit_consts 2 r1_ex r_ex (n_ex / 2) 1 j)) (fun j => ln (g0_same unit_consts 2 r1_ex r_ex n_ex 1 j))) by (intros j Hj; now rewrite E). reflexivity.
Qed.
