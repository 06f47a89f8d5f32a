(** Theorems about the approximations of the Fermi integrals. *)
From Coq Require Import Reals List Arith ZArith QArith Qreals Lra Lia Psatz.
From Coquelicot Require Import Coquelicot.
From Verif Require Import M_Const M_PlasmaState M_Math L_Poly L_Fermi L_FermiFit L_FermiFit2 L_FermiTables.
Import ListNotations.
Open Scope R_scope.

(** the Fermi integral of order [n] exists and [fit] has it up to [eps] *)
Definition close (fit : R -> option R) (n eps x : R) : Prop :=
  ex_RInt_gen (fun t : R => Rpower t n / (exp (t - x) + 1)) (at_right 0) (Rbar_locally p_infty) /\
  exists v, fit x = Some v /\ 0 < fermi_integral x n /\ Rabs (v - fermi_integral x n) <= eps * fermi_integral x n.

Lemma prims : prim (INR 0 - 1 / 2) (fun t => 2 * L_Gauss.FF (sqrt t)) (sqrt PI) /\
  (exists P, prim (INR 1 - 1 / 2) P (1 / 2 * sqrt PI)) /\ (exists P, prim (INR 2 - 1 / 2) P (3 / 4 * sqrt PI)) /\ (exists P, prim (INR 3 - 1 / 2) P (15 / 8 * sqrt PI)).
Proof.
  assert (prim (INR 0 - 1 / 2) (fun t => 2 * L_Gauss.FF (sqrt t)) (sqrt PI)) as H0 by (replace (INR 0 - 1 / 2) with (-1 / 2) by (cbn; field); apply prim_base).
  split; [exact H0|]. assert (forall m P G, prim (INR m - 1 / 2) P G -> prim (INR (S m) - 1 / 2) (fun t => (INR m - 1 / 2 + 1) * P t - Rpower t (INR m - 1 / 2 + 1) * exp (- t)) ((INR m + 1 / 2) * G)) as ST.
  { intros m P G HP. replace (INR (S m) - 1 / 2) with (INR m - 1 / 2 + 1) by (rewrite S_INR; ring). replace (INR m + 1 / 2) with (INR m - 1 / 2 + 1) by field. apply prim_step; [exact HP|]. pose proof (pos_INR m). lra. }
  pose proof (ST _ _ _ H0) as H1. replace ((INR 0 + 1 / 2) * sqrt PI) with (1 / 2 * sqrt PI) in H1 by (cbn; field).
  pose proof (ST _ _ _ H1) as H2. replace ((INR 1 + 1 / 2) * (1 / 2 * sqrt PI)) with (3 / 4 * sqrt PI) in H2 by (cbn; field).
  pose proof (ST _ _ _ H2) as H3. replace ((INR 2 + 1 / 2) * (3 / 4 * sqrt PI)) with (15 / 8 * sqrt PI) in H3 by (cbn; field).
  split; [eexists; exact H1|]. split; eexists; eassumption.
Qed.
Lemma exp_m7 x : x <= -7 / 10 -> exp x <= Q2R (1 # 2).
Proof.
  intros Hx. apply Rle_trans with (exp (- (7 / 10))). { destruct (Rle_lt_or_eq_dec x (- (7 / 10)) ltac:(lra)) as [L| ->]; [left; now apply exp_increasing|lra]. }
  rewrite exp_Ropp. unfold Q2R; cbn. rewrite Rmult_1_l. apply Rinv_le_contravar; [lra|]. replace (7 / 10) with (INR 64 * (7 / 640)) by (rewrite INR_IZR_INZ; cbn; field). rewrite exp_pow_n.
  apply Rle_trans with ((1 + 7 / 640) ^ 64); [lra|]. apply pow_incr. pose proof (exp_ineq1_le (7 / 640)). lra.
Qed.
Lemma exp_m14 x : x <= -7 / 5 -> exp x <= Q2R (1 # 4).
Proof.
  intros Hx. pose proof (exp_m7 (x / 2) ltac:(lra)) as H. replace x with (x / 2 + x / 2) by field. rewrite exp_plus. unfold Q2R in *; cbn in *. pose proof (exp_pos (x / 2)). nra.
Qed.
Lemma close_of fit n m a b c d N g0 gam Y eps x P G : (forall x, fit x = F_n x (rq a) (rq b) c d n) -> n = INR m - 1 / 2 -> acc_check a b m N g0 gam Y eps = true -> prim (INR m - 1 / 2) P G ->
  Rabs (G - Q2R g0) <= Q2R gam -> exp x <= Q2R Y -> x < 2 -> close fit n (Q2R eps) x.
Proof.
  intros Hf -> HC HP HG HY H2. destruct (acc a b c d m N g0 gam Y eps x P G HC HP HG HY H2) as (v & F & EV & HF & F0 & HB & G0). unfold close, fermi_integral.
  assert (RInt_gen (fun t : R => Rpower t (INR m - 1 / 2) / (exp (t - x) + 1)) (at_right 0) (Rbar_locally p_infty) = F) as -> by (apply (is_RInt_gen_unique (V := R_CompleteNormedModule)); exact HF).
  rewrite (gamma_prim _ _ _ HP). split; [exists F; exact HF|]. exists v. rewrite Hf. split; [exact EV|]. split; assumption.
Qed.
Lemma Gb c g : Rabs (1772453851 / 1000000000 * c - g) <= 1 / 1000000000 * c -> 0 < c -> Rabs (c * sqrt PI - g) <= 4 / 1000000000 * c.
Proof. intros H Hc. pose proof sqrt_PI_approx as [H1 H2]. apply Rabs_le_between in H. apply Rabs_le. split; nra. Qed.

Lemma low_close3 x : exp x <= Q2R (1 # 2) -> x < 2 ->
  close fermi_neg12_antia (-1 / 2) (1 / 1000000) x /\ close fermi_12_antia (1 / 2) (1 / 1000000) x /\ close fermi_52_antia (5 / 2) (1 / 1000000) x.
Proof.
  intros HY Hx. destruct prims as (P0 & (P1' & P1) & _ & (P3' & P3)).
  replace (1 / 1000000) with (Q2R (1 # 1000000)) by (unfold Q2R; cbn; field). pose proof sqrt_PI_approx as [S1 S2]. split; [|split].
  - apply (close_of fermi_neg12_antia (-1 / 2) 0 qa_neg12 qb_neg12 c_neg12 d_neg12 24 (1772453851 # 1000000000) (4 # 1000000000) (1 # 2) _ x _ _ (fun _ => eq_refl) ltac:(cbn [INR]; field)) with (2 := P0); [vm_compute; reflexivity| |exact HY|lra]. unfold Q2R; cbn -[sqrt PI]. apply Rabs_le. lra.
  - apply (close_of fermi_12_antia (1 / 2) 1 qa_12 qb_12 c_12 d_12 24 (1772453851 # 2000000000) (4 # 1000000000) (1 # 2) _ x _ _ (fun _ => eq_refl) ltac:(cbn [INR]; field)) with (2 := P1); [vm_compute; reflexivity| |exact HY|lra]. unfold Q2R; cbn -[sqrt PI]. apply Rabs_le. lra.
  - apply (close_of fermi_52_antia (5 / 2) 3 qa_52 qb_52 c_52 d_52 24 (15 * 1772453851 # 8000000000) (8 # 1000000000) (1 # 2) _ x _ _ (fun _ => eq_refl) ltac:(cbn [INR]; field)) with (2 := P3); [vm_compute; reflexivity| |exact HY|lra]. unfold Q2R; cbn -[sqrt PI]. apply Rabs_le. lra.
Qed.

(** ** C122 *)
(** below the degenerate region the fits have the integrals to six digits *)
Theorem C122_nondegenerate : forall x, x <= -7 / 10 ->
  close fermi_neg12_antia (-1 / 2) (1 / 1000000) x /\ close fermi_12_antia (1 / 2) (1 / 1000000) x /\ close fermi_52_antia (5 / 2) (1 / 1000000) x.
Proof. intros x Hx. apply low_close3; [now apply exp_m7|lra]. Qed.
Print Assumptions C122_nondegenerate.
(** so has the one of order 3/2 further down *)
Theorem C122_nondegenerate_32_partial : forall x, x <= -7 / 5 -> close fermi_32_antia (3 / 2) (1 / 1000000) x.
Proof.
  intros x Hx. pose proof (exp_m14 x Hx) as HY. destruct prims as (_ & _ & (P2' & P2) & _). pose proof sqrt_PI_approx as [S1 S2].
  replace (1 / 1000000) with (Q2R (1 # 1000000)) by (unfold Q2R; cbn; field).
  apply (close_of fermi_32_antia (3 / 2) 2 qa_32 qb_32 c_32 d_32 24 (3 * 1772453851 # 4000000000) (4 # 1000000000) (1 # 4) _ x _ _ (fun _ => eq_refl) ltac:(cbn [INR]; field)) with (2 := P2); [vm_compute; reflexivity| |exact HY|lra]. unfold Q2R; cbn -[sqrt PI]. apply Rabs_le. lra.
Qed.
Print Assumptions C122_nondegenerate_32_partial.
Example C122_ex : close fermi_12_antia (1 / 2) (1 / 1000000) (-1) /\ close fermi_32_antia (3 / 2) (1 / 1000000) (-2).
Proof. split; [exact (proj1 (proj2 (C122_nondegenerate (-1) ltac:(lra))))|exact (C122_nondegenerate_32_partial (-2) ltac:(lra))]. Qed.

(** the value, zero for nan *)
Definition val (o : option R) : R := match o with Some v => v | None => 0 end.
Lemma G_pos m : 0 < sqrt PI /\ 0 < (INR m + 1 / 2) * sqrt PI.
Proof. assert (0 < sqrt PI) by (pose proof sqrt_PI_approx; lra). split; [assumption|]. apply Rmult_lt_0_compat; [|assumption]. pose proof (pos_INR m). lra. Qed.
Lemma fit_m x : fermi_neg12_antia x = Some (fitf qa_neg12 qb_neg12 qc_neg12 qd_neg12 0 (sqrt PI) x).
Proof. destruct prims as (P0 & _). unfold fermi_neg12_antia. replace (-1 / 2) with (INR 0 - 1 / 2) by (cbn [INR]; field). apply (fit_total qa_neg12 qb_neg12 qc_neg12 qd_neg12 (-1) 0 _ _ x) with (2 := P0); [vm_compute; reflexivity|apply (G_pos 0)]. Qed.
Lemma fit_1 x : fermi_12_antia x = Some (fitf qa_12 qb_12 qc_12 qd_12 1 (1 / 2 * sqrt PI) x).
Proof. destruct prims as (_ & (P & HP) & _). pose proof (G_pos 0) as [H _]. unfold fermi_12_antia. replace (1 / 2) with (INR 1 - 1 / 2) at 1 by (cbn [INR]; field). apply (fit_total qa_12 qb_12 qc_12 qd_12 1 1 _ _ x) with (2 := HP); [vm_compute; reflexivity|lra]. Qed.
Lemma fit_3 x : fermi_32_antia x = Some (fitf qa_32 qb_32 qc_32 qd_32 2 (3 / 4 * sqrt PI) x).
Proof. destruct prims as (_ & _ & (P & HP) & _). pose proof (G_pos 0) as [H _]. unfold fermi_32_antia. replace (3 / 2) with (INR 2 - 1 / 2) at 1 by (cbn [INR]; field). apply (fit_total qa_32 qb_32 qc_32 qd_32 1 2 _ _ x) with (2 := HP); [vm_compute; reflexivity|lra]. Qed.
Lemma fit_5 x : fermi_52_antia x = Some (fitf qa_52 qb_52 qc_52 qd_52 3 (15 / 8 * sqrt PI) x).
Proof. destruct prims as (_ & _ & _ & (P & HP)). pose proof (G_pos 0) as [H _]. unfold fermi_52_antia. replace (5 / 2) with (INR 3 - 1 / 2) at 1 by (cbn [INR]; field). apply (fit_total qa_52 qb_52 qc_52 qd_52 1 3 _ _ x) with (2 := HP); [vm_compute; reflexivity|lra]. Qed.

(** the fits are positive everywhere *)
Theorem C122_positive : forall x fit, In fit [fermi_neg12_antia; fermi_12_antia; fermi_32_antia; fermi_52_antia] -> exists v, fit x = Some v /\ 0 < v.
Proof.
  intros x fit Hf. pose proof (G_pos 0) as [H _]. destruct Hf as [<-|[<-|[<-|[<-|[]]]]]; eexists; (split; [apply fit_m || apply fit_1 || apply fit_3 || apply fit_5|]).
  - apply fit_pos with (-1)%Q; try (vm_compute; reflexivity). exact H.
  - apply fit_pos with 1%Q; try (vm_compute; reflexivity). lra.
  - apply fit_pos with 1%Q; try (vm_compute; reflexivity). lra.
  - apply fit_pos with 1%Q; try (vm_compute; reflexivity). lra.
Qed.
Print Assumptions C122_positive.
(** *** refutation *)
Lemma pow_IG n P G x k : prim n P G -> (0 < k)%nat -> IG (fun t => Rpower t n * exp (x - t) ^ k) (G * (exp x ^ k / Rpower (INR k) (n + 1))).
Proof.
  intros HP Hk. assert (0 < INR k) as HN by (apply lt_0_INR; lia). pose proof (prim_scaled n P G (INR k) HP HN) as H. apply (is_RInt_gen_scal _ (exp x ^ k)) in H. unfold scal in H; cbn -[pow INR] in H. unfold mult in H; cbn -[pow INR] in H.
  replace (G * (exp x ^ k / Rpower (INR k) (n + 1))) with (exp x ^ k * (G / Rpower (INR k) (n + 1))) by (field; apply Rgt_not_eq, exp_pos). apply is_RInt_gen_ext with (2 := H). apply filter_forall. intros ab t _. cbn beta. unfold Rminus. rewrite exp_plus, Rpow_mult_distr.
  assert (exp (- (INR k * t)) = exp (- t) ^ k) as -> by (rewrite <- exp_pow_n; f_equal; ring). apply eq_R. ring.
Qed.
(** with b_7 = 199.5 instead of 0.01995 the fit of order 3/2 is less than a third of the integral near the end of its branch *)
Theorem C122_order_32_refuted : exists x v, x < 2 /\ fermi_32_antia x = Some v /\ 3 * v < fermi_integral x (3 / 2).
Proof.
  exists (ln 7). eexists. assert (ln 7 < 2) as L7. { rewrite <- (ln_exp 2). apply ln_increasing; [lra|]. pose proof exp2_approx as [H _]. unfold Q2R in H; cbn in H. lra. }
  split; [exact L7|]. split; [apply fit_3|]. unfold fitf. destruct (Rlt_dec (ln 7) 2) as [_|N]; [|contradiction]. unfold low. rewrite exp_ln by lra.
  destruct prims as (_ & _ & (P & HP) & _). pose proof (G_pos 0) as [H0 _]. set (G := 3 / 4 * sqrt PI) in *. assert (0 < G) as HG by (unfold G; lra).
  destruct (fermi_series _ P G (ln 7) 0 HP ltac:(lra)) as (F & HF & _).
  assert (IG (fun t => 15 / 64 * (Rpower t (INR 2 - 1 / 2) * exp (ln 7 - t) ^ 1) - 1 / 64 * (Rpower t (INR 2 - 1 / 2) * exp (ln 7 - t) ^ 2)) (15 / 64 * (G * (7 ^ 1 / Rpower (INR 1) (INR 2 - 1 / 2 + 1))) - 1 / 64 * (G * (7 ^ 2 / Rpower (INR 2) (INR 2 - 1 / 2 + 1))))) as HL.
  { pose proof (pow_IG _ P G (ln 7) 1 HP ltac:(lia)) as H1. pose proof (pow_IG _ P G (ln 7) 2 HP ltac:(lia)) as H2. rewrite exp_ln in H1, H2 by lra. exact (is_RInt_gen_minus _ _ _ _ (is_RInt_gen_scal _ (15 / 64) _ H1) (is_RInt_gen_scal _ (1 / 64) _ H2)). }
  assert (15 / 64 * (G * (7 ^ 1 / Rpower (INR 1) (INR 2 - 1 / 2 + 1))) - 1 / 64 * (G * (7 ^ 2 / Rpower (INR 2) (INR 2 - 1 / 2 + 1))) <= F) as B.
  { refine (IG_le _ _ _ _ _ HL HF). intros t Ht. unfold fterm. replace (t - ln 7) with (- (ln 7 - t)) by ring. rewrite exp_Ropp. assert (0 < exp (ln 7 - t)) as U by apply exp_pos. set (w := exp (ln 7 - t)) in *. assert (0 < Rpower t (INR 2 - 1 / 2)) as R0 by apply exp_pos.
    replace (Rpower t (INR 2 - 1 / 2) / (/ w + 1)) with (15 / 64 * (Rpower t (INR 2 - 1 / 2) * w ^ 1) - 1 / 64 * (Rpower t (INR 2 - 1 / 2) * w ^ 2) + Rpower t (INR 2 - 1 / 2) * (w * (w - 7) ^ 2 / (64 * (1 + w)))) by (field; lra).
    assert (0 <= w * (w - 7) ^ 2 / (64 * (1 + w))). { apply Rmult_le_pos; [apply Rmult_le_pos; [lra|apply pow2_ge_0]|]. left. apply Rinv_0_lt_compat. lra. } pose proof (Rmult_le_pos _ _ (Rlt_le _ _ R0) H). lra. }
  assert (Rpower (INR 1) (INR 2 - 1 / 2 + 1) = 1) as E1 by (cbn [INR]; apply Rpower_one). rewrite E1 in B.
  assert (56 / 10 <= Rpower (INR 2) (INR 2 - 1 / 2 + 1)) as E2. { rewrite half_power. replace (INR 2) with 2 by (cbn; ring). assert (14 / 10 <= sqrt 2) by (rewrite <- (sqrt_pow2 (14 / 10)) by lra; apply sqrt_le_1_alt; lra). lra. }
  assert (/ Rpower (INR 2) (INR 2 - 1 / 2 + 1) <= / (56 / 10)) as E3 by (apply Rinv_le_contravar; lra). set (z := / Rpower (INR 2) (INR 2 - 1 / 2 + 1)) in *.
  assert (15 / 10 * G <= F) as B2. { eapply Rle_trans; [|exact B]. replace (15 / 64 * (G * (7 ^ 1 / 1)) - 1 / 64 * (G * (7 ^ 2 / Rpower (INR 2) (INR 2 - 1 / 2 + 1)))) with (105 / 64 * G - 1 / 64 * (G * (7 ^ 2 * z))) by (unfold z, Rdiv; rewrite Rinv_1; ring). assert (G * (7 ^ 2 * z) <= G * (7 ^ 2 * / (56 / 10))) by (apply Rmult_le_compat_l; [lra|]; apply Rmult_le_compat_l; lra). lra. }
  unfold fermi_integral. replace (3 / 2) with (INR 2 - 1 / 2) by (cbn [INR]; field). rewrite (gamma_prim _ _ _ HP).
  assert (RInt_gen (fun t : R => Rpower t (INR 2 - 1 / 2) / (exp (t - ln 7) + 1)) (at_right 0) (Rbar_locally p_infty) = F) as -> by (apply (is_RInt_gen_unique (V := R_CompleteNormedModule)); exact HF).
  unfold Rdiv at 1. rewrite <- Rmult_assoc. apply Rmult_lt_compat_r; [now apply Rinv_0_lt_compat|]. apply Rlt_le_trans with (15 / 10 * G); [|exact B2].
  assert (3 * (7 * (pe (rq qa_32) 7 / pe (rq qb_32) 7)) < 19 / 10) as V.
  { assert (7 = Q2R 7) as E7 by (unfold Q2R; cbn; lra). rewrite E7, !pe_val. assert (0 < Q2R (pval qb_32 7)) by (apply Qpos_R; vm_compute; reflexivity).
    rewrite <- Q2R_div by (intros E; apply Qeq_eqR in E; rewrite Q2R_0 in E; lra). replace 3 with (Q2R 3) by (unfold Q2R; cbn; lra). rewrite <- !Q2R_mult. replace (19 / 10) with (Q2R (19 # 10)) by (unfold Q2R; cbn; field). apply not_le. vm_compute. reflexivity. }
  pose proof sqrt_PI_approx. unfold G. lra.
Qed.
Print Assumptions C122_order_32_refuted.
Lemma val_m x : val (fermi_neg12_antia x) = fitf qa_neg12 qb_neg12 qc_neg12 qd_neg12 0 (sqrt PI) x. Proof. now rewrite fit_m. Qed.
Lemma val_1 x : val (fermi_12_antia x) = fitf qa_12 qb_12 qc_12 qd_12 1 (1 / 2 * sqrt PI) x. Proof. now rewrite fit_1. Qed.
Lemma val_3 x : val (fermi_32_antia x) = fitf qa_32 qb_32 qc_32 qd_32 2 (3 / 4 * sqrt PI) x. Proof. now rewrite fit_3. Qed.
Lemma val_5 x : val (fermi_52_antia x) = fitf qa_52 qb_52 qc_52 qd_52 3 (15 / 8 * sqrt PI) x. Proof. now rewrite fit_5. Qed.
Lemma sP0 : 0 < sqrt PI. Proof. exact (proj1 (G_pos 0)). Qed.

(** ** C123: the two branches of the fits *)
(** the branches meet at x = 2 *)
Definition meets (fit : R -> option R) (eps : R) : Prop :=
  exists l, filterlim (fun x => val (fit x)) (at_left 2) (locally l) /\ Rabs (l - val (fit 2)) <= eps * val (fit 2).
Theorem C123_step : meets fermi_neg12_antia (1 / 100000000000) /\ meets fermi_12_antia (1 / 100000000000) /\ meets fermi_52_antia (1 / 100000000000).
Proof.
  pose proof sP0 as H. replace (1 / 100000000000) with (Q2R (1 # 100000000000)) by (unfold Q2R; cbn; field). split; [|split].
  - exists (low qa_neg12 qb_neg12 (sqrt PI) 2). split.
    + eapply filterlim_ext; [intros x; symmetry; apply val_m|]. apply fit_left. vm_compute; reflexivity.
    + rewrite val_m. apply fit_step with (-1)%Q; [vm_compute; reflexivity|vm_compute; reflexivity|exact H|unfold Q2R; cbn; lra].
  - exists (low qa_12 qb_12 (1 / 2 * sqrt PI) 2). split.
    + eapply filterlim_ext; [intros x; symmetry; apply val_1|]. apply fit_left. vm_compute; reflexivity.
    + rewrite val_1. apply fit_step with 1%Q; [vm_compute; reflexivity|vm_compute; reflexivity|lra|unfold Q2R; cbn; lra].
  - exists (low qa_52 qb_52 (15 / 8 * sqrt PI) 2). split.
    + eapply filterlim_ext; [intros x; symmetry; apply val_5|]. apply fit_left. vm_compute; reflexivity.
    + rewrite val_5. apply fit_step with 1%Q; [vm_compute; reflexivity|vm_compute; reflexivity|lra|unfold Q2R; cbn; lra].
Qed.
Print Assumptions C123_step.

(** the order 3/2 jumps upwards by a factor of more than nine *)
Theorem C123_step_32_refuted : exists l, filterlim (fun x => val (fermi_32_antia x)) (at_left 2) (locally l) /\ 9 * l < val (fermi_32_antia 2).
Proof.
  pose proof sP0 as H. exists (low qa_32 qb_32 (3 / 4 * sqrt PI) 2). split.
  - eapply filterlim_ext; [intros x; symmetry; apply val_3|]. apply fit_left. vm_compute; reflexivity.
  - rewrite val_3. unfold fitf. destruct (Rlt_dec 2 2) as [L|_]; [lra|].
    destruct (low_two qa_32 qb_32 (3 / 4 * sqrt PI) ltac:(vm_compute; reflexivity) ltac:(vm_compute; reflexivity) ltac:(lra)) as [_ L2].
    destruct (high_two qc_32 qd_32 1 2 (3 / 4 * sqrt PI) ltac:(vm_compute; reflexivity) ltac:(vm_compute; reflexivity) ltac:(vm_compute; reflexivity) ltac:(lra)) as [H1 _].
    eapply Rle_lt_trans; [apply Rmult_le_compat_l; [lra|exact L2]|]. eapply Rlt_le_trans; [|exact H1]. unfold Rdiv. rewrite <- Rmult_assoc. apply Rmult_lt_compat_r; [apply Rinv_0_lt_compat; lra|].
    replace 9 with (Q2R 9) by (unfold Q2R; cbn; lra). rewrite <- Q2R_mult. apply not_le. vm_compute. reflexivity.
Qed.
Print Assumptions C123_step_32_refuted.

(** the Fermi integrals increase *)
Theorem C123_increasing : forall fit, In fit [fermi_neg12_antia; fermi_12_antia; fermi_52_antia] ->
  forall x y, x < y -> y < 2 \/ 2 <= x -> val (fit x) < val (fit y).
Proof.
  pose proof sP0 as H. intros fit Hf x y Hxy Hb.
  assert (forall a b c d s m G, hpos b = true -> low_incr a b = true -> Qpos (plow (pscal s d) quarter) = true -> Qpos (plow (hipol c d m) quarter) = true -> 0 < G -> fitf a b c d m G x < fitf a b c d m G y) as K.
  { intros a b c d s m G K1 K2 K3 K4 HG. unfold fitf. destruct Hb as [Hb|Hb].
    - destruct (Rlt_dec x 2) as [_|N]; [|lra]. destruct (Rlt_dec y 2) as [_|N]; [|lra]. now apply low_increasing.
    - destruct (Rlt_dec x 2) as [N|_]; [lra|]. destruct (Rlt_dec y 2) as [N|_]; [lra|]. now apply (high_increasing c d s). }
  destruct Hf as [<-|[<-|[<-|[]]]].
  - rewrite !val_m. apply (K qa_neg12 qb_neg12 qc_neg12 qd_neg12 (-1)%Q 0%nat); try (vm_compute; reflexivity). exact H.
  - rewrite !val_1. apply (K qa_12 qb_12 qc_12 qd_12 1%Q 1%nat); try (vm_compute; reflexivity). lra.
  - rewrite !val_5. apply (K qa_52 qb_52 qc_52 qd_52 1%Q 3%nat); try (vm_compute; reflexivity). lra.
Qed.
Print Assumptions C123_increasing.

(** Sommerfeld: F_n (x) -> x ^ (n + 1) / Gamma (n + 2) *)
Definition sommerfeld (fit : R -> option R) (n eps : R) : Prop :=
  exists l : R, is_lim (fun x => val (fit x) / Rpower x (n + 1)) p_infty l /\ Rabs (l * gamma (n + 2) - 1) <= eps.
Lemma somm (fit : R -> option R) a b c d s m G P c0 d0 c' d' : (forall x, val (fit x) = fitf a b c d m G x) -> prim (INR m - 1 / 2) P G -> 0 < G ->
  tot_check b c d s = true -> c = c0 :: c' -> d = d0 :: d' -> Qpos (s * d0) = true ->
  Qle_bool ((inject_Z (Z.of_nat m) + (1 # 2)) * c0 / d0 - 1) (1 # 100000000000) && Qle_bool (1 - (inject_Z (Z.of_nat m) + (1 # 2)) * c0 / d0) (1 # 100000000000) = true -> sommerfeld fit (INR m - 1 / 2) (1 / 100000000000).
Proof.
  intros Hv HP HG HT Ec Ed Hd HE. exists (Q2R c0 / Q2R d0 / G). split.
  - apply is_lim_ext with (fun x => fitf a b c d m G x / Rpower x (INR m - 1 / 2 + 1)); [intros x; now rewrite Hv|]. now apply (fit_degenerate a b c d s m G c0 d0 c' d').
  - replace (INR m - 1 / 2 + 2) with (INR m - 1 / 2 + 1 + 1) by ring. pose proof (pos_INR m). pose proof (prim_step _ _ _ HP ltac:(lra)) as HP'. rewrite (gamma_prim _ _ _ HP').
    apply Bool.andb_true_iff in HE. destruct HE as [E1 E2]. apply Q2R_le in E1, E2.
    assert (Q2R d0 <> 0) as D0. { apply Qpos_R in Hd. rewrite Q2R_mult in Hd. intros E. rewrite E in Hd. lra. }
    assert (Q2R (inject_Z (Z.of_nat m) + (1 # 2)) = INR m + 1 / 2) as EM. { rewrite Q2R_plus. unfold inject_Z, Q2R; cbn [Qnum Qden]. rewrite <- INR_IZR_INZ. field. }
    rewrite Q2R_minus, Q2R_div, Q2R_mult, EM in E1, E2 by (intros E; apply Qeq_eqR in E; rewrite Q2R_0 in E; contradiction).
    replace (Q2R c0 / Q2R d0 / G * ((INR m - 1 / 2 + 1) * G) - 1) with ((INR m + 1 / 2) * Q2R c0 / Q2R d0 - 1) by (field; lra).
    replace (Q2R 1) with 1 in * by (unfold Q2R; cbn; lra). replace (Q2R (1 # 100000000000)) with (1 / 100000000000) in * by (unfold Q2R; cbn; field). apply Rabs_le. lra.
Qed.
Theorem C123_degenerate : sommerfeld fermi_neg12_antia (-1 / 2) (1 / 100000000000) /\ sommerfeld fermi_12_antia (1 / 2) (1 / 100000000000)
  /\ sommerfeld fermi_32_antia (3 / 2) (1 / 100000000000) /\ sommerfeld fermi_52_antia (5 / 2) (1 / 100000000000).
Proof.
  pose proof sP0 as H. destruct prims as (P0 & (P1' & P1) & (P2' & P2) & (P3' & P3)).
  replace (-1 / 2) with (INR 0 - 1 / 2) by (cbn [INR]; field). replace (sommerfeld fermi_12_antia (1 / 2)) with (sommerfeld fermi_12_antia (INR 1 - 1 / 2)) by (f_equal; cbn [INR]; field).
  replace (3 / 2) with (INR 2 - 1 / 2) by (cbn [INR]; field). replace (5 / 2) with (INR 3 - 1 / 2) by (cbn [INR]; field). split; [|split; [|split]].
  - eapply somm with (s := (-1)%Q) (2 := P0); [exact val_m|exact H|vm_compute; reflexivity|reflexivity|reflexivity|vm_compute; reflexivity|vm_compute; reflexivity].
  - eapply somm with (s := 1%Q) (2 := P1); [exact val_1|lra|vm_compute; reflexivity|reflexivity|reflexivity|vm_compute; reflexivity|vm_compute; reflexivity].
  - eapply somm with (s := 1%Q) (2 := P2); [exact val_3|lra|vm_compute; reflexivity|reflexivity|reflexivity|vm_compute; reflexivity|vm_compute; reflexivity].
  - eapply somm with (s := 1%Q) (2 := P3); [exact val_5|lra|vm_compute; reflexivity|reflexivity|reflexivity|vm_compute; reflexivity|vm_compute; reflexivity].
Qed.
Print Assumptions C123_degenerate.
Example C123_ex : val (fermi_12_antia 3) < val (fermi_12_antia 4).
Proof. apply (C123_increasing fermi_12_antia); [right; left; reflexivity|lra|right; lra]. Qed.
