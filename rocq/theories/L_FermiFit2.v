(** The two branches of the fits: definedness, limits, monotony, the step between them. *)
From Coq Require Import Reals List Arith ZArith QArith Qreals Lra Lia Psatz.
From Coquelicot Require Import Coquelicot.
From Verif Require Import M_Const M_PlasmaState M_Math L_Poly L_Fermi L_FermiFit.
Import ListNotations.
Open Scope R_scope.

(** *** bounds of the exponential function *)
Fixpoint rf (n : nat) : R := match n with O => 1 | S k => INR n * rf k end.
Fixpoint etay (n : nat) (x : R) : R := match n with O => 1 | S k => etay k x + x ^ n / rf n end.
Lemma rf_pos n : 0 < rf n. Proof. induction n as [|n IH]; cbn [rf]; [lra|]. apply Rmult_lt_0_compat; [apply lt_0_INR; lia|exact IH]. Qed.
Lemma pow_fact_derive n x : is_derive (fun x => x ^ S n / rf (S n)) x (x ^ n / rf n).
Proof.
  pose proof (rf_pos n). assert (0 < INR (S n)) by (apply lt_0_INR; lia). apply is_derive_ext with (fun x => / rf (S n) * x ^ S n); [intros; unfold Rdiv; apply Rmult_comm|].
  evar_last; [apply @is_derive_scal; apply (is_derive_pow (fun x => x) (S n) x 1); apply @is_derive_id|]. cbn [rf Nat.pred]. unfold scal; cbn -[INR pow]. unfold mult; cbn -[INR pow]. field. lra.
Qed.
Lemma etay_derive n x : is_derive (etay (S n)) x (etay n x).
Proof.
  induction n as [|n IH].
  - cbn [etay]. evar_last; [apply @is_derive_plus; [apply @is_derive_const|apply (pow_fact_derive 0)]|]. unfold plus, zero; cbn. field.
  - change (is_derive (fun x => etay (S n) x + x ^ S (S n) / rf (S (S n))) x (etay n x + x ^ S n / rf (S n))). apply @is_derive_plus; [exact IH|apply pow_fact_derive].
Qed.
Lemma grow (f df : R -> R) b : (forall x, 0 <= x <= b -> is_derive f x (df x)) -> (forall x, 0 <= x <= b -> 0 <= df x) -> f 0 = 0 -> forall x, 0 <= x <= b -> 0 <= f x.
Proof.
  intros HD HP H0 x Hx. destruct (MVT_gen f 0 x df) as (c & Hc & E).
  - intros c Hc. apply HD. rewrite Rmin_left, Rmax_right in Hc by lra. lra.
  - intros c Hc. apply derivable_continuous_pt. exists (df c). apply is_derive_Reals. apply HD. rewrite Rmin_left, Rmax_right in Hc by lra. lra.
  - rewrite Rmin_left, Rmax_right in Hc by lra. rewrite H0 in E. pose proof (Rmult_le_pos (df c) (x - 0) (HP c ltac:(lra)) ltac:(lra)). lra.
Qed.
Lemma etay_0 n : etay n 0 = 1.
Proof. induction n as [|n IH]; [reflexivity|]. cbn [etay]. rewrite IH, pow_ne_zero by lia. unfold Rdiv. ring. Qed.
Lemma exp_derive x : is_derive exp x (exp x). Proof. apply is_derive_Reals, derivable_pt_lim_exp. Qed.
Lemma exp_low n b x : 0 <= x <= b -> 0 <= exp x - etay n x.
Proof.
  revert x. induction n as [|n IH]; intros x Hx.
  - cbn. pose proof (exp_ineq1_le x). lra.
  - apply (grow (fun x => exp x - etay (S n) x) (fun x => exp x - etay n x) b); [| |rewrite etay_0, exp_0; ring|exact Hx].
    + intros t Ht. apply @is_derive_minus; [apply exp_derive|apply etay_derive].
    + intros t Ht. now apply IH.
Qed.
Lemma exp_up n b x : 0 <= x <= b -> 0 <= exp b * (x ^ S n / rf (S n)) - (exp x - etay n x).
Proof.
  revert x. induction n as [|n IH]; intros x Hx.
  - apply (grow (fun x => exp b * (x ^ 1 / rf 1) - (exp x - etay 0 x)) (fun x => exp b - exp x) b); [| |cbn; rewrite exp_0; field|exact Hx].
    + intros t Ht. cbn [etay]. evar_last; [apply @is_derive_minus; [apply @is_derive_scal; apply (pow_fact_derive 0)|apply @is_derive_minus; [apply exp_derive|apply @is_derive_const]]|]. unfold minus, plus, opp, zero, scal; cbn. unfold mult; cbn. field.
    + intros t [_ Ht]. destruct Ht as [Ht| ->]; [|lra]. apply exp_increasing in Ht. lra.
  - apply (grow (fun x => exp b * (x ^ S (S n) / rf (S (S n))) - (exp x - etay (S n) x)) (fun x => exp b * (x ^ S n / rf (S n)) - (exp x - etay n x)) b); [| |rewrite etay_0, exp_0, pow_ne_zero by lia; unfold Rdiv; ring|exact Hx].
    + intros t Ht. apply @is_derive_minus; [apply @is_derive_scal; apply pow_fact_derive|apply @is_derive_minus; [apply exp_derive|apply etay_derive]].
    + intros t Ht. now apply IH.
Qed.
Fixpoint qf (n : nat) : Q := match n with O => 1%Q | S k => Qred (inject_Z (Z.of_nat n) * qf k) end.
Fixpoint qetay (n : nat) (x : Q) : Q := match n with O => 1%Q | S k => Qred (qetay k x + Qpower x (Z.of_nat n) / qf n) end.
Lemma Q2R_1 : Q2R 1 = 1. Proof. unfold Q2R; cbn; lra. Qed.
Lemma qf_rf n : Q2R (qf n) = rf n.
Proof. induction n as [|n IH]; [apply Q2R_1|]. cbn [qf rf]. rewrite Q2R_red, Q2R_mult, Q2R_inj, IH, INR_IZR_INZ. reflexivity. Qed.
Lemma qf_nz n : ~ (qf n == 0)%Q.
Proof. intros E. apply Qeq_eqR in E. rewrite qf_rf, Q2R_0 in E. pose proof (rf_pos n). lra. Qed.
Lemma qetay_etay n x : Q2R (qetay n x) = etay n (Q2R x).
Proof. induction n as [|n IH]; [apply Q2R_1|]. cbn [qetay etay]. rewrite Q2R_red, Q2R_plus, Q2R_div, IH, qf_rf by apply qf_nz. rewrite Q2R_pow. reflexivity. Qed.
(** e^2 *)
Lemma exp2_approx : Q2R (73890560989306 # 10000000000000) <= exp 2 <= Q2R (73890560989307 # 10000000000000).
Proof.
  pose proof (exp_low 24 2 2 ltac:(lra)) as L. pose proof (exp_up 24 2 2 ltac:(lra)) as U.
  assert (exp 2 <= 9) as B. { replace 2 with (1 + 1) by ring. rewrite exp_plus. pose proof exp_le_3. pose proof (exp_pos 1). nra. }
  assert (2 = Q2R 2) as E2 by (unfold Q2R; cbn; lra). assert (etay 24 2 = Q2R (qetay 24 2)) as ET by (rewrite qetay_etay, <- E2; reflexivity). rewrite ET in L, U.
  assert (0 < 2 ^ 25 / rf 25) as P by (apply Rdiv_lt_0_compat; [apply pow_lt; lra|apply rf_pos]).
  assert (exp 2 * (2 ^ 25 / rf 25) <= Q2R (9 * (Qpower 2 (Z.of_nat 25) / qf 25))) as U2.
  { rewrite Q2R_mult, Q2R_div, Q2R_pow, qf_rf, <- E2 by apply qf_nz. replace (Q2R 9) with 9 by (unfold Q2R; cbn; lra). apply Rmult_le_compat_r; lra. }
  split.
  - apply Rle_trans with (Q2R (qetay 24 2)); [apply Q2R_le; vm_compute; reflexivity|lra].
  - apply Rle_trans with (Q2R (qetay 24 2 + 9 * (Qpower 2 (Z.of_nat 25) / qf 25))); [rewrite Q2R_plus; lra|apply Q2R_le; vm_compute; reflexivity].
Qed.

(** *** the branches *)
Definition low (a b : list Q) (G x : R) : R := exp x * (pe (rq a) (exp x) / pe (rq b) (exp x)) / G.
Definition high (c d : list Q) (m : nat) (G x : R) : R := Rpower x (INR m - 1 / 2 + 1) * (pe (rq c) (/ x ^ 2) / pe (rq d) (/ x ^ 2)) / G.
Definition fitf (a b c d : list Q) (m : nat) (G x : R) : R := if Rlt_dec x 2 then low a b G x else high c d m G x.
Definition Qpos (q : Q) : bool := negb (Qle_bool q 0).
Lemma Qpos_R q : Qpos q = true -> 0 < Q2R q. Proof. intros H. apply not_le in H. now rewrite Q2R_0 in H. Qed.
Definition hpos (b : list Q) : bool := match b with [] => false | b0 :: b' => Qpos b0 && ppos b' end.
Lemma hpos_pos b x : hpos b = true -> 0 <= x -> 0 < pe (rq b) x.
Proof. destruct b as [|b0 b']; [discriminate|]. intros H Hx. apply Bool.andb_true_iff in H. destruct H as [H1 H2]. apply Qpos_R in H1. pose proof (pe_head b0 b' x H2 Hx). lra. Qed.
Lemma hpos_ppos b : hpos b = true -> ppos b = true.
Proof.
  destruct b as [|b0 b']; [discriminate|]. intros H. apply Bool.andb_true_iff in H. destruct H as [H1 H2]. cbn. destruct (Qlt_le_dec b0 0) as [L|L]; [|exact H2]. apply Qpos_R in H1. apply Qlt_Rlt in L. rewrite Q2R_0 in L. lra.
Qed.
Definition quarter : Q := 1 # 4.
Lemma w_range x : 2 <= x -> 0 < / x ^ 2 <= Q2R quarter.
Proof.
  intros Hx. assert (4 <= x ^ 2) by nra. split; [apply Rinv_0_lt_compat; lra|]. unfold Q2R; cbn [quarter Qnum Qden]. rewrite Rmult_1_l. now apply Rinv_le_contravar; [lra|].
Qed.
Lemma sign_frac s c d x : Q2R s <> 0 -> pe (rq d) x <> 0 -> pe (rq (pscal s c)) x / pe (rq (pscal s d)) x = pe (rq c) x / pe (rq d) x.
Proof. intros Hs Hd. rewrite !pe_scal. field. split; assumption. Qed.
Definition tot_check (b c d : list Q) (s : Q) : bool := hpos b && Qpos (plow (pscal s d) quarter) && Qpos (s * s).
Lemma sq_nz s : Qpos (s * s) = true -> Q2R s <> 0.
Proof. intros H E. apply Qpos_R in H. rewrite Q2R_mult, E in H. lra. Qed.
Lemma d_nz d s x : Qpos (plow (pscal s d) quarter) = true -> 2 <= x -> 0 < pe (rq (pscal s d)) (/ x ^ 2) /\ pe (rq d) (/ x ^ 2) <> 0.
Proof.
  intros H Hx. destruct (w_range x Hx) as [W1 W2]. pose proof (pe_low (pscal s d) (/ x ^ 2) quarter ltac:(lra)) as L. apply Qpos_R in H. split; [lra|]. intros E. rewrite pe_scal, E in L. lra.
Qed.
Lemma fit_total a b c d s m P G x : tot_check b c d s = true -> prim (INR m - 1 / 2) P G -> 0 < G ->
  F_n x (rq a) (rq b) (rq c) (rq d) (INR m - 1 / 2) = Some (fitf a b c d m G x).
Proof.
  intros HC HP HG. unfold tot_check in HC. rewrite !Bool.andb_true_iff in HC. destruct HC as [[H1 H2] _]. unfold F_n, fitf. rewrite (gamma_prim _ _ _ HP). destruct (Rlt_dec x 2) as [L|L].
  - rewrite R1_pe. pose proof (hpos_pos b (exp x) H1 ltac:(left; apply exp_pos)). rewrite qdiv_some by lra. cbn [obind]. rewrite qdiv_some by lra. reflexivity.
  - destruct (d_nz d s x H2 ltac:(lra)) as [_ Hd]. rewrite R1_pe, qdiv_some by exact Hd. cbn [obind]. rewrite qdiv_some by lra. reflexivity.
Qed.
(** positive *)
Lemma fit_pos a b c d s m G x : tot_check b c d s = true -> hpos a = true -> Qpos (plow (pscal s c) quarter) = true -> 0 < G -> 0 < fitf a b c d m G x.
Proof.
  intros HC Ha Hc HG. unfold tot_check in HC. rewrite !Bool.andb_true_iff in HC. destruct HC as [[H1 H2] H3]. unfold fitf. destruct (Rlt_dec x 2) as [L|L].
  - unfold low. pose proof (exp_pos x) as E. pose proof (hpos_pos b (exp x) H1 ltac:(lra)). pose proof (hpos_pos a (exp x) Ha ltac:(lra)). apply Rdiv_lt_0_compat; [|exact HG]. apply Rmult_lt_0_compat; [exact E|]. now apply Rdiv_lt_0_compat.
  - unfold high. destruct (d_nz d s x H2 ltac:(lra)) as [Hd Hd0]. destruct (d_nz c s x Hc ltac:(lra)) as [Hc1 _]. apply Rdiv_lt_0_compat; [|exact HG]. apply Rmult_lt_0_compat; [apply exp_pos|]. rewrite <- (sign_frac s) by (exact Hd0 || now apply sq_nz). now apply Rdiv_lt_0_compat.
Qed.
(** the degenerate limit *)
Lemma inv_sq_lim : is_lim (fun x => / x ^ 2) p_infty 0.
Proof.
  apply (is_lim_ext_loc (fun x => / (x * x))); [exists 0; intros; f_equal; ring|]. replace (Finite 0) with (Rbar_inv p_infty) by reflexivity. apply is_lim_inv; [|discriminate]. replace p_infty with (Rbar_mult p_infty p_infty) by reflexivity. apply is_lim_mult; [apply is_lim_id|apply is_lim_id|exact I].
Qed.
Lemma fit_degenerate a b c d s m G c0 d0 c' d' : tot_check b c d s = true -> 0 < G -> c = c0 :: c' -> d = d0 :: d' -> Qpos (s * d0) = true ->
  is_lim (fun x => fitf a b c d m G x / Rpower x (INR m - 1 / 2 + 1)) p_infty (Q2R c0 / Q2R d0 / G).
Proof.
  intros HC HG Ec Ed Hd0. unfold tot_check in HC. rewrite !Bool.andb_true_iff in HC. destruct HC as [[H1 H2] H3].
  apply (is_lim_ext_loc (fun x => pe (rq c) (/ x ^ 2) / pe (rq d) (/ x ^ 2) / G)).
  - exists 2. intros x Hx. unfold fitf. destruct (Rlt_dec x 2) as [L|L]; [lra|]. unfold high. destruct (d_nz d s x H2 ltac:(lra)) as [_ Hd]. field. split; [|split]; [exact Hd|lra|apply Rgt_not_eq, exp_pos].
  - assert (continuous (fun w => pe (rq c) w / pe (rq d) w / G) 0) as HCt.
    { assert (pe (rq d) 0 <> 0). { rewrite Ed. cbn. rewrite Rmult_0_l, Rplus_0_r. apply Qpos_R in Hd0. rewrite Q2R_mult in Hd0. intros E. rewrite E in Hd0. lra. }
      apply (ex_derive_continuous (fun w => pe (rq c) w / pe (rq d) w / G)). eexists. apply is_derive_ext with (fun w => / G * (pe (rq c) w / pe (rq d) w)); [intros; unfold Rdiv; apply Rmult_comm|]. apply @is_derive_scal. now apply frac_derive. }
    replace (Q2R c0 / Q2R d0 / G) with ((fun w => pe (rq c) w / pe (rq d) w / G) 0) by (rewrite Ec, Ed; cbn; rewrite !Rmult_0_l, !Rplus_0_r; reflexivity).
    apply (filterlim_comp _ _ _ (fun x => / x ^ 2) (fun w => pe (rq c) w / pe (rq d) w / G) _ (locally 0)); [exact inv_sq_lim|exact HCt].
Qed.
(** growth *)
Lemma incr_on (f df : R -> R) x y : x < y -> (forall t, x <= t <= y -> is_derive f t (df t)) -> (forall t, x <= t <= y -> 0 < df t) -> f x < f y.
Proof.
  intros Hxy HD HP. destruct (MVT_gen f x y df) as (c & Hc & E).
  - intros c Hc. apply HD. rewrite Rmin_left, Rmax_right in Hc by lra. lra.
  - intros c Hc. apply derivable_continuous_pt. exists (df c). apply is_derive_Reals. apply HD. rewrite Rmin_left, Rmax_right in Hc by lra. lra.
  - rewrite Rmin_left, Rmax_right in Hc by lra. pose proof (Rmult_lt_0_compat (df c) (y - x) (HP c ltac:(lra)) ltac:(lra)). lra.
Qed.
Definition low_incr (a b : list Q) : bool := hpos (padd (pmul a b) (0%Q :: pwron a b)).
Lemma low_increasing a b G x y : hpos b = true -> low_incr a b = true -> 0 < G -> x < y -> low a b G x < low a b G y.
Proof.
  intros Hb HW HG Hxy. unfold low. apply Rmult_lt_compat_r; [now apply Rinv_0_lt_compat|]. apply (incr_on (fun y => y * (pe (rq a) y / pe (rq b) y)) (fun y => pe (rq (padd (pmul a b) (0%Q :: pwron a b))) y / pe (rq b) y ^ 2)).
  - now apply exp_increasing.
  - intros t Ht. pose proof (exp_pos x). pose proof (hpos_pos b t Hb ltac:(lra)) as Bp. evar_last; [apply (is_derive_mult (fun y : R => y)); [apply @is_derive_id|apply frac_derive; lra|intros; apply Rmult_comm]|].
    unfold plus, mult, one; cbn [NormedModule.sort]; cbn. rewrite pe_add, pe_mul. cbn [rq map pe]. rewrite Q2R_0. fold (rq (pwron a b)). field. lra.
  - intros t Ht. pose proof (exp_pos x). pose proof (hpos_pos b t Hb ltac:(lra)) as Bp. apply Rdiv_lt_0_compat; [apply hpos_pos; [exact HW|lra]|now apply pow_lt].
Qed.
Definition hipol (c d : list Q) (m : nat) : list Q := padd (pscal (inject_Z (Z.of_nat m) + (1 # 2)) (pmul c d)) (pscal (-2) (0%Q :: pwron c d)).
Lemma high_increasing c d s m G x y : Qpos (plow (pscal s d) quarter) = true -> Qpos (plow (hipol c d m) quarter) = true -> 0 < G -> 2 <= x -> x < y -> high c d m G x < high c d m G y.
Proof.
  intros Hd HW HG Hx Hxy. unfold high. apply Rmult_lt_compat_r; [now apply Rinv_0_lt_compat|].
  apply (incr_on (fun x => Rpower x (INR m - 1 / 2 + 1) * (pe (rq c) (/ x ^ 2) / pe (rq d) (/ x ^ 2))) (fun x => Rpower x (INR m - 1 / 2 + 1 - 1) * pe (rq (hipol c d m)) (/ x ^ 2) / pe (rq d) (/ x ^ 2) ^ 2)); [exact Hxy| |].
  - intros t Ht. destruct (d_nz d s t Hd ltac:(lra)) as [_ D0].
    evar_last; [apply (is_derive_mult (fun x => Rpower x (INR m - 1 / 2 + 1)) (fun x => pe (rq c) (/ x ^ 2) / pe (rq d) (/ x ^ 2))); [apply Rpower_derive; lra|apply (is_derive_comp (fun w => pe (rq c) w / pe (rq d) w) (fun x => / x ^ 2)); [now apply frac_derive|auto_derive; [|reflexivity]]|intros; apply Rmult_comm]|].
    + apply Rgt_not_eq. nra.
    + unfold plus, mult, scal; cbn [NormedModule.sort]; cbn -[pow INR]. unfold mult; cbn -[pow INR]. unfold hipol. rewrite pe_add, !pe_scal, pe_mul. cbn [rq map pe]. rewrite Q2R_0, Q2R_plus, Q2R_inj, <- INR_IZR_INZ. fold (rq (pwron c d)).
      set (W := pe (rq (pwron c d)) (/ t ^ 2)). set (C := pe (rq c) (/ t ^ 2)) in *. set (D := pe (rq d) (/ t ^ 2)) in *. replace (Q2R (1 # 2)) with (/ 2) by (unfold Q2R; cbn; ring). replace (Q2R (-2)) with (-2) by (unfold Q2R; cbn; lra).
      assert (Rpower t (INR m - 1 / 2 + 1) = t * Rpower t (INR m - 1 / 2 + 1 - 1)) as ->. { replace (INR m - 1 / 2 + 1) with (1 + (INR m - 1 / 2 + 1 - 1)) at 1 by ring. rewrite Rpower_plus, Rpower_1 by lra. reflexivity. }
      set (Rp := Rpower t (INR m - 1 / 2 + 1 - 1)). field. split; [lra|exact D0].
  - intros t Ht. destruct (d_nz d s t Hd ltac:(lra)) as [_ D0]. destruct (w_range t ltac:(lra)) as [W1 W2]. pose proof (pe_low (hipol c d m) (/ t ^ 2) quarter ltac:(lra)) as L. apply Qpos_R in HW.
    apply Rdiv_lt_0_compat; [apply Rmult_lt_0_compat; [apply exp_pos|lra]|]. apply pow2_gt_0. exact D0.
Qed.
(** the step between the branches *)
Lemma low_cont a b G x : hpos b = true -> continuous (low a b G) x.
Proof.
  intros Hb. unfold low. apply (continuous_mult (fun x => exp x * (pe (rq a) (exp x) / pe (rq b) (exp x))) (fun _ => / G)); [|apply continuous_const].
  apply (continuous_mult exp (fun x => pe (rq a) (exp x) / pe (rq b) (exp x))); [apply continuous_exp|]. apply (continuous_comp exp (fun y => pe (rq a) y / pe (rq b) y)); [apply continuous_exp|].
  apply (ex_derive_continuous (fun y => pe (rq a) y / pe (rq b) y)). eexists. apply frac_derive. apply Rgt_not_eq. apply hpos_pos; [exact Hb|left; apply exp_pos].
Qed.
Lemma fit_left a b c d m G : hpos b = true -> filterlim (fitf a b c d m G) (at_left 2) (locally (low a b G 2)).
Proof.
  intros Hb Q HQ. destruct (low_cont a b G 2 Hb Q HQ) as [e He]. exists e. intros y Hy Hl. unfold fitf. destruct (Rlt_dec y 2) as [_|N]; [now apply He|contradiction].
Qed.
Definition e1 : Q := 73890560989306 # 10000000000000.
Definition e2 : Q := 73890560989307 # 10000000000000.
Lemma low_two a b G : hpos a = true -> hpos b = true -> 0 < G ->
  Q2R (e1 * (pval a e1 / pval b e2)) / G <= low a b G 2 <= Q2R (e2 * (pval a e2 / pval b e1)) / G.
Proof.
  intros Ha Hb HG. destruct exp2_approx as [H1 H2]. fold e1 in H1. fold e2 in H2. assert (0 < Q2R e1) as E0 by (unfold e1, Q2R; cbn; lra).
  assert (forall e, 0 < Q2R e -> ~ (pval b e == 0)%Q) as NZ. { intros e He E. apply Qeq_eqR in E. rewrite <- pe_val, Q2R_0 in E. pose proof (hpos_pos b (Q2R e) Hb ltac:(lra)). lra. }
  rewrite !Q2R_mult, !Q2R_div, <- !pe_val by (apply NZ; lra). unfold low.
  pose proof (hpos_pos a (Q2R e1) Ha ltac:(lra)). pose proof (hpos_pos b (Q2R e1) Hb ltac:(lra)). pose proof (hpos_pos a (exp 2) Ha ltac:(lra)). pose proof (hpos_pos b (exp 2) Hb ltac:(lra)).
  pose proof (pe_mono a (Q2R e1) (exp 2) (hpos_ppos _ Ha) ltac:(lra)). pose proof (pe_mono a (exp 2) (Q2R e2) (hpos_ppos _ Ha) ltac:(lra)). pose proof (pe_mono b (Q2R e1) (exp 2) (hpos_ppos _ Hb) ltac:(lra)). pose proof (pe_mono b (exp 2) (Q2R e2) (hpos_ppos _ Hb) ltac:(lra)).
  split; (apply Rmult_le_compat_r; [left; now apply Rinv_0_lt_compat|]); (apply Rmult_le_compat; try lra); [left; apply Rdiv_lt_0_compat; lra| |left; apply Rdiv_lt_0_compat; lra|];
  (apply Rmult_le_compat; try lra); try (left; apply Rinv_0_lt_compat; lra); apply Rinv_le_contravar; lra.
Qed.
Lemma high_two c d s m G : Qpos (plow (pscal s d) quarter) = true -> Qpos (plow (pscal s c) quarter) = true -> Qpos (s * s) = true -> 0 < G ->
  let r := (Qpower 2 (Z.of_nat m) * (pval (pscal s c) quarter / pval (pscal s d) quarter))%Q in
  Q2R (rt 2 * r) / G <= high c d m G 2 <= Q2R ((rt 2 + d12) * r) / G.
Proof.
  intros Hd Hc Hs HG r. destruct (d_nz d s 2 Hd ltac:(lra)) as [D1 D2]. destruct (d_nz c s 2 Hc ltac:(lra)) as [C1 _]. unfold high. rewrite <- (sign_frac s) by (exact D2 || now apply sq_nz).
  assert (/ 2 ^ 2 = Q2R quarter) as Eq by (unfold quarter, Q2R; cbn; field). rewrite Eq in *. rewrite !pe_val in *.
  assert (~ (pval (pscal s d) quarter == 0)%Q) as NZ. { intros E. apply Qeq_eqR in E. rewrite Q2R_0 in E. lra. }
  unfold r. rewrite !Q2R_mult, Q2R_plus, Q2R_d12, Q2R_div, Q2R_pow by exact NZ. replace (Q2R 2) with 2 by (unfold Q2R; cbn; lra).
  assert (Rpower 2 (INR m - 1 / 2 + 1) = 2 ^ m * sqrt 2) as ->. { replace (INR m - 1 / 2 + 1) with (INR m + / 2) by field. rewrite Rpower_plus, Rpower_pow, Rpower_sqrt by lra. reflexivity. }
  destruct (rt_approx 2) as [R1 R2]. set (q := Q2R (pval (pscal s c) quarter) / Q2R (pval (pscal s d) quarter)). assert (0 < 2 ^ m * q) as P. { apply Rmult_lt_0_compat; [apply pow_lt; lra|]. now apply Rdiv_lt_0_compat. }
  assert (0 < / G) by now apply Rinv_0_lt_compat. unfold Rdiv at 1 2 3. rewrite (Rmult_comm (2 ^ m) (sqrt 2)), (Rmult_assoc (sqrt 2)). split; apply Rmult_le_compat_r; try lra; apply Rmult_le_compat_r; lra.
Qed.
Definition step_check (a b c d : list Q) (s : Q) (m : nat) (eps : Q) : bool :=
  let r := (Qpower 2 (Z.of_nat m) * (pval (pscal s c) quarter / pval (pscal s d) quarter))%Q in
  let h1 := Qred (rt 2 * r) in let h2 := Qred ((rt 2 + d12) * r) in
  let l1 := Qred (e1 * (pval a e1 / pval b e2)) in let l2 := Qred (e2 * (pval a e2 / pval b e1)) in
  hpos a && Qpos (plow (pscal s c) quarter) && Qle_bool (l2 - h1) (eps * h1) && Qle_bool (h2 - l1) (eps * h1).
Lemma fit_step a b c d s m G eps : tot_check b c d s = true -> step_check a b c d s m eps = true -> 0 < G -> 0 <= Q2R eps ->
  Rabs (low a b G 2 - fitf a b c d m G 2) <= Q2R eps * fitf a b c d m G 2.
Proof.
  intros HT HC HG He. unfold tot_check in HT. rewrite !Bool.andb_true_iff in HT. destruct HT as [[T1 T2] T3]. unfold step_check in HC. cbv zeta in HC. rewrite !Bool.andb_true_iff in HC. destruct HC as [[[C1 C2] C3] C4].
  unfold fitf. destruct (Rlt_dec 2 2) as [L|_]; [lra|]. destruct (low_two a b G C1 T1 HG) as [L1 L2]. destruct (high_two c d s m G T2 C2 T3 HG) as [H1 H2].
  apply Q2R_le in C3, C4. unfold Qminus in C3, C4. rewrite Q2R_plus, Q2R_opp, Q2R_mult in C3, C4. rewrite !Q2R_red in C3. rewrite !Q2R_red in C4. 
  set (x1 := Q2R (e1 * (pval a e1 / pval b e2))) in *. set (x2 := Q2R (e2 * (pval a e2 / pval b e1))) in *. set (r := (Qpower 2 (Z.of_nat m) * (pval (pscal s c) quarter / pval (pscal s d) quarter))%Q) in *. set (y1 := Q2R (rt 2 * r)) in *. set (y2 := Q2R ((rt 2 + d12) * r)) in *.
  assert (0 < / G) as G1 by now apply Rinv_0_lt_compat. unfold Rdiv in *. assert (Q2R eps * (y1 * / G) <= Q2R eps * high c d m G 2) as U by (apply Rmult_le_compat_l; lra).
  assert ((x2 + - y1) * / G <= Q2R eps * y1 * / G) as V1 by (apply Rmult_le_compat_r; lra). assert ((y2 + - x1) * / G <= Q2R eps * y1 * / G) as V2 by (apply Rmult_le_compat_r; lra). set (Gi := / G) in *. clearbody x1 x2 y1 y2 Gi. apply Rabs_le. lra.
Qed.
