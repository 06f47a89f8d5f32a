(** Gamma function at half-integers and Fermi integrals as improper integrals. *)
From Coq Require Import Reals List Arith Lra Lia Psatz.
From Coquelicot Require Import Coquelicot.
From Verif Require Import M_Const M_PlasmaState M_Math L_Gauss L_FormFactorsFT.
Import ListNotations.
Open Scope R_scope.

Notation IG f l := (is_RInt_gen (V := R_NormedModule) f (at_right 0) (Rbar_locally p_infty) l).
Lemma at_right_pos : at_right 0 (fun a => 0 < a).
Proof. exists (mkposreal 1 Rlt_0_1). intros y _ Hy. exact Hy. Qed.
Lemma at_right_lt e : 0 < e -> at_right 0 (fun a => 0 < a < e).
Proof.
  intros He. exists (mkposreal e He). intros y Hb Hy. unfold ball in Hb; cbn in Hb. unfold AbsRing_ball, abs, minus, plus, opp in Hb; cbn in Hb. apply Rabs_def2 in Hb. lra.
Qed.
Lemma infty_gt e : Rbar_locally p_infty (fun b => e < b).
Proof. exists e. intros y Hy. exact Hy. Qed.
Lemma IG_unique f l1 l2 : IG f l1 -> IG f l2 -> l1 = l2.
Proof.
  intros H1 H2. rewrite <- (is_RInt_gen_unique (V := R_CompleteNormedModule) f l1 H1). apply (is_RInt_gen_unique (V := R_CompleteNormedModule)). exact H2.
Qed.
Lemma Rpower_derive n t : 0 < t -> is_derive (fun t => Rpower t n) t (n * Rpower t (n - 1)).
Proof. intros Ht. apply is_derive_Reals. now apply derivable_pt_lim_power. Qed.
Lemma Rpower_cont n t : 0 < t -> continuous (fun t => Rpower t n) t.
Proof. intros Ht. apply (ex_derive_continuous (fun t => Rpower t n)). eexists. now apply Rpower_derive. Qed.
Lemma exp_lin_cont c t : continuous (fun t => exp (c * t)) t.
Proof. apply (ex_derive_continuous (fun t => exp (c * t))). auto_derive. exact I. Qed.

Lemma IG_prim P f la lb : (forall t, 0 < t -> is_derive P t (f t)) -> (forall t, 0 < t -> continuous f t) ->
  filterlim P (at_right 0) (locally la) -> filterlim P (Rbar_locally p_infty) (locally lb) -> IG f (lb - la).
Proof.
  intros HD HC H0 H1. apply is_RInt_gen_ext with (f := Derive P).
  - apply (Filter_prod _ _ _ (fun a => 0 < a) (fun b => 0 < b)); [apply at_right_pos|apply infty_gt|]. intros a b Ha Hb x [Hx _]. cbn in Hx. apply is_derive_unique. apply HD. eapply Rlt_trans; [|exact Hx]. now apply Rmin_glb_lt.
  - apply is_RInt_gen_Derive; [| |exact H0|exact H1].
    + apply (Filter_prod _ _ _ (fun a => 0 < a) (fun b => 0 < b)); [apply at_right_pos|apply infty_gt|]. intros a b Ha Hb x [Hx _]. cbn in Hx. eexists. apply HD. eapply Rlt_le_trans; [|exact Hx]. now apply Rmin_glb_lt.
    + apply (Filter_prod _ _ _ (fun a => 0 < a) (fun b => 0 < b)); [apply at_right_pos|apply infty_gt|]. intros a b Ha Hb x [Hx _]. cbn in Hx. assert (0 < x) as Hp by (eapply Rlt_le_trans; [|exact Hx]; now apply Rmin_glb_lt).
      apply continuous_ext_loc with f; [|now apply HC]. exists (mkposreal x Hp). intros y Hy. unfold ball in Hy; cbn in Hy. unfold AbsRing_ball, abs, minus, plus, opp in Hy; cbn in Hy. apply Rabs_def2 in Hy. symmetry. apply is_derive_unique. apply HD. lra.
Qed.

(** [P] is a primitive of t^n e^-t, zero at the origin, [G] at infinity *)
Definition prim (n : R) (P : R -> R) (G : R) : Prop :=
  (forall t, 0 < t -> is_derive P t (Rpower t n * exp (- t))) /\ filterlim P (at_right 0) (locally 0) /\ filterlim P (Rbar_locally p_infty) (locally G).
Lemma scal_right k : 0 < k -> filterlim (fun t => k * t) (at_right 0) (at_right 0).
Proof.
  intros Hk Q [e HQ]. assert (0 < e / k) as He by (apply Rdiv_lt_0_compat; [apply cond_pos|exact Hk]). exists (mkposreal _ He). intros y Hb Hy. apply HQ; [|now apply Rmult_lt_0_compat].
  unfold ball in *; cbn in *. unfold AbsRing_ball, abs, minus, plus, opp in *; cbn in *. apply Rabs_def2 in Hb. apply Rabs_def1.
  - assert (k * y < k * (e / k)) by (apply Rmult_lt_compat_l; lra). replace (k * (e / k)) with (pos e) in H by (field; lra). lra.
  - assert (0 < k * y) by now apply Rmult_lt_0_compat. pose proof (cond_pos e). lra.
Qed.
Lemma scal_infty k : 0 < k -> filterlim (fun t => k * t) (Rbar_locally p_infty) (Rbar_locally p_infty).
Proof.
  intros Hk Q [M HQ]. exists (M / k). intros y Hy. apply HQ. assert (k * (M / k) < k * y) by (apply Rmult_lt_compat_l; lra). replace (k * (M / k)) with M in H by (field; lra). exact H.
Qed.
Lemma prim_scaled n P G k : prim n P G -> 0 < k -> IG (fun t => Rpower t n * exp (- (k * t))) (G / Rpower k (n + 1)).
Proof.
  intros (HD & H0 & H1) Hk. assert (0 < Rpower k (n + 1)) as Hp by apply exp_pos.
  replace (G / Rpower k (n + 1)) with (/ Rpower k (n + 1) * G - / Rpower k (n + 1) * 0) by (field; lra).
  apply (IG_prim (fun t => / Rpower k (n + 1) * P (k * t))).
  - intros t Ht. evar_last; [apply @is_derive_scal; apply (is_derive_comp P (fun t => k * t)); [apply HD; now apply Rmult_lt_0_compat|auto_derive; [exact I|reflexivity]]|].
    unfold scal; cbn. unfold mult; cbn. rewrite Rpower_plus, Rpower_1 by exact Hk. rewrite <- Rpower_mult_distr by assumption. field. split; [lra|]. apply Rgt_not_eq, exp_pos.
  - intros t Ht. apply (continuous_mult (fun t => Rpower t n) (fun t => exp (- (k * t)))); [now apply Rpower_cont|]. apply continuous_ext with (fun t => exp (- k * t)); [intros; f_equal; ring|apply exp_lin_cont].
  - apply (filterlim_comp _ _ _ (fun t => P (k * t)) (fun y => / Rpower k (n + 1) * y) _ (locally 0)); [|apply (continuous_mult (fun _ : R => / Rpower k (n + 1)) (fun y : R => y)); [apply continuous_const|apply continuous_id]].
    eapply filterlim_comp; [now apply scal_right|exact H0].
  - apply (filterlim_comp _ _ _ (fun t => P (k * t)) (fun y => / Rpower k (n + 1) * y) _ (locally G)); [|apply (continuous_mult (fun _ : R => / Rpower k (n + 1)) (fun y : R => y)); [apply continuous_const|apply continuous_id]].
    eapply filterlim_comp; [now apply scal_infty|exact H1].
Qed.
Lemma sqrt_right : filterlim sqrt (at_right 0) (locally 0).
Proof.
  apply filterlim_locally. intros e. assert (0 < e ^ 2) as He by (apply pow_lt; apply cond_pos). eapply filter_imp; [|apply (at_right_lt _ He)]. intros y Hy. cbn beta in Hy.
  unfold ball; cbn. unfold AbsRing_ball, abs, minus, plus, opp; cbn. rewrite Ropp_0, Rplus_0_r, Rabs_pos_eq by apply sqrt_pos. rewrite <- (sqrt_pow2 e) by (left; apply cond_pos). apply sqrt_lt_1_alt. lra.
Qed.
Lemma prim_base : prim (-1 / 2) (fun t => 2 * FF (sqrt t)) (sqrt PI).
Proof.
  split; [|split].
  - intros t Ht. pose proof (sqrt_lt_R0 t Ht) as Hs. evar_last; [apply @is_derive_scal; apply (is_derive_comp FF sqrt); [apply FF_derive|apply is_derive_sqrt; [apply @is_derive_id|exact Ht]]|].
    unfold scal, gf; cbn. unfold mult, one; cbn. rewrite Rmult_1_r, sqrt_sqrt by lra.
    assert (Rpower t (-1 / 2) = / sqrt t) as ->. { replace (-1 / 2) with (- / 2) by field. rewrite Rpower_Ropp, Rpower_sqrt by exact Ht. reflexivity. }
    field. lra.
  - replace (locally 0) with (locally (2 * FF 0)) by (f_equal; unfold FF; rewrite RInt_point; unfold zero; cbn; ring).
    apply (filterlim_comp _ _ _ sqrt (fun y => 2 * FF y) _ (locally 0)); [apply sqrt_right|].
    apply (ex_derive_continuous (fun y => 2 * FF y)). eexists. apply @is_derive_scal. apply FF_derive.
  - replace (sqrt PI) with (2 * (sqrt PI / 2)) by field. pose proof gauss_half as HG. apply (filterlim_comp _ _ _ (fun t => FF (sqrt t)) (fun y => 2 * y) _ (locally (sqrt PI / 2))).
    + eapply filterlim_comp; [|exact HG]. exact filterlim_sqrt_p.
    + apply (continuous_mult (fun _ : R => 2) (fun y : R => y)); [apply continuous_const|apply continuous_id].
Qed.
Lemma Rpower_right s : 0 < s -> filterlim (fun t => Rpower t s) (at_right 0) (locally 0).
Proof.
  intros Hs. apply filterlim_locally. intros e. pose proof (cond_pos e) as He. assert (0 < Rpower e (/ s)) as Hp by apply exp_pos. eapply filter_imp; [|apply (at_right_lt _ Hp)]. intros y Hy. cbn beta in Hy.
  unfold ball; cbn. unfold AbsRing_ball, abs, minus, plus, opp; cbn. rewrite Ropp_0, Rplus_0_r, Rabs_pos_eq by (left; apply exp_pos).
  replace (pos e) with (Rpower (Rpower e (/ s)) s). 2:{ rewrite Rpower_mult, Rinv_l by lra. now apply Rpower_1. }
  unfold Rpower at 1 2. apply exp_increasing. apply Rmult_lt_compat_l; [exact Hs|]. apply ln_increasing; lra.
Qed.
Lemma Rpower_exp_infty s : filterlim (fun t => Rpower t s * exp (- t)) (Rbar_locally p_infty) (locally 0).
Proof.
  destruct (nfloor_ex (Rabs s) (Rabs_pos s)) as [m [_ Hm]]. apply filterlim_locally. intros e. pose proof (cond_pos e) as He.
  set (K := INR (S (S m)) ^ S (S m)). assert (0 < INR (S (S m))) as Hm0 by (apply lt_0_INR; lia). assert (0 < K) as HK by (apply pow_lt; exact Hm0). exists (Rmax 1 (K / e)). intros t Ht.
  pose proof (Rmax_l 1 (K / e)). pose proof (Rmax_r 1 (K / e)). unfold ball; cbn. unfold AbsRing_ball, abs, minus, plus, opp; cbn. rewrite Ropp_0, Rplus_0_r.
  pose proof (exp_pos (- t)) as E. assert (0 < Rpower t s) as Hp by apply exp_pos. rewrite Rabs_pos_eq by (apply Rmult_le_pos; lra).
  assert (Rpower t s <= t ^ S m) as L. { rewrite <- Rpower_pow by lra. apply Rle_Rpower; [lra|]. rewrite S_INR. pose proof (RRle_abs s). lra. }
  pose proof (exp_ge_pow (S m) t ltac:(lra)) as U. assert ((t / INR (S (S m))) ^ S (S m) = t ^ S m * t / K) as EQ. { unfold K, Rdiv at 1. rewrite Rpow_mult_distr, pow_inv. cbn [pow]. field. split; [|lra]. apply pow_nonzero. lra. }
  rewrite EQ in U. assert (0 < t ^ S m) as Hq by (apply pow_lt; lra).
  apply Rle_lt_trans with (t ^ S m * exp (- t)); [apply Rmult_le_compat_r; lra|]. rewrite exp_Ropp. pose proof (exp_pos t).
  apply Rle_lt_trans with (t ^ S m * / (t ^ S m * t / K)).
  - apply Rmult_le_compat_l; [lra|]. apply Rinv_le_contravar; [|exact U]. apply Rdiv_lt_0_compat; [apply Rmult_lt_0_compat; lra|exact HK].
  - replace (t ^ S m * / (t ^ S m * t / K)) with (K / t) by (field; split; [|split]; lra). apply Rmult_lt_reg_r with t; [lra|]. unfold Rdiv. rewrite Rmult_assoc, Rinv_l by lra. assert (K / e < t) as L2 by lra. apply Rmult_lt_compat_l with (r := e) in L2; [|exact He]. replace (e * (K / e)) with K in L2 by (field; lra). lra.
Qed.
Lemma lim_comb (P Q : R -> R) F (HF : Filter F) (c lp lq : R) : filterlim P F (locally lp) -> filterlim Q F (locally lq) -> filterlim (fun t => c * P t - Q t) F (locally (c * lp - lq)).
Proof.
  intros H1 H2. assert (filterlim (fun t => c * P t) F (locally (c * lp))) as H3 by (apply (filterlim_comp _ _ _ P (fun y => c * y) _ (locally lp)); [exact H1|apply (continuous_mult (fun _ : R => c) (fun y : R => y)); [apply continuous_const|apply continuous_id]]).
  assert (filterlim (fun t => - Q t) F (locally (- lq))) as H4 by (apply (filterlim_comp _ _ _ Q (fun y => - y) _ (locally lq)); [exact H2|apply (filterlim_opp (V := R_NormedModule))]).
  apply (filterlim_comp_2 (I := locally (c * lp - lq)) (fun t => c * P t) (fun t => - Q t) Rplus H3 H4). exact (filterlim_plus (V := R_NormedModule) (c * lp) (- lq)).
Qed.
Lemma Rplus_pos1 n : -1 < n -> 0 < n + 1. Proof. lra. Qed.
Lemma prim_step n P G : prim n P G -> -1 < n -> prim (n + 1) (fun t => (n + 1) * P t - Rpower t (n + 1) * exp (- t)) ((n + 1) * G).
Proof.
  intros (HD & H0 & H1) Hn. split; [|split].
  - intros t Ht. evar_last; [apply @is_derive_minus; [apply @is_derive_scal; now apply HD|apply (is_derive_mult (fun t => Rpower t (n + 1)) (fun t => exp (- t))); [now apply Rpower_derive|auto_derive; [exact I|reflexivity]|intros; apply Rmult_comm]]|].
    unfold scal, minus, plus, opp, mult; cbn. unfold mult; cbn. replace (n + 1 - 1) with n by ring. ring.
  - assert (filterlim (fun t => exp (- t)) (at_right 0) (locally (exp (- 0)))) as HE.
    { assert (continuous (fun t => exp (- t)) 0) as HC by (apply (ex_derive_continuous (fun t => exp (- t)) 0); auto_derive; exact I). intros Q HQ. destruct (HC Q HQ) as [e He]. exists e. intros y Hb _. exact (He y Hb). }
    assert (filterlim (fun t => Rpower t (n + 1) * exp (- t)) (at_right 0) (locally (0 * exp (- 0)))) as HM.
    { apply (filterlim_comp_2 (I := locally (0 * exp (- 0))) (fun t => Rpower t (n + 1)) (fun t => exp (- t)) Rmult (Rpower_right (n + 1) (Rplus_pos1 n Hn)) HE). exact (filterlim_mult (K := R_AbsRing) 0 (exp (-0))). }
    pose proof (lim_comb _ _ _ _ (n + 1) 0 _ H0 HM) as H. replace ((n + 1) * 0 - 0 * exp (- 0)) with 0 in H by ring. exact H.
  - replace ((n + 1) * G) with ((n + 1) * G - 0) by ring. apply lim_comb; [apply filter_filter|exact H1|]. apply Rpower_exp_infty.
Qed.
Lemma Rpower_one a : Rpower 1 a = 1.
Proof. unfold Rpower. rewrite ln_1, Rmult_0_r. apply exp_0. Qed.
Lemma exp_pow_n x k : exp (INR k * x) = exp x ^ k.
Proof. induction k as [|k IH]; [cbn; rewrite Rmult_0_l; apply exp_0|]. rewrite S_INR. cbn [pow]. rewrite <- IH, <- exp_plus. f_equal. ring. Qed.
(** the values of the gamma function *)
Lemma gamma_prim n P G : prim n P G -> gamma (n + 1) = G.
Proof.
  intros HP. unfold gamma. apply (is_RInt_gen_unique (V := R_CompleteNormedModule)). pose proof (prim_scaled n P G 1 HP Rlt_0_1) as H. replace (G / Rpower 1 (n + 1)) with G in H by (rewrite Rpower_one; field).
  apply is_RInt_gen_ext with (2 := H). apply filter_forall. intros ab t _. cbn beta. replace (n + 1 - 1) with n by ring. f_equal. f_equal. ring.
Qed.
(** *** dominated convergence of the tails *)
Lemma IG_le f g (lf lg : R) : (forall t, 0 < t -> f t <= g t) -> IG f lf -> IG g lg -> lf <= lg.
Proof.
  intros H Hf Hg. pose proof (is_RInt_gen_minus _ _ _ _ Hg Hf) as HD. assert (IG (fun t => g t - f t) (lg - lf)) as HD' by exact HD. clear HD.
  assert (norm (lg - lf) <= lg - lf) as E.
  { apply (RInt_gen_norm (V := R_CompleteNormedModule) (Fa := at_right 0) (Fb := Rbar_locally p_infty) (fun t => g t - f t) (fun t => g t - f t) (lg - lf) (lg - lf)); try exact HD'.
    - apply (Filter_prod _ _ _ (fun a => 0 < a < 1) (fun b => 1 < b)); [apply at_right_lt; lra|apply infty_gt|]. intros a b Ha Hb. cbn. lra.
    - apply (Filter_prod _ _ _ (fun a => 0 < a) (fun b => True)); [apply at_right_pos|apply filter_true|]. intros a b Ha Hb t [Ht _]. cbn in Ht. unfold norm; cbn. unfold abs; cbn. specialize (H t ltac:(lra)). rewrite Rabs_pos_eq by lra. lra. }
  unfold norm in E; cbn in E. unfold abs in E; cbn in E. pose proof (Rabs_pos (lg - lf)). lra.
Qed.
Lemma cont_int f a b : (forall t, 0 < t -> continuous f t) -> 0 < a -> 0 < b -> ex_RInt (V := R_CompleteNormedModule) f a b.
Proof. intros HC Ha Hb. apply (ex_RInt_continuous (V := R_CompleteNormedModule)). intros t [Ht _]. apply HC. eapply Rlt_le_trans; [|exact Ht]. now apply Rmin_glb_lt. Qed.
Lemma IG_dom f g (lg : R) : (forall t, 0 < t -> continuous f t) -> (forall t, 0 < t -> continuous g t) -> (forall t, 0 < t -> 0 <= f t <= g t) -> IG g lg -> exists lf, IG f lf.
Proof.
  intros Cf Cg H Hg. set (J := fun h (ab : R * R) => RInt (V := R_CompleteNormedModule) h (fst ab) (snd ab)).
  assert (forall h a b, (forall t, 0 < t -> continuous h t) -> 0 < a -> 0 < b -> is_RInt h a b (RInt (V := R_CompleteNormedModule) h a b)) as HI by (intros h a b HC Ha Hb; apply (RInt_correct (V := R_CompleteNormedModule)); now apply cont_int).
  destruct (proj1 (filterlim_locally_cauchy (U := R_CompleteSpace) (F := filter_prod (at_right 0) (Rbar_locally p_infty)) (J f))) as [l Hl].
  - intros e. assert (0 < e / 4) as He by (pose proof (cond_pos e); lra). set (e4 := mkposreal _ He).
    pose proof (Hg (ball lg e4) (locally_ball lg e4)) as [Q1 Q2 F1 F2 HQ].
    exists (fun ab => (Q1 (fst ab) /\ 0 < fst ab < 1) /\ (Q2 (snd ab) /\ 1 < snd ab)). split.
    + apply (Filter_prod _ _ _ (fun a => Q1 a /\ 0 < a < 1) (fun b => Q2 b /\ 1 < b)); [apply filter_and; [exact F1|apply at_right_lt; lra]|apply filter_and; [exact F2|apply infty_gt]|]. intros a b Ha Hb. split; assumption.
    + assert (forall a b, Q1 a -> 0 < a -> Q2 b -> 0 < b -> Rabs (RInt (V := R_CompleteNormedModule) g a b - lg) < e / 4) as HB.
      { intros a b Ha Ha0 Hb Hb0. destruct (HQ a b Ha Hb) as [y [Hy1 Hy2]]. cbn in Hy1. rewrite (is_RInt_unique (V := R_CompleteNormedModule) g a b y Hy1). unfold ball in Hy2; cbn in Hy2. unfold AbsRing_ball, abs, minus, plus, opp in Hy2; cbn in Hy2. exact Hy2. }
      intros [a b] [a' b'] [[A1 A2] [B1 B2]] [[A1' A2'] [B1' B2']]. cbn [fst snd] in *. unfold ball; cbn. unfold AbsRing_ball, abs, minus, plus, opp, J; cbn [fst snd].
      assert (forall h, (forall t, 0 < t -> continuous h t) -> RInt (V := R_CompleteNormedModule) h a' b' - RInt (V := R_CompleteNormedModule) h a b = RInt (V := R_CompleteNormedModule) h a' a + RInt (V := R_CompleteNormedModule) h b b') as HC.
      { intros h Ch. rewrite <- (RInt_Chasles (V := R_CompleteNormedModule) h a' a b') by (apply cont_int; lra || assumption). rewrite <- (RInt_Chasles (V := R_CompleteNormedModule) h a b b') by (apply cont_int; lra || assumption). unfold plus; cbn. ring. }
      assert (forall p q, 0 < p -> 0 < q -> Rabs (RInt (V := R_CompleteNormedModule) f p q) <= Rabs (RInt (V := R_CompleteNormedModule) g p q)) as HP.
      { assert (forall p q, 0 < p -> p <= q -> 0 <= RInt (V := R_CompleteNormedModule) f p q <= RInt (V := R_CompleteNormedModule) g p q) as Ho.
        { intros p q Hp Hq. split.
          - apply RInt_ge_0; [exact Hq|apply cont_int; lra || assumption|]. intros t Ht. apply H. lra.
          - apply RInt_le; [exact Hq|apply cont_int; lra || assumption|apply cont_int; lra || assumption|]. intros t Ht. apply H. lra. }
        intros p q Hp Hq. destruct (Rle_dec p q) as [L|L].
        - destruct (Ho p q Hp L). rewrite !Rabs_pos_eq by lra. lra.
        - assert (RInt (V := R_CompleteNormedModule) f p q = - RInt (V := R_CompleteNormedModule) f q p) as -> by (symmetry; apply (opp_RInt_swap (V := R_CompleteNormedModule) f q p); apply cont_int; lra || assumption). assert (RInt (V := R_CompleteNormedModule) g p q = - RInt (V := R_CompleteNormedModule) g q p) as -> by (symmetry; apply (opp_RInt_swap (V := R_CompleteNormedModule) g q p); apply cont_int; lra || assumption). rewrite !Rabs_Ropp. destruct (Ho q p Hq (Rlt_le _ _ (Rnot_le_lt _ _ L))). rewrite !Rabs_pos_eq by lra. lra. }
      change (Rabs (RInt (V := R_CompleteNormedModule) f a' b' + - RInt (V := R_CompleteNormedModule) f a b) < e). fold (Rminus (RInt (V := R_CompleteNormedModule) f a' b') (RInt (V := R_CompleteNormedModule) f a b)).
      rewrite (HC f Cf). eapply Rle_lt_trans; [apply Rabs_triang|].
      pose proof (HP a' a ltac:(lra) ltac:(lra)) as U1. pose proof (HP b b' ltac:(lra) ltac:(lra)) as U2.
      pose proof (HB a b A1 ltac:(lra) B1 ltac:(lra)) as V1. pose proof (HB a' b A1' ltac:(lra) B1 ltac:(lra)) as V2. pose proof (HB a b' A1 ltac:(lra) B1' ltac:(lra)) as V3.
      assert (RInt (V := R_CompleteNormedModule) g a' b = RInt (V := R_CompleteNormedModule) g a' a + RInt (V := R_CompleteNormedModule) g a b) as W1 by (rewrite <- (RInt_Chasles (V := R_CompleteNormedModule) g a' a b) by (apply cont_int; lra || assumption); reflexivity).
      assert (RInt (V := R_CompleteNormedModule) g a b' = RInt (V := R_CompleteNormedModule) g a b + RInt (V := R_CompleteNormedModule) g b b') as W2 by (rewrite <- (RInt_Chasles (V := R_CompleteNormedModule) g a b b') by (apply cont_int; lra || assumption); reflexivity).
      apply Rabs_def2 in V1. apply Rabs_def2 in V2. apply Rabs_def2 in V3. assert (Rabs (RInt (V := R_CompleteNormedModule) g a' a) < e / 2) by (apply Rabs_def1; lra). assert (Rabs (RInt (V := R_CompleteNormedModule) g b b') < e / 2) by (apply Rabs_def1; lra). lra.
  - exists l. intros Q HQ. specialize (Hl Q HQ). destruct Hl as [Q1 Q2 F1 F2 HL]. apply (Filter_prod _ _ _ (fun a => Q1 a /\ 0 < a) (fun b => Q2 b /\ 0 < b)); [apply filter_and; [exact F1|apply at_right_pos]|apply filter_and; [exact F2|apply infty_gt]|].
    intros a b [Ha1 Ha2] [Hb1 Hb2]. exists (RInt (V := R_CompleteNormedModule) f a b). split; [now apply HI|]. exact (HL a b Ha1 Hb1).
Qed.

(** *** the series of the Fermi integral *)
Definition fterm (n x t : R) : R := Rpower t n / (exp (t - x) + 1).
(** partial sums of the series in the fugacity *)
Fixpoint fser (n y : R) (N : nat) : R := match N with O => 0 | S N' => fser n y N' + (-1) ^ N' * y ^ N / Rpower (INR N) (n + 1) end.
Lemma fterm_cont n x t : 0 < t -> continuous (fterm n x) t.
Proof.
  intros Ht. apply (continuous_mult (fun t => Rpower t n) (fun t => / (exp (t - x) + 1))); [now apply Rpower_cont|]. apply (ex_derive_continuous (fun t => / (exp (t - x) + 1))). auto_derive. pose proof (exp_pos (t - x)). unfold Rminus in *. lra.
Qed.
Lemma eq_R (x y : R) : x = y -> @eq (NormedModule.sort R_AbsRing R_NormedModule) x y. Proof. intros ->. reflexivity. Qed.
Fixpoint gser (u : R) (N : nat) : R := match N with O => 0 | S N' => gser u N' + (-1) ^ N' * u ^ N end.
Lemma gser_rest u N : 0 < u -> u / (1 + u) - gser u N = (-1) ^ N * (u ^ S N / (1 + u)).
Proof. intros Hu. induction N as [|N IH]; [cbn; field; lra|]. cbn [gser]. assert (u / (1 + u) - (gser u N + (-1) ^ N * u ^ S N) = (-1) ^ N * (u ^ S N / (1 + u)) - (-1) ^ N * u ^ S N) as -> by (rewrite <- IH; ring). cbn [pow]. field. lra. Qed.
Lemma IG_zero : IG (fun _ => 0) 0.
Proof.
  intros Q HQ. apply (Filter_prod _ _ _ (fun _ => True) (fun _ => True)); [apply filter_true|apply filter_true|]. intros a b _ _. cbn [fst snd]. exists 0. split; [|now apply locally_singleton]. pose proof (is_RInt_const (V := R_NormedModule) a b 0) as H. unfold scal in H; cbn in H. unfold mult in H; cbn in H. rewrite Rmult_0_r in H. exact H.
Qed.
Lemma gser_IG n P G x N : prim n P G -> IG (fun t => Rpower t n * gser (exp (x - t)) N) (G * fser n (exp x) N).
Proof.
  intros HP. induction N as [|N IH]; cbn [gser fser].
  - rewrite Rmult_0_r. apply is_RInt_gen_ext with (2 := IG_zero). apply filter_forall. intros ab t _. symmetry; apply Rmult_0_r.
  - assert (0 < INR (S N)) as HN by (apply lt_0_INR; lia). pose proof (prim_scaled n P G (INR (S N)) HP HN) as H. apply (is_RInt_gen_scal _ ((-1) ^ N * exp x ^ S N)) in H.
    pose proof (is_RInt_gen_plus _ _ _ _ IH H) as H2. unfold plus, scal in H2; cbn -[pow INR] in H2. unfold mult in H2; cbn -[pow INR] in H2.
    replace (G * (fser n (exp x) N + (-1) ^ N * exp x ^ S N / Rpower (INR (S N)) (n + 1))) with (G * fser n (exp x) N + (-1) ^ N * exp x ^ S N * (G / Rpower (INR (S N)) (n + 1))) by (field; apply Rgt_not_eq, exp_pos).
    apply is_RInt_gen_ext with (2 := H2). apply filter_forall. intros ab t _. cbn beta. unfold Rminus. rewrite exp_plus, Rpow_mult_distr.
    assert (exp (- (INR (S N) * t)) = exp (- t) ^ S N) as -> by (rewrite <- exp_pow_n; f_equal; ring). apply eq_R. ring.
Qed.
Lemma fermi_series n P G x N : prim n P G -> 0 <= G ->
  exists F : R, IG (fterm n x) F /\ Rabs (F - G * fser n (exp x) N) <= G * (exp x ^ S N / Rpower (INR (S N)) (n + 1)).
Proof.
  intros HP HG. assert (forall t, fterm n x t = Rpower t n * (exp (x - t) / (1 + exp (x - t)))) as EQ.
  { intros t. unfold fterm. replace (t - x) with (- (x - t)) by ring. rewrite exp_Ropp. pose proof (exp_pos (x - t)). field. lra. }
  assert (forall t, 0 < Rpower t n) as RP by (intros; apply exp_pos).
  assert (forall k : nat, (0 < k)%nat -> IG (fun t => Rpower t n * exp (x - t) ^ k) (G * (exp x ^ k / Rpower (INR k) (n + 1)))) as HK.
  { intros k Hk. assert (0 < INR k) as HN by (apply lt_0_INR; lia). pose proof (prim_scaled n P G (INR k) HP HN) as H. apply (is_RInt_gen_scal _ (exp x ^ k)) in H. unfold scal in H; cbn -[pow INR] in H. unfold mult in H; cbn -[pow INR] in H.
    replace (G * (exp x ^ k / Rpower (INR k) (n + 1))) with (exp x ^ k * (G / Rpower (INR k) (n + 1))) by (field; apply Rgt_not_eq, exp_pos). apply is_RInt_gen_ext with (2 := H). apply filter_forall. intros ab t _. cbn beta. unfold Rminus. rewrite exp_plus, Rpow_mult_distr.
    assert (exp (- (INR k * t)) = exp (- t) ^ k) as -> by (rewrite <- exp_pow_n; f_equal; ring). apply eq_R. ring. }
  destruct (IG_dom (fterm n x) (fun t => Rpower t n * exp (x - t) ^ 1) (G * (exp x ^ 1 / Rpower (INR 1) (n + 1)))) as [F HF]; [intros t Ht; now apply fterm_cont| | |apply HK; lia|].
  - intros t Ht. apply (continuous_mult (fun t => Rpower t n) (fun t => exp (x - t) ^ 1)); [now apply Rpower_cont|]. apply (ex_derive_continuous (fun t => exp (x - t) ^ 1)). auto_derive. exact I.
  - intros t Ht. rewrite EQ. pose proof (exp_pos (x - t)) as E. pose proof (RP t) as E2. split.
    + apply Rmult_le_pos; [lra|]. left. apply Rdiv_lt_0_compat; lra.
    + apply Rmult_le_compat_l; [lra|]. rewrite pow_1. apply Rmult_le_reg_r with (1 + exp (x - t)); [lra|]. unfold Rdiv. rewrite Rmult_assoc, Rinv_l by lra. nra.
  - exists F. split; [exact HF|]. pose proof (gser_IG n P G x N HP) as HS. pose proof (HK (S N) ltac:(lia)) as HR.
    pose proof (is_RInt_gen_minus _ _ _ _ HF HS) as HD. assert (IG (fun t => fterm n x t - Rpower t n * gser (exp (x - t)) N) (F - G * fser n (exp x) N)) as HD' by exact HD. clear HD.
    assert (forall t, Rabs (fterm n x t - Rpower t n * gser (exp (x - t)) N) <= Rpower t n * exp (x - t) ^ S N) as B.
    { intros t. rewrite EQ, <- Rmult_minus_distr_l, gser_rest by apply exp_pos. rewrite !Rabs_mult, pow_1_abs, Rmult_1_l, (Rabs_pos_eq (Rpower t n)) by (left; apply RP). apply Rmult_le_compat_l; [left; apply RP|].
      pose proof (exp_pos (x - t)) as E. pose proof (pow_lt _ (S N) E) as E2. rewrite Rabs_pos_eq by (left; apply Rdiv_lt_0_compat; lra). apply Rmult_le_reg_r with (1 + exp (x - t)); [lra|]. unfold Rdiv. rewrite Rmult_assoc, Rinv_l by lra. nra. }
    apply Rabs_le. split.
    + assert (IG (fun t => - (Rpower t n * exp (x - t) ^ S N)) (- (G * (exp x ^ S N / Rpower (INR (S N)) (n + 1))))) as HRo by exact (is_RInt_gen_opp _ _ HR). eapply IG_le; [|exact HRo|exact HD']. intros t Ht. pose proof (B t) as Bt. apply Rabs_le_between in Bt. lra.
    + eapply IG_le; [|exact HD'|exact HR]. intros t Ht. pose proof (B t) as Bt. apply Rabs_le_between in Bt. lra.
Qed.
