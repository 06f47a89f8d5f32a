(** Properties C40, C41 and C74-C76: static structure factors. *)
From Coq Require Import Reals List Lra Arith.
From Coquelicot Require Import Coquelicot.
From Verif Require Import M_Const M_PlasmaState L_PlasmaState M_PlasmaPhysics L_PlasmaPhysics M_StaticSF L_StaticSF L_DebyeWaller M_Helpers L_Helpers.
Import ListNotations.
Open Scope R_scope.

Lemma sq_pos x : x <> 0 -> 0 < x ^ 2.
Proof. intros H. rewrite <- Rsqr_pow2. now apply Rlt_0_sqr. Qed.

(** ** C40 *)
Theorem C40_equal_temperatures : forall u k T n_e m_i Z,
  0 < k -> 0 < T -> 0 < n_e -> 0 < m_i -> 0 < Z ->
  let S_ii := S_ii_AD u k T T n_e m_i Z in
  let S_ee := S_ee_AD u k T T n_e m_i Z in
  let S_ei := S_ei_AD u k T T n_e m_i Z in
  0 < S_ii < 1 /\ 0 < S_ee < 1 /\ 0 < S_ei /\
  (** positive definite *)
  (forall v w, (v <> 0 \/ w <> 0) -> 0 < S_ii * v ^ 2 + 2 * S_ei * v * w + S_ee * w ^ 2).
Proof.
  intros u k T ne mi Z Hk HT Hn Hm HZ S_ii S_ee S_ei.
  pose proof (eq_S_ii u k T ne mi Z Hk HT Hn Hm HZ) as H1. pose proof (eq_S_ee u k T ne mi Z Hk HT Hn Hm HZ) as H2.
  pose proof (eq_det u k T ne mi Z Hk HT Hn Hm HZ) as H3. pose proof (eq_Delta_pos u k T ne mi Z Hk HT Hn Hm HZ) as HD.
  fold S_ii in H1, H3. fold S_ee in H2, H3. fold S_ei in H3.
  assert (Hd : 0 < S_ii * S_ee - S_ei ^ 2) by (rewrite H3; apply Rdiv_lt_0_compat; [apply pow_lt; assumption|assumption]).
  split; [assumption|]. split; [assumption|]. split.
  - unfold S_ei. rewrite Delta_eq in HD by assumption. rewrite S_ei_eq, T_ei_equal by (assumption || lra). cpos u.
    pose proof (c_pos' u k T T mi Hk HT HT Hm) as Hc. pose proof (sqrt_lt_R0 _ HZ).
    set (c := / (1 + _)) in *. clearbody c. pos.
  - intros v w Hvw. assert (E : S_ii * (S_ii * v ^ 2 + 2 * S_ei * v * w + S_ee * w ^ 2) = (S_ii * v + S_ei * w) ^ 2 + (S_ii * S_ee - S_ei ^ 2) * w ^ 2) by ring.
    apply Rmult_lt_reg_l with S_ii; [lra|]. rewrite Rmult_0_r, E.
    pose proof (pow2_ge_0 (S_ii * v + S_ei * w)). destruct (Req_dec w 0) as [->|Hw].
    + destruct Hvw as [Hv|Hv]; [|lra]. assert (0 < (S_ii * v + S_ei * 0) ^ 2); [|lra].
      rewrite Rmult_0_r, Rplus_0_r. rewrite Rpow_mult_distr. apply Rmult_lt_0_compat; [apply pow_lt; lra|].
      now apply sq_pos.
    + assert (0 < w ^ 2) by (now apply sq_pos).
      assert (0 < (S_ii * S_ee - S_ei ^ 2) * w ^ 2) by (apply Rmult_lt_0_compat; assumption). lra.
Qed.
Print Assumptions C40_equal_temperatures.

(** the determinant is the bare one over the dispersion function *)
Theorem C40_determinant : forall u k T n_e m_i Z,
  0 < k -> 0 < T -> 0 < n_e -> 0 < m_i -> 0 < Z ->
  0 < Delta u k T T n_e m_i Z /\
  S_ii_AD u k T T n_e m_i Z * S_ee_AD u k T T n_e m_i Z - S_ei_AD u k T T n_e m_i Z ^ 2 = k ^ 4 / Delta u k T T n_e m_i Z.
Proof. intros. split; [now apply eq_Delta_pos|now apply eq_det]. Qed.
Print Assumptions C40_determinant.

(** with ions much colder than the electrons the ion-ion factor is negative *)
Theorem C40_cold_ions_refuted : forall u k T_e n_e m_i Z,
  0 < k -> 0 < T_e -> 0 < n_e -> 0 < m_i -> 0 < Z ->
  exists T0, 0 < T0 /\ forall T_i, 0 < T_i < T0 -> S_ii_AD u k T_e T_i n_e m_i Z < 0.
Proof.
  intros u k Te ne mi Z Hk HTe Hn Hm HZ. destruct (cold_ions u k Te ne mi Z Hk HTe Hn Hm HZ) as (T0 & H0 & H).
  exists T0. split; [assumption|]. intros Ti HTi. now apply H.
Qed.
Print Assumptions C40_cold_ions_refuted.

Example C40_ex : 0 < S_ii_AD unit_consts 1 2 2 3 1836 4 < 1 /\ exists T_i, 0 < T_i /\ S_ii_AD unit_consts 1 2 T_i 3 1836 4 < 0.
Proof.
  split; [apply C40_equal_temperatures; lra|].
  destruct (C40_cold_ions_refuted unit_consts 1 2 3 1836 4 ltac:(lra) ltac:(lra) ltac:(lra) ltac:(lra) ltac:(lra)) as (T0 & H0 & H).
  exists (T0 / 2). split; [lra|]. apply H. lra.
Qed.

(** ** C41 *)
Theorem C41_pair_temperature : forall T_r T_s m_r m_s, 0 < m_r -> 0 < m_s ->
  Rmin T_r T_s <= T_rs_Greg2006 T_r T_s m_r m_s <= Rmax T_r T_s /\
  T_rs_Greg2006 T_s T_r m_s m_r = T_rs_Greg2006 T_r T_s m_r m_s /\
  (T_r = T_s -> T_rs_Greg2006 T_r T_s m_r m_s = T_r) /\
  (** nearer to the temperature of the light particle *)
  (m_r < m_s -> T_r <> T_s -> Rabs (T_rs_Greg2006 T_r T_s m_r m_s - T_r) < Rabs (T_rs_Greg2006 T_r T_s m_r m_s - T_s)).
Proof.
  intros Tr Ts mr ms H1 H2. split; [now apply T_rs_between|]. unfold T_rs_Greg2006. split; [field; lra|]. split; [intros ->; field; lra|].
  intros Hm HT. replace ((ms * Tr + mr * Ts) / (mr + ms) - Tr) with (mr / (mr + ms) * (Ts - Tr)) by (field; lra).
  replace ((ms * Tr + mr * Ts) / (mr + ms) - Ts) with (- (ms / (mr + ms) * (Ts - Tr))) by (field; lra).
  rewrite Rabs_Ropp, !Rabs_mult. apply Rmult_lt_compat_r; [apply Rabs_pos_lt; lra|].
  rewrite !Rabs_pos_eq by (left; apply Rdiv_lt_0_compat; lra). apply Rdiv_lt_compat_r; lra.
Qed.
Print Assumptions C41_pair_temperature.

Theorem C41_quantum_temperatures : forall u T n_e T_D,
  0 <= T ->
  T <= T_i_eff_Greg T T_D /\ T_i_eff_Greg T 0 = T /\
  (forall T', T_cf_Greg u T n_e = Some T' -> T <= T') /\
  (** undefined exactly at one electron density *)
  (0 < n_e -> (T_cf_Greg u T n_e = None <-> wiegner_seitz_radius n_e = (13251 / 1779) ^ 2 * a_0 u)) /\
  (** finite at zero temperature: no classical collapse *)
  (0 < n_e -> forall T', T_cf_Greg u T n_e = Some T' -> 0 < T').
Proof.
  intros u T ne TD HT. cpos u. split; [now apply (T_i_eff_above u)|]. split.
  { unfold T_i_eff_Greg. replace (T ^ 2 + 3 / (2 * PI ^ 2) * 0 ^ 2) with (T ^ 2) by ring. now apply sqrt_pow2. }
  split; [|split].
  - intros T' H'. unfold T_cf_Greg in H'. destruct (qdiv _ _) as [tq|]; [|discriminate]. injection H' as <-. now apply sqrt_above.
  - intros Hn. assert (Hw : 0 < wiegner_seitz_radius ne) by apply Rpower_pos. unfold T_cf_Greg, qdiv.
    set (w := wiegner_seitz_radius ne) in *. assert (Hs : 0 < sqrt (w / a_0 u)) by (apply sqrt_lt_R0; pos).
    destruct (Req_EM_T _ 0) as [E|E]; split; intros Hx; try discriminate; try reflexivity.
    + assert (E' : sqrt (w / a_0 u) = 13251 / 1779) by lra. assert (E2 : (sqrt (w / a_0 u)) ^ 2 = (13251 / 1779) ^ 2) by (now rewrite E').
      rewrite pow2_sqrt in E2 by (left; pos). rewrite <- E2. field. lra.
    + exfalso. apply E. rewrite Hx. replace ((13251 / 1779) ^ 2 * a_0 u / a_0 u) with ((13251 / 1779) ^ 2) by (field; lra).
      rewrite sqrt_pow2 by lra. lra.
  - intros Hn T' H'. unfold T_cf_Greg in H'. destruct (qdiv _ _) as [tq|] eqn:E; [|discriminate]. injection H' as <-.
    unfold qdiv in E. destruct (Req_EM_T _ 0) as [|Hne]; [discriminate|]. injection E as <-. apply sqrt_lt_R0.
    set (d := 13251 / 10000 - _) in *. pose proof (pow2_ge_0 T).
    assert (Hf : 0 < fermi_energy u ne / kB u).
    { unfold fermi_energy. pose proof (Rpower_pos (3 * PI ^ 2 * ne) (2 / 3)). pos. }
    assert (0 < (fermi_energy u ne / kB u / d) ^ 2); [|lra].
    unfold Rdiv at 1. rewrite Rpow_mult_distr. apply Rmult_lt_0_compat; [now apply pow_lt|].
    now apply sq_pos, Rinv_neq_0_compat.
Qed.
Print Assumptions C41_quantum_temperatures.

Theorem C41_Bohm_Staver : forall u T_e n_e m_i Z, 0 < T_e -> 0 < n_e -> 0 < m_i -> 0 < Z ->
  let T_D := T_Debye_Bohm_Staver u T_e n_e m_i Z in
  let w := sqrt (Z * e_ch u ^ 2 * n_e / (eps0 u * m_i)) in
  (** below the ion plasma frequency *)
  0 < kB u * T_D < hbar u * w /\
  (kB u * T_D) ^ 2 * (1 + k_D_AD u T_e n_e 1 ^ 2 / Rpower (6 * PI ^ 2 * n_e / Z) (1 / 3) ^ 2) = (hbar u * w) ^ 2 /\
  (forall T', T_e < T' -> T_D < T_Debye_Bohm_Staver u T' n_e m_i Z).
Proof.
  intros u Te ne mi Z HTe Hn Hm HZ T_D w. cpos u.
  pose proof (Rpower_pos (6 * PI ^ 2 * ne / Z) (1 / 3)) as Hp.
  assert (Hw : 0 < w) by (apply sqrt_lt_R0; pos).
  assert (HT : 0 < T_D) by (now apply Bohm_Staver_pos).
  assert (Hk : forall T, 0 < T -> 0 < k_D_AD u T ne 1 ^ 2 / Rpower (6 * PI ^ 2 * ne / Z) (1 / 3) ^ 2).
  { intros T HT'. rewrite kD_sq by lra. pos. }
  pose proof (Hk Te HTe) as Hr.
  assert (E : (kB u * T_D) ^ 2 * (1 + k_D_AD u Te ne 1 ^ 2 / Rpower (6 * PI ^ 2 * ne / Z) (1 / 3) ^ 2) = (hbar u * w) ^ 2).
  { unfold T_D. rewrite Bohm_Staver_sq by assumption. fold w.
    set (r := k_D_AD u Te ne 1 ^ 2 / _) in *. unfold Rdiv. rewrite Rmult_assoc, Rinv_l by lra. ring. }
  split; [|split; [exact E|]].
  - split; [pos|]. apply Rsqr_incrst_0; [|left; pos|left; pos]. rewrite !Rsqr_pow2.
    set (r := k_D_AD u Te ne 1 ^ 2 / _) in *. rewrite <- E. assert (0 < (kB u * T_D) ^ 2 * r) by (clearbody r T_D; pos). lra.
  - intros T' HT'. assert (HTp : 0 < T_Debye_Bohm_Staver u T' ne mi Z) by (apply Bohm_Staver_pos; lra).
    apply Rmult_lt_reg_l with (kB u); [assumption|].
    apply Rsqr_incrst_0; [|left; pos|left; pos]. rewrite !Rsqr_pow2. unfold T_D. rewrite !Bohm_Staver_sq by lra. fold w.
    unfold Rdiv at 1 3. apply Rmult_lt_compat_l; [pos|]. apply Rinv_lt_contravar.
    + pose proof (Hk T' ltac:(lra)). apply Rmult_lt_0_compat; lra.
    + apply Rplus_lt_compat_l. apply Rdiv_lt_compat_r; [pos|]. rewrite !kD_sq by lra. unfold Rdiv. apply Rmult_lt_compat_l; [pos|].
      apply Rinv_lt_contravar; [pos|]. apply Rmult_lt_compat_l; [pos|assumption].
Qed.
Print Assumptions C41_Bohm_Staver.
Example C41_ex : T_rs_Greg2006 4 1 1 2 = 3 /\ 4 <= T_i_eff_Greg 4 3 /\ kB unit_consts * T_Debye_Bohm_Staver unit_consts 1 2 1836 4 < sqrt (4 * 1 ^ 2 * 2 / (1 * 1836)).
Proof.
  split; [unfold T_rs_Greg2006; field|]. split; [exact (proj1 (C41_quantum_temperatures unit_consts 4 1 3 ltac:(lra)))|].
  pose proof (C41_Bohm_Staver unit_consts 1 2 1836 4 ltac:(lra) ltac:(lra) ltac:(lra) ltac:(lra)) as H. cbv zeta in H.
  destruct H as [[_ H] _]. cbn [e_ch eps0 unit_consts hbar] in H. lra.
Qed.

(** ** C74: Debye-Waller factor *)
Definition dw u N_A k m theta T : R := nth 0 (debyeWallerFactor u N_A k m [theta] T) 0.
Theorem C74_probability : forall u N_A k m thetas T i,
  0 < N_A -> 0 < m -> 0 < T -> (forall t, In t thetas -> 0 < t) -> (i < length thetas)%nat ->
  0 < nth i (debyeWallerFactor u N_A k m thetas T) 0 <= 1 /\
  (nth i (debyeWallerFactor u N_A k m thetas T) 0 = 1 <-> k = 0).
Proof.
  intros u NA k m l T i HN Hm HT Hl Hi. rewrite dw_nth by assumption. cpos u. pose proof (planck_pos u).
  assert (Hne : l <> []) by (destruct l; [cbn in Hi; inversion Hi|discriminate]).
  pose proof (bracket_pos (mean l) T (mean_pos l Hne Hl) HT) as Hb. pose proof (Hl _ (nth_In l 0 Hi)) as Ht.
  set (b := bracket _ _) in *. set (th := nth i l 0) in *.
  assert (Hc : 0 < 3 * planck u ^ 2 * NA / (m * kB u * th)) by (clearbody th; pos).
  replace (3 * planck u ^ 2 * NA * (k / (2 * PI)) ^ 2 / (m * kB u * th) * b)
    with (3 * planck u ^ 2 * NA / (m * kB u * th) * b * (k / (2 * PI)) ^ 2) by (field; lra).
  set (c := _ / _) in Hc |- *. assert (Hcb : 0 < c * b) by (apply Rmult_lt_0_compat; lra).
  pose proof (pow2_ge_0 (k / (2 * PI))) as Hq. pose proof (Rmult_le_pos (c * b) _ (Rlt_le _ _ Hcb) Hq).
  split; [split; [apply exp_pos|rewrite <- exp_0]|].
  - destruct (Req_dec (c * b * (k / (2 * PI)) ^ 2) 0) as [->|Hn0]; [rewrite Ropp_0; lra|]. left. apply exp_increasing. lra.
  - split.
    + intros E. rewrite <- exp_0 in E. apply exp_inv in E. assert (E2 : (k / (2 * PI)) ^ 2 = 0).
      { assert (E3 : c * b * (k / (2 * PI)) ^ 2 = 0) by lra. apply Rmult_integral in E3. destruct E3; [lra|assumption]. }
      destruct (Req_dec k 0) as [|Hk0]; [assumption|exfalso]. revert E2. apply pow_nonzero. unfold Rdiv. apply Rmult_integral_contrapositive_currified; [assumption|].
      apply Rinv_neq_0_compat. lra.
    + intros ->. rewrite <- exp_0. f_equal. unfold Rdiv at 1. ring.
Qed.
Print Assumptions C74_probability.

Theorem C74_monotone : forall u N_A k m theta T,
  0 < N_A -> 0 < k -> 0 < m -> 0 < theta -> 0 < T ->
  (forall k', k < k' -> dw u N_A k' m theta T < dw u N_A k m theta T) /\
  (forall T', T < T' -> dw u N_A k m theta T' < dw u N_A k m theta T) /\
  (forall m', m < m' -> dw u N_A k m theta T < dw u N_A k m' theta T) /\
  (forall theta', theta < theta' -> dw u N_A k m theta T < dw u N_A k m theta' T).
Proof.
  intros u NA k m th T HN Hk Hm Hth HT. cpos u. pose proof (planck_pos u).
  assert (E : forall k m th T, dw u NA k m th T = exp (- (3 * planck u ^ 2 * NA * (k / (2 * PI)) ^ 2 / (m * kB u * th) * bracket th T))).
  { intros. unfold dw. rewrite dw_nth by (cbn; auto). cbn [nth]. now rewrite mean_single. }
  assert (Q : 0 < (k / (2 * PI)) ^ 2) by pos. pose proof (bracket_pos th T Hth HT) as Hb.
  split; [|split; [|split]].
  - intros k' Hk'. rewrite !E. apply exp_increasing, Ropp_lt_contravar.
    apply Rmult_lt_compat_r; [lra|]. apply Rdiv_lt_compat_r; [pos|]. apply Rmult_lt_compat_l; [pos|].
    assert (k / (2 * PI) < k' / (2 * PI)) by (apply Rdiv_lt_compat_r; lra).
    assert (Hk2 : 0 < k / (2 * PI)) by pos. rewrite <- !Rsqr_pow2. apply Rsqr_incrst_1; lra.
  - intros T' HT'. rewrite !E. apply exp_increasing, Ropp_lt_contravar. apply Rmult_lt_compat_l; [pos|]. now apply bracket_T.
  - intros m' Hm'. rewrite !E. apply exp_increasing, Ropp_lt_contravar. apply Rmult_lt_compat_r; [lra|]. unfold Rdiv at 1 3.
    apply Rmult_lt_compat_l; [pos|]. apply Rinv_lt_contravar; [pos|]. apply Rmult_lt_compat_r; [assumption|]. apply Rmult_lt_compat_r; assumption.
  - intros th' Hth'. rewrite !E. apply exp_increasing, Ropp_lt_contravar.
    pose proof (bracket_th th th' T HT Hth Hth'). pose proof (bracket_pos th' T ltac:(lra) HT).
    apply Rmult_gt_0_lt_compat; [lra|apply Rlt_gt; pos| |assumption].
    unfold Rdiv at 1 3. apply Rmult_lt_compat_l; [pos|]. apply Rinv_lt_contravar; [pos|]. apply Rmult_lt_compat_l; [pos|assumption].
Qed.
Print Assumptions C74_monotone.
Example C74_ex : 0 < nth 1 (debyeWallerFactor unit_consts 1 2 27 [3; 5] 4) 0 <= 1 /\ dw unit_consts 1 2 27 3 5 < dw unit_consts 1 2 27 3 4.
Proof.
  split.
  - apply C74_probability; try lra; [|cbn; auto]. intros t [<-|[<-|[]]]; lra.
  - now apply C74_monotone; lra.
Qed.

(** ** C75: the screening charge of Gregori.2004 is linear response to the
    electron-ion pseudopotential *)
Theorem C75_linear_response : forall u eps k T n_e m_i Z,
  0 < k -> 0 < T -> 0 < n_e -> 0 < m_i -> 0 < Z -> eps <> 0 ->
  q_Gregori2004 u eps k m_i n_e T T Z
  = (n_e / (kB u * T)) * (coulomb_k u Z 1 k / (1 + k ^ 2 * lambda_AD u T (m_e u) m_i ^ 2)) / eps.
Proof.
  intros u eps k T ne mi Z Hk HT Hn Hm HZ He. rewrite q_Gregori_equal by assumption. cpos u. unfold coulomb_k.
  pose proof (pow2_ge_0 (lambda_AD u T (m_e u) mi)) as Hl. set (l := lambda_AD u T (m_e u) mi ^ 2) in *.
  assert (0 < k ^ 2) by (now apply pow_lt). assert (0 <= k ^ 2 * l) by (apply Rmult_le_pos; lra).
  field. repeat split; lra.
Qed.
Print Assumptions C75_linear_response.
(** the screening charge of Glenzer.2009 from the same factors *)
Theorem C75_Glenzer_bounded : forall u k T n_e m_i Z,
  0 < k -> 0 < T -> 0 < n_e -> 0 < m_i -> 0 < Z ->
  0 < q_Glenzer2009 (S_ei_AD u k T T n_e m_i Z) (S_ii_AD u k T T n_e m_i Z) Z /\
  q_Glenzer2009 (S_ei_AD u k T T n_e m_i Z) (S_ii_AD u k T T n_e m_i Z) Z ^ 2 * S_ii_AD u k T T n_e m_i Z < Z * S_ee_AD u k T T n_e m_i Z.
Proof.
  intros u k T ne mi Z Hk HT Hn Hm HZ.
  destruct (C40_equal_temperatures u k T ne mi Z Hk HT Hn Hm HZ) as (H1 & H2 & H3 & _).
  destruct (C40_determinant u k T ne mi Z Hk HT Hn Hm HZ) as [HD Hd]. unfold q_Glenzer2009.
  assert (Hd0 : 0 < k ^ 4 / Delta u k T T ne mi Z) by (apply Rdiv_lt_0_compat; [now apply pow_lt|assumption]).
  set (Sii := S_ii_AD _ _ _ _ _ _ _) in *. set (See := S_ee_AD _ _ _ _ _ _ _) in *. set (Sei := S_ei_AD _ _ _ _ _ _ _) in *.
  pose proof (sqrt_lt_R0 _ HZ) as Hs. split; [apply Rdiv_lt_0_compat; [now apply Rmult_lt_0_compat|lra]|].
  replace ((sqrt Z * Sei / Sii) ^ 2 * Sii) with ((sqrt Z) ^ 2 * (Sei ^ 2 / Sii)) by (field; lra). rewrite pow2_sqrt by lra.
  apply Rmult_lt_compat_l; [assumption|]. apply Rmult_lt_reg_r with Sii; [lra|].
  unfold Rdiv. rewrite Rmult_assoc, Rinv_l by lra. lra.
Qed.
Print Assumptions C75_Glenzer_bounded.
Example C75_ex : q_Gregori2004 unit_consts 2 1 1836 3 2 2 4 = 3 / (1 * 2) * (coulomb_k unit_consts 4 1 1 / (1 + 1 ^ 2 * lambda_AD unit_consts 2 1 1836 ^ 2)) / 2.
Proof. apply (C75_linear_response unit_consts 2 1 2 3 1836 4); lra. Qed.

(** ** C76: charged hard spheres: the three factors fit together *)
Theorem C76_consistent : forall u k T_e T_i n_e Z n_i lfc,
  0 < k -> 0 < T_e -> 0 < n_e -> 0 < Z -> lfc < 1 ->
  exists S_ii S_ei S_ee,
  S_ii_CHS u k T_e T_i n_e Z n_i lfc = Some S_ii /\
  S_ei_CHS u k T_e T_i n_e Z n_i lfc = Some S_ei /\
  S_ee_CHS u k T_e T_i n_e Z n_i lfc = Some S_ee /\
  (** the determinant is the ionic factor times that of free electrons *)
  S_ii * S_ee - S_ei ^ 2 = S_ii * S_ee0 u k T_e n_e lfc /\
  0 < S_ee0 u k T_e n_e lfc < 1 /\
  (S_ii <> 0 -> q_Glenzer2009 S_ei S_ii Z = q_sc u k T_e n_e Z lfc) /\
  (** perfect screening: the screening charge lies between 0 and the free charge *)
  (0 <= lfc -> 0 < q_sc u k T_e n_e Z lfc) /\ (lfc = 0 -> q_sc u k T_e n_e Z lfc = Z * k_D_AD u T_e n_e 1 ^ 2 / (k ^ 2 + k_D_AD u T_e n_e 1 ^ 2)).
Proof.
  intros u k Te Ti ne Z ni lfc Hk HTe Hn HZ Hl.
  assert (E1 : exists Sii, S_ii_CHS u k Te Ti ne Z ni lfc = Some Sii).
  { unfold S_ii_CHS, sigma_CHS, bisection. cbv zeta.
    match goal with |- context [bisection_loop ?f ?t ?m ?i ?fu ?a ?b] => destruct (bis_terminates f t m i a b fu) as [[[p x] j] ->] end.
    - rewrite Nat.max_0_r. apply Nat.lt_succ_diag_r.
    - eexists. reflexivity. }
  destruct E1 as [Sii E1]. exists Sii, (q_sc u k Te ne Z lfc / sqrt Z * Sii), (q_sc u k Te ne Z lfc ^ 2 / Z * Sii + S_ee0 u k Te ne lfc).
  unfold S_ei_CHS, S_ee_CHS. rewrite E1. do 3 (split; [reflexivity|]). cpos u. pose proof (sqrt_lt_R0 _ HZ) as Hs. assert (0 < k ^ 2) by (now apply pow_lt).
  assert (Hkd : 0 < k_D_AD u Te ne 1 ^ 2) by (rewrite kD_sq by lra; pos).
  assert (Hx : 0 < k_D_AD u Te ne 1 ^ 2 * (1 - lfc)) by (apply Rmult_lt_0_compat; lra).
  assert (HS : 0 < S_ee0 u k Te ne lfc < 1).
  { unfold S_ee0. split; [apply Rdiv_lt_0_compat; lra|]. apply Rmult_lt_reg_r with (k ^ 2 + k_D_AD u Te ne 1 ^ 2 * (1 - lfc)); [lra|].
    unfold Rdiv. rewrite Rmult_assoc, Rinv_l; lra. }
  split; [|split; [exact HS|split; [|split]]].
  - replace ((q_sc u k Te ne Z lfc / sqrt Z * Sii) ^ 2) with (q_sc u k Te ne Z lfc ^ 2 / (sqrt Z ^ 2) * Sii ^ 2) by (field; lra).
    rewrite pow2_sqrt by lra. ring.
  - intros Hi. unfold q_Glenzer2009. field. split; lra.
  - intros _. unfold q_sc. assert (0 < (k_D_AD u Te ne 1 / k) ^ 2).
    { unfold Rdiv. rewrite Rpow_mult_distr. apply Rmult_lt_0_compat; [assumption|]. apply pow_lt, Rinv_0_lt_compat. assumption. }
    apply Rmult_lt_0_compat; [apply Rmult_lt_0_compat|]; lra.
  - intros ->. unfold q_sc, S_ee0. field. split; lra.
Qed.
Print Assumptions C76_consistent.
Example C76_ex : exists S_ii S_ei S_ee,
  S_ii_CHS unit_consts 1 2 3 4 5 (4/5) (1/2) = Some S_ii /\ S_ei_CHS unit_consts 1 2 3 4 5 (4/5) (1/2) = Some S_ei /\
  S_ee_CHS unit_consts 1 2 3 4 5 (4/5) (1/2) = Some S_ee /\ S_ii * S_ee - S_ei ^ 2 = S_ii * S_ee0 unit_consts 1 2 4 (1/2).
Proof.
  destruct (C76_consistent unit_consts 1 2 3 4 5 (4/5) (1/2)) as (a & b & c & H1 & H2 & H3 & H4 & _); try lra. now exists a, b, c.
Qed.

(** ** C40: what two temperatures add to the electronic factor *)
Theorem C40_two_temperatures : forall u k T_e T_i n_e m_i Z,
  0 < T_i -> 0 < Z -> S_ii_AD u k T_e T_i n_e m_i Z <> 0 ->
  S_ee_AD u k T_e T_i n_e m_i Z + (T_e - T_i) / T_i * (S_ei_AD u k T_e T_i n_e m_i Z ^ 2 / S_ii_AD u k T_e T_i n_e m_i Z)
  = 1 - n_e / (kB u * T_e) * Phi_ee_AD u k T_e T_i n_e m_i Z.
Proof.
  intros u k Te Ti ne mi Z HTi HZ HS. unfold S_ee_AD. set (Sei := S_ei_AD _ _ _ _ _ _ _). set (Sii := S_ii_AD _ _ _ _ _ _ _) in *. clearbody Sei Sii.
  set (P0 := 1 - ne / (kB u * Te) * _). clearbody P0. replace (Rabs (sqrt Z * Sei / Sii) ^ 2) with (Z * Sei ^ 2 / Sii ^ 2).
  - field. repeat split; try lra; exact HS.
  - rewrite pow2_abs. replace ((sqrt Z * Sei / Sii) ^ 2) with (sqrt Z ^ 2 * Sei ^ 2 / Sii ^ 2) by (field; exact HS). rewrite pow2_sqrt by lra. reflexivity.
Qed.
Print Assumptions C40_two_temperatures.
Lemma S_ii_one_ex : S_ii_AD unit_consts 0 1 2 1 1 1 <> 0.
Proof.
  unfold S_ii_AD, Phi_ii_AD. replace (0 ^ 2) with 0 by ring. unfold Rdiv. rewrite !Rmult_0_l, !Rplus_0_r, ?Rinv_1.
  match goal with |- context [k_De ?a ?b ?c ^ 2 * ?x] => replace x with 0 by (rewrite ?Rplus_0_r; field) end. lra.
Qed.
Example C40_two_temperatures_ex : S_ee_AD unit_consts 0 1 2 1 1 1 + (1 - 2) / 2 * (S_ei_AD unit_consts 0 1 2 1 1 1 ^ 2 / S_ii_AD unit_consts 0 1 2 1 1 1)
  = 1 - 1 / (kB unit_consts * 1) * Phi_ee_AD unit_consts 0 1 2 1 1 1.
Proof. apply C40_two_temperatures; [lra|lra|exact S_ii_one_ex]. Qed.

(** ** C76: the direct correlation function is the transform of a polynomial inside
    the sphere and of the Coulomb potential outside *)
Lemma int_deriv (F f : R -> R) : (forall x, is_derive F x (f x)) -> (forall x, continuous f x) -> RInt f 0 1 = F 1 - F 0.
Proof.
  intros D C. apply is_RInt_unique. apply (is_RInt_derive (V := R_CompleteNormedModule) F f 0 1); intros; auto.
Qed.
Theorem C76_direct_correlation : forall u T_i Z n_i sig, 0 < sig -> exists y0 y1 y2 y3 y5, forall k, 0 < k ->
  C_ii_CHS u k T_i Z n_i sig =
  4 * PI * n_i * sig ^ 3 *
  (RInt (fun x => (y0 + y1 * x + y2 * x ^ 2 + y3 * x ^ 3 + y5 * x ^ 5) * x * (sin (k * sig * x) / (k * sig))) 0 1
   - Z ^ 2 * e_ch u ^ 2 / (4 * PI * eps0 u * sig * kB u * T_i) * (cos (k * sig) / (k * sig) ^ 2)).
Proof.
  intros u Ti Z ni sig Hs. unfold C_ii_CHS. cbv zeta.
  set (eta := G07eta ni sig). set (chi := G07chi u ni Z Ti sig). set (h0 := G07h0 u ni Z Ti sig). set (h1 := G07h1 u ni Z Ti sig).
  set (h2 := - (1 + eta - eta ^ 2 / 5) / (12 * eta) - (((1 - eta) * h0) / (12 * eta * chi))).
  set (y0 := - (((1 + 2 * eta) ^ 2) / (1 - eta) ^ 4) + (h0 ^ 2 / (4 * (1 - eta) ^ 2)) - (((1 + eta) * h0 * chi) / (12 * eta)) - (((5 + eta ^ 2) * chi ^ 2) / (60 * eta))).
  set (y1 := 6 * eta * h1 ^ 2). set (y2 := chi ^ 2 / 6). set (y3 := eta / 2 * (y0 + chi ^ 2 * h2)). set (y4 := eta * chi ^ 2 / 60).
  exists y0, y1, y2, y3, y4. intros k Hk. unfold G07gamma. assert (Ee : 24 * eta = 4 * PI * ni * sig ^ 3) by (unfold eta, G07eta; field).
  set (g := Z ^ 2 * e_ch u ^ 2 / (4 * PI * eps0 u * sig * kB u * Ti)). unfold Rdiv at 1. rewrite Ee. clearbody g y0 y1 y2 y3 y4. clear h2 h0 h1 chi Ee eta.
  set (q := k * sig). assert (Hq : 0 < q) by (now apply Rmult_lt_0_compat). clearbody q.
  set (F := fun x => / q *
    (y0 * ((sin (q * x) - q * x * cos (q * x)) / q ^ 2) + y1 * ((2 * q * x * sin (q * x) - (q ^ 2 * x ^ 2 - 2) * cos (q * x)) / q ^ 3)
     + y2 * (((3 * q ^ 2 * x ^ 2 - 6) * sin (q * x) - (q ^ 2 * x ^ 2 - 6) * q * x * cos (q * x)) / q ^ 4)
     + y3 * (((4 * q ^ 2 * x ^ 2 - 24) * q * x * sin (q * x) - (q ^ 4 * x ^ 4 - 12 * q ^ 2 * x ^ 2 + 24) * cos (q * x)) / q ^ 5)
     + y4 * ((6 * (q ^ 4 * x ^ 4 - 20 * q ^ 2 * x ^ 2 + 120) * q * x * sin (q * x) - (q ^ 6 * x ^ 6 - 30 * q ^ 4 * x ^ 4 + 360 * q ^ 2 * x ^ 2 - 720) * cos (q * x)) / q ^ 7))).
  rewrite (int_deriv F).
  - unfold F. rewrite !Rmult_1_r, !Rmult_0_r, sin_0, cos_0, !pow1. field. lra.
  - intros x. unfold F. auto_derive; [trivial|]. field. lra.
  - intros x. apply (ex_derive_continuous (V := R_NormedModule)). auto_derive. trivial.
Qed.
Print Assumptions C76_direct_correlation.

(** The contact condition has no solution for weakly coupled ions: [h1] is negative
    where the Coulomb energy at contact does not exceed kB T; it is positive where
    that energy is at least three times kB T and the spheres are dilute. *)
Lemma h0_form u ni Z T sig : 0 < G07eta ni sig < 1 -> let eta := G07eta ni sig in let chi := G07chi u ni Z T sig in
  let w := 2 * (1 - eta) ^ 3 * chi / (1 + 2 * eta) ^ 2 in 0 <= w /\ G07h0 u ni Z T sig * (1 + sqrt (1 + w)) * (1 + 2 * eta) = - (2 * (1 - eta) ^ 2 * chi).
Proof.
  intros He eta chi w. assert (Hc : 0 <= chi) by apply sqrt_pos. assert (Hw : 0 <= w).
  { unfold w. apply Rmult_le_pos; [|left; apply Rinv_0_lt_compat, pow_lt; unfold eta; lra]. apply Rmult_le_pos; [|exact Hc]. assert (0 < (1 - eta) ^ 3) by (apply pow_lt; unfold eta; lra). lra. }
  split; [exact Hw|]. unfold G07h0. cbv zeta. fold eta chi w. assert (S : sqrt (1 + w) * sqrt (1 + w) = 1 + w) by (apply sqrt_sqrt; lra).
  set (s := sqrt (1 + w)) in *. assert (E : (1 - s) * (1 + s) = - w) by (replace ((1 - s) * (1 + s)) with (1 - s * s) by ring; rewrite S; ring).
  replace ((1 + 2 * eta) / (1 - eta) * (1 - s) * (1 + s) * (1 + 2 * eta)) with ((1 + 2 * eta) ^ 2 / (1 - eta) * ((1 - s) * (1 + s))) by (field; unfold eta; lra).
  rewrite E. unfold w. field. unfold eta; lra.
Qed.
Theorem C76_contact : forall u n_i Z T sig, 0 < T -> 0 < sig -> 0 < Z -> 0 < G07eta n_i sig < 1 ->
  let coupling := Z ^ 2 * e_ch u ^ 2 / (4 * PI * eps0 u * sig) / (kB u * T) in
  (coupling <= 1 -> G07h1 u n_i Z T sig < 0) /\
  (3 <= coupling -> G07eta n_i sig <= / 1000 -> 0 < G07h1 u n_i Z T sig).
Proof.
  intros u ni Z T sig HT Hs HZ He g. destruct (h0_form u ni Z T sig He) as [Hw E]. unfold G07h1. cbv zeta.
  assert (Eg : G07gamma u Z T sig = g) by (unfold G07gamma, g; field; cpos u; pose proof PI_RGT_0; repeat split; lra).
  assert (Hg : 0 < g) by (unfold g; cpos u; pose proof PI_RGT_0; pos).
  assert (Ec : G07chi u ni Z T sig ^ 2 = 24 * G07eta ni sig * g).
  { unfold G07chi. rewrite Eg, <- Rsqr_pow2. apply Rsqr_sqrt. apply Rmult_le_pos; lra. }
  assert (Hc : 0 <= G07chi u ni Z T sig) by apply sqrt_pos.
  set (h0 := G07h0 u ni Z T sig) in *. set (chi := G07chi u ni Z T sig) in *. set (eta := G07eta ni sig) in *. clearbody h0 chi eta g.
  set (w := 2 * (1 - eta) ^ 3 * chi / (1 + 2 * eta) ^ 2) in *. assert (S1 : 1 <= sqrt (1 + w)) by (rewrite <- sqrt_1 at 1; apply sqrt_le_1_alt; lra).
  assert (S2 : sqrt (1 + w) * sqrt (1 + w) = 1 + w) by (apply sqrt_sqrt; lra).
  set (s := sqrt (1 + w)) in *. set (D := (1 + s) * (1 + 2 * eta)). assert (HD : 2 <= D) by (unfold D; nra).
  assert (E2 : h0 ^ 2 * D ^ 2 = 4 * (1 - eta) ^ 4 * (24 * eta * g)).
  { replace (h0 ^ 2 * D ^ 2) with ((h0 * (1 + s) * (1 + 2 * eta)) ^ 2) by (unfold D; ring). rewrite E. replace ((- (2 * (1 - eta) ^ 2 * chi)) ^ 2) with (4 * (1 - eta) ^ 4 * chi ^ 2) by ring. now rewrite Ec. }
  assert (E3 : h0 ^ 2 / (24 * eta) = 4 * (1 - eta) ^ 4 * g / D ^ 2).
  { apply (Rmult_eq_reg_r (24 * eta * D ^ 2)); [|apply Rgt_not_eq, Rmult_lt_0_compat; [lra|apply pow_lt; lra]]. replace (h0 ^ 2 / (24 * eta) * (24 * eta * D ^ 2)) with (h0 ^ 2 * D ^ 2) by (field; lra).
    rewrite E2. field. lra. }
  rewrite E3. assert (HD2 : 4 <= D ^ 2) by nra. set (D2 := D ^ 2) in *. set (m := 1 - eta) in *. assert (Hm : 0 < m < 1) by (unfold m; lra).
  assert (Hm2 : 0 < m ^ 2 < 1) by nra. assert (Hm4 : 0 < m ^ 4 < 1) by (replace (m ^ 4) with (m ^ 2 * m ^ 2) by ring; nra).
  split.
  - intros Hg1. apply Rlt_trans with (1 - (1 + eta / 2) / m ^ 2).
    + apply Rplus_lt_compat_r. apply (Rmult_lt_reg_r D2); [lra|]. unfold Rdiv. rewrite Rmult_assoc, Rinv_l by lra. nra.
    + assert (1 < (1 + eta / 2) / m ^ 2); [|lra]. apply (Rmult_lt_reg_r (m ^ 2)); [lra|]. unfold Rdiv at 1. rewrite Rmult_assoc, Rinv_l by lra. lra.
  - intros Hg3 He3. apply Rlt_Rminus. apply (Rmult_lt_reg_r (m ^ 2 * D2)); [apply Rmult_lt_0_compat; lra|].
    replace ((1 + eta / 2) / m ^ 2 * (m ^ 2 * D2)) with ((1 + eta / 2) * D2) by (field; lra).
    replace (4 * m ^ 4 * g / D2 * (m ^ 2 * D2)) with (4 * m ^ 6 * g) by (field; lra).
    (* D2 <= (1+2eta)^2 (4 + 4 chi), chi <= g / 5 *)
    assert (Hchi : chi <= g / 5).
    { apply Rsqr_incr_0_var; [|lra]. rewrite !Rsqr_pow2, Ec. assert (24 * eta * g <= 24 * / 1000 * g) by nra. nra. }
    assert (Hw2 : w <= 2 * chi).
    { unfold w. fold m. apply (Rmult_le_reg_r ((1 + 2 * eta) ^ 2)); [apply pow_lt; lra|]. unfold Rdiv. rewrite Rmult_assoc, Rinv_l by (apply Rgt_not_eq, pow_lt; lra).
      assert (m ^ 3 <= 1) by (replace (m ^ 3) with (m * m ^ 2) by ring; nra). assert (1 <= (1 + 2 * eta) ^ 2) by nra. assert (0 <= 2 * chi) by lra. nra. }
    assert (HD3 : D2 <= (1 + 2 * eta) ^ 2 * (4 + 4 * chi)).
    { unfold D2, D. rewrite Rpow_mult_distr, Rmult_comm. apply Rmult_le_compat_l; [apply pow2_ge_0|]. assert ((1 + s) ^ 2 <= 2 + 2 * (s * s)) by nra. lra. }
    assert (B : (1 + 2 * eta) ^ 2 <= 101 / 100) by nra.
    assert (B6 : 99 / 100 <= m ^ 6).
    { assert (998 / 1000 <= m ^ 2) by (unfold m; nra). assert (996 / 1000 <= m ^ 4) by (replace (m ^ 4) with (m ^ 2 * m ^ 2) by ring; nra). replace (m ^ 6) with (m ^ 4 * m ^ 2) by ring. nra. }
    apply Rle_lt_trans with ((1 + / 1000 / 2) * (101 / 100 * (4 + 4 * (g / 5)))).
    + apply Rmult_le_compat; [lra|lra|lra|]. eapply Rle_trans; [exact HD3|]. apply Rmult_le_compat; [apply pow2_ge_0|lra|exact B|lra].
    + apply Rlt_le_trans with (4 * (99 / 100) * g); [lra|]. apply Rmult_le_compat_r; lra.
Qed.
Print Assumptions C76_contact.
Example C76_contact_ex : let u := unit_consts in let sig := / 10 in
  0 < G07eta (/ 10) sig < 1 /\ G07eta (/ 10) sig <= / 1000 /\ 3 <= 10 ^ 2 * e_ch u ^ 2 / (4 * PI * eps0 u * sig) / (kB u * 1).
Proof.
  cbv zeta. unfold G07eta. cbn [e_ch eps0 kB unit_consts]. pose proof PI_RGT_0. pose proof PI_4. split; [lra|]. split; [lra|].
  replace (10 ^ 2 * 1 ^ 2 / (4 * PI * 1 * / 10) / (1 * 1)) with (250 / PI) by (field; lra). apply (Rmult_le_reg_r PI); [lra|]. unfold Rdiv. rewrite Rmult_assoc, Rinv_l by lra. lra.
Qed.
