(** Limits and cross-checks: C104 (levels above the continuum), C109 (effective
    temperature and binding parameter) and C110 (the contact value of hot electrons). *)
From Coq Require Import Reals List Lra Lia Psatz.
From Coquelicot Require Import Coquelicot.
From Verif Require Import M_Const M_PlasmaState M_PlasmaPhysics L_PlasmaPhysics M_StaticSF M_LFC L_LFC P_LFC M_Interp M_FormFactors L_FormFactors.
Import ListNotations.
Open Scope R_scope.

(** ** C109 *)
(** The local field correction and the ion feature use one effective temperature. *)
Theorem C109_same_temperature : forall u T n, GV_T_ee u T n = T_cf_Greg u T n.
Proof.
  intros u T n. unfold GV_T_ee, GV_T_q, T_cf_Greg, lfc_rs, interparticle_spacing, wiegner_seitz_radius.
  assert (E : Rpower 1 (1 / 2) = 1) by (unfold Rpower; rewrite ln_1, Rmult_0_r; apply exp_0).
  rewrite Rmult_1_r, E, Rmult_1_r. destruct (qdiv _ _); reflexivity.
Qed.
Print Assumptions C109_same_temperature.
(** The argument of the binary contact value is the coupling times the distance. *)
Theorem C109_binding : forall u T n, 0 < T -> a_0 u = 4 * PI * eps0 u * hbar u ^ 2 / (m_e u * e_ch u ^ 2) ->
  GV_xi u T = coupling_param u 1 1 n T * lfc_rs u n.
Proof.
  intros u T n HT Ha. unfold GV_xi, coupling_param, lfc_rs. rewrite Ha.
  pose proof (hbar_pos u). pose proof (m_e_pos u). pose proof (e_pos u). pose proof (eps0_pos u). pose proof (kB_pos u). pose proof PI_RGT_0.
  assert (0 < interparticle_spacing 1 1 n) by apply exp_pos. field. repeat split; lra.
Qed.
Print Assumptions C109_binding.
Lemma four_pi_pos : 0 < 4 * PI.
Proof. pose proof PI_RGT_0. lra. Qed.
Definition bohr_consts : consts := mkConsts 1 1 1 1 1 1 1 (4 * PI) Rlt_0_1 Rlt_0_1 Rlt_0_1 Rlt_0_1 Rlt_0_1 Rlt_0_1 Rlt_0_1 four_pi_pos.
Example C109_binding_met : GV_xi bohr_consts 2 = coupling_param bohr_consts 1 1 3 2 * lfc_rs bohr_consts 3.
Proof. apply C109_binding; [lra|]. cbn. field. Qed.

(** ** C110 *)
Lemma cross a b c d z : b <> 0 -> d <> 0 -> a * d = z * c * b -> a / b = z * (c / d).
Proof. intros Hb Hd H. apply (Rmult_eq_reg_r (b * d)); [|now apply Rmult_integral_contrapositive_currified]. replace (a / b * (b * d)) with (a * d) by (field; lra). rewrite H. field. lra. Qed.
Lemma coef_pos1 t : 0 < t -> 0 < 1 + t * (241339 / 10000) + t * t * t * (186499 / 100000).
Proof. intros H. assert (0 < t * t * t) by (repeat apply Rmult_lt_0_compat; lra). lra. Qed.
Lemma coef_pos2 t : 0 < t -> 0 < 1 + t * (252577 / 1000000) + t * t * (127043 / 1000000).
Proof. intros H. nra. Qed.
Lemma coef_pos3 t : 0 < t -> 0 < 1 + t * (445526 / 1000000) + t * t * (408504 / 1000000).
Proof. intros H. nra. Qed.
Lemma coef_pos4 t : 0 < 1 - t * (598508 / 1000000) + t * t * (513162 / 1000000).
Proof. nra. Qed.
Definition hot (q r y : R) : R :=
  let A := y ^ 3 * (18315 / 100000 * y ^ 2 + 184377 / 10000) / (y ^ 6 + 241339 / 10000 * y ^ 4 + 186499 / 100000) in
  let B := y ^ 2 * (- (784043 / 10000000) * y - 24368 / 100000) / (y ^ 4 + 252577 / 1000000 * y ^ 2 + 127043 / 1000000) in
  let c := (102232 / 100000 * y ^ 3 + 223663 / 100000 * y ^ 2 + 448937 / 1000000) / (y ^ 4 + 445526 / 1000000 * y ^ 2 + 408504 / 1000000) in
  let d := y ^ 2 * (837741 / 10000000 * y + 589015 / 10000000) / (y ^ 4 - 598508 / 1000000 * y ^ 2 + 513162 / 1000000) in
  (c * r + d * r ^ 3 - A * q - B * r) / (1 + y * (c * r + d * r ^ 3)).
Lemma hot_spec r t : 0 <= r -> 0 < t -> sqrt t * (1 - OnTop r t) = hot (sqrt r) r (/ sqrt t).
Proof.
  intros Hr Ht. unfold OnTop. pose proof (coef_pos1 t Ht). pose proof (coef_pos2 t Ht). pose proof (coef_pos3 t Ht). pose proof (coef_pos4 t).
  assert (Hs : 0 < sqrt t) by now apply sqrt_lt_R0.
  assert (Et : t = sqrt t ^ 2) by (symmetry; apply pow2_sqrt; lra).
  set (s := sqrt t) in *. set (q := sqrt r). clearbody s q. subst t.
  set (y := / s). assert (Hy : 0 < y) by now apply Rinv_0_lt_compat.
  assert (Es : s = / y) by (unfold y; now rewrite Rinv_involutive by lra). clearbody y. subst s.
  set (A' := (18315 / 100000 + 184377 / 10000 * (/ y) ^ 2) / _).
  set (B' := (- (784043 / 10000000) - 24368 / 100000 * / y) / _).
  set (c' := (102232 / 100000 + _ + _) / _). set (d' := (837741 / 10000000 + _) / _).
  assert (P : forall z, 0 < z -> 0 < y ^ 2 * z /\ 0 < y ^ 4 * z /\ 0 < y ^ 6 * z) by (intros z Hz; repeat split; apply Rmult_lt_0_compat; try apply pow_lt; assumption).
  assert (N1 : 0 < y ^ 6 + 241339 / 10000 * y ^ 4 + 186499 / 100000).
  { replace (y ^ 6 + 241339 / 10000 * y ^ 4 + 186499 / 100000) with (y ^ 6 * (1 + (/ y) ^ 2 * (241339 / 10000) + (/ y) ^ 2 * (/ y) ^ 2 * (/ y) ^ 2 * (186499 / 100000))) by (field; lra). now apply P. }
  assert (N2 : 0 < y ^ 4 + 252577 / 1000000 * y ^ 2 + 127043 / 1000000).
  { replace (y ^ 4 + 252577 / 1000000 * y ^ 2 + 127043 / 1000000) with (y ^ 4 * (1 + (/ y) ^ 2 * (252577 / 1000000) + (/ y) ^ 2 * (/ y) ^ 2 * (127043 / 1000000))) by (field; lra). now apply P. }
  assert (N3 : 0 < y ^ 4 + 445526 / 1000000 * y ^ 2 + 408504 / 1000000).
  { replace (y ^ 4 + 445526 / 1000000 * y ^ 2 + 408504 / 1000000) with (y ^ 4 * (1 + (/ y) ^ 2 * (445526 / 1000000) + (/ y) ^ 2 * (/ y) ^ 2 * (408504 / 1000000))) by (field; lra). now apply P. }
  assert (N4 : 0 < y ^ 4 - 598508 / 1000000 * y ^ 2 + 513162 / 1000000).
  { replace (y ^ 4 - 598508 / 1000000 * y ^ 2 + 513162 / 1000000) with (y ^ 4 * (1 - (/ y) ^ 2 * (598508 / 1000000) + (/ y) ^ 2 * (/ y) ^ 2 * (513162 / 1000000))) by (field; lra). now apply P. }
  unfold hot. cbv zeta.
  set (A := y ^ 3 * _ / _). set (B := y ^ 2 * (_ - _) / _). set (c := (102232 / 100000 * y ^ 3 + _ + _) / _). set (d := y ^ 2 * (837741 / 10000000 * y + _) / _).
  assert (EA : A' = y * A) by (unfold A', A; apply cross; try lra; field; lra).
  assert (EB : B' = y * B) by (unfold B', B; apply cross; try lra; field; lra).
  assert (Ec : c' = y * c) by (unfold c', c; apply cross; try lra; field; lra).
  assert (Ed : d' = y * d) by (unfold d', d; apply cross; try lra; field; lra).
  assert (Hc : 0 < c). { unfold c. apply Rdiv_lt_0_compat; [|lra]. assert (0 < y ^ 3) by now apply pow_lt. assert (0 < y ^ 2) by now apply pow_lt. lra. }
  assert (Hd : 0 < d). { unfold d. apply Rdiv_lt_0_compat; [|lra]. apply Rmult_lt_0_compat; [now apply pow_lt|lra]. }
  rewrite EA, EB, Ec, Ed. clearbody A B c d. clear - Hy Hr Hc Hd.
  assert (0 <= c * r) by (apply Rmult_le_pos; lra). assert (0 <= d * r ^ 3) by (apply Rmult_le_pos; [lra|now apply pow_le]).
  assert (0 <= y * (c * r + d * r ^ 3)) by (apply Rmult_le_pos; lra).
  field. split; [|lra]. apply Rgt_not_eq.
  match goal with |- ?e > 0 => replace e with (1 + y * (c * r + d * r ^ 3)) by ring end. lra.
Qed.
(** Hot electrons are uncorrelated: the contact value tends to that of free
    electrons, and the deviation falls with the root of the temperature. *)
Theorem C110_hot_contact : forall r, 0 <= r ->
  is_lim (fun t => sqrt t * (1 - OnTop r t)) p_infty (448937 / 408504 * r) /\
  is_lim (fun t => 1 - OnTop r t / 2) p_infty (1 / 2).
Proof.
  intros r Hr.
  assert (L0 : is_lim (fun t => / sqrt t) p_infty 0).
  { replace (Finite 0) with (Rbar_inv p_infty) by reflexivity. apply is_lim_inv; [|discriminate]. exact filterlim_sqrt_p. }
  assert (C : continuous (hot (sqrt r) r) 0).
  { apply (ex_derive_continuous (K := R_AbsRing) (V := R_NormedModule)). unfold hot. set (q := sqrt r). clearbody q. cbv zeta.
    auto_derive. repeat split; try lra. }
  assert (E0 : hot (sqrt r) r 0 = 448937 / 408504 * r) by (unfold hot; field).
  assert (L : is_lim (fun t => sqrt t * (1 - OnTop r t)) p_infty (448937 / 408504 * r)).
  { apply (is_lim_ext_loc (fun t => hot (sqrt r) r (/ sqrt t))).
    - exists 0. intros t Ht. symmetry. now apply hot_spec.
    - rewrite <- E0. apply (filterlim_comp _ _ _ (fun t => / sqrt t) (hot (sqrt r) r) (Rbar_locally p_infty) (locally 0) (locally (hot (sqrt r) r 0))); [exact L0|exact C]. }
  split; [exact L|].
  apply (is_lim_ext_loc (fun t => 1 / 2 + / 2 * (/ sqrt t * (sqrt t * (1 - OnTop r t))))).
  - exists 0. intros t Ht. field. apply Rgt_not_eq. now apply sqrt_lt_R0.
  - replace (Finite (1 / 2)) with (Finite (1 / 2 + / 2 * (0 * (448937 / 408504 * r)))) by (f_equal; ring).
    apply is_lim_plus'; [apply is_lim_const|]. apply (is_lim_scal_l _ (/ 2) p_infty (0 * (448937 / 408504 * r))). apply (is_lim_mult _ _ p_infty 0 (448937 / 408504 * r)); [exact L0|exact L|exact I].
Qed.
Print Assumptions C110_hot_contact.
Example C110_hot_met : is_lim (fun t => sqrt t * (1 - OnTop 2 t)) p_infty (448937 / 408504 * 2).
Proof. apply C110_hot_contact. lra. Qed.

(** ** C104 *)
Lemma tiny u k E D : k <> 0 -> 1 <= D -> 0 <= E <= / 1000000 ->
  exists f, pauling_f10 u k (sqrt (E / D)) = Some f /\ 0 <= f /\ f * (k * a_0 u) ^ 4 <= 16 * / 10 ^ 12 /\ (0 < E -> 0 < f).
Proof.
  intros Hk HD HE. destruct (Req_dec E 0) as [->|NE].
  - replace (0 / D) with 0 by (field; lra). rewrite sqrt_0, f10_zero by assumption. exists 0. repeat split; lra.
  - assert (HZ : 0 < E / D) by (apply Rdiv_lt_0_compat; lra).
    assert (HS : 0 < sqrt (E / D)) by now apply sqrt_lt_R0.
    assert (ES : sqrt (E / D) ^ 2 <= / 1000000).
    { rewrite pow2_sqrt by lra. apply (Rmult_le_reg_r D); [lra|]. unfold Rdiv. rewrite Rmult_assoc, Rinv_l by lra. lra. }
    set (Z := sqrt (E / D)) in *. clearbody Z. rewrite f10_some by lra. exists (g10 u k Z). pose proof (g10_range u k Z).
    split; [reflexivity|]. split; [lra|]. split; [|lra].
    unfold g10. rewrite g10_sq by lra.
    assert (K : 0 < (k * a_0 u) ^ 2). { apply pow2_gt_0. pose proof (a_0_pos u). apply Rmult_integral_contrapositive_currified; lra. }
    replace ((k * a_0 u) ^ 4) with (((k * a_0 u) ^ 2) ^ 2) by ring. set (q := (k * a_0 u) ^ 2) in *. clearbody q.
    assert (Z2 : 0 < Z ^ 2) by (apply pow_lt; lra). set (z := Z ^ 2) in *. clearbody z.
    replace (1 / (1 + q / (4 * z)) ^ 2 * q ^ 2) with ((4 * z * q / (4 * z + q)) ^ 2) by (field; lra).
    assert (0 <= 4 * z * q / (4 * z + q) <= 4 * z).
    { split; [apply Rlt_le, Rdiv_lt_0_compat; nra|]. apply (Rmult_le_reg_r (4 * z + q)); [lra|]. unfold Rdiv. rewrite Rmult_assoc, Rinv_l by lra. nra. }
    apply Rle_trans with ((4 * z) ^ 2); [apply pow_incr; lra|]. assert (z ^ 2 <= (/ 1000000) ^ 2) by (apply pow_incr; lra).
    replace ((4 * z) ^ 2) with (16 * z ^ 2) by ring. lra.
Qed.
(** A level raised above the continuum keeps a binding energy of a millionth of an
    electron volt: its form factor stays positive, and is below what that energy allows. *)
Theorem C104_unbound : forall u corr k Z_A Z_core es ipd, k <> 0 -> 1 <= Z_A -> 1 <= Z_core ->
  (forall e, In e es -> e + ipd < 0) -> (2 <= length es)%nat ->
  exists f, FormFactorLowering u corr k [(Z_A, Z_core)] [es] [ipd] 0 0 = Some f /\
    (Z_A <> 1 -> 0 < f) /\ f * (k * a_0 u) ^ 4 <= 16 * / 10 ^ 12.
Proof.
  intros u corr k Z_A Z_core es ipd Hk HA Hc Hu Hl.
  rewrite lowering_entries. cbn [length Nat.ltb Nat.leb andb Nat.eqb nth].
  assert (HB : forall i, (i < 2)%nat -> nth i (rev es) 0 + at_ [ipd] 0 < 0).
  { intros i Hi. change (at_ [ipd] 0) with ipd. apply Hu. apply in_rev. apply nth_In. rewrite rev_length. lia. }
  unfold k_shell. cbv zeta. destruct (Rlt_dec (nth 0 (rev es) 0 + at_ [ipd] 0) 0) as [_|N]; [|exfalso; apply N, HB; lia].
  destruct (Rlt_dec (nth 1 (rev es) 0 + at_ [ipd] 0) 0) as [_|N]; [|exfalso; apply N, HB; lia].
  set (E2 := if Req_EM_T Z_A 1 then 0 else / 1000000).
  assert (H2 : 0 <= E2 <= / 1000000 /\ (Z_A <> 1 -> 0 < E2)) by (unfold E2; destruct (Req_EM_T _ _); split; intros; lra).
  clearbody E2. destruct H2 as [H2 H2'].
  destruct (lowering_Zeff (/ 1000000) E2 Z_A corr) as (P1 & P2 & Q); [lra..|].
  unfold form_factor_lowering_10. rewrite Q. cbn [obind fst snd].
  pose proof (quad_nonneg corr Z_A) as HQ.
  assert (HD : 121318355 / 10000000 / Z_A <= 121318355 / 10000000).
  { unfold Rdiv at 1. rewrite <- (Rmult_1_r (121318355 / 10000000)) at 2. apply Rmult_le_compat_l; [lra|]. apply Rle_trans with (/ 1); [apply Rinv_le_contravar; lra|lra]. }
  assert (D1 : 1 <= EnH + quad corr Z_A) by (unfold EnH; lra).
  assert (D2 : 1 <= EnH - 121318355 / 10000000 / Z_A + quad corr Z_A) by (unfold EnH; lra).
  destruct (tiny u k (/ 1000000) _ Hk D1 ltac:(lra)) as (f1 & -> & F1 & G1 & Q1).
  destruct (tiny u k E2 _ Hk D2 H2) as (f2 & -> & F2 & G2 & Q2). cbn [obind].
  eexists. split; [reflexivity|]. pose proof (clip01_range (Z_core - 1)) as HC. set (x := clip01 _) in *. clearbody x.
  specialize (Q1 ltac:(lra)). split.
  - intros N. specialize (Q2 (H2' N)). destruct (Req_dec x 1) as [->|Nx]; [lra|].
    assert (0 < (1 - x) * f1) by (apply Rmult_lt_0_compat; lra). assert (0 <= x * f2) by (apply Rmult_le_pos; lra). lra.
  - set (K := (k * a_0 u) ^ 4) in *.
    replace (((1 - x) * f1 + x * f2) * K) with ((1 - x) * (f1 * K) + x * (f2 * K)) by ring.
    assert ((1 - x) * (f1 * K) <= (1 - x) * (16 * / 10 ^ 12)) by (apply Rmult_le_compat_l; lra).
    assert (x * (f2 * K) <= x * (16 * / 10 ^ 12)) by (apply Rmult_le_compat_l; lra). lra.
Qed.
Print Assumptions C104_unbound.
Example C104_unbound_met : exists f, FormFactorLowering unit_consts false 1 [(2, 2)] [[24; 54]] [-60] 0 0 = Some f /\ 0 < f.
Proof.
  destruct (C104_unbound unit_consts false 1 2 2 [24; 54] (-60)) as (f & E & P & _); [lra..| |cbn; lia|].
  - intros e [<-|[<-|[]]]; lra.
  - exists f. split; [exact E|]. apply P. lra.
Qed.
