(** The inverse screening length as an integral: C103. *)
From Coq Require Import Reals List Lra Lia Psatz.
From Coquelicot Require Import Coquelicot.
From Verif Require Import M_Const M_PlasmaState M_PlasmaPhysics L_PlasmaPhysics M_FreeFree L_Gauss L_Fermi.
Import ListNotations.
Open Scope R_scope.

(** A quadrature that is exact for integrals over the positive half line, improper at both ends. *)
Definition improper_exact (quad : R -> option R -> (R -> option R) -> option R) : Prop :=
  forall (f : R -> option R) (g : R -> R) (I : R), (forall x, 0 < x -> f x = Some (g x)) -> IG g I -> quad 0 None f = Some I.
Definition oval (x : option R) : R := match x with Some y => y | None => 0 end.
Definition improper_quad (a : R) (b : option R) (f : R -> option R) : option R :=
  Some (RInt_gen (V := R_CompleteNormedModule) (fun x => oval (f x)) (at_right 0) (Rbar_locally p_infty)).
Lemma improper_quad_exact : improper_exact improper_quad.
Proof.
  intros f g I Hf HI. unfold improper_quad. f_equal. apply (is_RInt_gen_unique (V := R_CompleteNormedModule)).
  apply is_RInt_gen_ext with (2 := HI). apply (Filter_prod _ _ _ (fun a => 0 < a) (fun b => 0 < b)); [apply at_right_pos|apply infty_gt|].
  intros a b Ha Hb x [Hx _]. cbn in Hx. rewrite Hf; [reflexivity|]. eapply Rlt_trans; [|exact Hx]. now apply Rmin_glb_lt.
Qed.
Lemma IG_scale f (l k : R) : 0 < k -> IG f l -> IG (fun t => f (k * t)) (l / k).
Proof.
  intros Hk H. assert (HS : IG (fun t => k * f (k * t)) l).
  { intros Q HQ. destruct (H Q HQ) as [Q1 Q2 F1 F2 HP].
    apply (Filter_prod _ _ _ (fun a => Q1 (k * a)) (fun b => Q2 (k * b))); [exact (scal_right k Hk Q1 F1)|exact (scal_infty k Hk Q2 F2)|].
    intros a b Ha Hb. destruct (HP (k * a) (k * b) Ha Hb) as [y [Hy1 Hy2]]. cbn [fst snd] in *. exists y. split; [|exact Hy2].
    pose proof (is_RInt_comp_lin (V := R_NormedModule) f k 0 a b y) as HC. rewrite !Rplus_0_r in HC. specialize (HC Hy1).
    apply (is_RInt_ext (V := R_NormedModule)) with (2 := HC). intros x _. rewrite Rplus_0_r. reflexivity. }
  apply (is_RInt_gen_scal _ (/ k)) in HS. unfold scal in HS; cbn in HS. unfold mult in HS; cbn in HS.
  replace (l / k) with (/ k * l) by (unfold Rdiv; ring). apply is_RInt_gen_ext with (2 := HS). apply filter_forall. intros ab t _. apply eq_R. field. lra.
Qed.
Lemma fermi_lower x F : IG (fterm (-1 / 2) x) F -> sqrt PI / (exp (- x) + 1) <= F.
Proof.
  intros HF. pose proof (exp_pos (- x)) as Hx. pose proof (prim_scaled _ _ _ 1 prim_base Rlt_0_1) as HP.
  rewrite Rpower_one in HP. apply (is_RInt_gen_scal _ (/ (exp (- x) + 1))) in HP. unfold scal in HP; cbn in HP. unfold mult in HP; cbn in HP.
  replace (sqrt PI / (exp (- x) + 1)) with (/ (exp (- x) + 1) * (sqrt PI / 1)) by (field; lra).
  eapply IG_le; [|exact HP|exact HF]. intros t Ht. unfold fterm. pose proof (exp_pos t) as Et. pose proof (exp_pos (t - x)).
  assert (0 < Rpower t (-1 / 2)) by apply exp_pos. rewrite <- (Rmult_comm (exp (- (1 * t)))). unfold Rdiv at 2. rewrite (Rmult_comm (Rpower t _)).
  rewrite <- Rmult_assoc. apply Rmult_le_compat_r; [lra|]. rewrite Rmult_1_l, (exp_Ropp t), <- Rinv_mult.
  apply Rinv_le_contravar; [lra|]. unfold Rminus. rewrite exp_plus. assert (1 < exp t) by (rewrite <- exp_0; now apply exp_increasing). nra.
Qed.
(** The inverse screening length is that of classical electrons with the density
    2 / lambda^3 F_(-1/2)(mu / k_B T), the derivative of the density of the Fermi gas by its chemical
    potential; degeneracy weakens the screening, at low fugacity z by no more than the factor 1 - z / sqrt 2. *)
Theorem C103_exact : forall u quad T mu, improper_exact quad -> 0 < T ->
  let z := exp (mu / (kB u * T)) in
  let n0 := 2 / therm_de_broglie_wl u T ^ 3 in
  exists F kappa, IG (fterm (-1 / 2) (mu / (kB u * T))) F /\ 0 < F /\
    inverse_screening_length_exact u quad T mu = Some kappa /\ 0 < kappa /\
    kappa = inverse_screening_length_non_degenerate u (n0 * (F / sqrt PI)) T /\
    kappa <= inverse_screening_length_non_degenerate u (n0 * z) T /\
    (1 - z / sqrt 2) * inverse_screening_length_non_degenerate u (n0 * z) T ^ 2 <= kappa ^ 2.
Proof.
  intros u quad T mu Hq HT. cbv zeta. pose proof (kB_pos u) as HkB. pose proof (e_pos u) as He. pose proof (eps0_pos u) as H0. pose proof (hbar_pos u) as Hh. pose proof (m_e_pos u) as Hm. pose proof PI_RGT_0 as HPI.
  set (kT := kB u * T). assert (HkT : 0 < kT) by now apply Rmult_lt_0_compat.
  set (x := mu / kT). pose proof (exp_pos x) as Hz. set (z := exp x) in *.
  assert (HsP : 0 < sqrt PI) by now apply sqrt_lt_R0. assert (Hs2 : 0 < sqrt 2) by (apply sqrt_lt_R0; lra).
  destruct (fermi_series (-1 / 2) _ _ x 1 prim_base ltac:(lra)) as (F & HF & B1).
  destruct (fermi_series (-1 / 2) _ _ x 0 prim_base ltac:(lra)) as (F' & HF' & B0).
  rewrite (IG_unique _ _ _ HF' HF) in B0. clear F' HF'.
  fold z in B0, B1. cbn [fser] in B0, B1. replace (-1 / 2 + 1) with (/ 2) in * by field.
  assert (R1e : Rpower (INR 1) (/ 2) = 1) by (cbn [INR]; unfold Rpower; rewrite ln_1, Rmult_0_r; apply exp_0).
  assert (R2e : Rpower (INR 2) (/ 2) = sqrt 2) by (replace (INR 2) with 2 by (cbn; ring); apply Rpower_sqrt; lra).
  rewrite R1e in B0, B1. rewrite R2e in B1. cbn [pow] in B0, B1.
  assert (FP : 0 < F). { pose proof (fermi_lower x F HF) as L. pose proof (exp_pos (- x)). assert (0 < sqrt PI / (exp (- x) + 1)) by (apply Rdiv_lt_0_compat; lra). lra. }
  assert (FU : F <= sqrt PI * z). { rewrite Rmult_0_r, Rminus_0_r, Rabs_pos_eq in B0 by lra. eapply Rle_trans; [exact B0|]. right. field. }
  assert (FL : sqrt PI * z * (1 - z / sqrt 2) <= F).
  { apply Rabs_le_between in B1. replace (sqrt PI * z * (1 - z / sqrt 2)) with (sqrt PI * z - sqrt PI * (z * (z * 1) / sqrt 2)) by (field; lra).
    replace (sqrt PI * (0 + 1 * (z * 1) / 1)) with (sqrt PI * z) in B1 by field. lra. }
  assert (HI : IG (fun E => 1 / sqrt E * / (exp ((E - mu) / kT) + 1)) (sqrt kT * F)).
  { assert (HS : IG (fun t => fterm (-1 / 2) x (/ kT * t)) (F / / kT)) by (apply IG_scale; [now apply Rinv_0_lt_compat|exact HF]).
    apply (is_RInt_gen_scal _ (/ sqrt kT)) in HS. unfold scal in HS; cbn in HS. unfold mult in HS; cbn in HS.
    assert (HsT : 0 < sqrt kT) by now apply sqrt_lt_R0.
    replace (sqrt kT * F) with (/ sqrt kT * (F / / kT)).
    2:{ rewrite <- (sqrt_sqrt kT) at 2 by lra. field. lra. }
    apply is_RInt_gen_ext with (2 := HS). apply (Filter_prod _ _ _ (fun a => 0 < a) (fun b => 0 < b)); [apply at_right_pos|apply infty_gt|].
    intros a b Ha Hb E [HE _]. cbn in HE. assert (HE0 : 0 < E) by (eapply Rlt_trans; [|exact HE]; now apply Rmin_glb_lt). apply eq_R. unfold fterm.
    replace (Rpower (/ kT * E) (-1 / 2)) with (sqrt kT / sqrt E).
    2:{ rewrite <- Rpower_mult_distr by (try assumption; now apply Rinv_0_lt_compat). replace (-1 / 2) with (- / 2) by field. rewrite !Rpower_Ropp, !Rpower_sqrt by (try assumption; now apply Rinv_0_lt_compat).
        assert (0 < sqrt E) by now apply sqrt_lt_R0. rewrite sqrt_inv. field. lra. }
    replace (/ kT * E - x) with ((E - mu) / kT) by (unfold x; field; lra). pose proof (exp_pos ((E - mu) / kT)). assert (0 < sqrt E) by now apply sqrt_lt_R0. field. lra. }
  set (pre := (e_ch u ^ 2 * Rpower (m_e u) (3 / 2)) / (sqrt 2 * PI ^ 2 * eps0 u * hbar u ^ 3)).
  assert (Hm32 : Rpower (m_e u) (3 / 2) = m_e u * sqrt (m_e u)).
  { replace (3 / 2) with (1 + / 2) by field. rewrite Rpower_plus, Rpower_1, Rpower_sqrt by assumption. reflexivity. }
  assert (Hsm : 0 < sqrt (m_e u)) by now apply sqrt_lt_R0. assert (HsT : 0 < sqrt kT) by now apply sqrt_lt_R0.
  assert (He2 : 0 < e_ch u ^ 2) by now apply pow_lt. assert (Hh3 : 0 < hbar u ^ 3) by now apply pow_lt.
  assert (Hpre : 0 < pre).
  { unfold pre. rewrite Hm32. apply Rdiv_lt_0_compat; [apply Rmult_lt_0_compat; [assumption|now apply Rmult_lt_0_compat]|].
    apply Rmult_lt_0_compat; [|assumption]. apply Rmult_lt_0_compat; [|assumption]. apply Rmult_lt_0_compat; [assumption|now apply pow_lt]. }
  set (n0 := 2 / therm_de_broglie_wl u T ^ 3).
  (* lambda^3 *)
  assert (EL : therm_de_broglie_wl u T ^ 3 = hbar u ^ 3 * ((2 * PI) / (m_e u * kT)) * (sqrt 2 * sqrt PI / (sqrt (m_e u) * sqrt kT))).
  { unfold therm_de_broglie_wl. replace (m_e u * kB u * T) with (m_e u * kT) by (unfold kT; ring).
    assert (Hmk : 0 < m_e u * kT) by now apply Rmult_lt_0_compat.
    assert (Ha : 0 < 2 * PI / (m_e u * kT)) by (apply Rdiv_lt_0_compat; lra).
    rewrite Rpow_mult_distr, Rmult_assoc. f_equal. set (w := 2 * PI / (m_e u * kT)) in *.
    replace (sqrt w ^ 3) with (sqrt w * sqrt w * sqrt w) by ring. rewrite sqrt_sqrt by lra. f_equal.
    unfold w. rewrite sqrt_div by lra. rewrite !sqrt_mult by lra. reflexivity. }
  assert (Epre : pre * (sqrt kT * sqrt PI) = n0 * e_ch u ^ 2 / (eps0 u * kT)).
  { unfold pre, n0. rewrite EL, Hm32.
    assert (Ekt : kT = sqrt kT * sqrt kT) by (rewrite sqrt_sqrt; lra). assert (EP : PI = sqrt PI * sqrt PI) by (rewrite sqrt_sqrt; lra). assert (E2 : 2 = sqrt 2 * sqrt 2) by (rewrite sqrt_sqrt; lra).
    assert (HPI2 : PI ^ 2 = PI * (sqrt PI * sqrt PI)) by (rewrite <- EP; ring). rewrite HPI2.
    set (sk := sqrt kT) in *. set (sp := sqrt PI) in *. set (s2 := sqrt 2) in *. set (sm := sqrt (m_e u)) in *.
    assert (PIn : PI <> 0) by lra. assert (kTn : kT <> 0) by lra.
    transitivity (e_ch u ^ 2 / eps0 u * (m_e u * sm) / hbar u ^ 3 * (sk / (s2 * PI * sp))).
    - field. repeat split; lra.
    - replace (sk / (s2 * PI * sp)) with (2 * sk / ((s2 * s2) * s2 * PI * sp)) by (rewrite <- E2; field; repeat split; lra).
      replace (2 * sk / (s2 * s2 * s2 * PI * sp)) with (2 * (sk * kT) / ((s2 * s2) * s2 * PI * sp * kT)) by (field; repeat split; lra). rewrite <- E2. field. repeat split; lra. }
  assert (Hnd : forall n, inverse_screening_length_non_degenerate u n T = sqrt (n * e_ch u ^ 2 / (eps0 u * kT))).
  { intros n. unfold inverse_screening_length_non_degenerate. do 2 f_equal. unfold kT. ring. }
  assert (En : forall y, n0 * y * e_ch u ^ 2 / (eps0 u * kT) = pre * (sqrt kT * (sqrt PI * y))).
  { intros y. replace (pre * (sqrt kT * (sqrt PI * y))) with (pre * (sqrt kT * sqrt PI) * y) by ring. rewrite Epre. field. lra. }
  assert (HpF : 0 < pre * (sqrt kT * F)) by (apply Rmult_lt_0_compat; [assumption|now apply Rmult_lt_0_compat]).
  exists F, (sqrt (pre * (sqrt kT * F))). split; [exact HF|]. split; [exact FP|]. split.
  { unfold inverse_screening_length_exact. fold pre. cbv zeta. fold kT. rewrite (Hq _ (fun E => 1 / sqrt E * / (exp ((E - mu) / kT) + 1)) (sqrt kT * F)).
    - cbn [obind]. rewrite sqrto_some by lra. reflexivity.
    - intros E HE. rewrite qdiv_some; [reflexivity|]. apply Rgt_not_eq. now apply sqrt_lt_R0.
    - exact HI. }
  split; [now apply sqrt_lt_R0|]. rewrite !Hnd, !En.
  assert (Epi : sqrt PI * (F / sqrt PI) = F) by (field; lra). rewrite Epi. split; [reflexivity|].
  assert (Hps : 0 < pre * sqrt kT) by now apply Rmult_lt_0_compat. split.
  - apply sqrt_le_1_alt. rewrite <- !Rmult_assoc, (Rmult_assoc (pre * sqrt kT)). apply Rmult_le_compat_l; lra.
  - assert (0 <= pre * (sqrt kT * (sqrt PI * z))). { left. rewrite <- Rmult_assoc. apply Rmult_lt_0_compat; [assumption|now apply Rmult_lt_0_compat]. }
    rewrite !pow2_sqrt by lra.
    replace ((1 - z / sqrt 2) * (pre * (sqrt kT * (sqrt PI * z)))) with (pre * sqrt kT * (sqrt PI * z * (1 - z / sqrt 2))) by ring.
    rewrite <- (Rmult_assoc pre (sqrt kT) F). apply Rmult_le_compat_l; [lra|exact FL].
Qed.
Print Assumptions C103_exact.
Example C103_exact_ex : exists kappa, inverse_screening_length_exact unit_consts improper_quad 1 (-1) = Some kappa /\ 0 < kappa.
Proof.
  destruct (C103_exact unit_consts improper_quad 1 (-1) improper_quad_exact Rlt_0_1) as (F & k & _ & _ & E & P & _). exists k. split; assumption.
Qed.
