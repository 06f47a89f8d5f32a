(** The f-sum rule of the undamped dielectric function at finite temperature. *)
From Coq Require Import Reals List Lra Lia Psatz.
From Coquelicot Require Import Coquelicot.
From Verif Require Import M_Const M_PlasmaState M_PlasmaPhysics L_PlasmaPhysics M_FreeFree L_LFC L_RPA L_RPA2 P_RPA.
Open Scope R_scope.

Lemma int0 (f : R -> R) : RInt f 0 0 = 0.
Proof. rewrite RInt_point. reflexivity. Qed.
Lemma refl_derive (f : R -> R) (s : R) : (forall x : R, continuous f x) -> (forall x, f (- x) = s * f x) -> forall X, RInt f 0 (- X) = - s * RInt f 0 X.
Proof.
  intros Cf Hs X. assert (forall x : R, is_derive (fun X => RInt f 0 (- X) + s * RInt f 0 X) x 0) as D.
  { intros x. refine (deq _ x (- 1 * f (- x) + s * f x) 0 _ _); [rewrite Hs; ring|]. apply (is_derive_plus (V := R_NormedModule)); [|apply is_derive_scal; now apply Int_derive].
    apply (is_derive_comp (K := R_AbsRing) (V := R_NormedModule) (fun y => RInt f 0 y) (fun x => - x)); [now apply Int_derive|]. auto_derive; [exact I|ring]. }
  pose proof (const_derive _ D X 0) as E. cbn beta in E. rewrite Ropp_0, int0 in E. lra.
Qed.
Lemma shift_lim (f : R -> R) a (l : R) : is_lim f p_infty l -> is_lim (fun X => f (X + a)) p_infty l.
Proof.
  intros H. apply is_lim_spec in H. apply is_lim_spec. intros eps. destruct (H eps) as [M HM]. exists (M - a). intros x Hx. apply HM. lra.
Qed.
Lemma scale_lim (f : R -> R) a (l : R) : 0 < a -> is_lim f p_infty l -> is_lim (fun X => f (X * a)) p_infty l.
Proof.
  intros Ha H. apply is_lim_spec in H. apply is_lim_spec. intros eps. destruct (H eps) as [M HM]. exists (M / a). intros x Hx. apply HM. apply Rlt_div_l in Hx; lra.
Qed.
Section Sum.
  Variables eta c : R.
  Hypothesis Hc : 0 <= c.
  Let Phi x := RInt (fun v => v * lnF eta v) 0 x.
  Let Lam x := RInt (lnF eta) 0 x.
  Lemma vln_cont (x : R) : continuous (fun v => v * lnF eta v) x.
  Proof. apply (continuous_mult (fun v : R => v)); [apply continuous_id|apply lnF_cont]. Qed.
  Lemma gF_cont (x : R) : continuous (fun w => w * gF eta c w) x.
  Proof. apply (continuous_mult (fun v : R => v)); [apply continuous_id|]. apply (ex_derive_continuous (V := R_NormedModule)). eexists. apply gF_derive. Qed.
  Lemma shifted (f : R -> R) a (x : R) : (forall x : R, continuous f x) -> is_derive (fun X => RInt f 0 (X + a)) x (f (x + a)).
  Proof.
    intros Cf. refine (deq _ x (1 * f (x + a)) _ _ _); [ring|]. apply (is_derive_comp (K := R_AbsRing) (V := R_NormedModule) (fun y => RInt f 0 y) (fun x => x + a)); [now apply Int_derive|]. auto_derive; [exact I|ring].
  Qed.
  Lemma J_eq X : RInt (fun w => w * gF eta c w) 0 X = Phi (X + c) - Phi (X + - c) - c * (Lam (X + c) + Lam (X + - c)).
  Proof.
    assert (forall x : R, is_derive (fun X => RInt (fun w => w * gF eta c w) 0 X - (Phi (X + c) - Phi (X + - c) - c * (Lam (X + c) + Lam (X + - c)))) x 0) as D.
    { intros x. refine (deq _ x (x * gF eta c x - (((x + c) * lnF eta (x + c) - (x + - c) * lnF eta (x + - c)) - c * (lnF eta (x + c) + lnF eta (x + - c)))) 0 _ _).
      - unfold gF, Rminus. ring.
      - apply (is_derive_minus (V := R_NormedModule)); [apply (Int_derive (fun w => w * gF eta c w)); apply gF_cont|]. apply (is_derive_minus (V := R_NormedModule)).
        + apply (is_derive_minus (V := R_NormedModule)); [apply (shifted (fun v => v * lnF eta v) c)|apply (shifted (fun v => v * lnF eta v) (- c))]; apply vln_cont.
        + apply is_derive_scal. apply (is_derive_plus (V := R_NormedModule)); [apply (shifted (lnF eta) c)|apply (shifted (lnF eta) (- c))]; apply lnF_cont. }
    pose proof (const_derive _ D X 0) as E. cbn beta in E. rewrite !Rplus_0_l, int0 in E.
    assert (Phi (- c) = Phi c) as E1. { pose proof (refl_derive (fun v => v * lnF eta v) (-1) vln_cont ltac:(intros x; cbv beta; rewrite lnF_even; ring) c) as Q. change (Phi (- c) = - -1 * Phi c) in Q. lra. }
    assert (Lam (- c) = - Lam c) as E2. { pose proof (refl_derive (lnF eta) 1 (lnF_cont eta) ltac:(intros x; rewrite lnF_even; ring) c) as Q. change (Lam (- c) = - 1 * Lam c) in Q. lra. }
    rewrite E1, E2 in E. lra.
  Qed.
  Lemma Lam_lim : exists l : R, 0 < l /\ is_lim Lam p_infty l.
  Proof.
    destruct (dominated_lim (lnF eta) (exp eta) 0) as [l Hl].
    - intros x. apply lnF_cont.
    - intros x _. rewrite Rminus_0_r. rewrite Rabs_pos_eq; apply lnF_pos.
    - exists l. split; [|exact Hl]. apply (lim_pos (lnF eta)); [apply lnF_cont| |exact Hl]. intros x _. unfold lnF. rewrite <- ln_1. apply ln_increasing; pose proof (exp_pos (eta - x ^ 2)); lra.
  Qed.
  Lemma strip X : c < X -> Rabs (Phi (X + c) - Phi (X + - c)) <= 2 * c * (exp eta / (X - c)).
  Proof.
    intros HX. unfold Phi. replace (2 * c * (exp eta / (X - c))) with ((X + c - (X + - c)) * (exp eta / (X - c))) by ring. apply (piece (fun v => v * lnF eta v)); [lra|apply vln_cont|].
    intros x Hx. destruct (lnF_pos eta x) as [A B]. rewrite Rabs_pos_eq by (apply Rmult_le_pos; lra). pose proof (exp_pos eta). apply Rle_trans with (x * (exp eta / (1 + x ^ 2))); [apply Rmult_le_compat_l; lra|].
    replace (x * (exp eta / (1 + x ^ 2))) with (exp eta * (x / (1 + x ^ 2))) by (field; nra). unfold Rdiv at 2. apply Rmult_le_compat_l; [lra|]. apply div_le; [nra|]. apply Rmult_le_reg_l with (X - c); [lra|]. replace ((X - c) * (/ (X - c) * (1 + x ^ 2))) with (1 + x ^ 2) by (field; lra). nra.
  Qed.
  Lemma inv_lim (M a : R) : is_lim (fun X => M / (X - a)) p_infty 0.
  Proof.
    apply is_lim_spec. intros eps. exists (Rmax (a + 1) (a + (Rabs M + 1) / eps)). intros x Hx. pose proof (Rmax_l (a + 1) (a + (Rabs M + 1) / eps)). pose proof (Rmax_r (a + 1) (a + (Rabs M + 1) / eps)). rewrite Rminus_0_r. pose proof (cond_pos eps).
    rewrite Rabs_div, (Rabs_pos_eq (x - a)) by lra. apply Rlt_div_l; [lra|]. assert ((Rabs M + 1) / eps < x - a) as L by lra. apply Rlt_div_l in L; lra.
  Qed.
  Lemma J_lim (l : R) : is_lim Lam p_infty l -> is_lim (fun X => RInt (fun w => w * gF eta c w) 0 X) p_infty (- (2 * c * l)).
  Proof.
    intros Hl. apply (is_lim_ext (fun X => (Phi (X + c) - Phi (X + - c)) - c * (Lam (X + c) + Lam (X + - c)))). { intros X. symmetry. apply J_eq. }
    replace (- (2 * c * l)) with (0 - c * (l + l)) by ring. apply (is_lim_minus' (fun X => Phi (X + c) - Phi (X + - c)) (fun X => c * (Lam (X + c) + Lam (X + - c))) p_infty 0 (c * (l + l))).
    - apply (is_lim_le_le_loc (fun X => - (2 * c * exp eta / (X - c))) (fun X => 2 * c * exp eta / (X - c))).
      + exists c. intros x Hx. pose proof (strip x Hx) as S. replace (2 * c * (exp eta / (x - c))) with (2 * c * exp eta / (x - c)) in S by (field; lra). apply Rabs_le_between in S. exact S.
      + replace (Finite 0) with (Rbar_opp 0) by (cbn; f_equal; ring). apply is_lim_opp. apply inv_lim.
      + apply inv_lim.
    - apply (is_lim_scal_l (fun X => Lam (X + c) + Lam (X + - c)) c p_infty (l + l)). apply (is_lim_plus' (fun X => Lam (X + c)) (fun X => Lam (X + - c))); now apply shift_lim.
  Qed.
  Lemma FD_cont (x : R) : continuous (fun v => v ^ 2 * FD eta v) x.
  Proof. apply (ex_derive_continuous (V := R_NormedModule)). unfold FD. pose proof (exp_pos (x ^ 2 - eta)) as A. auto_derive. unfold Rminus in *. cbn in A. lra. Qed.
  Lemma N_eq X : RInt (fun v => v ^ 2 * FD eta v) 0 X = 1 / 2 * (Lam X - X * lnF eta X).
  Proof.
    assert (forall x : R, is_derive (fun X => RInt (fun v => v ^ 2 * FD eta v) 0 X - 1 / 2 * (Lam X - X * lnF eta X)) x 0) as D.
    { intros x. refine (deq _ x (x ^ 2 * FD eta x - 1 / 2 * (lnF eta x - (1 * lnF eta x + x * (- 2 * x * FD eta x)))) 0 _ _); [field|].
      apply (is_derive_minus (V := R_NormedModule)); [apply (Int_derive (fun v => v ^ 2 * FD eta v)); apply FD_cont|]. apply is_derive_scal. apply (is_derive_minus (V := R_NormedModule)); [apply Int_derive, lnF_cont|].
      apply (is_derive_mult (fun x : R => x) (lnF eta) x); [apply (is_derive_id (K := R_AbsRing))|apply lnF_derive|intros; apply Rmult_comm]. }
    pose proof (const_derive _ D X 0) as E. cbn beta in E. unfold Lam in E at 2. rewrite !int0 in E. lra.
  Qed.
  Lemma N_lim (l : R) : is_lim Lam p_infty l -> is_lim (fun X => RInt (fun v => v ^ 2 * FD eta v) 0 X) p_infty (l / 2).
  Proof.
    intros Hl. apply (is_lim_ext (fun X => 1 / 2 * (Lam X - X * lnF eta X))). { intros X. symmetry. apply N_eq. }
    replace (l / 2) with (1 / 2 * (l - 0)) by field. apply (is_lim_scal_l (fun X => Lam X - X * lnF eta X) (1 / 2) p_infty (l - 0)). apply (is_lim_minus' Lam (fun X => X * lnF eta X) p_infty l 0); [exact Hl|].
    apply (is_lim_le_le_loc (fun X => 0) (fun X => exp eta / (X - 0))).
    - exists 0. intros x Hx. destruct (lnF_pos eta x) as [A B]. pose proof (exp_pos eta). split; [apply Rmult_le_pos; lra|]. rewrite Rminus_0_r. apply Rle_trans with (x * (exp eta / (1 + x ^ 2))); [apply Rmult_le_compat_l; lra|].
      replace (x * (exp eta / (1 + x ^ 2))) with (exp eta * (x / (1 + x ^ 2))) by (field; nra). unfold Rdiv at 2. apply Rmult_le_compat_l; [lra|]. apply div_le; [nra|]. apply Rmult_le_reg_l with x; [lra|]. replace (x * (/ x * (1 + x ^ 2))) with (1 + x ^ 2) by (field; lra). nra.
    - apply is_lim_const.
    - apply inv_lim.
  Qed.
End Sum.

(** ** C117 *)
Theorem C117_sum_rule : forall u k T mu, 0 < k -> 0 < T -> exists n, 0 < n /\
  is_lim (fun X => RInt (fun q => q ^ 2 * fermi_dirac u q mu T) 0 X) p_infty (PI ^ 2 * n) /\
  is_lim (fun X => RInt (fun E => E * imag_no_damping u k E mu T) 0 X) p_infty (PI / 2 * (hbar u * plasma_frequency u n) ^ 2).
Proof.
  intros u k T mu Hk HT. destruct (t_sq u T HT) as [Ht Et]. cpos u. pose proof PI_RGT_0 as HPI. set (eta := mu / (kB u * T)). set (t := thermal_unit u T) in *. destruct (Lam_lim eta) as (l & Hl & L). set (n := l / (2 * PI ^ 2 * t ^ 3)).
  assert (0 < t ^ 3) by (apply pow_lt; lra). assert (0 < PI ^ 2) by (apply pow_lt; lra). assert (0 < n) as Hn by (unfold n; apply Rdiv_lt_0_compat; [lra|]; repeat (assumption || lra || apply Rmult_lt_0_compat)). exists n. split; [exact Hn|]. split.
  - apply (is_lim_ext (fun X => / t ^ 3 * RInt (fun v => v ^ 2 * FD eta v) 0 (X * t))).
    + intros X. replace (X * t) with (X / / t) by (field; lra). assert (0 < / t) as Hi by (apply Rinv_0_lt_compat; lra). pose proof (stretch (fun v => v ^ 2 * FD eta v) (/ t) X Hi (FD_cont eta)) as S.
      pose (v1 := RInt (fun v => v ^ 2 * FD eta v) 0 (X / / t) : R). change (RInt (fun w => (w / / t) ^ 2 * FD eta (w / / t)) 0 X = / t * v1) in S.
      transitivity (/ t ^ 2 * (/ t * v1)). { fold v1. field. lra. } rewrite <- S. rewrite <- (RInt_scal (V := R_CompleteNormedModule)). 2:{ apply Int_ex. intros x. apply (continuous_comp (fun w => w / / t) (fun v => v ^ 2 * FD eta v)); [|apply FD_cont]. apply (ex_derive_continuous (V := R_NormedModule)). auto_derive. exact I. }
      apply RInt_ext. intros x _. unfold eta. rewrite <- (fd_eq u T mu HT). fold t. replace (x / / t / t) with x by (field; lra). change (/ t ^ 2 * ((x / / t) ^ 2 * fermi_dirac u x mu T) = x ^ 2 * fermi_dirac u x mu T). field. lra.
    + replace (PI ^ 2 * n) with (/ t ^ 3 * (l / 2)) by (unfold n; field; repeat split; lra). apply (is_lim_scal_l (fun X => RInt (fun v => v ^ 2 * FD eta v) 0 (X * t)) (/ t ^ 3) p_infty (l / 2)). apply (scale_lim (fun X => RInt (fun v => v ^ 2 * FD eta v) 0 X)); [exact Ht|]. now apply N_lim.
  - set (c := k * t / 2). assert (0 < c) as Hc by (unfold c; assert (0 < k * t) by (now apply Rmult_lt_0_compat); lra). set (r := m_e u * t / (hbar u ^ 2 * k)). assert (0 < hbar u ^ 2) by (apply pow_lt; lra). assert (0 < r) as Hr by (unfold r; repeat (assumption || lra || apply Rdiv_lt_0_compat || apply Rmult_lt_0_compat)).
    set (s := strength u k T). apply (is_lim_ext (fun X => - (s * PI) / r ^ 2 * RInt (fun w => w * gF eta c w) 0 (X * r))).
    + intros X. replace (X * r) with (X / / r) by (field; lra). assert (0 < / r) as Hi by (apply Rinv_0_lt_compat; lra). pose proof (stretch (fun w => w * gF eta c w) (/ r) X Hi (gF_cont eta c)) as S.
      pose (v1 := RInt (fun w => w * gF eta c w) 0 (X / / r) : R). change (RInt (fun w => (w / / r) * gF eta c (w / / r)) 0 X = / r * v1) in S.
      transitivity (- (s * PI) / r * (/ r * v1)). { fold v1. field. lra. } rewrite <- S. rewrite <- (RInt_scal (V := R_CompleteNormedModule)). 2:{ apply Int_ex. intros x. apply (continuous_comp (fun w => w / / r) (fun w => w * gF eta c w)); [|apply gF_cont]. apply (ex_derive_continuous (V := R_NormedModule)). auto_derive. exact I. }
      apply RInt_ext. intros x _. rewrite undamped by assumption. fold eta t c s. rewrite red_eq by assumption. fold t. replace (x / hbar u * m_e u / (hbar u * k) * t) with (x / / r) by (unfold r; field; repeat split; lra).
      change (- (s * PI) / r * (x / / r * gF eta c (x / / r)) = x * - (s * (PI * gF eta c (x / / r)))). set (g := gF eta c (x / / r)). clearbody g. field. lra.
    + replace (PI / 2 * (hbar u * plasma_frequency u n) ^ 2) with (- (s * PI) / r ^ 2 * (- (2 * c * l))).
      * apply (is_lim_scal_l (fun X => RInt (fun w => w * gF eta c w) 0 (X * r)) (- (s * PI) / r ^ 2) p_infty (- (2 * c * l))). apply (scale_lim (fun X => RInt (fun w => w * gF eta c w) 0 X)); [exact Hr|]. apply J_lim; [lra|exact L].
      * rewrite Rpow_mult_distr. unfold plasma_frequency. rewrite pow2_sqrt. 2:{ apply Rdiv_le_0_compat; [|nra]. apply Rmult_le_pos; [apply pow2_ge_0|lra]. } unfold s, strength, r, c, n. fold t. field. repeat split; lra.
Qed.
Print Assumptions C117_sum_rule.
(** an instance: some density, positive, with the sum rule *)
Example C117_instance : exists n, 0 < n /\
  is_lim (fun X => RInt (fun q => q ^ 2 * fermi_dirac unit_consts q (- 3) 2) 0 X) p_infty (PI ^ 2 * n) /\
  is_lim (fun X => RInt (fun E => E * imag_no_damping unit_consts (1 / 2) E (- 3) 2) 0 X) p_infty (PI / 2 * (hbar unit_consts * plasma_frequency unit_consts n) ^ 2).
Proof. apply C117_sum_rule; lra. Qed.
