(** Both forms of the damped random phase approximation as integrals over
    reduced wavenumbers. *)
From Coq Require Import Reals List Lra Lia Psatz.
From Coquelicot Require Import Coquelicot.
From Verif Require Import M_Const M_PlasmaState M_PlasmaPhysics L_PlasmaPhysics M_Interp M_FreeFree L_FreeFree L_LFC L_RPA.
Import ListNotations.
Open Scope R_scope.

(** dispersive and absorptive Lorentzians and their odd combinations *)
Definition lor_p (d y : R) : R := y / (d ^ 2 + y ^ 2).
Definition lor_s (d y : R) : R := d / (d ^ 2 + y ^ 2).
Definition P_re (d r y : R) : R := lor_p d (y + r) + lor_p d (y - r).
Definition P_im (d r y : R) : R := lor_s d (y + r) - lor_s d (y - r).
Definition ratio (d r c x : R) : R :=
  ((d ^ 2 + (r - c - x) ^ 2) * (d ^ 2 + (r + c + x) ^ 2)) / ((d ^ 2 + (r - c + x) ^ 2) * (d ^ 2 + (r + c - x) ^ 2)).
Definition atans (d r c x : R) : R := atan ((r - c - x) / d) + atan ((r + c + x) / d) - atan ((r - c + x) / d) - atan ((r + c - x) / d).

Section Lor.
  Variable d : R.
  Hypothesis Hd : d <> 0.
  Lemma den_pos y : 0 < d ^ 2 + y ^ 2.
  Proof. pose proof (pow2_ge_0 y). assert (0 < d ^ 2); [|lra]. replace (d ^ 2) with (Rsqr d) by (unfold Rsqr; ring). now apply Rlt_0_sqr. Qed.
  Lemma abs_quot a y : Rabs a * Rabs d <= d ^ 2 + y ^ 2 -> Rabs (a / (d ^ 2 + y ^ 2)) <= / Rabs d.
  Proof.
    intros H. pose proof (den_pos y) as D. unfold Rdiv. rewrite Rabs_mult, Rabs_inv, (Rabs_pos_eq (d ^ 2 + y ^ 2)) by lra. assert (0 < Rabs d) by (now apply Rabs_pos_lt).
    apply (div_le (Rabs a) (/ Rabs d)); [exact D|]. rewrite Rmult_comm. apply le_div; assumption.
  Qed.
  Lemma lor_p_bound y : Rabs (lor_p d y) <= / Rabs d.
  Proof. apply abs_quot. assert (Rabs y ^ 2 = y ^ 2) by apply pow2_abs. assert (Rabs d ^ 2 = d ^ 2) by apply pow2_abs. nra. Qed.
  Lemma lor_s_bound y : Rabs (lor_s d y) <= / Rabs d.
  Proof. apply abs_quot. assert (Rabs d ^ 2 = d ^ 2) by apply pow2_abs. nra. Qed.
  Lemma P_re_odd r y : P_re d r (- y) = - P_re d r y.
  Proof. unfold P_re, lor_p. pose proof (den_pos (y + r)). pose proof (den_pos (y - r)). replace ((- y + r) ^ 2) with ((y - r) ^ 2) by ring. replace ((- y - r) ^ 2) with ((y + r) ^ 2) by ring. field. lra. Qed.
  Lemma P_im_odd r y : P_im d r (- y) = - P_im d r y.
  Proof. unfold P_im, lor_s. pose proof (den_pos (y + r)). pose proof (den_pos (y - r)). replace ((- y + r) ^ 2) with ((y - r) ^ 2) by ring. replace ((- y - r) ^ 2) with ((y + r) ^ 2) by ring. field. lra. Qed.
  Lemma P_re_bound r y : Rabs (P_re d r y) <= 2 / Rabs d.
  Proof. unfold P_re. eapply Rle_trans; [apply Rabs_triang|]. pose proof (lor_p_bound (y + r)). pose proof (lor_p_bound (y - r)). unfold Rdiv. lra. Qed.
  Lemma P_im_bound r y : Rabs (P_im d r y) <= 2 / Rabs d.
  Proof. unfold P_im, Rminus. eapply Rle_trans; [apply Rabs_triang|]. rewrite Rabs_Ropp. pose proof (lor_s_bound (y + r)). pose proof (lor_s_bound (y + - r)). unfold Rdiv. lra. Qed.
  Lemma P_re_cont r (y : R) : continuous (P_re d r) y.
  Proof. apply (ex_derive_continuous (V := R_NormedModule)). unfold P_re, lor_p. pose proof (den_pos (y + r)) as A. pose proof (den_pos (y - r)) as B. cbn in A, B. auto_derive. unfold Rminus in B. repeat split; lra. Qed.
  Lemma P_im_cont r (y : R) : continuous (P_im d r) y.
  Proof. apply (ex_derive_continuous (V := R_NormedModule)). unfold P_im, lor_s. pose proof (den_pos (y + r)) as A. pose proof (den_pos (y - r)) as B. cbn in A, B. auto_derive. unfold Rminus in B. repeat split; lra. Qed.
  Lemma ratio_pos r c x : 0 < ratio d r c x.
  Proof. unfold ratio. apply Rdiv_lt_0_compat; apply Rmult_lt_0_compat; apply den_pos. Qed.
  Lemma ratio_ln r c x : ln (ratio d r c x) = ln (d ^ 2 + (r - c - x) ^ 2) + ln (d ^ 2 + (r + c + x) ^ 2) - ln (d ^ 2 + (r - c + x) ^ 2) - ln (d ^ 2 + (r + c - x) ^ 2).
  Proof. unfold ratio. rewrite ln_div by (apply Rmult_lt_0_compat; apply den_pos). rewrite !ln_mult by apply den_pos. ring. Qed.
  Lemma ratio_derive r c (x : R) : is_derive (fun x => ln (ratio d r c x)) x (2 * (P_re d r (x + c) - P_re d r (x - c))).
  Proof.
    apply (is_derive_ext (fun x => ln (d ^ 2 + (r - c - x) ^ 2) + ln (d ^ 2 + (r + c + x) ^ 2) - ln (d ^ 2 + (r - c + x) ^ 2) - ln (d ^ 2 + (r + c - x) ^ 2))); [intros t; symmetry; apply ratio_ln|].
    pose proof (den_pos (r - c - x)) as D1. pose proof (den_pos (r + c + x)) as D2. pose proof (den_pos (r - c + x)) as D3. pose proof (den_pos (r + c - x)) as D4.
    auto_derive; [unfold Rminus in *; cbn in D1, D2, D3, D4; repeat split; lra|]. unfold P_re, lor_p.
    replace ((x + c + r) ^ 2) with ((r + c + x) ^ 2) by ring. replace ((x + c - r) ^ 2) with ((r - c - x) ^ 2) by ring. replace ((x - c + r) ^ 2) with ((r - c + x) ^ 2) by ring. replace ((x - c - r) ^ 2) with ((r + c - x) ^ 2) by ring.
    unfold Rminus in *. cbn in *. field. repeat split; lra.
  Qed.
  Lemma atans_derive r c (x : R) : is_derive (fun x => 2 * atans d r c x) x (2 * (P_im d r (x + c) - P_im d r (x - c))).
  Proof.
    apply is_derive_scal. unfold atans.
    pose proof (den_pos (r - c - x)) as D1. pose proof (den_pos (r + c + x)) as D2. pose proof (den_pos (r - c + x)) as D3. pose proof (den_pos (r + c - x)) as D4.
    auto_derive; [exact I|]. unfold P_im, lor_s.
    replace ((x + c + r) ^ 2) with ((r + c + x) ^ 2) by ring. replace ((x + c - r) ^ 2) with ((r - c - x) ^ 2) by ring. replace ((x - c + r) ^ 2) with ((r - c + x) ^ 2) by ring. replace ((x - c - r) ^ 2) with ((r + c - x) ^ 2) by ring.
    unfold Rsqr, Rminus in *. set (a := r + - c + - x) in *. set (b := r + c + x) in *. set (e := r + - c + x) in *. set (f := r + c + - x) in *.
    assert (forall y, 0 < d ^ 2 + y ^ 2 -> 1 + y * / d * (y * / d * 1) = (d ^ 2 + y ^ 2) / d ^ 2) as Q by (intros y _; field; exact Hd).
    rewrite !Q by assumption. clear Q. field. repeat split; (exact Hd || lra).
  Qed.
  Lemma ratio_0 r c : ln (ratio d r c 0) = 0.
  Proof. rewrite ratio_ln. rewrite !Rminus_0_r, !Rplus_0_r. ring. Qed.
  Lemma atans_0 r c : 2 * atans d r c 0 = 0.
  Proof. unfold atans. rewrite !Rminus_0_r, !Rplus_0_r. ring. Qed.
End Lor.

Section Forms.
  Variable u : consts.
  Variable quad : R -> option R -> (R -> option R) -> option R.
  Hypothesis Hq : oquad_exact quad.
  Variables k T mu : R.
  Hypothesis Hk : 0 < k.
  Hypothesis HT : 0 < T.
  Let t := thermal_unit u T.
  Let eta := mu / (kB u * T).
  Let c := k * t / 2.

  Lemma t_sq : 0 < t /\ t ^ 2 = hbar u ^ 2 / (2 * m_e u) / (kB u * T).
  Proof.
    cpos u. assert (0 < hbar u ^ 2) by (apply pow_lt; lra). assert (0 < hbar u ^ 2 / (2 * m_e u) / (kB u * T)) by (repeat (assumption || lra || apply Rdiv_lt_0_compat || apply Rmult_lt_0_compat)).
    unfold t, thermal_unit. split; [now apply sqrt_lt_R0|]. apply pow2_sqrt. lra.
  Qed.
  Lemma sq_eq a b : 0 <= a -> 0 <= b -> a ^ 2 = b ^ 2 -> a = b.
  Proof. intros A B E. rewrite <- (sqrt_pow2 a A), <- (sqrt_pow2 b B), E. reflexivity. Qed.
  Lemma red_eq E : red_w u k E T = E / hbar u * m_e u / (hbar u * k) * t.
  Proof.
    destruct t_sq as [Ht Et]. cpos u. unfold red_w. assert (sqrt 2 * sqrt (kB u * T / m_e u) = hbar u / (m_e u * t)) as ->; [|field; repeat split; lra].
    assert (0 < kB u * T / m_e u) by (repeat (assumption || lra || apply Rdiv_lt_0_compat || apply Rmult_lt_0_compat)).
    apply sq_eq; [apply Rmult_le_pos; apply sqrt_pos|left; repeat (assumption || apply Rdiv_lt_0_compat || apply Rmult_lt_0_compat)|].
    rewrite Rpow_mult_distr, !pow2_sqrt by lra. replace ((hbar u / (m_e u * t)) ^ 2) with (hbar u ^ 2 / (m_e u ^ 2 * t ^ 2)) by (field; split; lra). rewrite Et. field. repeat split; lra.
  Qed.
  Lemma kap_eq : kap_rewrite u k T = c.
  Proof.
    destruct t_sq as [Ht Et]. cpos u. unfold kap_rewrite, c. assert (sqrt (2 * m_e u * kB u * T) = hbar u / t) as ->; [|field; repeat split; lra].
    assert (0 < 2 * m_e u * kB u * T) by (repeat (assumption || lra || apply Rmult_lt_0_compat)).
    apply sq_eq; [apply sqrt_pos|left; apply Rdiv_lt_0_compat; lra|]. rewrite pow2_sqrt by lra. replace ((hbar u / t) ^ 2) with (hbar u ^ 2 / t ^ 2) by (field; lra). rewrite Et. field. repeat split; lra.
  Qed.
  Definition strength : R := e_ch u ^ 2 * m_e u / (4 * PI ^ 2 * eps0 u * hbar u ^ 2 * k ^ 3) / t ^ 2.
  Lemma pref_eq : pref_rewrite u k T * coulomb_k u (-1) (-1) k = strength.
  Proof.
    destruct t_sq as [Ht Et]. cpos u. pose proof PI_RGT_0. unfold pref_rewrite. rewrite kap_eq. 
    assert (m_e u * kB u * T / (2 * PI * hbar u ^ 2) = 1 / (4 * PI * t ^ 2)) as -> by (rewrite Et; field; repeat split; lra).
    assert (0 < 1 / (4 * PI * t ^ 2)) by (apply Rdiv_lt_0_compat; [lra|]; apply Rmult_lt_0_compat; [lra|apply pow_lt; lra]). rewrite rp32 by assumption.
    assert (0 < sqrt PI) by (apply sqrt_lt_R0; lra). assert (sqrt PI ^ 2 = PI) as EP by (apply pow2_sqrt; lra).
    assert (sqrt (1 / (4 * PI * t ^ 2)) = 1 / (2 * sqrt PI * t)) as ->.
    { apply sq_eq; [apply sqrt_pos|left; apply Rdiv_lt_0_compat; [lra|]; repeat (assumption || lra || apply Rmult_lt_0_compat)|]. rewrite pow2_sqrt by lra. rewrite <- EP at 1. field. repeat split; lra. }
    unfold strength, coulomb_k, c. 
    replace (1 / (2 * sqrt PI * (kB u * T) * (k * t / 2) / (1 / (4 * PI * t ^ 2) * (1 / (2 * sqrt PI * t)))) * (1 / eps0 u * (-1 * -1 * e_ch u ^ 2) / k ^ 2))
      with (e_ch u ^ 2 / (eps0 u * k ^ 3 * (8 * PI * sqrt PI ^ 2 * (kB u * T) * t ^ 2 * t ^ 2))) by (field; repeat split; lra).
    rewrite EP. rewrite Et at 1. field. repeat split; lra.
  Qed.
  Lemma fd_eq x : fermi_dirac u (x / t) mu T = FD eta x.
  Proof.
    destruct t_sq as [Ht Et]. cpos u. unfold fermi_dirac, FD, kin_energy, eta. assert ((hbar u ^ 2 * (x / t) ^ 2 / (2 * m_e u) - mu) / (kB u * T) = x ^ 2 - mu / (kB u * T)) as ->.
    { replace ((x / t) ^ 2) with (x ^ 2 / t ^ 2) by (field; lra). rewrite Et. field. repeat split; lra. }
    f_equal. ring.
  Qed.
  Lemma real_integrand kappa delta x : delta <> 0 ->
    integrand_real_RPA u t k kappa delta mu T x = Some (x * FD eta x * ln (ratio (delta * t) (kappa * t) c x)).
  Proof.
    intros Hd. destruct t_sq as [Ht Et]. pose proof (den_pos delta Hd) as D. assert (delta * t <> 0) as Hdt by (apply Rmult_integral_contrapositive_currified; lra).
    unfold integrand_real_RPA. cbv zeta. rewrite qdiv_some. 2:{ apply Rgt_not_eq. apply Rmult_lt_0_compat; apply D. }
    cbn [obind]. replace ((delta ^ 2 + (kappa - k / 2 - x / t) ^ 2) * (delta ^ 2 + (kappa + k / 2 + x / t) ^ 2) / ((delta ^ 2 + (kappa - k / 2 + x / t) ^ 2) * (delta ^ 2 + (kappa + k / 2 - x / t) ^ 2))) with (ratio (delta * t) (kappa * t) c x).
    2:{ unfold ratio, c. replace ((delta * t) ^ 2 + (kappa * t - k * t / 2 - x) ^ 2) with (t ^ 2 * (delta ^ 2 + (kappa - k / 2 - x / t) ^ 2)) by (field; lra).
        replace ((delta * t) ^ 2 + (kappa * t + k * t / 2 + x) ^ 2) with (t ^ 2 * (delta ^ 2 + (kappa + k / 2 + x / t) ^ 2)) by (field; lra).
        replace ((delta * t) ^ 2 + (kappa * t - k * t / 2 + x) ^ 2) with (t ^ 2 * (delta ^ 2 + (kappa - k / 2 + x / t) ^ 2)) by (field; lra).
        replace ((delta * t) ^ 2 + (kappa * t + k * t / 2 - x) ^ 2) with (t ^ 2 * (delta ^ 2 + (kappa + k / 2 - x / t) ^ 2)) by (field; lra).
        pose proof (D (kappa - k / 2 + x / t)). pose proof (D (kappa + k / 2 - x / t)). set (a1 := delta ^ 2 + (kappa - k / 2 - x / t) ^ 2). set (a2 := delta ^ 2 + (kappa + k / 2 + x / t) ^ 2). set (a3 := delta ^ 2 + (kappa - k / 2 + x / t) ^ 2) in *. set (a4 := delta ^ 2 + (kappa + k / 2 - x / t) ^ 2) in *. field. repeat split; lra. }
    unfold lno. destruct (Rlt_dec 0 (ratio (delta * t) (kappa * t) c x)) as [_|N]; [|exfalso; apply N; now apply ratio_pos]. cbn [obind]. rewrite fd_eq. f_equal. field. lra.
  Qed.
  Lemma imag_integrand kappa delta x : delta <> 0 ->
    integrand_imag_RPA u t k kappa delta mu T x = Some (x * FD eta x * atans (delta * t) (kappa * t) c x).
  Proof.
    intros Hd. destruct t_sq as [Ht Et]. unfold integrand_imag_RPA. cbv zeta. rewrite !qdiv_some by exact Hd. cbn [obind]. rewrite fd_eq. f_equal. unfold atans, c.
    replace ((kappa * t - k * t / 2 - x) / (delta * t)) with ((kappa - k / 2 - x / t) / delta) by (field; lra).
    replace ((kappa * t + k * t / 2 + x) / (delta * t)) with ((kappa + k / 2 + x / t) / delta) by (field; lra).
    replace ((kappa * t - k * t / 2 + x) / (delta * t)) with ((kappa - k / 2 + x / t) / delta) by (field; lra).
    replace ((kappa * t + k * t / 2 - x) / (delta * t)) with ((kappa + k / 2 - x / t) / delta) by (field; lra). field. lra.
  Qed.

  Definition dF (w : R) : R := lnF eta (w + c) - lnF eta (w - c).
  Lemma dF_ln w : dF w = ln (1 + exp (eta - (w + c) ^ 2)) - ln (1 + exp (eta - (w - c) ^ 2)).
  Proof. reflexivity. Qed.
  Lemma re_rewrite unit r d w : d <> 0 -> integrand_real_rewrite unit r d c eta w = Some (dF (w / unit) * P_re d r (w / unit)).
  Proof.
    intros Hd. unfold integrand_real_rewrite. cbv zeta. pose proof (den_pos d Hd) as D. pose proof (D (w / unit - r)). pose proof (D (w / unit + r)). rewrite !qdiv_some by lra. cbn [obind]. rewrite <- dF_ln. f_equal. unfold P_re, lor_p. rewrite !(Rplus_comm (d ^ 2)). ring.
  Qed.
  Lemma im_rewrite unit r d w : d <> 0 -> integrand_imag_rewrite unit r d c eta w = Some (- (dF (w / unit) * P_im d r (w / unit))).
  Proof.
    intros Hd. unfold integrand_imag_rewrite. cbv zeta. pose proof (den_pos d Hd) as D. pose proof (D (w / unit - r)). pose proof (D (w / unit + r)). rewrite !qdiv_some by lra. cbn [obind].
    rewrite ln_div by (pose proof (exp_pos (eta - (w / unit + c) ^ 2)); pose proof (exp_pos (eta - (w / unit - c) ^ 2)); lra). rewrite <- dF_ln. f_equal. unfold P_im, lor_s. set (y := w / unit) in *. field. lra.
  Qed.

  (** a stretched variable *)
  Lemma stretch (g : R -> R) s X : 0 < s -> (forall x : R, continuous g x) -> RInt (fun w => g (w / s)) 0 X = s * RInt g 0 (X / s).
  Proof.
    intros Hs Hg. assert (forall x : R, continuous (fun w => g (w / s)) x) as Cs. { intros x. apply (continuous_comp (fun w => w / s) g); [|apply Hg]. apply (ex_derive_continuous (V := R_NormedModule)). auto_derive. exact I. }
    assert (forall x : R, is_derive (fun X => RInt (fun w => g (w / s)) 0 X - s * RInt g 0 (X / s)) x 0) as D.
    { intros x. refine (deq _ x (g (x / s) - s * (/ s * g (x / s))) 0 _ _); [field; lra|]. apply (is_derive_minus (V := R_NormedModule)); [exact (Int_derive _ 0 x Cs)|]. apply is_derive_scal.
      apply (is_derive_comp (K := R_AbsRing) (V := R_NormedModule) (fun y => RInt g 0 y) (fun x => x / s)); [now apply Int_derive|]. auto_derive; [exact I|field; lra]. }
    pose proof (const_derive _ D X 0) as E. cbn beta in E. replace (0 / s) with 0 in E by (field; lra). rewrite !RInt_point in E.
    change (RInt (fun w => g (w / s)) 0 X - s * RInt g 0 (X / s) = 0 - s * 0) in E. apply Rminus_diag_uniq. rewrite E. ring.
  Qed.
  Lemma halves (g : R -> R) s K : 0 < s -> (forall x : R, continuous g x) -> is_lim (fun X => RInt g 0 X) p_infty (Finite K) ->
    forall f, (forall w, f w = Some (g (w / s))) -> exists I1 I2, quad 0 (Some 1) f = Some I1 /\ quad 1 None f = Some I2 /\ (I1 + I2) * (1 / s) = K.
  Proof.
    intros Hs Hg HK f Hf. destruct Hq as [Q1 Q2]. set (gs := fun w => g (w / s)). assert (forall x : R, continuous gs x) as Cs. { intros x. apply (continuous_comp (fun w => w / s) g); [|apply Hg]. apply (ex_derive_continuous (V := R_NormedModule)). auto_derive. exact I. }
    exists (RInt gs 0 1), (s * K - RInt gs 0 1). split; [|split].
    - apply (Q1 0 1 f gs); [lra|intros x _; apply Hf|]. apply (RInt_correct (V := R_CompleteNormedModule)). now apply Int_ex.
    - apply (Q2 1 f gs); [intros x _; apply Hf|intros X _; now apply Int_ex|]. apply (is_lim_ext (fun X => s * RInt g 0 (X / s) - RInt gs 0 1)).
      + intros X. rewrite <- (stretch g s X Hs Hg). fold gs. pose proof (RInt_Chasles (V := R_CompleteNormedModule) gs 0 1 X (Int_ex _ _ _ Cs) (Int_ex _ _ _ Cs)) as E. change (RInt gs 0 1 + RInt gs 1 X = RInt gs 0 X) in E. lra.
      + apply (is_lim_minus' _ _ _ (s * K) (RInt gs 0 1)); [|apply is_lim_const].
        apply (is_lim_scal_l (fun X => RInt g 0 (X / s)) s p_infty K). apply (is_lim_comp (fun X => RInt g 0 X) (fun X => X / s) p_infty K p_infty); [exact HK| |exists 0; intros; discriminate].
        apply is_lim_spec. intros M. exists (M * s). intros X HX. apply Rlt_div_r; assumption.
    - field. lra.
  Qed.
  Lemma part_exact F (g : R -> R) E K : fst E <> 0 -> (forall x : R, continuous g x) -> is_lim (fun X => RInt g 0 X) p_infty (Finite K) ->
    (forall unit w, F unit (red_w u k (fst E) T) (red_w u k (snd E) T) c eta w = Some (g (w / unit))) ->
    part_rewrite u quad F k E mu T = Some (strength * K).
  Proof.
    intros HE Hg HK HF. unfold part_rewrite. cbv zeta. rewrite kap_eq. fold eta. destruct t_sq as [Ht Et]. cpos u.
    assert (red_w u k (fst E) T <> 0) as Hr. { rewrite red_eq. unfold Rdiv. repeat apply Rmult_integral_contrapositive_currified; try lra; try (apply Rinv_neq_0_compat; try lra). apply Rmult_integral_contrapositive_currified; lra. }
    destruct (Req_EM_T (red_w u k (fst E) T) 0) as [?|_]; [contradiction|]. set (s := 1 / Rabs (red_w u k (fst E) T)). assert (0 < s) as Hs by (unfold s; apply Rdiv_lt_0_compat; [lra|now apply Rabs_pos_lt]).
    destruct (halves g s K Hs Hg HK (F s (red_w u k (fst E) T) (red_w u k (snd E) T) c eta)) as (I1 & I2 & E1 & E2 & E3); [intros w; apply HF|]. rewrite E1. cbn [obind]. rewrite E2. cbn [obind]. rewrite E3, <- pref_eq. f_equal. ring.
  Qed.

  (** both forms *)
  Theorem two_forms E : snd E <> 0 -> exists K1 K2 : R,
    is_lim (fun X => RInt (fun w => dF w * P_re (red_w u k (snd E) T) (red_w u k (fst E) T) w) 0 X) p_infty (Finite K1) /\
    is_lim (fun X => RInt (fun w => dF w * P_im (red_w u k (snd E) T) (red_w u k (fst E) T) w) 0 X) p_infty (Finite K2) /\
    dielectric_function_RPA u quad k E mu T = Some (1 - strength * K1, strength * K2) /\
    (fst E <> 0 -> dielectric_function_RPA_rewrite u quad k E mu T = Some (1 - strength * K1, strength * K2)).
  Proof.
    intros HE1. destruct t_sq as [Ht Et]. cpos u. set (d := red_w u k (snd E) T). set (r := red_w u k (fst E) T).
    assert (snd E / hbar u * m_e u / (hbar u * k) <> 0) as Hdel. { unfold Rdiv. repeat apply Rmult_integral_contrapositive_currified; try lra; try (apply Rinv_neq_0_compat; try lra). apply Rmult_integral_contrapositive_currified; lra. }
    assert (d <> 0) as Hd by (unfold d; rewrite red_eq; apply Rmult_integral_contrapositive_currified; lra).
    assert (0 <= c) as Hc by (unfold c; apply Rdiv_le_0_compat; [apply Rmult_le_pos; lra|lra]). assert (0 <= 2 / Rabs d) as HB by (apply Rdiv_le_0_compat; [lra|now apply Rabs_pos_lt]).
    destruct (opposite eta c (2 / Rabs d) (P_re d r) (fun x => ln (ratio d r c x)) HB Hc (P_re_odd d Hd r) (P_re_cont d Hd r) (P_re_bound d Hd r) (ratio_derive d Hd r c) (ratio_0 d Hd r c)) as (K1 & L1 & J1).
    destruct (opposite eta c (2 / Rabs d) (P_im d r) (fun x => 2 * atans d r c x) HB Hc (P_im_odd d Hd r) (P_im_cont d Hd r) (P_im_bound d Hd r) (atans_derive d Hd r c) (atans_0 d r c)) as (K2 & L2 & J2).
    assert (forall x : R, continuous (fun x => x * FD eta x * ln (ratio d r c x)) x) as C1 by (intros x; apply (f1_cont eta c (P_re d r)); exact (ratio_derive d Hd r c)).
    assert (forall x : R, continuous (fun x => x * FD eta x * (2 * atans d r c x)) x) as C2 by (intros x; apply (f1_cont eta c (P_im d r)); exact (atans_derive d Hd r c)).
    assert (forall x : R, continuous (fun w => dF w * P_re d r w) x) as C3 by (intros x; apply (f2_cont eta c); exact (P_re_cont d Hd r)).
    assert (forall x : R, continuous (fun w => dF w * P_im d r w) x) as C4 by (intros x; apply (f2_cont eta c); exact (P_im_cont d Hd r)).
    exists K1, K2. split; [exact L1|]. split; [exact L2|]. split.
    - unfold dielectric_function_RPA, real_RPA, imag_RPA. cbv zeta. destruct (Req_EM_T _ 0) as [?|_]; [contradiction|]. fold t.
      set (kappa := fst E / hbar u * m_e u / (hbar u * k)) in *. set (delta := snd E / hbar u * m_e u / (hbar u * k)) in *. assert (kappa * t = r) as Er by (unfold r; rewrite red_eq; reflexivity). assert (delta * t = d) as Ed by (unfold d; rewrite red_eq; reflexivity).
      destruct Hq as [_ Q2]. rewrite (Q2 0 _ (fun x => x * FD eta x * ln (ratio d r c x)) (- K1)); [|intros x _; rewrite real_integrand by exact Hdel; rewrite Er, Ed; reflexivity|intros X _; now apply Int_ex|exact J1]. cbn [obind].
      rewrite (Q2 0 _ (fun x => / 2 * (x * FD eta x * (2 * atans d r c x))) (/ 2 * - K2)).
      + cbn [obind]. do 2 f_equal; unfold strength; field; repeat split; try lra; pose proof PI_RGT_0; lra.
      + intros x _. rewrite imag_integrand by exact Hdel. rewrite Er, Ed. f_equal. field.
      + intros X _. apply Int_ex. intros x. apply (continuous_scal_r (V := R_NormedModule) (/ 2)). apply C2.
      + apply (is_lim_ext (fun X => / 2 * RInt (fun x => x * FD eta x * (2 * atans d r c x)) 0 X)). 2:{ apply (is_lim_scal_l _ (/ 2) p_infty (- K2)). exact J2. }
        intros X. symmetry. apply (RInt_scal (V := R_CompleteNormedModule) (fun x => x * FD eta x * (2 * atans d r c x)) 0 X (/ 2)). now apply Int_ex.
    - intros HE0. unfold dielectric_function_RPA_rewrite.
      rewrite (part_exact integrand_real_rewrite (fun w => dF w * P_re d r w) E K1 HE0 C3 L1); [|intros unit w; fold d r; apply re_rewrite; exact Hd]. cbn [obind].
      rewrite (part_exact integrand_imag_rewrite (fun w => - (dF w * P_im d r w)) E (- K2) HE0).
      + cbn [obind]. do 2 f_equal. ring.
      + intros x. apply (continuous_opp (V := R_NormedModule)). apply C4.
      + apply (is_lim_ext (fun X => - RInt (fun w => dF w * P_im d r w) 0 X)). 2:{ apply (is_lim_opp _ p_infty K2). exact L2. }
        intros X. symmetry. apply (RInt_opp (V := R_CompleteNormedModule) (fun w => dF w * P_im d r w) 0 X). now apply Int_ex.
      + intros unit w. fold d r. apply im_rewrite. exact Hd.
  Qed.
End Forms.

(** ** Small damping *)
Section Limit.
  Variables eta c r : R.
  Hypothesis Hc : 0 <= c.
  Hypothesis Hr : 0 < r.
  Let D w := - 2 * (w + c) * FD eta (w + c) - - 2 * (w - c) * FD eta (w - c).
  Definition gF (w : R) : R := lnF eta (w + c) - lnF eta (w - c).
  Lemma gF_derive (w : R) : is_derive gF w (D w).
  Proof.
    unfold gF, D. apply (is_derive_minus (V := R_NormedModule)).
    - replace (- 2 * (w + c) * FD eta (w + c)) with (1 * (- 2 * (w + c) * FD eta (w + c))) by ring. apply (is_derive_comp (K := R_AbsRing) (V := R_NormedModule) (lnF eta) (fun w => w + c)); [apply lnF_derive|]. auto_derive; [exact I|ring].
    - replace (- 2 * (w - c) * FD eta (w - c)) with (1 * (- 2 * (w - c) * FD eta (w - c))) by ring. apply (is_derive_comp (K := R_AbsRing) (V := R_NormedModule) (lnF eta) (fun w => w - c)); [apply lnF_derive|]. auto_derive; [exact I|ring].
  Qed.
  Lemma D_cont (w : R) : continuous D w.
  Proof. apply (ex_derive_continuous (V := R_NormedModule)). unfold D, FD. pose proof (exp_pos ((w + c) ^ 2 - eta)) as A. pose proof (exp_pos ((w - c) ^ 2 - eta)) as B. auto_derive. unfold Rminus in *. cbn in A, B. repeat split; lra. Qed.
  Lemma one_term x : Rabs (- 2 * x * FD eta x) <= 4 * exp eta / (1 + x ^ 2).
  Proof.
    pose proof (exp_pos eta) as He. pose proof (exp_pos (x ^ 2 - eta)) as E. pose proof (pow2_ge_0 x) as X2.
    assert (FD eta x <= exp eta / ((1 + x ^ 2 / 2) ^ 2)) as F.
    { unfold FD. apply Rle_trans with (exp eta * / exp (x ^ 2)).
      - replace (exp eta * / exp (x ^ 2)) with (1 / exp (x ^ 2 - eta)). 2:{ unfold Rminus. rewrite exp_plus, exp_Ropp. field. split; apply Rgt_not_eq, exp_pos. } unfold Rdiv. apply Rmult_le_compat_l; [lra|]. apply Rinv_le_contravar; lra.
      - unfold Rdiv. apply Rmult_le_compat_l; [lra|]. apply Rinv_le_contravar; [apply pow_lt; lra|]. replace (exp (x ^ 2)) with (exp (x ^ 2 / 2) ^ 2) by (rewrite <- (Rpower_pow 2) by apply exp_pos; unfold Rpower; rewrite ln_exp; f_equal; cbn; field). apply pow_incr. pose proof (exp_ineq1_le (x ^ 2 / 2)). lra. }
    assert (0 < FD eta x) as F0 by (unfold FD; apply Rdiv_lt_0_compat; lra).
    rewrite !Rabs_mult, (Rabs_pos_eq (FD eta x)), (Rabs_left (-2)) by lra. apply Rle_trans with (- - 2 * Rabs x * (exp eta / (1 + x ^ 2 / 2) ^ 2)); [apply Rmult_le_compat_l; [pose proof (Rabs_pos x); lra|exact F]|].
    replace (- - 2 * Rabs x * (exp eta / (1 + x ^ 2 / 2) ^ 2)) with (exp eta * (2 * Rabs x / (1 + x ^ 2 / 2) ^ 2)) by (field; lra). replace (4 * exp eta / (1 + x ^ 2)) with (exp eta * (4 / (1 + x ^ 2))) by (field; lra). apply Rmult_le_compat_l; [lra|].
    apply div_le; [apply pow_lt; lra|]. replace (4 / (1 + x ^ 2) * (1 + x ^ 2 / 2) ^ 2) with (4 * (1 + x ^ 2 / 2) ^ 2 / (1 + x ^ 2)) by (field; lra). apply le_div; [lra|]. rewrite <- (pow2_abs x) in *. set (a := Rabs x) in *. assert (0 <= a) by apply Rabs_pos. nra.
  Qed.
  Lemma D_bound w : 0 <= w -> Rabs (D w) <= 8 * exp eta / (1 + (w - c) ^ 2).
  Proof.
    intros Hw. unfold D. unfold Rminus at 1. eapply Rle_trans; [apply Rabs_triang|]. rewrite Rabs_Ropp. pose proof (one_term (w + c)) as A. pose proof (one_term (w - c)) as B. pose proof (exp_pos eta). pose proof (pow2_ge_0 (w - c)).
    assert (4 * exp eta / (1 + (w + c) ^ 2) <= 4 * exp eta / (1 + (w - c) ^ 2)). { unfold Rdiv. apply Rmult_le_compat_l; [lra|]. apply Rinv_le_contravar; [lra|]. nra. }
    replace (8 * exp eta / (1 + (w - c) ^ 2)) with (4 * exp eta / (1 + (w - c) ^ 2) + 4 * exp eta / (1 + (w - c) ^ 2)) by (field; lra). lra.
  Qed.
  Let M := 8 * exp eta.
  Lemma D_bound' w : 0 <= w -> Rabs (D w) <= M.
  Proof. intros Hw. eapply Rle_trans; [now apply D_bound|]. fold M. pose proof (pow2_ge_0 (w - c)). assert (0 < M) by (unfold M; pose proof (exp_pos eta); lra). apply div_le; nra. Qed.
  Lemma D_mass a b : 0 <= a <= b -> RInt (fun w => Rabs (D w)) a b <= M * PI.
  Proof.
    intros Hab. assert (0 < M) as HM by (unfold M; pose proof (exp_pos eta); lra). assert (forall x, 0 < 1 + (x - c) ^ 2) as Hd by (intros x; pose proof (pow2_ge_0 (x - c)); lra).
    assert (is_RInt (fun x => M / (1 + (x - c) ^ 2)) a b (M * atan (b - c) - M * atan (a - c))) as Ig.
    { refine (is_RInt_derive (V := R_CompleteNormedModule) (fun x => M * atan (x - c)) (fun x => M / (1 + (x - c) ^ 2)) a b _ _); intros x _.
      - auto_derive; [exact I|]; pose proof (Hd x) as D'; cbn in D'; unfold Rsqr; field; nra.
      - apply (ex_derive_continuous (V := R_NormedModule)). auto_derive. pose proof (Hd x) as D'; cbn in D'; nra. }
    apply Rle_trans with (M * atan (b - c) - M * atan (a - c)); [|pose proof (atan_bound (b - c)); pose proof (atan_bound (a - c)); nra].
    rewrite <- (is_RInt_unique _ _ _ _ Ig). apply RInt_le; [lra| |eexists; exact Ig|intros x Hx; apply D_bound; lra].
    apply Int_ex. intros x. apply (continuous_comp D Rabs); [apply D_cont|apply continuous_Rabs].
  Qed.
  Section Small.
    Variable d : R.
    Hypothesis Hd : 0 < d.
    Let A w := atan ((w + r) / d) - atan ((w - r) / d).
    Lemma A_derive (w : R) : is_derive A w (P_im d r w).
    Proof.
      unfold A, P_im, lor_s. pose proof (den_pos d ltac:(lra) (w + r)) as D1. pose proof (den_pos d ltac:(lra) (w - r)) as D2. auto_derive; [exact I|]. unfold Rsqr, Rminus in *. set (a := w + r) in *. set (b := w + - r) in *.
      assert (forall y, 0 < d ^ 2 + y ^ 2 -> 1 + y * / d * (y * / d * 1) = (d ^ 2 + y ^ 2) / d ^ 2) as Q by (intros y _; field; lra). rewrite !Q by assumption. field. repeat split; lra.
    Qed.
    Lemma A_cont (w : R) : continuous A w.
    Proof. apply (ex_derive_continuous (V := R_NormedModule)). eexists. apply A_derive. Qed.
    Lemma atan_tail y : 0 < y -> 0 <= PI / 2 - atan (y / d) <= d / y.
    Proof.
      intros Hy. pose proof (atan_bound (y / d)). split; [lra|]. assert (0 < y / d) by (apply Rdiv_lt_0_compat; lra). replace (PI / 2 - atan (y / d)) with (atan (/ (y / d))) by (now apply atan_inv).
      replace (/ (y / d)) with (d / y) by (field; lra). assert (0 < d / y) as P by (apply Rdiv_lt_0_compat; lra). set (z := d / y) in *.
      destruct (MVT_gen atan 0 z (fun x => / (1 + x ^ 2))) as (q & _ & E).
      - intros x _. auto_derive; [exact I|]. unfold Rsqr. field. nra.
      - intros x _. apply derivable_continuous_pt, derivable_pt_atan.
      - rewrite atan_0, !Rminus_0_r in E. rewrite E. replace z with (1 * z) at 2 by ring. apply Rmult_le_compat_r; [lra|]. pose proof (pow2_ge_0 q). rewrite <- Rinv_1. apply Rinv_le_contravar; lra.
    Qed.
    Lemma A_range w : 0 <= w -> 0 <= A w <= PI.
    Proof.
      intros Hw. unfold A. pose proof (atan_bound ((w + r) / d)). pose proof (atan_bound ((w - r) / d)). split; [|lra]. assert ((w - r) / d < (w + r) / d) by (apply Rmult_lt_compat_r; [now apply Rinv_0_lt_compat|lra]). pose proof (atan_increasing _ _ H1). lra.
    Qed.
    Lemma parts_d X : RInt (fun w => gF w * P_im d r w) 0 X = gF X * A X - RInt (fun w => D w * A w) 0 X.
    Proof.
      assert (forall x : R, continuous (fun w => gF w * P_im d r w) x) as C1. { intros x. apply (continuous_mult (K := R_AbsRing)); [|apply P_im_cont; lra]. apply (ex_derive_continuous (V := R_NormedModule)). eexists. apply gF_derive. }
      assert (forall x : R, continuous (fun w => D w * A w) x) as C2. { intros x. apply (continuous_mult (K := R_AbsRing)); [apply D_cont|apply A_cont]. }
      assert (forall s : R, is_derive (fun s => RInt (fun w => gF w * P_im d r w) 0 s - (gF s * A s - RInt (fun w => D w * A w) 0 s)) s 0) as DD.
      { intros s. refine (deq _ s (gF s * P_im d r s - ((D s * A s + gF s * P_im d r s) - D s * A s)) 0 _ _); [ring|]. apply (is_derive_minus (V := R_NormedModule)); [exact (Int_derive _ 0 s C1)|]. apply (is_derive_minus (V := R_NormedModule)); [|exact (Int_derive _ 0 s C2)].
        apply (is_derive_mult gF A s); [apply gF_derive|apply A_derive|intros; apply Rmult_comm]. }
      pose proof (const_derive _ DD X 0) as E. cbn beta in E. rewrite !RInt_point in E. assert (gF 0 = 0) as G0. { unfold gF. rewrite Rplus_0_l. replace (0 - c) with (- c) by ring. rewrite lnF_even. ring. } rewrite G0 in E.
      change (RInt (fun w => gF w * P_im d r w) 0 X - (gF X * A X - RInt (fun w => D w * A w) 0 X) = 0 - (0 * A 0 - 0)) in E. apply Rminus_diag_uniq. rewrite E. ring.
    Qed.
    (** a piece of the integral *)
    Lemma piece_le (f g : R -> R) a b : a <= b -> (forall x : R, continuous f x) -> (forall x : R, continuous g x) -> (forall x, a <= x <= b -> Rabs (f x) <= g x) -> Rabs (RInt f a b) <= RInt g a b.
    Proof.
      intros Hab Cf Cg H. assert (forall x : R, continuous (fun x => Rabs (f x)) x) as Ca by (intros x; apply (continuous_comp f Rabs); [apply Cf|apply continuous_Rabs]). eapply Rle_trans; [apply abs_RInt_le; [exact Hab|now apply Int_ex]|]. apply RInt_le; [exact Hab|now apply Int_ex|now apply Int_ex|]. intros x Hx. apply H. lra.
    Qed.
    Lemma split3 (f : R -> R) a b e : (forall x : R, continuous f x) -> RInt f a e = RInt f a b + RInt f b e.
    Proof. intros C. pose proof (RInt_Chasles (V := R_CompleteNormedModule) f a b e (Int_ex _ _ _ C) (Int_ex _ _ _ C)) as E. symmetry. exact E. Qed.
    Lemma below h : 0 < h <= r -> Rabs (RInt (fun w => D w * A w) 0 r - PI * gF r) <= 2 * (d / h) * (M * PI) + PI * M * h.
    Proof.
      intros Hh. set (f := fun w => D w * (A w - PI)). pose proof PI_RGT_0 as HP.
      assert (forall x : R, continuous f x) as Cf. { intros x. apply (continuous_mult (K := R_AbsRing)); [apply D_cont|]. apply (continuous_minus (V := R_NormedModule)); [apply A_cont|apply continuous_const]. }
      assert (forall x : R, continuous (fun w => D w * A w) x) as C2. { intros x. apply (continuous_mult (K := R_AbsRing)); [apply D_cont|apply A_cont]. }
      assert (is_RInt D 0 r (gF r - gF 0)) as ID by (refine (is_RInt_derive (V := R_CompleteNormedModule) gF D 0 r _ _); intros x _; [apply gF_derive|apply D_cont]).
      assert (gF 0 = 0) as G0. { unfold gF. rewrite Rplus_0_l. replace (0 - c) with (- c) by ring. rewrite lnF_even. ring. } rewrite G0, Rminus_0_r in ID.
      assert (RInt (fun w => D w * A w) 0 r - PI * gF r = RInt f 0 r) as ->.
      { rewrite <- (is_RInt_unique _ _ _ _ ID). assert (RInt f 0 r = RInt (fun w => D w * A w) 0 r - RInt (fun w => PI * D w) 0 r) as ->.
        - rewrite <- (RInt_minus (V := R_CompleteNormedModule) (fun w => D w * A w) (fun w => PI * D w)). 2: now apply Int_ex. 2:{ apply Int_ex. intros x. apply (continuous_scal_r (V := R_NormedModule) PI). apply D_cont. } apply RInt_ext. intros x _. unfold f, minus, plus, opp. cbn. ring.
        - f_equal. symmetry. apply (RInt_scal (V := R_CompleteNormedModule) D 0 r PI). apply Int_ex. exact D_cont. }
      rewrite (split3 f 0 (r - h) r Cf). eapply Rle_trans; [apply Rabs_triang|]. apply Rplus_le_compat.
      - apply Rle_trans with (RInt (fun w => 2 * (d / h) * Rabs (D w)) 0 (r - h)).
        + assert (forall x : R, continuous (fun x => Rabs (D x)) x) as Ca by (intros x; apply (continuous_comp D Rabs); [apply D_cont|apply continuous_Rabs]).
          apply piece_le; [lra|exact Cf|intros x; apply (continuous_scal_r (V := R_NormedModule) (2 * (d / h))); apply Ca|]. intros w Hw. unfold f. rewrite Rabs_mult, Rmult_comm. apply Rmult_le_compat_r; [apply Rabs_pos|].
          destruct (atan_tail (w + r) ltac:(lra)) as [T1 T2]. destruct (atan_tail (r - w) ltac:(lra)) as [T3 T4]. unfold A. replace ((w - r) / d) with (- ((r - w) / d)) by (field; lra). rewrite atan_opp.
          assert (d / (w + r) <= d / h) by (unfold Rdiv; apply Rmult_le_compat_l; [lra|]; apply Rinv_le_contravar; lra). assert (d / (r - w) <= d / h) by (unfold Rdiv; apply Rmult_le_compat_l; [lra|]; apply Rinv_le_contravar; lra). apply Rabs_le. lra.
        + assert (RInt (fun w => 2 * (d / h) * Rabs (D w)) 0 (r - h) = 2 * (d / h) * RInt (fun w => Rabs (D w)) 0 (r - h)) as ->.
          { apply (RInt_scal (V := R_CompleteNormedModule) (fun w => Rabs (D w)) 0 (r - h) (2 * (d / h))). apply Int_ex. intros x; apply (continuous_comp D Rabs); [apply D_cont|apply continuous_Rabs]. }
          assert (0 < d / h) by (apply Rdiv_lt_0_compat; lra). apply Rmult_le_compat_l; [lra|]. apply D_mass. lra.
      - replace (PI * M * h) with ((r - (r - h)) * (M * PI)) by ring. apply abs_RInt_le_const; [lra|now apply Int_ex|]. intros w Hw. unfold f. rewrite Rabs_mult. apply Rmult_le_compat; [apply Rabs_pos|apply Rabs_pos|apply D_bound'; lra|]. pose proof (A_range w ltac:(lra)). apply Rabs_le. lra.
    Qed.
    Lemma above h X : 0 < h -> r + h <= X -> Rabs (RInt (fun w => D w * A w) r X) <= d / h * (M * PI) + PI * M * h.
    Proof.
      intros Hh HX. pose proof PI_RGT_0 as HP. set (f := fun w => D w * A w). assert (forall x : R, continuous f x) as Cf. { intros x. apply (continuous_mult (K := R_AbsRing)); [apply D_cont|apply A_cont]. }
      rewrite (split3 f r (r + h) X Cf). eapply Rle_trans; [apply Rabs_triang|]. rewrite Rplus_comm. apply Rplus_le_compat.
      - assert (forall x : R, continuous (fun x => Rabs (D x)) x) as Ca by (intros x; apply (continuous_comp D Rabs); [apply D_cont|apply continuous_Rabs]).
        apply Rle_trans with (RInt (fun w => d / h * Rabs (D w)) (r + h) X).
        + apply piece_le; [lra|exact Cf|intros x; apply (continuous_scal_r (V := R_NormedModule) (d / h)); apply Ca|]. intros w Hw. unfold f. rewrite Rabs_mult, Rmult_comm. apply Rmult_le_compat_r; [apply Rabs_pos|].
          destruct (atan_tail (w - r) ltac:(lra)) as [T1 T2]. pose proof (A_range w ltac:(lra)) as [A0 _]. rewrite (Rabs_pos_eq _ A0). unfold A. pose proof (atan_bound ((w + r) / d)).
          assert (d / (w - r) <= d / h) by (unfold Rdiv; apply Rmult_le_compat_l; [lra|]; apply Rinv_le_contravar; lra). lra.
        + assert (RInt (fun w => d / h * Rabs (D w)) (r + h) X = d / h * RInt (fun w => Rabs (D w)) (r + h) X) as ->.
          { apply (RInt_scal (V := R_CompleteNormedModule) (fun w => Rabs (D w)) (r + h) X (d / h)). now apply Int_ex. }
          assert (0 < d / h) by (apply Rdiv_lt_0_compat; lra). apply Rmult_le_compat_l; [lra|]. apply D_mass. lra.
      - replace (PI * M * h) with ((r + h - r) * (M * PI)) by ring. apply abs_RInt_le_const; [lra|now apply Int_ex|]. intros w Hw. unfold f. rewrite Rabs_mult. apply Rmult_le_compat; [apply Rabs_pos|apply Rabs_pos|apply D_bound'; lra|]. pose proof (A_range w ltac:(lra)). apply Rabs_le. lra.
    Qed.
    Lemma delta_like K h : 0 < h <= r -> is_lim (fun X => RInt (fun w => gF w * P_im d r w) 0 X) p_infty (Finite K) ->
      Rabs (K + PI * gF r) <= 3 * (d / h) * (M * PI) + 2 * (PI * M * h).
    Proof.
      intros Hh HK. pose proof PI_RGT_0 as HP. assert (forall x : R, continuous (fun w => D w * A w) x) as C2. { intros x. apply (continuous_mult (K := R_AbsRing)); [apply D_cont|apply A_cont]. }
      assert (is_lim (fun X => gF X * A X) p_infty 0) as HG.
      { apply is_lim_spec. intros eps. cbn. pose proof (cond_pos eps) as He. pose proof (exp_pos eta) as Hx. exists (c + r + 2 * exp eta * PI / eps + 1). intros X HX. assert (0 < 2 * exp eta * PI / eps) by (apply Rdiv_lt_0_compat; [|lra]; apply Rmult_lt_0_compat; lra).
        rewrite Rminus_0_r, Rabs_mult. destruct (A_range X ltac:(lra)) as [A0 A1]. rewrite (Rabs_pos_eq _ A0). destruct (lnF_pos eta (X + c)) as [P1 U1]. destruct (lnF_pos eta (X - c)) as [P2 U2].
        set (y := X - c) in *. assert (2 * exp eta * PI / eps < y) as Hy by (unfold y; lra). assert (1 < y) by (unfold y; lra).
        assert (exp eta / (1 + (X + c) ^ 2) <= exp eta / y). { unfold Rdiv. apply Rmult_le_compat_l; [lra|]. apply Rinv_le_contravar; [lra|]. unfold y. nra. }
        assert (exp eta / (1 + y ^ 2) <= exp eta / y). { unfold Rdiv. apply Rmult_le_compat_l; [lra|]. apply Rinv_le_contravar; [lra|]. nra. }
        assert (Rabs (gF X) <= 2 * (exp eta / y)) as G1 by (unfold gF; fold y; apply Rabs_le; lra). apply Rle_lt_trans with (2 * (exp eta / y) * PI); [apply Rmult_le_compat; try apply Rabs_pos; assumption|].
        replace (2 * (exp eta / y) * PI) with (2 * exp eta * PI / y) by (field; lra). apply Rlt_div_l; [lra|]. assert (2 * exp eta * PI = 2 * exp eta * PI / eps * eps) as E by (field; lra). rewrite E. rewrite Rmult_comm. apply Rmult_lt_compat_l; lra. }
      assert (is_lim (fun X => gF X * A X - RInt (fun w => D w * A w) 0 X) p_infty K) as HK2 by (apply (is_lim_ext (fun X => RInt (fun w => gF w * P_im d r w) 0 X)); [intros X; apply parts_d|exact HK]).
      assert (is_lim (fun X => RInt (fun w => D w * A w) 0 X) p_infty (0 - K)) as HJ by (apply (is_lim_ext (fun X => gF X * A X - (gF X * A X - RInt (fun w => D w * A w) 0 X))); [intros X; ring|]; apply (is_lim_minus' _ _ _ 0 K); assumption).
      set (S := 3 * (d / h) * (M * PI) + 2 * (PI * M * h)).
      apply is_lim_spec in HJ. apply Rnot_lt_le. intros L. destruct (HJ (mkposreal (Rabs (K + PI * gF r) - S) ltac:(lra))) as [N HN]. cbn in HN.
      set (X := Rmax (N + 1) (r + h)). specialize (HN X ltac:(unfold X; pose proof (Rmax_l (N + 1) (r + h)); lra)). pose proof (below h Hh) as B1. pose proof (above h X ltac:(lra) ltac:(unfold X; apply Rmax_r)) as B2.
      change (Rabs (RInt (fun w => D w * A w) 0 X - (0 - K)) < Rabs (K + PI * gF r) - S) in HN. pose proof (split3 (fun w => D w * A w) 0 r X C2) as E3. rewrite E3 in HN. set (I1 := RInt (fun w => D w * A w) 0 r) in *. set (I2 := RInt (fun w => D w * A w) r X) in *.
      assert (Rabs (K + PI * gF r) <= Rabs (I1 + I2 - (0 - K)) + Rabs (I1 - PI * gF r) + Rabs I2).
      { replace (K + PI * gF r) with ((I1 + I2 - (0 - K)) + - (I1 - PI * gF r) + - I2) by ring. eapply Rle_trans; [apply Rabs_triang|]. rewrite Rabs_Ropp. apply Rplus_le_compat_r. eapply Rle_trans; [apply Rabs_triang|]. rewrite Rabs_Ropp. lra. }
      unfold S in *. lra.
    Qed.
  End Small.
End Limit.
