(** Property C129: the pair distribution functions of Arkhipov, Baimbetov and
    Davletov. *)
From Coq Require Import Reals Lra Lia.
From Coquelicot Require Import Coquelicot.
From Verif Require Import M_Const M_PlasmaState M_PlasmaPhysics L_PlasmaPhysics M_StaticSF L_StaticSF L_LFC L_RPA L_Gauss M_PairABD L_PairABD M_Setup P_Setup.
Open Scope R_scope.

(** ** The potentials at equal temperatures *)
Section Equal.
  Variables (u : consts) (T ne mi Z : R).
  Hypotheses (HT : 0 < T) (Hn : 0 < ne) (Hm : 0 < mi) (HZ : 0 < Z).
  Let x := ne * e_ch u ^ 2 / (eps0 u * kB u * T).
  Let y := Z * ne * e_ch u ^ 2 / (eps0 u * kB u * T).
  Let lee := hbar u ^ 2 / (PI * m_e u * kB u * T).
  Let lii := hbar u ^ 2 / (PI * mi * kB u * T).
  Let A := A_ u T.
  Let bb := b_ u T.
  Lemma Hx : 0 < x. Proof. cpos u. unfold x. pos. Qed.
  Lemma Hy : 0 < y. Proof. cpos u. unfold y. pos. Qed.
  Lemma Hle : 0 < lee. Proof. cpos u. unfold lee. pos. Qed.
  Lemma Hli : 0 < lii. Proof. cpos u. unfold lii. pos. Qed.
  Lemma HA : 0 < A. Proof. now apply A_pos. Qed.
  Lemma bb_eq : bb = 1 / (lee * PI * ln 2).
  Proof. unfold bb, b_, b_AD. now rewrite lee_eq. Qed.
  Lemma Hb : 0 < bb.
  Proof. rewrite bb_eq. pose proof Hle. pose proof PI_RGT_0. pose proof ln2_pos. apply Rdiv_lt_0_compat; [lra|]. pos. Qed.
  Lemma lm_eq : hbar u ^ 2 * (m_e u + mi) ^ 2 / (2 * PI * m_e u * mi * kB u * (mi * T + m_e u * T)) = lm lee lii.
  Proof.
    cpos u. unfold lm, lee, lii. replace (mi * T + m_e u * T) with (T * (mi + m_e u)) by ring. field. repeat split; lra.
  Qed.
  Lemma Dl_den k : Dl u k T T ne mi Z = k ^ 2 * den x y lee lii A bb k.
  Proof.
    pose proof (fd_eq lee lii Hle Hli k) as Ed. unfold Dl, den. rewrite lm_eq. fold x y lee lii A bb. fold (fa lee k) (fa lii k) (fa (lm lee lii) k).
    rewrite <- Ed. fold (fE bb k). ring.
  Qed.
  Lemma den_p k : 0 < den x y lee lii A bb k.
  Proof. apply den_pos'; [apply Hx|apply Hy|apply Hle|apply Hli|apply HA]. Qed.
  Lemma Dl_nz k : 0 < k -> Dl u k T T ne mi Z <> 0.
  Proof. intros Hk. rewrite Dl_den. apply Rgt_not_eq. apply Rmult_lt_0_compat; [now apply pow_lt|apply den_p]. Qed.

  Lemma S_ii_F k : 0 < k -> S_ii_AD u k T T ne mi Z - 1 = - F_ii x y lee lii A bb k.
  Proof.
    intros Hk. rewrite S_ii_eq by (assumption || now apply Dl_nz). rewrite Dl_den. fold x lee A bb. fold (fa lee k) (fE bb k).
    pose proof (den_p k) as HD. assert (Hq : 0 < k ^ 2) by (now apply pow_lt). unfold F_ii.
    assert (HD' : den x y lee lii A bb k <> 0) by lra. assert (Hq' : k <> 0) by lra.
    field_simplify_eq; [unfold den; ring|auto].
  Qed.
  Lemma S_ee_F k : 0 < k -> S_ee_AD u k T T ne mi Z - 1 = - F_ee x y lee lii A bb k.
  Proof.
    intros Hk. rewrite S_ee_equal by exact HT. rewrite S_ee_gen by (assumption || now apply Dl_nz). rewrite Dl_den. fold y lii. fold (fa lii k).
    pose proof (den_p k) as HD. assert (Hq : 0 < k ^ 2) by (now apply pow_lt). unfold F_ee.
    assert (HD' : den x y lee lii A bb k <> 0) by lra. assert (Hq' : k <> 0) by lra.
    field_simplify_eq; [unfold den; ring|auto].
  Qed.
  Lemma S_ei_F k : 0 < k -> S_ei_AD u k T T ne mi Z = sqrt Z * x * F_ei x y lee lii A bb k.
  Proof.
    intros Hk. rewrite S_ei_eq by (assumption || now apply Dl_nz). rewrite Dl_den, lm_eq, T_ei_equal by exact Hm.
    fold (fa (lm lee lii) k).
    pose proof (den_p k) as HD. assert (Hq : 0 < k ^ 2) by (now apply pow_lt). unfold F_ei, x. cpos u. field. repeat split; try lra.
    fold x. lra.
  Qed.
End Equal.

(** ** Linearised, they are the structure factors *)
Lemma scale_lim (h : R -> R) c L : (forall k, continuous h k) -> is_lim (fun X => RInt h 0 X) p_infty (Finite L) ->
  is_lim (fun X => RInt (fun k => c * h k) 0 X) p_infty (Finite (c * L)).
Proof.
  intros Hc HL. apply (is_lim_ext (fun X => c * RInt h 0 X)).
  - intros X. symmetry. exact (RInt_scal (V := R_CompleteNormedModule) h 0 X c (Int_ex _ _ _ Hc)).
  - apply (is_lim_scal_l (fun X => RInt h 0 X) c p_infty L HL).
Qed.
Lemma sincont (F : R -> R) r k : continuous F k -> continuous (fun k => F k * (sin (k * r) * k)) k.
Proof.
  intros H. apply (continuous_mult (K := R_AbsRing)); [exact H|].
  apply (ex_derive_continuous (V := R_NormedModule)). auto_derive. exact I.
Qed.
(** the exponent, from a structure factor S with S - d = - Phi / (N t) *)
Lemma linear quad (Phi F : R -> R) r t N L : half_line_exact quad -> 0 < r -> t <> 0 -> N <> 0 ->
  (forall k, continuous F k) -> (forall k, 0 < k -> - (N / t) * Phi k = F k) ->
  is_lim (fun X => RInt (fun k => F k * (sin (k * r) * k)) 0 X) p_infty (Finite L) ->
  - Phi_r quad Phi r / t = L / (2 * PI ^ 2 * r * N).
Proof.
  intros Hq Hr Ht HN Hc HF HL. pose proof PI_RGT_0 as HP.
  rewrite (transform quad Phi (fun k => - (t / N) * F k) r (- (t / N) * L) Hq).
  - field. repeat split; lra || assumption.
  - lra.
  - intros k Hk. rewrite <- HF by exact Hk. field. split; assumption.
  - intros k. apply (continuous_scal_r (K := R_AbsRing) (V := R_NormedModule)). apply Hc.
  - apply (is_lim_ext (fun X => RInt (fun k => - (t / N) * (F k * (sin (k * r) * k))) 0 X)).
    + intros X. apply RInt_ext. intros k _. match goal with |- ?a = ?b => change (@eq R a b) end. ring.
    + apply scale_lim; [intros k; now apply sincont|exact HL].
Qed.

Theorem C129_linearised : forall u quad r T_e T_i n_e m_i Z, half_line_exact quad -> 0 < r ->
  0 < T_e -> 0 < T_i -> 0 < n_e -> 0 < m_i -> 0 < Z ->
  forall (F : R -> R) (L : R), (forall k, continuous F k) ->
  is_lim (fun X => RInt (fun k => F k * (sin (k * r) * k)) 0 X) p_infty (Finite L) ->
  ((forall k, 0 < k -> S_ii_AD u k T_e T_i n_e m_i Z - 1 = F k) ->
     ln (g_ii_ABD u quad r T_e T_i n_e m_i Z) = L / (2 * PI ^ 2 * r * (n_e / Z))) /\
  ((forall k, 0 < k -> S_ei_AD u k T_e T_i n_e m_i Z = F k) ->
     ln (g_ei_ABD u quad r T_e T_i n_e m_i Z) = L / (2 * PI ^ 2 * r * sqrt ((n_e / Z) * n_e))) /\
  ((forall k, 0 < k -> let S_ii := S_ii_AD u k T_e T_i n_e m_i Z in let S_ei := S_ei_AD u k T_e T_i n_e m_i Z in
      (T_e = T_i \/ S_ii <> 0) /\ S_ee_AD u k T_e T_i n_e m_i Z - 1 + (T_e / T_i - 1) * (S_ei ^ 2 / S_ii) = F k) ->
     ln (g_ee_ABD u quad r T_e T_i n_e m_i Z) = L / (2 * PI ^ 2 * r * n_e)).
Proof.
  intros u quad r Te Ti ne mi Z Hq Hr HTe HTi Hn Hm HZ F L Hc HL. cpos u.
  assert (HN : 0 < ne / Z) by (now apply Rdiv_lt_0_compat).
  split; [|split].
  - intros HF. unfold g_ii_ABD. rewrite ln_exp. apply (linear quad _ F r (kB u * Ti) (ne / Z) L Hq Hr); try assumption.
    + apply Rgt_not_eq. now apply Rmult_lt_0_compat.
    + lra.
    + intros k Hk. rewrite <- HF by exact Hk. unfold S_ii_AD. ring.
  - intros HF. unfold g_ei_ABD. rewrite ln_exp.
    assert (0 < T_ei u Te Ti mi) by (now apply T_rs_pos).
    apply (linear quad _ F r (kB u * T_ei u Te Ti mi) (sqrt (ne / Z * ne)) L Hq Hr); try assumption.
    + apply Rgt_not_eq. now apply Rmult_lt_0_compat.
    + apply Rgt_not_eq, sqrt_lt_R0. now apply Rmult_lt_0_compat.
  - intros HF. unfold g_ee_ABD. rewrite ln_exp. apply (linear quad _ F r (kB u * Te) ne L Hq Hr); try assumption.
    + apply Rgt_not_eq. now apply Rmult_lt_0_compat.
    + lra.
    + intros k Hk. destruct (HF k Hk) as [HS <-]. destruct HS as [<-|HS].
      * rewrite S_ee_equal by exact HTe. replace (Te / Te - 1) with 0 by (field; lra). ring.
      * unfold S_ee_AD. set (S := S_ii_AD u k Te Ti ne mi Z) in *. set (E := S_ei_AD u k Te Ti ne mi Z).
        rewrite pow2_abs. replace ((sqrt Z * E / S) ^ 2) with (sqrt Z * sqrt Z * E ^ 2 / S ^ 2) by (field; exact HS).
        rewrite sqrt_sqrt by lra. field. repeat split; try lra; exact HS.
Qed.
Print Assumptions C129_linearised.

(** ** Bounds at equal temperatures *)
Lemma from_bounds (F g : R -> R) M0 M1 B r : 0 < r -> (forall k, continuous F k) -> (forall k, continuous g k) ->
  0 <= M0 -> 0 <= M1 ->
  (forall k, 0 <= F k <= M0) -> (forall k, k ^ 2 * F k <= g k) -> (forall k, k ^ 2 * g k <= M1) -> (forall X, 0 <= X -> RInt g 0 X <= B) ->
  exists L, is_lim (fun X => RInt (fun k => F k * (sin (k * r) * k)) 0 X) p_infty (Finite L) /\ Rabs L <= r * B /\ Rabs L <= M0 + M1.
Proof.
  intros Hr Hc Hg H0 H1 HF Hk2 Hk4 HB.
  destruct (transform_exists F r (2 * (M0 + M1)) Hc ltac:(lra)) as (L & HL & BL).
  { intros k _. rewrite Rabs_pos_eq by apply HF. apply quartic; [apply HF|].
    apply Rle_trans with (k ^ 2 * g k); [|apply Hk4]. apply Rmult_le_compat_l; [apply pow2_ge_0|apply Hk2]. }
  exists L. split; [exact HL|]. split; [|lra].
  apply (transform_contact F g r B L Hr Hc Hg); [|exact HB|exact HL].
  intros k _. rewrite Rabs_pos_eq by apply HF. apply Hk2.
Qed.
Lemma opp_lim (F : R -> R) r c L : (forall k, continuous F k) ->
  is_lim (fun X => RInt (fun k => F k * (sin (k * r) * k)) 0 X) p_infty (Finite L) ->
  is_lim (fun X => RInt (fun k => c * F k * (sin (k * r) * k)) 0 X) p_infty (Finite (c * L)).
Proof.
  intros Hc HL. apply (is_lim_ext (fun X => RInt (fun k => c * (F k * (sin (k * r) * k))) 0 X)).
  - intros X. apply RInt_ext. intros k _. match goal with |- ?a = ?b => change (@eq R a b) end. ring.
  - apply scale_lim; [intros k; now apply sincont|exact HL].
Qed.
(** |ln g| <= K / r gives the limit 1 *)
Lemma lim_one (g : R -> R) K : (forall r, 0 < r -> 0 < g r) -> (forall r, 0 < r -> Rabs (ln (g r)) <= K / r) -> is_lim g p_infty 1.
Proof.
  intros Hg HK. apply (is_lim_ext_loc (fun r => exp (ln (g r)))).
  - exists 0. intros r Hr. now rewrite exp_ln by (now apply Hg).
  - replace (Finite 1) with (Finite (exp 0)) by (f_equal; apply exp_0).
    apply (is_lim_comp_continuous (fun r => ln (g r)) exp p_infty 0); [|apply continuous_exp].
    apply (is_lim_le_le_loc (fun r => - (K * / r)) (fun r => K * / r)).
    + exists 0. intros r Hr. specialize (HK r Hr). apply Rabs_le_between in HK. unfold Rdiv in HK. lra.
    + replace (Finite 0) with (Rbar_opp (Rbar_mult K 0)) by (cbn; f_equal; ring). apply is_lim_opp. apply is_lim_scal_l.
      apply (is_lim_inv (fun r => r) p_infty p_infty); [apply is_lim_id|discriminate].
    + replace (Finite 0) with (Rbar_mult K 0) by (cbn; f_equal; ring). apply is_lim_scal_l.
      apply (is_lim_inv (fun r => r) p_infty p_infty); [apply is_lim_id|discriminate].
Qed.
Lemma exp_between g w : 0 < g -> Rabs (ln g) <= w -> exp (- w) <= g <= exp w.
Proof.
  intros Hg H. apply Rabs_le_between in H. rewrite <- (exp_ln g Hg).
  split; [destruct (Rle_lt_or_eq_dec _ _ (proj1 H)) as [L|<-]|destruct (Rle_lt_or_eq_dec _ _ (proj2 H)) as [L|<-]]; try (left; now apply exp_increasing); lra.
Qed.

Theorem C129_ions : forall u quad T n_e m_i Z, half_line_exact quad -> 0 < T -> 0 < n_e -> 0 < m_i -> 0 < Z ->
  let lambda := hbar u / sqrt (PI * m_i * kB u * T) in
  let w := Z ^ 2 * e_ch u ^ 2 / (4 * PI * eps0 u * lambda) / (kB u * T) in
  (forall r, 0 < r -> exp (- w) <= g_ii_ABD u quad r T T n_e m_i Z <= exp w) /\
  is_lim (fun r => g_ii_ABD u quad r T T n_e m_i Z) p_infty 1.
Proof.
  intros u quad T ne mi Z Hq HT Hn Hm HZ lambda w.
  pose proof (Hx u T ne HT Hn) as Px. pose proof (Hy u T ne Z HT Hn HZ) as Py. pose proof (Hle u T HT) as Pe. pose proof (Hli u T mi HT Hm) as Pi. pose proof (HA u T HT) as PA. pose proof (Hb u T HT) as Pb.
  pose proof (S_ii_F u T ne mi Z HT Hn Hm HZ) as HS.
  set (x := ne * e_ch u ^ 2 / (eps0 u * kB u * T)) in *. set (y := Z * ne * e_ch u ^ 2 / (eps0 u * kB u * T)) in *.
  set (lee := hbar u ^ 2 / (PI * m_e u * kB u * T)) in *. set (lii := hbar u ^ 2 / (PI * mi * kB u * T)) in *.
  set (F := F_ii x y lee lii (A_ u T) (b_ u T)) in *.
  assert (CF : forall k, continuous F k) by (intros k; now apply F_ii_cont).
  assert (HN : 0 < ne / Z) by (now apply Rdiv_lt_0_compat). pose proof PI_RGT_0 as HP. pose proof (sqrt_lt_R0 _ Pi) as Hs.
  assert (Main : forall r, 0 < r -> Rabs (ln (g_ii_ABD u quad r T T ne mi Z)) <= w /\
     Rabs (ln (g_ii_ABD u quad r T T ne mi Z)) <= (1 + y / lii) / (2 * PI ^ 2 * (ne / Z)) / r).
  { intros r Hr.
    destruct (from_bounds F (fun k => y / (1 + k ^ 2 * lii)) 1 (y / lii) (y * PI / (2 * sqrt lii)) r Hr CF) as (L & HL & B1 & B2).
    - intros k. apply (ex_derive_continuous (V := R_NormedModule)). auto_derive. pose proof (fa_den lii k Pi) as D. cbn in D. lra.
    - lra.
    - left. now apply Rdiv_lt_0_compat.
    - intros k. now apply (F_ii_bounds x y lee lii (A_ u T) (b_ u T)).
    - intros k. now apply (F_ii_bounds x y lee lii (A_ u T) (b_ u T)).
    - intros k. apply lor_le; [lra|exact Pi].
    - intros X HX. apply lorentz_int; lra.
    - destruct (C129_linearised u quad r T T ne mi Z Hq Hr HT HT Hn Hm HZ (fun k => -1 * F k) (-1 * L)) as (K & _ & _).
      + intros k. apply (continuous_scal_r (K := R_AbsRing) (V := R_NormedModule)). apply CF.
      + now apply opp_lim.
      + rewrite K by (intros k Hk; rewrite HS by exact Hk; ring).
        assert (D : 0 < 2 * PI ^ 2 * r * (ne / Z)) by pos.
        assert (Q : Rabs (-1 * L / (2 * PI ^ 2 * r * (ne / Z))) = Rabs L / (2 * PI ^ 2 * r * (ne / Z))).
        { unfold Rdiv at 1. rewrite !Rabs_mult, (Rabs_pos_eq (/ _)) by (left; now apply Rinv_0_lt_compat).
          replace (Rabs (-1)) with 1 by (rewrite Rabs_left; lra). unfold Rdiv. ring. }
        rewrite Q. split.
        * apply Rle_trans with (r * (y * PI / (2 * sqrt lii)) / (2 * PI ^ 2 * r * (ne / Z))).
          { unfold Rdiv at 1 2. apply Rmult_le_compat_r; [left; now apply Rinv_0_lt_compat|exact B1]. }
          right. unfold w. assert (El : lambda = sqrt lii).
          { unfold lambda, lii. cpos u. rewrite sqrt_div_alt by pos. rewrite sqrt_pow2 by lra. reflexivity. }
          rewrite El. unfold y. cpos u. field. repeat split; lra.
        * apply Rle_trans with ((1 + y / lii) / (2 * PI ^ 2 * r * (ne / Z))).
          { unfold Rdiv at 1 3. apply Rmult_le_compat_r; [left; now apply Rinv_0_lt_compat|exact B2]. }
          right. field. repeat split; lra. }
  split.
  - intros r Hr. apply exp_between; [apply exp_pos|now apply Main].
  - apply (lim_one _ ((1 + y / lii) / (2 * PI ^ 2 * (ne / Z)))); [intros; apply exp_pos|]. intros r Hr. now apply Main.
Qed.
Print Assumptions C129_ions.

(** q^2 exp(-q/(4 b)) is bounded *)
Lemma gauss_quartic b k : 0 < b -> k ^ 2 * (k ^ 2 * fE b k) <= 2 * (4 * b) ^ 2.
Proof.
  intros Hb. unfold fE. set (q := k ^ 2). assert (0 <= q) by apply pow2_ge_0. set (z := q / (4 * b)).
  assert (Hz : 0 <= z) by (apply Rmult_le_pos; [assumption|left; apply Rinv_0_lt_compat; lra]).
  replace (- q / (4 * b)) with (- z) by (unfold z; field; lra). replace q with (4 * b * z) by (unfold z; field; lra).
  assert (HE : z ^ 2 / 2 <= exp z).
  { pose proof (exp_ineq1_le (z / 2)) as E. replace (exp z) with (exp (z / 2) * exp (z / 2)) by (rewrite <- exp_plus; f_equal; field).
    assert (0 <= (1 + z / 2) * (1 + z / 2) - z ^ 2 / 4) by nra.
    assert ((1 + z / 2) * (1 + z / 2) <= exp (z / 2) * exp (z / 2)) by (apply Rmult_le_compat; lra).
    pose proof (exp_ineq1_le z). destruct (Rle_dec z 2) as [L|L].
    - assert (z ^ 2 <= 2 * z) by nra. assert (exp (z / 2) * exp (z / 2) = exp z) by (rewrite <- exp_plus; f_equal; field). lra.
    - assert (E2 : exp z = exp (z / 4) ^ 4) by (replace (exp (z / 4) ^ 4) with (exp (z / 4) * exp (z / 4) * exp (z / 4) * exp (z / 4)) by ring; rewrite <- !exp_plus; f_equal; field).
      assert (exp (z / 2) * exp (z / 2) = exp z) by (rewrite <- exp_plus; f_equal; field). rewrite H3, E2.
      pose proof (exp_ineq1_le (z / 4)) as E4. assert (1 <= 1 + z / 4) by lra.
      apply Rle_trans with ((1 + z / 4) ^ 4); [|apply pow_incr; lra].
      set (v := z / 4) in *. replace z with (4 * v) by (unfold v; field). assert (0 <= v) by lra.
      assert (0 <= v ^ 2) by apply pow2_ge_0. assert (0 <= (v ^ 2 - 1) ^ 2) by apply pow2_ge_0. assert (0 <= v ^ 3) by (now apply pow_le).
      replace ((1 + v) ^ 4) with (v ^ 4 + 4 * v ^ 3 + 6 * v ^ 2 + 4 * v + 1) by ring.
      replace ((4 * v) ^ 2 / 2) with (8 * v ^ 2) by field.
      replace ((v ^ 2 - 1) ^ 2) with (v ^ 4 - 2 * v ^ 2 + 1) in H7 by ring. lra. }
  rewrite exp_Ropp. pose proof (exp_pos z) as Pz. apply (Rmult_le_reg_r (exp z)); [exact Pz|].
  replace (4 * b * z * (4 * b * z * / exp z) * exp z) with ((4 * b) ^ 2 * z ^ 2) by (field; lra).
  assert (0 <= (4 * b) ^ 2) by apply pow2_ge_0. pose proof (Rmult_le_compat_l ((4 * b) ^ 2) _ _ H0 HE). lra.
Qed.

Theorem C129_electrons : forall u quad T n_e m_i Z, half_line_exact quad -> 0 < T -> 0 < n_e -> 0 < m_i -> 0 < Z ->
  let lambda := hbar u / sqrt (PI * m_e u * kB u * T) in
  let w := e_ch u ^ 2 / (4 * PI * eps0 u * lambda) / (kB u * T) in
  (forall r, 0 < r -> exp (- w) / 2 <= g_ee_ABD u quad r T T n_e m_i Z <= 2 * exp w) /\
  is_lim (fun r => g_ee_ABD u quad r T T n_e m_i Z) p_infty 1.
Proof.
  intros u quad T ne mi Z Hq HT Hn Hm HZ lambda w.
  pose proof (Hx u T ne HT Hn) as Px. pose proof (Hy u T ne Z HT Hn HZ) as Py. pose proof (Hle u T HT) as Pe. pose proof (Hli u T mi HT Hm) as Pi. pose proof (HA u T HT) as PA. pose proof (Hb u T HT) as Pb.
  pose proof (S_ee_F u T ne mi Z HT Hn Hm HZ) as HS.
  set (x := ne * e_ch u ^ 2 / (eps0 u * kB u * T)) in *. set (y := Z * ne * e_ch u ^ 2 / (eps0 u * kB u * T)) in *.
  set (lee := hbar u ^ 2 / (PI * m_e u * kB u * T)) in *. set (lii := hbar u ^ 2 / (PI * mi * kB u * T)) in *.
  set (F := F_ee x y lee lii (A_ u T) (b_ u T)) in *. set (b := b_ u T) in *. set (A := A_ u T) in *.
  assert (CF : forall k, continuous F k) by (intros k; now apply F_ee_cont).
  pose proof PI_RGT_0 as HP. pose proof (sqrt_lt_R0 _ Pe) as Hs. pose proof (sqrt_lt_R0 _ Pb) as Hsb. pose proof (sqrt_lt_R0 _ HP) as HsP. pose proof ln2_pos as L2.
  assert (PAx : 0 < A * x) by (now apply Rmult_lt_0_compat).
  set (g := fun k => x / (1 + k ^ 2 * lee) + A * x * k ^ 2 * fE b k).
  set (B := x * PI / (2 * sqrt lee) + A * x * (2 * b * sqrt b * sqrt PI)).
  set (M1 := x / lee + A * x * (2 * (4 * b) ^ 2)).
  assert (C1 : forall k, continuous (fun k => x / (1 + k ^ 2 * lee)) k).
  { intros k. apply (ex_derive_continuous (V := R_NormedModule)). auto_derive. pose proof (fa_den lee k Pe) as D. cbn in D. lra. }
  assert (C2 : forall k, continuous (fun k => A * x * k ^ 2 * fE b k) k).
  { intros k. apply (ex_derive_continuous (V := R_NormedModule)). unfold fE. auto_derive. lra. }
  assert (HB : forall X, 0 <= X -> RInt g 0 X <= B).
  { intros X HX. unfold B. pose proof (lorentz_int x lee X ltac:(lra) Pe HX). pose proof (gauss2_int (A * x) b X ltac:(lra) Pb HX).
    pose proof (RInt_plus (V := R_CompleteNormedModule) _ _ 0 X (Int_ex _ 0 X C1) (Int_ex _ 0 X C2)) as E.
    change (RInt g 0 X = RInt (fun k => x / (1 + k ^ 2 * lee)) 0 X + RInt (fun k => A * x * k ^ 2 * fE b k) 0 X) in E. rewrite E.
    apply Rplus_le_compat; assumption. }
  (** the exchange part is k_B T ln 2 *)
  assert (EB : B / (2 * PI ^ 2 * ne) = w + ln 2).
  { unfold B. assert (E1 : x * PI / (2 * sqrt lee) / (2 * PI ^ 2 * ne) = w).
    { unfold w. assert (El : lambda = sqrt lee).
      { unfold lambda, lee. cpos u. rewrite sqrt_div_alt by pos. rewrite sqrt_pow2 by lra. reflexivity. }
      rewrite El. unfold x. cpos u. field. repeat split; lra. }
    assert (E2 : A * x * (2 * b * sqrt b * sqrt PI) / (2 * PI ^ 2 * ne) = ln 2).
    { unfold A, A_, A_AD, x. fold b. cpos u.
      assert (P1 : Rpower PI (3 / 2) = PI * sqrt PI).
      { replace (3 / 2) with (1 + / 2) by field. rewrite Rpower_plus, Rpower_1, Rpower_sqrt by lra. reflexivity. }
      assert (P2 : Rpower b (- (3 / 2)) = / (b * sqrt b)).
      { rewrite Rpower_Ropp. f_equal. replace (3 / 2) with (1 + / 2) by field. rewrite Rpower_plus, Rpower_1, Rpower_sqrt by lra. reflexivity. }
      rewrite P1, P2. transitivity (ln 2 * (sqrt PI * sqrt PI) / PI); [field; repeat split; lra|]. rewrite sqrt_sqrt by lra. field. lra. }
    rewrite <- E1, <- E2. field. repeat split; lra. }
  assert (Main : forall r, 0 < r -> Rabs (ln (g_ee_ABD u quad r T T ne mi Z)) <= w + ln 2 /\
     Rabs (ln (g_ee_ABD u quad r T T ne mi Z)) <= (1 + M1) / (2 * PI ^ 2 * ne) / r).
  { intros r Hr.
    destruct (from_bounds F g 1 M1 B r Hr CF) as (L & HL & B1 & B2).
    - intros k. apply (continuous_plus (V := R_NormedModule)); [apply C1|apply C2].
    - lra.
    - unfold M1. assert (0 < x / lee) by (now apply Rdiv_lt_0_compat). assert (0 < A * x * (2 * (4 * b) ^ 2)) by pos. lra.
    - intros k. now apply (F_ee_bounds x y lee lii A b).
    - intros k. now apply (F_ee_bounds x y lee lii A b).
    - intros k. unfold g, M1. rewrite Rmult_plus_distr_l. apply Rplus_le_compat; [apply lor_le; lra|].
      replace (k ^ 2 * (A * x * k ^ 2 * fE b k)) with (A * x * (k ^ 2 * (k ^ 2 * fE b k))) by ring.
      apply Rmult_le_compat_l; [lra|now apply gauss_quartic].
    - exact HB.
    - destruct (C129_linearised u quad r T T ne mi Z Hq Hr HT HT Hn Hm HZ (fun k => -1 * F k) (-1 * L)) as (_ & _ & K).
      + intros k. apply (continuous_scal_r (K := R_AbsRing) (V := R_NormedModule)). apply CF.
      + now apply opp_lim.
      + rewrite K by (intros k Hk; split; [now left|]; rewrite HS by exact Hk; replace (T / T - 1) with 0 by (field; lra); ring).
        assert (D : 0 < 2 * PI ^ 2 * r * ne) by pos.
        assert (Q : Rabs (-1 * L / (2 * PI ^ 2 * r * ne)) = Rabs L / (2 * PI ^ 2 * r * ne)).
        { unfold Rdiv at 1. rewrite !Rabs_mult, (Rabs_pos_eq (/ _)) by (left; now apply Rinv_0_lt_compat).
          replace (Rabs (-1)) with 1 by (rewrite Rabs_left; lra). unfold Rdiv. ring. }
        rewrite Q. split.
        * rewrite <- EB. apply Rle_trans with (r * B / (2 * PI ^ 2 * r * ne)).
          { unfold Rdiv. apply Rmult_le_compat_r; [left; now apply Rinv_0_lt_compat|exact B1]. }
          right. field. repeat split; lra.
        * apply Rle_trans with ((1 + M1) / (2 * PI ^ 2 * r * ne)).
          { unfold Rdiv. apply Rmult_le_compat_r; [left; now apply Rinv_0_lt_compat|exact B2]. }
          right. field. repeat split; lra. }
  split.
  - intros r Hr. destruct (exp_between _ _ (exp_pos _) (proj1 (Main r Hr))) as [E1 E2].
    rewrite exp_plus, exp_ln in E2 by lra. replace (- (w + ln 2)) with (- w + - ln 2) in E1 by ring.
    rewrite exp_plus, (exp_Ropp (ln 2)), exp_ln in E1 by lra. fold (g_ee_ABD u quad r T T ne mi Z) in E1, E2. lra.
  - apply (lim_one _ ((1 + M1) / (2 * PI ^ 2 * ne))); [intros; apply exp_pos|]. intros r Hr. now apply Main.
Qed.
Print Assumptions C129_electrons.

Theorem C129_electron_ion : forall u quad T n_e m_i Z, half_line_exact quad -> 0 < T -> 0 < n_e -> 0 < m_i -> 0 < Z ->
  let lambda := hbar u / sqrt (2 * PI * (m_e u * m_i / (m_e u + m_i)) * kB u * T) in
  let w := Z * e_ch u ^ 2 / (4 * PI * eps0 u * lambda) / (kB u * T) in
  (forall r, 0 < r -> exp (- w) <= g_ei_ABD u quad r T T n_e m_i Z <= exp w) /\
  is_lim (fun r => g_ei_ABD u quad r T T n_e m_i Z) p_infty 1.
Proof.
  intros u quad T ne mi Z Hq HT Hn Hm HZ lambda w.
  pose proof (Hx u T ne HT Hn) as Px. pose proof (Hy u T ne Z HT Hn HZ) as Py. pose proof (Hle u T HT) as Pe. pose proof (Hli u T mi HT Hm) as Pi. pose proof (HA u T HT) as PA. pose proof (Hb u T HT) as Pb.
  pose proof (S_ei_F u T ne mi Z HT Hn Hm HZ) as HS. pose proof (lm_eq u T mi HT Hm) as Elm.
  set (x := ne * e_ch u ^ 2 / (eps0 u * kB u * T)) in *. set (y := Z * ne * e_ch u ^ 2 / (eps0 u * kB u * T)) in *.
  set (lee := hbar u ^ 2 / (PI * m_e u * kB u * T)) in *. set (lii := hbar u ^ 2 / (PI * mi * kB u * T)) in *.
  set (F := F_ei x y lee lii (A_ u T) (b_ u T)) in *. pose proof (lm_pos lee lii Pe Pi) as Pm. set (l := lm lee lii) in *.
  assert (CF : forall k, continuous F k) by (intros k; now apply F_ei_cont).
  pose proof PI_RGT_0 as HP. pose proof (sqrt_lt_R0 _ Pm) as Hs. pose proof (sqrt_lt_R0 _ HZ) as HsZ. pose proof (sqrt_sqrt Z (Rlt_le _ _ HZ)) as EZ.
  assert (HN : 0 < ne / Z * ne) by (apply Rmult_lt_0_compat; [now apply Rdiv_lt_0_compat|exact Hn]).
  assert (EN : sqrt (ne / Z * ne) = ne / sqrt Z).
  { replace (ne / Z * ne) with (ne ^ 2 / Z) by (field; lra). rewrite sqrt_div_alt, sqrt_pow2 by lra. reflexivity. }
  assert (Main : forall r, 0 < r -> Rabs (ln (g_ei_ABD u quad r T T ne mi Z)) <= w /\
     Rabs (ln (g_ei_ABD u quad r T T ne mi Z)) <= sqrt Z * x * (2 / x + 1 / l) / (2 * PI ^ 2 * (ne / sqrt Z)) / r).
  { intros r Hr.
    destruct (from_bounds F (fun k => 1 / (1 + k ^ 2 * l)) (2 / x) (1 / l) (1 * PI / (2 * sqrt l)) r Hr CF) as (L & HL & B1 & B2).
    - intros k. apply (ex_derive_continuous (V := R_NormedModule)). auto_derive. pose proof (fa_den l k Pm) as D. cbn in D. lra.
    - left. apply Rdiv_lt_0_compat; lra.
    - left. apply Rdiv_lt_0_compat; lra.
    - intros k. now apply (F_ei_bounds x y lee lii (A_ u T) (b_ u T)).
    - intros k. now apply (F_ei_bounds x y lee lii (A_ u T) (b_ u T)).
    - intros k. apply lor_le; lra.
    - intros X HX. apply lorentz_int; lra.
    - destruct (C129_linearised u quad r T T ne mi Z Hq Hr HT HT Hn Hm HZ (fun k => (sqrt Z * x) * F k) (sqrt Z * x * L)) as (_ & K & _).
      + intros k. apply (continuous_scal_r (K := R_AbsRing) (V := R_NormedModule)). apply CF.
      + now apply opp_lim.
      + rewrite K by (intros k Hk; rewrite HS by exact Hk; reflexivity). rewrite EN.
        assert (D0 : 0 < ne / sqrt Z) by (now apply Rdiv_lt_0_compat). assert (D : 0 < 2 * PI ^ 2 * r * (ne / sqrt Z)) by pos.
        assert (Psx : 0 < sqrt Z * x) by pos.
        assert (Q : Rabs (sqrt Z * x * L / (2 * PI ^ 2 * r * (ne / sqrt Z))) = sqrt Z * x * Rabs L / (2 * PI ^ 2 * r * (ne / sqrt Z))).
        { unfold Rdiv at 1. rewrite (Rabs_mult _ (/ _)), (Rabs_pos_eq (/ _)) by (left; now apply Rinv_0_lt_compat).
          rewrite (Rabs_mult (sqrt Z * x)), (Rabs_pos_eq (sqrt Z * x)) by lra. reflexivity. }
        rewrite Q. split.
        * apply Rle_trans with (sqrt Z * x * (r * (1 * PI / (2 * sqrt l))) / (2 * PI ^ 2 * r * (ne / sqrt Z))).
          { unfold Rdiv at 1 3. apply Rmult_le_compat_r; [left; now apply Rinv_0_lt_compat|]. apply Rmult_le_compat_l; lra. }
          right. unfold w. assert (El : lambda = sqrt l).
          { rewrite <- Elm. unfold lambda. cpos u.
            replace (hbar u ^ 2 * (m_e u + mi) ^ 2 / (2 * PI * m_e u * mi * kB u * (mi * T + m_e u * T)))
              with (hbar u ^ 2 / (2 * PI * (m_e u * mi / (m_e u + mi)) * kB u * T)).
            2:{ replace (mi * T + m_e u * T) with (T * (m_e u + mi)) by ring. field. repeat split; lra. }
            assert (0 < m_e u * mi / (m_e u + mi)) by (apply Rdiv_lt_0_compat; [now apply Rmult_lt_0_compat|lra]).
            rewrite sqrt_div_alt by pos. rewrite sqrt_pow2 by lra. reflexivity. }
          rewrite El. unfold x. cpos u. transitivity (sqrt Z * sqrt Z * e_ch u ^ 2 / (4 * PI * eps0 u * sqrt l) / (kB u * T)); [field; repeat split; lra|now rewrite EZ].
        * apply Rle_trans with (sqrt Z * x * (2 / x + 1 / l) / (2 * PI ^ 2 * r * (ne / sqrt Z))).
          { unfold Rdiv at 1 3. apply Rmult_le_compat_r; [left; now apply Rinv_0_lt_compat|]. apply Rmult_le_compat_l; lra. }
          right. field. repeat split; lra. }
  split.
  - intros r Hr. apply exp_between; [apply exp_pos|now apply Main].
  - apply (lim_one _ (sqrt Z * x * (2 / x + 1 / l) / (2 * PI ^ 2 * (ne / sqrt Z)))); [intros; apply exp_pos|]. intros r Hr. now apply Main.
Qed.
Print Assumptions C129_electron_ion.

Example C129_met : half_line_exact half_line_quad /\ 0 < kB unit_consts /\
  (forall r, 0 < r -> 0 < g_ii_ABD unit_consts half_line_quad r 1 1 1 1836 1 <= exp (1 / (4 * PI * (1 / sqrt (PI * 1836))))).
Proof.
  split; [exact half_line_quad_exact|]. split; [cbn; lra|]. intros r Hr. split; [apply exp_pos|].
  destruct (C129_ions unit_consts half_line_quad 1 1 1836 1 half_line_quad_exact) as [H _]; try lra.
  specialize (H r Hr). cbn -[sqrt PI] in H. apply Rle_trans with (1 := proj2 H). right. f_equal.
  replace (PI * 1836 * 1 * 1) with (PI * 1836) by ring. unfold Rdiv. rewrite !Rmult_1_r, ?Rmult_1_l, ?Rinv_1, ?Rmult_1_r. reflexivity.
Qed.
