(** The static local field corrections: C59, C108, C109, C110. *)
From Coq Require Import Reals List Lra Lia Psatz.
From Coquelicot Require Import Coquelicot.
From Verif Require Import M_Const M_PlasmaState M_PlasmaPhysics L_PlasmaPhysics M_Interp M_LFC L_Gauss L_LFC L_Farid.
Import ListNotations.
Open Scope R_scope.

Lemma kF_pos n : 0 < fermi_wavenumber n.
Proof. apply exp_pos. Qed.
Lemma TF_pos u n : 0 < fermi_temperature u n.
Proof.
  unfold fermi_temperature, fermi_energy. pose proof (hbar_pos u). pose proof (m_e_pos u). pose proof (kB_pos u).
  apply Rdiv_lt_0_compat; [|lra]. apply Rmult_lt_0_compat; [|apply exp_pos]. apply Rdiv_lt_0_compat; [apply pow_lt|]; lra.
Qed.
Lemma lt_div a b c : 0 < c -> a * c < b -> a < b / c.
Proof. intros H L. apply Rmult_lt_reg_r with c; [lra|]. unfold Rdiv. rewrite Rmult_assoc, Rinv_l; lra. Qed.
Lemma div_lt a b c : 0 < c -> a < b * c -> a / c < b.
Proof. intros H L. apply Rmult_lt_reg_r with c; [lra|]. unfold Rdiv. rewrite Rmult_assoc, Rinv_l; lra. Qed.
Lemma rp_one y : Rpower 1 y = 1.
Proof. unfold Rpower. now rewrite ln_1, Rmult_0_r, exp_0. Qed.
Definition n_one : R := 3 / (4 * PI).
Lemma n_one_pos : 0 < n_one.
Proof. unfold n_one. pose proof PI_RGT_0. apply Rdiv_lt_0_compat; lra. Qed.
Lemma rs_one : lfc_rs unit_consts n_one = 1.
Proof.
  unfold lfc_rs, interparticle_spacing, n_one. cbn. pose proof PI_RGT_0. rewrite Rmult_1_r, rp_one.
  replace (3 * 1 / (4 * PI * (3 / (4 * PI)))) with 1 by (field; lra). rewrite rp_one. field.
Qed.

(** ** C59 *)
Theorem C59_hubbard : forall n k1 k2, 0 <= k1 < k2 ->
  0 <= eelfc_hubbard k1 n < eelfc_hubbard k2 n /\ eelfc_hubbard k2 n < 1 / 2 /\
  1 / eelfc_hubbard k2 n = 2 + 2 * (fermi_wavenumber n / k2) ^ 2.
Proof.
  intros n k1 k2 H. pose proof (kF_pos n) as HF. unfold eelfc_hubbard. set (f := fermi_wavenumber n) in *.
  assert (0 < f ^ 2) by (apply pow_lt; lra). assert (0 <= k1 ^ 2) by apply pow2_ge_0. assert (k1 ^ 2 < k2 ^ 2) by nra.
  repeat split.
  - apply Rdiv_le_0_compat; lra.
  - apply Rmult_lt_reg_r with (2 * (k1 ^ 2 + f ^ 2)); [lra|]. unfold Rdiv at 1. rewrite Rmult_assoc, Rinv_l, Rmult_1_r by lra.
    replace (k2 ^ 2 / (2 * (k2 ^ 2 + f ^ 2)) * (2 * (k1 ^ 2 + f ^ 2))) with (k2 ^ 2 * (k1 ^ 2 + f ^ 2) / (k2 ^ 2 + f ^ 2)) by (field; lra).
    apply lt_div; [lra|]. nra.
  - apply div_lt; [lra|]. lra.
  - field. repeat split; nra.
Qed.
Print Assumptions C59_hubbard.
Example C59_hubbard_ex : eelfc_hubbard (fermi_wavenumber n_one) n_one = 1 / 4.
Proof. unfold eelfc_hubbard. pose proof (kF_pos n_one). field. repeat split; try lra; apply Rgt_not_eq; nra. Qed.

(** lever rule: the interpolation divides the distance between the cold and the
    hot correction like the temperature and the Fermi temperature *)
Lemma weigh_lever u T n c h g : 0 <= T -> weigh (Theta u T n) c h = Some g ->
  exists x y, c = Some x /\ h = Some y /\ (g - x) * fermi_temperature u n = (y - g) * T /\ Rmin x y <= g <= Rmax x y.
Proof.
  intros HT E. pose proof (TF_pos u n) as HF. unfold weigh in E. destruct c as [x|]; [|discriminate]. destruct h as [y|]; [|discriminate].
  cbn [obind] in E. set (t := Theta u T n) in *. assert (t = T / fermi_temperature u n) as Ht by reflexivity.
  assert (0 <= t) as H0 by (rewrite Ht; apply Rdiv_le_0_compat; lra).
  rewrite qdiv_some in E by lra. injection E as <-. exists x, y. split; [reflexivity|]. split; [reflexivity|]. split.
  - replace T with (t * fermi_temperature u n) by (rewrite Ht; field; lra). field. lra.
  - pose proof (Rmin_l x y). pose proof (Rmin_r x y). pose proof (Rmax_l x y). pose proof (Rmax_r x y). split.
    + apply le_div; nra.
    + apply div_le; nra.
Qed.
Theorem C59_interpolations : forall u i1 quad k T n g, 0 <= T ->
  (eelfc_interp_gregori2007 u i1 quad k T n = Some g -> exists cold hot,
     eelfc_utsumiichimaru u i1 k n = Some cold /\ eelfc_geldartvosko u quad k T n = Some hot /\
     (g - cold) * fermi_temperature u n = (hot - g) * T /\ Rmin cold hot <= g <= Rmax cold hot) /\
  (eelfc_interp_fortmann2010 u i1 quad k T n = Some g -> exists cold hot,
     eelfc_farid u i1 k n = Some cold /\ eelfc_geldartvosko u quad k T n = Some hot /\
     (g - cold) * fermi_temperature u n = (hot - g) * T /\ Rmin cold hot <= g <= Rmax cold hot).
Proof. intros u i1 quad k T n g HT. split; intros E; apply (weigh_lever u T n _ _ g HT E). Qed.
Print Assumptions C59_interpolations.

Lemma GV_defined u quad k T n Tee : 0 < k -> 0 < T -> 0 < n -> GV_T_ee u T n = Some Tee ->
  GV_gT quad (coupling_param u 1 1 n Tee) (GV_xi u Tee) < 1 ->
  T <= Tee /\ 0 < coupling_param u 1 1 n Tee /\
  eelfc_geldartvosko u quad k T n = Some (k ^ 2 / (fermi_wavenumber n ^ 2 / GV_gamma_T (coupling_param u 1 1 n Tee) + k ^ 2 / (1 - GV_gT quad (coupling_param u 1 1 n Tee) (GV_xi u Tee)))).
Proof.
  intros Hk HT Hn E Hg. assert (T <= Tee) as HTT.
  { unfold GV_T_ee in E. destruct (GV_T_q u n) as [q|]; [|discriminate]. injection E as <-.
    rewrite <- (sqrt_pow2 T) at 1 by lra. apply sqrt_le_1_alt. pose proof (pow2_ge_0 q). lra. }
  assert (0 < coupling_param u 1 1 n Tee) as HG.
  { unfold coupling_param. pose proof (e_pos u). pose proof (eps0_pos u). pose proof (kB_pos u). pose proof PI_RGT_0. rewrite !Rmult_1_l.
    apply Rdiv_lt_0_compat; [apply pow_lt; lra|]. assert (0 < interparticle_spacing 1 1 n) by (unfold interparticle_spacing, Rpower; apply exp_pos). assert (0 < Tee) by lra. assert (0 < PI) by lra. repeat (assumption || apply Rmult_lt_0_compat || lra). }
  split; [exact HTT|]. split; [exact HG|]. unfold eelfc_geldartvosko. rewrite E. cbn [obind]. destruct (Req_EM_T Tee 0) as [Z|_]; [lra|].
  apply form_GV; try assumption; [apply kF_pos|apply gamma_T_pos; exact HG].
Qed.
(** in between the compressibility sum rule and the value at contact *)
Theorem C59_geldart_vosko : forall u quad k T n Tee, 0 < k -> 0 < T -> 0 < n -> GV_T_ee u T n = Some Tee ->
  let G := coupling_param u 1 1 n Tee in let gT := GV_gT quad G (GV_xi u Tee) in
  gT < 1 -> exists g, eelfc_geldartvosko u quad k T n = Some g /\
    1 / g = 1 / (GV_gamma_T G * (k / fermi_wavenumber n) ^ 2) + 1 / (1 - gT) /\
    0 < GV_gamma_T G /\ 0 < g < 1 - gT /\ g < GV_gamma_T G * (k / fermi_wavenumber n) ^ 2.
Proof.
  intros u quad k T n Tee Hk HT Hn E G gT Hg. destruct (GV_defined u quad k T n Tee Hk HT Hn E Hg) as (_ & HG & ->). fold G in HG. fold G. fold gT.
  pose proof (gamma_T_pos G HG) as Hga. pose proof (kF_pos n) as HF. set (f := fermi_wavenumber n) in *. set (ga := GV_gamma_T G) in *.
  assert (0 < k ^ 2) by (apply pow_lt; lra). assert (0 < f ^ 2) by (apply pow_lt; lra).
  set (a := f ^ 2 / ga). set (b := k ^ 2 / (1 - gT)).
  assert (0 < a) by (unfold a; apply Rdiv_lt_0_compat; lra). assert (0 < b) by (unfold b; apply Rdiv_lt_0_compat; lra).
  eexists; split; [reflexivity|].
  assert (k ^ 2 = b * (1 - gT)) as Eb by (unfold b; field; lra).
  assert (ga * (k / f) ^ 2 = k ^ 2 / a) as Ea by (unfold a; field; lra).
  repeat split.
  - rewrite Ea. rewrite Eb. field. repeat split; lra.
  - exact Hga.
  - apply Rdiv_lt_0_compat; lra.
  - apply div_lt; [lra|]. rewrite Eb. nra.
  - rewrite Ea. unfold Rdiv. apply Rmult_lt_compat_l; [lra|]. apply Rinv_lt_contravar; [apply Rmult_lt_0_compat; lra|lra].
Qed.
Print Assumptions C59_geldart_vosko.
Theorem C59_geldart_vosko_increasing : forall u quad k1 k2 T n Tee, 0 < k1 < k2 -> 0 < T -> 0 < n -> GV_T_ee u T n = Some Tee ->
  GV_gT quad (coupling_param u 1 1 n Tee) (GV_xi u Tee) < 1 ->
  exists g1 g2, eelfc_geldartvosko u quad k1 T n = Some g1 /\ eelfc_geldartvosko u quad k2 T n = Some g2 /\ g1 < g2.
Proof.
  intros u quad k1 k2 T n Tee Hk HT Hn E Hg.
  destruct (C59_geldart_vosko u quad k1 T n Tee ltac:(lra) HT Hn E Hg) as (g1 & E1 & I1 & P1 & P2 & _).
  destruct (C59_geldart_vosko u quad k2 T n Tee ltac:(lra) HT Hn E Hg) as (g2 & E2 & I2 & _ & Q2 & _).
  exists g1, g2. split; [exact E1|]. split; [exact E2|]. pose proof (kF_pos n) as HF. set (f := fermi_wavenumber n) in *.
  set (ga := GV_gamma_T (coupling_param u 1 1 n Tee)) in *.
  assert (1 / g2 < 1 / g1) as L.
  { rewrite I1, I2. apply Rplus_lt_compat_r. unfold Rdiv at 1 3. rewrite !Rmult_1_l. apply Rinv_lt_contravar.
    - assert (0 < k1 / f) by (apply Rdiv_lt_0_compat; lra). assert (0 < k2 / f) by (apply Rdiv_lt_0_compat; lra).
      assert (0 < (k1 / f) ^ 2) by (apply pow_lt; lra). assert (0 < (k2 / f) ^ 2) by (apply pow_lt; lra). repeat (assumption || apply Rmult_lt_0_compat).
    - apply Rmult_lt_compat_l; [exact P1|]. assert (0 < k1 / f) by (apply Rdiv_lt_0_compat; lra). assert (k1 / f < k2 / f) by (apply Rdiv_lt_compat_r; lra). nra. }
  apply Rnot_le_lt. intros L2. assert (1 / g1 <= 1 / g2). { unfold Rdiv. rewrite !Rmult_1_l. apply Rinv_le_contravar; lra. } lra.
Qed.
Print Assumptions C59_geldart_vosko_increasing.

Lemma Tee_one : exists Tee, GV_T_ee unit_consts 1 n_one = Some Tee.
Proof.
  unfold GV_T_ee, GV_T_q. rewrite rs_one, sqrt_1. rewrite qdiv_some by lra. cbn [obind]. eexists; reflexivity.
Qed.
Lemma gT_zero G x : GV_gT (fun _ => 0) G x = 0.
Proof. unfold GV_gT, GV_g_bin_0. ring. Qed.
Example C59_interpolations_ex : exists g cold hot, eelfc_interp_gregori2007 unit_consts (fun z => z) (fun _ => 0) 1 1 n_one = Some g /\
  eelfc_utsumiichimaru unit_consts (fun z => z) 1 n_one = Some cold /\ eelfc_geldartvosko unit_consts (fun _ => 0) 1 1 n_one = Some hot /\ 0 < hot.
Proof.
  destruct Tee_one as [Tee E].
  destruct (C59_geldart_vosko unit_consts (fun _ => 0) 1 1 n_one Tee ltac:(lra) ltac:(lra) n_one_pos E) as (h & Eh & _ & _ & Hh & _). { rewrite gT_zero. lra. }
  assert (exists c, eelfc_utsumiichimaru unit_consts (fun z => z) 1 n_one = Some c) as [c Ec].
  { unfold eelfc_utsumiichimaru, g0_ee. rewrite rs_one.
    set (z := 4 * Rpower (4 / (9 * PI)) (1 / 6) * sqrt (1 / PI)).
    assert (0 < z). { unfold z. pose proof (exp_pos (1 / 6 * ln (4 / (9 * PI)))) as P. change (exp (1 / 6 * ln (4 / (9 * PI)))) with (Rpower (4 / (9 * PI)) (1 / 6)) in P.
      assert (0 < sqrt (1 / PI)) by (apply sqrt_lt_R0; apply Rdiv_lt_0_compat; [lra|apply PI_RGT_0]). apply Rmult_lt_0_compat; lra. }
    rewrite qdiv_some by lra. cbn [obind]. cbn [UI_coefficients]. pose proof (kF_pos n_one) as HF.
    assert (0 < 1 / fermi_wavenumber n_one <= 1) as HQ.
    { split; [apply Rdiv_lt_0_compat; lra|]. apply div_le; [lra|]. rewrite Rmult_1_l.
      unfold fermi_wavenumber, n_one. pose proof PI2_3_2. apply Rle_trans with (Rpower 1 (1 / 3)); [rewrite rp_one; lra|]. apply Rle_Rpower_l; [lra|]. split; [lra|].
      replace (3 * PI ^ 2 * (3 / (4 * PI))) with (9 / 4 * PI) by (field; lra). lra. }
    destruct (form_small (29 / 1000) (9 / 16 * gamma_0 1 - 3 / 64 * (1 - 1 / 8 * (z / z) ^ 2) - 16 / 15 * (29 / 1000)) (- (3 / 4) * gamma_0 1 + 9 / 16 * (1 - 1 / 8 * (z / z) ^ 2) - 16 / 5 * (29 / 1000))
      (9 / 16 * gamma_0 1 - 3 / 64 * (1 - 1 / 8 * (z / z) ^ 2) - 16 / 15 * (29 / 1000) + 8 / 3 * (29 / 1000)) _ HQ) as (g & Eg & _).
    exists g. exact Eg. }
  assert (0 <= Theta unit_consts 1 n_one) as Ht. { pose proof (TF_pos unit_consts n_one). change (Theta unit_consts 1 n_one) with (1 / fermi_temperature unit_consts n_one). apply Rdiv_le_0_compat; lra. }
  unfold eelfc_interp_gregori2007, weigh. rewrite Ec, Eh. cbn [obind]. rewrite qdiv_some by lra. eexists _, c, h. repeat split. lra.
Qed.

(** ** C108: sum rules of the corrections at zero temperature *)
Lemma Q_le k n : 0 < k <= fermi_wavenumber n -> 0 < k / fermi_wavenumber n <= 1.
Proof. pose proof (kF_pos n). intros H1. split; [apply Rdiv_lt_0_compat; lra|apply div_le; lra]. Qed.
Lemma Q_ge k n m : m * fermi_wavenumber n <= k -> m <= k / fermi_wavenumber n.
Proof. pose proof (kF_pos n). intros H1. apply le_div; lra. Qed.
(** compressibility at long waves, the value at contact at short waves *)
Theorem C108_utsumi_ichimaru : forall u i1 n g0, g0_ee i1 (lfc_rs u n) = Some g0 -> exists K, forall k,
  (0 < k <= fermi_wavenumber n -> exists g, eelfc_utsumiichimaru u i1 k n = Some g /\
     Rabs (g - gamma_0 (lfc_rs u n) * (k / fermi_wavenumber n) ^ 2) <= K * (k / fermi_wavenumber n) ^ 4) /\
  (4 * fermi_wavenumber n <= k -> exists g, eelfc_utsumiichimaru u i1 k n = Some g /\
     Rabs (g - (1 - g0)) <= K / (k / fermi_wavenumber n) ^ 2).
Proof.
  intros u i1 n g0 E. set (ga := gamma_0 (lfc_rs u n)).
  set (A := 29 / 1000). set (B := 9 / 16 * ga - 3 / 64 * (1 - g0) - 16 / 15 * A). set (C := - (3 / 4) * ga + 9 / 16 * (1 - g0) - 16 / 5 * A). set (D := B + 8 / 3 * A).
  assert (forall k, eelfc_utsumiichimaru u i1 k n = zero_T_form A B C D (k / fermi_wavenumber n)) as F by (intros k; unfold eelfc_utsumiichimaru; rewrite E; reflexivity).
  pose proof (Rabs_pos A). pose proof (Rabs_pos B). pose proof (Rabs_pos C). pose proof (Rabs_pos D).
  exists (64 * (Rabs A + Rabs B + Rabs C + Rabs D)). intros k. split; intros Hk.
  - apply Q_le in Hk. set (Q := k / fermi_wavenumber n) in *. destruct (form_small A B C D Q Hk) as (g & Eg & Hg). exists g. split; [rewrite F; exact Eg|].
    replace (ga * Q ^ 2) with ((B + D + C / 6) * Q ^ 2) by (unfold D, C, B; field). eapply Rle_trans; [exact Hg|]. apply Rmult_le_compat_r; [apply pow_le; lra|lra].
  - apply Q_ge in Hk. set (Q := k / fermi_wavenumber n) in *. destruct (form_large A B C D Q Hk) as (g & Eg & Hg). exists g. split; [rewrite F; exact Eg|].
    replace (1 - g0) with ((B - D + 8 / 3 * A) * Q ^ 2 + (2 * C + 8 / 3 * D + 32 / 15 * A)) by (unfold D, C, B; field).
    eapply Rle_trans; [exact Hg|]. apply Rdiv_le_compat_r; [apply pow_lt; lra|lra].
Qed.
Print Assumptions C108_utsumi_ichimaru.
Theorem C108_farid : forall u i1 n b0A b0B b0C bm2, Farid_b i1 (lfc_rs u n) = Some (b0A, b0B, b0C, bm2) -> exists K, forall k,
  (0 < k <= fermi_wavenumber n -> exists g, eelfc_farid u i1 k n = Some g /\
     Rabs (g - gamma_0 (lfc_rs u n) * (k / fermi_wavenumber n) ^ 2) <= K * (k / fermi_wavenumber n) ^ 4) /\
  (4 * fermi_wavenumber n <= k -> exists g, eelfc_farid u i1 k n = Some g /\
     Rabs (g - (bm2 * (k / fermi_wavenumber n) ^ 2 + (b0A + b0B + b0C))) <= K / (k / fermi_wavenumber n) ^ 2).
Proof.
  intros u i1 n b0A b0B b0C bm2 E. set (ga := gamma_0 (lfc_rs u n)).
  destruct (Farid_coefficients ga b0A b0B b0C bm2) as [[[A B] C] D] eqn:EC.
  assert (forall k, eelfc_farid u i1 k n = zero_T_form A B C D (k / fermi_wavenumber n)) as F by (intros k; unfold eelfc_farid; rewrite E; cbn [obind]; fold ga; rewrite EC; reflexivity).
  unfold Farid_coefficients in EC. injection EC as EA EB EC ED. rewrite EA in EB, EC, ED. clear EA.
  pose proof (Rabs_pos A). pose proof (Rabs_pos B). pose proof (Rabs_pos C). pose proof (Rabs_pos D).
  exists (64 * (Rabs A + Rabs B + Rabs C + Rabs D)). intros k. split; intros Hk.
  - apply Q_le in Hk. set (Q := k / fermi_wavenumber n) in *. destruct (form_small A B C D Q Hk) as (g & Eg & Hg). exists g. split; [rewrite F; exact Eg|].
    replace (ga * Q ^ 2) with ((B + D + C / 6) * Q ^ 2) by (rewrite <- EB, <- EC, <- ED; field). eapply Rle_trans; [exact Hg|]. apply Rmult_le_compat_r; [apply pow_le; lra|lra].
  - apply Q_ge in Hk. set (Q := k / fermi_wavenumber n) in *. destruct (form_large A B C D Q Hk) as (g & Eg & Hg). exists g. split; [rewrite F; exact Eg|].
    replace (bm2 * Q ^ 2 + (b0A + b0B + b0C)) with ((B - D + 8 / 3 * A) * Q ^ 2 + (2 * C + 8 / 3 * D + 32 / 15 * A)) by (rewrite <- EB, <- EC, <- ED; field).
    eapply Rle_trans; [exact Hg|]. apply Rdiv_le_compat_r; [apply pow_lt; lra|lra].
Qed.
Print Assumptions C108_farid.
(** twice the Fermi wave number: not a number, and so are both interpolations,
    although the correction has a limit there *)
Theorem C108_twice_kF_refuted : forall u i1 quad n T,
  eelfc_utsumiichimaru u i1 (2 * fermi_wavenumber n) n = None /\ eelfc_farid u i1 (2 * fermi_wavenumber n) n = None /\
  eelfc_interp_gregori2007 u i1 quad (2 * fermi_wavenumber n) T n = None /\ eelfc_interp_fortmann2010 u i1 quad (2 * fermi_wavenumber n) T n = None /\
  (forall g0, g0_ee i1 (lfc_rs u n) = Some g0 -> exists L K, forall k, 0 < Rabs (k / fermi_wavenumber n - 2) < 1 ->
     exists g, eelfc_utsumiichimaru u i1 k n = Some g /\ Rabs (g - L) <= K * sqrt (Rabs (k / fermi_wavenumber n - 2))) /\
  (forall b, Farid_b i1 (lfc_rs u n) = Some b -> exists L K, forall k, 0 < Rabs (k / fermi_wavenumber n - 2) < 1 ->
     exists g, eelfc_farid u i1 k n = Some g /\ Rabs (g - L) <= K * sqrt (Rabs (k / fermi_wavenumber n - 2))).
Proof.
  intros u i1 quad n T. pose proof (kF_pos n) as HF.
  assert (eelfc_utsumiichimaru u i1 (2 * fermi_wavenumber n) n = None) as E1.
  { unfold eelfc_utsumiichimaru. destruct (g0_ee i1 (lfc_rs u n)) as [g0|]; [|reflexivity]. cbn [obind]. destruct (UI_coefficients _ g0) as [[[A B] C] D].
    replace (2 * fermi_wavenumber n / fermi_wavenumber n) with 2 by (field; lra). apply form_none. }
  assert (eelfc_farid u i1 (2 * fermi_wavenumber n) n = None) as E2.
  { unfold eelfc_farid. destruct (Farid_b i1 (lfc_rs u n)) as [[[[b1 b2] b3] b4]|]; [|reflexivity]. cbn [obind]. destruct (Farid_coefficients _ b1 b2 b3 b4) as [[[A B] C] D].
    replace (2 * fermi_wavenumber n / fermi_wavenumber n) with 2 by (field; lra). apply form_none. }
  split; [exact E1|]. split; [exact E2|]. split; [unfold eelfc_interp_gregori2007; rewrite E1; reflexivity|]. split; [unfold eelfc_interp_fortmann2010; rewrite E2; reflexivity|]. split.
  - intros g0 E. destruct (UI_coefficients (gamma_0 (lfc_rs u n)) g0) as [[[A B] C] D] eqn:EC.
    exists (16 * A + 4 * B + C), (500 * (Rabs A + Rabs B + Rabs C + Rabs D)). intros k Hk. destruct (form_two A B C D _ Hk) as (g & Eg & Hg). exists g. split; [|exact Hg].
    unfold eelfc_utsumiichimaru. rewrite E. cbn [obind]. rewrite EC. exact Eg.
  - intros [[[b1 b2] b3] b4] E. destruct (Farid_coefficients (gamma_0 (lfc_rs u n)) b1 b2 b3 b4) as [[[A B] C] D] eqn:EC.
    exists (16 * A + 4 * B + C), (500 * (Rabs A + Rabs B + Rabs C + Rabs D)). intros k Hk. destruct (form_two A B C D _ Hk) as (g & Eg & Hg). exists g. split; [|exact Hg].
    unfold eelfc_farid. rewrite E. cbn [obind]. rewrite EC. exact Eg.
Qed.
Print Assumptions C108_twice_kF_refuted.
(** the exchange hole alone gives 1/4 for a dense electron gas *)
Theorem C108_dense_limit_refuted : forall u n, 0 < n -> interparticle_spacing 1 1 n <= a_0 u / 1000000 -> 1 / 4 + 1 / 100 <= gamma_0 (lfc_rs u n).
Proof.
  intros u n Hn H. pose proof (a_0_pos u) as Ha. apply gamma_0_dense. unfold lfc_rs. split.
  - apply Rdiv_lt_0_compat; [unfold interparticle_spacing, Rpower; apply exp_pos|lra].
  - apply div_le; [lra|]. lra.
Qed.
Print Assumptions C108_dense_limit_refuted.
(** The two fits that enter the compressibility are those of one correlation energy:
    the second is r_s d/dr_s of the first minus twice the first. *)
Theorem C108_derivatives_of_one_energy : forall rs, 0 < rs ->
  Rabs (rs3d2Ec_d2rs rs - (rs * Derive rs2dEc_drs rs - 2 * rs2dEc_drs rs)) <= 1 / 100000 * Rabs (rs3d2Ec_d2rs rs).
Proof.
  intros rs Hrs. set (s := sqrt rs). assert (Hs : 0 < s) by now apply sqrt_lt_R0.
  assert (Hss : s * s = rs) by (apply sqrt_sqrt; lra).
  set (D := 1 + 981379 / 100000 * s + 282224 / 100000 * (s * s) + 736411 / 1000000 * (s * s * s)).
  set (P := (621814 / 10000000 + 61024 / 100000 * s)).
  set (D' := 981379 / 100000 + 2 * (282224 / 100000) * s + 3 * (736411 / 1000000) * (s * s)).
  assert (s2 : 0 < s * s) by nra. assert (s3 : 0 < s * s * s) by nra. assert (s4 : 0 < s * s * s * s) by nra.
  assert (HD : 0 < D) by (unfold D; lra).
  assert (E : Derive rs2dEc_drs rs = (61024 / 100000 * D - P * D') / (2 * s * D ^ 2)).
  { apply is_derive_unique. unfold rs2dEc_drs. auto_derive.
    - fold s. repeat split; try assumption; try (rewrite <- Hss; unfold D in HD; lra).
    - fold s. rewrite <- Hss. unfold P, D', D in *. field. lra. }
  rewrite E.
  set (Nc := 823505 / 100000 * (s * s * s) + 2486 / 1000 * (s * s * s * s) + 230573 / 10000 * (s * s) + 450109 / 100000 * s + 229324 / 1000000).
  set (Dc := s * s * s + 383243 / 100000 * (s * s) + 133265 / 10000 * s + 135794 / 100000).
  assert (HDc : 0 < Dc) by (unfold Dc; lra). assert (HNc : 0 < Nc) by (unfold Nc; lra).
  assert (EG : rs3d2Ec_d2rs rs = - (Nc / Dc ^ 2)).
  { unfold rs3d2Ec_d2rs. fold s. rewrite <- Hss. unfold Nc, Dc in *. field. lra. }
  set (X := 2 * P * D - s / 2 * (61024 / 100000 * D - P * D')).
  assert (EX : rs * ((61024 / 100000 * D - P * D') / (2 * s * D ^ 2)) - 2 * rs2dEc_drs rs = - (X / D ^ 2)).
  { replace (rs2dEc_drs rs) with (P / D) by (unfold rs2dEc_drs, P, D; fold s; rewrite <- Hss; reflexivity).
    rewrite <- Hss. unfold X. field. lra. }
  rewrite EX, EG.
  set (e := 736411 / 1000000).
  assert (X1 : e ^ 2 * Nc <= X) by (unfold X, P, D, D', Nc, e; ring_simplify in s2; ring_simplify in s3; ring_simplify in s4; nra).
  assert (X2 : X <= (1 + 2 / 1000000) * (e ^ 2 * Nc)) by (unfold X, P, D, D', Nc, e; nra).
  assert (D1 : (1 - 2 / 1000000) * (e * Dc) <= D) by (unfold D, Dc, e; lra).
  assert (D2 : D <= (1 + 1 / 1000000) * (e * Dc)) by (unfold D, Dc, e; lra).
  assert (He : 0 < e) by (unfold e; lra).
  assert (HeD : 0 < e * Dc) by now apply Rmult_lt_0_compat.
  assert (Q1 : (1 - 2 / 1000000) ^ 2 * (e * Dc) ^ 2 <= D ^ 2) by (rewrite <- Rpow_mult_distr; apply pow_incr; lra).
  assert (Q2 : D ^ 2 <= (1 + 1 / 1000000) ^ 2 * (e * Dc) ^ 2) by (rewrite <- Rpow_mult_distr; apply pow_incr; lra).
  set (N := Nc / Dc ^ 2). assert (HN : 0 < N) by (apply Rdiv_lt_0_compat; [assumption|now apply pow_lt]).
  assert (HD2 : 0 < D ^ 2) by now apply pow_lt.
  assert (EN : e ^ 2 * Nc = N * (e * Dc) ^ 2) by (unfold N; field; lra).
  assert (B : (1 - 1 / 100000) * N <= X / D ^ 2 <= (1 + 1 / 100000) * N).
  { rewrite EN in X1, X2. set (Q := (e * Dc) ^ 2) in *. assert (0 < Q) by (now apply pow_lt).
    assert (HNQ : 0 < N * Q) by now apply Rmult_lt_0_compat.
    assert (Z1 : N * ((1 - 2 / 1000000) ^ 2 * Q) <= N * D ^ 2) by (apply Rmult_le_compat_l; lra).
    assert (Z2 : N * D ^ 2 <= N * ((1 + 1 / 1000000) ^ 2 * Q)) by (apply Rmult_le_compat_l; lra).
    split; apply (Rmult_le_reg_r (D ^ 2)); try assumption; unfold Rdiv; rewrite (Rmult_assoc X), Rinv_l, Rmult_1_r by lra.
    - set (ND := N * D ^ 2) in *. set (NQ := N * Q) in *.
      replace (N * ((1 - 2 / 1000000) ^ 2 * Q)) with ((1 - 2 / 1000000) ^ 2 * NQ) in Z1 by (unfold NQ; ring).
      replace (N * ((1 + 1 / 1000000) ^ 2 * Q)) with ((1 + 1 / 1000000) ^ 2 * NQ) in Z2 by (unfold NQ; ring).
      rewrite (Rmult_assoc _ N). fold ND.
      clearbody NQ ND X. lra.
    - set (ND := N * D ^ 2) in *. set (NQ := N * Q) in *.
      replace (N * ((1 - 2 / 1000000) ^ 2 * Q)) with ((1 - 2 / 1000000) ^ 2 * NQ) in Z1 by (unfold NQ; ring).
      replace (N * ((1 + 1 / 1000000) ^ 2 * Q)) with ((1 + 1 / 1000000) ^ 2 * NQ) in Z2 by (unfold NQ; ring).
      rewrite (Rmult_assoc _ N). fold ND.
      clearbody NQ ND X. lra. }
  rewrite Rabs_Ropp, (Rabs_right N) by lra. apply Rabs_le. lra.
Qed.
Print Assumptions C108_derivatives_of_one_energy.
Theorem C108_contact_value : forall i1 rs, 0 < rs -> (forall z, 0 < z -> z / 2 <= i1 z) -> exists g0, g0_ee i1 rs = Some g0 /\ 0 < g0 <= 1 / 2.
Proof.
  intros i1 rs Hr Hi. unfold g0_ee. set (z := 4 * Rpower (4 / (9 * PI)) (1 / 6) * sqrt (rs / PI)).
  assert (0 < z) as Hz. { unfold z. assert (0 < Rpower (4 / (9 * PI)) (1 / 6)) by (unfold Rpower; apply exp_pos).
    assert (0 < sqrt (rs / PI)) by (apply sqrt_lt_R0; apply Rdiv_lt_0_compat; [lra|apply PI_RGT_0]). apply Rmult_lt_0_compat; lra. }
  specialize (Hi z Hz). rewrite qdiv_some by lra. cbn [obind]. eexists; split; [reflexivity|].
  assert (0 < z / i1 z) by (apply Rdiv_lt_0_compat; lra). assert (z / i1 z <= 2) by (apply div_le; lra). split; nra.
Qed.
Print Assumptions C108_contact_value.
(** Farid et al.'s fits of the moments of the momentum distribution, <p^2> = 3/5 (1 + delta_2) k_F^2 and
    <p^4> = 3/7 (1 + delta_4) k_F^4: up to r_s = 193 the interaction raises both, the fourth moment by more than
    twice as much; up to r_s = 100 they are the moments of a distribution, <p^2>^2 <= <p^4>. *)
Theorem C108_momentum_moments : forall rs, 0 < rs <= 193 -> exists d2 d4,
  F_delta_2 (sqrt rs) = Some d2 /\ F_delta_4 (sqrt rs) d2 = Some d4 /\ 0 < d2 /\ 2 * d2 < d4 /\
  (rs <= 100 -> (3 / 5 * (1 + d2)) ^ 2 <= 3 / 7 * (1 + d4)).
Proof.
  intros rs [H0 H1]. set (x := sqrt rs).
  assert (Hx : 0 < x) by now apply sqrt_lt_R0.
  assert (HX : x <= 139 / 10). { unfold x. rewrite <- (sqrt_pow2 (139 / 10)) by lra. apply sqrt_le_1_alt. lra. }
  pose proof (fd2_num_pos x ltac:(lra)) as N2. pose proof (fd2_den_pos x ltac:(lra)) as D2.
  pose proof (fd4_num_pos x ltac:(lra)) as N4. pose proof (fd4_den_pos x ltac:(lra)) as D4.
  set (d2 := x * fd2_num x / fd2_den x). set (q := fd4_num x / fd4_den x).
  assert (P2 : 0 < d2) by (apply Rdiv_lt_0_compat; [apply Rmult_lt_0_compat; lra|lra]).
  assert (Pq : 2 < q). { apply lt_div; lra. }
  exists d2, (d2 * q). split; [|split; [|split; [exact P2|split; [nra|]]]].
  - unfold F_delta_2. rewrite qdiv_some by (unfold fd2_den in D2; lra). f_equal. unfold d2. unfold fd2_num, fd2_den in *. field. lra.
  - unfold F_delta_4. rewrite qdiv_some by (unfold fd4_den in D4; lra). cbn [obind]. f_equal.
  - intros H2.
    assert (Hy : x <= 10). { unfold x. rewrite <- (sqrt_pow2 10) by lra. apply sqrt_le_1_alt. lra. }
    pose proof (moments_pos x ltac:(lra)) as M.
    assert (d2 <= 25 / 21 * q - 2).
    { unfold d2, q. apply Rmult_le_reg_r with (fd2_den x * fd4_den x); [apply Rmult_lt_0_compat; lra|].
      replace (x * fd2_num x / fd2_den x * (fd2_den x * fd4_den x)) with (x * fd2_num x * fd4_den x) by (field; lra).
      replace ((25 / 21 * (fd4_num x / fd4_den x) - 2) * (fd2_den x * fd4_den x))
        with (25 / 21 * (fd4_num x * fd2_den x) - 2 * (fd4_den x * fd2_den x)) by (field; lra). lra. }
    nra.
Qed.
Print Assumptions C108_momentum_moments.
(** In Hartree units, with k_F = (9 pi / 4)^(1/3) / r_s and omega_p^2 = 3 / r_s^3, the coefficients of the short-wave
    behaviour are those of the third moment sum rule: the shift of <p^2> times k_F^2 / (3 omega_p^2), the shifts
    of 4/5 <p^4> and of - 4/9 <p^2>^2 over omega_p^2, and two thirds of one minus the value at contact. *)
Theorem C108_farid_moments : forall i1 rs b0A b0B b0C bm2, 0 < rs -> Farid_b i1 rs = Some (b0A, b0B, b0C, bm2) ->
  exists g0 M2 M4 (kF := Rpower (9 * PI / 4) (1 / 3) / rs) (wp2 := 3 / rs ^ 3),
  g0_ee i1 rs = Some g0 /\ b0A = 2 / 3 * (1 - g0) /\
  F_delta_2 (sqrt rs) = Some (M2 / (3 / 5 * kF ^ 2) - 1) /\
  F_delta_4 (sqrt rs) (M2 / (3 / 5 * kF ^ 2) - 1) = Some (M4 / (3 / 7 * kF ^ 4) - 1) /\
  bm2 = kF ^ 2 * (M2 - 3 / 5 * kF ^ 2) / (3 * wp2) /\
  b0B = 4 / 5 * (M4 - 3 / 7 * kF ^ 4) / wp2 /\
  b0C = - (4 / 9) * (M2 ^ 2 - (3 / 5 * kF ^ 2) ^ 2) / wp2.
Proof.
  intros i1 rs b0A b0B b0C bm2 Hrs E. set (kF := Rpower (9 * PI / 4) (1 / 3) / rs). set (wp2 := 3 / rs ^ 3).
  pose proof PI_RGT_0 as HPI.
  assert (HkF : 0 < kF) by (apply Rdiv_lt_0_compat; [apply exp_pos|lra]).
  assert (Hr3 : 0 < rs ^ 3) by now apply pow_lt.
  assert (Hw : 0 < wp2) by (apply Rdiv_lt_0_compat; lra).
  assert (EkF : F_k_F rs = kF).
  { unfold F_k_F, F_lamb, kF. assert (EL : Rpower (4 / (9 * PI)) (1 / 3) = / Rpower (9 * PI / 4) (1 / 3)).
    { replace (4 / (9 * PI)) with (/ (9 * PI / 4)) by (field; lra). unfold Rpower. rewrite ln_Rinv by lra.
      rewrite <- exp_Ropp. f_equal. ring. }
    rewrite EL. field. split; [lra|]. apply Rgt_not_eq. apply exp_pos. }
  assert (Ew : F_w_p rs ^ 2 = wp2) by (unfold F_w_p; rewrite pow2_sqrt by (unfold wp2 in Hw; lra); reflexivity).
  unfold Farid_b in E.
  destruct (F_delta_2 (sqrt rs)) as [d2|] eqn:E2; [|discriminate]. cbn [obind] in E.
  destruct (F_delta_4 (sqrt rs) d2) as [d4|] eqn:E4; [|discriminate]. cbn [obind] in E.
  destruct (g0_ee i1 rs) as [g0|] eqn:Eg; [|discriminate]. cbn [obind] in E. rewrite Ew in E. unfold F_E_F in E. rewrite EkF in E.
  injection E as <- <- <- <-.
  exists g0, (3 / 5 * kF ^ 2 * (1 + d2)), (3 / 7 * kF ^ 4 * (1 + d4)). cbv zeta.
  replace (3 / 5 * kF ^ 2 * (1 + d2) / (3 / 5 * kF ^ 2) - 1) with d2 by (field; lra).
  replace (3 / 7 * kF ^ 4 * (1 + d4) / (3 / 7 * kF ^ 4) - 1) with d4 by (field; lra).
  split; [reflexivity|]. split; [reflexivity|]. split; [reflexivity|]. split; [exact E4|].
  unfold F_bm2, F_b0B, F_b0C. repeat split; field; lra.
Qed.
Print Assumptions C108_farid_moments.
(** The fit of the second moment has a pole: there is a density for which the correction is not defined at any wave number, *)
Theorem C108_pole_refuted : exists rs, 193 < rs < 194 /\ forall u i1 n, lfc_rs u n = rs -> forall k, eelfc_farid u i1 k n = None.
Proof.
  destruct (IVT (fun x => x ^ 4 - 799684540 / 10 ^ 7 - 1405268938 / 10 ^ 7 * x - 352575566 / 10 ^ 7 * x ^ 2
          - 106331769 / 10 ^ 7 * x ^ 3) (1391 / 100) (1392 / 100 + 1 / 200)) as (x & Hx & Ex); [|lra|lra|lra|].
  { intros y. apply derivable_continuous_pt. apply ex_derive_Reals_0. auto_derive. exact I. }
  exists (x ^ 2). split; [split; nra|]. intros u i1 n En k. unfold eelfc_farid. rewrite En. unfold Farid_b.
  rewrite sqrt_pow2 by lra. unfold F_delta_2, qdiv. rewrite Ex. destruct (Req_EM_T 0 0); [reflexivity|congruence].
Qed.
Print Assumptions C108_pole_refuted.
(** and already before it the two fits are not the moments of any distribution. *)
Theorem C108_momentum_moments_refuted : exists rs d2 d4, 0 < rs <= 193 /\ F_delta_2 (sqrt rs) = Some d2 /\ F_delta_4 (sqrt rs) d2 = Some d4 /\
  3 / 7 * (1 + d4) < (3 / 5 * (1 + d2)) ^ 2.
Proof.
  exists ((137 / 10) ^ 2). rewrite sqrt_pow2 by lra. unfold F_delta_2, F_delta_4.
  rewrite qdiv_some by lra. rewrite qdiv_some by lra. cbn [obind]. do 2 eexists. split; [lra|]. split; [reflexivity|]. split; [reflexivity|]. lra.
Qed.
Print Assumptions C108_momentum_moments_refuted.

Example C108_ex : exists g0, g0_ee (fun z => z) (lfc_rs unit_consts n_one) = Some g0 /\ g0 = 1 / 8.
Proof.
  rewrite rs_one. unfold g0_ee. set (z := 4 * Rpower (4 / (9 * PI)) (1 / 6) * sqrt (1 / PI)).
  assert (0 < z) as Hz. { unfold z. assert (0 < Rpower (4 / (9 * PI)) (1 / 6)) by (unfold Rpower; apply exp_pos).
    assert (0 < sqrt (1 / PI)) by (apply sqrt_lt_R0; apply Rdiv_lt_0_compat; [lra|apply PI_RGT_0]). apply Rmult_lt_0_compat; lra. }
  rewrite qdiv_some by lra. cbn [obind]. eexists; split; [reflexivity|]. field. lra.
Qed.
Example C108_farid_ex : exists b, Farid_b (fun z => z) (lfc_rs unit_consts n_one) = Some b.
Proof.
  destruct C108_ex as (g0 & E & _). rewrite rs_one in *. unfold Farid_b, F_delta_2, F_delta_4. rewrite sqrt_1, E. cbn [obind].
  rewrite qdiv_some by lra. cbn [obind]. rewrite qdiv_some by lra. cbn [obind]. eexists; reflexivity.
Qed.
Example C108_dense_ex : exists n, 0 < n /\ interparticle_spacing 1 1 n <= a_0 unit_consts / 1000000.
Proof.
  exists (3 / (4 * PI) * 1000000 ^ 3). pose proof PI_RGT_0. split; [apply Rmult_lt_0_compat; [apply Rdiv_lt_0_compat; lra|lra]|].
  unfold interparticle_spacing. cbn [a_0 unit_consts]. rewrite Rmult_1_r, rp_one.
  replace (3 * 1 / (4 * PI * (3 / (4 * PI) * 1000000 ^ 3))) with ((1 / 1000000) ^ 3) by (field; lra).
  rewrite <- Rpower_pow by lra. rewrite Rpower_mult. replace (INR 3 * (1 / 3)) with 1 by (cbn; field). rewrite Rpower_1; lra.
Qed.

(** ** C109: Geldart and Vosko's value at contact *)
Theorem C109_contact_bounds : forall quad xi, exact quad -> 0 < xi ->
  0 <= GV_g_bin_0 quad xi <= sqrt 2 / 4 /\ sqrt 2 / 4 - sqrt (2 * PI) * sqrt xi / 4 <= GV_g_bin_0 quad xi.
Proof. intros quad xi Hq Hx. destruct (contact quad xi Hx Hq) as [H1 H2]. lra. Qed.
Print Assumptions C109_contact_bounds.
(** hot or dense electrons do not interact: two electrons of random spin meet
    with probability 1/2, the code's value is never larger than 0.354 *)
Theorem C109_ideal_refuted : exists quad, exact quad /\ forall xi, 0 < xi -> 1 / 2 - GV_g_bin_0 quad xi > 14 / 100.
Proof.
  exists lim_quad. split; [apply lim_quad_exact|]. intros xi Hx. destruct (contact lim_quad xi Hx lim_quad_exact) as [[_ H] _].
  assert (sqrt 2 < 144 / 100). { rewrite <- (sqrt_pow2 (144 / 100)) by lra. apply sqrt_lt_1_alt. lra. } lra.
Qed.
Print Assumptions C109_ideal_refuted.
Lemma H0_bound G : 0 < G -> 0 < GV_H_0 G <= sqrt 3 * (G * sqrt G).
Proof.
  intros HG. unfold GV_H_0. set (c := 10754 / 10000). assert (0 < sqrt 3) by (apply sqrt_lt_R0; lra).
  assert (0 < c) by (unfold c; lra). assert (0 < c / sqrt 3) as Hc by (apply Rdiv_lt_0_compat; lra).
  assert (0 < sqrt G) by (apply sqrt_lt_R0; lra). rewrite rp32 by lra. assert (0 < G * sqrt G) by (apply Rmult_lt_0_compat; lra).
  assert (0 < (c / sqrt 3) ^ 4) by (apply pow_lt; lra). assert (0 < G ^ 4) by (apply pow_lt; lra).
  assert (c / sqrt 3 <= Rpower ((c / sqrt 3) ^ 4 + G ^ 4) (1 / 4)) as HR.
  { apply Rle_trans with (Rpower ((c / sqrt 3) ^ 4) (1 / 4)).
    - rewrite <- Rpower_pow by lra. rewrite Rpower_mult. replace (INR 4 * (1 / 4)) with 1 by (cbn; field). rewrite Rpower_1 by lra. lra.
    - apply Rle_Rpower_l; lra. }
  split; [apply Rdiv_lt_0_compat; [apply Rmult_lt_0_compat; lra|lra]|].
  apply div_le; [lra|]. replace (c * (G * sqrt G)) with (sqrt 3 * (G * sqrt G) * (c / sqrt 3)) by (field; lra).
  apply Rmult_le_compat_l; [apply Rmult_le_pos; lra|exact HR].
Qed.
(** the screened value is larger than the binary one, by a factor that tends to
    one for weak coupling *)
Theorem C109_screening_enhances : forall quad G xi, exact quad -> 0 < G -> 0 < xi ->
  GV_g_bin_0 quad xi <= GV_gT quad G xi <= GV_g_bin_0 quad xi * exp (sqrt 3 * (G * sqrt G)).
Proof.
  intros quad G xi Hq HG Hx. destruct (contact quad xi Hx Hq) as [_ H2]. destruct (H0_bound G HG) as [H3 H4]. unfold GV_gT. split.
  - rewrite <- (Rmult_1_r (GV_g_bin_0 quad xi)) at 1. apply Rmult_le_compat_l; [exact H2|]. rewrite <- exp_0. left. apply exp_increasing. exact H3.
  - apply Rmult_le_compat_l; [exact H2|]. destruct H4 as [H4| ->]; [left; now apply exp_increasing|apply Rle_refl].
Qed.
Print Assumptions C109_screening_enhances.
Example C109_ex : exact lim_quad /\ 0 < GV_g_bin_0 lim_quad (1 / 10).
Proof.
  split; [apply lim_quad_exact|]. destruct (contact lim_quad (1 / 10) ltac:(lra) lim_quad_exact) as [[H _] _].
  assert (sqrt (2 * PI) * sqrt (1 / 10) < sqrt 2).
  { rewrite <- sqrt_mult by (pose proof PI_RGT_0; lra). apply sqrt_lt_1_alt. pose proof PI_4. pose proof PI_RGT_0. split; [lra|]. lra. }
  lra.
Qed.

(** ** C110: the fit of Dornheim et al. *)
Theorem C110_activation : forall x y a b, 0 < b -> x < y ->
  0 < Activation x a b < Activation y a b /\ Activation y a b < 1 /\ Activation a a b = 1 / 2 /\
  Activation (a + x) a b + Activation (a - x) a b = 1 /\ 1 - Activation y a b <= exp (- (2 * b * (y - a))).
Proof.
  intros x y a b Hb Hxy. rewrite !activation_form.
  assert (b * (x - a) < b * (y - a)) as L by (apply Rmult_lt_compat_l; lra).
  pose proof (exp_pos (- (2 * b * (x - a)))) as P1. pose proof (exp_pos (- (2 * b * (y - a)))) as P2.
  assert (exp (- (2 * b * (y - a))) < exp (- (2 * b * (x - a)))) as L2 by (apply exp_increasing; lra).
  repeat split.
  - apply Rdiv_lt_0_compat; lra.
  - unfold Rdiv. rewrite !Rmult_1_l. apply Rinv_lt_contravar; [apply Rmult_lt_0_compat; lra|lra].
  - apply div_lt; lra.
  - replace (- (2 * b * (a - a))) with 0 by ring. rewrite exp_0. field.
  - replace (a + x - a) with x by ring. replace (a - x - a) with (- x) by ring.
    replace (- (2 * b * - x)) with (2 * b * x) by ring. rewrite exp_Ropp. pose proof (exp_pos (2 * b * x)). field. split; lra.
  - set (e := exp (- (2 * b * (y - a)))) in *. apply Rle_trans with (e / (1 + e)); [right; field; lra|]. apply div_le; [lra|]. nra.
Qed.
Print Assumptions C110_activation.
Lemma act_range x t : 0 < Activation x (x_m t) 3 < 1.
Proof. destruct (C110_activation x (x + 1) (x_m t) 3 ltac:(lra) ltac:(lra)) as [[A B] [C _]]. lra. Qed.

Lemma ABCD_c t : 0 <= t <= 4 -> forall j, (j < 4)%nat ->
  0 < f_extended t (at_ ABCD (9 * j + 3 * 2)) (at_ ABCD (9 * j + 3 * 2 + 1)) (at_ ABCD (9 * j + 3 * 2 + 2)).
Proof.
  intros Ht j Hj. unfold f_extended. set (s := sqrt t). assert (0 <= s) as Hs by apply sqrt_pos. assert (s * s = t) as Es by (apply sqrt_sqrt; lra).
  assert (s <= 2) as Hs2 by nra. assert (0 <= t * s <= 2 * t) by (split; nra).
  destruct j as [|[|[|[|j]]]]; [| | | |lia]; unfold at_, ABCD; cbn [nth map Nat.mul Nat.add]; lra.
Qed.
(** the parameters of the fit are numbers in, and beyond, its region of validity *)
Theorem C110_parameters_defined : forall rs t j, 0 <= rs -> 0 <= t <= 4 -> (j < 4)%nat -> exists p, fit_parameter rs t j = Some p.
Proof.
  intros rs t j Hr Ht Hj. unfold fit_parameter, rational. pose proof (ABCD_c t Ht j Hj) as P. rewrite qdiv_some.
  - eexists; reflexivity.
  - apply Rgt_not_eq. assert (0 <= rs * f_extended t (at_ ABCD (9 * j + 3 * 2)) (at_ ABCD (9 * j + 3 * 2 + 1)) (at_ ABCD (9 * j + 3 * 2 + 2))) by (apply Rmult_le_pos; lra). lra.
Qed.
Print Assumptions C110_parameters_defined.
Lemma G_analytical_eq double rs t : 0 <= rs -> 0 <= t <= 4 -> exists al be ga de, forall x,
  G_analytical double x rs t = G_fit_wrap_extended double x rs t al be ga de.
Proof.
  intros Hr Ht. destruct (C110_parameters_defined rs t 0 Hr Ht ltac:(lia)) as [al E0]. destruct (C110_parameters_defined rs t 1 Hr Ht ltac:(lia)) as [be E1].
  destruct (C110_parameters_defined rs t 2 Hr Ht ltac:(lia)) as [ga E2]. destruct (C110_parameters_defined rs t 3 Hr Ht ltac:(lia)) as [de E3].
  exists al, be, ga, de. intros x. unfold G_analytical. rewrite E0, E1, E2, E3. reflexivity.
Qed.
(** at short waves the fit tends exponentially to one minus the value at contact *)
Theorem C110_short_waves : forall double rs t, 0 <= rs -> 0 <= t <= 4 -> Groth_A double rs t <> 0 ->
  exists X K, forall x, X <= x -> exists g, G_analytical double x rs t = Some g /\
    Rabs (g - (1 - OnTop rs t / 2)) <= K * x * exp (- (6 * x)).
Proof.
  intros double rs t Hr Ht HA. destruct (G_analytical_eq double rs t Hr Ht) as (al & be & ga & de & F).
  destruct (G_ML_large (Groth_A double rs t) al be ga de HA) as (X & K & HX & HK & L).
  set (o := 1 - 5 / 10 * OnTop rs t). exists X, ((K + Rabs o) * exp (6 * x_m t)). intros x Hx. destruct (L x Hx) as (m & Em & Bm).
  rewrite F. unfold G_fit_wrap_extended. rewrite Em. cbn [obind]. eexists; split; [reflexivity|]. fold o.
  set (a := Activation x (x_m t) 3). pose proof (act_range x t) as Ra. fold a in Ra.
  destruct (C110_activation (x - 1) x (x_m t) 3 ltac:(lra) ltac:(lra)) as (_ & _ & _ & _ & E). fold a in E.
  replace (m * (1 - a) + a * o - (1 - OnTop rs t / 2)) with ((m - o) * (1 - a)) by (unfold o; field).
  rewrite Rabs_mult, (Rabs_pos_eq (1 - a)) by lra.
  replace ((K + Rabs o) * exp (6 * x_m t) * x * exp (- (6 * x))) with ((K + Rabs o) * x * exp (- (2 * 3 * (x - x_m t)))).
  2:{ replace (- (2 * 3 * (x - x_m t))) with (6 * x_m t + - (6 * x)) by ring. rewrite exp_plus. ring. }
  apply Rmult_le_compat; [apply Rabs_pos|lra| |exact E].
  unfold Rminus. eapply Rle_trans; [apply Rabs_triang|]. rewrite Rabs_Ropp. pose proof (Rabs_pos o). nra.
Qed.
Print Assumptions C110_short_waves.
(** at long waves only the machine-learned part obeys the compressibility sum rule *)
Theorem C110_long_waves_partial : forall double rs t, 0 <= rs -> 0 <= t <= 4 ->
  exists X K, 0 < X /\ forall x, 0 <= x <= X -> exists g, G_analytical double x rs t = Some g /\
    Rabs (g - ((1 - Activation x (x_m t) 3) * (Groth_A double rs t * x ^ 2) + Activation x (x_m t) 3 * (1 - OnTop rs t / 2))) <= K * (x ^ 2 * sqrt x).
Proof.
  intros double rs t Hr Ht. destruct (G_analytical_eq double rs t Hr Ht) as (al & be & ga & de & F).
  destruct (G_ML_small (Groth_A double rs t) al be ga de) as (X & K & HX & HK & L). exists X, K. split; [exact HX|]. intros x Hx.
  destruct (L x Hx) as (m & Em & Bm). rewrite F. unfold G_fit_wrap_extended. rewrite Em. cbn [obind]. eexists; split; [reflexivity|].
  set (a := Activation x (x_m t) 3). pose proof (act_range x t) as Ra. fold a in Ra. set (A := Groth_A double rs t) in *.
  replace (m * (1 - a) + a * (1 - 5 / 10 * OnTop rs t) - ((1 - a) * (A * x ^ 2) + a * (1 - OnTop rs t / 2))) with ((m - A * x ^ 2) * (1 - a)) by field.
  rewrite Rabs_mult, (Rabs_pos_eq (1 - a)) by lra. pose proof (Rabs_pos (m - A * x ^ 2)). nra.
Qed.
Print Assumptions C110_long_waves_partial.
(** so the fit does not vanish with the wave number: G V then diverges like the
    Coulomb potential *)
Theorem C110_long_waves_refuted : forall double rs t, 0 <= rs -> 0 <= t <= 4 ->
  G_analytical double 0 rs t = Some ((1 - OnTop rs t / 2) / (1 + exp (6 * x_m t))) /\
  (OnTop rs t < 2 -> exists g, G_analytical double 0 rs t = Some g /\ 0 < g).
Proof.
  intros double rs t Hr Ht. destruct (G_analytical_eq double rs t Hr Ht) as (al & be & ga & de & F).
  assert (G_analytical double 0 rs t = Some ((1 - OnTop rs t / 2) / (1 + exp (6 * x_m t)))) as E.
  { rewrite F. unfold G_fit_wrap_extended, G_ML. rewrite qdiv_some.
    - cbn [obind]. f_equal. rewrite activation_form. replace (- (2 * 3 * (0 - x_m t))) with (6 * x_m t) by ring.
      pose proof (exp_pos (6 * x_m t)). rewrite !Rmult_0_r, !Rmult_0_l. field. lra.
    - rewrite !Rmult_0_l. rewrite pow_i by lia. lra. }
  split; [exact E|]. intros H. rewrite E. eexists; split; [reflexivity|]. pose proof (exp_pos (6 * x_m t)). apply Rdiv_lt_0_compat; lra.
Qed.
Print Assumptions C110_long_waves_refuted.
Theorem C110_between : forall double x rs t g, 0 <= rs -> 0 <= t <= 4 -> G_analytical double x rs t = Some g ->
  exists al be ga de m, G_ML (Groth_A double rs t) x al be ga de = Some m /\
    Rmin m (1 - OnTop rs t / 2) <= g <= Rmax m (1 - OnTop rs t / 2).
Proof.
  intros double x rs t g Hr Ht E. destruct (G_analytical_eq double rs t Hr Ht) as (al & be & ga & de & F). rewrite F in E.
  unfold G_fit_wrap_extended in E. destruct (G_ML (Groth_A double rs t) x al be ga de) as [m|] eqn:Em; [|discriminate]. cbn [obind] in E. injection E as <-.
  exists al, be, ga, de, m. split; [exact Em|]. pose proof (act_range x t) as Ra. set (a := Activation x (x_m t) 3) in *.
  set (o := 1 - OnTop rs t / 2). replace (1 - 5 / 10 * OnTop rs t) with o by (unfold o; field).
  pose proof (Rmin_l m o). pose proof (Rmin_r m o). pose proof (Rmax_l m o). pose proof (Rmax_r m o). split; nra.
Qed.
Print Assumptions C110_between.
(** ideal electrons: the value at contact is one half *)
Theorem C110_contact_dense : forall t, 1 - OnTop 0 t / 2 = 1 / 2.
Proof. intros t. rewrite OnTop_dense. field. Qed.
Print Assumptions C110_contact_dense.
(** a pair distribution is not negative; the fit's region of validity, 0.7 <=
    rs <= 20 and 0 <= t <= 4, contains this point *)
Theorem C110_contact_negative_refuted : exists rs t, 7 / 10 <= rs <= 20 /\ 0 <= t <= 4 /\ OnTop rs t < 0 /\ 1 < 1 - OnTop rs t / 2.
Proof. exists 20, (1 / 2). pose proof OnTop_negative. repeat split; lra. Qed.
Print Assumptions C110_contact_negative_refuted.

(** both files' atomic units *)
Lemma spacing_ws n : interparticle_spacing 1 1 n = wiegner_seitz_radius n.
Proof. unfold interparticle_spacing, wiegner_seitz_radius. rewrite Rmult_1_r, rp_one, Rmult_1_r. reflexivity. Qed.
Theorem C110_units : forall u n T, 0 < n -> 0 < T ->
  let rs := wiegner_seitz_radius n / a_0 u in let Ha := hbar u ^ 2 / (m_e u * a_0 u ^ 2) in
  lfc_rs u n = rs /\
  qf rs = fermi_wavenumber n * a_0 u /\ F_k_F rs = fermi_wavenumber n * a_0 u /\
  Ef rs = fermi_energy u n / Ha /\ F_E_F rs = fermi_energy u n / Ha /\
  density rs = n * a_0 u ^ 3 /\ inverse_temperature rs (Theta u T n) = Ha / (kB u * T) /\
  (a_0 u = 4 * PI * eps0 u * hbar u ^ 2 / (m_e u * e_ch u ^ 2) -> F_w_p rs = hbar u * plasma_frequency u n / Ha).
Proof.
  intros u n T Hn HT rs Ha. cpos u. pose proof (kF_pos n) as HF.
  assert (0 < wiegner_seitz_radius n) as Hw by (unfold wiegner_seitz_radius, Rpower; apply exp_pos).
  assert (0 < rs) as Hrs by (unfold rs; apply Rdiv_lt_0_compat; lra).
  assert (0 < Ha) as HHa. { unfold Ha. assert (0 < a_0 u ^ 2) by (apply pow_lt; lra). assert (0 < hbar u ^ 2) by (apply pow_lt; lra). apply Rdiv_lt_0_compat; [lra|apply Rmult_lt_0_compat; lra]. }
  assert (qf rs = fermi_wavenumber n * a_0 u) as E1.
  { unfold qf. replace (9 / 4 * PI) with (9 * PI / 4) by field. rewrite <- (kF_rs u n Hn). unfold rs. field. lra. }
  assert (F_k_F rs = fermi_wavenumber n * a_0 u) as E2.
  { unfold F_k_F, F_lamb. replace (4 / (9 * PI)) with (/ (9 * PI / 4)) by (field; lra).
    assert (Rpower (/ (9 * PI / 4)) (1 / 3) = / Rpower (9 * PI / 4) (1 / 3)) as ->. { unfold Rpower. rewrite ln_Rinv by (apply Rdiv_lt_0_compat; lra). rewrite Ropp_mult_distr_r_reverse, exp_Ropp. reflexivity. }
    rewrite <- (kF_rs u n Hn). unfold rs. field. lra. }
  assert (fermi_energy u n = hbar u ^ 2 * fermi_wavenumber n ^ 2 / (2 * m_e u)) as EK by (rewrite fermi_energy_kin; reflexivity).
  assert (fermi_energy u n / Ha = (fermi_wavenumber n * a_0 u) ^ 2 / 2) as E3. { rewrite EK. unfold Ha. field. lra. }
  split; [unfold lfc_rs; rewrite spacing_ws; reflexivity|]. split; [exact E1|]. split; [exact E2|]. split; [|split; [|split; [|split]]].
  - rewrite E3. unfold Ef. rewrite E1. field.
  - rewrite E3. unfold F_E_F. rewrite E2. reflexivity.
  - pose proof (sphere_volume u n Hn) as V. unfold density, rs. assert (wiegner_seitz_radius n ^ 3 <> 0) by (apply pow_nonzero; lra).
    apply Rmult_eq_reg_r with (4 / 3 * PI * wiegner_seitz_radius n ^ 3). 2:{ apply Rmult_integral_contrapositive_currified; [lra|assumption]. }
    transitivity (a_0 u ^ 3); [field; repeat split; lra|]. transitivity ((4 / 3 * PI * wiegner_seitz_radius n ^ 3 * n) * a_0 u ^ 3); [rewrite V|]; ring.
  - unfold inverse_temperature, Theta. assert (Ef rs = fermi_energy u n / Ha) as -> by (rewrite E3; unfold Ef; rewrite E1; field).
    assert (0 < fermi_energy u n). { rewrite EK. assert (0 < hbar u ^ 2) by (apply pow_lt; lra). assert (0 < fermi_wavenumber n ^ 2) by (apply pow_lt; lra). apply Rdiv_lt_0_compat; [apply Rmult_lt_0_compat; lra|lra]. }
    field. repeat split; lra.
  - intros Ea. unfold F_w_p, plasma_frequency. apply sqrt_lem_1.
    + left. apply Rdiv_lt_0_compat; [lra|]. apply pow_lt. lra.
    + apply Rmult_le_pos; [apply Rmult_le_pos; [lra|apply sqrt_pos]|]. left. now apply Rinv_0_lt_compat.
    + pose proof (sphere_volume u n Hn) as V.
      set (W := sqrt (e_ch u ^ 2 * n / (eps0 u * m_e u))). assert (W * W = e_ch u ^ 2 * n / (eps0 u * m_e u)) as EW.
      { apply sqrt_sqrt. left. apply Rdiv_lt_0_compat; apply Rmult_lt_0_compat; try lra. apply pow_lt; lra. }
      replace (hbar u * W / Ha * (hbar u * W / Ha)) with (hbar u ^ 2 / Ha ^ 2 * (W * W)) by (field; lra). rewrite EW.
      assert (n = 3 / (4 * PI * wiegner_seitz_radius n ^ 3)) as En.
      { assert (wiegner_seitz_radius n ^ 3 <> 0) by (apply pow_nonzero; lra). apply Rmult_eq_reg_l with (4 / 3 * PI * wiegner_seitz_radius n ^ 3). 2:{ apply Rmult_integral_contrapositive_currified; [lra|assumption]. } rewrite V. field. repeat split; lra. }
      unfold rs, Ha. set (w := wiegner_seitz_radius n) in *. rewrite En. clear En V EW E1 E2 E3.
      assert (e_ch u ^ 2 = 4 * PI * eps0 u * hbar u ^ 2 / (m_e u * a_0 u)) as ->. { rewrite Ea at 1. field. repeat split; try lra; apply Rgt_not_eq; lra. }
      field. repeat split; lra.
Qed.
Print Assumptions C110_units.
Example C110_ex : Groth_A (fun _ _ => 1) 1 1 <> 0 /\ OnTop 0 1 < 2 /\ exists u, a_0 u = 4 * PI * eps0 u * hbar u ^ 2 / (m_e u * e_ch u ^ 2).
Proof.
  pose proof PI_RGT_0. split; [|split].
  - unfold Groth_A, qf. assert (0 < Rpower (9 / 4 * PI) (1 / 3)) by (unfold Rpower; apply exp_pos). set (r := Rpower (9 / 4 * PI) (1 / 3)) in *.
    replace (- (r / 1) ^ 2 / (4 * PI) * 1) with (- (r ^ 2 / (4 * PI))) by (field; lra). apply Ropp_neq_0_compat. apply Rgt_not_eq. apply Rdiv_lt_0_compat; [apply pow_lt; lra|lra].
  - rewrite OnTop_dense. lra.
  - assert (0 < 4 * PI) as H4 by lra. exists (mkConsts 1 1 1 1 1 1 1 (4 * PI) Rlt_0_1 Rlt_0_1 Rlt_0_1 Rlt_0_1 Rlt_0_1 Rlt_0_1 Rlt_0_1 H4). cbn. field.
Qed.
