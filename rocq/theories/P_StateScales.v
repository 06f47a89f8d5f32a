(** Degeneracy, coupling and wavelengths of a PlasmaState (C132). *)
From Coq Require Import Reals List Bool Arith Lra Lia Psatz.
From Coquelicot Require Import Coquelicot.
From Verif Require Import M_Const M_PlasmaState M_PlasmaPhysics L_PlasmaPhysics P_PlasmaPhysics M_StateScales.
Import ListNotations.
Open Scope R_scope.

Lemma Rpower_three_half_sq x : 0 < x -> Rpower x (3 / 2) ^ 2 = x ^ 3.
Proof.
  intros Hx. rewrite <- !Rpower_pow by (try apply exp_pos; exact Hx). rewrite Rpower_mult. f_equal. cbn [INR]. field.
Qed.
Lemma sq_inj a b : 0 <= a -> 0 <= b -> a ^ 2 = b ^ 2 -> a = b.
Proof. intros Ha Hb H. apply Rsqr_inj; [exact Ha|exact Hb|]. unfold Rsqr. cbn in H. lra. Qed.

(** [n lambda^3 = 8 / (3 sqrt pi) (T_F / T)^(3/2)] *)
Lemma degeneracy_fermi u n T : 0 < n -> 0 < T -> degeneracy_param u n T = 8 / (3 * sqrt PI) * Rpower (fermi_temperature u n / T) (3 / 2).
Proof.
  intros Hn HT. pose proof PI_RGT_0 as HP. pose proof (kB_pos u) as Hk. pose proof (hbar_pos u) as Hh. pose proof (m_e_pos u) as Hm.
  pose proof (fermi_temperature_pos u n) as HF. assert (Hq : 0 < fermi_temperature u n / T) by (now apply Rdiv_lt_0_compat).
  assert (Hs : 0 < sqrt PI) by (now apply sqrt_lt_R0).
  assert (Hd : 0 < m_e u * kB u * T) by (apply Rmult_lt_0_compat; [now apply Rmult_lt_0_compat|exact HT]).
  assert (Ha : 0 < 2 * PI / (m_e u * kB u * T)) by (apply Rdiv_lt_0_compat; lra).
  apply sq_inj.
  - unfold degeneracy_param, therm_de_broglie_wl. apply Rmult_le_pos; [lra|]. apply pow_le, Rmult_le_pos; [lra|apply sqrt_pos].
  - apply Rmult_le_pos; [left; apply Rdiv_lt_0_compat; lra|left; apply exp_pos].
  - rewrite (Rpow_mult_distr (8 / (3 * sqrt PI))), Rpower_three_half_sq by exact Hq.
    replace ((8 / (3 * sqrt PI)) ^ 2) with (64 / (9 * PI)) by (rewrite <- (sqrt_sqrt PI) at 1 by lra; field; lra).
    unfold fermi_temperature, fermi_energy. rewrite Rpower_third_sq.
    assert (K : Rpower (3 * PI ^ 2 * n) (1 / 3) ^ 3 = 3 * PI ^ 2 * n) by (apply Rpower_third_cube; assert (0 < PI ^ 2) by (apply pow_lt; lra); apply Rmult_lt_0_compat; lra).
    set (y := Rpower (3 * PI ^ 2 * n) (1 / 3)) in *. clearbody y.
    unfold degeneracy_param, therm_de_broglie_wl.
    replace ((n * (hbar u * sqrt (2 * PI / (m_e u * kB u * T))) ^ 3) ^ 2) with (n ^ 2 * hbar u ^ 6 * (sqrt (2 * PI / (m_e u * kB u * T)) * sqrt (2 * PI / (m_e u * kB u * T))) ^ 3) by ring.
    rewrite sqrt_sqrt by lra.
    replace (64 / (9 * PI) * (hbar u ^ 2 / (2 * m_e u) * y ^ 2 / kB u / T) ^ 3) with (64 / (9 * PI) * hbar u ^ 6 * (y ^ 3) ^ 2 / (8 * m_e u ^ 3 * kB u ^ 3 * T ^ 3)) by (field; repeat split; lra).
    rewrite K. field. repeat split; lra.
Qed.
(** [Gamma = 2 (4 / 9 pi)^(2/3) r_s T_F / T], [r_s] the mean distance in Bohr radii *)
Lemma coupling_fermi u n T : 0 < n -> 0 < T ->
  ee_coupling u n T = 2 * Rpower (4 / (9 * PI)) (2 / 3) * (wiegner_seitz_radius n / (4 * PI * eps0 u * hbar u ^ 2 / (m_e u * e_ch u ^ 2))) * (fermi_temperature u n / T).
Proof.
  intros Hn HT. pose proof PI_RGT_0 as HP. pose proof (kB_pos u) as Hk. pose proof (hbar_pos u) as Hh. pose proof (m_e_pos u) as Hm. pose proof (e_pos u) as He. pose proof (eps0_pos u) as H0.
  pose proof (kF_rs u n Hn) as K. unfold fermi_wavenumber in K.
  assert (Hw : 0 < wiegner_seitz_radius n) by apply exp_pos.
  unfold fermi_temperature, fermi_energy. rewrite !Rpower_third_sq.
  unfold ee_coupling. cbv zeta. fold (wiegner_seitz_radius n). set (w := wiegner_seitz_radius n) in *. clearbody w.
  assert (P : Rpower (4 / (9 * PI)) (1 / 3) * Rpower (9 * PI / 4) (1 / 3) = 1).
  { rewrite Rpower_mult_distr by (apply Rdiv_lt_0_compat; lra). replace (4 / (9 * PI) * (9 * PI / 4)) with 1 by (field; lra). unfold Rpower. rewrite ln_1, Rmult_0_r. apply exp_0. }
  rewrite <- K in P. set (y := Rpower (3 * PI ^ 2 * n) (1 / 3)) in *. set (z := Rpower (4 / (9 * PI)) (1 / 3)) in *. clearbody y z.
  transitivity (e_ch u ^ 2 * (z * (y * w)) ^ 2 / (4 * PI * eps0 u * kB u * T * w)).
  - rewrite P. field. repeat split; lra.
  - field. repeat split; lra.
Qed.
Theorem C132_degeneracy : forall u s n, n_e s = Some n -> 0 < n -> 0 < T_e s -> exists T_F D,
  state_T_F u s = Some T_F /\ state_degeneracy_param u s = Some D /\
  kB u * T_F = hbar u ^ 2 * Rpower (3 * PI ^ 2 * n) (2 / 3) / (2 * m_e u) /\ D = 8 / (3 * sqrt PI) * Rpower (T_F / T_e s) (3 / 2).
Proof.
  intros u s n E Hn HT. pose proof (kB_pos u) as Hk. pose proof (m_e_pos u) as Hm. unfold state_T_F, state_degeneracy_param. rewrite E. cbn [obind]. eexists; eexists. split; [reflexivity|]. split; [reflexivity|].
  split; [unfold fermi_temperature, fermi_energy; field; split; lra|]. now apply degeneracy_fermi.
Qed.
Print Assumptions C132_degeneracy.
Theorem C132_coupling : forall u s n, n_e s = Some n -> 0 < n -> 0 < T_e s -> exists T_F G,
  state_T_F u s = Some T_F /\ state_ee_coupling u s = Some G /\ forall a r_s, a = 4 * PI * eps0 u * hbar u ^ 2 / (m_e u * e_ch u ^ 2) ->
  4 / 3 * PI * (r_s * a) ^ 3 * n = 1 -> G = 2 * Rpower (4 / (9 * PI)) (2 / 3) * r_s * (T_F / T_e s).
Proof.
  intros u s n E Hn HT. pose proof PI_RGT_0 as HP. unfold state_T_F, state_ee_coupling. rewrite E. cbn [obind]. eexists; eexists. split; [reflexivity|]. split; [reflexivity|].
  intros a r Ea Er. rewrite (coupling_fermi u n (T_e s) Hn HT), <- Ea.
  assert (Ha : 0 < a) by (rewrite Ea; pose proof (hbar_pos u); pose proof (m_e_pos u); pose proof (e_pos u); pose proof (eps0_pos u); apply Rdiv_lt_0_compat; [apply Rmult_lt_0_compat; [|apply pow_lt; lra]; apply Rmult_lt_0_compat; lra|apply Rmult_lt_0_compat; [lra|apply pow_lt; lra]]).
  assert (Ew : wiegner_seitz_radius n = r * a).
  { pose proof (sphere_volume u n Hn) as V. assert (Hw : 0 < wiegner_seitz_radius n) by apply exp_pos. set (w := wiegner_seitz_radius n) in *. clearbody w.
    assert (C : w ^ 3 = (r * a) ^ 3). { apply (Rmult_eq_reg_l (4 / 3 * PI * n)); [lra|]. assert (0 < 4 / 3 * PI * n) by (apply Rmult_lt_0_compat; lra). lra. }
    set (v := r * a) in *. clearbody v. assert (Hv : 0 < v).
    { destruct (Rle_lt_dec v 0) as [Hv|Hv]; [|exact Hv]. exfalso. assert (0 < w ^ 3) by (now apply pow_lt). assert (v ^ 3 <= 0); [|lra]. cbn. rewrite Rmult_1_r. assert (0 <= v * v) by (apply Rle_0_sqr). nra. }
    assert (F : (w - v) * (w ^ 2 + w * v + v ^ 2) = 0) by (transitivity (w ^ 3 - v ^ 3); [ring|lra]).
    apply Rmult_integral in F. destruct F as [F|F]; [lra|]. exfalso. nra. }
  rewrite Ew. field. split; [lra|]. lra.
Qed.
Print Assumptions C132_coupling.
(** The method never hands out a wavelength, for the electrons or for any ion *)
Theorem C132_wavelength_refuted : forall u s ks, (forall k, In k ks -> match k with KElectron => True | KElement e => In e (ions s) end) ->
  db_wavelength u s ks = PyNone.
Proof.
  intros u s ks H. unfold db_wavelength. replace (forallb (known s) ks) with true; [reflexivity|]. symmetry. apply forallb_forall.
  intros k Hk. specialize (H k Hk). destruct k as [|e]; [reflexivity|]. cbn. destruct (in_dec el_eq_dec e (ions s)); [reflexivity|contradiction].
Qed.
Print Assumptions C132_wavelength_refuted.
(** and what it collects on the way is right for the electrons only *)
Theorem C132_wavelength_entry : forall u s, 0 < T_e s -> db_entry u s KElectron = [therm_de_broglie_wl u (T_e s)] /\ forall e, db_entry u s (KElement e) = [].
Proof.
  intros u s HT. split; [|reflexivity]. cbn [db_entry]. f_equal. pose proof PI_RGT_0 as HP. pose proof (kB_pos u) as Hk. pose proof (hbar_pos u) as Hh. pose proof (m_e_pos u) as Hm.
  unfold therm_de_broglie_wl. assert (Hd : 0 < m_e u * kB u * T_e s) by (apply Rmult_lt_0_compat; [now apply Rmult_lt_0_compat|exact HT]).
  replace (2 * PI * m_e u * kB u * T_e s) with (2 * PI * (m_e u * kB u * T_e s)) by ring. set (d := m_e u * kB u * T_e s) in *. clearbody d.
  assert (H1' : 0 < sqrt (2 * PI)) by (apply sqrt_lt_R0; lra). assert (H2' : 0 < sqrt d) by (now apply sqrt_lt_R0).
  rewrite sqrt_mult, sqrt_div by lra. rewrite <- (sqrt_sqrt (2 * PI)) at 1 by lra. field. split; lra.
Qed.
Print Assumptions C132_wavelength_entry.
Example C132_met : let s := mkPS [mkEl 6 12 1] [4] [24] 3 [5] [1] in exists n, n_e s = Some n /\ 0 < n /\ 0 < T_e s /\ db_wavelength unit_consts s [KElectron; KElement (mkEl 6 12 1)] = PyNone.
Proof.
  intros s. eexists. split; [reflexivity|]. split; [unfold sum; cbn; lra|]. split; [cbn; lra|]. apply C132_wavelength_refuted. intros k [<-|[<-|[]]]; cbn; auto.
Qed.
