(** Theorems on the dielectric function at zero temperature. *)
From Coq Require Import Reals List Lra Lia Psatz.
From Coquelicot Require Import Coquelicot.
From Verif Require Import M_Const M_PlasmaState M_PlasmaPhysics L_PlasmaPhysics M_FreeFree L_LFC L_RPA M_RPA0K L_RPA0K.
Import ListNotations.
Open Scope R_scope.

(** the Bohr radius and the other constants *)
Definition bohr (u : consts) : Prop := a_0 u = 4 * PI * eps0 u * hbar u ^ 2 / (m_e u * e_ch u ^ 2).

Lemma some_eq (A : Type) (a b : A) : Some a = Some b -> a = b.
Proof. congruence. Qed.
Lemma U_pos u k n E : 0 < k -> 0 < E -> 0 < Uk u k n E.
Proof. intros Hk HE. unfold Uk. pose proof (kf_pos n). cpos u. assert (0 < hbar u ^ 2) by (apply pow_lt; lra). repeat (assumption || lra || apply Rdiv_lt_0_compat || apply Rmult_lt_0_compat). Qed.
Lemma U_opp u k n E : Uk u k n (- E) = - Uk u k n E.
Proof. unfold Uk, Rdiv. ring. Qed.
Lemma edge_opp x : edge (- x) <-> edge x.
Proof. unfold edge. lra. Qed.
Lemma pp_diff U z : 0 < U -> 0 < z -> pp (U + z) <= pp (U - z) /\ (Rabs (U - z) < 1 -> pp (U + z) < pp (U - z)) /\ (1 <= Rabs (U - z) -> pp (U - z) = 0) /\ pp (U - z) - pp (U + z) <= 4 * U * z.
Proof.
  intros HU Hz. assert (0 < U * z) as HP by nra. split; [|split; [|split]].
  - unfold pp. apply Rle_max_compat_l. nra.
  - intros H. apply Rabs_def2 in H. rewrite (pp_in (U - z)) by lra. unfold pp. apply Rmax_lub_lt; nra.
  - intros H. apply pp_out. destruct (Rle_lt_dec 0 (U - z)) as [A|A]; [rewrite Rabs_pos_eq in H by lra; lra|rewrite Rabs_left in H by lra; lra].
  - unfold pp. unfold Rmax. destruct (Rle_dec 0 (1 - (U - z) ^ 2)), (Rle_dec 0 (1 - (U + z) ^ 2)); nra.
Qed.
(** the energies an electron of the Fermi sphere can take up *)
Lemma continuum u k n E : 0 < k -> (Rabs (Uk u k n E - zk k n) < 1 <->
  kin_energy u k - hbar u ^ 2 * k * fermi_wavenumber n / m_e u < E < kin_energy u k + hbar u ^ 2 * k * fermi_wavenumber n / m_e u).
Proof.
  intros Hk. unfold Uk, zk, kin_energy. pose proof (kf_pos n) as Hf. set (f := fermi_wavenumber n) in *. cpos u. set (c := hbar u ^ 2 * k * f / m_e u).
  assert (0 < c) as Hc by (unfold c; assert (0 < hbar u ^ 2) by (apply pow_lt; lra); repeat (assumption || lra || apply Rdiv_lt_0_compat || apply Rmult_lt_0_compat)).
  replace (m_e u * E / (hbar u ^ 2 * k * f) - k / (2 * f)) with ((E - hbar u ^ 2 * k ^ 2 / (2 * m_e u)) / c) by (unfold c; field; repeat split; lra).
  set (K := hbar u ^ 2 * k ^ 2 / (2 * m_e u)). split.
  - intros HH. apply Rabs_def2 in HH. destruct HH as [A B]. apply Rlt_div_l in A; [|lra]. change (-1) with (- (1)) in B. apply Rlt_div_r in B; lra.
  - intros HH. apply Rabs_def1; [apply Rlt_div_l; lra|apply Rlt_div_r; lra].
Qed.

(** ** C115: absorption and symmetry *)
Theorem C115_absorbs : forall u k n E e, 0 < k -> 0 < E -> dielectric_function_RPA_0K u k E n = Some e ->
  let width := hbar u ^ 2 * k * fermi_wavenumber n / m_e u in
  0 <= snd e /\ (0 < snd e <-> kin_energy u k - width < E < kin_energy u k + width).
Proof.
  intros u k n E e Hk HE H width. unfold width. rewrite <- (continuum u k n E Hk). destruct (eps_some u k n Hk E e H) as [N1 N2]. rewrite eps_val in H by assumption. apply some_eq in H; subst e. cbn [snd].
  pose proof (U_pos u k n E Hk HE) as HU. pose proof (zk_pos k n Hk) as Hz. set (U := Uk u k n E) in *. set (z := zk k n) in *. destruct (pp_diff U z HU Hz) as (A & B & D & _).
  assert (0 < PI * chi2 u n / (8 * z ^ 3)) as P. { pose proof PI_RGT_0. pose proof (chi2_pos u n). assert (0 < z ^ 3) by (apply pow_lt; lra). repeat (assumption || lra || apply Rdiv_lt_0_compat || apply Rmult_lt_0_compat). }
  split; [apply Rmult_le_pos; lra|]. split.
  - intros Q. apply Rnot_le_lt. intros L. rewrite (D L) in Q. pose proof (pp_range (U + z)). assert (PI * chi2 u n / (8 * z ^ 3) * (0 - pp (U + z)) <= 0) by nra. lra.
  - intros L. apply Rmult_lt_0_compat; [exact P|]. specialize (B L). lra.
Qed.
Print Assumptions C115_absorbs.
Theorem C115_symmetric : forall u k n E, 0 < k -> dielectric_function_RPA_0K u k (- E) n = option_map Cconj (dielectric_function_RPA_0K u k E n).
Proof.
  intros u k n E Hk. destruct (edge_dec (Uk u k n E + zk k n)) as [N1|N1]; [|destruct (edge_dec (Uk u k n E - zk k n)) as [N2|N2]].
  - rewrite !eps_open by assumption. rewrite (g_edge _ N1). cbn [obind option_map]. rewrite U_opp. rewrite (g_edge (- Uk u k n E - zk k n)) by (apply edge_opp; replace (- (- Uk u k n E - zk k n)) with (Uk u k n E + zk k n) by ring; exact N1). now destruct (gFortmann _).
  - rewrite !eps_open by assumption. rewrite (g_edge _ N2). rewrite U_opp. rewrite (g_edge (- Uk u k n E + zk k n)) by (apply edge_opp; replace (- (- Uk u k n E + zk k n)) with (Uk u k n E - zk k n) by ring; exact N2). cbn [obind]. now destruct (gFortmann _).
  - rewrite eps_val with (E := E) by assumption. rewrite eps_val with (E := - E) by (first [assumption | rewrite U_opp; intros X; apply edge_opp in X; match type of X with edge ?a => (replace a with (Uk u k n E - zk k n) in X by ring; now apply N2) || (replace a with (Uk u k n E + zk k n) in X by ring; now apply N1) end]).
    cbn [option_map]. unfold Cconj. cbn [fst snd]. rewrite U_opp. set (U := Uk u k n E) in *. set (z := zk k n) in *. replace (- U + z) with (- (U - z)) by ring. replace (- U - z) with (- (U + z)) by ring.
    rewrite !G_odd, !pp_even by (unfold edge in *; tauto). do 2 f_equal; ring.
Qed.
Print Assumptions C115_symmetric.
(** where the code returns nan *)
Theorem C115_defined : forall u k n E, 0 < k -> (dielectric_function_RPA_0K u k E n = None <-> edge (Uk u k n E + zk k n) \/ edge (Uk u k n E - zk k n)).
Proof.
  intros u k n E Hk. split.
  - intros H. destruct (edge_dec (Uk u k n E + zk k n)) as [N1|N1]; [now left|]. destruct (edge_dec (Uk u k n E - zk k n)) as [N2|N2]; [now right|]. rewrite eps_val in H by assumption. discriminate.
  - intros H. rewrite eps_open by assumption. destruct H as [H|H]; rewrite (g_edge _ H); [reflexivity|]. now destruct (gFortmann _).
Qed.
Print Assumptions C115_defined.
Example C115_static_nan : exists u k n, 0 < k /\ 0 < n /\ dielectric_function_RPA_0K u k 0 n = None.
Proof.
  exists unit_consts, (2 * fermi_wavenumber 1), 1. pose proof (kf_pos 1) as Hf. split; [lra|]. split; [lra|]. apply C115_defined; [lra|]. left. left.
  unfold Uk, zk. cbn [hbar m_e unit_consts]. field. lra.
Qed.

(** ** the limit of the finite temperature function *)
Lemma softplus x s : 0 < s -> Rmax 0 x <= s * logaddexp0 (x / s) <= Rmax 0 x + s * ln 2.
Proof.
  intros Hs. unfold logaddexp0. pose proof (exp_pos (x / s)) as He. assert (forall a b, 0 < a -> a <= b -> ln a <= ln b) as mono. { intros a b Ha [L| ->]; [left; now apply ln_increasing|lra]. }
  assert (0 <= ln (1 + exp (x / s))) as H0 by (rewrite <- ln_1; apply mono; lra). assert (x / s <= ln (1 + exp (x / s))) as H1 by (rewrite <- (ln_exp (x / s)) at 1; apply mono; lra). assert (s * (x / s) = x) as Ex by (field; lra). split.
  - apply Rmax_lub; [apply Rmult_le_pos; lra|]. rewrite <- Ex at 1. apply Rmult_le_compat_l; lra.
  - destruct (Rle_lt_dec 0 x) as [P|P].
    + rewrite Rmax_right by lra. rewrite <- Ex at 2. rewrite <- Rmult_plus_distr_l. apply Rmult_le_compat_l; [lra|]. rewrite <- (ln_exp (x / s)) at 2. rewrite <- ln_mult by lra. apply mono; [lra|].
      assert (1 <= exp (x / s)). { assert (0 <= x / s) as Q by (apply Rdiv_le_0_compat; lra). destruct Q as [Q| <-]; [rewrite <- exp_0; left; now apply exp_increasing|rewrite exp_0; lra]. } lra.
    + rewrite Rmax_left by lra. rewrite Rplus_0_l. apply Rmult_le_compat_l; [lra|]. apply mono; [lra|]. assert (exp (x / s) < 1). { rewrite <- exp_0. apply exp_increasing. unfold Rdiv. assert (0 < / s) by (apply Rinv_0_lt_compat; lra). nra. } lra.
Qed.
Lemma max_shift a b c : Rabs (Rmax 0 (a - c) - Rmax 0 (b - c)) <= Rabs (a - b).
Proof. unfold Rmax, Rabs. destruct (Rle_dec 0 (a - c)), (Rle_dec 0 (b - c)), (Rcase_abs (a - b)); try (destruct (Rcase_abs _)); lra. Qed.
Theorem C115_cold_limit : forall u k n E mu T e, bohr u -> 0 < k -> 0 < T -> dielectric_function_RPA_0K u k E n = Some e ->
  Rabs (imag_no_damping u k E mu T - snd e) <= m_e u ^ 2 * e_ch u ^ 2 / (2 * PI * eps0 u * hbar u ^ 4 * k ^ 3) * (kB u * T * ln 2 + 2 * Rabs (mu - fermi_energy u n)).
Proof.
  intros u k n E mu T e Hb Hk HT H. destruct (eps_some u k n Hk E e H) as [N1 N2]. rewrite eps_val in H by assumption. apply some_eq in H; subst e. cbn [snd]. pose proof (kf_pos n) as Hf. pose proof (zk_pos k n Hk) as Hz. cpos u. pose proof PI_RGT_0 as HPI.
  rewrite fermi_energy_kin. set (U := Uk u k n E) in *. set (EF := kin_energy u (fermi_wavenumber n)). assert (0 < EF) as HEF. { unfold EF, kin_energy. assert (0 < hbar u ^ 2) by (apply pow_lt; lra). assert (0 < fermi_wavenumber n ^ 2) by (apply pow_lt; lra). repeat (assumption || lra || apply Rdiv_lt_0_compat || apply Rmult_lt_0_compat). }
  set (A := m_e u ^ 2 * e_ch u ^ 2 / (2 * PI * eps0 u * hbar u ^ 4 * k ^ 3)).
  assert (0 < A) as HA. { unfold A. assert (0 < m_e u ^ 2) by (apply pow_lt; lra). assert (0 < e_ch u ^ 2) by (apply pow_lt; lra). assert (0 < hbar u ^ 4) by (apply pow_lt; lra). assert (0 < k ^ 3) by (apply pow_lt; lra). repeat (assumption || lra || apply Rdiv_lt_0_compat || apply Rmult_lt_0_compat). }
  assert (PI * chi2 u n / (8 * zk k n ^ 3) = A * EF) as Ec. { unfold chi2, zk, A, EF, kin_energy. rewrite Hb. field. repeat split; lra. }
  assert (forall s, A * EF * pp s = A * Rmax 0 (EF - EF * s ^ 2)) as Ep. { intros s. unfold pp. rewrite Rmult_assoc. f_equal. rewrite <- RmaxRmult by lra. f_equal; ring. }
  rewrite Ec, Rmult_minus_distr_l, !Ep. unfold imag_no_damping. cbv zeta. set (th := kB u * T). assert (0 < th) as Hth by (unfold th; nra).
  replace (kin_energy u (- k / 2 - E / hbar u * m_e u / (hbar u * k))) with (EF * (U + zk k n) ^ 2) by (unfold EF, U, Uk, zk, kin_energy; field; repeat split; lra).
  replace (kin_energy u (k / 2 - E / hbar u * m_e u / (hbar u * k))) with (EF * (U - zk k n) ^ 2) by (unfold EF, U, Uk, zk, kin_energy; field; repeat split; lra).
  replace (th * m_e u ^ 2 * e_ch u ^ 2 / (2 * PI * eps0 u * hbar u ^ 4 * k ^ 3)) with (A * th) by (unfold A; field; repeat split; lra).
  set (p1 := EF * (U + zk k n) ^ 2). set (p2 := EF * (U - zk k n) ^ 2). pose proof (softplus (mu - p1) th Hth) as S1. pose proof (softplus (mu - p2) th Hth) as S2.
  set (l1 := logaddexp0 ((mu - p1) / th)) in *. set (l2 := logaddexp0 ((mu - p2) / th)) in *. pose proof (max_shift mu EF p1) as M1. pose proof (max_shift mu EF p2) as M2.
  replace (- (A * th) * (l1 - l2) - (A * Rmax 0 (EF - p2) - A * Rmax 0 (EF - p1))) with (A * ((th * l2 - Rmax 0 (EF - p2)) - (th * l1 - Rmax 0 (EF - p1)))) by ring.
  rewrite Rabs_mult, (Rabs_pos_eq A) by lra. apply Rmult_le_compat_l; [lra|]. set (d := Rabs (mu - EF)) in *. apply Rabs_le_between in M1. apply Rabs_le_between in M2. apply Rabs_le. lra.
Qed.
Print Assumptions C115_cold_limit.

(** ** static screening *)
Definition k_TF2 (u : consts) (n : R) : R := 3 * n * e_ch u ^ 2 / (2 * eps0 u * fermi_energy u n).
Lemma k_TF2_eq u n : bohr u -> 0 < n -> k_TF2 u n = 4 * fermi_wavenumber n / (PI * a_0 u).
Proof.
  intros Hb Hn. unfold k_TF2. rewrite fermi_energy_kin. unfold kin_energy. assert (fermi_wavenumber n ^ 3 = 3 * PI ^ 2 * n) as E3. { unfold fermi_wavenumber. apply Rpower_third_cube. pose proof PI_RGT_0. assert (0 < PI ^ 2) by (apply pow_lt; lra). nra. }
  rewrite Hb. pose proof (kf_pos n) as Hf. cpos u. pose proof PI_RGT_0. set (f := fermi_wavenumber n) in *. replace n with (f ^ 3 / (3 * PI ^ 2)) by (rewrite E3; field; lra). clear E3. clearbody f. field. repeat split; lra.
Qed.
Lemma static_val u k n : 0 < k -> k <> 2 * fermi_wavenumber n -> dielectric_function_RPA_0K u k 0 n = Some (1 + chi2 u n / (2 * zk k n ^ 3) * G_ (zk k n), 0) /\ zk k n <> 1.
Proof.
  intros Hk H. pose proof (kf_pos n) as Hf. pose proof (zk_pos k n Hk) as Hz. assert (zk k n <> 1) as N. { intros X. apply H. unfold zk in X. apply (f_equal (fun y => y * (2 * fermi_wavenumber n))) in X. field_simplify in X; lra. }
  assert (Uk u k n 0 = 0) as E0 by (unfold Uk, Rdiv; ring). rewrite eps_val; [|exact Hk|rewrite E0; unfold edge; lra|rewrite E0; unfold edge; lra].
  rewrite E0. replace (0 - zk k n) with (- zk k n) by ring. rewrite Rplus_0_l, G_odd, pp_even by lra. split; [|exact N]. do 2 f_equal; [f_equal; field; lra|field; lra].
Qed.
Theorem C115_static : forall u k n, bohr u -> 0 < k -> 0 < n -> k <> 2 * fermi_wavenumber n -> exists e, dielectric_function_RPA_0K u k 0 n = Some e /\ snd e = 0 /\
  1 < fst e < 1 + k_TF2 u n / k ^ 2 /\ (k <= fermi_wavenumber n -> k_TF2 u n * (1 - (k / fermi_wavenumber n) ^ 2 / 8) <= k ^ 2 * (fst e - 1)).
Proof.
  intros u k n Hb Hk Hn H. destruct (static_val u k n Hk H) as [-> N]. eexists. split; [reflexivity|]. cbn [fst snd]. split; [reflexivity|]. rewrite k_TF2_eq by assumption. pose proof (kf_pos n) as Hf. pose proof (zk_pos k n Hk) as Hz. pose proof (chi2_pos u n) as Hc. pose proof (G_range _ Hz N) as HG. cpos u. pose proof PI_RGT_0.
  set (z := zk k n) in *. assert (0 < z ^ 3) by (apply pow_lt; lra). set (w := chi2 u n / (2 * z ^ 3)). assert (0 < w) as Hw by (unfold w; apply Rdiv_lt_0_compat; lra).
  assert (k = 2 * fermi_wavenumber n * z) as Ek by (unfold z, zk; field; lra).
  assert (4 * fermi_wavenumber n / (PI * a_0 u) / k ^ 2 = w * (2 * z)) as Ew by (rewrite Ek; unfold w, chi2; field; repeat split; lra). rewrite Ew. split.
  - split; [assert (0 < w * G_ z) by (apply Rmult_lt_0_compat; lra); lra|]. apply Rplus_lt_compat_l. apply Rmult_lt_compat_l; lra.
  - intros Hkf. assert (z <= 1 / 2) as Hz2 by (unfold z, zk; apply Rle_div_l; lra). pose proof (G_small z ltac:(lra)) as S. apply Rabs_le_between in S.
    replace (4 * fermi_wavenumber n / (PI * a_0 u)) with (4 * fermi_wavenumber n / (PI * a_0 u) / k ^ 2 * k ^ 2) by (field; repeat split; lra). rewrite Ew. replace (k / fermi_wavenumber n) with (2 * z) by (rewrite Ek; field; lra).
    replace (w * (2 * z) * k ^ 2 * (1 - (2 * z) ^ 2 / 8)) with (k ^ 2 * (w * (2 * z - z ^ 3))) by field. assert (0 < k ^ 2) by (apply pow_lt; lra). apply Rmult_le_compat_l; [lra|]. replace (1 + w * G_ z - 1) with (w * G_ z) by ring. apply Rmult_le_compat_l; lra.
Qed.
Print Assumptions C115_static.

(** ** high energies and the sum rule *)
Lemma cube_kf n : 0 < n -> fermi_wavenumber n ^ 3 = 3 * PI ^ 2 * n.
Proof. intros Hn. unfold fermi_wavenumber. apply Rpower_third_cube. pose proof PI_RGT_0. assert (0 < PI ^ 2) by (apply pow_lt; lra). nra. Qed.
Lemma wp_sq u n : 0 < n -> plasma_frequency u n ^ 2 = e_ch u ^ 2 * n / (eps0 u * m_e u).
Proof. intros Hn. unfold plasma_frequency. apply pow2_sqrt. cpos u. apply Rdiv_le_0_compat; [|nra]. apply Rmult_le_pos; [apply pow2_ge_0|lra]. Qed.
Lemma wp_chi u k n : bohr u -> 0 < k -> 0 < n -> (hbar u * plasma_frequency u n) ^ 2 = chi2 u n / (3 * zk k n ^ 2) * (hbar u ^ 2 * k * fermi_wavenumber n / m_e u) ^ 2.
Proof.
  intros Hb Hk Hn. rewrite Rpow_mult_distr, wp_sq by assumption. unfold chi2, zk. rewrite Hb. pose proof (cube_kf n Hn) as E3. pose proof (kf_pos n) as Hf. cpos u. pose proof PI_RGT_0. set (f := fermi_wavenumber n) in *.
  replace n with (f ^ 3 / (3 * PI ^ 2)) by (rewrite E3; field; lra). clear E3. clearbody f. field. repeat split; lra.
Qed.
Theorem C115_high_energy : forall u k n, bohr u -> 0 < k -> 0 < n -> exists M E0, 0 < M /\ 0 < E0 /\ forall E, E0 <= E -> exists e,
  dielectric_function_RPA_0K u k E n = Some e /\ snd e = 0 /\ Rabs (fst e - (1 - (hbar u * plasma_frequency u n / E) ^ 2)) <= M / E ^ 3.
Proof.
  intros u k n Hb Hk Hn. pose proof (kf_pos n) as Hf. pose proof (zk_pos k n Hk) as Hz. pose proof (chi2_pos u n) as Hc. cpos u. pose proof (wp_chi u k n Hb Hk Hn) as W.
  set (c := hbar u ^ 2 * k * fermi_wavenumber n / m_e u) in *. assert (0 < c) as Hcc. { unfold c. assert (0 < hbar u ^ 2) by (apply pow_lt; lra). repeat (assumption || lra || apply Rdiv_lt_0_compat || apply Rmult_lt_0_compat). }
  set (z := zk k n) in *. assert (0 < z ^ 3) by (apply pow_lt; lra). assert (0 < c ^ 3) by (apply pow_lt; lra). assert (0 <= z ^ 2) by (apply pow2_ge_0). set (g := chi2 u n / (4 * z ^ 3)). assert (0 < g) as Hg by (unfold g; apply Rdiv_lt_0_compat; lra).
  exists (g * c ^ 3 * (z ^ 2 + 16)), (c * (2 * z + 4)). split; [repeat (assumption || lra || apply Rmult_lt_0_compat)|]. split; [apply Rmult_lt_0_compat; lra|]. intros E HE.
  assert (Uk u k n E = E / c) as EU by (unfold Uk, c; field; repeat split; lra). assert (2 * z + 4 <= E / c) as HU by (apply le_div; lra). set (U := E / c) in *.
  rewrite eps_val; [|exact Hk|fold z; rewrite EU; unfold edge; lra|fold z; rewrite EU; unfold edge; lra]. eexists. split; [reflexivity|]. cbn [fst snd]. fold z. rewrite EU. split; [rewrite !pp_out by (right; lra); ring|]. fold g.
  pose proof (B_large U z Hz HU) as B. set (b := G_ (U + z) - G_ (U - z)) in *. assert (E = c * U) as EE by (unfold U; field; lra). assert (0 < E) as HE0 by (rewrite EE; apply Rmult_lt_0_compat; lra).
  replace ((hbar u * plasma_frequency u n / E) ^ 2) with ((hbar u * plasma_frequency u n) ^ 2 / E ^ 2) by (field; lra). rewrite W.
  assert (0 < U ^ 2) by (apply pow_lt; lra). replace (1 + g * b - (1 - chi2 u n / (3 * z ^ 2) * c ^ 2 / E ^ 2)) with (g / U ^ 2 * (U ^ 2 * b + 4 * z / 3)) by (rewrite EE; unfold g; clearbody U b; field; repeat split; lra).
  rewrite Rabs_mult, (Rabs_pos_eq (g / U ^ 2)) by (apply Rdiv_le_0_compat; lra). replace (g * c ^ 3 * (z ^ 2 + 16) / E ^ 3) with (g / U ^ 2 * ((z ^ 2 + 16) / U)) by (rewrite EE; clearbody U b g; field; repeat split; lra). apply Rmult_le_compat_l; [apply Rdiv_le_0_compat; lra|exact B].
Qed.
Print Assumptions C115_high_energy.
Theorem C115_sum_rule : forall u k n X, bohr u -> 0 < k -> 0 < n -> kin_energy u k + hbar u ^ 2 * k * fermi_wavenumber n / m_e u <= X ->
  is_RInt (fun E => match dielectric_function_RPA_0K u k E n with Some e => E * snd e | None => 0 end) (- X) X (PI * (hbar u * plasma_frequency u n) ^ 2).
Proof.
  intros u k n X Hb Hk Hn HX. pose proof (kf_pos n) as Hf. pose proof (zk_pos k n Hk) as Hz. pose proof (chi2_pos u n) as Hc. cpos u. rewrite (wp_chi u k n Hb Hk Hn).
  set (c := hbar u ^ 2 * k * fermi_wavenumber n / m_e u) in *. assert (0 < c) as Hcc. { unfold c. assert (0 < hbar u ^ 2) by (apply pow_lt; lra). repeat (assumption || lra || apply Rdiv_lt_0_compat || apply Rmult_lt_0_compat). }
  assert (kin_energy u k = c * zk k n) as Ek by (unfold kin_energy, c, zk; field; lra). rewrite Ek in HX. set (z := zk k n) in *. set (q := PI * chi2 u n / (8 * z ^ 3)).
  assert (forall E, Uk u k n E = E / c) as EU by (intros E; unfold Uk, c; field; repeat split; lra).
  apply (RInt_points [c * (1 + z); c * (1 - z); c * (-1 + z); c * (-1 - z)] (fun E => q * (E * pp (E / c + - z) - E * pp (E / c + z)))).
  - assert (0 < c * z) by nra. lra.
  - intros E HE. rewrite eps_val; [|exact Hk| |]; fold z; rewrite ?EU.
    + cbn [snd]. fold q. replace (E / c - z) with (E / c + - z) by ring. ring.
    + intros [A|A]; apply HE.
      * right; left. replace (1 - z) with (E / c) by lra. field; lra.
      * right; right; right; left. replace (-1 - z) with (E / c) by lra. field; lra.
    + intros [A|A]; apply HE.
      * left. replace (1 + z) with (E / c) by lra. field; lra.
      * right; right; left. replace (-1 + z) with (E / c) by lra. field; lra.
  - replace (PI * (chi2 u n / (3 * z ^ 2) * c ^ 2)) with (q * (- (c ^ 2 * (4 / 3 * - z)) - - (c ^ 2 * (4 / 3 * z)))) by (unfold q; field; lra).
    apply (is_RInt_scal (V := R_NormedModule) (fun E => E * pp (E / c + - z) - E * pp (E / c + z))). apply (is_RInt_minus (V := R_NormedModule) (fun E => E * pp (E / c + - z)) (fun E => E * pp (E / c + z))); apply pp_shift; try lra; rewrite ?Rabs_Ropp, Rabs_pos_eq; lra.
Qed.
Print Assumptions C115_sum_rule.

(** ** C116: Ziman's formula *)
Definition ziman (u : consts) (Zf : R) (S V : R -> R) (q : R) : R := m_e u / (12 * PI ^ 3 * hbar u ^ 3 * Zf) * (q ^ 3 * V q ^ 2 * S q).
Definition rho (z U : R) : R := (pp (U - z) - pp (U + z)) / U.
Lemma rho_even z U : U <> 0 -> rho z (Rabs U) = rho z U.
Proof.
  intros H. unfold Rabs. destruct (Rcase_abs U); [|reflexivity]. unfold rho. replace (- U - z) with (- (U + z)) by ring. replace (- U + z) with (- (U - z)) by ring. rewrite !pp_even. field. exact H.
Qed.
Lemma rho_range z U : 0 < z -> U <> 0 -> 0 <= rho z U <= 4 * z /\ (Rabs U + z <= 1 -> rho z U = 4 * z) /\ (Rabs U <= z - 1 -> rho z U = 0).
Proof.
  intros Hz HU. rewrite <- rho_even by exact HU. assert (0 < Rabs U) as P by (now apply Rabs_pos_lt). set (W := Rabs U) in *. clearbody W. destruct (pp_diff W z P Hz) as (A & _ & _ & B). unfold rho. split; [split|split].
  - apply Rdiv_le_0_compat; lra.
  - apply div_le; lra.
  - intros L. rewrite !pp_in by lra. field. lra.
  - intros L. rewrite !pp_out by lra. field. lra.
Qed.
Theorem C116_ziman : forall u S V Zf n q E r, bohr u -> 0 < q -> 0 < Zf -> 0 <= S q ->
  coll_integrand u (fun q E => dielectric_function_RPA_0K u q E n) S V E q = Some r ->
  0 <= coll_prefactor u Zf * fst r <= ziman u Zf S V q /\
  (Rabs E <= hbar u ^ 2 * q * fermi_wavenumber n / m_e u - kin_energy u q -> coll_prefactor u Zf * fst r = ziman u Zf S V q) /\
  (Rabs E <= kin_energy u q - hbar u ^ 2 * q * fermi_wavenumber n / m_e u -> fst r = 0).
Proof.
  intros u S V Zf n q E r Hb Hq HZ HS. unfold coll_integrand.
  destruct (dielectric_function_RPA_0K u q 0 n) as [e0|] eqn:E0; [|discriminate]. destruct (dielectric_function_RPA_0K u q E n) as [e|] eqn:E1; [|discriminate]. cpos u.
  cbn [obind]. destruct (Req_EM_T E 0) as [->|HE]. { unfold qdiv. destruct (Req_EM_T (0 / hbar u) 0) as [_|N]; [discriminate|]. exfalso. apply N. unfold Rdiv. ring. }
  assert (E / hbar u <> 0) as HW by (apply Rmult_integral_contrapositive_currified; [exact HE|apply Rinv_neq_0_compat; lra]). rewrite qdiv_some by exact HW. cbn [obind]. intros HH. apply some_eq in HH; subst r.
  destruct (eps_some u q n Hq _ _ E1) as [N1 N2]. rewrite eps_val in E1 by assumption. apply some_eq in E1; subst e. destruct (eps_some u q n Hq _ _ E0) as [N3 N4]. rewrite eps_val in E0 by assumption. apply some_eq in E0; subst e0.
  assert (Uk u q n 0 = 0) as U0 by (unfold Uk, Rdiv; ring). rewrite U0. replace (0 - zk q n) with (- zk q n) by ring. rewrite Rplus_0_l, pp_even.
  pose proof (kf_pos n) as Hf. pose proof (zk_pos q n Hq) as Hz. pose proof PI_RGT_0 as HPI. pose proof (chi2_pos u n) as Hc.
  set (c := hbar u ^ 2 * q * fermi_wavenumber n / m_e u) in *. assert (0 < c) as Hcc. { unfold c. assert (0 < hbar u ^ 2) by (apply pow_lt; lra). repeat (assumption || lra || apply Rdiv_lt_0_compat || apply Rmult_lt_0_compat). }
  assert (Uk u q n E = E / c) as EU by (unfold Uk, c; field; repeat split; lra). assert (kin_energy u q = c * zk q n) as Ek by (unfold kin_energy, c, zk; field; lra).
  set (g := hbar u * PI * chi2 u n / (8 * zk q n ^ 3 * c)). assert (0 < zk q n ^ 3) by (apply pow_lt; lra). assert (0 < g) as Hg by (unfold g; repeat (assumption || lra || apply Rdiv_lt_0_compat || apply Rmult_lt_0_compat)).
  match goal with |- context [fst ?r0] => assert (fst r0 = q ^ 6 * V q ^ 2 * S q * g * rho (zk q n) (E / c)) as -> end.
  { unfold Cmult, Cminus, Cplus, Copp, Ci, RtoC. cbn [fst snd]. rewrite EU. unfold rho, g. set (d := pp (E / c - zk q n) - pp (E / c + zk q n)). replace (pp (zk q n) - pp (zk q n)) with 0 by ring.
    set (a1 := 1 + _). set (a2 := 1 + _). clearbody d a1 a2. field. repeat split; try lra; assumption. }
  assert (0 <= q ^ 6 * V q ^ 2 * S q) as HQ. { apply Rmult_le_pos; [|exact HS]. apply Rmult_le_pos; [apply pow_le; lra|apply pow2_ge_0]. }
  assert (0 < coll_prefactor u Zf) as Hp. { unfold coll_prefactor. assert (0 < PI ^ 2) by (apply pow_lt; lra). assert (0 < e_ch u ^ 2) by (apply pow_lt; lra). repeat (assumption || lra || apply Rdiv_lt_0_compat || apply Rmult_lt_0_compat). }
  assert (ziman u Zf S V q = coll_prefactor u Zf * (q ^ 6 * V q ^ 2 * S q * g) * (4 * zk q n)) as ->.
  { unfold ziman, coll_prefactor, g, c, chi2, zk. rewrite Hb. set (f := fermi_wavenumber n) in *. clearbody f. set (v := V q). set (s := S q). field. repeat split; lra. }
  set (B := q ^ 6 * V q ^ 2 * S q * g) in *. assert (0 <= B) as HB by (unfold B; apply Rmult_le_pos; lra). assert (0 <= coll_prefactor u Zf * B) as HpB by (apply Rmult_le_pos; lra).
  assert (E / c <> 0) as HEc by (apply Rmult_integral_contrapositive_currified; [exact HE|apply Rinv_neq_0_compat; lra]). assert (Rabs (E / c) = Rabs E / c) as Ea by (rewrite Rabs_div, (Rabs_pos_eq c) by lra; reflexivity).
  destruct (rho_range (zk q n) (E / c) Hz HEc) as (A1 & A2 & A3). rewrite Ea, Ek in *. rewrite <- (Rmult_assoc (coll_prefactor u Zf)). split; [split|split].
  - apply Rmult_le_pos; lra.
  - apply Rmult_le_compat_l; lra.
  - intros L. rewrite A2; [reflexivity|]. assert (Rabs E / c <= 1 - zk q n) by (apply div_le; lra). lra.
  - intros L. rewrite A3; [ring|]. apply div_le; lra.
Qed.
Print Assumptions C116_ziman.
(** hypotheses *)
Definition bohr_consts : consts := mkConsts 1 1 1 (/ (4 * PI)) 1 1 1 1 Rlt_0_1 Rlt_0_1 Rlt_0_1 ltac:(apply Rinv_0_lt_compat; pose proof PI_RGT_0; lra) Rlt_0_1 Rlt_0_1 Rlt_0_1 Rlt_0_1.
Lemma bohr_ex : bohr bohr_consts.
Proof. unfold bohr. cbn. pose proof PI_RGT_0. field. lra. Qed.
Example C115_ex : bohr bohr_consts /\ (exists e, dielectric_function_RPA_0K bohr_consts (fermi_wavenumber 1) 0 1 = Some e /\ 1 < fst e) /\
  exists M E0, 0 < M /\ 0 < E0 /\ exists e, dielectric_function_RPA_0K bohr_consts 1 E0 1 = Some e /\ snd e = 0.
Proof.
  split; [exact bohr_ex|]. pose proof (kf_pos 1) as Hf. split.
  - destruct (C115_static bohr_consts (fermi_wavenumber 1) 1 bohr_ex) as (e & A & _ & B & _); try lra. exists e. split; [exact A|lra].
  - destruct (C115_high_energy bohr_consts 1 1 bohr_ex) as (M & E0 & HM & HE & A); try lra. exists M, E0. split; [exact HM|]. split; [exact HE|]. destruct (A E0 ltac:(lra)) as (e & B & D & _). exists e. split; [exact B|exact D].
Qed.
Example C116_ex : exists r, coll_integrand bohr_consts (fun q E => dielectric_function_RPA_0K bohr_consts q E 1) (fun _ => 1) (fun _ => 1) (fermi_wavenumber 1 ^ 2 / 4) (fermi_wavenumber 1) = Some r /\
  coll_prefactor bohr_consts 1 * fst r = ziman bohr_consts 1 (fun _ => 1) (fun _ => 1) (fermi_wavenumber 1).
Proof.
  pose proof (kf_pos 1) as Hf. set (f := fermi_wavenumber 1) in *.
  assert (exists r, coll_integrand bohr_consts (fun q E => dielectric_function_RPA_0K bohr_consts q E 1) (fun _ => 1) (fun _ => 1) (f ^ 2 / 4) f = Some r) as [r Hr].
  { unfold coll_integrand. destruct (static_val bohr_consts f 1 Hf) as [-> _]; [fold f; lra|]. cbn [obind].
    assert (Uk bohr_consts f 1 (f ^ 2 / 4) = 1 / 4) as EU by (unfold Uk; fold f; cbn; field; lra). assert (zk f 1 = 1 / 2) as Ez by (unfold zk; fold f; field; lra).
    rewrite eps_val; [|exact Hf|rewrite EU, Ez; unfold edge; lra|rewrite EU, Ez; unfold edge; lra]. cbn [obind hbar bohr_consts]. assert (0 < f ^ 2) by (apply pow_lt; lra). rewrite qdiv_some by lra. cbn [obind]. eexists. reflexivity. }
  exists r. split; [exact Hr|]. apply (C116_ziman bohr_consts _ _ 1 1 f (f ^ 2 / 4) r bohr_ex); try lra; [exact Hr|]. fold f. unfold kin_energy. cbn [hbar m_e bohr_consts]. assert (0 < f ^ 2) by (apply pow_lt; lra). rewrite Rabs_pos_eq by lra. lra.
Qed.
