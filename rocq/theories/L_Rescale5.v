(** Changing the system of units: local field corrections are plain numbers. *)
From Coq Require Import Reals List Lra Lia.
From Verif Require Import M_Const M_PlasmaState M_Interp M_PlasmaPhysics M_LFC L_Rescale L_Rescale2.
Import ListNotations.
Open Scope R_scope.

Section R.
  Variables (w : usys) (u : consts) (i1 : R -> R) (quad : (R -> R) -> R) (double : R -> R -> R).
  Local Notation u' := (conv w u).
  Variables (k T n : R).
  Hypothesis Hn : 0 < n.
  Local Notation k' := (k / uL w).
  Local Notation T' := (T * uK w).
  Local Notation n' := (n / uL w ^ 3).
  Lemma kF_pos : 0 < fermi_wavenumber n. Proof. unfold fermi_wavenumber. apply exp_pos. Qed.
  Lemma rs_sc : lfc_rs u' n' = lfc_rs u n.
  Proof. upos w. kpos u. unfold lfc_rs. rewrite (spacing_sc w u) by exact Hn. cbn [conv a_0]. field. repeat split; lra. Qed.
  Lemma Q_sc : k' / fermi_wavenumber n' = k / fermi_wavenumber n.
  Proof. upos w. pose proof kF_pos. rewrite (fermi_wavenumber_sc w u) by exact Hn. field. repeat split; lra. Qed.
  Lemma Theta_sc : Theta u' T' n' = Theta u T n.
  Proof. upos w. kpos u. pose proof (fermi_energy_pos' u n). unfold Theta. rewrite fermi_energy_sc by exact Hn. cbn [conv kB]. field. repeat split; lra. Qed.
  Lemma hubbard_sc : eelfc_hubbard k' n' = eelfc_hubbard k n.
  Proof.
    upos w. pose proof kF_pos. unfold eelfc_hubbard. rewrite (fermi_wavenumber_sc w u) by exact Hn. assert (0 < fermi_wavenumber n ^ 2) by now apply pow_lt. pose proof (pow2_ge_0 k). field. repeat split; lra.
  Qed.
  Lemma ui_sc : eelfc_utsumiichimaru u' i1 k' n' = eelfc_utsumiichimaru u i1 k n.
  Proof. unfold eelfc_utsumiichimaru. rewrite rs_sc, Q_sc. reflexivity. Qed.
  Lemma farid_sc : eelfc_farid u' i1 k' n' = eelfc_farid u i1 k n.
  Proof. unfold eelfc_farid. rewrite rs_sc, Q_sc. reflexivity. Qed.
  Lemma Tq_sc : GV_T_q u' n' = option_map (fun x => x * uK w) (GV_T_q u n).
  Proof.
    upos w. kpos u. unfold GV_T_q. rewrite rs_sc, fermi_energy_sc by exact Hn.
    replace (fermi_energy u n * uE w / kB u') with (fermi_energy u n / kB u * uK w) by (cbn [conv kB]; field; repeat split; lra).
    set (d := _ - _). rewrite <- (Rmult_1_r d) at 1. rewrite qdiv_sc by lra. destruct (qdiv _ _); cbn; [|reflexivity]. f_equal. field.
  Qed.
  Lemma Tee_sc : GV_T_ee u' T' n' = option_map (fun x => x * uK w) (GV_T_ee u T n).
  Proof.
    upos w. unfold GV_T_ee. rewrite Tq_sc, obind_map, option_map_obind. apply obind_ext. intros q. cbn [option_map]. f_equal. rewrite <- sqrt_sc by lra. f_equal. ring.
  Qed.
  Lemma GVxi_sc t : t <> 0 -> GV_xi u' (t * uK w) = GV_xi u t.
  Proof. intros Ht. upos w. kpos u. unfold GV_xi. cbn [conv m_e e_ch eps0 kB hbar]. unfold uE. field. repeat split; lra. Qed.
  Lemma form_sc kF g h : GV_form k' (kF / uL w) g h = GV_form k kF g h.
  Proof.
    upos w. unfold GV_form. destruct (Req_EM_T h 1).
    - destruct (Req_EM_T k 0) as [a|a], (Req_EM_T k' 0) as [b|b]; try reflexivity; exfalso.
      + apply b. rewrite a. field. lra.
      + apply a. replace k with (k' * uL w) by (field; lra). rewrite b. ring.
    - apply obind_ext. intros i. replace (k' ^ 2) with (k ^ 2 * / uL w ^ 2) by (field; lra).
      replace (i * (kF / uL w) ^ 2 + / (1 - h) * (k ^ 2 * / uL w ^ 2)) with ((i * kF ^ 2 + / (1 - h) * k ^ 2) * / uL w ^ 2) by (unfold Rdiv; rewrite Rpow_mult_distr, pow_inv; ring).
      assert (0 < / uL w ^ 2) by (apply Rinv_0_lt_compat; now apply pow_lt). rewrite qdiv_sc by lra. destruct (qdiv _ _); cbn; [|reflexivity]. f_equal. field. lra.
  Qed.
  Lemma gv_sc : eelfc_geldartvosko u' quad k' T' n' = eelfc_geldartvosko u quad k T n.
  Proof.
    upos w. unfold eelfc_geldartvosko. rewrite Tee_sc, obind_map. apply obind_ext. intros t. destruct (Req_EM_T t 0) as [a|a], (Req_EM_T (t * uK w) 0) as [b|b]; try reflexivity.
    - exfalso. apply b. rewrite a. ring.
    - exfalso. apply Rmult_integral in b. destruct b; lra.
    - rewrite coupling_sc, GVxi_sc by assumption. rewrite (fermi_wavenumber_sc w u) by exact Hn. apply form_sc.
  Qed.
  Lemma greg_sc : eelfc_interp_gregori2007 u' i1 quad k' T' n' = eelfc_interp_gregori2007 u i1 quad k T n.
  Proof. unfold eelfc_interp_gregori2007. rewrite Theta_sc, ui_sc, gv_sc. reflexivity. Qed.
  Lemma fort_sc : eelfc_interp_fortmann2010 u' i1 quad k' T' n' = eelfc_interp_fortmann2010 u i1 quad k T n.
  Proof. unfold eelfc_interp_fortmann2010. rewrite Theta_sc, farid_sc, gv_sc. reflexivity. Qed.
  Lemma dorn_sc : eelfc_dornheim2021 u' double k' T' n' = eelfc_dornheim2021 u double k T n.
  Proof.
    upos w. kpos u. unfold eelfc_dornheim2021. rewrite Theta_sc, Q_sc. rewrite (wsr_sc w u) by exact Hn.
    replace (wiegner_seitz_radius n * uL w / a_0 u') with (wiegner_seitz_radius n / a_0 u) by (cbn [conv a_0]; field; repeat split; lra). reflexivity.
  Qed.
End R.
