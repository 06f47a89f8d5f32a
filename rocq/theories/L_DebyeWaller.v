From Coq Require Import Reals List Lra Lia Psatz.
From Coquelicot Require Import Coquelicot.
From Verif Require Import M_Const M_PlasmaState L_PlasmaState M_PlasmaPhysics L_PlasmaPhysics M_StaticSF L_StaticSF.
Import ListNotations.
Open Scope R_scope.

(** Bose integrand, continued to zero *)
Definition hh (x : R) : R := if Req_EM_T x 0 then 1 else (exp x - 1) / x.
Definition g1 (x : R) : R := / hh x.

Lemma hh_pos x : 0 < hh x.
Proof.
  unfold hh. destruct (Req_EM_T x 0) as [->|Hx]; [lra|].
  destruct (Rtotal_order x 0) as [H|[H|H]]; [|contradiction|].
  - replace ((exp x - 1) / x) with ((1 - exp x) / (- x)) by (field; lra). apply Rdiv_lt_0_compat; [|lra].
    pose proof (exp_increasing _ _ H) as E. rewrite exp_0 in E. lra.
  - apply Rdiv_lt_0_compat; [|lra]. pose proof (exp_increasing _ _ H) as E. rewrite exp_0 in E. lra.
Qed.
Lemma hh_cont x : continuous hh x.
Proof.
  destruct (Req_dec x 0) as [->|Hx].
  - apply continuity_pt_filterlim. intros eps Heps.
    destruct (derivable_pt_lim_exp_0 eps Heps) as [d Hd].
    exists d. split; [apply d|]. intros y [Hy1 Hy2]. unfold hh. destruct (Req_EM_T 0 0); [|contradiction].
    unfold D_x, no_cond in Hy1. cbn in Hy2 |- *. unfold R_dist in *. destruct (Req_EM_T y 0) as [->|Hy]; [rewrite Rminus_eq_0, Rabs_R0; assumption|].
    rewrite Rminus_0_r in Hy2. specialize (Hd y Hy Hy2). rewrite Rplus_0_l, exp_0 in Hd. exact Hd.
  - apply continuous_ext_loc with (fun z => (exp z - 1) / z).
    + assert (Hr : 0 < Rabs x) by (now apply Rabs_pos_lt). exists (mkposreal _ Hr). intros y Hy. unfold hh.
      destruct (Req_EM_T y 0) as [->|]; [|reflexivity]. exfalso. unfold ball in Hy. cbn in Hy. unfold AbsRing_ball, abs, minus, plus, opp in Hy. cbn in Hy.
      rewrite Rplus_0_l, Rabs_Ropp in Hy. lra.
    + apply (ex_derive_continuous (V := R_NormedModule)). auto_derive. assumption.
Qed.
Lemma g1_cont x : continuous g1 x.
Proof. unfold g1. apply continuous_Rinv_comp; [apply hh_cont|]. pose proof (hh_pos x). lra. Qed.
Lemma g1_int a b : ex_RInt g1 a b.
Proof. apply (ex_RInt_continuous (V := R_CompleteNormedModule)). intros. apply g1_cont. Qed.
Lemma g1_pos x : 0 < g1 x.
Proof. unfold g1. apply Rinv_0_lt_compat, hh_pos. Qed.
Lemma g1_eq x : 0 < x -> g1 x = x / (exp x - 1).
Proof.
  intros H. unfold g1, hh. destruct (Req_EM_T x 0); [lra|]. pose proof (exp_increasing _ _ H) as E. rewrite exp_0 in E.
  field. lra.
Qed.
Lemma g1_0 : g1 0 = 1.
Proof. unfold g1, hh. destruct (Req_EM_T 0 0); [apply Rinv_1|contradiction]. Qed.
Lemma hh_incr x y : 0 < x -> x <= y -> hh x <= hh y.
Proof.
  intros Hx [Hy|<-]; [|lra]. unfold hh. destruct (Req_EM_T x 0); [lra|]. destruct (Req_EM_T y 0); [lra|].
  destruct (MVT_gen (fun z => (exp z - 1) / z) x y (fun z => (exp z * z - (exp z - 1)) / z ^ 2)) as [c [Hc E]].
  - intros z Hz. rewrite Rmin_left, Rmax_right in Hz by lra. auto_derive; [lra|]. field. lra.
  - intros z Hz. rewrite Rmin_left, Rmax_right in Hz by lra. apply continuity_pt_filterlim.
    apply (ex_derive_continuous (V := R_NormedModule) (fun z => (exp z - 1) / z)). auto_derive. lra.
  - rewrite Rmin_left, Rmax_right in Hc by lra.
    assert (0 <= (exp c * c - (exp c - 1)) / c ^ 2).
    { apply Rmult_le_pos; [|left; apply Rinv_0_lt_compat, pow_lt; lra].
      pose proof (exp_ineq1 (- c)) as E1. assert (1 + - c < exp (- c)) by (apply E1; lra).
      pose proof (exp_pos c) as Ep. assert (exp c * (1 + - c) <= exp c * exp (- c)) by (apply Rmult_le_compat_l; lra).
      rewrite <- exp_plus, Rplus_opp_r, exp_0 in H0. lra. }
    pose proof (Rmult_le_pos _ (y - x) H). lra.
Qed.
Lemma hh_ge1 x : 0 <= x -> 1 <= hh x.
Proof.
  intros [H|<-]; [|unfold hh; destruct (Req_EM_T 0 0); [lra|contradiction]].
  unfold hh. destruct (Req_EM_T x 0); [lra|]. apply Rmult_le_reg_r with x; [assumption|]. unfold Rdiv. rewrite Rmult_assoc, Rinv_l by lra.
  pose proof (exp_ineq1 x). assert (1 + x < exp x) by (apply H0; lra). lra.
Qed.
Lemma g1_decr x y : 0 <= x -> x <= y -> g1 y <= g1 x.
Proof.
  intros Hx Hy. unfold g1. apply Rinv_le_contravar; [apply hh_pos|]. destruct Hx as [Hx|<-]; [now apply hh_incr|].
  replace (hh 0) with 1; [now apply hh_ge1|]. unfold hh. destruct (Req_EM_T 0 0); [reflexivity|contradiction].
Qed.

Definition G (y : R) : R := RInt g1 0 y.
Lemma dw_phi_eq y : 0 < y -> dw_phi y = 1 / y * G y.
Proof.
  intros H. unfold dw_phi, G. f_equal. apply RInt_ext. intros x Hx. rewrite Rmin_left, Rmax_right in Hx by lra. symmetry. apply g1_eq. lra.
Qed.
Lemma G_pos y : 0 < y -> 0 < G y.
Proof.
  intros H. unfold G. apply RInt_gt_0; [assumption|intros; apply g1_pos|intros; apply g1_cont].
Qed.
Lemma G_le y : 0 < y -> y * g1 y <= G y <= y.
Proof.
  intros H. unfold G. split.
  - replace (y * g1 y) with (RInt (fun _ => g1 y) 0 y) by (rewrite RInt_const; unfold scal; cbn; unfold mult; cbn; ring).
    apply RInt_le; [lra|apply ex_RInt_const|apply g1_int|]. intros x Hx. apply g1_decr; lra.
  - replace y with (RInt (fun _ => 1) 0 y) at 2 by (rewrite RInt_const; unfold scal; cbn; unfold mult; cbn; ring).
    apply RInt_le; [lra|apply g1_int|apply ex_RInt_const|]. intros x Hx. rewrite <- g1_0. apply g1_decr; lra.
Qed.
Lemma G_scale y1 y2 : 0 < y1 <= y2 -> G y2 <= y2 / y1 * G y1.
Proof.
  intros [H1 H2]. set (r := y2 / y1). assert (Hr : 1 <= r).
  { unfold r. apply Rmult_le_reg_r with y1; [assumption|]. unfold Rdiv. rewrite Rmult_assoc, Rinv_l by lra. lra. }
  assert (E : G y2 = RInt (fun s => scal r (g1 (r * s + 0))) 0 y1).
  { unfold G. rewrite (RInt_comp_lin (V := R_CompleteNormedModule)).
    - f_equal; unfold r; field; lra.
    - apply g1_int. }
  rewrite E. unfold G. rewrite <- (RInt_scal (V := R_CompleteNormedModule)) by apply g1_int.
  apply RInt_le; [lra| | |].
  - apply (ex_RInt_scal (V := R_NormedModule)). apply (ex_RInt_continuous (V := R_CompleteNormedModule)). intros.
    apply continuous_comp; [|apply g1_cont].
    apply (ex_derive_continuous (V := R_NormedModule)). auto_derive. trivial.
  - apply (ex_RInt_scal (V := R_NormedModule)). apply g1_int.
  - intros x Hx. unfold scal; cbn; unfold mult; cbn. apply Rmult_le_compat_l; [lra|]. apply g1_decr; [lra|].
    rewrite Rplus_0_r. pose proof (Rmult_le_compat_r x 1 r). lra.
Qed.

(** the bracket of eqn (5) *)
Definition bracket (th T : R) : R := T / th * dw_phi (th / T) + 1 / 4.
Lemma bracket_pos th T : 0 < th -> 0 < T -> 1 / 4 < bracket th T.
Proof.
  intros. unfold bracket. assert (0 < th / T) by (now apply Rdiv_lt_0_compat). rewrite dw_phi_eq by assumption.
  pose proof (G_pos _ H1). assert (0 < T / th * (1 / (th / T) * G (th / T))) by pos. lra.
Qed.
Lemma bracket_T th T1 T2 : 0 < th -> 0 < T1 -> T1 < T2 -> bracket th T1 < bracket th T2.
Proof.
  intros Ht H1 H2. unfold bracket. apply Rplus_lt_compat_r.
  set (y1 := th / T1). set (y2 := th / T2). assert (Hy2 : 0 < y2) by (unfold y2; apply Rdiv_lt_0_compat; lra).
  assert (Hy : y2 < y1). { unfold y1, y2, Rdiv. apply Rmult_lt_compat_l; [assumption|]. apply Rinv_lt_contravar; [apply Rmult_lt_0_compat; lra|assumption]. }
  rewrite !dw_phi_eq by lra.
  replace (T1 / th) with (/ y1) by (unfold y1; field; lra). replace (T2 / th) with (/ y2) by (unfold y2; field; lra).
  pose proof (G_scale y2 y1 ltac:(lra)) as Hs. pose proof (G_pos _ Hy2) as Hg.
  apply Rle_lt_trans with (/ y1 * (1 / y1 * (y1 / y2 * G y2))).
  - apply Rmult_le_compat_l; [left; apply Rinv_0_lt_compat; lra|]. apply Rmult_le_compat_l; [|exact Hs]. left. apply Rdiv_lt_0_compat; lra.
  - replace (/ y1 * (1 / y1 * (y1 / y2 * G y2))) with (/ y1 * (1 / y2 * G y2)) by (field; lra).
    apply Rmult_lt_compat_r; [apply Rmult_lt_0_compat; [apply Rdiv_lt_0_compat; lra|assumption]|].
    apply Rinv_lt_contravar; [apply Rmult_lt_0_compat; lra|assumption].
Qed.
Lemma bracket_th th1 th2 T : 0 < T -> 0 < th1 -> th1 < th2 -> bracket th2 T < bracket th1 T.
Proof.
  intros HT H1 H2.
  assert (E : forall th, 0 < th -> bracket th T = bracket th1 (T * th1 / th)).
  { intros th Hth. unfold bracket. replace (T / th) with (T * th1 / th / th1) by (field; lra).
    replace (th / T) with (th1 / (T * th1 / th)) by (field; lra). reflexivity. }
  rewrite (E th2), (E th1) by lra. apply bracket_T; [assumption| |].
  - apply Rdiv_lt_0_compat; [apply Rmult_lt_0_compat|]; lra.
  - unfold Rdiv. apply Rmult_lt_compat_l; [apply Rmult_lt_0_compat; lra|]. apply Rinv_lt_contravar; [apply Rmult_lt_0_compat; lra|assumption].
Qed.

Section DW.
  Variable u : consts.
  Lemma sum_pos l : l <> [] -> (forall t, In t l -> 0 < t) -> 0 < sum l.
  Proof.
    intros Hl. destruct l as [|a l]; [contradiction|]. intros H. cbn. assert (0 < a) by (apply H; now left).
    assert (0 <= sum l); [|unfold sum in *; lra]. assert (H' : forall t, In t l -> 0 < t) by (intros; apply H; now right).
    clear - H'. induction l as [|b l IH]; cbn; [lra|]. assert (0 < b) by (apply H'; now left).
    assert (0 <= sum l) by (apply IH; intros; apply H'; now right). unfold sum in *. lra.
  Qed.
  Lemma mean_pos l : l <> [] -> (forall t, In t l -> 0 < t) -> 0 < mean l.
  Proof.
    intros Hl H. unfold mean. apply Rdiv_lt_0_compat; [now apply sum_pos|]. apply lt_0_INR. destruct l; [contradiction|cbn; lia].
  Qed.
  Lemma dw_len NA k m l T : length (debyeWallerFactor u NA k m l T) = length l.
  Proof. unfold debyeWallerFactor. apply map_length. Qed.
  Lemma dw_nth NA k m l T i : (i < length l)%nat ->
    nth i (debyeWallerFactor u NA k m l T) 0 =
    exp (- (3 * planck u ^ 2 * NA * (k / (2 * PI)) ^ 2 / (m * kB u * nth i l 0) * bracket (mean l) T)).
  Proof.
    intros Hi. unfold debyeWallerFactor. rewrite (nth_indep _ 0 (exp (- (3 * planck u ^ 2 * NA * (k / (2 * PI)) ^ 2 / (m * kB u * 0)
              * (T / mean l * dw_phi (mean l / T) + 1 / 4))))) by (now rewrite map_length).
    rewrite (map_nth (fun theta => exp (- (3 * planck u ^ 2 * NA * (k / (2 * PI)) ^ 2 / (m * kB u * theta)
              * (T / mean l * dw_phi (mean l / T) + 1 / 4))))). reflexivity.
  Qed.
  Lemma mean_single t : mean [t] = t.
  Proof. unfold mean. cbn. field. Qed.
End DW.
