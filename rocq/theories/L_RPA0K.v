(** Lemmas on the zero temperature dielectric function. *)
From Coq Require Import Reals List Lra Lia Psatz.
From Coquelicot Require Import Coquelicot.
From Verif Require Import M_Const M_PlasmaState M_PlasmaPhysics L_PlasmaPhysics M_FreeFree L_LFC L_RPA M_RPA0K.
Import ListNotations.
Open Scope R_scope.

Definition G_ (x : R) : R := x + 1 / 2 * (1 - x ^ 2) * ln (Rabs ((x + 1) / (x - 1))).
Definition pp (x : R) : R := Rmax 0 (1 - x ^ 2).
Lemma pp_in x : -1 <= x <= 1 -> pp x = 1 - x ^ 2.
Proof. intros H. unfold pp. apply Rmax_right. nra. Qed.
Lemma pp_out x : x <= -1 \/ 1 <= x -> pp x = 0.
Proof. intros H. unfold pp. apply Rmax_left. destruct H; nra. Qed.
Lemma g_val x : x <> 1 -> x <> -1 -> gFortmann x = Some (G_ x, - (PI / 2 * pp x)).
Proof.
  intros H1 H2. unfold gFortmann. destruct (Req_EM_T x 1); [contradiction|]. destruct (Req_EM_T x (-1)); [contradiction|]. cbv zeta. f_equal. unfold G_.
  set (L := ln (Rabs ((x + 1) / (x - 1)))).
  assert ((if Rlt_dec ((x + 1) / (x - 1)) 0 then - PI else 0) * (1 / 2 * (1 - x ^ 2)) = - (PI / 2 * pp x)) as Q.
  { assert (x - 1 <> 0) as N by lra. destruct (Rlt_dec ((x + 1) / (x - 1)) 0) as [S|S].
    - rewrite pp_in; [field|]. destruct (Rle_lt_dec x (-1)) as [A|A]. { exfalso. assert (0 <= (x + 1) / (x - 1)); [|lra]. replace ((x + 1) / (x - 1)) with ((- x - 1) / (1 - x)) by (field; lra). apply Rdiv_le_0_compat; lra. }
      destruct (Rle_lt_dec x 1) as [B|B]; [lra|]. exfalso. assert (0 <= (x + 1) / (x - 1)) by (apply Rdiv_le_0_compat; lra). lra.
    - rewrite pp_out; [ring|]. destruct (Rle_lt_dec x (-1)) as [A|A]; [now left|]. destruct (Rle_lt_dec 1 x) as [B|B]; [now right|]. exfalso. apply S. replace ((x + 1) / (x - 1)) with (- ((x + 1) / (1 - x))) by (field; lra). assert (0 < (x + 1) / (1 - x)) by (apply Rdiv_lt_0_compat; lra). lra. }
  unfold Cplus, Cmult, RtoC. cbn [fst snd]. f_equal; [ring|]. rewrite <- Q. ring.
Qed.
Lemma G_odd x : x <> 1 -> x <> -1 -> G_ (- x) = - G_ x.
Proof.
  intros H1 H2. unfold G_. replace ((- x + 1) / (- x - 1)) with (/ ((x + 1) / (x - 1))) by (field; repeat split; lra).
  assert ((x + 1) / (x - 1) <> 0) by (apply Rmult_integral_contrapositive_currified; [lra|apply Rinv_neq_0_compat; lra]).
  rewrite Rabs_Rinv by assumption. rewrite ln_Rinv by (now apply Rabs_pos_lt). ring.
Qed.
Lemma pp_even x : pp (- x) = pp x.
Proof. unfold pp. f_equal. ring. Qed.
Lemma pp_range x : 0 <= pp x <= 1.
Proof. unfold pp. split; [apply Rmax_l|]. apply Rmax_lub; nra. Qed.
Lemma G_in x : -1 < x < 1 -> G_ x = x + (1 - x ^ 2) * ath x.
Proof.
  intros H. unfold G_, ath. replace ((x + 1) / (x - 1)) with (- ((1 + x) / (1 - x))) by (field; lra). rewrite Rabs_Ropp, Rabs_pos_eq by (apply Rdiv_le_0_compat; lra). field.
Qed.
Lemma G_out x : 1 < x -> G_ x = x + (1 - x ^ 2) * ath (1 / x).
Proof.
  intros H. unfold G_, ath. replace ((1 + 1 / x) / (1 - 1 / x)) with ((x + 1) / (x - 1)) by (field; lra). rewrite Rabs_pos_eq by (apply Rdiv_le_0_compat; lra). field.
Qed.
Lemma ath_lt t : 0 <= t < 1 -> (1 - t ^ 2) * ath t <= t - 2 / 3 * t ^ 3.
Proof.
  intros H. enough (0 - 2 / 3 * 0 ^ 3 - (1 - 0 ^ 2) * ath 0 <= t - 2 / 3 * t ^ 3 - (1 - t ^ 2) * ath t) as E by (rewrite ath_0 in E; lra).
  apply (nondecreasing_from (fun t => t - 2 / 3 * t ^ 3 - (1 - t ^ 2) * ath t) (fun t => 2 * t * (ath t - t))); [lra| |].
  - intros s Hs. refine (deq _ s ((1 - 2 * s ^ 2) - (- 2 * s * ath s + (1 - s ^ 2) * (1 / (1 - s ^ 2)))) _ _ _).
    + field. nra.
    + apply (is_derive_minus (V := R_NormedModule) (fun t => t - 2 / 3 * t ^ 3)).
      * auto_derive; [exact I|]. field.
      * apply (is_derive_mult (fun t : R => 1 - t ^ 2) ath s); [auto_derive; [exact I|ring]|apply ath_derive; lra|intros; apply Rmult_comm].
  - intros s Hs. pose proof (ath_ge s ltac:(lra)). nra.
Qed.
(** static screening: never better than Thomas and Fermi's *)
Lemma G_range z : 0 < z -> z <> 1 -> 0 < G_ z < 2 * z.
Proof.
  intros H H1. destruct (Rlt_le_dec z 1) as [L|L].
  - rewrite G_in by lra. pose proof (ath_lt z ltac:(lra)). pose proof (ath_ge z ltac:(lra)). assert (0 < z ^ 3) by (apply pow_lt; lra). assert (0 <= (1 - z ^ 2) * ath z) by (apply Rmult_le_pos; nra). lra.
  - rewrite G_out by lra. set (t := 1 / z). assert (0 < t < 1) as Ht. { unfold t. split; [apply Rdiv_lt_0_compat; lra|apply Rlt_div_l; lra]. }
    pose proof (ath_lt t ltac:(lra)) as A. pose proof (ath_ge t ltac:(lra)) as B. assert (0 < t ^ 3) by (apply pow_lt; lra). assert (z = 1 / t) as Ez by (unfold t; field; lra).
    replace (z + (1 - z ^ 2) * ath t) with ((t - (1 - t ^ 2) * ath t) / t ^ 2) by (rewrite Ez; field; lra). split; [apply Rdiv_lt_0_compat; [lra|nra]|].
    apply Rlt_div_l; [nra|]. rewrite Ez. replace (2 * (1 / t) * t ^ 2) with (2 * t) by (field; lra). assert (0 <= (1 - t ^ 2) * ath t) by (apply Rmult_le_pos; nra). lra.
Qed.
Lemma G_small z : 0 < z <= 1 / 2 -> Rabs (G_ z - 2 * z) <= z ^ 3.
Proof.
  intros H. rewrite G_in by lra. destruct (ath_rem z H) as (r & Hr & ->). assert (0 < z ^ 2 <= 1 / 4) as Hs by nra.
  replace (z + (1 - z ^ 2) * (z * (1 + z ^ 2 / 3 + z ^ 4 / 5 + z ^ 6 * r)) - 2 * z) with (z ^ 3 * (- (2 / 3) - 2 / 15 * z ^ 2 + (z ^ 2) ^ 2 * (r - 1 / 5) - (z ^ 2) ^ 3 * r)) by field.
  set (s := z ^ 2) in *. rewrite Rabs_mult. assert (0 < z ^ 3) by (apply pow_lt; lra). rewrite (Rabs_pos_eq (z ^ 3)) by lra. rewrite <- (Rmult_1_r (z ^ 3)) at 2. apply Rmult_le_compat_l; [lra|].
  assert (0 < s ^ 2 <= 1 / 16) by nra. assert (0 < s ^ 3 <= 1 / 64) by nra. assert (- (1 / 80) <= s ^ 2 * (r - 1 / 5) <= 1 / 20) by nra. assert (0 <= s ^ 3 * r <= 1 / 64) by nra. apply Rabs_le. lra.
Qed.
Lemma G_large x : 2 <= x -> Rabs (G_ x - 2 / (3 * x)) <= (1 / x) ^ 3.
Proof.
  intros H0. rewrite G_out by lra. assert (exists t, 0 < t <= 1 / 2 /\ x = 1 / t) as (t & H & ->).
  { exists (1 / x). split; [split; [apply Rdiv_lt_0_compat; lra|apply Rle_div_l; lra]|field; lra]. } clear H0. replace (1 / (1 / t)) with t by (field; lra).
  destruct (ath_rem t H) as (r & Hr & ->). assert (0 < t ^ 2 <= 1 / 4) as Hs by nra.
  replace (1 / t + (1 - (1 / t) ^ 2) * (t * (1 + t ^ 2 / 3 + t ^ 4 / 5 + t ^ 6 * r)) - 2 / (3 * (1 / t))) with (t ^ 3 * (2 / 15 - t ^ 2 * (r - 1 / 5) + (t ^ 2) ^ 2 * r)) by (field; lra).
  set (s := t ^ 2) in *. rewrite Rabs_mult. assert (0 < t ^ 3) by (apply pow_lt; lra). rewrite (Rabs_pos_eq (t ^ 3)) by lra. rewrite <- (Rmult_1_r (t ^ 3)) at 2. apply Rmult_le_compat_l; [lra|].
  assert (0 < s ^ 2 <= 1 / 16) by nra. assert (- (1 / 20) <= s * (r - 1 / 5) <= 1 / 5) by nra. assert (0 <= s ^ 2 * r <= 1 / 16) by nra. apply Rabs_le. lra.
Qed.
Lemma B_large U z : 0 < z -> 2 * z + 4 <= U -> Rabs (U ^ 2 * (G_ (U + z) - G_ (U - z)) + 4 * z / 3) <= (z ^ 2 + 16) / U.
Proof.
  intros Hz HU. pose proof (G_large (U + z) ltac:(lra)) as A. pose proof (G_large (U - z) ltac:(lra)) as B. set (ga := G_ (U + z)) in *. set (gb := G_ (U - z)) in *.
  assert (0 < U ^ 2) by (apply pow_lt; lra). assert (0 < U ^ 2 - z ^ 2) as HD by nra.
  replace (U ^ 2 * (ga - gb) + 4 * z / 3) with (U ^ 2 * ((ga - 2 / (3 * (U + z))) - (gb - 2 / (3 * (U - z)))) - 4 * z / 3 * (z ^ 2 / (U ^ 2 - z ^ 2))) by (field; repeat split; try lra; nra).
  set (da := ga - 2 / (3 * (U + z))) in *. set (db := gb - 2 / (3 * (U - z))) in *. clearbody da db.
  assert (forall y, U / 2 <= y -> (1 / y) ^ 3 <= 8 / U ^ 3) as Q. { intros y Hy. replace (8 / U ^ 3) with ((1 / (U / 2)) ^ 3) by (field; lra). apply pow_incr. split; [apply Rlt_le, Rdiv_lt_0_compat; lra|]. unfold Rdiv at 1 2. rewrite !Rmult_1_l. apply Rinv_le_contravar; lra. }
  pose proof (Q (U + z) ltac:(lra)). pose proof (Q (U - z) ltac:(lra)).
  assert (Rabs (U ^ 2 * (da - db)) <= 16 / U). { rewrite Rabs_mult, (Rabs_pos_eq (U ^ 2)) by lra. replace (16 / U) with (U ^ 2 * (8 / U ^ 3 + 8 / U ^ 3)) by (field; lra). apply Rmult_le_compat_l; [lra|]. unfold Rminus. eapply Rle_trans; [apply Rabs_triang|]. rewrite Rabs_Ropp. lra. }
  assert (0 <= 4 * z / 3 * (z ^ 2 / (U ^ 2 - z ^ 2)) <= z ^ 2 / U).
  { split; [apply Rmult_le_pos; [lra|]; apply Rdiv_le_0_compat; nra|]. replace (4 * z / 3 * (z ^ 2 / (U ^ 2 - z ^ 2))) with (z ^ 2 * (4 * z / (3 * (U ^ 2 - z ^ 2)))) by (field; nra). unfold Rdiv at 2. apply Rmult_le_compat_l; [apply pow2_ge_0|].
    apply Rle_div_l; [nra|]. apply Rmult_le_reg_l with U; [lra|]. replace (U * (/ U * (3 * (U ^ 2 - z ^ 2)))) with (3 * (U ^ 2 - z ^ 2)) by (field; lra). nra. }
  replace ((z ^ 2 + 16) / U) with (16 / U + z ^ 2 / U) by (field; lra). unfold Rminus. eapply Rle_trans; [apply Rabs_triang|]. rewrite Rabs_Ropp. rewrite (Rabs_pos_eq (4 * z / 3 * (z ^ 2 / (U ^ 2 + - z ^ 2)))) by (apply H3). apply Rplus_le_compat; [assumption|apply H3].
Qed.

(** ** The dielectric function *)
Section D.
  Variable u : consts.
  Variables k n : R.
  Hypothesis Hk : 0 < k.
  Let kf := fermi_wavenumber n.
  Definition zk : R := k / (2 * kf).
  Definition Uk (E : R) : R := m_e u * E / (hbar u ^ 2 * k * kf).
  Definition chi2 : R := 1 / (PI * a_0 u * kf).
  Lemma kf_pos : 0 < kf.
  Proof. apply exp_pos. Qed.
  Lemma zk_pos : 0 < zk.
  Proof. unfold zk. pose proof kf_pos. apply Rdiv_lt_0_compat; lra. Qed.
  Lemma chi2_pos : 0 < chi2.
  Proof. unfold chi2. pose proof kf_pos. pose proof PI_RGT_0. cpos u. repeat (assumption || lra || apply Rdiv_lt_0_compat || apply Rmult_lt_0_compat). Qed.
  Definition edge (x : R) : Prop := x = 1 \/ x = -1.
  Lemma g_edge x : edge x -> gFortmann x = None.
  Proof. intros [->| ->]; unfold gFortmann; destruct (Req_EM_T _ 1); try reflexivity; destruct (Req_EM_T _ (-1)); try reflexivity; lra. Qed.
  Lemma eps_open E : dielectric_function_RPA_0K u k E n =
    obind (gFortmann (Uk E + zk)) (fun a => obind (gFortmann (Uk E - zk)) (fun b => Some (Cplus (RtoC 1) (Cmult (RtoC (chi2 / (4 * zk ^ 3))) (Cminus a b))))).
  Proof.
    pose proof kf_pos as Hf. pose proof zk_pos as Hz. cpos u. pose proof PI_RGT_0. unfold dielectric_function_RPA_0K, noninteracting_susceptibility_0K. cbv zeta. fold kf. fold zk.
    assert (0 < hbar u * k * kf) by (repeat (assumption || lra || apply Rmult_lt_0_compat)). assert (0 < PI * a_0 u * kf) by (repeat (assumption || lra || apply Rmult_lt_0_compat)).
    assert (0 < zk ^ 3) by (apply pow_lt; lra). assert (0 < coulomb_k u (-1) (-1) k) as HV. { unfold coulomb_k. assert (0 < k ^ 2) by (apply pow_lt; lra). assert (0 < e_ch u ^ 2) by (apply pow_lt; lra). apply Rdiv_lt_0_compat; [|lra]. apply Rmult_lt_0_compat; [apply Rdiv_lt_0_compat; lra|lra]. }
    rewrite (qdiv_some (m_e u * (E / hbar u))) by lra. cbn [obind]. rewrite (qdiv_some 1) by lra. cbn [obind]. assert (0 < 4 * zk ^ 3 * coulomb_k u (-1) (-1) k) by (apply Rmult_lt_0_compat; lra). rewrite qdiv_some by lra. cbn [obind].
    replace (m_e u * (E / hbar u) / (hbar u * k * kf)) with (Uk E) by (unfold Uk; field; repeat split; lra). fold chi2.
    destruct (gFortmann (Uk E + zk)) as [a|]; [|reflexivity]. cbn [obind]. destruct (gFortmann (Uk E - zk)) as [b|]; [|reflexivity]. cbn [obind]. f_equal.
    unfold Vee. set (V := coulomb_k u (-1) (-1) k) in *. rewrite Cmult_assoc, <- RtoC_mult. replace (V * (- chi2 / (4 * zk ^ 3 * V))) with (- (chi2 / (4 * zk ^ 3))) by (field; repeat split; lra).
    unfold Cminus, Cplus, Cmult, Copp, RtoC. cbn [fst snd]. f_equal; ring.
  Qed.
  Lemma eps_val E : ~ edge (Uk E + zk) -> ~ edge (Uk E - zk) -> dielectric_function_RPA_0K u k E n =
    Some (1 + chi2 / (4 * zk ^ 3) * (G_ (Uk E + zk) - G_ (Uk E - zk)), PI * chi2 / (8 * zk ^ 3) * (pp (Uk E - zk) - pp (Uk E + zk))).
  Proof.
    intros H1 H2. rewrite eps_open. unfold edge in *. rewrite !g_val by tauto. cbn [obind]. f_equal. pose proof zk_pos.
    unfold Cminus, Cplus, Cmult, Copp, RtoC. cbn [fst snd]. f_equal; field; lra.
  Qed.
  Lemma edge_dec x : {edge x} + {~ edge x}.
  Proof. unfold edge. destruct (Req_EM_T x 1); [left; now left|]. destruct (Req_EM_T x (-1)); [left; now right|]. right. tauto. Qed.
  Lemma eps_some E e : dielectric_function_RPA_0K u k E n = Some e -> ~ edge (Uk E + zk) /\ ~ edge (Uk E - zk).
  Proof.
    rewrite eps_open. intros H. split; intros X; rewrite (g_edge _ X) in H; [discriminate|]. destruct (gFortmann (Uk E + zk)); discriminate.
  Qed.
End D.

(** Riemann integrals do not see single points *)
Lemma RInt_one_point (p : R) (f g : R -> R) (a b I : R) : a < b -> (forall x, x <> p -> g x = f x) -> is_RInt f a b I -> is_RInt g a b I.
Proof.
  intros Hab Hg Hf. destruct (Rlt_dec a p) as [Ha|Ha]; [destruct (Rlt_dec p b) as [Hb|Hb]|].
  - assert (ex_RInt f a b) as X by (now exists I). assert (ex_RInt f a p) as [I1 H1] by (apply (ex_RInt_Chasles_1 f a p b); [lra|exact X]). assert (ex_RInt f p b) as [I2 H2] by (apply (ex_RInt_Chasles_2 f a p b); [lra|exact X]).
    assert (I = plus I1 I2) as -> by (apply (is_RInt_unique f a b) in Hf; rewrite <- Hf; apply is_RInt_unique; now apply (is_RInt_Chasles f a p b)).
    apply (is_RInt_Chasles g a p b).
    + apply is_RInt_ext with f; [|exact H1]. intros x Hx. rewrite Rmin_left, Rmax_right in Hx by lra. symmetry. apply Hg. lra.
    + apply is_RInt_ext with f; [|exact H2]. intros x Hx. rewrite Rmin_left, Rmax_right in Hx by lra. symmetry. apply Hg. lra.
  - apply is_RInt_ext with f; [|exact Hf]. intros x Hx. rewrite Rmin_left, Rmax_right in Hx by lra. symmetry. apply Hg. lra.
  - apply is_RInt_ext with f; [|exact Hf]. intros x Hx. rewrite Rmin_left, Rmax_right in Hx by lra. symmetry. apply Hg. lra.
Qed.
Lemma RInt_points (l : list R) : forall (f g : R -> R) (a b I : R), a < b -> (forall x, ~ In x l -> g x = f x) -> is_RInt f a b I -> is_RInt g a b I.
Proof.
  induction l as [|p r IH]; intros f g a b I Hab Hg Hf.
  - apply is_RInt_ext with f; [|exact Hf]. intros x _. symmetry. apply Hg. intros [].
  - apply (IH (fun x => if Req_EM_T x p then g x else f x)); [exact Hab| |].
    + intros x Hx. destruct (Req_EM_T x p) as [_|N]; [reflexivity|]. apply Hg. intros [X|X]; [now apply N|now apply Hx].
    + apply (RInt_one_point p f); [exact Hab| |exact Hf]. intros x Hx. destruct (Req_EM_T x p); [contradiction|reflexivity].
Qed.
Lemma pp_moment z a b : a <= -1 -> 1 <= b -> is_RInt (fun v => (v + z) * pp v) a b (4 / 3 * z).
Proof.
  intros Ha Hb. replace (4 / 3 * z) with ((0 + 4 / 3 * z) + 0) by ring.
  assert (forall c d : R, c <= d -> (d <= -1 \/ 1 <= c) -> is_RInt (fun v => (v + z) * pp v) c d 0) as Z.
  { intros c d Hcd Ho. apply is_RInt_ext with (fun _ => 0). { intros x Hx. rewrite Rmin_left, Rmax_right in Hx by lra. rewrite pp_out by (destruct Ho; [left|right]; lra). symmetry. apply Rmult_0_r. }
    pose proof (is_RInt_const (V := R_NormedModule) c d 0) as C0. change (is_RInt (fun _ : R => 0) c d ((d - c) * 0)) in C0. rewrite Rmult_0_r in C0. exact C0. }
  apply (is_RInt_Chasles (V := R_NormedModule) (fun v : R => (v + z) * pp v) a 1 b (0 + 4 / 3 * z) 0); [|apply Z; lra]. apply (is_RInt_Chasles (V := R_NormedModule) (fun v : R => (v + z) * pp v) a (-1) 1 0 (4 / 3 * z)); [apply Z; lra|].
  apply is_RInt_ext with (fun v => (v + z) * (1 - v ^ 2)). { intros x Hx. rewrite Rmin_left, Rmax_right in Hx by lra. rewrite pp_in by lra. reflexivity. }
  pose (F := fun v : R => v ^ 2 / 2 - v ^ 4 / 4 + z * (v - v ^ 3 / 3)).
  replace (4 / 3 * z) with (F 1 - F (-1)) by (unfold F; field).
  apply (is_RInt_derive (V := R_CompleteNormedModule) F).
  - intros x _. unfold F. auto_derive; [exact I|]. field.
  - intros x _. apply (ex_derive_continuous (V := R_NormedModule)). auto_derive. exact I.
Qed.
Lemma pp_shift c s X : 0 < c -> c * (1 + Rabs s) <= X -> is_RInt (fun E => E * pp (E / c + s)) (- X) X (- (c ^ 2 * (4 / 3 * s))).
Proof.
  intros Hc HX. assert (1 + Rabs s <= X / c) as HXc. { apply le_div; lra. } pose proof (Rle_abs s). pose proof (Rle_abs (- s)) as Hs. rewrite Rabs_Ropp in Hs.
  assert (is_RInt (fun v => (v + - s) * pp v) (/ c * - X + s) (/ c * X + s) (4 / 3 * - s)) as M. { apply pp_moment; unfold Rdiv in HXc; lra. }
  apply is_RInt_comp_lin in M. apply (is_RInt_scal _ _ _ (c ^ 2)) in M. replace (- (c ^ 2 * (4 / 3 * s))) with (scal (c ^ 2) (4 / 3 * - s)) by (unfold scal; cbn; unfold mult; cbn; field).
  apply is_RInt_ext with (2 := M). intros x _. unfold scal. cbn. unfold mult. cbn. replace (/ c * x + s) with (x / c + s) by (unfold Rdiv; ring). set (P := pp (x / c + s)). clearbody P. field. lra.
Qed.
