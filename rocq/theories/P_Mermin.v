(** C37: limits of the Born-Mermin dielectric functions. *)
From Coq Require Import Reals List Arith Lra Lia Psatz.
From Coquelicot Require Import Complex.
From Verif Require Import M_Const M_PlasmaState M_PlasmaPhysics L_PlasmaPhysics M_Interp M_FreeFree L_FreeFree L_FreeFree2 L_FreeFree3 L_FreeFree4 L_FreeFree5 L_FreeFree6 P_FreeFree.
Import ListNotations.
Open Scope R_scope.

Lemma Cminus_neq a b : a <> b -> Cminus a b <> RtoC 0.
Proof. intros H E. apply H. transitivity (Cplus (Cminus a b) b); [ring|]. rewrite E. ring. Qed.
Lemma Ci_neq0 : Ci <> RtoC 0.
Proof. intros H. injection H as H. lra. Qed.
Lemma Cmul_neq0 a b : a <> RtoC 0 -> b <> RtoC 0 -> Cmult a b <> RtoC 0.
Proof. intros Ha Hb H. apply Cmult_0 in H. destruct H; contradiction. Qed.
Lemma mermin_fit_static nu eps p0 : nu <> RtoC 0 -> eps <> RtoC 1 -> mermin_fit 0 nu eps p0 = Some (Cplus (RtoC 1) p0).
Proof.
  intros Hn He. pose proof (Cminus_neq _ _ He) as H1. pose proof Ci_neq0 as Hi. unfold mermin_fit.
  set (q := Cminus eps (RtoC 1)) in *. clearbody q.
  assert (HD : Cplus (Cmult p0 (RtoC 0)) (Cmult (Cmult Ci nu) q) = Cmult (Cmult Ci nu) q) by ring. rewrite HD.
  rewrite cdiv_some by (apply Cmul_neq0; [now apply Cmul_neq0|assumption]).
  cbn [obind]. f_equal. f_equal. set (i := Ci) in *. clearbody i. 
  replace (Cmult (Cmult (Cplus (RtoC 0) (Cmult i nu)) p0) q) with (Cmult p0 (Cmult (Cmult i nu) q)) by ring.
  field. repeat split; assumption.
Qed.
Lemma mermin_fit_free w eps p0 : w <> 0 -> p0 <> RtoC 0 -> mermin_fit w (RtoC 0) eps p0 = Some eps.
Proof.
  intros Hw Hp. apply RtoC_neq0 in Hw. unfold mermin_fit. set (v := RtoC w) in *. clearbody v.
  rewrite cdiv_some.
  - cbn [obind]. f_equal. field. split; assumption.
  - intros H. assert (H2 : Cmult p0 v = RtoC 0) by (rewrite <- H; ring). apply Cmult_0 in H2. destruct H2; contradiction.
Qed.

(** At the elastic energy collisions have no effect: all forms but the explicit
    one give the static function of the collisionless plasma. *)
Theorem C37_static : forall u quad Fm F3 F5 Fi rewrite nu k T mu n_e n eps, 
  nu 0 = Some n -> n <> RtoC 0 -> damped_at u quad rewrite k 0 n mu T = Some eps -> eps <> RtoC 1 ->
  dielectric_function_BMA_fit u quad Fm F3 F5 Fi rewrite nu k 0 mu T n_e = dielectric_function_Dandrea u Fm F3 F5 Fi k 0 T n_e /\
  dielectric_function_BMA_interp u quad rewrite nu k 0 mu T n_e = dielectric_function_RPA_no_damping u quad true k 0 mu T.
Proof.
  intros u quad Fm F3 F5 Fi rw nu k T mu ne n eps Hnu Hn He H1.
  unfold dielectric_function_BMA_fit, dielectric_function_BMA_interp. rewrite Hnu. cbn [obind].
  assert (Z : 0 / hbar u = 0) by (unfold Rdiv; ring). rewrite Z. split.
  - destruct (dielectric_function_Dandrea _ _ _ _ _ _ _ _ _) as [e0|]; cbn [obind]; [|reflexivity].
    rewrite He. cbn [obind]. rewrite mermin_fit_static by assumption. f_equal. ring.
  - destruct (dielectric_function_RPA_no_damping _ _ _ _ _ _ _) as [e0|]; cbn [obind]; [|reflexivity].
    rewrite He. cbn [obind]. rewrite (proj1 (C37_formulae_coincide _ _ _ _)), mermin_fit_static by assumption. f_equal. ring.
Qed.
Print Assumptions C37_static.
Theorem C37_static_fortmann : forall u quad Fm F3 F5 Fi rewrite nu k T mu n_e lfc n eps xd, 
  nu 0 = Some n -> n <> RtoC 0 -> damped_at u quad rewrite k 0 n mu T = Some eps ->
  xi_lfc (xi0_from_eps_RPA u eps k) (coulomb_k u (-1) (-1) k) lfc = Some xd -> xd <> RtoC 0 ->
  susceptibility_BMA_Fortmann u quad Fm F3 F5 Fi rewrite nu k 0 mu T n_e lfc =
  obind (xi0_Dandrea u Fm F3 F5 Fi k 0 T n_e) (fun x => xi_lfc x (coulomb_k u (-1) (-1) k) lfc).
Proof.
  intros u quad Fm F3 F5 Fi rw nu k T mu ne lfc n eps xd Hnu Hn He Hx H0.
  unfold susceptibility_BMA_Fortmann. rewrite Hnu. cbn [obind]. rewrite He. cbn [obind]. unfold Vee.
  rewrite Hx. cbn [obind]. destruct (xi0_Dandrea _ _ _ _ _ _ _ _ _) as [x0|]; cbn [obind]; [|reflexivity].
  destruct (xi_lfc x0 _ _) as [xs|]; cbn [obind]; [|reflexivity].
  unfold mermin_Fortmann. rewrite cdiv_some by assumption. cbn [obind].
  assert (Z : 0 / hbar u = 0) by (unfold Rdiv; ring). rewrite Z.
  assert (R0' : Cdiv (Cmult Ci (RtoC 0)) n = RtoC 0) by (field; assumption). rewrite R0'.
  assert (D : Cminus xd (Cmult (RtoC 0) xs) = xd) by ring. rewrite D, cdiv_some by assumption. f_equal. field. assumption.
Qed.
Print Assumptions C37_static_fortmann.

(** Without collisions the other two forms are the RPA as well. *)
Theorem C37_no_collisions_full : forall u quad rewrite k T mu n_e E e0 e, E <> 0 ->
  dielectric_function_RPA_no_damping u quad true k 0 mu T = Some e0 -> e0 <> RtoC 1 ->
  damped u quad rewrite k (RtoC E) mu T = Some e ->
  dielectric_function_BMA_interp u quad rewrite (fun _ => Some (RtoC 0)) k E mu T n_e = Some e /\
  dielectric_function_BMA_full u quad rewrite (fun _ => Some (RtoC 0)) k E mu T n_e = Some e.
Proof.
  intros u quad rw k T mu ne E e0 e HE H0 Hne He. pose proof (Cminus_neq _ _ Hne) as Hp.
  assert (Hw : E / hbar u <> 0). { pose proof (hbar_pos u). unfold Rdiv. apply Rmult_integral_contrapositive. split; [assumption|]. apply Rinv_neq_0_compat. lra. }
  unfold dielectric_function_BMA_interp, dielectric_function_BMA_full, damped_at. cbn [obind].
  replace (Cplus (RtoC E) (Cmult Ci (Cmult (RtoC (hbar u)) (RtoC 0)))) with (RtoC E) by ring.
  rewrite H0, He. cbn [obind]. split.
  - rewrite (proj1 (C37_formulae_coincide _ _ _ _)). now apply mermin_fit_free.
  - rewrite (proj2 (C37_formulae_coincide _ _ _ _)) by assumption. now apply mermin_fit_free.
Qed.
Print Assumptions C37_no_collisions_full.
(** Off the elastic energy the explicit form is the interpolated one. *)
Theorem C37_full_is_interp : forall u quad rewrite nu k T mu n_e E, E <> 0 ->
  dielectric_function_RPA_no_damping u quad true k 0 mu T <> Some (RtoC 1) ->
  dielectric_function_BMA_full u quad rewrite nu k E mu T n_e = dielectric_function_BMA_interp u quad rewrite nu k E mu T n_e.
Proof.
  intros u quad rw nu k T mu ne E HE H1. unfold dielectric_function_BMA_interp, dielectric_function_BMA_full.
  assert (Hw : E / hbar u <> 0). { pose proof (hbar_pos u). unfold Rdiv. apply Rmult_integral_contrapositive. split; [assumption|]. apply Rinv_neq_0_compat. lra. }
  destruct (nu E) as [n|]; cbn [obind]; [|reflexivity].
  destruct (dielectric_function_RPA_no_damping _ _ _ _ _ _ _) as [e0|]; cbn [obind].
  - destruct (damped_at _ _ _ _ _ _ _ _) as [e|]; cbn [obind]; [|reflexivity].
    rewrite (proj1 (C37_formulae_coincide _ _ _ _)). apply C37_formulae_coincide; [assumption|].
    apply Cminus_neq. intros ->. now apply H1.
  - now destruct (damped_at _ _ _ _ _ _ _ _).
Qed.
Print Assumptions C37_full_is_interp.
(** With the default [rpa_rewrite=True] the damped function is 1 at the elastic
    energy (C113), so every form divides zero by zero there. *)
Theorem C37_elastic_default_refuted : forall u quad Fm F3 F5 Fi nu k T mu n_e lfc n,
  nu 0 = Some (RtoC n) ->
  dielectric_function_BMA_fit u quad Fm F3 F5 Fi true nu k 0 mu T n_e = None /\
  dielectric_function_BMA_interp u quad true nu k 0 mu T n_e = None /\
  dielectric_function_BMA_full u quad true nu k 0 mu T n_e = None /\
  susceptibility_BMA_Fortmann u quad Fm F3 F5 Fi true nu k 0 mu T n_e lfc = None.
Proof.
  intros u quad Fm F3 F5 Fi nu k T mu ne lfc n Hn.
  assert (HE : damped_at u quad true k 0 (RtoC n) mu T = None \/ damped_at u quad true k 0 (RtoC n) mu T = Some (RtoC 1)).
  { unfold damped_at, damped, dielectric_function_RPA_rewrite, part_rewrite. cbn zeta.
    assert (Z : red_w u k (fst (Cplus (RtoC 0) (Cmult Ci (Cmult (RtoC (hbar u)) (RtoC n))))) T = 0).
    { unfold red_w. cbn. unfold Rdiv. ring. }
    rewrite Z. destruct (Req_EM_T 0 0); [|contradiction]. destruct (Req_EM_T _ 0); cbn [obind]; [now left|right].
    f_equal. cz; ring. }
  assert (Z : 0 / hbar u = 0) by (unfold Rdiv; ring).
  assert (C11 : Cminus (RtoC 1) (RtoC 1) = RtoC 0) by ring.
  assert (Q : forall a b c, cdiv a (Cplus (Cmult b (RtoC 0)) (Cmult c (RtoC 0))) = None).
  { intros a b c. replace (Cplus (Cmult b (RtoC 0)) (Cmult c (RtoC 0))) with (RtoC 0) by ring. apply cdiv_0. }
  unfold dielectric_function_BMA_fit, dielectric_function_BMA_interp, dielectric_function_BMA_full, susceptibility_BMA_Fortmann.
  rewrite Hn. cbn [obind]. rewrite Z. split; [|split; [|split]].
  - destruct (dielectric_function_Dandrea _ _ _ _ _ _ _ _ _); cbn [obind]; [|reflexivity]. destruct HE as [HE|HE]; rewrite HE; cbn [obind]; [reflexivity|].
    unfold mermin_fit. rewrite C11, Q. reflexivity.
  - destruct (dielectric_function_RPA_no_damping _ _ _ _ _ _ _); cbn [obind]; [|reflexivity]. destruct HE as [HE|HE]; rewrite HE; cbn [obind]; [reflexivity|].
    unfold mermin_interp. rewrite C11, Q. reflexivity.
  - destruct HE as [HE|HE]; rewrite HE; cbn [obind]; [reflexivity|]. destruct (dielectric_function_RPA_no_damping _ _ _ _ _ _ _); cbn [obind]; [|reflexivity].
    unfold mermin_full. rewrite cdiv_0. reflexivity.
  - destruct HE as [HE|HE]; rewrite HE; cbn [obind]; [reflexivity|]. destruct (xi_lfc _ _ _) as [xd|] eqn:Ex; cbn [obind]; [|reflexivity].
    assert (X0 : xd = RtoC 0).
    { assert (E1 : xi0_from_eps_RPA u (RtoC 1) k = RtoC 0).
      { unfold xi0_from_eps_RPA. rewrite C11. unfold Cdiv. ring. }
      unfold xi_lfc in Ex. rewrite E1 in Ex. apply cdiv_inv in Ex. destruct Ex as [_ ->]. unfold Cdiv. ring. }
    rewrite X0. clear Ex X0. destruct (xi0_Dandrea _ _ _ _ _ _ _ _ _) as [x0|]; cbn [obind]; [|reflexivity].
    destruct (xi_lfc x0 _ _) as [xs|]; cbn [obind]; [|reflexivity].
    unfold mermin_Fortmann. destruct (cdiv (Cmult Ci (RtoC 0)) (RtoC n)) as [r|] eqn:Er; cbn [obind]; [|reflexivity].
    apply cdiv_inv in Er. destruct Er as [_ ->].
    match goal with |- cdiv _ ?b = _ => replace b with (RtoC 0) by (unfold Cdiv; ring) end. apply cdiv_0.
Qed.
Print Assumptions C37_elastic_default_refuted.

(** The hypotheses hold with a quadrature that always returns one. *)
Lemma one_quad u k T mu E : 0 < k -> 0 < T ->
  exists e, damped u (fun _ _ _ => Some 1) false k E mu T = Some e /\ e <> RtoC 1.
Proof.
  intros Hk HT. unfold damped, dielectric_function_RPA, real_RPA, imag_RPA. cbn zeta. cbn [obind].
  set (A := _ + _). assert (HA : 1 < A).
  { unfold A. pose proof (hbar_pos u). pose proof (e_pos u). pose proof (eps0_pos u). pose proof (m_e_pos u). pose proof (kB_pos u). pose proof PI_RGT_0.
    assert (0 < thermal_unit u T).
    { unfold thermal_unit. apply sqrt_lt_R0. apply Rdiv_lt_0_compat; [|now apply Rmult_lt_0_compat]. apply Rdiv_lt_0_compat; [now apply pow_lt|lra]. }
    match goal with |- _ < 1 + ?x => assert (0 < x); [|lra] end.
    apply Rmult_lt_0_compat.
    - apply Rdiv_lt_0_compat; [apply Rmult_lt_0_compat; [now apply pow_lt|assumption]|]. assert (0 < PI ^ 2) by (now apply pow_lt). assert (0 < hbar u ^ 2) by (now apply pow_lt). assert (0 < k ^ 3) by (now apply pow_lt).
      apply Rmult_lt_0_compat; [|assumption]. apply Rmult_lt_0_compat; [|assumption]. apply Rmult_lt_0_compat; [lra|assumption].
    - rewrite Rmult_1_l. apply Rdiv_lt_0_compat; [lra|]. now apply pow_lt. }
  destruct (Req_EM_T _ 0); cbn [obind]; (eexists; split; [reflexivity|]); intros H; injection H as H _; lra.
Qed.
Example C37_static_ex : forall u Fm F3 F5 Fi, 
  dielectric_function_BMA_fit u (fun _ _ _ => Some 1) Fm F3 F5 Fi false (fun _ => Some (RtoC 3)) 2 0 5 1 7 = dielectric_function_Dandrea u Fm F3 F5 Fi 2 0 1 7.
Proof.
  intros u Fm F3 F5 Fi. destruct (one_quad u 2 1 5 (Cplus (RtoC 0) (Cmult Ci (Cmult (RtoC (hbar u)) (RtoC 3)))) ltac:(lra) ltac:(lra)) as (e & He & H1).
  apply (C37_static u (fun _ _ _ => Some 1) Fm F3 F5 Fi false (fun _ => Some (RtoC 3)) 2 1 5 7 (RtoC 3) e eq_refl); [apply RtoC_neq0; lra|exact He|exact H1].
Qed.
Example C37_static_form_ex : mermin_interp 0 (RtoC 3) (RtoC 5) (RtoC 7) = Some (RtoC 8).
Proof.
  rewrite (proj1 (C37_formulae_coincide _ _ _ _)), mermin_fit_static.
  - f_equal. rewrite <- RtoC_plus. f_equal. lra.
  - apply RtoC_neq0. lra.
  - intros H. injection H as H. lra.
Qed.
