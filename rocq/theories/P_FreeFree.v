(** Theorems about the free-free spectra. *)
From Coq Require Import Reals List Arith Lra Lia Psatz FunctionalExtensionality.
From Coquelicot Require Import Complex.
From Verif Require Import M_Const M_PlasmaState M_PlasmaPhysics L_PlasmaPhysics M_Interp L_Interp M_Instrument L_Instrument
  M_FreeFree L_FreeFree L_FreeFree2 L_FreeFree3 L_FreeFree4 L_FreeFree5 L_FreeFree6.
Import ListNotations.
Open Scope R_scope.

Notation quadrature := (R -> option R -> (R -> option R) -> option R).

(** Detailed balance in the code's sign convention (the argument is minus the
    energy gained); "both nan" included. *)
Definition detailed_balance (u : consts) (T : R) (S : R -> option R) : Prop :=
  forall E, S (- E) = option_map (fun s => exp (E / (kB u * T)) * s) (S E).

(** ** C34: both fluctuation-dissipation routes *)
Theorem C34_routes_agree :
  forall u k T n_e E eps, k <> 0 -> n_e <> 0 ->
    S0ee_from_dielectric_func_FDT u k T n_e E eps =
    obind (xi_lfc (xi0_from_eps_RPA u eps k) (coulomb_k u (-1) (-1) k) (RtoC 0)) (S0ee_from_susceptibility_FDT u k T n_e E).
Proof.
  intros u k T n E eps Hk Hn. pose proof (V_pos u k Hk) as HV.
  unfold S0ee_from_dielectric_func_FDT, S0ee_from_susceptibility_FDT, xi_lfc.
  assert (Hd : Cminus (RtoC 1) (Cmult (Cmult (RtoC (coulomb_k u (-1) (-1) k)) (Cminus (RtoC 1) (RtoC 0))) (xi0_from_eps_RPA u eps k)) = eps).
  { unfold xi0_from_eps_RPA, Vee. set (v := coulomb_k u (-1) (-1) k) in *. clearbody v.
    cz; field; lra. }
  rewrite Hd. clear Hd. pose proof (e_pos u) as He. pose proof (eps0_pos u) as H0. pose proof PI_RGT_0.
  unfold qdiv. destruct (Req_EM_T _ 0) as [Hz|Hz]; cbn [obind]; [destruct (cdiv _ _); reflexivity|].
  unfold cdiv. destruct (Ceq_dec eps (RtoC 0)) as [Hp|Hp]; cbn [obind]; [reflexivity|]. f_equal.
  assert (Hs : snd (Cmult (Cdiv (xi0_from_eps_RPA u eps k) eps) (RtoC (coulomb_k u (-1) (-1) k))) = snd (Cdiv (RtoC 1) eps)).
  { unfold xi0_from_eps_RPA, Vee. set (v := coulomb_k u (-1) (-1) k) in *. clearbody v.
    replace (Cmult (Cdiv (Cdiv (Cminus (RtoC 1) eps) (RtoC v)) eps) (RtoC v)) with (Cminus (Cdiv (RtoC 1) eps) (RtoC 1)).
    - unfold Cminus, Cplus, Copp, RtoC. cbn [snd]. ring.
    - field. split; ((apply RtoC_neq0; lra) || exact Hp). }
  rewrite Hs. set (b := 1 - exp _) in *. clearbody b. set (s := snd _). clearbody s. unfold coulomb_k. field. lra.
Qed.
Print Assumptions C34_routes_agree.
(** the spectrum of the fit is the spectrum of its dielectric function *)
Theorem C34_fit :
  forall u Fm F3 F5 Fi k T n_e E, k <> 0 -> n_e <> 0 ->
    S0_ee_RPA_Dandrea u Fm F3 F5 Fi k T n_e E (RtoC 0) =
    obind (dielectric_function_Dandrea u Fm F3 F5 Fi k (- E) T n_e) (S0ee_from_dielectric_func_FDT u k T n_e (- E)).
Proof.
  intros u Fm F3 F5 Fi k T n E Hk Hn. unfold S0_ee_RPA_Dandrea, dielectric_function_Dandrea.
  destruct (xi0_Dandrea _ _ _ _ _ _ _ _ _) as [x|]; cbn [obind]; [|reflexivity].
  rewrite C34_routes_agree by assumption. rewrite v_k_V by assumption. pose proof (V_pos u k Hk).
  replace (xi0_from_eps_RPA u _ k) with x; [reflexivity|]. unfold xi0_from_eps_RPA, Vee.
  set (v := coulomb_k u (-1) (-1) k) in *. clearbody v. cz; field; lra.
Qed.
Print Assumptions C34_fit.
Example C34_ex : S0ee_from_dielectric_func_FDT unit_consts 1 1 1 1 (0, 1) = Some (/ (1 - exp (- (1))) * / PI).
Proof.
  unfold S0ee_from_dielectric_func_FDT. cbn [hbar kB eps0 e_ch unit_consts].
  replace (1 / (1 * 1)) with 1 by field. pose proof (exp_increasing (- (1)) 0 ltac:(lra)) as H. rewrite exp_0 in H.
  rewrite qdiv_some by lra. cbn [obind]. rewrite cdiv_some by (intros E; injection E; lra). cbn [obind]. f_equal.
  unfold Cdiv, Cinv, Cmult, RtoC. cbn [fst snd]. pose proof PI_RGT_0. field. lra.
Qed.

(** ** C35: detailed balance *)
Theorem C35_fit :
  forall u Fm F3 F5 Fi k T n_e lfc, 0 < T ->
    detailed_balance u T (fun E => S0_ee_RPA_Dandrea u Fm F3 F5 Fi k T n_e E (RtoC lfc)).
Proof.
  intros u Fm F3 F5 Fi k T n g HT E. unfold S0_ee_RPA_Dandrea. cbn zeta. rewrite Ropp_involutive.
  apply (balance_xi u k T n E (v_k u k) (RtoC g) (fun E => xi0_Dandrea u Fm F3 F5 Fi k E T n)); [exact HT|apply Cconj_R|].
  rewrite xi0_Dandrea_sym, oconj_oconj. reflexivity.
Qed.
Print Assumptions C35_fit.
Theorem C35_no_damping :
  forall u quad unsave k T n_e mu lfc, 0 < T ->
    detailed_balance u T (fun E => S0_ee_RPA_no_damping u quad unsave k T n_e E mu (RtoC lfc)).
Proof.
  intros u quad b k T n mu g HT E. unfold S0_ee_RPA_no_damping. cbn zeta. rewrite Ropp_involutive.
  apply (balance_eps u k T n E (coulomb_k u (-1) (-1) k) (RtoC g) (fun E => dielectric_function_RPA_no_damping u quad b k E mu T)); [exact HT|apply Cconj_R|].
  rewrite no_damping_sym, oconj_oconj. reflexivity.
Qed.
Print Assumptions C35_no_damping.
(** whenever the quadrature respects the scaling of the integrand *)
Theorem C35_damped :
  forall u quad rewrite k T n_e mu lfc, quad_scales quad -> 0 < T ->
    detailed_balance u T (fun E => S0_ee_RPA u quad rewrite k T n_e E mu (RtoC lfc)).
Proof.
  intros u quad b k T n mu g Hq HT E. unfold S0_ee_RPA. cbn zeta. rewrite Ropp_involutive.
  apply (balance_eps u k T n E (v_k u k) (RtoC g) (fun E => damped u quad b k (RtoC E) mu T)); [exact HT|apply Cconj_R|].
  rewrite damped_real_sym, oconj_oconj by assumption. reflexivity.
Qed.
Print Assumptions C35_damped.
(** whenever the quadrature of an even function from 0 is odd *)
Theorem C35_salpeter :
  forall u quad k T n_e lfc, quad_reflects quad -> 0 < T ->
    detailed_balance u T (fun E => S0_ee_Salpeter u quad k T n_e E (RtoC lfc)).
Proof.
  intros u quad k T n g Hq HT E. unfold S0_ee_Salpeter. cbn zeta. rewrite Ropp_involutive.
  apply (balance_eps u k T n E (v_k u k) (RtoC g) (fun E => dielectric_function_salpeter u quad k T n E)); [exact HT|apply Cconj_R|].
  rewrite salpeter_sym, oconj_oconj by assumption. reflexivity.
Qed.
Print Assumptions C35_salpeter.
Example C35_ex : exists s, 0 < s /\
  S0_ee_RPA_Dandrea unit_consts Fbig Fzero Fzero (fun x => x) 1 (1 / 2) n1 (1 / 2) (RtoC (1 / 3)) = Some s /\
  S0_ee_RPA_Dandrea unit_consts Fbig Fzero Fzero (fun x => x) 1 (1 / 2) n1 (- (1 / 2)) (RtoC (1 / 3)) = Some (exp 1 * s).
Proof.
  assert (exists s, S0_ee_RPA_Dandrea unit_consts Fbig Fzero Fzero (fun x => x) 1 (1 / 2) n1 (1 / 2) (RtoC (1 / 3)) = Some s /\ 0 < s) as (s & Hs & H0).
  { destruct (xi0_defined 1 (- (1 / 2)) (fun x => x)) as [x Hx]. unfold S0_ee_RPA_Dandrea. rewrite Hx. cbn [obind].
    pose proof (V_pos unit_consts 1 ltac:(lra)). pose proof n1_pos. apply positive_xi; try assumption; try lra; [rewrite v_k_V; lra|].
    apply (xi0_Dandrea_imag unit_consts Fbig Fzero Fzero (fun x => x) 1 (- (1 / 2)) (1 / 2) n1); try assumption; lra. }
  exists s. split; [exact H0|]. split; [exact Hs|].
  rewrite (C35_fit unit_consts Fbig Fzero Fzero (fun x => x) 1 (1 / 2) n1 (1 / 3) ltac:(lra) (1 / 2)), Hs. cbn.
  replace (1 / 2 / (1 * (1 / 2))) with 1 by field. reflexivity.
Qed.

(** ** C36: positive spectra *)
Theorem C36_fit :
  forall u Fm F3 F5 Fi k T n_e lfc E x, 0 < k -> 0 < T -> 0 < n_e -> E <> 0 ->
    xi0_Dandrea u Fm F3 F5 Fi k (- E) T n_e = Some x ->
    exists s, S0_ee_RPA_Dandrea u Fm F3 F5 Fi k T n_e E (RtoC lfc) = Some s /\ 0 < s.
Proof.
  intros u Fm F3 F5 Fi k T n g E x Hk HT Hn HE Hx. unfold S0_ee_RPA_Dandrea. rewrite Hx. cbn [obind].
  pose proof (V_pos u k ltac:(lra)). apply positive_xi; try assumption; try lra; [rewrite v_k_V; lra|].
  apply (xi0_Dandrea_imag u Fm F3 F5 Fi k (- E) T n); try assumption. lra.
Qed.
Print Assumptions C36_fit.
Theorem C36_no_damping :
  forall u quad unsave k T n_e mu lfc E e, 0 < k -> 0 < T -> 0 < n_e -> E <> 0 ->
    dielectric_function_RPA_no_damping u quad unsave k (- E) mu T = Some e ->
    exists s, S0_ee_RPA_no_damping u quad unsave k T n_e E mu (RtoC lfc) = Some s /\ 0 < s.
Proof.
  intros u quad b k T n mu g E e Hk HT Hn HE He. unfold S0_ee_RPA_no_damping. rewrite He. cbn [obind].
  pose proof (V_pos u k ltac:(lra)) as HV. apply positive_xi; try assumption; try lra.
  rewrite xi0_imag by lra. unfold dielectric_function_RPA_no_damping in He. apply obind_some in He. destruct He as (r & _ & He).
  assert (snd e = imag_no_damping u k (- E) mu T) as -> by (injection He as <-; reflexivity).
  pose proof (imag_no_damping_sign u k (- E) mu T Hk HT ltac:(lra)) as H.
  replace (- E * (- imag_no_damping u k (- E) mu T / coulomb_k u (-1) (-1) k)) with
    (- (- E * imag_no_damping u k (- E) mu T / coulomb_k u (-1) (-1) k)) by (field; lra).
  apply Ropp_lt_gt_0_contravar. now apply Rdiv_lt_0_compat.
Qed.
Print Assumptions C36_no_damping.
Theorem C36_salpeter :
  forall u quad k T n_e lfc E e, 0 < k -> 0 < T -> 0 < n_e -> E <> 0 ->
    dielectric_function_salpeter u quad k T n_e (- E) = Some e ->
    exists s, S0_ee_Salpeter u quad k T n_e E (RtoC lfc) = Some s /\ 0 < s.
Proof.
  intros u quad k T n g E e Hk HT Hn HE He. unfold S0_ee_Salpeter. rewrite He. cbn [obind].
  pose proof (V_pos u k ltac:(lra)) as HV. apply positive_xi; try assumption; try lra; [rewrite v_k_V; lra|].
  rewrite xi0_imag by lra. pose proof (salpeter_imag u quad k T n (- E) e Hk HT Hn ltac:(lra) He) as H.
  replace (- E * (- snd e / coulomb_k u (-1) (-1) k)) with (- (- E * snd e / coulomb_k u (-1) (-1) k)) by (field; lra).
  apply Ropp_lt_gt_0_contravar. now apply Rdiv_lt_0_compat.
Qed.
Print Assumptions C36_salpeter.
Example C36_fit_ex : forall k E, 0 < k -> E <> 0 -> exists s,
  S0_ee_RPA_Dandrea unit_consts Fbig Fzero Fzero (fun x => x) k (1 / 2) n1 E (RtoC (1 / 2)) = Some s /\ 0 < s.
Proof.
  intros k E Hk HE. destruct (xi0_defined k (- E) (fun x => x)) as [x Hx].
  apply (C36_fit unit_consts Fbig Fzero Fzero (fun x => x) k (1 / 2) n1 (1 / 2) E x); try assumption; [lra|apply n1_pos].
Qed.
(** At the elastic energy every one of these spectra is nan, in every plasma *)
Theorem C36_elastic_refuted :
  forall u quad Fm F3 F5 Fi k T n_e mu lfc b, 0 < T ->
    S0_ee_RPA_Dandrea u Fm F3 F5 Fi k T n_e 0 lfc = None /\
    S0_ee_RPA_no_damping u quad b k T n_e 0 mu lfc = None /\
    S0_ee_RPA u quad b k T n_e 0 mu lfc = None /\
    S0_ee_Salpeter u quad k T n_e 0 lfc = None.
Proof.
  intros u quad Fm F3 F5 Fi k T n mu g b HT.
  assert (H : forall (f : option C) (h : C -> option C), obind f (fun e => obind (h e) (fun y => S0ee_from_susceptibility_FDT u k T n (- 0) y)) = None).
  { intros f h. destruct f as [e|]; [|reflexivity]. cbn [obind]. destruct (h e); [|reflexivity]. cbn [obind]. rewrite Ropp_0. now apply fdt_zero. }
  unfold S0_ee_RPA_Dandrea, S0_ee_RPA_no_damping, S0_ee_RPA, S0_ee_Salpeter. cbn zeta.
  split; [apply (H _ (fun e => xi_lfc e (v_k u k) g))|].
  split; [apply (H _ (fun e => xi_lfc (xi0_from_eps_RPA u e k) (coulomb_k u (-1) (-1) k) g))|].
  split; apply (H _ (fun e => xi_lfc (xi0_from_eps_RPA u e k) (v_k u k) g)).
Qed.
Print Assumptions C36_elastic_refuted.
(** The quantum-corrected Salpeter form is also nan at the recoil energy *)
Theorem C36_recoil_refuted :
  forall u quad k T n_e lfc, 0 < k -> 0 < T ->
    S0_ee_Salpeter u quad k T n_e (hbar u ^ 2 * k ^ 2 / (2 * m_e u)) lfc = None /\
    S0_ee_Salpeter u quad k T n_e (- (hbar u ^ 2 * k ^ 2 / (2 * m_e u))) lfc = None.
Proof.
  intros u quad k T n g Hk HT.
  assert (Hv : 0 < sqrt (kB u * T / m_e u)).
  { apply sqrt_lt_R0, Rdiv_lt_0_compat; [now apply kT_pos|apply m_e_pos]. }
  assert (Hs : 0 < sqrt 2) by (apply sqrt_lt_R0; lra). pose proof (hbar_pos u). pose proof (m_e_pos u).
  assert (Hx : hbar u ^ 2 * k ^ 2 / (2 * m_e u) / hbar u / (sqrt 2 * k * sqrt (kB u * T / m_e u)) =
               hbar u * k / (2 * sqrt 2 * m_e u * sqrt (kB u * T / m_e u))) by (field; lra).
  assert (Hy : - (hbar u ^ 2 * k ^ 2 / (2 * m_e u)) / hbar u / (sqrt 2 * k * sqrt (kB u * T / m_e u)) =
               - (hbar u * k / (2 * sqrt 2 * m_e u * sqrt (kB u * T / m_e u)))) by (field; lra).
  unfold S0_ee_Salpeter, dielectric_function_salpeter. cbn zeta. rewrite Ropp_involutive, Hx, Hy.
  set (q := hbar u * k / _). clearbody q. split.
  - replace (- q + q) with 0 by ring. destruct (W_salpeter _ 0) as [w|]; cbn [obind]; [|reflexivity].
    destruct (W_salpeter _ _) as [w'|]; cbn [obind]; [|reflexivity]. rewrite cdiv_0. reflexivity.
  - replace (q - q) with 0 by ring. destruct (W_salpeter _ (q + q)) as [w|]; cbn [obind]; [|reflexivity].
    destruct (W_salpeter _ _) as [w'|]; cbn [obind]; [|reflexivity].
    destruct (cdiv _ (RtoC (q + q))); cbn [obind]; [|reflexivity]. rewrite cdiv_0. reflexivity.
Qed.
Print Assumptions C36_recoil_refuted.

(** ** C37: Born-Mermin *)
Theorem C37_formulae_coincide :
  forall w nu eps p0, mermin_interp w nu eps p0 = mermin_fit w nu eps p0 /\
    (w <> 0 -> p0 <> RtoC 0 -> mermin_full w nu eps p0 = mermin_fit w nu eps p0).
Proof. intros. split; [apply mermin_interp_fit|apply mermin_full_fit]. Qed.
Print Assumptions C37_formulae_coincide.
(** correcting before or after the Mermin step gives the same spectrum *)
Theorem C37_local_field :
  forall u quad Fm F3 F5 Fi rewrite nu k T mu n_e E lfc a b, k <> 0 ->
    S0_ee_BMA u (dielectric_function_BMA_fit u quad Fm F3 F5 Fi rewrite) nu k T mu n_e E lfc = Some a ->
    S0_ee_BMA_Fortmann u quad Fm F3 F5 Fi rewrite nu k T mu n_e E lfc = Some b -> a = b.
Proof.
  intros u quad Fm F3 F5 Fi rw nu k T mu n E g a b Hk Ha Hb. pose proof (V_pos u k Hk) as HV.
  unfold S0_ee_BMA, S0_ee_BMA_Fortmann, susceptibility_BMA_Fortmann, dielectric_function_BMA_fit, dielectric_function_Dandrea in *.
  cbn zeta in *. rewrite v_k_V in Ha by assumption.
  destruct (nu (- E)) as [x|]; cbn [obind] in *; [|discriminate].
  destruct (xi0_Dandrea u Fm F3 F5 Fi k 0 T n) as [xs|]; cbn [obind] in *; [|discriminate].
  destruct (damped_at u quad rw k (- E) x mu T) as [e|]; cbn [obind] in *; [|discriminate].
  unfold xi0_from_eps_RPA, Vee in Ha, Hb. set (v := coulomb_k u (-1) (-1) k) in *.
  set (xd := Cdiv (Cminus (RtoC 1) e) (RtoC v)) in *.
  assert (He : e = Cminus 1 (Cmult v xd)) by (unfold xd; clearbody v; cz; field; lra).
  assert (Hp : Cminus (Cminus (RtoC 1) (Cmult (RtoC v) xs)) (RtoC 1) = Copp (Cmult v xs)) by ring.
  rewrite Hp, He in Ha. clear He Hp. clearbody xd. clearbody v.
  destruct (xi_lfc xd v g) as [yd|] eqn:Ed; cbn [obind] in *; [|discriminate].
  destruct (xi_lfc xs v g) as [ys|] eqn:Es; cbn [obind] in *; [|discriminate].
  apply obind_some in Ha. destruct Ha as (m & Hm & Ha). apply obind_some in Ha. destruct Ha as (y & Hy & Ha).
  apply obind_some in Hb. destruct Hb as (y' & Hy' & Hb).
  assert (Hn : x <> RtoC 0).
  { intros ->. unfold mermin_Fortmann in Hy'. rewrite cdiv_0 in Hy'. discriminate. }
  assert (Hd : Cminus 1 (Cmult (Cmult (RtoC v) (Cminus 1 g)) xd) <> RtoC 0) by (unfold xi_lfc in Ed; apply cdiv_inv in Ed; apply Ed).
  assert (Hs : Cminus 1 (Cmult (Cmult (RtoC v) (Cminus 1 g)) xs) <> RtoC 0) by (unfold xi_lfc in Es; apply cdiv_inv in Es; apply Es).
  assert (Hq : Cplus (Cmult xs (RtoC (- E / hbar u))) (Cmult (Cmult Ci x) xd) <> RtoC 0).
  { intros Hq. unfold mermin_fit in Hm. apply obind_some in Hm. destruct Hm as (m' & Hm' & _). apply cdiv_inv in Hm'. apply (proj1 Hm').
    transitivity (Cmult (RtoC (- v)) (Cplus (Cmult xs (RtoC (- E / hbar u))) (Cmult (Cmult Ci x) xd))); [|rewrite Hq; ring].
    rewrite RtoC_opp. ring. }
  pose proof (Fortmann_after v g x xd xs (- E / hbar u) ltac:(lra) Hn Hd Hs Hq) as HF.
  rewrite Hm, Ed, Es in HF. cbn [obind] in HF. rewrite Hy, Hy' in HF. congruence.
Qed.
Print Assumptions C37_local_field.
(** without local field correction the two dielectric functions are the same *)
Theorem C37_fortmann_dielectric :
  forall u quad Fm F3 F5 Fi rewrite nu k T mu n_e E a b, k <> 0 ->
    dielectric_function_BMA_fit u quad Fm F3 F5 Fi rewrite nu k E mu T n_e = Some a ->
    dielectric_function_BMA_Fortmann u quad Fm F3 F5 Fi rewrite nu k E mu T n_e (RtoC 0) = Some b -> a = b.
Proof.
  intros u quad Fm F3 F5 Fi rw nu k T mu n E a b Hk Ha Hb. pose proof (V_pos u k Hk) as HV.
  unfold dielectric_function_BMA_Fortmann, susceptibility_BMA_Fortmann, dielectric_function_BMA_fit, dielectric_function_Dandrea in *.
  destruct (nu E) as [x|]; cbn [obind] in *; [|discriminate].
  destruct (xi0_Dandrea u Fm F3 F5 Fi k 0 T n) as [xs|]; cbn [obind] in *; [|discriminate].
  destruct (damped_at u quad rw k E x mu T) as [e|]; cbn [obind] in *; [|discriminate].
  unfold xi0_from_eps_RPA, Vee in Ha, Hb. set (v := coulomb_k u (-1) (-1) k) in *.
  set (xd := Cdiv (Cminus (RtoC 1) e) (RtoC v)) in *.
  assert (He : e = Cminus 1 (Cmult v xd)) by (unfold xd; clearbody v; cz; field; lra).
  assert (Hp : Cminus (Cminus (RtoC 1) (Cmult (RtoC v) xs)) (RtoC 1) = Copp (Cmult v xs)) by ring.
  rewrite Hp, He in Ha. clear He Hp. clearbody xd. clearbody v.
  destruct (xi_lfc xd v (RtoC 0)) as [yd|] eqn:Ed; cbn [obind] in *; [|discriminate].
  destruct (xi_lfc xs v (RtoC 0)) as [ys|] eqn:Es; cbn [obind] in *; [|discriminate].
  apply obind_some in Hb. destruct Hb as (y & Hy & Hb).
  assert (Hn : x <> RtoC 0).
  { intros ->. unfold mermin_Fortmann in Hy. rewrite cdiv_0 in Hy. discriminate. }
  assert (Hd : Cminus 1 (Cmult (Cmult (RtoC v) (Cminus 1 (RtoC 0))) xd) <> RtoC 0) by (unfold xi_lfc in Ed; apply cdiv_inv in Ed; apply Ed).
  assert (Hs : Cminus 1 (Cmult (Cmult (RtoC v) (Cminus 1 (RtoC 0))) xs) <> RtoC 0) by (unfold xi_lfc in Es; apply cdiv_inv in Es; apply Es).
  assert (Hq : Cplus (Cmult xs (RtoC (E / hbar u))) (Cmult (Cmult Ci x) xd) <> RtoC 0).
  { intros Hq. unfold mermin_fit in Ha. apply obind_some in Ha. destruct Ha as (m' & Hm' & _). apply cdiv_inv in Hm'. apply (proj1 Hm').
    transitivity (Cmult (RtoC (- v)) (Cplus (Cmult xs (RtoC (E / hbar u))) (Cmult (Cmult Ci x) xd))); [|rewrite Hq; ring].
    rewrite RtoC_opp. ring. }
  pose proof (Fortmann_after v (RtoC 0) x xd xs (E / hbar u) ltac:(lra) Hn Hd Hs Hq) as HF.
  rewrite Ha, Ed, Es in HF. cbn [obind] in HF. rewrite Hy in HF. unfold xi_lfc in HF. apply cdiv_inv in HF. destruct HF as [HF1 HF2].
  apply cdiv_inv in Hb. destruct Hb as [Hb1 ->]. rewrite HF2 in Hb1 |- *. clear HF2.
  assert (HV' : RtoC v <> RtoC 0) by (apply RtoC_neq0; lra). set (Vc := RtoC v) in *. clearbody Vc.
  assert (Ha0 : a <> RtoC 0).
  { intros Ha0. apply HF1. rewrite Ha0. field. assumption. }
  field. repeat split; try assumption.
  all: change (R1, R0) with (RtoC 1).
  all: intros Hz; first [now (apply Ha0; rewrite <- Hz; ring) | apply C1_neq0; rewrite <- Hz; ring].
Qed.
Print Assumptions C37_fortmann_dielectric.
(** without collisions both become the RPA *)
Theorem C37_no_collisions :
  forall u quad Fm F3 F5 Fi rewrite k T mu n_e E e0 e, E <> 0 ->
    dielectric_function_Dandrea u Fm F3 F5 Fi k 0 T n_e = Some e0 -> e0 <> RtoC 1 ->
    damped u quad rewrite k (RtoC E) mu T = Some e ->
    dielectric_function_BMA_fit u quad Fm F3 F5 Fi rewrite (fun _ => Some (RtoC 0)) k E mu T n_e = Some e.
Proof.
  intros u quad Fm F3 F5 Fi rw k T mu n E e0 e HE H0 Hne He. unfold dielectric_function_BMA_fit, damped_at. cbn [obind].
  rewrite H0. cbn [obind]. replace (Cplus (RtoC E) (Cmult Ci (Cmult (RtoC (hbar u)) (RtoC 0)))) with (RtoC E) by ring.
  rewrite He. cbn [obind]. unfold mermin_fit.
  assert (Hw : E / hbar u <> 0). { pose proof (hbar_pos u). intros H1. apply HE. apply (f_equal (fun y => y * hbar u)) in H1.
    unfold Rdiv in H1. rewrite Rmult_assoc, Rinv_l in H1 by lra. lra. }
  apply RtoC_neq0 in Hw. assert (Hp : Cminus e0 (RtoC 1) <> RtoC 0).
  { intros H1. apply Hne. transitivity (Cplus (Cminus e0 (RtoC 1)) (RtoC 1)); [ring|]. rewrite H1. ring. }
  set (w := RtoC (E / hbar u)) in *. clearbody w. set (p := Cminus e0 (RtoC 1)) in *. clearbody p.
  rewrite cdiv_some.
  - cbn [obind]. f_equal. field.
    split; assumption.
  - intros H1. assert (H2 : Cmult p w = RtoC 0) by (rewrite <- H1; ring). apply Cmult_0 in H2. destruct H2; contradiction.
Qed.
Print Assumptions C37_no_collisions.
(** the Fortmann form is nan without collisions *)
Theorem C37_no_collisions_refuted :
  forall u quad Fm F3 F5 Fi rewrite k T mu n_e E lfc,
    susceptibility_BMA_Fortmann u quad Fm F3 F5 Fi rewrite (fun _ => Some (RtoC 0)) k E mu T n_e lfc = None.
Proof.
  intros. unfold susceptibility_BMA_Fortmann. cbn [obind]. destruct (damped_at _ _ _ _ _ _ _ _); cbn [obind]; [|reflexivity].
  destruct (xi_lfc _ _ _); cbn [obind]; [|reflexivity]. destruct (xi0_Dandrea _ _ _ _ _ _ _ _ _); cbn [obind]; [|reflexivity].
  destruct (xi_lfc _ _ _); cbn [obind]; [|reflexivity]. unfold mermin_Fortmann. rewrite cdiv_0. reflexivity.
Qed.
Print Assumptions C37_no_collisions_refuted.
(** at the elastic energy the explicit formula is nan while the other two are not *)
Theorem C37_elastic_refuted :
  exists nu eps p0, mermin_full 0 nu eps p0 = None /\ mermin_fit 0 nu eps p0 = Some (Cplus (RtoC 1) p0).
Proof.
  exists (RtoC 1), (RtoC 2), (RtoC 3). split; [unfold mermin_full; now rewrite cdiv_0|].
  unfold mermin_fit. rewrite cdiv_some.
  - cbn [obind]. f_equal. cz; field; lra.
  - intros H. injection H as _ H. cbn in H. lra.
Qed.
Print Assumptions C37_elastic_refuted.
Example C37_ex : mermin_full 1 (RtoC 1) (RtoC 2) (RtoC 1) = Some (RtoC 2).
Proof.
  rewrite (proj2 (C37_formulae_coincide 1 (RtoC 1) (RtoC 2) (RtoC 1))) by (lra || apply C1_neq0).
  unfold mermin_fit. rewrite cdiv_some; [cbn [obind]; f_equal; cz; field; lra|].
  intros H. injection H as H _. cbn in H. lra.
Qed.

(** ** C38: the collision frequency *)
Theorem C38_interpolated :
  forall u (quad : quadrature) eps S_ii V_eiS Zf kkt E_min E_max points E, 0 < E_min < E_max -> (2 <= points)%nat ->
    collision_frequency_interp u quad eps S_ii V_eiS Zf kkt E_min E_max points (- E) =
    option_map Cconj (collision_frequency_interp u quad eps S_ii V_eiS Zf kkt E_min E_max points E).
Proof. intros. now apply collision_interp_sym. Qed.
Print Assumptions C38_interpolated.
(** computed at every energy, with either dielectric function *)
Theorem C38_full :
  forall u quad Fm F3 F5 Fi S_ii V_eiS Zf mu T n_e E, quad_scales quad ->
    collision_frequency u quad (fun q E => dielectric_function_RPA_no_damping u quad true q E mu T) S_ii V_eiS Zf (- E) =
    option_map Cconj (collision_frequency u quad (fun q E => dielectric_function_RPA_no_damping u quad true q E mu T) S_ii V_eiS Zf E) /\
    collision_frequency u quad (fun q E => dielectric_function_Dandrea u Fm F3 F5 Fi q E T n_e) S_ii V_eiS Zf (- E) =
    option_map Cconj (collision_frequency u quad (fun q E => dielectric_function_Dandrea u Fm F3 F5 Fi q E T n_e) S_ii V_eiS Zf E).
Proof.
  intros u quad Fm F3 F5 Fi S V Zf mu T n E Hq. split; apply collision_sym; try assumption; intros q E'.
  - apply no_damping_sym.
  - unfold dielectric_function_Dandrea. rewrite xi0_Dandrea_sym. destruct (xi0_Dandrea _ _ _ _ _ _ _ _ _); cbn; [|reflexivity].
    f_equal. rewrite Cconj_minus, Cconj_mult, !Cconj_R. reflexivity.
Qed.
Print Assumptions C38_full.
(** resampled on the energies of the spectrum, if these are symmetric *)
Theorem C38_resampled :
  forall u quad S_ii V_eiS Zf mu T Es E, quad_scales quad -> lmin Es = - lmax Es -> 0 < lmax Es ->
    resampled u quad (fun q E => dielectric_function_RPA_no_damping u quad true q E mu T) S_ii V_eiS Zf Es (- E) =
    option_map Cconj (resampled u quad (fun q E => dielectric_function_RPA_no_damping u quad true q E mu T) S_ii V_eiS Zf Es E).
Proof. intros. apply resampled_sym; try assumption. intros. apply no_damping_sym. Qed.
Print Assumptions C38_resampled.
Example C38_ex : let c := coll_prefactor unit_consts 1 in
  let nu := collision_frequency_interp unit_consts midpoint (fun q E => Some (1 + E ^ 2, E)) (fun _ => 1) (fun _ => 1) 1 None 1 2 2 in
  nu 1 = Some (c, - c) /\ nu (- (1)) = Some (c, c).
Proof.
  cbv zeta.
  assert (H : collision_frequency_interp unit_consts midpoint (fun q E => Some (1 + E ^ 2, E)) (fun _ => 1) (fun _ => 1) 1 None 1 2 2 1 =
    Some (coll_prefactor unit_consts 1, - coll_prefactor unit_consts 1)).
  { unfold collision_frequency_interp.
    assert (Hl : linspace 1 2 2 = [1; 2]) by (unfold linspace; cbn; f_equal; [|f_equal]; field).
    assert (Hc : forall E, E <> 0 -> coll_integrand unit_consts (fun q E => Some (1 + E ^ 2, E)) (fun _ => 1) (fun _ => 1) E (0 + 1) = Some (1, - E)).
    { intros E HE. unfold coll_integrand. cbn [obind hbar unit_consts].
      rewrite qdiv_some by (unfold Rdiv; rewrite Rinv_1, Rmult_1_r; exact HE).
      cbn [obind]. f_equal. cz; field; lra. }
    assert (Hp : forall part E, E <> 0 -> coll_part unit_consts midpoint (fun q E => Some (1 + E ^ 2, E)) (fun _ => 1) (fun _ => 1) 1 part E
      = Some (part (1, - E) * coll_prefactor unit_consts 1)).
    { intros part E HE. unfold coll_part, midpoint. rewrite Hc by assumption. reflexivity. }
    rewrite Hl. cbn [map all_some]. rewrite !Hp by lra. cbn [obind option_map all_some fst snd].
    unfold interp_table, mirror. cbn [rev app map]. f_equal.
    set (c := coll_prefactor unit_consts 1).
    assert (Hi : increasing [-1 * 2; -1 * 1; 1; 2]).
    { intros i j Hij. cbn in Hij. unfold at_. destruct i as [|[|[|[|i]]]], j as [|[|[|[|j]]]]; cbn; try lia; lra. }
    assert (K : forall ys, interp None None [-1 * 2; -1 * 1; 1; 2] ys 1 = at_ ys 2).
    { intros ys. apply (interp_knot None None [-1 * 2; -1 * 1; 1; 2] ys 2 Hi); cbn; lia. }
    rewrite !K. unfold at_. cbn. f_equal; ring. }
  split; [exact H|]. rewrite C38_interpolated by (lra || lia). rewrite H. cbn. unfold Cconj. cbn. f_equal. f_equal. ring.
Qed.

(** ** C39: the guessed cut-off *)
Theorem C39_cutoff :
  forall u Fm F3 F5 Fi k T n_e E_max KKT, 0 < T -> 0 <= E_max ->
    guess_E_cutoff_max (fun E => S0_ee_RPA_Dandrea u Fm F3 F5 Fi k T n_e E (RtoC 0)) E_max KKT =
    if KKT then 15 * E_max else E_max.
Proof.
  intros. apply guess_max_nan; [assumption|].
  apply (C36_elastic_refuted u (fun _ _ _ => None) Fm F3 F5 Fi k T n_e 0 (RtoC 0) true H).
Qed.
Print Assumptions C39_cutoff.
(** no spectrum can change the guess *)
Theorem C39_adapts_refuted :
  ~ exists u Fm F3 F5 Fi k T n_e k' T' n_e' E_max KKT, 0 < T /\ 0 < T' /\ 0 <= E_max /\
    guess_E_cutoff_max (fun E => S0_ee_RPA_Dandrea u Fm F3 F5 Fi k T n_e E (RtoC 0)) E_max KKT <>
    guess_E_cutoff_max (fun E => S0_ee_RPA_Dandrea u Fm F3 F5 Fi k' T' n_e' E (RtoC 0)) E_max KKT.
Proof.
  intros (u & Fm & F3 & F5 & Fi & k & T & n & k' & T' & n' & Em & KKT & HT & HT' & HE & H). apply H.
  now rewrite !C39_cutoff.
Qed.
Print Assumptions C39_adapts_refuted.
Example C39_ex : guess_E_cutoff_max (fun E => S0_ee_RPA_Dandrea unit_consts Fbig Fzero Fzero (fun x => x) 1 (1 / 2) n1 E (RtoC 0)) 2 true = 30.
Proof. rewrite C39_cutoff by lra. lra. Qed.

(** ** C98: the damped dielectric function at real energies *)
Theorem C98_real_energy :
  forall u quad k E mu T, quad_scales quad ->
    dielectric_function_RPA u quad k (RtoC E) mu T = dielectric_function_RPA_no_damping u quad true k E mu T.
Proof. intros. now apply RPA_real. Qed.
Print Assumptions C98_real_energy.
Theorem C98_spectrum :
  forall u quad k T n_e E mu lfc, quad_scales quad -> k <> 0 ->
    S0_ee_RPA u quad false k T n_e E mu lfc = S0_ee_RPA_no_damping u quad true k T n_e E mu lfc.
Proof.
  intros. unfold S0_ee_RPA, S0_ee_RPA_no_damping, damped. cbn zeta. rewrite RPA_real, v_k_V by assumption. reflexivity.
Qed.
Print Assumptions C98_spectrum.
(** the form used by default has no spectrum at real energies *)
Theorem C98_default_refuted :
  forall u quad k T n_e E mu lfc s, quad_scales quad -> quad_inside quad -> 0 < k -> 0 < T ->
    S0_ee_RPA u quad true k T n_e E mu (RtoC lfc) = Some s -> s = 0.
Proof. intros u quad k T n E mu g s. apply S0_ee_RPA_default. Qed.
Print Assumptions C98_default_refuted.
Example C98_ex : quad_scales midpoint /\ quad_inside midpoint /\
  S0_ee_RPA unit_consts midpoint true 1 1 1 1 0 (RtoC 1) = Some 0.
Proof.
  split; [apply midpoint_scales|]. split; [apply midpoint_inside|].
  assert (H : exists s, S0_ee_RPA unit_consts midpoint true 1 1 1 1 0 (RtoC 1) = Some s).
  2:{ destruct H as [s Hs]. rewrite Hs. f_equal.
      apply (C98_default_refuted unit_consts midpoint 1 1 1 1 0 1 s midpoint_scales midpoint_inside); [lra|lra|exact Hs]. }
  assert (Hr : red_w unit_consts 1 (- (1)) 1 < 0).
  { pose proof (sqrt_rw unit_consts 1 Rlt_0_1) as H. unfold red_w. cbn [hbar unit_consts kB m_e] in *.
    apply Ropp_lt_cancel. rewrite Ropp_0. replace (- (- (1) / 1 / 1 / (sqrt 2 * sqrt (1 * 1 / 1)))) with (/ (sqrt 2 * sqrt (1 * 1 / 1))) by (field; nra).
    now apply Rinv_0_lt_compat. }
  unfold S0_ee_RPA, damped, dielectric_function_RPA_rewrite, part_rewrite. cbn zeta. cbn [fst snd RtoC].
  replace (red_w unit_consts 1 0 1) with 0 by (unfold red_w, Rdiv; ring).
  set (r := red_w unit_consts 1 (- (1)) 1) in *. clearbody r.
  destruct (Req_EM_T r 0) as [E|_]; [exfalso; lra|]. rewrite (Rabs_left r) by assumption. unfold midpoint. cbn zeta.
  assert (D : forall f, (forall w, w <> 1 -> 0 < w -> exists y, f w = Some y) ->
    exists y, option_map (fun y => (1 - 0) * y) (f ((0 + 1) / 2)) = Some y /\ exists z, f (1 + 1) = Some z).
  { intros f Hf. destruct (Hf ((0 + 1) / 2)) as [y ->]; [lra|lra|]. destruct (Hf (1 + 1)) as [z ->]; [lra|lra|].
    cbn. eauto. }
  assert (Hw : forall w, w <> 1 -> 0 < w -> w / (1 / - r) <> r /\ w / (1 / - r) <> - r).
  { intros w H1 H2. replace (w / (1 / - r)) with (w * - r) by (field; lra). split; nra. }
  destruct (D (integrand_real_rewrite (1 / - r) r 0 (kap_rewrite unit_consts 1 1) (0 / (kB unit_consts * 1)))) as (y1 & -> & z1 & ->).
  { intros w H1 H2. destruct (Hw w H1 H2) as [A B]. unfold integrand_real_rewrite. rewrite !qdiv_some by nra. cbn. eauto. }
  destruct (D (integrand_imag_rewrite (1 / - r) r 0 (kap_rewrite unit_consts 1 1) (0 / (kB unit_consts * 1)))) as (y2 & -> & z2 & ->).
  { intros w H1 H2. destruct (Hw w H1 H2) as [A B]. rewrite imag_rewrite_zero by assumption. eauto. }
  cbn [obind]. unfold xi_lfc. rewrite cdiv_some.
  - cbn [obind]. unfold S0ee_from_susceptibility_FDT. rewrite qdiv_some; [cbn; eauto|].
    intros H. apply boltz_0 in H; lra.
  - replace (Cminus (RtoC 1) (RtoC 1)) with (RtoC 0) by ring. intros H.
    apply C1_neq0. rewrite <- H. ring.
Qed.

(** ** C99: detailed balance with collisions *)
Theorem C99_detailed_balance :
  forall u quad Fm F3 F5 Fi rewrite nu k T mu n_e lfc, quad_scales quad -> 0 < T ->
    (forall E, nu (- E) = option_map Cconj (nu E)) ->
    detailed_balance u T (fun E => S0_ee_BMA u (dielectric_function_BMA_fit u quad Fm F3 F5 Fi rewrite) nu k T mu n_e E (RtoC lfc)) /\
    detailed_balance u T (fun E => S0_ee_BMA u (dielectric_function_BMA_interp u quad rewrite) nu k T mu n_e E (RtoC lfc)) /\
    detailed_balance u T (fun E => S0_ee_BMA u (dielectric_function_BMA_full u quad rewrite) nu k T mu n_e E (RtoC lfc)) /\
    detailed_balance u T (fun E => S0_ee_BMA_Fortmann u quad Fm F3 F5 Fi rewrite nu k T mu n_e E (RtoC lfc)).
Proof.
  intros u quad Fm F3 F5 Fi b nu k T mu n g Hq HT Hn.
  assert (G : forall diel, (forall E, diel nu k (- E) mu T n = oconj (diel nu k E mu T n)) ->
    detailed_balance u T (fun E => S0_ee_BMA u diel nu k T mu n E (RtoC g))).
  { intros diel Hd E. unfold S0_ee_BMA. cbn zeta. rewrite Ropp_involutive.
    apply (balance_eps u k T n E (v_k u k) (RtoC g) (fun E => diel nu k E mu T n)); [exact HT|apply Cconj_R|].
    rewrite Hd, oconj_oconj. reflexivity. }
  split; [apply G; intros; now apply BMA_fit_sym|]. split; [apply G; intros; now apply BMA_interp_sym|].
  split; [apply G; intros; now apply BMA_full_sym|].
  intros E. unfold S0_ee_BMA_Fortmann. cbn zeta. rewrite Ropp_involutive.
  rewrite <- (Ropp_involutive E) at 1. rewrite BMA_Fortmann_sym by (assumption || apply Cconj_R || apply Hn).
  destruct (susceptibility_BMA_Fortmann _ _ _ _ _ _ _ _ _ _ _ _ _ _) as [x|]; cbn [obind oconj option_map]; [|reflexivity].
  rewrite <- (Ropp_involutive E) at 1. rewrite fdt_conj by assumption.
  replace (- (- E / (kB u * T))) with (E / (kB u * T)) by (unfold Rdiv; ring). reflexivity.
Qed.
Print Assumptions C99_detailed_balance.
(** the table of the shipped models has the symmetry required *)
Theorem C99_interpolated_frequency :
  forall u quad Fm F3 F5 Fi rewrite eps S_ii V_eiS Zf kkt E_min E_max points k T mu n_e lfc,
    quad_scales quad -> 0 < T -> 0 < E_min < E_max -> (2 <= points)%nat ->
    detailed_balance u T (fun E => S0_ee_BMA u (dielectric_function_BMA_fit u quad Fm F3 F5 Fi rewrite)
      (collision_frequency_interp u quad eps S_ii V_eiS Zf kkt E_min E_max points) k T mu n_e E (RtoC lfc)) /\
    detailed_balance u T (fun E => S0_ee_BMA_Fortmann u quad Fm F3 F5 Fi rewrite
      (collision_frequency_interp u quad eps S_ii V_eiS Zf kkt E_min E_max points) k T mu n_e E (RtoC lfc)).
Proof.
  intros. assert (Hs : forall E, collision_frequency_interp u quad eps S_ii V_eiS Zf kkt E_min E_max points (- E) =
    option_map Cconj (collision_frequency_interp u quad eps S_ii V_eiS Zf kkt E_min E_max points E)) by (intros; now apply C38_interpolated).
  destruct (C99_detailed_balance u quad Fm F3 F5 Fi rewrite _ k T mu n_e lfc H H0 Hs) as (A & _ & _ & D). split; assumption.
Qed.
Print Assumptions C99_interpolated_frequency.
Example C99_ex : forall E, (fun _ : R => Some (RtoC 1)) (- E) = option_map Cconj ((fun _ : R => Some (RtoC 1)) E).
Proof. intros E. cbn. now rewrite Cconj_R. Qed.

(** ** C100: the Kramers-Kronig transform *)
Theorem C100_odd :
  forall Es Is eps points, (2 <= points)%nat -> (2 <= length Es)%nat -> increasing Es -> length Is = length Es ->
    0 < lmax (map Rabs Es) ->
    (forall i, (i < length Es)%nat -> at_ Es (length Es - 1 - i) = - at_ Es i /\ at_ Is (length Es - 1 - i) = at_ Is i) ->
    let J := KramersKronigTransform Es Is eps points in
    forall i, (i < length Es)%nat -> at_ J (length Es - 1 - i) = - at_ J i.
Proof.
  intros Es Is eps n Hn Hl Hi HI Hm Hs J i Hlt.
  assert (HJ : mirrored (-1) J).
  { apply KKT_mirrored; try assumption; intros j Hj.
    - rewrite (proj1 (Hs j Hj)). ring.
    - rewrite HI in *. rewrite (proj2 (Hs j Hj)). ring. }
  assert (HlJ : length J = length Es) by apply KKT_length.
  pose proof (HJ i ltac:(lia)) as H. rewrite HlJ in H. rewrite H. ring.
Qed.
Print Assumptions C100_odd.
Theorem C100_linear :
  forall Es Is Js eps points a b, length Is = length Es -> length Js = length Es ->
    forall i, (i < length Es)%nat ->
    at_ (KramersKronigTransform Es (map2 (fun x y => a * x + b * y) Is Js) eps points) i =
    a * at_ (KramersKronigTransform Es Is eps points) i + b * at_ (KramersKronigTransform Es Js eps points) i.
Proof. intros. now apply KKT_linear. Qed.
Print Assumptions C100_linear.
Example C100_ex : KramersKronigTransform [-1; 1] [1; 1] 0 2 = [- (1 / PI * (1 / 2)); 1 / PI * (1 / 2)].
Proof.
  assert (Hm : lmax (map Rabs [-1; 1]) = 1).
  { cbn. rewrite Rabs_left by lra. rewrite (Rabs_pos_eq 1) by lra. rewrite Rmax_left by lra. ring. }
  assert (Hl : linspace (- (1)) 1 2 = [-1; 1]) by (unfold linspace; cbn; f_equal; [|f_equal]; field).
  assert (Hi : increasing [-1; 1]).
  { intros i j Hij. cbn in Hij. unfold at_. destruct i as [|[|i]], j as [|[|j]]; cbn; try lia; lra. }
  assert (K : forall ys, interp None None [-1; 1] ys (-1) = at_ ys 0 /\ interp None None [-1; 1] ys 1 = at_ ys 1).
  { intros ys. split.
    - apply (interp_knot None None [-1; 1] ys 0 Hi); cbn; lia.
    - apply (interp_knot None None [-1; 1] ys 1 Hi); cbn; lia. }
  unfold KramersKronigTransform. rewrite Hm, Hl. cbn [map]. rewrite !(proj1 (K _)), !(proj2 (K _)). unfold at_. cbn [nth].
  unfold KKT_single_point, kkt_masked. cbn [map2 trapz].
  repeat (destruct (Rlt_dec _ _); try (exfalso; lra)); repeat (destruct (Rgt_dec _ _); try (exfalso; lra)).
  pose proof PI_RGT_0. f_equal; [|f_equal]; cbn; field; lra.
Qed.

(** ** C101: the models at the elastic energy *)
Theorem C101_fit_is_finite :
  forall u Fm F3 F5 Fi Z_free x mean_Z_A T n_e k_dc k lfc_k lfc xi, 0 < k -> 0 < T -> 0 < n_e ->
    sum Z_free <> 0 -> mean_Z_A <> 0 ->
    xi0_Dandrea u Fm F3 F5 Fi k (1 / 1000000 * hbar u * plasma_frequency u n_e) T n_e = Some xi ->
    exists a b, 0 < a /\ 0 < b /\
      S0_ee_RPA_Dandrea u Fm F3 F5 Fi k T n_e (- (1 / 1000000 * hbar u * plasma_frequency u n_e)) (RtoC lfc) = Some a /\
      S0_ee_RPA_Dandrea u Fm F3 F5 Fi k T n_e (1 / 1000000 * hbar u * plasma_frequency u n_e) (RtoC lfc) = Some b /\
      RPA_DandreaFit_raw u Fm F3 F5 Fi Z_free x mean_Z_A T n_e k_dc k 0 lfc_k (RtoC lfc) =
        Some ((a + b) / 2 * sum (map2 Rmult Z_free x) / mean_Z_A).
Proof.
  intros u Fm F3 F5 Fi Zf x mZ T n kd k gk g xi Hk HT Hn HZ Hm Hx.
  assert (Hw : 0 < plasma_frequency u n).
  { unfold plasma_frequency. apply sqrt_lt_R0. pose proof (e_pos u). pose proof (eps0_pos u). pose proof (m_e_pos u).
    apply Rdiv_lt_0_compat; [|now apply Rmult_lt_0_compat]. apply Rmult_lt_0_compat; [now apply pow_lt|assumption]. }
  pose proof (hbar_pos u) as Hh.
  set (d := 1 / 1000000 * hbar u * plasma_frequency u n) in *.
  assert (Hd : 0 < d) by (unfold d; apply Rmult_lt_0_compat; [apply Rmult_lt_0_compat; lra|assumption]).
  assert (Hd' : - (1 / 1000000) * hbar u * plasma_frequency u n = - d) by (unfold d; ring).
  destruct (C36_fit u Fm F3 F5 Fi k T n g (- d) xi Hk HT Hn ltac:(lra)) as (a & Ha & Hap); [now rewrite Ropp_involutive|].
  assert (Hx' : xi0_Dandrea u Fm F3 F5 Fi k (- d) T n = Some (Cconj xi)) by (rewrite xi0_Dandrea_sym, Hx; reflexivity).
  destruct (C36_fit u Fm F3 F5 Fi k T n g d _ Hk HT Hn ltac:(lra) Hx') as (b & Hb & Hbp).
  exists a, b. repeat (split; [assumption|]). unfold RPA_DandreaFit_raw. cbn zeta. fold d. rewrite Hd', Ha, Hb. cbn [obind].
  destruct (Req_EM_T 0 0) as [_|]; [|easy]. unfold scale_spectrum. destruct (Req_EM_T (sum Zf) 0); [contradiction|].
  cbn [obind]. now apply qdiv_some.
Qed.
Print Assumptions C101_fit_is_finite.
(** the other two models are nan there whenever there are free electrons *)
Theorem C101_refuted :
  forall u quad Z_free x mean_Z_A T n_e k_dc mu lfc, 0 < T -> sum Z_free <> 0 ->
    RPA_raw u quad Z_free x mean_Z_A T n_e k_dc mu 0 lfc = None /\
    QCSalpeter_raw u quad Z_free x mean_Z_A T n_e k_dc 0 lfc = None.
Proof.
  intros u quad Zf x mZ T n kd mu g HT HZ.
  destruct (C36_elastic_refuted u quad (fun _ => 0) (fun _ => 0) (fun _ => 0) (fun _ => 0) kd T n mu g false HT) as (_ & A & _ & B).
  unfold RPA_raw, QCSalpeter_raw, scale_spectrum. destruct (Req_EM_T _ 0); [contradiction|]. rewrite A, B. split; reflexivity.
Qed.
Print Assumptions C101_refuted.
(** without free electrons all three give zero at every energy *)
Theorem C101_no_free_electrons :
  forall u quad Fm F3 F5 Fi Z_free x mean_Z_A T n_e k_dc k mu shift lfc_k lfc, sum Z_free = 0 -> mean_Z_A <> 0 ->
    RPA_DandreaFit_raw u Fm F3 F5 Fi Z_free x mean_Z_A T n_e k_dc k shift lfc_k lfc = Some 0 /\
    RPA_raw u quad Z_free x mean_Z_A T n_e k_dc mu shift lfc_k = Some 0 /\
    QCSalpeter_raw u quad Z_free x mean_Z_A T n_e k_dc shift lfc = Some 0.
Proof.
  intros. unfold RPA_DandreaFit_raw, RPA_raw, QCSalpeter_raw, scale_spectrum.
  destruct (Req_EM_T _ 0) as [_|]; [|contradiction]. rewrite qdiv_some by assumption. unfold Rdiv. rewrite Rmult_0_l. easy.
Qed.
Print Assumptions C101_no_free_electrons.
Example C101_ex : exists s,
  RPA_DandreaFit_raw unit_consts Fbig Fzero Fzero (fun x => x) [1] [1] 2 (1 / 2) n1 1 1 0 (RtoC 0) (RtoC 0) = Some s /\ 0 < s.
Proof.
  destruct (xi0_defined 1 (1 / 1000000 * hbar unit_consts * plasma_frequency unit_consts n1) (fun x => x)) as [xi Hxi].
  destruct (C101_fit_is_finite unit_consts Fbig Fzero Fzero (fun x => x) [1] [1] 2 (1 / 2) n1 1 1 (RtoC 0) 0 xi) as (a & b & Ha & Hb & _ & _ & H);
    try lra; try apply n1_pos; try (cbn; lra); [exact Hxi|]. rewrite H. eexists. split; [reflexivity|]. cbn. lra.
Qed.

(** ** C102: resampled collision frequencies *)
(** If all energies are on one side, the frequency used below ten times the
    smallest one does not depend on the energy. *)
Theorem C102_clipped_refuted :
  forall u (quad : quadrature) eps S_ii V_eiS Zf Es E E', 0 < lmin Es -> lmin Es <= lmax Es -> E < 10 * lmin Es -> E' < 10 * lmin Es ->
    resampled u quad eps S_ii V_eiS Zf Es E = resampled u quad eps S_ii V_eiS Zf Es E'.
Proof.
  intros u quad eps S V Zf Es E E' H0 H1 HE HE'. unfold resampled. set (G := linspace _ _ 1000).
  assert (HG : length G = 1000%nat) by apply linspace_length.
  assert (Ha : forall i, (i < 1000)%nat -> at_ G i = 10 * lmin Es + INR i * ((10 * lmax Es - 10 * lmin Es) / INR 999)).
  { intros i Hi. unfold G. rewrite linspace_at by lia. reflexivity. }
  assert (Hasc : ascending G).
  { intros i j Hij. rewrite HG in Hij. rewrite !Ha by lia. apply Rplus_le_compat_l. apply Rmult_le_compat_r; [|apply le_INR; lia].
    apply Rmult_le_pos; [lra|]. left. apply Rinv_0_lt_compat, lt_0_INR. lia. }
  assert (Hz : at_ G 0 = 10 * lmin Es) by (rewrite Ha by lia; cbn [INR]; ring).
  destruct (all_some (map (coll_part u quad eps S V Zf fst) G)) as [re|]; cbn [obind]; [|reflexivity].
  destruct (all_some (map (coll_part u quad eps S V Zf snd) G)) as [im|]; cbn [obind]; [|reflexivity].
  rewrite !(interp_left None None G); try assumption; try lia; try (rewrite Hz; assumption). reflexivity.
Qed.
Print Assumptions C102_clipped_refuted.
Example C102_ex : let Es := [1; 2; 5] in
  resampled unit_consts midpoint (fun q E => Some (1, E)) (fun _ => 1) (fun _ => 1) 1 Es 1 =
  resampled unit_consts midpoint (fun q E => Some (1, E)) (fun _ => 1) (fun _ => 1) 1 Es 5.
Proof.
  cbv zeta. assert (H : lmin [1; 2; 5] = 1 /\ lmax [1; 2; 5] = 5).
  { cbn. rewrite (Rmin_left 1 2), (Rmin_left 1 5), (Rmax_right 1 2), (Rmax_right 2 5) by lra. easy. }
  destruct H as [H1 H2]. apply C102_clipped_refuted; rewrite ?H1, ?H2; lra.
Qed.

(** ** C103: screening *)
Theorem C103_non_degenerate :
  forall u n_e T, 0 < n_e -> 0 < T ->
    exists l, debye_length u [n_e] [1] T = Some l /\ inverse_screening_length_non_degenerate u n_e T * l = 1.
Proof.
  intros u n T Hn HT. pose proof (e_pos u). pose proof (eps0_pos u). pose proof (kB_pos u).
  unfold debye_length, inverse_screening_length_non_degenerate. cbn.
  assert (0 < n * e_ch u ^ 2) by (apply Rmult_lt_0_compat; [assumption|now apply pow_lt]).
  assert (0 < eps0 u * kB u * T) by (apply Rmult_lt_0_compat; [now apply Rmult_lt_0_compat|assumption]).
  replace (n * (1 * e_ch u * (1 * e_ch u * 1)) + 0) with (n * e_ch u ^ 2) by ring.
  replace (n * (e_ch u * (e_ch u * 1))) with (n * e_ch u ^ 2) by ring.
  rewrite qdiv_some by lra. assert (0 < eps0 u * kB u * T / (n * e_ch u ^ 2)) by now apply Rdiv_lt_0_compat.
  rewrite sqrto_some by lra. eexists. split; [reflexivity|].
  rewrite <- sqrt_mult by (left; try assumption; now apply Rdiv_lt_0_compat).
  replace (_ * _) with 1; [apply sqrt_1|]. field. repeat split; try lra.
Qed.
Print Assumptions C103_non_degenerate.
(** the statically screened electron-ion potential: Coulomb without screening, weaker
    with it, attractive *)
Theorem C103_screened_potential :
  forall u q kappa Zf, 0 < q -> 0 < Zf ->
    statically_screened_ie_debye_potential u q 0 Zf = coulomb_k u Zf (-1) q /\
    coulomb_k u Zf (-1) q <= statically_screened_ie_debye_potential u q kappa Zf < 0 /\
    statically_screened_ie_debye_potential u q kappa Zf * (1 + kappa ^ 2 / q ^ 2) = coulomb_k u Zf (-1) q.
Proof.
  intros u q kap Zf Hq HZ. pose proof (e_pos u) as He. pose proof (eps0_pos u) as H0.
  assert (0 < e_ch u ^ 2) by now apply pow_lt. assert (0 < q ^ 2) by now apply pow_lt. pose proof (pow2_ge_0 kap).
  unfold statically_screened_ie_debye_potential, coulomb_k.
  set (e2 := e_ch u ^ 2) in *. clearbody e2. set (q2 := q ^ 2) in *. set (k2 := kap ^ 2) in *. clearbody k2.
  assert (Hne : q <> 0) by lra. clearbody q2.
  assert (Hp : 0 < Zf * e2) by now apply Rmult_lt_0_compat.
  split; [replace (0 ^ 2) with 0 by ring; field; lra|]. split; [split|].
  - apply Ropp_le_cancel. replace (- (- Zf * e2 / (eps0 u * (q2 + k2)))) with (Zf * e2 * / (eps0 u * (q2 + k2))) by (field; lra).
    replace (- (1 / eps0 u * (Zf * -1 * e2) / q2)) with (Zf * e2 * / (eps0 u * q2)) by (field; lra).
    apply Rmult_le_compat_l; [lra|]. apply Rinv_le_contravar; [now apply Rmult_lt_0_compat|]. apply Rmult_le_compat_l; lra.
  - apply Ropp_lt_cancel. rewrite Ropp_0. replace (- (- Zf * e2 / (eps0 u * (q2 + k2)))) with (Zf * e2 / (eps0 u * (q2 + k2))) by (field; lra).
    apply Rdiv_lt_0_compat; [assumption|]. apply Rmult_lt_0_compat; lra.
  - field. lra.
Qed.
Print Assumptions C103_screened_potential.
Example C103_ex : statically_screened_ie_debye_potential unit_consts 1 1 2 = - 1.
Proof. unfold statically_screened_ie_debye_potential. cbn. field. Qed.
