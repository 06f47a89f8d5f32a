(** The detected free-free spectrum and elastic line are nowhere negative. *)
From Coq Require Import Reals List Arith Lra Lia.
From Coquelicot Require Import Complex.
From Verif Require Import M_Const M_PlasmaState M_PlasmaPhysics L_PlasmaPhysics M_Setup M_ScatModel M_FreeFree L_FreeFree L_FreeFree2 L_FreeFree3 L_FreeFree4 L_FreeFree5 L_FreeFree6 M_IonFeature P_FreeFree P_Signal.
Import ListNotations.
Open Scope R_scope.

Lemma scaled_nonneg Zf x mZ S v : 0 < mZ -> Forall (fun z => 0 <= z) Zf -> Forall (fun y => 0 <= y) x ->
  (forall s, S = Some s -> 0 <= s) -> scale_spectrum Zf x mZ S = Some v -> 0 <= v.
Proof.
  intros Hm HZ Hx HS. unfold scale_spectrum. destruct (Req_EM_T (sum Zf) 0) as [_|_].
  { rewrite qdiv_some by lra. intros [= <-]. unfold Rdiv. lra. }
  destruct S as [s|]; cbn [obind]; [|discriminate]. rewrite qdiv_some by lra. intros [= <-].
  assert (0 <= sum (map2 Rmult Zf x)).
  { clear - HZ Hx. revert x Hx. induction HZ as [|z Zf Hz _ IH]; intros x Hx; [cbn; lra|]. destruct Hx as [|y x Hy Hx]; [cbn; lra|].
    cbn [map2]. unfold sum in *. cbn [fold_right]. specialize (IH x Hx). assert (0 <= z * y) by now apply Rmult_le_pos. lra. }
  specialize (HS s eq_refl). unfold Rdiv. apply Rmult_le_pos; [now apply Rmult_le_pos|]. left. now apply Rinv_0_lt_compat.
Qed.

(** ** C140: the free-free models of the random phase approximation and Salpeter's *)
Theorem C140_free_free : forall u quad Fm F3 F5 Fi Zf x mZ T n_e mu k0 lfc0 (k lfc : setup -> nat -> R) er sp s i,
  0 < T -> 0 < n_e -> 0 < mZ -> 0 < k0 -> Forall (fun z => 0 <= z) Zf -> Forall (fun y => 0 <= y) x ->
  0 < energy s -> (forall j, (j < n_chan s)%nat -> 0 < measured s j) -> (i < n_chan s)%nat ->
  0 < measured s 1 - measured s 0 -> measured s 0 < measured s (n_chan s - 1) -> (forall w, 0 <= instrument s w) ->
  (forall p, sp = Some p -> (2 <= p)%nat) ->
  (let s' := match sp with Some p => low_res_setup p s | None => s end in
   forall j, (j < n_chan s')%nat -> 0 < k s' j /\ let E := measured s' j - energy s' in
     (RPA_DandreaFit_raw u Fm F3 F5 Fi Zf x mZ T n_e (k s' j) k0 E (RtoC (lfc s' j)) (RtoC lfc0) = Some (er s' j) \/
      (E <> 0 /\ RPA_raw u quad Zf x mZ T n_e (k s' j) mu E (RtoC (lfc s' j)) = Some (er s' j)) \/
      (E <> 0 /\ QCSalpeter_raw u quad Zf x mZ T n_e (k s' j) E (RtoC lfc0) = Some (er s' j)))) ->
  0 <= evaluate u er sp s i.
Proof.
  intros u quad Fm F3 F5 Fi Zf x mZ T n mu k0 l0 k lfc er sp s i HT Hn Hm Hk0 HZ Hx He Hmp Hi H1 H2 Hw Hp H.
  apply C140_nonneg; try assumption. cbv zeta in *. set (s' := match sp with Some _ => _ | None => _ end) in *. clearbody s'.
  intros j Hj. destruct (H j Hj) as (Hk & HE). clear H.
  assert (HD : forall kk E l v, 0 < kk -> E <> 0 -> S0_ee_RPA_Dandrea u Fm F3 F5 Fi kk T n E (RtoC l) = Some v -> 0 < v).
  { intros kk E l v Hkk HE0 Ev. destruct (xi0_Dandrea u Fm F3 F5 Fi kk (- E) T n) as [y|] eqn:Ey.
    - destruct (C36_fit u Fm F3 F5 Fi kk T n l E y Hkk HT Hn HE0 Ey) as (v' & E' & P). congruence.
    - unfold S0_ee_RPA_Dandrea in Ev. rewrite Ey in Ev. discriminate. }
  destruct HE as [HE|[[H0 HE]|[H0 HE]]]; revert HE.
  - unfold RPA_DandreaFit_raw. cbv zeta. apply scaled_nonneg; try assumption. intros v. destruct (Req_EM_T _ 0) as [_|N].
    + assert (0 < hbar u * plasma_frequency u n) as Hwp.
      { apply Rmult_lt_0_compat; [apply hbar_pos|]. unfold plasma_frequency. apply sqrt_lt_R0. pose proof (e_pos u). pose proof (eps0_pos u). pose proof (m_e_pos u).
        apply Rdiv_lt_0_compat; [apply Rmult_lt_0_compat; [apply pow_lt; assumption|assumption]|now apply Rmult_lt_0_compat]. }
      destruct (S0_ee_RPA_Dandrea _ _ _ _ _ _ _ _ (- _ * _ * _) _) as [a|] eqn:Ea; cbn [obind]; [|discriminate].
      destruct (S0_ee_RPA_Dandrea _ _ _ _ _ _ _ _ (1 / 1000000 * _ * _) _) as [b|] eqn:Eb; cbn [obind]; [|discriminate].
      intros [= <-]. apply HD in Ea; [|assumption|nra]. apply HD in Eb; [|assumption|nra]. lra.
    + intros Ev. apply HD in Ev; [lra|assumption|exact N].
  - unfold RPA_raw. apply scaled_nonneg; try assumption. intros v Ev.
    destruct (dielectric_function_RPA_no_damping u quad false (k s' j) (- (measured s' j - energy s')) mu T) as [e|] eqn:Ee.
    + destruct (C36_no_damping u quad false (k s' j) T n mu (lfc s' j) _ e Hk HT Hn H0 Ee) as (v' & E' & P). assert (v' = v) by congruence. lra.
    + unfold S0_ee_RPA_no_damping in Ev. rewrite Ee in Ev. discriminate.
  - unfold QCSalpeter_raw. apply scaled_nonneg; try assumption. intros v Ev.
    destruct (dielectric_function_salpeter u quad (k s' j) T n (- (measured s' j - energy s'))) as [e|] eqn:Ee.
    + destruct (C36_salpeter u quad (k s' j) T n l0 _ e Hk HT Hn H0 Ee) as (v' & E' & P). assert (v' = v) by congruence. lra.
    + unfold S0_ee_Salpeter in Ev. rewrite Ee in Ev. discriminate.
Qed.
Print Assumptions C140_free_free.
Example C140_free_free_ex : exists er,
  (forall j, RPA_DandreaFit_raw unit_consts Fbig Fzero Fzero (fun x => x) [1] [1] 1 (1 / 2) n1 1 1 (measured sigSetup j - energy sigSetup) (RtoC (1 / 2)) (RtoC (1 / 2)) = Some (er sigSetup j)) /\
  0 <= evaluate unit_consts er None sigSetup 1.
Proof.
  set (f := fun s' j => RPA_DandreaFit_raw unit_consts Fbig Fzero Fzero (fun x => x) [1] [1] 1 (1 / 2) n1 1 1 (measured s' j - energy s') (RtoC (1 / 2)) (RtoC (1 / 2))).
  assert (HS : forall s' j, exists v, f s' j = Some v).
  { intros s' j. unfold f, RPA_DandreaFit_raw, scale_spectrum. cbv zeta. destruct (Req_EM_T (sum [1]) 0) as [Z|_]; [cbn in Z; lra|].
    destruct (Req_EM_T (measured s' j - energy s') 0) as [_|N].
    - pose proof n1_pos as Hn. assert (0 < plasma_frequency unit_consts n1) as Hwp by (unfold plasma_frequency; apply sqrt_lt_R0; cbn; lra).
      destruct (C36_fit_ex 1 (- (1 / 1000000) * hbar unit_consts * plasma_frequency unit_consts n1)) as (a & -> & _); [lra|cbn [hbar unit_consts]; nra|].
      destruct (C36_fit_ex 1 (1 / 1000000 * hbar unit_consts * plasma_frequency unit_consts n1)) as (b & -> & _); [lra|cbn [hbar unit_consts]; nra|].
      cbn [obind]. rewrite qdiv_some by lra. eexists. reflexivity.
    - destruct (C36_fit_ex 1 _ ltac:(lra) N) as (a & -> & _). cbn [obind]. rewrite qdiv_some by lra. eexists. reflexivity. }
  exists (fun s' j => match f s' j with Some v => v | None => 0 end).
  assert (HE : forall s' j, f s' j = Some (match f s' j with Some v => v | None => 0 end)) by (intros s' j; destruct (HS s' j) as (v & ->); reflexivity).
  split; [intros j; exact (HE sigSetup j)|].
  apply (C140_free_free unit_consts (fun _ _ _ => None) Fbig Fzero Fzero (fun x => x) [1] [1] 1 (1 / 2) n1 0 1 (1 / 2) (fun _ _ => 1) (fun _ _ => 1 / 2)).
  1-4: (lra || apply n1_pos). 1-2: (repeat constructor; lra). 1: (cbn; lra).
  - intros j _. cbn [measured sigSetup]. pose proof (pos_INR j). lra.
  - cbn; lia.
  - cbn; lra.
  - cbn; lra.
  - cbn; intros; lra.
  - discriminate.
  - cbv zeta. intros j _. split; [lra|]. left. apply (HE sigSetup j).
Qed.

(** The elastic line: a Rayleigh weight that is not negative (C43) gives a line that is not *)
Theorem C140_elastic : forall u w s st i I mZ, mean_Z_A s = Some mZ -> 0 < mZ -> 0 <= w -> (forall x, 0 <= instrument st x) ->
  0 < energy st -> 0 < measured st i -> ion_feature u w s st i = Some I -> 0 <= I.
Proof.
  intros u w s st i I mZ Em Hm Hw Hi _ _. unfold ion_feature. rewrite Em. cbn [obind]. rewrite qdiv_some by lra. intros [= <-].
  unfold Rdiv. apply Rmult_le_pos; [apply Rmult_le_pos; [apply Rmult_le_pos; [exact Hw|apply Hi]|]|left; now apply Rinv_0_lt_compat].
  unfold frc, Rpower. left. apply exp_pos.
Qed.
Print Assumptions C140_elastic.
Example C140_elastic_ex : exists I, ion_feature unit_consts 3 (mkPS [mkEl 6 12 1] [4] [24] 1 [1] [-1]) sigSetup 1 = Some I /\ 0 <= I.
Proof.
  assert (exists m, mean_Z_A (mkPS [mkEl 6 12 1] [4] [24] 1 [1] [-1]) = Some m /\ 0 < m) as (m & Em & Hm).
  { unfold mean_Z_A, number_fraction, n_i, div_scalar. cbn. destruct (Req_EM_T _ 0); [lra|]. cbn. eexists. split; [reflexivity|]. lra. }
  assert (exists I, ion_feature unit_consts 3 (mkPS [mkEl 6 12 1] [4] [24] 1 [1] [-1]) sigSetup 1 = Some I) as (I & EI).
  { unfold ion_feature. rewrite Em. cbn [obind]. rewrite qdiv_some by lra. eexists. reflexivity. }
  exists I. split; [exact EI|]. apply (C140_elastic unit_consts 3 _ sigSetup 1 I m Em Hm); try (cbn; intros; lra). exact EI.
Qed.
