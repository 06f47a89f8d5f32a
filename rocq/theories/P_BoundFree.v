(** Bound-free scattering: C53, C54, C55, C60, C61, C106, C107 *)
From Coq Require Import Reals List Arith Bool Lra Lia Psatz.
From Coquelicot Require Import Coquelicot.
From Verif Require M_Elements L_Elements M_Analysis P_Analysis.
From Verif Require Import M_Const M_PlasmaState M_Interp L_Interp M_FormFactors L_FormFactors M_Setup M_BoundFree L_PlasmaPhysics L_BoundFree.
Import ListNotations.
Open Scope R_scope.

(** ** C53: Compton profiles *)
Definition profile_integrals : list (nat * nat * R) :=
  [(1%nat, 0%nat, 1); (2%nat, 0%nat, 1); (2%nat, 1%nat, 1); (3%nat, 0%nat, 1); (3%nat, 1%nat, 5063 / 48); (3%nat, 2%nat, 249 / 25); (4%nat, 0%nat, 2229 / 80); (4%nat, 1%nat, 201 / 4);
   (4%nat, 2%nat, 172357 / 180); (4%nat, 3%nat, 5603 / 35); (5%nat, 0%nat, 70357); (5%nat, 1%nat, - (86511 / 4)); (5%nat, 2%nat, 3137 / 9)].
Lemma integrals_norm n l N : In (n, l, N) profile_integrals -> N = norm n l /\ exists p, phi n l = Some p.
Proof.
  unfold profile_integrals. cbn [In]. intros H.
  repeat (destruct H as [H|H]; [injection H as <- <- <-; split; [reflexivity|eexists; reflexivity]|]). destruct H.
Qed.
(** every profile over the projected momentum omega / (c k), for any position of the window *)
Theorem C53_integrals : forall u n l N Z k, In (n, l, N) profile_integrals -> 0 < Z -> 0 < k ->
  exists f, (forall w, J_Schum75 u n l w k Z = Some (f w)) /\ (forall w, continuous f w) /\
    forall b, is_lim (fun M => RInt (fun w => f w / (c_light u * k)) (b - M) (b + M)) p_infty N.
Proof.
  intros u n l N Z k H HZ Hk. destruct (integrals_norm n l N H) as [-> [p Hp]].
  exists (fun w => pref u n l Z * p (1 + xi_ u n Z k w ^ 2)). pose proof (c_pos u) as Hc.
  split; [intros w; apply Schum75_some; lra || assumption|]. split.
  - intros w. apply (continuous_ext (fun w => (c_light u * k) * (pref u n l Z * p (1 + xi_ u n Z k w ^ 2) / (c_light u * k)))).
    + intros x. match goal with |- ?a = ?b => change (@eq R a b) end; field. split; lra.
    + apply (continuous_scal_r (K := R_AbsRing) (V := R_NormedModule)). now apply profile_cont.
  - intros b. apply bimp_centre. now apply profile_norm.
Qed.
Print Assumptions C53_integrals.
Theorem C53_normalised_partial : forall u n l Z k, In (n, l) [(1, 0); (2, 0); (2, 1); (3, 0)]%nat -> 0 < Z -> 0 < k ->
  exists f, (forall w, J_Schum75 u n l w k Z = Some (f w)) /\
    forall b, is_lim (fun M => RInt (fun w => f w / (c_light u * k)) (b - M) (b + M)) p_infty 1.
Proof.
  intros u n l Z k H HZ Hk.
  destruct (C53_integrals u n l 1 Z k) as (f & A & _ & B); [|assumption|assumption|now exists f].
  unfold profile_integrals. cbn [In] in *.
  destruct H as [H|[H|[H|[H|[]]]]]; injection H as <- <-; tauto.
Qed.
Print Assumptions C53_normalised_partial.
Example C53_normalised_partial_ex : exists f, (forall w, J_Schum75 unit_consts 3 0 w 2 (13 / 2) = Some (f w)) /\
  forall b, is_lim (fun M => RInt (fun w => f w / (c_light unit_consts * 2)) (b - M) (b + M)) p_infty 1.
Proof. apply C53_normalised_partial; [cbn; tauto|lra|lra]. Qed.
(** the other nine shells miss one electron, whatever the charge and the wavenumber; already
    the third row of the periodic table is concerned *)
Theorem C53_normalised_refuted : forall u n l Z k, In (n, l) [(3, 1); (3, 2); (4, 0); (4, 1); (4, 2); (4, 3); (5, 0); (5, 1); (5, 2)]%nat ->
  0 < Z -> 0 < k -> exists f, (forall w, J_Schum75 u n l w k Z = Some (f w)) /\
    ~ is_lim (fun M => RInt (fun w => f w / (c_light u * k)) (- M) M) p_infty 1.
Proof.
  intros u n l Z k H HZ Hk.
  assert (exists N, In (n, l, N) profile_integrals /\ N <> 1) as (N & HN & H1).
  { cbn [In] in H. unfold profile_integrals.
    repeat (destruct H as [H|H]; [injection H as <- <-; eexists; split; [cbn [In]; repeat (first [left; reflexivity|right])|lra]|]). destruct H. }
  destruct (C53_integrals u n l N Z k HN HZ Hk) as (f & A & _ & B). exists f. split; [exact A|].
  intros L. specialize (B 0). apply is_lim_unique in L.
  assert (B' : is_lim (fun M => RInt (fun w => f w / (c_light u * k)) (- M) M) p_infty N).
  { revert B. apply is_lim_ext. intros y. now rewrite Rminus_0_l, Rplus_0_l. }
  apply is_lim_unique in B'. rewrite B' in L. injection L. exact H1.
Qed.
Print Assumptions C53_normalised_refuted.
Example C53_normalised_refuted_ex : exists f, (forall w, J_Schum75 unit_consts 3 1 w 1 4 = Some (f w)) /\
  ~ is_lim (fun M => RInt (fun w => f w / (c_light unit_consts * 1)) (- M) M) p_infty 1.
Proof. apply C53_normalised_refuted; [cbn; tauto|lra|lra]. Qed.
(** where the polynomials are right they are the integrated momentum densities of the
    hydrogenic orbitals: slope in p^2 minus the density, hence a single maximum at the recoil
    frequency, falling to both sides *)
Theorem C53_momentum_density_partial : forall n l p y, In (n, l) [(1, 0); (2, 0); (2, 1); (3, 0)]%nat -> phi n l = Some p -> 1 <= y ->
  is_derive p y (- ((y - 1) ^ l / y ^ (2 * l + 4) * gegenbauer (n - l - 1) (INR l + 1) (1 - 2 / y) ^ 2)).
Proof. intros n l p y H Hp Hy. apply (phi_density n l p y); auto; lra. Qed.
Print Assumptions C53_momentum_density_partial.
Example gegenbauer_ex : forall a t, gegenbauer 2 a t = 2 * a * (1 + a) * t ^ 2 - a.
Proof. intros. unfold gegenbauer. cbn [gegenbauer2 snd INR]. field. Qed.
Example C53_momentum_density_ex : is_derive phi30 2 (- (9 * / 2 ^ 4 * / 9)).
Proof.
  pose proof (C53_momentum_density_partial 3 0 phi30 2 ltac:(cbn; tauto) eq_refl ltac:(lra)) as H.
  match type of H with is_derive _ _ ?t => replace (- (9 * / 2 ^ 4 * / 9)) with t; [exact H|] end.
  unfold gegenbauer. cbn [gegenbauer2 snd INR Nat.sub Nat.mul Nat.add pow]. field.
Qed.
Theorem C53_peak_at_recoil_partial : forall u n l Z k w w', In (n, l) [(1, 0); (2, 0); (2, 1); (3, 0)]%nat -> 0 < Z -> 0 < k ->
  let w0 := hbar u * k ^ 2 / (2 * m_e u) in Rabs (w - w0) <= Rabs (w' - w0) ->
  exists v v', J_Schum75 u n l w k Z = Some v /\ J_Schum75 u n l w' k Z = Some v' /\ v' <= v.
Proof.
  intros u n l Z k w w' H HZ Hk w0 Hw.
  assert (exists p, phi n l = Some p) as [p Hp]. { cbn [In] in H. destruct H as [H|[H|[H|[H|[]]]]]; injection H as <- <-; eexists; reflexivity. }
  assert (Hn : (0 < n)%nat) by (cbn [In] in H; destruct H as [H|[H|[H|[H|[]]]]]; injection H as <- <-; lia).
  do 2 eexists. split; [apply (Schum75_some u n l p); lra || assumption|]. split; [apply (Schum75_some u n l p); lra || assumption|].
  apply Rmult_le_compat_l; [left; now apply pref_pos|]. apply (phi_decreasing n l); [exact H|exact Hp|].
  split; [pose proof (pow2_ge_0 (xi_ u n Z k w)); lra|]. apply Rplus_le_compat_l.
  unfold xi_. fold w0. rewrite !Rpow_mult_distr. apply Rmult_le_compat_l; [apply pow2_ge_0|]. rewrite <- (pow2_abs (w - w0)), <- (pow2_abs (w' - w0)).
  apply pow_incr. split; [apply Rabs_pos|exact Hw].
Qed.
Print Assumptions C53_peak_at_recoil_partial.
Example C53_peak_at_recoil_ex : exists v v', J_Schum75 unit_consts 2 1 (1 / 2) 1 3 = Some v /\ J_Schum75 unit_consts 2 1 (- 2) 1 3 = Some v' /\ v' <= v.
Proof. apply C53_peak_at_recoil_partial; [cbn; tauto|lra|lra|]. cbn. rewrite !Rabs_left1; lra. Qed.
(** the asymmetry correction of the inner shells moves no intensity out of a window centred
    at the recoil frequency; what remains is the population times the shell's integral *)
Theorem C53_correction_conserves : forall u i n l Z k pop, nth_error orbitals i = Some (n, l) -> 0 < Z -> 0 < k ->
  exists J f, (forall w, J_impulse_approx u w k pop i Z = Some (J w)) /\ (forall w, J_Schum75 u n l w k Z = Some (f w)) /\
    let w0 := hbar u * k ^ 2 / (2 * m_e u) in
    (forall M, RInt J (w0 - M) (w0 + M) = pop * RInt (fun w => f w / (c_light u * k)) (w0 - M) (w0 + M)) /\
    forall N, In (n, l, N) profile_integrals -> is_lim (fun M => RInt J (w0 - M) (w0 + M)) p_infty (pop * N).
Proof.
  intros u i n l Z k pop Ho HZ Hk. destruct (orbital_phi i n l Ho) as [p Hp].
  eexists (fun w => _), (fun w => _). split; [intros w; apply (impulse_some u k pop i Z w n l p); assumption|].
  split; [intros w; apply (Schum75_some u n l p); lra || assumption|]. intros w0. split.
  - intros M. exact (impulse_RInt u n l p Z k pop i M Ho Hp HZ Hk).
  - intros N HN. destruct (integrals_norm n l N HN) as [-> _].
    apply (is_lim_ext (fun M => pop * RInt (fun w => pref u n l Z * p (1 + xi_ u n Z k w ^ 2) / (c_light u * k)) (w0 - M) (w0 + M))).
    + intros M. symmetry. exact (impulse_RInt u n l p Z k pop i M Ho Hp HZ Hk).
    + apply (is_lim_scal_l _ pop p_infty (norm n l)). apply bimp_centre. now apply profile_norm.
Qed.
Print Assumptions C53_correction_conserves.
Example C53_correction_conserves_ex : exists J, (forall w, J_impulse_approx unit_consts w 1 2 0 5 = Some (J w)) /\
  is_lim (fun M => RInt J (1 / 2 - M) (1 / 2 + M)) p_infty 2.
Proof.
  destruct (C53_correction_conserves unit_consts 0 1 0 5 1 2 eq_refl ltac:(lra) ltac:(lra)) as (J & f & A & _ & _ & B).
  exists J. split; [exact A|]. specialize (B 1 ltac:(left; reflexivity)). replace (2 * 1) with 2 in B by ring.
  revert B. apply is_lim_ext. intros y. replace (hbar unit_consts * 1 ^ 2 / (2 * m_e unit_consts)) with (1 / 2) by (unfold unit_consts; cbn; field). reflexivity.
Qed.

(** ** C54 *)
Theorem C54_closed_forms : forall u k Z w, Z <> 0 -> k <> 0 ->
  J10_BM u w k Z = J_Schum75 u 1 0 w k Z /\ J20_BM u w k Z = J_Schum75 u 2 0 w k Z /\ J21_BM u w k Z = J_Schum75 u 2 1 w k Z.
Proof.
  intros u k Z w HZ Hk. split; [|split].
  - apply (BM_Schum75 u 0 1 0 k Z w); [lia|reflexivity|assumption|assumption].
  - apply (BM_Schum75 u 1 2 0 k Z w); [lia|reflexivity|assumption|assumption].
  - apply (BM_Schum75 u 2 2 1 k Z w); [lia|reflexivity|assumption|assumption].
Qed.
Print Assumptions C54_closed_forms.
Example C54_closed_forms_ex : exists v, J21_BM unit_consts (1 / 2) 1 3 = Some v /\ J_Schum75 unit_consts 2 1 (1 / 2) 1 3 = Some v /\ v <> 0.
Proof.
  destruct (C54_closed_forms unit_consts 1 3 (1 / 2)) as (_ & _ & E); [lra|lra|].
  rewrite E, (Schum75_some unit_consts 2 1 phi21) by (reflexivity || lra). eexists. split; [reflexivity|]. split; [reflexivity|].
  apply Rmult_integral_contrapositive_currified; [pose proof (pref_pos unit_consts 2 1 3 ltac:(lia) ltac:(lra)); lra|].
  pose proof (wm_pos (xi_ unit_consts 2 3 1 (1 / 2))) as H. pose proof (pow2_ge_0 (xi_ unit_consts 2 3 1 (1 / 2))) as H1. 
  assert (H2 := phi_nonneg 2 2 1 phi21 (1 + xi_ unit_consts 2 3 1 (1 / 2) ^ 2) eq_refl eq_refl ltac:(lra)). lra.
Qed.
(** hence the spectra built from them agree on these shells *)
Theorem C54_approximations : forall u w k pop i n l Z, (i < 3)%nat -> nth_error orbitals i = Some (n, l) -> Z <> 0 -> k <> 0 ->
  J_BM_HR_approx u w k pop i Z = J_impulse_approx u w k pop i Z /\
  J_BM_approx u w k pop i Z = obind (J_Schum75 u n l w k Z) (fun v => Some (pop * v / (c_light u * k))).
Proof.
  intros u w k pop i n l Z Hi Ho HZ Hk. destruct (orbital_phi i n l Ho) as [p Hp]. pose proof (BM_Schum75 u i n l k Z w Hi Ho HZ Hk) as E. pose proof (c_pos u).
  split.
  - unfold J_BM_HR_approx, J_impulse_approx, all_J_Schum75. rewrite (nth_error_nth _ _ _ Ho), E. reflexivity.
  - unfold J_BM_approx. rewrite E, (Schum75_some u n l p) by assumption. cbn [obind]. now rewrite qdiv_some by (apply Rmult_integral_contrapositive_currified; lra).
Qed.
Print Assumptions C54_approximations.
Example C54_approximations_ex : J_BM_HR_approx unit_consts 1 1 2 1 3 = J_impulse_approx unit_consts 1 1 2 1 3.
Proof. apply (C54_approximations unit_consts 1 1 2 1 2 0 3); [lia|reflexivity|lra|lra]. Qed.
Theorem C54_wavefunction : forall u n l w k Z, In (n, l) [(1, 0); (2, 0); (2, 1)]%nat -> Z <> 0 -> k <> 0 ->
  bm_bound_wavefunction u n l w k Z false = J_Schum75 u n l w k Z /\
  (forall i, nth_error orbitals i = Some (n, l) ->
   obind (bm_bound_wavefunction u n l w k Z true) (fun v => Some (v / (c_light u * k))) = J_impulse_approx u w k 1 i Z).
Proof.
  intros u n l w k Z H HZ Hk. destruct (C54_closed_forms u k Z w HZ Hk) as (E1 & E2 & E3). pose proof (c_pos u).
  assert (HD : c_light u * k <> 0) by (apply Rmult_integral_contrapositive_currified; lra).
  cbn [In] in H. destruct H as [H|[H|[H|[]]]]; injection H as <- <-; cbn [bm_bound_wavefunction]; rewrite ?E1, ?E2, ?E3.
  - rewrite (Schum75_some u 1 0 phi10) by (reflexivity || assumption). split; [reflexivity|]. intros i Hi.
    destruct i as [|[|[|[|[|[|[|[|[|[|i]]]]]]]]]]; cbn in Hi; try discriminate; [|destruct i; discriminate].
    unfold J_impulse_approx, all_J_Schum75. cbn [nth orbitals all_J_HR]. rewrite (Schum75_some u 1 0 phi10) by (reflexivity || assumption). cbn [obind].
    destruct (J10_HR u w k Z); cbn [obind]; [|reflexivity]. rewrite qdiv_some by assumption. f_equal. field. split; lra.
  - rewrite (Schum75_some u 2 0 phi20) by (reflexivity || assumption). split; [reflexivity|]. intros i Hi.
    destruct i as [|[|[|[|[|[|[|[|[|[|i]]]]]]]]]]; cbn in Hi; try discriminate; [|destruct i; discriminate].
    unfold J_impulse_approx, all_J_Schum75. cbn [nth orbitals all_J_HR]. rewrite (Schum75_some u 2 0 phi20) by (reflexivity || assumption). cbn [obind].
    destruct (J20_HR u w k Z); cbn [obind]; [|reflexivity]. rewrite qdiv_some by assumption. f_equal. field. split; lra.
  - rewrite (Schum75_some u 2 1 phi21) by (reflexivity || assumption). split; [reflexivity|]. intros i Hi.
    destruct i as [|[|[|[|[|[|[|[|[|[|i]]]]]]]]]]; cbn in Hi; try discriminate; [|destruct i; discriminate].
    unfold J_impulse_approx, all_J_Schum75. cbn [nth orbitals all_J_HR]. rewrite (Schum75_some u 2 1 phi21) by (reflexivity || assumption). cbn [obind].
    destruct (J21_HR u w k Z); cbn [obind]; [|reflexivity]. rewrite qdiv_some by assumption. f_equal. field. split; lra.
Qed.
Print Assumptions C54_wavefunction.
Example C54_wavefunction_ex : bm_bound_wavefunction unit_consts 2 0 1 1 3 false = J_Schum75 unit_consts 2 0 1 1 3.
Proof. apply C54_wavefunction; [cbn; tauto|lra|lra]. Qed.

(** the variable of the profiles is the electron's momentum along k, by energy and
    momentum conservation, over Z/(n a_0); for 1s the spectrum is the distribution of
    that momentum in the hydrogenic state *)
Theorem C54_momentum : forall u n w k Z, a_0 u = 4 * PI * eps0 u * hbar u ^ 2 / (m_e u * e_ch u ^ 2) -> 0 < Z -> 0 < k ->
  let q := m_e u * (w - hbar u * k ^ 2 / (2 * m_e u)) / (hbar u * k) in
  let a := a_0 u / Z in
  xi u n Z w k = Some (INR n * q * a) /\
  exists v, J10_BM u w k Z = Some v /\ v / (c_light u * k) = m_e u / (hbar u * k) * (8 * a / (3 * PI * (1 + (q * a) ^ 2) ^ 3)).
Proof.
  intros u n w k Z Hb HZ Hk q a. pose proof PI_RGT_0 as HP.
  assert (forall n, xi u n Z w k = Some (INR n * q * a)) as X.
  { intros n'. pose proof (alpha_pos u) as Ha. unfold xi. cpos u. rewrite qdiv_some by (apply Rmult_integral_contrapositive_currified; lra). cbn [obind]. rewrite qdiv_some by (apply Rmult_integral_contrapositive_currified; lra). f_equal. unfold q, a. rewrite Hb. unfold alpha. field. repeat split; lra. }
  split; [apply X|]. unfold J10_BM. rewrite X. cbn [obind]. eexists. split; [reflexivity|]. replace (INR 1 * q * a) with (q * a) by (cbn [INR]; ring). set (D := (1 + (q * a) ^ 2) ^ 3).
  assert (0 < D) as HD by (unfold D; apply pow_lt; pose proof (pow2_ge_0 (q * a)); lra). clearbody D. cpos u. unfold a. rewrite Hb. unfold alpha. field. repeat split; lra.
Qed.
Print Assumptions C54_momentum.
Example C54_momentum_ex : exists u : consts, a_0 u = 4 * PI * eps0 u * hbar u ^ 2 / (m_e u * e_ch u ^ 2) /\ xi u 2 3 4 2 = Some (2 * 1 * (1 / 3)).
Proof.
  assert (0 < / (4 * PI)) as Hp by (apply Rinv_0_lt_compat; pose proof PI_RGT_0; lra). set (u := mkConsts 1 1 1 (/ (4 * PI)) 1 1 1 1 Rlt_0_1 Rlt_0_1 Rlt_0_1 Hp Rlt_0_1 Rlt_0_1 Rlt_0_1 Rlt_0_1). pose proof PI_RGT_0.
  assert (a_0 u = 4 * PI * eps0 u * hbar u ^ 2 / (m_e u * e_ch u ^ 2)) as E by (cbn; field; lra). exists u. split; [exact E|]. destruct (C54_momentum u 2 4 2 3 E) as [X _]; [lra|lra|]. rewrite X. f_equal. cbn. field.
Qed.

(** the electrons seen, over all energies and without edges: the integral of a charge state *)
Definition shell_integrals : list R := [1; 1; 1; 1; 5063 / 48; 249 / 25; 2229 / 80; 201 / 4; 172357 / 180; 5603 / 35].
Theorem C53_electrons : forall u s r_k r k E0 charge, let Zc := Z_A s - charge in
  0 <= charge -> 0 < Zc -> 0 < k -> (forall i, (i < 10)%nat -> Z_A s - nth i (pauling_size_screening_constants Zc) 0 <> 0) ->
  new_r_k s Zc r_k = Some r ->
  let w0 := hbar u * k ^ 2 / (2 * m_e u) in
  is_lim (fun M => RInt (fun w => charge_state u (fun _ _ _ => 1) s r_k E0 (E0 - hbar u * w) k charge) (w0 - M) (w0 + M)) p_infty
    (r * sum (map (fun i => population Zc i * nth i shell_integrals 0) (seq 0 10))).
Proof.
  intros u s r_k r k E0 charge Zc Hch HZc Hk HZ Hr w0. pose proof (hbar_pos u) as Hh.
  set (Zf := fun i => Z_A s - nth i (pauling_size_screening_constants Zc) 0).
  assert (HP : forall i, 0 < population Zc i -> 0 < Zf i).
  { intros i Hi. pose proof (populated_charge i Zc Hi). unfold Zf, Zc in *. lra. }
  destruct (sum_RInt_lim (fun i w => population Zc i * jhat u i (Zf i) k w) (fun i => population Zc i * nth i shell_integrals 0) w0 (seq 0 10)) as [A B].
  - intros i w Hi. apply in_seq in Hi. destruct (Req_EM_T (population Zc i) 0) as [E|NE].
    + apply (continuous_ext (fun _ => 0)); [intros; rewrite E; symmetry; apply Rmult_0_l|apply continuous_const].
    + assert (HZi := HP i ltac:(pose proof (population_nonneg Zc i); lra)).
      destruct (orbitals_some i ltac:(lia)) as (n & l & Ho). destruct (orbital_phi i n l Ho) as [p Hp].
      apply (continuous_ext (fun w => population Zc i * ((pref u n l (Zf i) * p (1 + xi_ u n (Zf i) k w ^ 2) / (c_light u * k)) * (1 + Zf i * alpha u / (k * a_0 u) * hr i (xi_ u n (Zf i) k w))))).
      { intros x. unfold jhat. rewrite (impulse_some u k 1 i (Zf i) x n l p) by assumption. now rewrite Rmult_1_l. }
      apply (continuous_scal_r (K := R_AbsRing) (V := R_NormedModule)). apply (continuous_mult (K := R_AbsRing)); [now apply profile_cont|].
      apply (continuous_plus (V := R_NormedModule)); [apply continuous_const|]. apply (continuous_scal_r (K := R_AbsRing) (V := R_NormedModule)).
      apply (continuous_comp (xi_ u n (Zf i) k) (hr i)); [apply xi_cont|apply hr_cont].
  - intros i Hi. apply in_seq in Hi. destruct (Req_EM_T (population Zc i) 0) as [E|NE].
    + apply (is_lim_ext (fun _ => 0)); [|rewrite E, Rmult_0_l; apply is_lim_const].
      intros M. symmetry. rewrite (RInt_ext _ (fun _ => 0)) by (intros; rewrite E; apply Rmult_0_l). etransitivity; [apply (RInt_const (V := R_CompleteNormedModule))|]. apply Rmult_0_r.
    + assert (HZi := HP i ltac:(pose proof (population_nonneg Zc i); lra)).
      destruct (orbitals_some i ltac:(lia)) as (n & l & Ho).
      destruct (C53_correction_conserves u i n l (Zf i) k (population Zc i) Ho HZi Hk) as (J & f & EJ & _ & _ & L).
      assert (HN : In (n, l, nth i shell_integrals 0) profile_integrals).
      { clear - Ho Hi. destruct i as [|[|[|[|[|[|[|[|[|[|i]]]]]]]]]]; [..|lia]; cbn in Ho; injection Ho as <- <-; unfold profile_integrals, shell_integrals; cbn [nth In]; tauto. }
      specialize (L _ HN). revert L. apply is_lim_ext. intros M. apply RInt_ext. intros x _.
      pose proof (EJ x) as Q. rewrite impulse_pop in Q. unfold jhat. destruct (J_impulse_approx u x k 1 i (Zf i)); [|discriminate]. cbn in Q. now injection Q.
  - apply (is_lim_ext (fun M => r * RInt (fun w => sum (map (fun i => population Zc i * jhat u i (Zf i) k w) (seq 0 10))) (w0 - M) (w0 + M))); [|exact (is_lim_scal_l _ r p_infty _ B)].
    intros M. symmetry. rewrite (RInt_ext _ (fun w => scal r (sum (map (fun i => population Zc i * jhat u i (Zf i) k w) (seq 0 10))))).
    + apply (RInt_scal (V := R_CompleteNormedModule)). apply (ex_RInt_continuous (V := R_CompleteNormedModule)). auto.
    + intros w _. rewrite (charge_state_some u _ s r_k r) by (assumption || (unfold Zc in *; lra)). fold Zc.
      unfold scal; cbn -[seq]; unfold mult; cbn -[seq]. f_equal. apply sum_ext_in. intros i _. rewrite Rmult_1_r. unfold Zf. f_equal. f_equal. field. lra.
Qed.
Print Assumptions C53_electrons.
Lemma shell_lo a b x : a <= b -> x <= a -> L_Elements.shell a b x = 0.
Proof. intros. unfold L_Elements.shell, Rmax, Rmin; repeat destruct (Rle_dec _ _); lra. Qed.
Lemma shell_hi a b x : a <= b -> b <= x -> L_Elements.shell a b x = b - a.
Proof. intros. unfold L_Elements.shell, Rmax, Rmin; repeat destruct (Rle_dec _ _); lra. Qed.
Lemma shell_mid a b x : a <= x <= b -> L_Elements.shell a b x = x - a.
Proof. intros. unfold L_Elements.shell, Rmax, Rmin; repeat destruct (Rle_dec _ _); lra. Qed.
(** up to twelve bound electrons every one of them scatters once *)
Theorem C53_electrons_counted_partial : forall u s r_k k E0 charge, let Zc := Z_A s - charge in
  0 <= charge -> 0 < Zc <= 12 -> 0 < k -> (forall i, (i < 10)%nat -> Z_A s - nth i (pauling_size_screening_constants Zc) 0 <> 0) -> 0 <= r_k ->
  let w0 := hbar u * k ^ 2 / (2 * m_e u) in
  is_lim (fun M => RInt (fun w => charge_state u (fun _ _ _ => 1) s r_k E0 (E0 - hbar u * w) k charge) (w0 - M) (w0 + M)) p_infty (r_k * Zc).
Proof.
  intros u s r_k k E0 charge Zc Hch HZc Hk HZ Hr w0.
  assert (ER : new_r_k s Zc r_k = Some r_k) by (unfold new_r_k; destruct (Rlt_dec r_k 0); [lra|reflexivity]).
  pose proof (C53_electrons u s r_k r_k k E0 charge Hch (proj1 HZc) Hk HZ ER) as L.
  replace (r_k * Zc) with (r_k * sum (map (fun i => population Zc i * nth i shell_integrals 0) (seq 0 10))); [exact L|].
  f_equal. clear - HZc. unfold population, shell_integrals. rewrite L_Elements.distribution_shells. cbn [seq map nth]. unfold sum. cbn [fold_right].
  rewrite (shell_lo 12 18), (shell_lo 20 30), (shell_lo 18 20), (shell_lo 30 36) by lra.
  pose proof (shell_mid 0 12 Zc ltac:(lra)). pose proof (L_Elements.shell_join 0 10 12 Zc ltac:(lra)). pose proof (L_Elements.shell_join 0 4 10 Zc ltac:(lra)).
  pose proof (L_Elements.shell_join 0 2 4 Zc ltac:(lra)). lra.
Qed.
Print Assumptions C53_electrons_counted_partial.
Definition carbon : ion := mkIon 6 0 (fun _ _ => 0) 0 (fun _ => Some 0).
Definition screening_ranges : list (R * R) :=
  [(0, 19 / 100); (125 / 100, 31 / 10); (25 / 10, 457 / 100); (66 / 10, 109 / 10); (87 / 10, 132 / 10); (147 / 10, 177 / 10);
   (134 / 10, 294 / 10); (244 / 10, 328 / 10); (318 / 10, 396 / 10); (43, 498 / 10)].
Lemma Forall2_nth_ {A B} (P : A -> B -> Prop) l l' d d' : Forall2 P l l' -> forall i, (i < length l)%nat -> P (nth i l d) (nth i l' d').
Proof. induction 1; intros i Hi; cbn in Hi; [lia|]. destruct i as [|i]; cbn; [assumption|]. apply IHForall2. lia. Qed.
Lemma screening_apart (Z q : R) : List.Forall (fun '(a, b) => Z < a \/ b < Z) screening_ranges ->
  forall i, (i < 10)%nat -> Z - nth i (pauling_size_screening_constants q) 0 <> 0.
Proof.
  intros H i Hi. pose proof (Forall2_nth_ _ _ _ (0, 0) 0 (screening_values q) i Hi) as V. fold screening_ranges in V.
  assert (HI : In (nth i screening_ranges (0, 0)) screening_ranges) by (apply nth_In; exact Hi).
  rewrite Forall_forall in H. specialize (H _ HI). destruct (nth i screening_ranges (0, 0)) as [a b]. destruct H; lra.
Qed.
Example C53_electrons_counted_ex : let w0 := hbar unit_consts * 1 ^ 2 / (2 * m_e unit_consts) in
  is_lim (fun M => RInt (fun w => charge_state unit_consts (fun _ _ _ => 1) carbon 1 0 (0 - hbar unit_consts * w) 1 (3 / 2)) (w0 - M) (w0 + M)) p_infty (9 / 2).
Proof.
  intros w0. replace (9 / 2) with (1 * (Z_A carbon - 3 / 2)) by (cbn; lra).
  apply C53_electrons_counted_partial; [lra|cbn; lra|lra| |lra]. apply screening_apart. unfold carbon, screening_ranges. cbn [Z_A]. repeat constructor; lra.
Qed.
(** the thirteenth electron counts for a hundred: neutral aluminium *)
Definition aluminium : ion := mkIon 13 0 (fun _ _ => 0) 0 (fun _ => Some 0).
Theorem C53_electrons_counted_refuted : exists u s k, 0 < k /\ Z_A s = 13 /\
  let w0 := hbar u * k ^ 2 / (2 * m_e u) in
  is_lim (fun M => RInt (fun w => charge_state u (fun _ _ _ => 1) s 1 0 (0 - hbar u * w) k 0) (w0 - M) (w0 + M)) p_infty (12 + 5063 / 48).
Proof.
  exists unit_consts, aluminium, 1. split; [lra|]. split; [reflexivity|]. intros w0.
  assert (HZ : forall i, (i < 10)%nat -> Z_A aluminium - nth i (pauling_size_screening_constants (Z_A aluminium - 0)) 0 <> 0).
  { intros i Hi. destruct (Nat.eq_dec i 4) as [->|N4].
    2:{ pose proof (Forall2_nth_ _ _ _ (0, 0) 0 (screening_values (Z_A aluminium - 0)) i Hi) as V. cbn [Z_A aluminium] in *.
        destruct i as [|[|[|[|[|[|[|[|[|[|i]]]]]]]]]]; [..|lia]; try (exfalso; apply N4; reflexivity); cbn [nth] in V; cbv beta iota in V; lra. }
    cbn [Z_A aluminium]. pose proof (populated_charge 4 13) as PC. rewrite L_Elements.distribution_shells in PC. cbn [nth] in PC.
    replace (13 - 0) with 13 by ring. assert (0 < L_Elements.shell 12 18 13) by (unfold L_Elements.shell, Rmax, Rmin; repeat destruct (Rle_dec _ _); lra). specialize (PC H). lra. }
  pose proof (C53_electrons unit_consts aluminium 1 1 1 0 0) as L. cbv zeta in L.
  assert (E : 1 * sum (map (fun i => population (Z_A aluminium - 0) i * nth i shell_integrals 0) (seq 0 10)) = 12 + 5063 / 48).
  { unfold population, shell_integrals. rewrite L_Elements.distribution_shells. cbn [seq map nth Z_A aluminium]. unfold sum. cbn [fold_right].
    rewrite (shell_lo 20 30), (shell_lo 18 20), (shell_lo 30 36), (shell_mid 12 18), (shell_hi 0 2), (shell_hi 2 4), (shell_hi 4 10), (shell_hi 10 12) by lra. lra. }
  rewrite <- E. apply L; [lra|cbn; lra|lra|exact HZ|]. unfold new_r_k. destruct (Rlt_dec 1 0); [lra|reflexivity].
Qed.
Print Assumptions C53_electrons_counted_refuted.

(** ** C55: charge states *)
(** between neighbouring integer charges the spectrum is the linear mixture of theirs, the
    bare nucleus giving nothing; this holds on the closed intervals, so the value at an
    integer is the integer's and the spectrum is continuous there *)
Theorem C55_mixture : forall u edge s r_k E0 E k Z m z, Z_A s = IZR Z -> (m + 1 <= Z)%Z -> IZR m <= z <= IZR (m + 1) ->
  over_charge (Z_A s) (charge_state u edge s r_k E0 E k) z
  = (IZR (m + 1) - z) * charge_state u edge s r_k E0 E k (IZR m) + (z - IZR m) * charge_state u edge s r_k E0 E k (IZR (m + 1)) /\
  charge_state u edge s r_k E0 E k (Z_A s) = 0.
Proof.
  intros u edge s r_k E0 E k Z m z HZ Hm Hz. pose proof (charge_state_bare u edge s r_k E0 E k) as B. split; [|exact B].
  rewrite HZ in *. now apply over_charge_interp.
Qed.
Print Assumptions C55_mixture.
Example C55_mixture_ex : forall E, over_charge 6 (charge_state unit_consts (Heaviside 0) carbon 1 10 E 1) (7 / 4)
  = (2 - 7 / 4) * charge_state unit_consts (Heaviside 0) carbon 1 10 E 1 1 + (7 / 4 - 1) * charge_state unit_consts (Heaviside 0) carbon 1 10 E 1 2.
Proof. intros E. apply (C55_mixture unit_consts (Heaviside 0) carbon 1 10 E 1 6 1 (7 / 4)); [reflexivity|lia|rewrite plus_IZR; lra]. Qed.
Theorem C55_continuous : forall u edge s r_k E0 E k Z (z0 : R), Z_A s = IZR Z -> 0 < z0 < IZR Z ->
  continuous (over_charge (Z_A s) (charge_state u edge s r_k E0 E k)) z0.
Proof.
  intros u edge s r_k E0 E k Z z0 HZ [A B].
  set (f := charge_state u edge s r_k E0 E k). set (g := over_charge (Z_A s) f).
  destruct (archimed z0) as [U1 U2]. set (m := (up z0 - 1)%Z). assert (Hm : IZR m <= z0 < IZR (m + 1)) by (unfold m; rewrite plus_IZR, !minus_IZR; lra).
  assert (HmZ : (m + 1 <= Z)%Z). { destruct Hm as [H1 _]. assert (IZR m < IZR Z) by lra. apply lt_IZR in H. lia. }
  assert (S : forall m z, (m + 1 <= Z)%Z -> IZR m <= z <= IZR (m + 1) -> g z = (IZR (m + 1) - z) * f (IZR m) + (z - IZR m) * f (IZR (m + 1))).
  { intros m' z Hm' Hz. apply (C55_mixture u edge s r_k E0 E k Z m' z HZ Hm' Hz). }
  assert (Hloc : exists K d, 0 <= K /\ 0 < d /\ forall y, Rabs (y - z0) < d -> Rabs (g y - g z0) <= K * Rabs (y - z0)).
  { destruct (Req_EM_T z0 (IZR m)) as [E1|N1].
    - set (K1 := Rabs (f (IZR (m + 1)) - f (IZR m))). set (K2 := Rabs (f (IZR m) - f (IZR (m - 1)))).
      exists (K1 + K2), 1. pose proof (Rabs_pos (f (IZR (m + 1)) - f (IZR m))). pose proof (Rabs_pos (f (IZR m) - f (IZR (m - 1)))). fold K1 in H. fold K2 in H0.
      split; [lra|]. split; [lra|]. intros y Hy. apply Rabs_def2 in Hy.
      assert (G0 : g z0 = f (IZR m)). { rewrite (S m z0) by (lia || lra). rewrite E1, plus_IZR. ring. }
      destruct (Rle_dec z0 y).
      + rewrite (S m y) by (lia || (rewrite plus_IZR in *; lra)). rewrite G0, plus_IZR.
        replace ((IZR m + 1 - y) * f (IZR m) + (y - IZR m) * f (IZR m + 1) - f (IZR m)) with ((f (IZR m + 1) - f (IZR m)) * (y - z0)) by (rewrite E1; ring).
        rewrite Rabs_mult. apply Rmult_le_compat_r; [apply Rabs_pos|]. unfold K1 in *. rewrite plus_IZR. rewrite plus_IZR in *. lra.
      + rewrite (S (m - 1)%Z y) by (lia || (replace (m - 1 + 1)%Z with m by lia; rewrite minus_IZR; lra)). replace (m - 1 + 1)%Z with m by lia.
        rewrite G0. replace ((IZR m - y) * f (IZR (m - 1)) + (y - IZR (m - 1)) * f (IZR m) - f (IZR m)) with ((f (IZR m) - f (IZR (m - 1))) * (y - z0)).
        2:{ rewrite E1. rewrite (minus_IZR m 1). ring. }
        rewrite Rabs_mult. apply Rmult_le_compat_r; [apply Rabs_pos|]. fold K2. lra.
    - exists (Rabs (f (IZR (m + 1)) - f (IZR m))), (Rmin (z0 - IZR m) (IZR (m + 1) - z0)). split; [apply Rabs_pos|]. split; [apply Rmin_glb_lt; lra|].
      intros y Hy. assert (H1 := Rmin_l (z0 - IZR m) (IZR (m + 1) - z0)). assert (H2 := Rmin_r (z0 - IZR m) (IZR (m + 1) - z0)). apply Rabs_def2 in Hy.
      rewrite (S m y), (S m z0) by (lia || lra). rewrite <- Rabs_mult. right. f_equal. rewrite plus_IZR. ring. }
  destruct Hloc as (K & d & HK & Hd & HL).
  apply continuity_pt_filterlim. intros eps Heps. exists (Rmin d (eps / (K + 1))). split.
  - apply Rmin_glb_lt; [assumption|]. apply Rdiv_lt_0_compat; lra.
  - intros x [_ Hx]. unfold dist in *. cbn in *. unfold R_dist in *.
    assert (H1 := Rmin_l d (eps / (K + 1))). assert (H2 := Rmin_r d (eps / (K + 1))).
    apply Rle_lt_trans with (K * Rabs (x - z0)); [apply HL; lra|].
    assert (H3 : Rabs (x - z0) * (K + 1) < eps). { apply (Rmult_lt_reg_r (/ (K + 1))); [apply Rinv_0_lt_compat; lra|]. rewrite Rmult_assoc, Rinv_r by lra. unfold Rdiv in *. lra. }
    pose proof (Rabs_pos (x - z0)). nra.
Qed.
Print Assumptions C55_continuous.
Example C55_continuous_ex : continuous (over_charge (Z_A carbon) (charge_state unit_consts (Heaviside 0) carbon 1 10 2 1)) 3.
Proof. apply (C55_continuous _ _ _ _ _ _ _ 6); [reflexivity|lra]. Qed.
(** a charge state: the populated shells' profiles, each behind its own edge *)
Theorem C55_charge_state : forall u edge s r_k r E0 E k charge, let Zc := Z_A s - charge in
  0 <= charge -> 0 < Zc -> 0 < k -> (forall i, (i < 10)%nat -> Z_A s - nth i (pauling_size_screening_constants Zc) 0 <> 0) -> new_r_k s Zc r_k = Some r ->
  exists j, (forall i, (i < 10)%nat -> 0 < population Zc i ->
      let Zeff := Z_A s - nth i (pauling_size_screening_constants Zc) 0 in
      0 < Zeff /\ J_impulse_approx u ((E0 - E) / hbar u) k (population Zc i) i Zeff = Some (j i)) /\
    (forall i, population Zc i = 0 -> j i = 0) /\
    charge_state u edge s r_k E0 E k charge = r * sum (map (fun i => j i * edge E0 E (Rmax 0 (binding s charge i + ipd s))) (seq 0 10)).
Proof.
  intros u edge s r_k r E0 E k charge Zc Hch HZc Hk HZ Hr.
  exists (fun i => population Zc i * jhat u i (Z_A s - nth i (pauling_size_screening_constants Zc) 0) k ((E0 - E) / hbar u)).
  split; [|split].
  - intros i Hi Hp. cbv zeta. split; [pose proof (populated_charge i Zc Hp); unfold Zc in *; lra|]. rewrite impulse_pop. unfold jhat.
    destruct (J_some u ((E0 - E) / hbar u) k i (Z_A s - nth i (pauling_size_screening_constants Zc) 0)) as [v ->]; [assumption|now apply HZ|lra|]. reflexivity.
  - intros i ->. ring.
  - rewrite (charge_state_some u edge s r_k r) by (assumption || (unfold Zc in *; lra)). reflexivity.
Qed.
Print Assumptions C55_charge_state.
Example C55_charge_state_ex : exists j, charge_state unit_consts (Heaviside 0) carbon 1 10 2 1 2
  = 1 * sum (map (fun i => j i * Heaviside 0 10 2 (Rmax 0 (binding carbon 2 i + ipd carbon))) (seq 0 10)).
Proof.
  destruct (C55_charge_state unit_consts (Heaviside 0) carbon 1 1 10 2 1 2) as (j & _ & _ & E); [lra|cbn; lra|lra| |unfold new_r_k; destruct (Rlt_dec 1 0); [lra|reflexivity]|exists j; exact E].
  apply screening_apart. unfold carbon, screening_ranges. cbn [Z_A]. repeat constructor; lra.
Qed.
(** the empty 4f shell of technetium has effective charge zero; the nan it produces makes the
    bound-free spectrum of the whole element vanish, whatever its charge *)
Theorem C55_technetium_refuted : forall u edge s r_k E0 E k, Z_A s = 43 ->
  (forall charge, 0 <= charge <= 43 -> charge_state u edge s r_k E0 E k charge = 0) /\
  forall z, 0 <= z <= 43 -> over_charge (Z_A s) (charge_state u edge s r_k E0 E k) z = 0.
Proof.
  intros u edge s r_k E0 E k HZ.
  assert (A : forall charge, 0 <= charge <= 43 -> charge_state u edge s r_k E0 E k charge = 0).
  { intros charge Hc. apply (charge_state_nan u edge s r_k E0 E k charge 9); [lia|]. rewrite HZ. unfold pauling_size_screening_constants, screening_tables. cbn [map nth].
    rewrite left_value; [unfold at_; cbn [nth]; lra|incr|cbn; lia|unfold at_; cbn [nth]; lra]. }
  split; [exact A|]. intros z Hz. unfold over_charge. rewrite HZ.
  destruct (base_Int_part z) as [F1 F2]. assert (F0 : (0 <= Int_part z)%Z). { assert (IZR (-1) < IZR (Int_part z)) by (replace (IZR (-1)) with (-1) by reflexivity; lra). apply lt_IZR in H. lia. }
  apply IZR_le in F0.
  destruct (Req_EM_T z (rfloor z)); [now apply A|]. destruct (Rge_dec (rceil z) 43) as [G|G].
  - rewrite A; [ring|]. unfold rfloor. lra.
  - rewrite !A; [ring| |unfold rfloor; lra]. apply Rnot_ge_lt in G. split; [|lra]. unfold rceil, rfloor. destruct (base_Int_part (- z)). lra.
Qed.
Print Assumptions C55_technetium_refuted.
Example C55_technetium_ex : exists s, Z_A s = 43 /\ 0 < population (Z_A s) 0.
Proof.
  exists (mkIon 43 0 (fun _ _ => 1) 0 (fun _ => Some 1)). split; [reflexivity|]. unfold population. rewrite L_Elements.distribution_shells. cbn [nth Z_A].
  unfold L_Elements.shell, Rmax, Rmin; repeat destruct (Rle_dec _ _); lra.
Qed.
(** at integer charges the two models differ in the binding energies only *)
Theorem C55_cold_edges : forall u edge ions mean_Z_A r_k E0 E k, (forall s x, In (s, x) ions -> exists m, Z_free s = IZR m) ->
  SchumacherImpulse u edge ions mean_Z_A r_k E0 E k = SchumacherImpulseColdEdges u edge ions mean_Z_A r_k E0 E k.
Proof.
  intros u edge ions mean_Z_A r_k E0 E k H. unfold SchumacherImpulse, SchumacherImpulseColdEdges. f_equal.
  induction ions as [|[s x] ions IH]; cbn [fold_right]; [reflexivity|]. rewrite IH by (intros s' x' Hin; apply (H s' x'); now right). f_equal. f_equal.
  destruct (H s x (or_introl eq_refl)) as [m Em]. unfold over_charge. rewrite Em, (floor_unique (IZR m) m) by lra. destruct (Req_EM_T _ _); [reflexivity|contradiction].
Qed.
Print Assumptions C55_cold_edges.
Example C55_cold_edges_ex : forall E, SchumacherImpulse unit_consts (Heaviside 0) [(carbon, 1 / 2); (aluminium, 1 / 2)] 9 1 10 E 1
  = SchumacherImpulseColdEdges unit_consts (Heaviside 0) [(carbon, 1 / 2); (aluminium, 1 / 2)] 9 1 10 E 1.
Proof. intros E. apply C55_cold_edges. intros s x [H|[H|[]]]; injection H as <- <-; exists 0%Z; reflexivity. Qed.
(** the mixture is weighted with the number fractions and normalised by the mean nuclear charge *)
Theorem C55_species : forall u edge ions mean_Z_A r_k E0 E k, mean_Z_A <> 0 ->
  SchumacherImpulse u edge ions mean_Z_A r_k E0 E k
  = Some (sum (map (fun '(s, x) => x * over_charge (Z_A s) (charge_state u edge s r_k E0 E k) (Z_free s)) ions) / mean_Z_A).
Proof.
  intros u edge ions mean_Z_A r_k E0 E k H. unfold SchumacherImpulse. rewrite qdiv_some by assumption. f_equal. f_equal.
  induction ions as [|[s x] ions IH]; cbn; [reflexivity|]. rewrite IH. unfold sum. cbn. ring.
Qed.
Print Assumptions C55_species.
Example C55_species_ex : exists v, SchumacherImpulse unit_consts (Heaviside 0) [(carbon, 1)] 6 1 10 8 1 = Some v.
Proof. eexists. apply C55_species. lra. Qed.

(** ** C60: edges *)
Lemma heaviside_mono x y : x <= y -> 0 <= heaviside x <= 1 /\ heaviside x <= heaviside y.
Proof. intros H. unfold heaviside. destruct (Rlt_dec x 0), (Rlt_dec y 0), (Req_EM_T x 0), (Req_EM_T y 0); lra. Qed.
Definition logistic (x : R) : R := 1 - 1 / (exp x + 1).
Lemma logistic_props x : 0 < logistic x < 1 /\ logistic x + logistic (- x) = 1.
Proof.
  pose proof (exp_pos x) as H. unfold logistic. rewrite exp_Ropp. split; [|field; split; [|lra]; lra].
  assert (0 < 1 / (exp x + 1) < 1); [|lra]. split; [apply Rdiv_lt_0_compat; lra|]. apply (Rmult_lt_reg_r (exp x + 1)); [lra|]. unfold Rdiv. rewrite Rmult_assoc, Rinv_l by lra. lra.
Qed.
Lemma logistic_mono x y : x < y -> logistic x < logistic y.
Proof.
  intros H. apply exp_increasing in H. pose proof (exp_pos x). unfold logistic. apply Rplus_lt_compat_l, Ropp_lt_contravar.
  unfold Rdiv. rewrite !Rmult_1_l. apply Rinv_lt_contravar; [apply Rmult_lt_0_compat; lra|lra].
Qed.
Lemma logistic_small x : logistic x <= exp x.
Proof.
  pose proof (exp_pos x). unfold logistic. apply (Rmult_le_reg_r (exp x + 1)); [lra|].
  replace ((1 - 1 / (exp x + 1)) * (exp x + 1)) with (exp x) by (field; lra). nra.
Qed.
(** every edge stays within [0,1] and does not fall with the energy transfer *)
Theorem C60_switches : forall u T E0 E E' Eb, 0 < T -> E0 - E <= E0 - E' ->
  List.Forall (fun edge => 0 <= edge T E0 E Eb <= 1 /\ edge T E0 E Eb <= edge T E0 E' Eb) [NoEdge; NonNegative; Heaviside; Fermi u].
Proof.
  intros u T E0 E E' Eb HT H. pose proof (kB_pos u) as Hk. repeat apply List.Forall_cons; [| | | |apply List.Forall_nil].
  - unfold NoEdge. lra.
  - apply heaviside_mono. lra.
  - apply heaviside_mono. lra.
  - assert (HB : 0 < 1 / (T * kB u)) by (apply Rdiv_lt_0_compat; [lra|now apply Rmult_lt_0_compat]).
    destruct (logistic_props (1 / (T * kB u) * (E0 - E - Eb))) as [L _]. change (Fermi u T E0 E Eb) with (logistic (1 / (T * kB u) * (E0 - E - Eb))). split; [lra|].
    destruct (Req_EM_T E E') as [->|NE]; [right; reflexivity|]. left.
    apply (logistic_mono (1 / (T * kB u) * (E0 - E - Eb)) (1 / (T * kB u) * (E0 - E' - Eb))). apply Rmult_lt_compat_l; lra.
Qed.
Print Assumptions C60_switches.
Example C60_switches_ex : 0 <= Fermi unit_consts 1 3 2 4 <= 1 /\ Fermi unit_consts 1 3 2 4 <= Fermi unit_consts 1 3 1 4.
Proof. pose proof (C60_switches unit_consts 1 3 2 1 4 ltac:(lra) ltac:(lra)) as H. now inversion_clear H as [|? ? _ H1]; inversion_clear H1 as [|? ? _ H2]; inversion_clear H2 as [|? ? _ H3]; inversion_clear H3. Qed.
(** they are one half at the edge, the smooth one is symmetric about it and approaches the
    sharp one exponentially in the distance over the temperature *)
Theorem C60_half_at_the_edge : forall u T E0 E Eb, 0 < T ->
  Heaviside T E0 (E0 - Eb) Eb = 1 / 2 /\ Fermi u T E0 (E0 - Eb) Eb = 1 / 2 /\ NonNegative T E0 E0 Eb = 1 / 2 /\
  Fermi u T E0 (E0 - Eb - E) Eb + Fermi u T E0 (E0 - Eb + E) Eb = 1 /\
  (E0 - E <> Eb -> Rabs (Fermi u T E0 E Eb - Heaviside T E0 E Eb) <= exp (- Rabs (E0 - E - Eb) / (T * kB u))).
Proof.
  intros u T E0 E Eb HT. pose proof (kB_pos u) as Hk. assert (HD : 0 < T * kB u) by now apply Rmult_lt_0_compat.
  split; [|split; [|split; [|split]]].
  - unfold Heaviside, heaviside. replace (E0 - (E0 - Eb) - Eb) with 0 by ring. destruct (Rlt_dec 0 0); [lra|]. destruct (Req_EM_T 0 0); [reflexivity|contradiction].
  - unfold Fermi. replace (1 / (T * kB u) * (E0 - (E0 - Eb) - Eb)) with 0 by ring. rewrite exp_0. lra.
  - unfold NonNegative, heaviside. replace (E0 - E0) with 0 by ring. destruct (Rlt_dec 0 0); [lra|]. destruct (Req_EM_T 0 0); [reflexivity|contradiction].
  - destruct (logistic_props (1 / (T * kB u) * E)) as [_ L]. unfold Fermi. unfold logistic in L.
    replace (1 / (T * kB u) * (E0 - (E0 - Eb - E) - Eb)) with (1 / (T * kB u) * E) by ring. replace (1 / (T * kB u) * (E0 - (E0 - Eb + E) - Eb)) with (- (1 / (T * kB u) * E)) by ring. exact L.
  - intros NE. set (x := E0 - E - Eb). assert (Hx : x <> 0) by (unfold x; lra).
    change (Fermi u T E0 E Eb) with (logistic (1 / (T * kB u) * x)). unfold Heaviside, heaviside. fold x.
    destruct (logistic_props (1 / (T * kB u) * x)) as [L1 L2].
    destruct (Rlt_dec x 0) as [Hn|Hp].
    + rewrite Rminus_0_r, Rabs_pos_eq by lra. rewrite (Rabs_left x) by lra. replace (- - x / (T * kB u)) with (1 / (T * kB u) * x) by (field; lra). apply logistic_small.
    + destruct (Req_EM_T x 0); [contradiction|]. rewrite (Rabs_left (_ - 1)) by lra. rewrite (Rabs_pos_eq x) by lra.
      replace (- (logistic (1 / (T * kB u) * x) - 1)) with (logistic (- (1 / (T * kB u) * x))) by lra.
      replace (- x / (T * kB u)) with (- (1 / (T * kB u) * x)) by (field; lra). apply logistic_small.
Qed.
Print Assumptions C60_half_at_the_edge.
Example C60_half_ex : Fermi unit_consts 1 8 (8 - 3) 3 = 1 / 2.
Proof. apply (C60_half_at_the_edge unit_consts 1 8 0 3). lra. Qed.
(** the sharp edge lets pass exactly the transfers above the binding energy *)
Theorem C60_sharp : forall T E0 E Eb, (Heaviside T E0 E Eb = 0 <-> E0 - E < Eb) /\ (Heaviside T E0 E Eb = 1 <-> Eb < E0 - E) /\
  (NonNegative T E0 E Eb = 0 <-> E0 < E) /\ (NonNegative T E0 E Eb = 1 <-> E < E0) /\ NoEdge T E0 E Eb = 1.
Proof.
  intros. unfold Heaviside, NonNegative, heaviside, NoEdge. destruct (Rlt_dec (E0 - E - Eb) 0), (Req_EM_T (E0 - E - Eb) 0), (Rlt_dec (E0 - E) 0), (Req_EM_T (E0 - E) 0); repeat split; intros; lra.
Qed.
Print Assumptions C60_sharp.

(** ** C61: detailed balance *)
Lemma flip_k u s n_e i : flip_dispersion_corrected_k u (flip s) n_e i = dispersion_corrected_k u s n_e i.
Proof.
  unfold flip_dispersion_corrected_k, dispersion_corrected_k, flip. cbn. replace (2 * energy s - (2 * energy s - measured s i)) with (measured s i) by ring. reflexivity.
Qed.
(** the free-bound spectrum of a channel is the bound-free one at the mirrored energy, with
    the wavenumber of the channel itself, times the Boltzmann factor of its energy gain *)
Theorem C61_mirrored : forall u bf T n_e s i, T <> 0 ->
  DetailedBalance u bf T n_e s i = obind (dispersion_corrected_k u s n_e i) (fun k =>
    obind (bf (energy s) (energy s - (measured s i - energy s)) k) (fun f => Some (f * exp (- (measured s i - energy s) / (T * kB u))))).
Proof.
  intros u bf T n_e s i HT. pose proof (kB_pos u). unfold DetailedBalance, bf_raw_flipped.
  rewrite qdiv_some by (apply Rmult_integral_contrapositive_currified; lra). cbn [obind]. rewrite flip_k.
  destruct (dispersion_corrected_k u s n_e i) as [k|]; cbn [obind]; [|reflexivity]. unfold flip. cbn.
  replace (2 * energy s - measured s i) with (energy s - (measured s i - energy s)) by ring. reflexivity.
Qed.
Print Assumptions C61_mirrored.
(** mirroring twice restores every energy and the probe *)
Theorem C61_involution : forall u s, energy (flip s) = energy s /\ angle (flip s) = angle s /\
  (forall i, measured (flip (flip s)) i = measured s i) /\ (forall i, measured (flip s) i - energy s = - (measured s i - energy s)) /\
  (forall i, flip_full_k u (flip s) i = full_k u s i) /\ forall n_e i, flip_dispersion_corrected_k u (flip s) n_e i = dispersion_corrected_k u s n_e i.
Proof.
  intros u s. unfold flip at 1 2 3 4. cbn. repeat split; intros; try ring; [|apply flip_k].
  unfold flip_full_k, full_k, flip. cbn. replace (2 * energy s - (2 * energy s - measured s i)) with (measured s i) by ring. reflexivity.
Qed.
Print Assumptions C61_involution.
(** with a common wavenumber the two contributions together obey detailed balance; this is the
    case when the dispersion correction is off *)
Theorem C61_balance_partial : forall u bf T n_e s i j, 0 < T -> correct_k_dispersion s = false -> measured s j = 2 * energy s - measured s i ->
  (forall E, exists v, bf (energy s) E (k u s) = Some v) ->
  exists bi fi bj fj, bf_raw u bf s n_e i = Some bi /\ DetailedBalance u bf T n_e s i = Some fi /\
    bf_raw u bf s n_e j = Some bj /\ DetailedBalance u bf T n_e s j = Some fj /\
    bj + fj = exp (- (energy s - measured s i) / (T * kB u)) * (bi + fi).
Proof.
  intros u bf T n_e s i j HT Hc Hm Hb. rewrite !C61_mirrored by lra. unfold bf_raw, dispersion_corrected_k. rewrite Hc. cbn [obind].
  destruct (Hb (measured s i)) as [bi Ei]. destruct (Hb (measured s j)) as [bj Ej].
  replace (energy s - (measured s i - energy s)) with (measured s j) by lra. replace (energy s - (measured s j - energy s)) with (measured s i) by lra.
  rewrite Ei, Ej. cbn [obind]. do 4 eexists. split; [reflexivity|]. split; [reflexivity|]. split; [reflexivity|]. split; [reflexivity|].
  pose proof (kB_pos u). set (x := (energy s - measured s i) / (T * kB u)).
  replace (- (energy s - measured s i) / (T * kB u)) with (- x) by (unfold x; field; lra).
  replace (- (measured s j - energy s) / (T * kB u)) with (- x) by (unfold x; rewrite Hm; field; lra).
  replace (- (measured s i - energy s) / (T * kB u)) with x by (unfold x; field; lra).
  rewrite Rmult_plus_distr_l. assert (EX : exp (- x) * exp x = 1) by (rewrite <- exp_plus; replace (- x + x) with 0 by ring; apply exp_0).
  replace (exp (- x) * (bj * exp x)) with (bj * (exp (- x) * exp x)) by ring. rewrite EX. ring.
Qed.
Print Assumptions C61_balance_partial.
Definition ex_setup (corr : bool) : setup := mkSetup PI 2 2 (fun i => match i with 0%nat => 1 | _ => 3 end) (fun _ => 1) corr 0.
Example C61_balance_ex : exists bi fi bj fj, bf_raw unit_consts (fun E0 E k => Some (E * k)) (ex_setup false) 1 0 = Some bi /\
  DetailedBalance unit_consts (fun E0 E k => Some (E * k)) 1 1 (ex_setup false) 0 = Some fi /\
  bf_raw unit_consts (fun E0 E k => Some (E * k)) (ex_setup false) 1 1 = Some bj /\
  DetailedBalance unit_consts (fun E0 E k => Some (E * k)) 1 1 (ex_setup false) 1 = Some fj /\
  bj + fj = exp (- (2 - 1) / (1 * kB unit_consts)) * (bi + fi).
Proof. apply (C61_balance_partial unit_consts (fun E0 E k => Some (E * k)) 1 1 (ex_setup false) 0 1); [lra|reflexivity|cbn; lra|eauto]. Qed.
(** with the correction on, the mirrored channel has another wavenumber and the sum misses
    detailed balance *)
Theorem C61_balance_refuted : exists u bf T n_e s i j, 0 < T /\ correct_k_dispersion s = true /\ measured s j = 2 * energy s - measured s i /\
  exists bi fi bj fj, bf_raw u bf s n_e i = Some bi /\ DetailedBalance u bf T n_e s i = Some fi /\
    bf_raw u bf s n_e j = Some bj /\ DetailedBalance u bf T n_e s j = Some fj /\
    bj + fj <> exp (- (energy s - measured s i) / (T * kB u)) * (bi + fi).
Proof.
  exists unit_consts, (fun _ _ k => Some k), 1, 0, (ex_setup true), 0%nat, 1%nat. split; [lra|]. split; [reflexivity|]. split; [cbn; lra|].
  assert (K : forall i, dispersion_corrected_k unit_consts (ex_setup true) 0 i = Some (2 + measured (ex_setup true) i)).
  { intros i. unfold dispersion_corrected_k. cbn [correct_k_dispersion ex_setup]. 
    assert (P0 : M_PlasmaPhysics.plasma_frequency unit_consts 0 = 0) by (unfold M_PlasmaPhysics.plasma_frequency; rewrite Rmult_0_r; unfold Rdiv; rewrite Rmult_0_l; apply sqrt_0).
    rewrite P0. replace (0 ^ 2) with 0 by ring. unfold Rdiv at 1 3. rewrite !Rmult_0_l, !Rminus_0_r. rewrite !sqrto_some by lra. rewrite !sqrt_1. cbn [angle energy ex_setup]. rewrite cos_PI.
    assert (HM : 0 < measured (ex_setup true) i) by (cbn; destruct i; lra). set (e := measured (ex_setup true) i) in *. clearbody e. unfold unit_consts; cbn [hbar c_light].
    match goal with |- sqrto ?x = _ => replace x with ((2 + e) ^ 2) by (cbn; field) end. rewrite sqrto_some by apply pow2_ge_0. f_equal. apply sqrt_pow2. lra. }
  rewrite !C61_mirrored by lra. unfold bf_raw. rewrite !K. cbn [obind]. do 4 eexists. split; [reflexivity|]. split; [reflexivity|]. split; [reflexivity|]. split; [reflexivity|].
  cbn. replace (- (1 - 2) / (1 * 1)) with 1 by field. replace (- (3 - 2) / (1 * 1)) with (- (1)) by field. replace (- (2 - 1) / (1 * 1)) with (- (1)) by field.
  intros H. assert (EX : exp (- (1)) * exp 1 = 1) by (rewrite <- exp_plus; replace (- (1) + 1) with 0 by ring; apply exp_0).
  pose proof (exp_pos (- (1))). nra.
Qed.
Print Assumptions C61_balance_refuted.

(** ** C106: signs of the profiles *)
Theorem C106_profiles_positive : forall u i w k Z, (i < 10)%nat -> 0 < Z -> 0 < k -> exists v, all_J_Schum75 u w k i Z = Some v /\ 0 < v.
Proof.
  intros u i w k Z Hi HZ Hk. destruct (orbitals_some i Hi) as (n & l & Ho). destruct (orbital_phi i n l Ho) as [p Hp].
  unfold all_J_Schum75. rewrite (nth_error_nth _ _ _ Ho), (Schum75_some u n l p) by (assumption || lra). eexists. split; [reflexivity|].
  apply Rmult_lt_0_compat; [apply pref_pos; [destruct n; [discriminate|lia]|assumption]|]. apply (phi_nonneg i n l); [assumption|assumption|].
  pose proof (pow2_ge_0 (xi_ u n Z k w)). lra.
Qed.
Print Assumptions C106_profiles_positive.
Example C106_profiles_positive_ex : exists v, all_J_Schum75 unit_consts (- 7) 2 3 5 = Some v /\ 0 < v.
Proof. apply C106_profiles_positive; [lia|lra|lra]. Qed.
(** outside the K and L shells the spectrum is the population times a positive number *)
Theorem C106_outer_shells : forall u i w k pop Z, (3 <= i < 10)%nat -> 0 < Z -> 0 < k -> 0 <= pop ->
  exists v, J_impulse_approx u w k pop i Z = Some v /\ 0 <= v.
Proof.
  intros u i w k pop Z Hi HZ Hk Hp. destruct (C106_profiles_positive u i w k Z ltac:(lia) HZ Hk) as (v & E & Hv). pose proof (c_pos u).
  unfold J_impulse_approx. rewrite E. destruct i as [|[|[|i]]]; [lia|lia|lia|]. cbn [obind all_J_HR].
  rewrite qdiv_some by (apply Rmult_integral_contrapositive_currified; lra). eexists. split; [reflexivity|].
  apply Rle_mult_inv_pos; [apply Rmult_le_pos; lra|now apply Rmult_lt_0_compat].
Qed.
Print Assumptions C106_outer_shells.
Example C106_outer_shells_ex : exists v, J_impulse_approx unit_consts 1 1 2 3 11 = Some v /\ 0 <= v.
Proof. apply C106_outer_shells; [lia|lra|lra|lra]. Qed.
(** the correction of the 1s shell makes every populated 1s spectrum negative somewhere,
    namely far enough on the side of energy gain *)
Theorem C106_impulse_refuted : forall u k pop Z, 0 < Z -> 0 < k -> 0 < pop -> exists w0, forall w, w < w0 ->
  exists v, J_impulse_approx u w k pop 0 Z = Some v /\ v < 0.
Proof.
  intros u k pop Z HZ Hk Hp. pose proof (alpha_pos u) as Ha. pose proof (c_pos u) as Hc. pose proof (a_0_pos u) as H0. pose proof PI_RGT_0 as HPI.
  set (cc := Z * alpha u / (k * a_0 u)). assert (Hcc : 0 < cc) by (unfold cc; pos).
  set (A := INR 1 / (c_light u * k * (Z * alpha u))). assert (HA : 0 < A) by (unfold A; apply Rdiv_lt_0_compat; [cbn; lra|pos]).
  set (X := - (1 / cc + PI)). exists (X / A + hbar u * k ^ 2 / (2 * m_e u)). intros w Hw.
  eexists. split; [apply (impulse_some u k pop 0 Z w 1 0 phi10); [reflexivity|reflexivity|assumption|assumption]|].
  assert (HX : xi_ u 1 Z k w < X).
  { unfold xi_. fold A. apply (Rmult_lt_reg_r (/ A)); [now apply Rinv_0_lt_compat|].
    replace (A * (w - hbar u * k ^ 2 / (2 * m_e u)) * / A) with (w - hbar u * k ^ 2 / (2 * m_e u)) by (field; pose proof (m_e_pos u); repeat split; lra).
    unfold Rdiv in *. lra. }
  set (x := xi_ u 1 Z k w) in *. clearbody x. fold cc.
  assert (HJ : 0 < pref u 1 0 Z * phi10 (1 + x ^ 2) / (c_light u * k)).
  { apply Rdiv_lt_0_compat; [|now apply Rmult_lt_0_compat]. apply Rmult_lt_0_compat; [apply pref_pos; [lia|assumption]|].
    apply (phi_nonneg 0 1 0 phi10); [reflexivity|reflexivity|]. pose proof (pow2_ge_0 x). lra. }
  assert (HN : 1 + cc * hr 0 x < 0).
  { cbn [hr]. destruct (atan_bound x) as [B _]. unfold X in HX.
    assert (Q : 3 / 2 * x - 2 * atan x < - (1 / cc)) by (assert (0 < 1 / cc) by (apply Rdiv_lt_0_compat; lra); lra).
    apply (Rmult_lt_compat_l cc) in Q; [|assumption]. replace (cc * - (1 / cc)) with (-1) in Q by (field; lra). lra. }
  set (J := pref u 1 0 Z * phi10 (1 + x ^ 2) / (c_light u * k)) in *. clearbody J. set (y := 1 + cc * hr 0 x) in *. clearbody y.
  assert (0 < pop * J) by now apply Rmult_lt_0_compat. nra.
Qed.
Print Assumptions C106_impulse_refuted.
Example C106_impulse_refuted_ex : exists w v, J_impulse_approx unit_consts w 1 2 0 4 = Some v /\ v < 0.
Proof.
  destruct (C106_impulse_refuted unit_consts 1 2 4 ltac:(lra) ltac:(lra) ltac:(lra)) as [w0 H]. destruct (H (w0 - 1) ltac:(lra)) as (v & Hv). exists (w0 - 1), v. exact Hv.
Qed.
(** a profile the code offers but does not use: the 5p one has a negative integral *)
Theorem C106_5p_refuted : forall u Z k, 0 < Z -> 0 < k -> exists w v, J_Schum75 u 5 1 w k Z = Some v /\ v < 0.
Proof.
  intros u Z k HZ Hk. pose proof (c_pos u) as Hc.
  destruct (C53_integrals u 5 1 (- (86511 / 4)) Z k) as (f & A & C & L); [unfold profile_integrals; cbn [In]; tauto|assumption|assumption|].
  specialize (L 0). destruct (Classical_Prop.classic (exists w, f w < 0)) as [[w Hw]|N]; [exists w, (f w); auto|]. exfalso.
  assert (P : forall w, 0 <= f w) by (intros w; apply Rnot_lt_le; intros H; apply N; now exists w).
  assert (B : Rbar_le 0 (- (86511 / 4))); [|cbn in B; lra].
  apply (is_lim_le_loc (fun _ => 0) (fun M => RInt (fun w => f w / (c_light u * k)) (0 - M) (0 + M)) p_infty); [|apply is_lim_const|exact L].
  exists 0. intros M HM. apply RInt_ge_0; [lra| |].
  - apply (ex_RInt_continuous (V := R_CompleteNormedModule)). intros z _.
    apply (continuous_mult (K := R_AbsRing) f (fun _ => / (c_light u * k))); [apply C|apply continuous_const].
  - intros x _. apply Rle_mult_inv_pos; [apply P|now apply Rmult_lt_0_compat].
Qed.
Print Assumptions C106_5p_refuted.

(** ** C107: the elastic fraction fitted to the f-sum rule *)
Lemma map2_combine {A B C} (f : A -> B -> C) l : forall l', map2 f l l' = map (fun p => f (fst p) (snd p)) (combine l l').
Proof. induction l as [|x l IH]; intros [|y l']; cbn; [reflexivity..|]. now rewrite IH. Qed.
Lemma fsum_derive u small S E c : is_derive (fun t => M_Analysis.twoSidedLaplace (hbar u) small S t E (- c) c) 0 (ITCF_fsum u small S E c).
Proof. unfold ITCF_fsum. apply Derive_correct. destruct (P_Analysis.C68_moments (hbar u) small S E (- c) c (hbar_pos u)) as [_ D]. eexists. exact D. Qed.
Lemma fsum_linear u small S1 S2 E c a b : length S1 = length S2 -> length E = length S1 ->
  ITCF_fsum u small (map2 (fun x y => a * x + b * y) S1 S2) E c = a * ITCF_fsum u small S1 E c + b * ITCF_fsum u small S2 E c.
Proof.
  intros H1 H2. unfold ITCF_fsum at 1. apply is_derive_unique.
  apply (is_derive_ext (fun t => plus (scal a (M_Analysis.twoSidedLaplace (hbar u) small S1 t E (- c) c)) (scal b (M_Analysis.twoSidedLaplace (hbar u) small S2 t E (- c) c)))).
  - intros t. rewrite map2_combine. symmetry. apply P_Analysis.C26_linear; [apply hbar_pos|assumption|assumption].
  - apply (is_derive_plus (V := R_NormedModule)); apply (is_derive_scal (fun t => M_Analysis.twoSidedLaplace (hbar u) small _ t E (- c) c)); apply fsum_derive.
Qed.
(** the total spectrum with the fitted fraction has the first moment of the sum rule, whatever
    the three spectra, the grid and the window *)
Theorem C107_sum_rule : forall u small k E0 E ff bf fb r, length ff = length E -> length bf = length E -> length fb = length E ->
  fit_r_k u small k E0 E ff bf fb = Some r ->
  let total := map2 (fun x y => x + r * y) ff (map2 Rplus fb bf) in
  let E_cut := M_Analysis.rmax_list (map (fun e => e - E0) E) in
  is_derive (fun tau => M_Analysis.twoSidedLaplace (hbar u) small total tau (map (fun e => - (e - E0)) E) (- E_cut) E_cut) 0
    (- (hbar u ^ 2 * k ^ 2 / (2 * m_e u))).
Proof.
  intros u small k E0 E ff bf fb r L1 L2 L3 H total E_cut. unfold fit_r_k in H. fold E_cut in H. unfold M_Analysis.shift_of in H. unfold qdiv in H.
  match type of H with (if Req_EM_T ?d 0 then _ else Some (?n / ?d)) = _ => set (D := d) in *; set (Nn := n) in *; destruct (Req_EM_T D 0) as [|HD]; [discriminate|]; assert (ER : Nn = r * D) by (injection H as <-; field; exact HD) end.
  assert (LL : length (map2 Rplus fb bf) = length E). { rewrite map2_combine, map_length, combine_length. rewrite L2, L3. apply Nat.min_id. }
  pose proof (fsum_derive u small total (map (fun e => - (e - E0)) E) E_cut) as F.
  replace (- (hbar u ^ 2 * k ^ 2 / (2 * m_e u))) with (ITCF_fsum u small total (map (fun e => - (e - E0)) E) E_cut); [exact F|].
  unfold total. assert (EM : map2 (fun x y => x + r * y) ff (map2 Rplus fb bf) = map2 (fun x y => 1 * x + r * y) ff (map2 Rplus fb bf)).
  { rewrite !map2_combine. apply map_ext. intros; ring. }
  rewrite EM, fsum_linear by (rewrite ?map_length; congruence). fold D. rewrite <- ER. unfold Nn. field. apply Rgt_not_eq, m_e_pos.
Qed.
Print Assumptions C107_sum_rule.
(** and it is the only such fraction *)
Theorem C107_unique : forall u small k E0 E ff bf fb r, length ff = length E -> length bf = length E -> length fb = length E ->
  let shift := map (fun e => - (e - E0)) E in
  let E_cut := M_Analysis.rmax_list (map (fun e => e - E0) E) in
  let slope S := Derive (fun tau => M_Analysis.twoSidedLaplace (hbar u) small S tau shift (- E_cut) E_cut) 0 in
  slope (map2 Rplus fb bf) <> 0 -> slope (map2 (fun x y => x + r * y) ff (map2 Rplus fb bf)) = - (hbar u ^ 2 * k ^ 2 / (2 * m_e u)) ->
  fit_r_k u small k E0 E ff bf fb = Some r.
Proof.
  intros u small k E0 E ff bf fb r L1 L2 L3 shift E_cut slope HD HS. unfold fit_r_k. fold E_cut. change (M_Analysis.shift_of E0 E) with shift.
  rewrite qdiv_some by exact HD. f_equal.
  assert (LL : length (map2 Rplus fb bf) = length E). { rewrite map2_combine, map_length, combine_length. rewrite L2, L3. apply Nat.min_id. }
  assert (EM : map2 (fun x y => x + r * y) ff (map2 Rplus fb bf) = map2 (fun x y => 1 * x + r * y) ff (map2 Rplus fb bf)).
  { rewrite !map2_combine. apply map_ext. intros; ring. }
  assert (LIN := fsum_linear u small ff (map2 Rplus fb bf) shift E_cut 1 r ltac:(congruence) ltac:(unfold shift; rewrite map_length; congruence)).
  rewrite <- EM in LIN. change (slope (map2 (fun x y => x + r * y) ff (map2 Rplus fb bf)) = 1 * slope ff + r * slope (map2 Rplus fb bf)) in LIN. rewrite HS in LIN.
  change ((-1 * hbar u ^ 2 * k ^ 2 / (2 * m_e u) - slope ff) / slope (map2 Rplus fb bf) = r).
  apply (Rmult_eq_reg_r (slope (map2 Rplus fb bf))); [|exact HD]. pose proof (m_e_pos u). 
  replace (-1 * hbar u ^ 2 * k ^ 2 / (2 * m_e u)) with (- (hbar u ^ 2 * k ^ 2 / (2 * m_e u))) by (field; lra). rewrite LIN. field. exact HD.
Qed.
Print Assumptions C107_unique.
Ltac rdec := repeat (cbn; match goal with |- context [Rle_dec ?a ?b] => destruct (Rle_dec a b); try (exfalso; lra) end); cbn.
Lemma one_channel v : ITCF_fsum unit_consts (1 / 2) [v] [- (1)] 1 = 3 / 8 * v.
Proof.
  unfold ITCF_fsum. apply is_derive_unique. destruct (P_Analysis.C68_moments (hbar unit_consts) (1 / 2) [v] [- (1)] (- (1)) 1 (hbar_pos _)) as [_ D].
  match type of D with is_derive _ _ ?t => replace (3 / 8 * v) with t; [exact D|] end.
  assert (G : M_Analysis.lap_grid (1 / 2) [- (1)] (- (1)) 1 = [- (1) - 1 / 2; - (1); - (1) + 1 / 2; 1 - 1 / 2; 1 + 1 / 2]).
  { unfold M_Analysis.lap_grid. rdec. reflexivity. }
  rewrite G. cbn [map]. assert (I : forall e, interp None None (map fst (M_Analysis.lap_samples [v] [- (1)])) (map snd (M_Analysis.lap_samples [v] [- (1)])) e = v).
  { intros e. apply (P_Analysis.constant_samples v [- (1)] e). cbn. lia. }
  rewrite !I. unfold trapz, unit_consts. rdec. field.
Qed.
Example C107_sum_rule_ex : exists r, fit_r_k unit_consts (1 / 2) 2 (- 1) [0] [1] [2] [3] = Some r /\ r <> 0.
Proof.
  unfold fit_r_k. cbn [map map2 M_Analysis.rmax_list fold_right]. unfold M_Analysis.shift_of. cbn [map].
  replace (0 - -1) with 1 by ring.
  rewrite !one_channel. rewrite qdiv_some by lra. eexists. split; [reflexivity|]. unfold unit_consts. cbn. lra.
Qed.

(** ** C54: outside these shells the approximations drop the electrons *)
Theorem C54_outer_shells_dropped : forall u w k pop i Z, (3 <= i < 10)%nat -> 0 < Z -> 0 < k -> 0 < pop ->
  J_BM_approx u w k pop i Z = Some 0 /\ J_BM_HR_approx u w k pop i Z = Some 0 /\ exists v, J_impulse_approx u w k pop i Z = Some v /\ 0 < v.
Proof.
  intros u w k pop i Z Hi HZ Hk Hp. destruct (C106_profiles_positive u i w k Z ltac:(lia) HZ Hk) as (v & E & Hv). pose proof (c_pos u).
  assert (HD : 0 < c_light u * k) by (apply Rmult_lt_0_compat; lra).
  unfold J_BM_approx, J_BM_HR_approx, J_impulse_approx. rewrite E. destruct i as [|[|[|i]]]; [lia|lia|lia|]. cbn [obind all_J_BM all_J_HR].
  rewrite !qdiv_some by lra. split; [f_equal; field; split; lra|]. split; [f_equal; field; split; lra|]. eexists. split; [reflexivity|].
  apply Rdiv_lt_0_compat; [apply Rmult_lt_0_compat; lra|assumption].
Qed.
Print Assumptions C54_outer_shells_dropped.
Example C54_outer_shells_dropped_ex : J_BM_approx unit_consts 1 2 6 4 9 = Some 0 /\ (3 <= 4 < 10)%nat.
Proof. split; [apply C54_outer_shells_dropped; try lra; lia|lia]. Qed.
