(** The Bethe-Uhlenbeck iteration (C131). *)
From Coq Require Import Reals List Bool Arith ZArith Lra Lia Psatz.
From Coquelicot Require Import Coquelicot.
From Verif Require Import M_Const M_PlasmaState M_Interp M_Helpers L_Helpers P_Helpers M_PlasmaPhysics M_Ionization L_IPD L_Ionization P_Ionization P_Ionization2 M_IonizationBU.
Import ListNotations.
Open Scope R_scope.

(** One round: the lowering and the chemical potential are those of the charges [Z]
    and populations [d] before it, the electron density entering the coefficients too *)
Definition bu_round (u : consts) (fuel : nat) (ipd : list R -> option (list R) -> option (list (list R))) (chem_pot n_e : list R -> option R) levels (els : list elem) (T_e : R) (Ns : list R) (use_ipd use_d : bool) (Z d dist Zm : list R) : Prop :=
  exists cl ne mu n,
    (if use_ipd then ipd Z (if use_d then Some d else None) = Some cl else cl = map (fun '(Z, _, _) => repeat 0 Z) els) /\
    chem_pot Z = Some mu /\ n_e Z = Some n /\ solve_BU u fuel levels els T_e n Ns (Some cl) mu = Some (dist, ne, Zm).
Theorem C131_last_iteration : forall u fuel (ipd : list R -> option (list R) -> option (list (list R))) (chem_pot n_e : list R -> option R) levels els T_e Ns a b dist Zm,
  mean_free_charge_BU u fuel ipd chem_pot n_e levels els T_e Ns a b = Some (dist, Zm) ->
  exists Z' d' Z'' d'', bu_round u fuel ipd chem_pot n_e levels els T_e Ns a b Z'' d'' d' Z' /\
    bu_round u fuel ipd chem_pot n_e levels els T_e Ns a b Z' d' dist Zm.
Proof.
  intros u fuel ipd chem_pot n_e levels els T_e Ns a b dist Zm H. unfold mean_free_charge_BU in H.
  match type of H with obind ?x _ = _ => destruct x as [[[d0 n0] Z0]|]; [|discriminate] end. cbn [obind] in H.
  match type of H with obind (Nat.iter 6 (fun s => obind s ?st) _) _ = _ => set (step := st) in H end.
  assert (St : forall Z dd zz r, step (Z, dd, zz) = Some r -> exists dist' Zm', r = (Zm', dist', Zm') /\ bu_round u fuel ipd chem_pot n_e levels els T_e Ns a b Z dd dist' Zm').
  { intros Z dd zz r Hr. unfold step in Hr. unfold bu_round.
    match type of Hr with obind ?x _ = _ => destruct x as [cl|] eqn:Ecl; [|discriminate] end. cbn [obind] in Hr.
    destruct (chem_pot Z) as [mu|]; [|discriminate]. cbn [obind] in Hr. destruct (n_e Z) as [n|]; [|discriminate]. cbn [obind] in Hr.
    destruct (solve_BU _ _ _ _ _ _ _ _ _) as [[[d1 n1] Z1]|] eqn:Es; [|discriminate]. injection Hr as <-.
    exists d1, Z1. split; [reflexivity|]. exists cl, n1, mu, n. split; [|repeat split; exact Es].
    destruct a; [exact Ecl|]. unfold no_lowering in Ecl. congruence. }
  change (Nat.iter 6 (fun s => obind s step) ?x) with (obind (obind (Nat.iter 4 (fun s => obind s step) x) step) step) in H.
  destruct (Nat.iter 4 _ _) as [[[Z4 d4] z4]|]; [|discriminate]. cbn [obind] in H.
  destruct (step (Z4, d4, z4)) as [r5|] eqn:E5; [|discriminate]. cbn [obind] in H. destruct (St _ _ _ _ E5) as (d5 & Z5 & -> & S5).
  destruct (step (Z5, d5, Z5)) as [r6|] eqn:E6; [|discriminate]. cbn [obind] in H. destruct (St _ _ _ _ E6) as (d6 & Z6 & -> & S6).
  injection H as <- <-. exists Z5, d5, Z4, d4. split; assumption.
Qed.
Print Assumptions C131_last_iteration.

(** The populations returned are densities: they add up to the density of nuclei,
    one mean charge per element, none negative *)
Theorem C131_densities : forall u fuel ipd chem_pot n_e levels els T_e Ns a b dist Zm,
  mean_free_charge_BU u fuel ipd chem_pot n_e levels els T_e Ns a b = Some (dist, Zm) ->
  sum dist = sum Ns /\ length Zm = length els /\ List.Forall (fun z => 0 <= z) Zm.
Proof.
  intros u fuel ipd chem_pot n_e levels els T_e Ns a b dist Zm H.
  destruct (C131_last_iteration _ _ _ _ _ _ _ _ _ _ _ _ _ H) as (Z' & d' & _ & _ & _ & cl & ne & mu & n & _ & _ & _ & Hs).
  unfold solve_BU in Hs. destruct (Nat.eqb _ _); [|discriminate]. destruct (seq_opt _) as [bts|]; [|discriminate]. cbn [obind] in Hs.
  destruct (C91_solver_sums _ _ _ _ _ _ _ Hs) as (A1 & _ & A2 & A3 & _ & A4). rewrite map_length in A3. repeat split; [exact A1|exact (eq_trans A2 (eq_sym A3))|exact A4].
Qed.
Print Assumptions C131_densities.

(** With the chemical potential of a classical ideal gas the electron density drops
    out of the coefficients, so without lowering the six rounds return what one does *)
Definition mu_classical (u : consts) (T n : R) : R := kB u * T * ln (n * therm_de_broglie_wl u T ^ 3 / 2).
Lemma solve_BU_classical u fuel levels els T Ns cl n n' : 0 < T -> 0 < n -> 0 < n' ->
  solve_BU u fuel levels els T n Ns cl (mu_classical u T n) = solve_BU u fuel levels els T n' Ns cl (mu_classical u T n').
Proof.
  intros HT Hn Hn'. pose proof (kB_pos u) as Hk.
  assert (HL : 0 < therm_de_broglie_wl u T) by (apply (C88_saha u 1 1 T 1 1); lra).
  assert (K : forall m, 0 < m -> m * exp (- mu_classical u T m / (1 * kB u * T)) = 2 / therm_de_broglie_wl u T ^ 3).
  { intros m Hm. unfold mu_classical. replace (- (kB u * T * ln (m * therm_de_broglie_wl u T ^ 3 / 2)) / (1 * kB u * T)) with (- ln (m * therm_de_broglie_wl u T ^ 3 / 2)) by (field; split; lra).
    assert (H3 : 0 < therm_de_broglie_wl u T ^ 3) by (now apply pow_lt).
    rewrite exp_Ropp, exp_ln; [field; split; lra|]. apply Rdiv_lt_0_compat; [now apply Rmult_lt_0_compat|lra]. }
  assert (G : forall pi pj, gen_balance_equation u pi pj T n (mu_classical u T n) = gen_balance_equation u pi pj T n' (mu_classical u T n')).
  { intros pi pj. unfold gen_balance_equation. destruct (qdiv pj pi) as [q|]; [|reflexivity]. rewrite (Rmult_assoc q n), (Rmult_assoc q n'), !K by assumption; reflexivity. }
  assert (Bt : forall lv E ipd, bu_balance_term u lv E ipd T n (mu_classical u T n) = bu_balance_term u lv E ipd T n' (mu_classical u T n')).
  { intros lv E ipd. unfold bu_balance_term. destruct (shifted E ipd) as [Eb|]; [|reflexivity]. cbn [obind]. f_equal. f_equal.
    generalize (map2 (fun ge Eb => planck_larkin_partition_sum u (fst ge) (map (fun E => Eb - E) (snd ge)) T) lv Eb ++ [1]). intros l.
    induction l as [|x l IH]; [reflexivity|]. destruct l as [|y l]; [reflexivity|]. cbn [pairwise] in *. now rewrite G, IH. }
  unfold solve_BU. destruct (Nat.eqb _ _); [|reflexivity]. f_equal. f_equal.
  generalize (combine levels els). intros l. generalize (match cl with Some c => c | None => no_lowering els end). intros c. revert c.
  induction l as [|[lv [[Z g] E]] l IH]; intros [|i c]; cbn [map2]; try reflexivity. now rewrite Bt, IH.
Qed.
Theorem C131_classical : forall u fuel ipd chem_pot n_e levels els T_e Ns b dist Zm, 0 < T_e ->
  (forall Z n, n_e Z = Some n -> 0 < n /\ chem_pot Z = Some (kB u * T_e * ln (n * therm_de_broglie_wl u T_e ^ 3 / 2))) ->
  mean_free_charge_BU u fuel ipd chem_pot n_e levels els T_e Ns false b = Some (dist, Zm) ->
  exists ne, forall n, 0 < n -> solve_BU u fuel levels els T_e n Ns None (kB u * T_e * ln (n * therm_de_broglie_wl u T_e ^ 3 / 2)) = Some (dist, ne, Zm).
Proof.
  intros u fuel ipd chem_pot n_e levels els T_e Ns b dist Zm HT HM H.
  destruct (C131_last_iteration _ _ _ _ _ _ _ _ _ _ _ _ _ H) as (Z' & d' & _ & _ & _ & cl & ne & mu & n & Hcl & Hmu & Hn & Hs).
  destruct (HM _ _ Hn) as [Pn Em]. exists ne. intros m Pm. assert (Emu : mu = mu_classical u T_e n) by (unfold mu_classical; congruence). subst mu.
  change (kB u * T_e * ln (m * therm_de_broglie_wl u T_e ^ 3 / 2)) with (mu_classical u T_e m). rewrite (solve_BU_classical u fuel levels els T_e Ns None m n HT Pm Pn).
  rewrite <- Hs. rewrite Hcl. unfold solve_BU, no_lowering. reflexivity.
Qed.
Print Assumptions C131_classical.

(** The balance the solver strikes, and what it means once the charges have settled:
    [Q_k n_(k+1) / (Q_(k+1) n_k)] is [exp(-mu/kB T)] times the ratio of the electron
    density entered to the one found *)
Theorem C131_balance_partial : forall u fuel lv Z g E ipd T N n mu dens ne Zm, length lv = length E -> length ipd = length E -> 0 < T -> 0 < n ->
  solve_BU u fuel [lv] [(Z, g, E)] T n [N] (Some [ipd]) mu = Some (dens, ne, Zm) ->
  let Q k := if Nat.ltb k (length E)
             then planck_larkin_partition_sum u (fst (nth k lv ([], []))) (map (fun e => at_ (sort_r E) k + at_ ipd k - e) (snd (nth k lv ([], [])))) T
             else 1 in
  (forall k, (k < length E)%nat -> 0 < Q k) ->
  let c k := Q (S k) / Q k * n * exp (- mu / (kB u * T)) in
  unclipped (log_partition_products (map (fun k => Some (ln (c k))) (seq 0 (length E))) (repeat true (length E)) (ln ne)) ->
  forall k, (k < length E)%nat -> Q k * at_ dens (S k) * ne = Q (S k) * at_ dens k * n * exp (- mu / (kB u * T)).
Proof.
  intros u fuel lv Z g E ipd T N n mu dens ne Zm Ll Li HT Hn H Q HQ c U k Hk. unfold solve_BU in H. cbn [length Nat.eqb map2 seq_opt combine] in H.
  unfold bu_balance_term, shifted, ew in H. rewrite sort_len, Li, Nat.eqb_refl in H. cbn [obind map] in H.
  unfold solve_ionization in H. cbn [length Nat.eqb andb] in H.
  destruct (bisection _ _ _ _ _ _ _) as [[x b]|]; [|discriminate]. cbn [map2 concat] in H. rewrite app_nil_r in H.
  set (bt := mkBT _ _) in H.
  assert (Ed : dens = map (fun w => N * w) (weights (logP bt x)) /\ ne = exp x) by (unfold logP; injection H as <- <- _; split; reflexivity).
  clear H. destruct Ed as [-> ->]. rewrite ln_exp in U.
  assert (HQ' : forall k, 0 < Q k) by (intros j; destruct (Nat.lt_ge_cases j (length E)) as [Hj|Hj]; [now apply HQ|unfold Q; replace (Nat.ltb j (length E)) with false by (symmetry; apply Nat.ltb_ge; lia); lra]).
  assert (Hc : forall k, 0 < c k).
  { intros j. unfold c. apply Rmult_lt_0_compat; [|apply exp_pos]. apply Rmult_lt_0_compat; [|exact Hn]. apply Rdiv_lt_0_compat; apply HQ'. }
  set (Eb := map2 Rplus (sort_r E) ipd) in *. assert (LE : length Eb = length E) by (unfold Eb; rewrite map2_length by (rewrite sort_len; lia); apply sort_len).
  set (pf0 := map2 (fun ge Eb => planck_larkin_partition_sum u (fst ge) (map (fun E => Eb - E) (snd ge)) T) lv Eb) in *.
  assert (Lp : length pf0 = length E) by (unfold pf0; rewrite map2_length by lia; exact Ll).
  assert (Np : forall j, (j <= length E)%nat -> at_ (pf0 ++ [1]) j = Q j).
  { intros j Hj. unfold at_, Q. destruct (Nat.ltb_spec j (length E)) as [Hlt|Hge].
    - rewrite app_nth1 by lia. unfold pf0. rewrite (map2_nth _ _ _ j ([], []) 0) by lia. unfold Eb. rewrite (map2_nth Rplus _ _ j 0 0) by (rewrite ?sort_len; lia). reflexivity.
    - rewrite app_nth2 by lia. replace (j - length pf0)%nat with O by lia. reflexivity. }
  assert (Ec : bt_coeff bt = map (fun k => Some (c k)) (seq 0 (length E))).
  { unfold bt. cbn [bt_coeff]. rewrite pairwise_map, app_length, Lp. cbn [length]. replace (length E + 1 - 1)%nat with (length E) by lia.
    apply map_ext_in. intros j Hj. apply in_seq in Hj. rewrite !Np by lia. unfold gen_balance_equation. rewrite qdiv_some by (apply Rgt_not_eq, HQ'). unfold c. do 4 f_equal. ring. }
  assert (Em : bt_mask bt = repeat true (length E)).
  { unfold bt. cbn [bt_mask]. rewrite removelast_last. apply nth_ext with (d := false) (d' := false).
    - now rewrite map_length, repeat_length.
    - intros j Hj. rewrite map_length in Hj. rewrite (nth_indep (map heaviside pf0) false (heaviside 0)) by (now rewrite map_length). rewrite map_nth.
      replace (nth j pf0 0) with (Q j) by (rewrite <- Np by lia; unfold at_; now rewrite app_nth1 by lia).
      rewrite (nth_indep _ false true) by (rewrite repeat_length; lia). rewrite nth_repeat. unfold heaviside. destruct (Rlt_dec 0 (Q j)) as [_|n0]; [reflexivity|]. exfalso. apply n0, HQ'. }
  assert (El : map log0 (bt_coeff bt) = map (fun k => Some (ln (c k))) (seq 0 (length E))).
  { rewrite Ec, map_map. apply map_ext_in. intros j Hj. unfold log0. specialize (Hc j). destruct (Req_EM_T (c j) 0); [lra|reflexivity]. }
  pose proof (C52_ratio_partial (bt_coeff bt) (bt_mask bt) (exp x) k (c k)) as R. cbv zeta in R. rewrite ln_exp in R.
  assert (Lw : length (weights (logP bt x)) = S (length E)).
  { unfold weights, logP. rewrite softmax_len, map_length. rewrite lpp_len; [now rewrite Em, repeat_length|]. now rewrite El, Em, map_length, seq_length, repeat_length. }
  assert (Ex : at_ (weights (logP bt x)) (S k) * exp x = c k * at_ (weights (logP bt x)) k).
  { apply R; clear R.
    - now rewrite Ec, Em, map_length, seq_length, repeat_length.
    - now rewrite Em, repeat_length.
    - rewrite Em. apply nth_repeat.
    - rewrite Em. apply nth_repeat.
    - apply exp_pos.
    - now apply Hc.
    - rewrite Ec. now rewrite nth_seq_map by lia.
    - rewrite El, Em. unfold log_partition_products. clear - Hk.
      enough (G : forall n j s a y, (j <= n)%nat -> nth j (map2 (fun (m : bool) p => if m then p else None) (repeat true n ++ [true])
        (cumsum (Some a) (map2 (fun lc (m : bool) => if m then obind lc (fun l => Some (l - y)) else Some 0) (map (fun k => Some (ln (c k))) (seq s n)) (repeat true n)))) None <> None)
        by (apply G; lia).
      induction n0 as [|n0 IH]; intros j s a y Hj.
      + destruct j; [cbn; discriminate|lia].
      + destruct j; [cbn; discriminate|]. cbn [seq map repeat map2 app cumsum obind nth]. apply IH. lia.
    - rewrite El, Em. exact U. }
  unfold at_ in *. rewrite !(nth_indep (map (fun w => N * w) _) 0 (N * 0)) by (rewrite map_length, Lw; lia). rewrite !map_nth.
  replace (Q k * (N * nth (S k) (weights (logP bt x)) 0) * exp x) with (Q k * N * (nth (S k) (weights (logP bt x)) 0 * exp x)) by ring. rewrite Ex. unfold c. field. apply Rgt_not_eq, HQ'.
Qed.
Print Assumptions C131_balance_partial.
(** Hydrogen with its ground state only, classical electrons, no lowering *)
Example C131_met : exists n0 n1 Z, let nu := unit_consts in
  mean_free_charge_BU nu 1001 (fun _ _ => None)
    (fun Z => obind (if Rlt_dec 0 (at_ Z 0) then Some (2 * at_ Z 0) else None) (fun n => Some (1 * 1 * ln (n * therm_de_broglie_wl nu 1 ^ 3 / 2))))
    (fun Z => if Rlt_dec 0 (at_ Z 0) then Some (2 * at_ Z 0) else None)
    [[([2], [0])]] [(1%nat, [2; 1], [1])] 1 [2] false false = Some ([n0; n1], [Z]) /\ n0 + n1 = 2 /\ 0 < Z.
Proof.
  pose proof PI_4 as P4. pose proof PI_RGT_0 as P0.
  assert (HL : 0 < therm_de_broglie_wl unit_consts 1) by (apply (C88_saha unit_consts 1 1 1 1 1); lra).
  assert (L3 : therm_de_broglie_wl unit_consts 1 <= 3).
  { unfold therm_de_broglie_wl. cbn [hbar m_e kB unit_consts]. rewrite Rmult_1_l. rewrite <- (sqrt_square 3) by lra. apply sqrt_le_1_alt. lra. }
  set (lam := therm_de_broglie_wl unit_consts 1) in *.
  assert (P3 : 0 < lam ^ 3 <= 27) by (split; [now apply pow_lt|replace 27 with (3 ^ 3) by ring; apply pow_incr; lra]).
  set (p := planck_larkin_partition_sum unit_consts [2] [1 + 0 - 0] 1).
  assert (Hp : p = 2 * exp (- (1))).
  { unfold p, planck_larkin_partition_sum, sum. cbn [map2 fold_right kB unit_consts]. unfold heaviside. destruct (Rlt_dec 0 (1 + 0 - 0)); [|lra]. replace ((1 + 0 - 0) / (1 * 1)) with 1 by field. ring. }
  assert (Hp2 : 0 < p <= 2).
  { rewrite Hp. pose proof (exp_pos (- (1))). pose proof (exp_increasing (- (1)) 0 ltac:(lra)) as Hi. rewrite exp_0 in Hi. lra. }
  set (c := 1 / p * (2 / lam ^ 3)).
  assert (Hc : / 100000000 <= c).
  { unfold c. apply Rle_trans with (1 / 2 * (2 / 27)); [lra|]. apply Rmult_le_compat; [lra|lra| |].
    - unfold Rdiv. apply Rmult_le_compat_l; [lra|]. apply Rinv_le_contravar; lra.
    - unfold Rdiv. apply Rmult_le_compat_l; [lra|]. apply Rinv_le_contravar; lra. }
  assert (EB : forall n, 0 < n -> bu_balance_term unit_consts [([2], [0])] [1] [0] 1 n (1 * 1 * ln (n * lam ^ 3 / 2)) = Some (mkBT [Some c] [true])).
  { intros n Hn. unfold bu_balance_term, shifted, ew. cbn -[planck_larkin_partition_sum heaviside]. fold p. unfold gen_balance_equation. rewrite qdiv_some by lra.
    unfold heaviside. destruct (Rlt_dec 0 p); [|lra]. do 4 f_equal. cbn [kB unit_consts]. replace (- (1 * 1 * ln (n * (lam * (lam * (lam * 1))) / 2)) / (1 * 1 * 1)) with (- ln (n * lam ^ 3 / 2)) by (cbn [pow]; field).
    rewrite exp_Ropp, exp_ln by (apply Rdiv_lt_0_compat; [apply Rmult_lt_0_compat; lra|lra]). unfold c. set (l3 := lam ^ 3) in *. clearbody l3. field. repeat split; lra. }
  destruct (C87_solution 1001 [1] [2] [mkBT [Some c] [true]]) as (dens & ne & Zm & E & _); try (cbn; lia); try discriminate; try reflexivity.
  - constructor; [lra|constructor].
  - constructor; [reflexivity|constructor].
  - constructor; [cbn; lia|constructor].
  - pose proof (hydrogen_half 2 c ltac:(lra) Hc). lra.
  - assert (Es2 : sum dens = 2) by (destruct (C91_solver_sums _ _ _ _ _ _ _ E) as (Es & _); rewrite Es; unfold sum; cbn; ring).
    assert (Ld : exists n0 n1 z, dens = [n0; n1] /\ Zm = [z] /\ 0 < z).
    { pose proof E as E'. unfold solve_ionization in E'. cbn [length Nat.eqb andb] in E'. destruct (bisection _ _ _ _ _ _ _) as [[x b]|]; [|discriminate].
      cbn [map2 concat map] in E'. rewrite app_nil_r in E'. set (P := log_partition_products _ _ _) in E'.
      assert (LP : length P = 2%nat) by (unfold P; now rewrite lpp_len).
      assert (LW : length (weights P) = 2%nat) by (unfold weights; now rewrite softmax_len, map_length).
      destruct (C52_distribution P) as (_ & Wp & _ & _ & Ez); [intros ->; discriminate|]. rewrite LP in Ez. clearbody P.
      destruct (weights P) as [|w0 [|w1 [|]]]; try discriminate. injection E' as <- _ <-. eexists; eexists; eexists. repeat split.
      rewrite Ez. unfold sum. cbn [seq map map2 fold_right INR]. pose proof (Wp w1 ltac:(right; left; reflexivity)). lra. }
    destruct Ld as (n0 & n1 & z & -> & -> & Hz). exists n0, n1, z. cbv zeta. fold lam. split; [|split; [unfold sum in Es2; cbn in Es2; lra|exact Hz]].
    assert (ES : forall n, 0 < n -> solve_BU unit_consts 1001 [[([2], [0])]] [(1%nat, [2; 1], [1])] 1 n [2] (Some [[0]]) (1 * 1 * ln (n * lam ^ 3 / 2)) = Some ([n0; n1], ne, [z])).
    { intros n Hn. unfold solve_BU. cbn [length Nat.eqb combine map2 seq_opt]. rewrite EB by exact Hn. cbn [obind]. exact E. }
    unfold mean_free_charge_BU. change (no_lowering [(1%nat, [2; 1], [1])]) with [[0]]. cbn [map fold_right Nat.max].
    assert (S1 : at_ [INR 1] 0 = 1) by reflexivity. rewrite S1. destruct (Rlt_dec 0 1) as [_|?]; [|lra]. cbn [obind]. rewrite (ES (2 * 1)) by lra. cbn [obind Nat.iter nat_rect].
    rewrite S1. destruct (Rlt_dec 0 1) as [_|?]; [|lra]. cbn [obind]. rewrite (ES (2 * 1)) by lra. cbn [obind].
    assert (Sz : at_ [z] 0 = z) by reflexivity.
    do 5 (rewrite Sz; destruct (Rlt_dec 0 z) as [_|?]; [|contradiction]; cbn [obind]; rewrite (ES (2 * z)) by lra; cbn [obind]). reflexivity.
Qed.

(** The deprecated fit agrees with the one that replaces it for a single species *)
Theorem C131_single_species : forall u fuel T rho m Z, (2 < fuel)%nat -> 0 < m -> 0 < Z ->
  more_charge u fuel T [(rho, m, Z)] = Some (more_single_species u T [(rho, m, Z)]).
Proof. intros u fuel T rho m Z Hf Hm HZ. rewrite C89_one_species by assumption. reflexivity. Qed.
Print Assumptions C131_single_species.
Example C131_single_met : (2 < 101)%nat /\ 0 < 12 /\ 0 < 6 /\ more_single_species unit_consts 1 [(3, 12, 6); (2, 1, 1)] = [more unit_consts 3 1 12 6; more unit_consts 2 1 1 1].
Proof. repeat split; [lia|lra|lra]. Qed.
