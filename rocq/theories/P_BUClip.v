(** C131: where the solver clips, neighbouring charge states do not balance. *)
From Coq Require Import Reals List Bool Arith ZArith Lra Lia Psatz.
From Coquelicot Require Import Coquelicot.
From Verif Require Import M_Const M_PlasmaState M_Interp M_Helpers L_Helpers P_Helpers M_PlasmaPhysics M_Ionization L_IPD L_Ionization P_Ionization P_Ionization2 M_IonizationBU P_IonizationBU.
Import ListNotations.
Open Scope R_scope.

(** Hydrogen, one level, with a chemical potential of -2000 kB T: the neutral
    fraction is exp(-500) of the ions, where the balance asks for much less. *)
Theorem C131_balance_refuted : exists lv E mu dens ne Zm,
  solve_BU unit_consts 1001 [lv] [(1%nat, [2; 1], E)] 1 1 [2] (Some [[0]]) mu = Some (dens, ne, Zm) /\ length E = 1%nat /\
  let Q0 := planck_larkin_partition_sum unit_consts (fst (nth 0 lv ([], []))) (map (fun e => at_ (sort_r E) 0 + 0 - e) (snd (nth 0 lv ([], [])))) 1 in
  0 < Q0 /\ 0 < at_ dens 0 /\ Q0 * at_ dens 1 * ne * exp 400 < 1 * at_ dens 0 * 1 * exp (- mu / (kB unit_consts * 1)).
Proof.
  exists [([2], [0])], [1], (-2000).
  set (p := planck_larkin_partition_sum unit_consts [2] [1 + 0 - 0] 1).
  assert (Hp : p = 2 * exp (- (1))).
  { unfold p, planck_larkin_partition_sum, sum. cbn [map2 fold_right kB unit_consts]. unfold heaviside. destruct (Rlt_dec 0 (1 + 0 - 0)); [|lra]. replace ((1 + 0 - 0) / (1 * 1)) with 1 by field. ring. }
  assert (Hp2 : 0 < p <= 2).
  { rewrite Hp. pose proof (exp_pos (- (1))). pose proof (exp_increasing (- (1)) 0 ltac:(lra)) as Hi. rewrite exp_0 in Hi. lra. }
  set (c := 1 / p * exp 2000).
  assert (E2 : 2000 < exp 2000) by (pose proof (exp_ineq1 2000 ltac:(lra)); lra).
  assert (IP : / 2 <= 1 / p) by (unfold Rdiv; rewrite Rmult_1_l; apply Rinv_le_contravar; lra).
  assert (Hc : exp 2000 / 2 <= c) by (unfold c; nra).
  assert (EB : bu_balance_term unit_consts [([2], [0])] [1] [0] 1 1 (-2000) = Some (mkBT [Some c] [true])).
  { unfold bu_balance_term, shifted, ew. cbn -[planck_larkin_partition_sum heaviside exp]. fold p. unfold gen_balance_equation. rewrite qdiv_some by lra.
    unfold heaviside. destruct (Rlt_dec 0 p); [|lra]. do 4 f_equal. cbn [kB unit_consts]. replace (- -2000 / (1 * 1 * 1)) with 2000 by field. unfold c.
    field. lra. }
  destruct (C87_solution 1001 [1] [2] [mkBT [Some c] [true]]) as (dens & ne & Zm & Es & [_ Hne] & _); try (cbn; lia); try discriminate; try reflexivity.
  - constructor; [lra|constructor].
  - constructor; [reflexivity|constructor].
  - constructor; [cbn; lia|constructor].
  - pose proof (hydrogen_half 2 c ltac:(lra) ltac:(lra)). lra.
  - exists dens, ne, Zm. split.
    { unfold solve_BU. cbn [length Nat.eqb combine map2 seq_opt]. rewrite EB. cbn [obind]. exact Es. }
    split; [reflexivity|]. cbn zeta. cbn [nth fst snd map kB unit_consts].
    replace (at_ (sort_r [1]) 0) with 1 by reflexivity. fold p. split; [apply Hp2|].
    assert (Hm : ne <= 2). { unfold max_ne, sum in Hne. cbn in Hne. lra. }
    destruct (C91_solver_sums _ _ _ _ _ _ _ Es) as (_ & Np & _).
    unfold solve_ionization in Es. cbn [length Nat.eqb andb] in Es. destruct (bisection _ _ _ _ _ _ _) as [[x b]|]; [|discriminate].
    cbn [map2 concat map] in Es. rewrite app_nil_r in Es. assert (Ed : dens = map (fun w => 2 * w) (weights (log_partition_products [log0 (Some c)] [true] x)) /\ exp x = ne) by (injection Es as <- <- _; split; reflexivity).
    clear Es. destruct Ed as [Ed En].
    assert (Hx : x <= 1). { rewrite <- (ln_exp x), En. apply Rle_trans with (ln 2); [destruct Hm as [Hm|Hm]; [left; apply ln_increasing; lra|rewrite Hm; lra]|].
      rewrite <- (ln_exp 1). left. apply ln_increasing; [lra|]. pose proof (exp_ineq1 1 ltac:(lra)). lra. }
    assert (LC : 1000 <= ln c).
    { rewrite <- (ln_exp 1000). assert (exp 1000 <= c); [|destruct H as [H|H]; [left; now apply ln_increasing; [apply exp_pos|]|rewrite H; lra]].
      apply Rle_trans with (exp 2000 / 2); [|exact Hc]. replace 2000 with (1000 + 1000) by lra. rewrite exp_plus. pose proof (exp_ineq1 1000 ltac:(lra)). nra. }
    assert (EW : weights (log_partition_products [log0 (Some c)] [true] x) = [exp (0 - 500) / (exp (0 - 500) + (exp (500 - 500) + 0)); exp (500 - 500) / (exp (0 - 500) + (exp (500 - 500) + 0))]).
    { assert (C1 : log_partition_products [log0 (Some c)] [true] x = [Some 0; Some (0 + (ln c - x))]).
      { unfold log_partition_products, log0. destruct (Req_EM_T c 0); [lra|]. reflexivity. }
      rewrite C1. unfold weights. cbn [map clip500]. 
      assert (C2 : clip 0 (-500) 500 = 0) by (unfold clip, Rmin, Rmax; repeat destruct (Rle_dec _ _); lra).
      assert (C3 : clip (0 + (ln c - x)) (-500) 500 = 500) by (unfold clip, Rmin, Rmax; repeat destruct (Rle_dec _ _); lra).
      rewrite C2, C3. unfold softmax, sum. cbn [fold_right map]. replace (Rmax 500 0) with 500 by (unfold Rmax; destruct (Rle_dec 500 0); lra). reflexivity. }
    rewrite EW in Ed. subst dens. cbn [at_ nth map].
    unfold at_. cbn [nth map app]. replace (500 - 500) with 0 by ring. replace (0 - 500) with (- (500)) by ring. rewrite exp_0.
    set (q := exp (- (500))). assert (Hq : 0 < q) by apply exp_pos.
    assert (Hd : 0 < q + (1 + 0)) by lra. set (d := q + (1 + 0)) in *.
    split; [apply Rmult_lt_0_compat; [lra|]; now apply Rdiv_lt_0_compat|].
    replace (- -2000 / (1 * 1)) with 2000 by field. unfold Rdiv.
    assert (Hid : 0 < / d) by (now apply Rinv_0_lt_compat).
    assert (K : p * 1 * ne * exp 400 < q * exp 2000).
    { unfold q. rewrite <- exp_plus. replace (- (500) + 2000) with (400 + 1100) by lra. rewrite exp_plus. pose proof (exp_ineq1 1100 ltac:(lra)). pose proof (exp_pos 400).
      assert (p * 1 * ne <= 4) by nra. nra. }
    replace (p * (2 * (1 * / d)) * ne * exp 400) with (2 * / d * (p * 1 * ne * exp 400)) by ring.
    replace (1 * (2 * (q * / d)) * 1 * exp 2000) with (2 * / d * (q * exp 2000)) by ring.
    apply Rmult_lt_compat_l; [lra|exact K].
Qed.
Print Assumptions C131_balance_refuted.
