(** The fit of the inverse Fermi integral undoes the fit of the integral. *)
From Coq Require Import Reals List Arith ZArith QArith Qreals Lra Lia Psatz.
From Coquelicot Require Import Coquelicot.
From Verif Require Import M_Const M_PlasmaState M_Math L_Poly L_Fermi L_FermiFit L_FermiFit2 L_FermiTables L_TM L_FermiInv L_FermiInvRun.
Import ListNotations.
Open Scope R_scope.

(** the integral without its norm *)
Definition XX (x : R) : R := if Rlt_dec x 2 then exp x * (pe (rq qa_12) (exp x) / pe (rq qb_12) (exp x)) else Rpower x (3 / 2) * (pe (rq qc_12) (/ x ^ 2) / pe (rq qd_12) (/ x ^ 2)).
Lemma fitf_XX G x : fitf qa_12 qb_12 qc_12 qd_12 1 G x = XX x / G.
Proof. unfold fitf, XX, low, high. destruct (Rlt_dec x 2); [reflexivity|]. replace (INR 1 - 1 / 2 + 1) with (3 / 2) by (cbn; field). reflexivity. Qed.
(** the inverse without its norm *)
Definition inv (x : R) : option R :=
  obind (if Rlt_dec x (122 / 100) then obind (R1_mk r0_upper r0_lower x) (fun r => lno (x * r)) else Some 0) (fun term1 =>
  obind (if Rle_dec (122 / 100) x then if Rlt_dec x (343 / 100) then R1_mk r1_upper r1_lower ((-550848552 / 1000000000) + (45211461 / 100000000) * x) else Some 0 else Some 0) (fun term2 =>
  obind (if Rle_dec (343 / 100) x then if Rlt_dec x (105 / 10) then R1_mk r2_upper r2_lower ((-482411581 / 1000000000) + (14063612 / 100000000) * x) else Some 0 else Some 0) (fun term3 =>
  obind (if Rle_dec (105 / 10) x then if Rlt_dec x (343 / 10) then R1_mk r3_upper r3_lower ((-442839571 / 1000000000) + (420121106 / 10000000000) * x) else Some 0 else Some 0) (fun term4 =>
  obind (if Rle_dec (343 / 10) x then if Rlt_dec x 117 then R1_mk r4_upper r4_lower ((-416448071 / 1000000000) + (121259929 / 10000000000) * x) else Some 0 else Some 0) (fun term5 =>
  obind (if Rle_dec 117 x
         then obind (R1_mk rS_upper rS_lower (1 + (-111632691 / 1000000) * Rpower x (-4 / 3))) (fun r =>
              obind (qdiv r (- (-111632691 / 1000000) * Rpower x (-4 / 3))) sqrto)
         else Some 0) (fun term6 =>
  Some (term1 + term2 + term3 + term4 + term5 + term6))))))).
Lemma inv_of y : inverse_fermi_12_fukushima y = inv (y * gamma (1 / 2 + 1)). Proof. reflexivity. Qed.
Lemma inv_0 X : X < 122 / 100 -> pe (rq qr0_lower) X <> 0 -> 0 < X * (pe (rq qr0_upper) X / pe (rq qr0_lower) X) -> inv X = Some (ln (X * (pe (rq qr0_upper) X / pe (rq qr0_lower) X))).
Proof.
  intros HX HL HP. unfold inv. destruct (Rlt_dec X (122 / 100)) as [_|N]; [|lra]. destruct (Rle_dec (122 / 100) X); [lra|]. destruct (Rle_dec (343 / 100) X); [lra|]. destruct (Rle_dec (105 / 10) X); [lra|]. destruct (Rle_dec (343 / 10) X); [lra|]. destruct (Rle_dec 117 X); [lra|].
  rewrite R1_pe, er0_upper, er0_lower, qdiv_some by exact HL. cbn [obind]. unfold lno. destruct (Rlt_dec 0 _) as [_|N]; [|contradiction]. cbn [obind]. f_equal. ring.
Qed.
Lemma inv_1 X : 122 / 100 <= X < 343 / 100 -> let Y := Q2R al1 + Q2R be1 * X in pe (rq qr1_lower) Y <> 0 -> inv X = Some (pe (rq qr1_upper) Y / pe (rq qr1_lower) Y).
Proof.
  intros HX Y HL. unfold inv. destruct (Rlt_dec X (122 / 100)); [lra|]. destruct (Rle_dec (122 / 100) X); [|lra]. destruct (Rlt_dec X (343 / 100)); [|lra]. destruct (Rle_dec (343 / 100) X); [lra|]. destruct (Rle_dec (105 / 10) X); [lra|]. destruct (Rle_dec (343 / 10) X); [lra|]. destruct (Rle_dec 117 X); [lra|].
  cbn [obind]. replace (-550848552 / 1000000000 + 45211461 / 100000000 * X) with Y by (unfold Y, al1, be1, Q2R; cbn; field). rewrite R1_pe, er1_upper, er1_lower, qdiv_some by exact HL. cbn [obind]. f_equal. ring.
Qed.
Lemma inv_2 X : 343 / 100 <= X < 105 / 10 -> let Y := Q2R al2 + Q2R be2 * X in pe (rq qr2_lower) Y <> 0 -> inv X = Some (pe (rq qr2_upper) Y / pe (rq qr2_lower) Y).
Proof.
  intros HX Y HL. unfold inv. destruct (Rlt_dec X (122 / 100)); [lra|]. destruct (Rle_dec (122 / 100) X); [|lra]. destruct (Rlt_dec X (343 / 100)); [lra|]. destruct (Rle_dec (343 / 100) X); [|lra]. destruct (Rlt_dec X (105 / 10)); [|lra]. destruct (Rle_dec (105 / 10) X); [lra|]. destruct (Rle_dec (343 / 10) X); [lra|]. destruct (Rle_dec 117 X); [lra|].
  cbn [obind]. replace (-482411581 / 1000000000 + 14063612 / 100000000 * X) with Y by (unfold Y, al2, be2, Q2R; cbn; field). rewrite R1_pe, er2_upper, er2_lower, qdiv_some by exact HL. cbn [obind]. f_equal. ring.
Qed.
Lemma inv_3 X : 105 / 10 <= X < 343 / 10 -> let Y := Q2R al3 + Q2R be3 * X in pe (rq qr3_lower) Y <> 0 -> inv X = Some (pe (rq qr3_upper) Y / pe (rq qr3_lower) Y).
Proof.
  intros HX Y HL. unfold inv. destruct (Rlt_dec X (122 / 100)); [lra|]. destruct (Rle_dec (122 / 100) X); [|lra]. destruct (Rlt_dec X (343 / 100)); [lra|]. destruct (Rle_dec (343 / 100) X); [|lra]. destruct (Rlt_dec X (105 / 10)); [lra|]. destruct (Rle_dec (105 / 10) X); [|lra]. destruct (Rlt_dec X (343 / 10)); [|lra]. destruct (Rle_dec (343 / 10) X); [lra|]. destruct (Rle_dec 117 X); [lra|].
  cbn [obind]. replace (-442839571 / 1000000000 + 420121106 / 10000000000 * X) with Y by (unfold Y, al3, be3, Q2R; cbn; field). rewrite R1_pe, er3_upper, er3_lower, qdiv_some by exact HL. cbn [obind]. f_equal. ring.
Qed.
Lemma inv_4 X : 343 / 10 <= X < 117 -> let Y := Q2R al4 + Q2R be4 * X in pe (rq qr4_lower) Y <> 0 -> inv X = Some (pe (rq qr4_upper) Y / pe (rq qr4_lower) Y).
Proof.
  intros HX Y HL. unfold inv. destruct (Rlt_dec X (122 / 100)); [lra|]. destruct (Rle_dec (122 / 100) X); [|lra]. destruct (Rlt_dec X (343 / 100)); [lra|]. destruct (Rle_dec (343 / 100) X); [|lra]. destruct (Rlt_dec X (105 / 10)); [lra|]. destruct (Rle_dec (105 / 10) X); [|lra]. destruct (Rlt_dec X (343 / 10)); [lra|]. destruct (Rle_dec (343 / 10) X); [|lra]. destruct (Rlt_dec X 117); [|lra]. destruct (Rle_dec 117 X); [lra|].
  cbn [obind]. replace (-416448071 / 1000000000 + 121259929 / 10000000000 * X) with Y by (unfold Y, al4, be4, Q2R; cbn; field). rewrite R1_pe, er4_upper, er4_lower, qdiv_some by exact HL. cbn [obind]. f_equal. ring.
Qed.
Lemma inv_S X : 117 <= X -> let W := Rpower X (-4 / 3) in let Y := 1 - Q2R bS * W in pe (rq qrS_lower) Y <> 0 -> 0 <= pe (rq qrS_upper) Y / pe (rq qrS_lower) Y / (Q2R bS * W) ->
  inv X = Some (sqrt (pe (rq qrS_upper) Y / pe (rq qrS_lower) Y / (Q2R bS * W))).
Proof.
  intros HX W Y HL HP. unfold inv. destruct (Rlt_dec X (122 / 100)); [lra|]. destruct (Rle_dec (122 / 100) X); [|lra]. destruct (Rlt_dec X (343 / 100)); [lra|]. destruct (Rle_dec (343 / 100) X); [|lra]. destruct (Rlt_dec X (105 / 10)); [lra|]. destruct (Rle_dec (105 / 10) X); [|lra]. destruct (Rlt_dec X (343 / 10)); [lra|]. destruct (Rle_dec (343 / 10) X); [|lra]. destruct (Rlt_dec X 117); [lra|]. destruct (Rle_dec 117 X); [|lra].
  cbn [obind]. fold W. assert (0 < W) as W0 by apply exp_pos. assert (Q2R bS = 111632691 / 1000000) as EB by (unfold bS, Q2R; cbn; field).
  replace (1 + -111632691 / 1000000 * W) with Y by (unfold Y; rewrite EB; field). replace (- (-111632691 / 1000000) * W) with (Q2R bS * W) by (rewrite EB; field).
  rewrite R1_pe, erS_upper, erS_lower, qdiv_some by exact HL. cbn [obind]. assert (0 < Q2R bS * W) by (rewrite EB; lra). rewrite qdiv_some by lra. cbn [obind]. rewrite sqrto_some by exact HP. cbn [obind]. f_equal. ring.
Qed.

(** *** x below 2 *)
Definition lowX (x : R) : R := exp x * (pe (rq qa_12) (exp x) / pe (rq qb_12) (exp x)).
Lemma b_pos x : 0 <= x -> 0 < pe (rq qb_12) x. Proof. apply hpos_pos. vm_compute. reflexivity. Qed.
Lemma a_pos x : 0 <= x -> 0 < pe (rq qa_12) x. Proof. apply hpos_pos. vm_compute. reflexivity. Qed.
Lemma lowX_incr x y : x < y -> lowX x < lowX y.
Proof.
  intros H. pose proof (low_increasing qa_12 qb_12 1 x y ltac:(vm_compute; reflexivity) ltac:(vm_compute; reflexivity) ltac:(lra) H) as K. unfold low in K. rewrite !Rdiv_1 in K. exact K.
Qed.
Lemma lowX_ln q : 0 < Q2R q -> lowX (ln (Q2R q)) = Q2R (q * (pval qa_12 q / pval qb_12 q)).
Proof.
  intros Hq. unfold lowX. rewrite exp_ln by exact Hq. pose proof (b_pos (Q2R q) ltac:(lra)) as B. rewrite Q2R_mult, Q2R_div, <- !pe_val; [reflexivity|]. intros E. apply Qeq_eqR in E. rewrite <- pe_val, Q2R_0 in E. lra.
Qed.
Lemma sA_sB z : 0 <= z -> pe (rq sA) z / pe (rq sB) z = pe (rq qa_12) z / pe (rq qb_12) z.
Proof. intros Hz. destruct (sAB z) as [E|E]; [exact E|]. unfold sB in E. rewrite pe_scal in E. pose proof (b_pos z Hz). assert (Q2R k6 <> 0) by (unfold k6, Q2R; cbn; lra). exfalso. apply Rmult_integral in E. destruct E; lra. Qed.
Lemma ln_small d : Rabs (d - 1) <= 4 / 10000000 -> 0 < d -> Rabs (ln d) <= 1 / 1000000.
Proof.
  intros H Hd. apply Rabs_le_between in H. assert (ln d <= d - 1) as U. { pose proof (exp_ineq1_le (ln d)) as K. rewrite exp_ln in K by exact Hd. lra. }
  assert (1 - / d <= ln d) as L. { pose proof (exp_ineq1_le (- ln d)) as K. rewrite exp_Ropp, exp_ln in K by exact Hd. lra. }
  assert (/ d <= 1 + 1 / 1000000). { replace (1 + 1 / 1000000) with (/ (1 / (1 + 1 / 1000000))) by (field; lra). apply Rinv_le_contravar; lra. }
  apply Rabs_le. lra.
Qed.
Definition near (x : R) (o : option R) : Prop := exists r, o = Some r /\ Rabs (r - x) <= 1 / 1000000 * (1 + Rabs x).
Lemma eps_weak x y e : Rabs (y - x) <= e -> e <= 1 / 1000000 -> Rabs (y - x) <= 1 / 1000000 * (1 + Rabs x).
Proof. intros H1 H2. pose proof (Rabs_pos x). lra. Qed.
Lemma round_low x : x < 2 -> near x (inv (lowX x)).
Proof.
  intros Hx. pose proof (exp_pos x) as Ez. destruct (Rlt_le_dec (lowX x) (122 / 100)) as [L|L].
  - assert (exp x <= Q2R zmax) as Hz.
    { apply Rnot_lt_le. intros N. assert (0 < Q2R zmax) as Z0 by (unfold zmax, Q2R; cbn; lra). assert (ln (Q2R zmax) < x) as N2 by (rewrite <- (ln_exp x); apply ln_increasing; assumption). apply lowX_incr in N2. rewrite lowX_ln in N2 by exact Z0.
      assert (Q2R (122 # 100) <= Q2R (zmax * (pval qa_12 zmax / pval qb_12 zmax))) by (apply Q2R_le; vm_compute; reflexivity). replace (Q2R (122 # 100)) with (122 / 100) in H by (unfold Q2R; cbn; field). lra. }
    destruct (run0 (exp x) ltac:(lra)) as (B0 & L0 & E). rewrite (sA_sB (exp x)) in * by lra. fold (lowX x) in L0, E.
    set (D := pe (rq qa_12) (exp x) / pe (rq qb_12) (exp x) * (pe (rq qr0_upper) (lowX x) / pe (rq qr0_lower) (lowX x))) in *.
    replace (Q2R e7) with (4 / 10000000) in E by (unfold e7, Q2R; cbn; field). assert (0 < D) as D0 by (apply Rabs_le_between in E; lra).
    assert (lowX x * (pe (rq qr0_upper) (lowX x) / pe (rq qr0_lower) (lowX x)) = exp x * D) as ED by (unfold D, lowX at 1; ring).
    exists (ln (exp x * D)). rewrite <- ED. split; [apply inv_0; [exact L|lra|rewrite ED; now apply Rmult_lt_0_compat]|]. rewrite ED, ln_mult, ln_exp by assumption. replace (x + ln D - x) with (ln D) by ring. pose proof (ln_small D E D0). pose proof (Rabs_pos x). lra.
  - assert (Q2R xmin <= x) as Hm.
    { apply Rnot_lt_le. intros N. apply lowX_incr in N. assert (0 <= Q2R xmin <= 2) as X0 by (unfold xmin, Q2R; cbn; lra). pose proof (exp_taylor _ X0) as T. apply Rabs_le_between in T. rewrite pe_val in T.
      set (q := (pval (ecoef 26) xmin + (1 # 1000000000000000))%Q) in *. assert (exp (Q2R xmin) <= Q2R q) as T2 by (unfold q; rewrite Q2R_plus; lra). assert (0 < Q2R q) as Q0 by (pose proof (exp_pos (Q2R xmin)); lra).
      assert (lowX (Q2R xmin) <= lowX (ln (Q2R q))) as M. { destruct (Rle_lt_or_eq_dec _ _ T2) as [M|M]; [left; apply lowX_incr; rewrite <- (ln_exp (Q2R xmin)); apply ln_increasing; [apply exp_pos|exact M]|rewrite <- M, ln_exp; lra]. }
      rewrite lowX_ln in M by exact Q0. assert (Q2R (q * (pval qa_12 q / pval qb_12 q)) <= Q2R (122 # 100)) by (apply Q2R_le; vm_compute; reflexivity). replace (Q2R (122 # 100)) with (122 / 100) in H by (unfold Q2R; cbn; field). lra. }
    assert (lowX x < 343 / 100) as U.
    { pose proof (lowX_incr x 2 Hx) as U. destruct (low_two qa_12 qb_12 1 ltac:(vm_compute; reflexivity) ltac:(vm_compute; reflexivity) ltac:(lra)) as [_ U2]. unfold low in U2. rewrite !Rdiv_1 in U2. fold (lowX 2) in U2.
      assert (Q2R (e2 * (pval qa_12 e2 / pval qb_12 e1)) <= Q2R (343 # 100)) by (apply Q2R_le; vm_compute; reflexivity). replace (Q2R (343 # 100)) with (343 / 100) in H by (unfold Q2R; cbn; field). lra. }
    destruct (rune x) as (B0 & L0 & E). { replace (Q2R 2) with 2 by (unfold Q2R; cbn; lra). lra. } rewrite (sA_sB (exp x)) in * by lra. fold (lowX x) in L0, E. eexists. split; [apply inv_1; [lra|apply Rgt_not_eq, L0]|]. apply eps_weak with (1 := E). unfold e6, Q2R; cbn; lra.
Qed.

(** *** x from 2 *)
Definition highX (x : R) : R := Rpower x (3 / 2) * (pe (rq qc_12) (/ x ^ 2) / pe (rq qd_12) (/ x ^ 2)).
Lemma highX_incr x y : 2 <= x -> x < y -> highX x < highX y.
Proof.
  intros H2 H. pose proof (high_increasing qc_12 qd_12 1 1 1 x y ltac:(vm_compute; reflexivity) ltac:(vm_compute; reflexivity) ltac:(lra) H2 H) as K. unfold high in K. rewrite !Rdiv_1 in K. replace (INR 1 - 1 / 2 + 1) with (3 / 2) in K by (cbn; field). exact K.
Qed.
Lemma d_pos s : 0 <= s <= 1 / 4 -> 0 < pe (rq qd_12) s.
Proof.
  intros Hs. destruct (Req_dec s 0) as [->|N].
  - replace 0 with (Q2R 0) by apply Q2R_0. rewrite pe_val. replace (Q2R 0) with 0 by (symmetry; apply Q2R_0). apply Qpos_R. vm_compute. reflexivity.
  - assert (0 < s) as S0 by lra. set (x := / sqrt s). assert (0 < sqrt s) as Q0 by now apply sqrt_lt_R0. assert (sqrt s <= 1 / 2) as Q1. { replace (1 / 2) with (sqrt (1 / 4)). { apply sqrt_le_1_alt. lra. } replace (1 / 4) with ((1 / 2) * (1 / 2)) by field. apply sqrt_square. lra. }
    destruct (d_nz qd_12 1 x ltac:(vm_compute; reflexivity)) as [D _]. { unfold x. replace 2 with (/ (1 / 2)) by field. apply Rinv_le_contravar; lra. }
    unfold x in D. rewrite pe_scal in D. rewrite pow_inv, Rinv_inv in D. replace (sqrt s ^ 2) with s in D by (cbn [pow]; rewrite Rmult_1_r, sqrt_sqrt; lra). replace (Q2R 1) with 1 in D by (unfold Q2R; cbn; lra). lra.
Qed.
Lemma sC_sD s : 0 <= s <= 1 / 4 -> pe (rq sC) s / pe (rq sD) s = pe (rq qc_12) s / pe (rq qd_12) s.
Proof. intros Hz. destruct (sCD s) as [E|E]; [exact E|]. unfold sD in E. rewrite pe_scal in E. pose proof (d_pos s Hz). assert (Q2R k14 <> 0) by (unfold k14, Q2R; cbn; lra). exfalso. apply Rmult_integral in E. destruct E; lra. Qed.
Definition vv (x : R) : R := / sqrt x.
Lemma vv_spec x : 2 <= x -> 0 < vv x /\ vv x * vv x = / x /\ vv x * vv x * (vv x * vv x) = / x ^ 2 /\ Rpower x (3 / 2) = / (vv x * (vv x * vv x)) /\ 0 <= / x ^ 2 <= 1 / 4.
Proof.
  intros Hx. assert (0 < sqrt x) as Q0 by (apply sqrt_lt_R0; lra). assert (sqrt x * sqrt x = x) as E by (apply sqrt_sqrt; lra). assert (vv x * vv x = / x) as E2 by (unfold vv; rewrite <- Rinv_mult, E; reflexivity).
  split; [now apply Rinv_0_lt_compat|]. split; [exact E2|]. split; [rewrite E2; field; lra|]. split.
  - rewrite E2. replace (3 / 2) with (1 + / 2) by field. rewrite Rpower_plus, Rpower_1, Rpower_sqrt by lra. unfold vv. field. lra.
  - assert (0 < / x ^ 2) by (apply Rinv_0_lt_compat; nra). split; [lra|]. replace (1 / 4) with (/ 4) by field. apply Rinv_le_contravar; nra.
Qed.
Lemma highX_v x : 2 <= x -> highX x = pe (rq sC) (vv x * vv x * (vv x * vv x)) / pe (rq sD) (vv x * vv x * (vv x * vv x)) / (vv x * (vv x * vv x)).
Proof. intros Hx. destruct (vv_spec x Hx) as (V0 & E2 & E4 & E3 & S). rewrite E4, sC_sD by exact S. unfold highX. rewrite E3. unfold Rdiv. ring. Qed.
(** the value at x = 1 / v^2 *)
Definition hv (v : Q) : Q := (pval qc_12 (v * v * (v * v)) / pval qd_12 (v * v * (v * v)) / (v * (v * v)))%Q.
Lemma highX_q v : 0 < Q2R v -> Q2R v * Q2R v <= 1 / 2 -> highX (/ (Q2R v * Q2R v)) = Q2R (hv v) /\ 2 <= / (Q2R v * Q2R v).
Proof.
  intros Hv H2. assert (0 < Q2R v * Q2R v) as P by nra. set (x := / (Q2R v * Q2R v)). assert (2 <= x) as Hx by (unfold x; replace 2 with (/ (1 / 2)) by field; apply Rinv_le_contravar; lra). split; [|exact Hx]. destruct (vv_spec x Hx) as (V0 & E2 & E4 & E3 & S).
  assert (vv x = Q2R v) as EV. { unfold vv, x. rewrite sqrt_inv, Rinv_inv by lra. apply sqrt_square. lra. } unfold highX. rewrite E3, <- E4, EV. rewrite EV in E4. rewrite <- E4 in S. pose proof (d_pos _ S) as D.
  unfold hv. rewrite <- !Q2R_mult in *. rewrite !pe_val in *. rewrite !Q2R_div; [unfold Rdiv; ring| |].
  - intros E. apply Qeq_eqR in E. rewrite Q2R_0 in E. lra.
  - intros E. apply Qeq_eqR in E. rewrite Q2R_0, !Q2R_mult in E. pose proof (Rmult_lt_0_compat _ _ Hv (Rmult_lt_0_compat _ _ Hv Hv)) as PP. rewrite E in PP. exact (Rlt_irrefl _ PP).
Qed.
Lemma vv_le x v t : 2 <= x -> 0 < Q2R v -> Q2R v * Q2R v <= 1 / 2 -> Q2R t <= highX x -> Qle_bool (hv v) t = true -> vv x <= Q2R v.
Proof.
  intros Hx Hv H2 Ht HC. apply Q2R_le in HC. destruct (highX_q v Hv H2) as [E L]. destruct (vv_spec x Hx) as (V0 & E2 & _). apply Rnot_lt_le. intros N.
  assert (x < / (Q2R v * Q2R v)) as K. { rewrite <- (Rinv_inv x), <- E2. apply Rinv_lt_contravar; [|nra]. apply Rmult_lt_0_compat; apply Rmult_lt_0_compat; assumption. } apply highX_incr in K; [lra|exact Hx].
Qed.
Lemma vv_ge x v t : 2 <= x -> 0 < Q2R v -> Q2R v * Q2R v <= 1 / 2 -> highX x <= Q2R t -> Qle_bool t (hv v) = true -> Q2R v <= vv x.
Proof.
  intros Hx Hv H2 Ht HC. apply Q2R_le in HC. destruct (highX_q v Hv H2) as [E L]. destruct (vv_spec x Hx) as (V0 & E2 & _). apply Rnot_lt_le. intros N.
  assert (/ (Q2R v * Q2R v) < x) as K. { rewrite <- (Rinv_inv x), <- E2. apply Rinv_lt_contravar; [|nra]. apply Rmult_lt_0_compat; apply Rmult_lt_0_compat; assumption. } apply highX_incr in K; [lra|exact L].
Qed.
Ltac qn := unfold v1, v2, v3, v4, v5, v2', v3', v4', v5', Q2R; cbn; lra.
Lemma near_h x r : 2 <= x -> Rabs (r - / (vv x * vv x)) <= Q2R e6 * (1 + / (vv x * vv x)) -> Rabs (r - x) <= 1 / 1000000 * (1 + Rabs x).
Proof. intros Hx. destruct (vv_spec x Hx) as (_ & E2 & _). rewrite E2, Rinv_inv. rewrite (Rabs_pos_eq x) by lra. replace (Q2R e6) with (1 / 1000000) by (unfold e6, Q2R; cbn; field). intros H; exact H. Qed.
Lemma round_high x : 2 <= x -> near x (inv (highX x)).
Proof.
  intros Hx. destruct (vv_spec x Hx) as (V0 & E2 & E4 & E3 & S). pose proof (highX_v x Hx) as EH.
  assert (122 / 100 <= highX x) as L0.
  { apply Rle_trans with (highX 2); [|destruct (Req_dec x 2) as [->|N]; [lra|left; apply highX_incr; lra]].
    destruct (high_two qc_12 qd_12 1 1 1 ltac:(vm_compute; reflexivity) ltac:(vm_compute; reflexivity) ltac:(vm_compute; reflexivity) ltac:(lra)) as [K _]. unfold high in K. rewrite !Rdiv_1 in K. replace (INR 1 - 1 / 2 + 1) with (3 / 2) in K by (cbn; field). fold (highX 2) in K. eapply Rle_trans; [|exact K].
    replace (122 / 100) with (Q2R (122 # 100)) by (unfold Q2R; cbn; field). apply Q2R_le. vm_compute. reflexivity. }
  assert (Q2R (343 # 100) = 343 / 100) as T1 by (unfold Q2R; cbn; field). assert (Q2R (105 # 10) = 105 / 10) as T2 by (unfold Q2R; cbn; field). assert (Q2R (343 # 10) = 343 / 10) as T3 by (unfold Q2R; cbn; field). assert (Q2R 117 = 117) as T4 by (unfold Q2R; cbn; field).
  destruct (Rlt_le_dec (highX x) (343 / 100)) as [U1|U1]; [|destruct (Rlt_le_dec (highX x) (105 / 10)) as [U2|U2]; [|destruct (Rlt_le_dec (highX x) (343 / 10)) as [U3|U3]; [|destruct (Rlt_le_dec (highX x) 117) as [U4|U4]]]].
  - assert (vv x <= Q2R v1) as Vh. { apply Rsqr_incr_0_var; [|unfold v1, Q2R; cbn; lra]. unfold Rsqr. rewrite E2. apply Rle_trans with (/ 2); [apply Rinv_le_contravar; lra|]. unfold v1, Q2R; cbn; lra. }
    assert (Q2R v2' <= vv x) as Vl by (apply (vv_ge x v2' (343 # 100)); [exact Hx|qn|qn|lra|vm_compute; reflexivity]).
    destruct (run1 (vv x) ltac:(lra)) as (_ & P & E). rewrite <- EH in P, E. eexists. split; [apply inv_1; [lra|apply Rgt_not_eq, P]|]. now apply near_h.
  - assert (vv x <= Q2R v2) as Vh by (apply (vv_le x v2 (343 # 100)); [exact Hx|qn|qn|lra|vm_compute; reflexivity]).
    assert (Q2R v3' <= vv x) as Vl by (apply (vv_ge x v3' (105 # 10)); [exact Hx|qn|qn|lra|vm_compute; reflexivity]).
    destruct (run2 (vv x) ltac:(lra)) as (_ & P & E). rewrite <- EH in P, E. eexists. split; [apply inv_2; [lra|apply Rgt_not_eq, P]|]. now apply near_h.
  - assert (vv x <= Q2R v3) as Vh by (apply (vv_le x v3 (105 # 10)); [exact Hx|qn|qn|lra|vm_compute; reflexivity]).
    assert (Q2R v4' <= vv x) as Vl by (apply (vv_ge x v4' (343 # 10)); [exact Hx|qn|qn|lra|vm_compute; reflexivity]).
    destruct (run3 (vv x) ltac:(lra)) as (_ & P & E). rewrite <- EH in P, E. eexists. split; [apply inv_3; [lra|apply Rgt_not_eq, P]|]. now apply near_h.
  - assert (vv x <= Q2R v4) as Vh by (apply (vv_le x v4 (343 # 10)); [exact Hx|qn|qn|lra|vm_compute; reflexivity]).
    assert (Q2R v5 <= vv x) as Vl by (apply (vv_ge x v5 117); [exact Hx|qn|qn|lra|vm_compute; reflexivity]).
    destruct (run4 (vv x) ltac:(lra)) as (_ & P & E). rewrite <- EH in P, E. eexists. split; [apply inv_4; [lra|apply Rgt_not_eq, P]|]. now apply near_h.
  - assert (vv x <= Q2R v5') as Vh by (apply (vv_le x v5' 117); [exact Hx|qn|qn|lra|vm_compute; reflexivity]).
    assert (/ x ^ 2 <= Q2R smax) as Hs. { rewrite <- E4. assert (vv x * vv x <= Q2R v5' * Q2R v5') by nra. assert (vv x * vv x * (vv x * vv x) <= Q2R v5' * Q2R v5' * (Q2R v5' * Q2R v5')) by nra. eapply Rle_trans; [eassumption|]. unfold v5', smax, Q2R; cbn; lra. }
    destruct (runS (/ x ^ 2) ltac:(lra)) as (C0 & D0 & G). set (rho := pe (rq sC) (/ x ^ 2) / pe (rq sD) (/ x ^ 2)) in *. assert (0 < rho) as R0 by now apply Rdiv_lt_0_compat.
    assert (highX x = Rpower x (3 / 2) * rho) as EX by (unfold highX, rho; rewrite sC_sD by exact S; reflexivity).
    set (q := Rpower rho (-4 / 3)). assert (0 < q) as Q0 by apply exp_pos.
    assert (q ^ 3 * rho ^ 4 = 1) as EQ. { unfold q. rewrite <- !Rpower_pow by (assumption || apply exp_pos). rewrite Rpower_mult, <- Rpower_plus. replace (-4 / 3 * INR 3 + INR 4) with 0 by (cbn; field). now apply Rpower_O. }
    destruct (G q Q0 EQ) as [P E]. assert (Rpower (highX x) (-4 / 3) = q * / x ^ 2) as EW.
    { rewrite EX, <- Rpower_mult_distr by (assumption || apply exp_pos). rewrite Rpower_mult. fold q. replace (3 / 2 * (-4 / 3)) with (- INR 2) by (cbn; field). rewrite Rpower_Ropp, Rpower_pow by lra. ring. }
    assert (0 < Q2R bS) as B0 by (unfold bS, Q2R; cbn; lra).
    replace (1 - Q2R bS * q * / x ^ 2) with (1 - Q2R bS * Rpower (highX x) (-4 / 3)) in P, E by (rewrite EW; ring). set (Y := 1 - Q2R bS * Rpower (highX x) (-4 / 3)) in *. set (A := pe (rq qrS_upper) Y / pe (rq qrS_lower) Y) in *.
    assert (0 < x ^ 2) as X2 by nra. assert (A / (Q2R bS * Rpower (highX x) (-4 / 3)) = A / (Q2R bS * q) * x ^ 2) as EA by (rewrite EW; field; lra). set (w := A / (Q2R bS * q)) in *.
    replace (Q2R e6) with (1 / 1000000) in E by (unfold e6, Q2R; cbn; field). apply Rabs_le_between in E.
    exists (sqrt (w * x ^ 2)). split.
    + rewrite <- EA. apply inv_S; [exact U4|apply Rgt_not_eq, P|]. fold Y. fold A. rewrite EA. apply Rmult_le_pos; lra.
    + rewrite sqrt_mult, sqrt_pow2 by lra. assert (0 <= sqrt w) as W0 by apply sqrt_pos. assert (sqrt w * sqrt w = w) as EW2 by (apply sqrt_sqrt; lra). rewrite (Rabs_pos_eq x) by lra. replace (sqrt w * x - x) with ((sqrt w - 1) * x) by ring. rewrite Rabs_mult, (Rabs_pos_eq x) by lra.
      assert (Rabs (sqrt w - 1) <= 1 / 1000000) as K by (apply Rabs_le; nra). pose proof (Rmult_le_compat_r x _ _ ltac:(lra) K). lra.
Qed.
Lemma round_all x : near x (inv (XX x)).
Proof. unfold XX. destruct (Rlt_dec x 2) as [L|L]; [exact (round_low x L)|exact (round_high x ltac:(lra))]. Qed.
