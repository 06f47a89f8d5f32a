(** Accuracy of the rational approximations of the Fermi integrals: numerical facts. *)
From Coq Require Import Reals List Arith ZArith QArith Qreals Lra Lia Psatz.
From Coquelicot Require Import Coquelicot.
From Verif Require Import M_Const M_PlasmaState M_Math L_Poly L_Fermi.
Import ListNotations.
Open Scope R_scope.

Lemma Q2R_le a b : Qle_bool a b = true -> Q2R a <= Q2R b.
Proof. intros H. apply Qle_Rle. now apply Qle_bool_iff. Qed.
(** *** pi *)
Lemma PI_approx : 314159265 / 100000000 <= PI <= 314159266 / 100000000.
Proof.
  pose proof (PI_2_3_7_ineq 5) as [H1 H2]. unfold tg_alt, PI_2_3_7_tg, Ratan_seq in *.
  cbn [sum_f_R0 Nat.mul Nat.add] in H1, H2. cbn [pow INR Nat.mul Nat.add] in H1, H2. split; lra.
Qed.
Lemma sqrt_PI_approx : 1772453848 / 1000000000 <= sqrt PI <= 1772453854 / 1000000000.
Proof.
  destruct PI_approx as [H1 H2]. split.
  - rewrite <- (sqrt_pow2 (1772453848 / 1000000000)) by lra. apply sqrt_le_1_alt. lra.
  - rewrite <- (sqrt_pow2 (1772453854 / 1000000000)) by lra. apply sqrt_le_1_alt. lra.
Qed.
(** *** square roots *)
Definition rt (k : positive) : Q := Z.sqrt (Zpos k * 10 ^ 24) # (10 ^ 12)%positive.
Lemma rt_approx k : Q2R (rt k) <= sqrt (IZR (Zpos k)) <= Q2R (rt k) + 1 / 10 ^ 12.
Proof.
  unfold rt, Q2R. cbn [Qnum Qden]. set (m := (Zpos k * 10 ^ 24)%Z). assert (0 <= m)%Z as Hm by (unfold m; lia). destruct (Z.sqrt_spec m Hm) as [H1 H2]. set (r := Z.sqrt m) in *. assert (0 <= r)%Z as Hr by apply Z.sqrt_nonneg.
  assert (IZR (Zpos k) = IZR m / 10 ^ 24) as E. { unfold m. rewrite mult_IZR. replace (IZR (10 ^ 24)) with (10 ^ 24) by (change (10 ^ 24)%Z with (10 ^ Z.of_nat 24)%Z; rewrite <- pow_IZR; reflexivity). field. }
  replace (Zpos (10 ^ 12)) with (10 ^ 12)%Z by reflexivity. replace (IZR (10 ^ 12)) with (10 ^ 12) by (change (10 ^ 12)%Z with (10 ^ Z.of_nat 12)%Z; rewrite <- pow_IZR; reflexivity).
  apply IZR_le in H1, Hr. apply IZR_lt in H2. rewrite !mult_IZR in *. rewrite succ_IZR in H2. rewrite E. assert (0 < 10 ^ 12) as HT by (apply pow_lt; lra). assert (10 ^ 24 = 10 ^ 12 * 10 ^ 12) as ET by ring. split.
  - rewrite <- (sqrt_square (IZR r * / 10 ^ 12)) by (apply Rmult_le_pos; [exact Hr|left; now apply Rinv_0_lt_compat]). apply sqrt_le_1_alt. rewrite ET. replace (IZR r * / 10 ^ 12 * (IZR r * / 10 ^ 12)) with ((IZR r * IZR r) / (10 ^ 12 * 10 ^ 12)) by (field; lra). apply Rmult_le_compat_r; [|exact H1]. left. apply Rinv_0_lt_compat. now apply Rmult_lt_0_compat.
  - replace (IZR r * / 10 ^ 12 + 1 / 10 ^ 12) with ((IZR r + 1) * / 10 ^ 12) by (field; lra).
    rewrite <- (sqrt_square ((IZR r + 1) * / 10 ^ 12)) by (apply Rmult_le_pos; [lra|left; now apply Rinv_0_lt_compat]). apply sqrt_le_1_alt. rewrite ET. replace ((IZR r + 1) * / 10 ^ 12 * ((IZR r + 1) * / 10 ^ 12)) with (((IZR r + 1) * (IZR r + 1)) / (10 ^ 12 * 10 ^ 12)) by (field; lra). apply Rmult_le_compat_r; [|lra]. left. apply Rinv_0_lt_compat. now apply Rmult_lt_0_compat.
Qed.
(** *** coefficients of the series *)
Definition tc (n : R) (k : nat) : R := (-1) ^ k / Rpower (INR (S k)) (n + 1).
Definition tlist (n : R) (N : nat) : list R := map (tc n) (seq 0 N).
Lemma pe_app p c x : pe (p ++ [c]) x = pe p x + c * x ^ length p.
Proof. induction p as [|a p IH]; cbn; [ring|]. rewrite IH. ring. Qed.
Lemma fser_pe n y N : fser n y N = y * pe (tlist n N) y.
Proof.
  induction N as [|N IH]; [cbn; ring|]. cbn [fser]. rewrite IH. unfold tlist. rewrite seq_S, map_app. cbn [map Nat.add]. rewrite pe_app, map_length, seq_length. unfold tc. cbn [pow]. field. apply Rgt_not_eq, exp_pos.
Qed.
(** rational approximations; [m] is n + 1/2 *)
Definition t0 (m : nat) (k : nat) : Q :=
  Qred ((if Nat.even k then 1 else -1) * rt (Pos.of_succ_nat k) / Qpower (inject_Z (Zpos (Pos.of_succ_nat k))) (Z.of_nat (S m))).
Definition t0list (m N : nat) : list Q := map (t0 m) (seq 0 N).
Lemma Q2R_pow q k : Q2R (q ^ Z.of_nat k) = Q2R q ^ k.
Proof.
  induction k as [|k IH]; [cbn; unfold Q2R; cbn; lra|]. cbn [pow]. rewrite <- IH, <- Q2R_mult. apply Qeq_eqR. rewrite Nat2Z.inj_succ, <- Z.add_1_r. destruct k as [|k].
  - cbn. ring.
  - rewrite Qpower.Qpower_plus'; [|lia]. change (q ^ 1)%Q with q. apply Qmult_comm.
Qed.
Lemma half_power (k m : nat) : Rpower (INR (S k)) (INR m - 1 / 2 + 1) = INR (S k) ^ m * sqrt (INR (S k)).
Proof.
  assert (0 < INR (S k)) as H by (apply lt_0_INR; lia). replace (INR m - 1 / 2 + 1) with (INR m + / 2) by field. rewrite Rpower_plus, Rpower_pow, Rpower_sqrt by exact H. reflexivity.
Qed.
Lemma t0_approx m k : Rabs (tc (INR m - 1 / 2) k - Q2R (t0 m k)) <= 1 / 10 ^ 12.
Proof.
  unfold tc, t0. rewrite half_power. set (p := Pos.of_succ_nat k). assert (INR (S k) = IZR (Zpos p)) as Ep by (unfold p; rewrite INR_IZR_INZ; reflexivity).
  rewrite Q2R_red. unfold Qdiv. rewrite !Q2R_mult, Q2R_inv, Q2R_pow. 2:{ intros H. apply Qeq_eqR in H. rewrite Q2R_pow, Q2R_inj, Q2R_0 in H. apply (pow_nonzero (IZR (Zpos p)) (S m)); [|exact H]. apply not_0_IZR. discriminate. }
  rewrite Q2R_inj. rewrite Ep. destruct (rt_approx p) as [H1 H2]. set (s := sqrt (IZR (Zpos p))) in *. set (z := IZR (Zpos p)) in *.
  assert (1 <= z) as Hz by (unfold z; apply IZR_le; lia). assert (0 < s) as Hs by (apply sqrt_lt_R0; lra). assert (s * s = z) as Es by (apply sqrt_sqrt; lra).
  assert ((-1) ^ k = Q2R (if Nat.even k then 1 else -1)) as E1.
  { destruct (Nat.even k) eqn:Ev.
    - apply Nat.even_spec in Ev. destruct Ev as [j ->]. rewrite pow_1_even. unfold Q2R; cbn. field.
    - assert (Nat.odd k = true) as Od by (unfold Nat.odd; now rewrite Ev). apply Nat.odd_spec in Od. destruct Od as [j ->]. rewrite Nat.add_1_r, pow_1_odd. unfold Q2R; cbn. field. }
  rewrite <- E1. cbn [pow]. assert (0 < z ^ m) as Hzm by (apply pow_lt; lra). assert (1 <= z ^ m) as Hzm1 by (apply pow_R1_Rle; exact Hz).
  replace ((-1) ^ k / (z ^ m * s) - (-1) ^ k * Q2R (rt p) * / (z * z ^ m)) with ((-1) ^ k * ((s - Q2R (rt p)) * / (z * z ^ m))) by (assert (forall q, 0 < q -> / (q * s) = s * / (z * q)) as Hq by (intros q Hq; rewrite <- Es; field; lra); unfold Rdiv; rewrite (Hq _ Hzm); ring).
  rewrite Rabs_mult, pow_1_abs, Rmult_1_l. assert (1 <= z * z ^ m) as Hd by nra. rewrite Rabs_pos_eq by (apply Rmult_le_pos; [lra|left; apply Rinv_0_lt_compat; lra]).
  apply Rle_trans with ((s - Q2R (rt p)) * 1); [|lra]. apply Rmult_le_compat_l; [lra|]. rewrite <- Rinv_1. apply Rinv_le_contravar; lra.
Qed.
Lemma tlist_approx m N y : 0 <= y <= 1 -> Rabs (pe (tlist (INR m - 1 / 2) N) y - pe (rq (t0list m N)) y) <= INR N * (1 / 10 ^ 12).
Proof.
  intros Hy. induction N as [|N IH]; [cbn; rewrite Rminus_0_r, Rabs_R0; lra|]. unfold tlist, t0list, rq in *. rewrite seq_S, !map_app. cbn [map Nat.add]. rewrite !pe_app, !map_length, seq_length.
  rewrite S_INR. pose proof (t0_approx m N) as H. set (A := pe (map (tc (INR m - 1 / 2)) (seq 0 N)) y) in *. set (B := pe (map Q2R (map (t0 m) (seq 0 N))) y) in *. set (c := tc (INR m - 1 / 2) N) in *. set (d := Q2R (t0 m N)) in *.
  replace (A + c * y ^ N - (B + d * y ^ N)) with ((A - B) + (c - d) * y ^ N) by ring. eapply Rle_trans; [apply Rabs_triang|]. rewrite Rmult_plus_distr_r. apply Rplus_le_compat; [exact IH|]. rewrite Rabs_mult.
  assert (0 <= y ^ N <= 1) as Hp. { split; [apply pow_le; lra|]. rewrite <- (pow1 N). apply pow_incr. lra. }
  rewrite (Rabs_pos_eq (y ^ N)) by lra. pose proof (Rabs_pos (c - d)). nra.
Qed.
(** *** the low-density branch *)
Definition d12 : Q := 1 # (10 ^ 12)%positive.
Lemma Q2R_d12 : Q2R d12 = 1 / 10 ^ 12. Proof. unfold d12, Q2R; cbn [Qnum Qden]. replace (IZR (Zpos (10 ^ 12))) with (10 ^ 12) by (change (Zpos (10 ^ 12)) with (10 ^ Z.of_nat 12)%Z; rewrite <- pow_IZR; reflexivity). unfold Rdiv. reflexivity. Qed.
Definition acc_check (a b : list Q) (m N : nat) (g0 gam Y eps : Q) : bool :=
  match b with [] => false | b0 :: b' =>
    let T := t0list m N in
    let D := padd a (pscal (- g0) (pmul b T)) in
    let YN := Qred (Qpower Y (Z.of_nat N)) in
    let nd := Qred (inject_Z (Z.of_nat N) * d12) in
    let E := Qred (pabs D Y / b0 + gam * pabs T Y + (g0 + gam) * (nd + YN)) in
    let low := Qred (plow T Y - nd - YN) in
    ppos b' && negb (Qle_bool b0 0) && negb (Qle_bool (g0 - gam) 0) && negb (Qle_bool low 0) && Qle_bool 0 Y && Qle_bool Y 1 && Qle_bool 0 gam && Qle_bool (E / (g0 - gam)) (eps * low)
  end.
Lemma not_le a b : negb (Qle_bool a b) = true -> Q2R b < Q2R a.
Proof. intros H. apply Qlt_Rlt. destruct (Qlt_le_dec b a) as [L|L]; [exact L|]. apply Qle_bool_iff in L. rewrite L in H. discriminate. Qed.
Ltac q2r H := repeat (rewrite Q2R_red in H || rewrite Q2R_plus in H || rewrite Q2R_mult in H || rewrite Q2R_opp in H || rewrite Q2R_inj in H || rewrite Q2R_d12 in H).
Lemma acc a b c d m N g0 gam Y eps x P G : acc_check a b m N g0 gam Y eps = true -> prim (INR m - 1 / 2) P G ->
  Rabs (G - Q2R g0) <= Q2R gam -> exp x <= Q2R Y -> x < 2 ->
  exists v F : R, F_n x (rq a) (rq b) c d (INR m - 1 / 2) = Some v /\ IG (fterm (INR m - 1 / 2) x) F /\ 0 < F / G /\ Rabs (v - F / G) <= Q2R eps * (F / G) /\ 0 < G.
Proof.
  intros HC HP HG Hx Hx2. unfold acc_check in HC. destruct b as [|b0 b']; [discriminate|]. cbv zeta in HC. set (b := b0 :: b') in *. set (n := INR m - 1 / 2) in *. set (T := t0list m N) in *. set (D := padd a (pscal (- g0) (pmul b T))) in *.
  rewrite !Bool.andb_true_iff in HC. destruct HC as [[[[[[[C1 C2] C3] C4] C5] C6] C7] C8]. apply not_le in C2, C3, C4. rewrite Q2R_0 in *. apply Q2R_le in C5, C6, C7, C8. rewrite Q2R_0 in *.
  assert (~ (b0 == 0)%Q) as Nb. { intros E. apply Qeq_eqR in E. rewrite Q2R_0 in E. lra. }
  assert (~ (g0 - gam == 0)%Q) as Ng. { intros E. apply Qeq_eqR in E. rewrite Q2R_0 in E. lra. }
  unfold Qminus in C3, C4. q2r C3. q2r C4. rewrite Q2R_mult, (Q2R_div _ _ Ng), Q2R_red, !Q2R_plus, (Q2R_div _ _ Nb) in C8. unfold Qminus in C8. q2r C8. rewrite Q2R_pow in C4, C8.
  rewrite <- INR_IZR_INZ in C4, C8. assert (Q2R 1 = 1) as Q1 by (unfold Q2R; cbn; lra). rewrite Q1 in C6.
  set (y := exp x) in *. assert (0 < y) as Hy by apply exp_pos. assert (0 <= y <= Q2R Y) as HyY by lra.
  pose proof (pe_abs D y Y HyY) as HD. unfold D in HD. rewrite pe_add, pe_scal, pe_mul, Q2R_opp in HD. fold D in HD.
  pose proof (pe_abs T y Y HyY) as HT. pose proof (pe_low T y Y HyY) as HL. assert (Q2R b0 <= pe (rq b) y) as HB by (apply pe_head; [exact C1|lra]).
  pose proof (tlist_approx m N y ltac:(lra)) as HA. fold n T in HA.
  set (g := Q2R g0) in *. set (ga := Q2R gam) in *. set (B := pe (rq b) y) in *. set (A := pe (rq a) y) in *. set (T0 := pe (rq T) y) in *. set (T1 := pe (tlist n N) y) in *. set (nd := INR N * (1 / 10 ^ 12)) in *.
  set (ds := Q2R (pabs D Y)) in *. set (ta := Q2R (pabs T Y)) in *. set (lo := Q2R (plow T Y)) in *. set (YN := Q2R Y ^ N) in *. set (b0r := Q2R b0) in *. set (ep := Q2R eps) in *.
  apply Rabs_le_between in HG, HD, HT, HA. assert (0 < G) as G0 by lra.
  destruct (fermi_series n P G x N HP ltac:(lra)) as (F & HF & HE). rewrite fser_pe in HE. fold y T1 in HE.
  assert (y ^ S N / Rpower (INR (S N)) (n + 1) <= y * YN) as HR.
  { assert (y ^ N <= YN) as L by (unfold YN; apply pow_incr; lra). assert (0 < y ^ N) as L0 by (apply pow_lt; exact Hy). cbn [pow].
    assert (1 <= Rpower (INR (S N)) (n + 1)) as L1. { unfold n. rewrite half_power. assert (1 <= INR (S N)) as L2 by (rewrite S_INR; pose proof (pos_INR N); lra). pose proof (pow_R1_Rle _ m L2). assert (1 <= sqrt (INR (S N))) by (rewrite <- sqrt_1; now apply sqrt_le_1_alt). nra. }
    apply Rmult_le_reg_r with (Rpower (INR (S N)) (n + 1)); [lra|]. unfold Rdiv. rewrite Rmult_assoc, Rinv_l by lra. assert (0 <= y * YN) by (apply Rmult_le_pos; lra). assert (y * y ^ N <= y * YN) by (apply Rmult_le_compat_l; lra). nra. }
  assert (Rabs (F - G * (y * T1)) <= G * (y * YN)) as HE2 by (eapply Rle_trans; [exact HE|apply Rmult_le_compat_l; lra]). clear HE HR. apply Rabs_le_between in HE2.
  set (f := F / G). assert (F = G * f) as Ef by (unfold f; field; lra). assert (y * (T1 - YN) <= f <= y * (T1 + YN)) as Hf. { split; apply Rmult_le_reg_l with G; try exact G0; rewrite <- Ef; lra. }
  assert (0 < lo - nd - YN) as C4' by lra. assert (lo - nd - YN <= T1 - YN) as HT1 by lra.
  assert (0 < f) as F0 by (apply Rlt_le_trans with (y * (T1 - YN)); [apply Rmult_lt_0_compat; lra|lra]).
  assert (F_n x (rq a) (rq b) c d n = Some (y * (A / B) / G)) as EV.
  { unfold F_n. destruct (Rlt_dec x 2) as [_|N2]; [|contradiction]. rewrite R1_pe. fold y A B. rewrite qdiv_some by lra. cbn [obind]. rewrite (gamma_prim n P G HP), qdiv_some by lra. reflexivity. }
  exists (y * (A / B) / G), F. split; [exact EV|]. split; [exact HF|]. split; [exact F0|]. split; [|exact G0]. fold f.
  (* A / B is close to G * T1 *)
  assert (0 < B) as B0 by lra. set (r := A / B). assert (A = r * B) as Er by (unfold r; field; lra). rewrite Er in HD.
  assert (Rabs (r - g * T0) <= ds * / b0r) as H1.
  { assert (0 <= ds) by lra. assert (Rabs (r - g * T0) * B <= ds). { rewrite <- (Rabs_pos_eq B) by lra. rewrite <- Rabs_mult. apply Rabs_le. split; nra. }
    apply Rmult_le_reg_r with b0r; [lra|]. rewrite Rmult_assoc, Rinv_l by lra. pose proof (Rabs_pos (r - g * T0)). nra. }
  assert (0 <= nd) as Nd by (unfold nd; apply Rmult_le_pos; [apply pos_INR|]; apply Rlt_le, Rdiv_lt_0_compat; [lra|apply pow_lt; lra]).
  assert (Rabs (g * T0 - G * T1) <= ga * ta + (g + ga) * nd) as H2.
  { replace (g * T0 - G * T1) with ((g - G) * T0 + G * (T0 - T1)) by ring. eapply Rle_trans; [apply Rabs_triang|]. rewrite !Rabs_mult. apply Rplus_le_compat.
    - apply Rmult_le_compat; try apply Rabs_pos; apply Rabs_le; lra.
    - rewrite (Rabs_pos_eq G) by lra. apply Rmult_le_compat; try apply Rabs_pos; [lra|lra|apply Rabs_le; lra]. }
  assert (0 <= YN) as HYN by (apply pow_le; lra).
  set (E := ds * / b0r + ga * ta + (g + ga) * (nd + YN)). assert (Rabs (r - G * T1) + G * YN <= E) as H3.
  { replace (r - G * T1) with ((r - g * T0) + (g * T0 - G * T1)) by ring. pose proof (Rabs_triang (r - g * T0) (g * T0 - G * T1)). assert (G * YN <= (g + ga) * YN) by (apply Rmult_le_compat_r; lra). unfold E. lra. }
  assert (Rabs (y * r - G * f) <= y * E) as H4.
  { apply Rle_trans with (y * (Rabs (r - G * T1) + G * YN)); [|apply Rmult_le_compat_l; lra]. replace (y * r - G * f) with (y * (r - G * T1) + G * (y * T1 - f)) by ring. eapply Rle_trans; [apply Rabs_triang|]. rewrite !Rabs_mult, (Rabs_pos_eq y), (Rabs_pos_eq G) by lra.
    rewrite Rmult_plus_distr_l. apply Rplus_le_compat_l. replace (y * (G * YN)) with (G * (y * YN)) by ring. apply Rmult_le_compat_l; [lra|]. apply Rabs_le. lra. }
  replace (y * r / G - f) with ((y * r - G * f) / G) by (field; lra). unfold Rdiv. rewrite Rabs_mult, (Rabs_pos_eq (/ G)) by (left; now apply Rinv_0_lt_compat).
  assert (0 <= E) as E0. { pose proof (Rabs_pos (r - G * T1)). assert (0 <= G * YN) by (apply Rmult_le_pos; lra). lra. }
  apply Rle_trans with (y * E * / (g + - ga)).
  - apply Rmult_le_compat; [apply Rabs_pos|left; now apply Rinv_0_lt_compat|exact H4|]. apply Rinv_le_contravar; lra.
  - assert (E / (g + - ga) <= ep * (lo + - nd + - YN)) as C8' by exact C8. replace (y * E * / (g + - ga)) with (y * (E / (g + - ga))) by (unfold Rdiv; ring). apply Rle_trans with (y * (ep * (lo + - nd + - YN))); [apply Rmult_le_compat_l; lra|].
    assert (0 <= ep) as P0. { assert (0 <= E / (g + - ga)) by (apply Rmult_le_pos; [exact E0|left; apply Rinv_0_lt_compat; lra]). destruct (Rle_dec 0 ep) as [|Ne]; [assumption|]. exfalso. assert (ep * (lo + - nd + - YN) < 0 * (lo + - nd + - YN)) by (apply Rmult_lt_compat_r; lra). lra. }
    replace (y * (ep * (lo + - nd + - YN))) with (ep * (y * (lo + - nd + - YN))) by ring. apply Rmult_le_compat_l; [exact P0|]. apply Rle_trans with (y * (T1 - YN)); [|lra]. apply Rmult_le_compat_l; lra.
Qed.
