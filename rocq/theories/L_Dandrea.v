(** Expansions of the fit of Dandrea, Ashcroft and Carlsson to the Lindhard function at
    a finite temperature, for large and for small arguments. *)
From Coq Require Import Reals List Arith Lra Lia Psatz.
From Coquelicot Require Import Complex.
From Verif Require Import M_Const M_PlasmaState M_PlasmaPhysics L_PlasmaPhysics M_FreeFree L_FreeFree6.
Open Scope R_scope.

(** a bounded remainder: |a x + b| on [0,1] is bounded by |a| + |b| *)
Lemma bnd_step a b t A : 0 <= t <= 1 -> Rabs b <= A -> Rabs (a + t * b) <= Rabs a + A.
Proof.
  intros Ht Hb. eapply Rle_trans; [apply Rabs_triang|]. apply Rplus_le_compat_l. rewrite Rabs_mult, (Rabs_pos_eq t) by lra.
  pose proof (Rabs_pos b). nra.
Qed.
Lemma bnd0 a : Rabs a <= Rabs a.
Proof. lra. Qed.
Lemma inv_bound d D0 : D0 <> 0 -> Rabs (d - D0) <= Rabs D0 / 2 -> d <> 0 /\ / Rabs d <= 2 / Rabs D0.
Proof.
  intros H0 H. pose proof (Rabs_pos_lt _ H0). assert (Rabs D0 / 2 <= Rabs d).
  { pose proof (Rabs_triang (D0 - d) d). replace (D0 - d + d) with D0 in * by ring. rewrite (Rabs_minus_sym d D0) in H. lra. }
  assert (d <> 0) by (intro; subst; rewrite Rabs_R0 in *; lra). split; [assumption|].
  replace (2 / Rabs D0) with (/ (Rabs D0 / 2)) by (field; lra). apply Rinv_le_contravar; lra.
Qed.

Section Rational.
  Variables (S a2 a4 a6 a8 b2 b4 c1 c2 : R).
  Hypothesis HS : S <> 0.
  Hypothesis H8 : a8 <> 0.
  Let s := 3 / 2 * S.
  Let b10 := s * a8.
  Let b8 := s * a6 - c1 * b10.
  Let b6 := s * a4 - c1 * b8 - c2 * b10.
  Let num x := 1 + a2 * x ^ 2 + a4 * x ^ 4 + a6 * x ^ 6 + a8 * x ^ 8.
  Let den x := 1 + b2 * x ^ 2 + b4 * x ^ 4 + b6 * x ^ 6 + b8 * x ^ 8 + b10 * x ^ 10.
  Let dt t := b10 + t * (b8 + t * (b6 + t * (b4 + t * (b2 + t * 1)))).
  Let rt t := (s * a2 - b4 - c1 * b6 - c2 * b8) + t * ((s - b2 - c1 * b4 - c2 * b6) + t * ((-1 - c1 * b2 - c2 * b4) + t * ((- c1 - c2 * b2) + t * - c2))).

  Lemma b10_neq : b10 <> 0.
  Proof. unfold b10, s. apply Rmult_integral_contrapositive. split; [lra|assumption]. Qed.
  Lemma large_form x : x <> 0 -> den x <> 0 ->
    S * x * (num x / den x) - 2 / 3 * (/ x + c1 / x ^ 3 + c2 / x ^ 5) = 2 / 3 * (rt (/ x ^ 2) / dt (/ x ^ 2)) / x ^ 7.
  Proof.
    intros Hx Hd. assert (Ed : dt (/ x ^ 2) = den x / x ^ 10) by (unfold dt, den; field; assumption).
    rewrite Ed.
    assert (En : 3 / 2 * (S * x ^ 2 * num x) = den x * (1 + c1 / x ^ 2 + c2 / x ^ 4) + rt (/ x ^ 2) * x ^ 4).
    { unfold rt, num, den, b6, b8, b10, s. field. assumption. }
    assert (En2 : S * num x = 2 / 3 * (den x * (1 + c1 / x ^ 2 + c2 / x ^ 4) + rt (/ x ^ 2) * x ^ 4) / x ^ 2).
    { rewrite <- En. field. assumption. }
    replace (S * x * (num x / den x)) with (S * num x * (x / den x)) by (field; assumption). rewrite En2.
    set (d := den x) in *. set (r := rt _). clearbody d r. field. split; assumption.
  Qed.
  Lemma large_expansion : exists M X, 0 < M /\ 1 <= X /\ forall x, X <= x ->
    den x <> 0 /\ Rabs (S * x * (num x / den x) - 2 / 3 * (/ x + c1 / x ^ 3 + c2 / x ^ 5)) <= M / x ^ 7.
  Proof.
    pose proof b10_neq as Hb. pose proof (Rabs_pos_lt _ Hb) as Hb'.
    set (B := Rabs b8 + (Rabs b6 + (Rabs b4 + (Rabs b2 + Rabs 1)))).
    set (A := Rabs (s * a2 - b4 - c1 * b6 - c2 * b8) + (Rabs (s - b2 - c1 * b4 - c2 * b6) + (Rabs (-1 - c1 * b2 - c2 * b4) + (Rabs (- c1 - c2 * b2) + Rabs (- c2))))).
    assert (HB : 1 <= B). { unfold B. rewrite Rabs_R1. pose proof (Rabs_pos b8). pose proof (Rabs_pos b6). pose proof (Rabs_pos b4). pose proof (Rabs_pos b2). lra. }
    assert (HA : 0 <= A). { unfold A. repeat apply Rplus_le_le_0_compat; apply Rabs_pos. }
    exists (2 / 3 * (A * (2 / Rabs b10)) + 1), (Rmax 1 (2 * B / Rabs b10)).
    assert (0 < 2 / Rabs b10) by (apply Rdiv_lt_0_compat; lra).
    split; [nra|]. split; [apply Rmax_l|]. intros x Hx. pose proof (Rmax_l 1 (2 * B / Rabs b10)). pose proof (Rmax_r 1 (2 * B / Rabs b10)).
    assert (Hx1 : 1 <= x) by lra. assert (HxB : 2 * B / Rabs b10 <= x) by lra. assert (Hx2 : x <= x ^ 2) by nra.
    set (t := / x ^ 2). assert (Ht : 0 < t <= 1). { split; [apply Rinv_0_lt_compat; nra|]. unfold t. rewrite <- Rinv_1. apply Rinv_le_contravar; nra. }
    assert (HtB : t * B <= Rabs b10 / 2).
    { assert (t <= / x) by (apply Rinv_le_contravar; lra). assert (B <= x * (Rabs b10 / 2)).
      { replace B with (2 * B / Rabs b10 * (Rabs b10 / 2)) by (field; lra). apply Rmult_le_compat_r; lra. }
      apply Rle_trans with (/ x * (x * (Rabs b10 / 2))); [apply Rmult_le_compat; lra|]. right. field. lra. }
    assert (Ed : dt t = den x / x ^ 10) by (unfold dt, den, t; field; lra).
    destruct (inv_bound (dt t) b10 Hb) as [Hn Hi].
    { unfold dt. match goal with |- Rabs (b10 + t * ?z - b10) <= _ => replace (b10 + t * z - b10) with (t * z) by ring; assert (Rabs z <= B) end.
      { unfold B. repeat (apply bnd_step; [lra|]). apply bnd0. }
      rewrite Rabs_mult, (Rabs_pos_eq t) by lra. eapply Rle_trans; [|exact HtB]. apply Rmult_le_compat_l; lra. }
    assert (Hd : den x <> 0). { intro E. apply Hn. rewrite Ed, E. field. lra. }
    split; [exact Hd|]. rewrite large_form by (try assumption; lra). fold t.
    assert (H7 : 0 < x ^ 7) by (apply pow_lt; lra).
    unfold Rdiv at 1. rewrite Rabs_mult. rewrite (Rabs_pos_eq (/ x ^ 7)) by (left; now apply Rinv_0_lt_compat).
    apply Rmult_le_compat_r; [left; now apply Rinv_0_lt_compat|].
    rewrite Rabs_mult, (Rabs_pos_eq (2 / 3)) by lra. unfold Rdiv at 2. rewrite Rabs_mult, Rabs_inv.
    assert (Rabs (rt t) <= A). { unfold rt, A. repeat (apply bnd_step; [lra|]). apply bnd0. }
    assert (Rabs (rt t) * / Rabs (dt t) <= A * (2 / Rabs b10)).
    { apply Rmult_le_compat; [apply Rabs_pos| |assumption|assumption]. left. apply Rinv_0_lt_compat. now apply Rabs_pos_lt. }
    lra.
  Qed.
  (** near zero *)
  Lemma small_expansion : exists M X, 0 < M /\ 0 < X <= 1 /\ forall x, Rabs x <= X ->
    den x <> 0 /\ Rabs (S * x * (num x / den x) - S * x) <= M * Rabs x ^ 3.
  Proof.
    set (g t := b2 + t * (b4 + t * (b6 + t * (b8 + t * b10)))).
    set (h t := (a2 - b2) + t * ((a4 - b4) + t * ((a6 - b6) + t * ((a8 - b8) + t * - b10)))).
    set (B := Rabs b2 + (Rabs b4 + (Rabs b6 + (Rabs b8 + Rabs b10)))).
    set (A := Rabs (a2 - b2) + (Rabs (a4 - b4) + (Rabs (a6 - b6) + (Rabs (a8 - b8) + Rabs (- b10))))).
    assert (HB : 0 <= B). { unfold B. repeat apply Rplus_le_le_0_compat; apply Rabs_pos. }
    assert (HA : 0 <= A). { unfold A. repeat apply Rplus_le_le_0_compat; apply Rabs_pos. }
    pose proof (Rabs_pos S) as HS0.
    exists (Rabs S * (A * 2) + 1), (/ (2 * B + 1)). split; [nra|].
    assert (HX : 0 < / (2 * B + 1) <= 1). { split; [apply Rinv_0_lt_compat; lra|]. apply Rle_trans with (/ 1); [apply Rinv_le_contravar; lra|lra]. }
    split; [exact HX|]. intros x Hx. pose proof (Rabs_pos x) as Hx0. set (t := x ^ 2). assert (Et : t = Rabs x ^ 2) by (unfold t; now rewrite pow2_abs).
    assert (Ht : 0 <= t <= 1) by (rewrite Et; nra).
    assert (HtX : t * (2 * B + 1) <= 1).
    { assert (t <= / (2 * B + 1)) by (rewrite Et; nra). apply Rle_trans with (/ (2 * B + 1) * (2 * B + 1)); [apply Rmult_le_compat_r; lra|]. right. field. lra. }
    assert (Hg : Rabs (g t) <= B). { unfold g, B. repeat (apply bnd_step; [lra|]). apply bnd0. }
    assert (Hh : Rabs (h t) <= A). { unfold h, A. repeat (apply bnd_step; [lra|]). apply bnd0. }
    assert (Ed : den x = 1 + t * g t) by (unfold den, g, t; ring).
    assert (En : num x = den x + t * h t) by (unfold num, den, h, t; ring).
    destruct (inv_bound (den x) 1 R1_neq_R0) as [Hn Hi].
    { rewrite Ed, Rabs_R1. replace (1 + t * g t - 1) with (t * g t) by ring. rewrite Rabs_mult, (Rabs_pos_eq t) by lra. nra. }
    split; [exact Hn|]. replace (S * x * (num x / den x) - S * x) with (S * (h t * / den x) * (x * t)) by (rewrite En; field; exact Hn).
    rewrite !Rabs_mult, Rabs_inv. rewrite (Rabs_pos_eq t) by lra. replace (Rabs x * t) with (Rabs x ^ 3) by (rewrite Et; ring).
    apply Rmult_le_compat_r; [apply pow_le; exact Hx0|]. rewrite Rabs_R1 in Hi.
    assert (Rabs (h t) * / Rabs (den x) <= A * 2).
    { apply Rmult_le_compat; [apply Rabs_pos| |assumption|lra]. left. apply Rinv_0_lt_compat. now apply Rabs_pos_lt. }
    apply Rle_trans with (Rabs S * (A * 2)); [apply Rmult_le_compat_l; assumption|lra].
  Qed.
End Rational.

Lemma quot_bound N D M y : 0 < D -> 0 < y -> Rabs N * y ^ 6 <= M * D -> Rabs (N / D) <= M / y ^ 6.
Proof.
  intros HD Hy H. assert (0 < y ^ 6) by (apply pow_lt; lra). unfold Rdiv. rewrite Rabs_mult, (Rabs_pos_eq (/ D)) by (left; now apply Rinv_0_lt_compat).
  apply (Rmult_le_reg_r (D * y ^ 6)); [now apply Rmult_lt_0_compat|].
  replace (Rabs N * / D * (D * y ^ 6)) with (Rabs N * y ^ 6) by (field; lra).
  replace (M * / y ^ 6 * (D * y ^ 6)) with (M * D) by (field; lra). exact H.
Qed.
(** the difference of two values 2Q apart, far out *)
Section Diff.
  Variables (Q y : R).
  Hypothesis HQ : 0 < Q.
  Hypothesis Hy : 2 * Q <= y.
  Let P := (y - Q) * (y + Q).
  Lemma P_ge : 0 < P /\ 3 / 4 * y ^ 2 <= P.
  Proof. unfold P. split; nra. Qed.
  Lemma diff1 : Rabs (/ (y - Q) - / (y + Q) - (2 * Q / y ^ 2 + 2 * Q ^ 3 / y ^ 4)) <= 8 / 3 * Q ^ 5 / y ^ 6.
  Proof.
    destruct P_ge as [HP HP']. assert (0 < y ^ 4) by (apply pow_lt; lra). assert (0 < Q ^ 5) by (apply pow_lt; lra).
    replace (/ (y - Q) - / (y + Q) - (2 * Q / y ^ 2 + 2 * Q ^ 3 / y ^ 4)) with (2 * Q ^ 5 / (y ^ 4 * P)) by (unfold P; field; repeat split; lra).
    apply quot_bound; [now apply Rmult_lt_0_compat|lra|]. rewrite Rabs_pos_eq by lra.
    replace (2 * Q ^ 5 * y ^ 6) with (Q ^ 5 * y ^ 4 * (2 * y ^ 2)) by ring. replace (8 / 3 * Q ^ 5 * (y ^ 4 * P)) with (Q ^ 5 * y ^ 4 * (8 / 3 * P)) by ring.
    apply Rmult_le_compat_l; [apply Rmult_le_pos; lra|lra].
  Qed.
  Lemma diff3 : Rabs (/ (y - Q) ^ 3 - / (y + Q) ^ 3 - 6 * Q / y ^ 4) <= 60 * Q ^ 3 / y ^ 6.
  Proof.
    destruct P_ge as [HP HP']. assert (0 < y ^ 4) by (apply pow_lt; lra). assert (H3 : 0 < Q ^ 3) by (apply pow_lt; lra).
    assert (Hw : (3 / 4 * y ^ 2) ^ 3 <= P ^ 3) by (apply pow_incr; split; [nra|exact HP']).
    replace (/ (y - Q) ^ 3 - / (y + Q) ^ 3 - 6 * Q / y ^ 4) with ((Q ^ 3 * (20 * y ^ 4 - 18 * Q ^ 2 * y ^ 2 + 6 * Q ^ 4)) / (y ^ 4 * P ^ 3)) by (unfold P; field; repeat split; lra).
    assert (HP3 : 0 < P ^ 3) by (apply pow_lt; exact HP). apply quot_bound; [now apply Rmult_lt_0_compat|lra|].
    assert (Hq : 0 <= Q ^ 2 <= y ^ 2 / 4) by (split; nra).
    assert (Hb : 0 <= 20 * y ^ 4 - 18 * Q ^ 2 * y ^ 2 + 6 * Q ^ 4 <= 21 * y ^ 4).
    { replace (y ^ 4) with (y ^ 2 * y ^ 2) in * by ring. replace (Q ^ 4) with (Q ^ 2 * Q ^ 2) by ring. set (p := y ^ 2) in *. set (q := Q ^ 2) in *. clearbody p q. split; nra. }
    rewrite Rabs_pos_eq by (apply Rmult_le_pos; lra).
    apply Rle_trans with (Q ^ 3 * (21 * y ^ 4) * y ^ 6).
    - apply Rmult_le_compat_r; [apply pow_le; lra|]. apply Rmult_le_compat_l; lra.
    - replace (Q ^ 3 * (21 * y ^ 4) * y ^ 6) with (Q ^ 3 * y ^ 4 * (21 * y ^ 6)) by ring. replace (60 * Q ^ 3 * (y ^ 4 * P ^ 3)) with (Q ^ 3 * y ^ 4 * (60 * P ^ 3)) by ring.
      apply Rmult_le_compat_l; [apply Rmult_le_pos; lra|]. replace ((3 / 4 * y ^ 2) ^ 3) with (27 / 64 * y ^ 6) in Hw by field.
      assert (0 <= y ^ 6) by (apply pow_le; lra). lra.
  Qed.
  Lemma diff5 : Rabs (/ (y - Q) ^ 5 - / (y + Q) ^ 5) <= 68 * Q / y ^ 6.
  Proof.
    destruct P_ge as [HP HP'].
    assert (Hw : (3 / 4 * y ^ 2) ^ 5 <= P ^ 5) by (apply pow_incr; split; [nra|exact HP']).
    replace (/ (y - Q) ^ 5 - / (y + Q) ^ 5) with ((Q * (10 * y ^ 4 + 20 * Q ^ 2 * y ^ 2 + 2 * Q ^ 4)) / P ^ 5) by (unfold P; field; repeat split; lra).
    apply quot_bound; [apply pow_lt; exact HP|lra|].
    assert (Hq : 0 <= Q ^ 2 <= y ^ 2 / 4) by (split; nra).
    assert (Hb : 0 <= 10 * y ^ 4 + 20 * Q ^ 2 * y ^ 2 + 2 * Q ^ 4 <= 16 * y ^ 4).
    { replace (y ^ 4) with (y ^ 2 * y ^ 2) in * by ring. replace (Q ^ 4) with (Q ^ 2 * Q ^ 2) by ring. set (p := y ^ 2) in *. set (q := Q ^ 2) in *. clearbody p q. split; nra. }
    rewrite Rabs_pos_eq by (apply Rmult_le_pos; lra).
    apply Rle_trans with (Q * (16 * y ^ 4) * y ^ 6).
    - apply Rmult_le_compat_r; [apply pow_le; lra|]. apply Rmult_le_compat_l; lra.
    - replace (Q * (16 * y ^ 4) * y ^ 6) with (Q * (16 * y ^ 10)) by ring. replace (68 * Q * P ^ 5) with (Q * (68 * P ^ 5)) by ring.
      apply Rmult_le_compat_l; [lra|]. replace ((3 / 4 * y ^ 2) ^ 5) with (243 / 1024 * y ^ 10) in Hw by field.
      assert (0 <= y ^ 10) by (apply pow_le; lra). lra.
  Qed.
End Diff.
Lemma diff_expansion (f : R -> R) c1 c2 M X Q : 0 < M -> 1 <= X -> 0 < Q ->
  (forall x, X <= x -> Rabs (f x - 2 / 3 * (/ x + c1 / x ^ 3 + c2 / x ^ 5)) <= M / x ^ 7) ->
  exists M', 0 < M' /\ forall y, 2 * Q + 2 * X <= y ->
    Rabs (f (y - Q) - f (y + Q) - 4 / 3 * (Q / y ^ 2 + (Q ^ 3 + 3 * c1 * Q) / y ^ 4)) <= M' / y ^ 6.
Proof.
  intros HM HX HQ Hf. exists (256 * M + 16 / 9 * Q ^ 5 + 2 / 3 * Rabs c1 * (60 * Q ^ 3) + 2 / 3 * Rabs c2 * (68 * Q)).
  assert (0 < Q ^ 5) by (apply pow_lt; lra). assert (0 < Q ^ 3) by (apply pow_lt; lra).
  pose proof (Rabs_pos c1). pose proof (Rabs_pos c2). split.
  { assert (0 <= 2 / 3 * Rabs c1 * (60 * Q ^ 3)) by (apply Rmult_le_pos; lra). assert (0 <= 2 / 3 * Rabs c2 * (68 * Q)) by (apply Rmult_le_pos; lra). lra. }
  intros y Hy. assert (HyQ : 2 * Q <= y) by lra. pose proof (diff1 Q y HQ HyQ) as D1. pose proof (diff3 Q y HQ HyQ) as D3. pose proof (diff5 Q y HQ HyQ) as D5.
  assert (H6 : 0 < y ^ 6) by (apply pow_lt; lra).
  assert (R7 : forall x, y / 2 <= x -> M / x ^ 7 <= 128 * M / y ^ 6).
  { intros x Hx. assert (Hp : (y / 2) ^ 7 <= x ^ 7) by (apply pow_incr; lra). assert (H7 : y ^ 6 <= 128 * x ^ 7).
    { replace ((y / 2) ^ 7) with (y * y ^ 6 / 128) in Hp by field. assert (y ^ 6 <= y * y ^ 6) by nra. lra. }
    replace (128 * M / y ^ 6) with (M * (128 / y ^ 6)) by (field; lra). unfold Rdiv at 1. apply Rmult_le_compat_l; [lra|].
    apply (Rmult_le_reg_r (y ^ 6 * x ^ 7)). { apply Rmult_lt_0_compat; [lra|apply pow_lt; lra]. }
    replace (/ x ^ 7 * (y ^ 6 * x ^ 7)) with (y ^ 6) by (field; lra). replace (128 / y ^ 6 * (y ^ 6 * x ^ 7)) with (128 * x ^ 7) by (field; lra). exact H7. }
  pose proof (Hf (y - Q) ltac:(lra)) as F1. pose proof (Hf (y + Q) ltac:(lra)) as F2.
  pose proof (R7 (y - Q) ltac:(lra)). pose proof (R7 (y + Q) ltac:(lra)).
  set (e1 := / (y - Q) - / (y + Q) - (2 * Q / y ^ 2 + 2 * Q ^ 3 / y ^ 4)) in *.
  set (e3 := / (y - Q) ^ 3 - / (y + Q) ^ 3 - 6 * Q / y ^ 4) in *. set (e5 := / (y - Q) ^ 5 - / (y + Q) ^ 5) in *.
  set (g1 := f (y - Q) - _) in F1. set (g2 := f (y + Q) - _) in F2.
  replace (f (y - Q) - f (y + Q) - 4 / 3 * (Q / y ^ 2 + (Q ^ 3 + 3 * c1 * Q) / y ^ 4)) with (g1 + - g2 + (2 / 3 * e1 + (2 / 3 * c1) * e3 + (2 / 3 * c2) * e5)).
  2:{ unfold g1, g2, e1, e3, e5. field. repeat split; lra. }
  assert (T : forall a b, Rabs (a + b) <= Rabs a + Rabs b) by (intros; apply Rabs_triang).
  assert (B1 : Rabs (2 / 3 * e1) <= 16 / 9 * Q ^ 5 / y ^ 6) by (rewrite Rabs_mult, (Rabs_pos_eq (2 / 3)) by lra; lra).
  assert (B3 : Rabs (2 / 3 * c1 * e3) <= 2 / 3 * Rabs c1 * (60 * Q ^ 3) / y ^ 6).
  { rewrite !Rabs_mult, (Rabs_pos_eq (2 / 3)) by lra. replace (2 / 3 * Rabs c1 * (60 * Q ^ 3) / y ^ 6) with (2 / 3 * Rabs c1 * (60 * Q ^ 3 / y ^ 6)) by (field; lra). apply Rmult_le_compat_l; [lra|]. exact D3. }
  assert (B5 : Rabs (2 / 3 * c2 * e5) <= 2 / 3 * Rabs c2 * (68 * Q) / y ^ 6).
  { rewrite !Rabs_mult, (Rabs_pos_eq (2 / 3)) by lra. replace (2 / 3 * Rabs c2 * (68 * Q) / y ^ 6) with (2 / 3 * Rabs c2 * (68 * Q / y ^ 6)) by (field; lra). apply Rmult_le_compat_l; [lra|]. exact D5. }
  pose proof (T (g1 + - g2) (2 / 3 * e1 + 2 / 3 * c1 * e3 + 2 / 3 * c2 * e5)). pose proof (T g1 (- g2)). rewrite Rabs_Ropp in *.
  pose proof (T (2 / 3 * e1 + 2 / 3 * c1 * e3) (2 / 3 * c2 * e5)). pose proof (T (2 / 3 * e1) (2 / 3 * c1 * e3)).
  assert (E : (256 * M + 16 / 9 * Q ^ 5 + 2 / 3 * Rabs c1 * (60 * Q ^ 3) + 2 / 3 * Rabs c2 * (68 * Q)) / y ^ 6
    = 128 * M / y ^ 6 + 128 * M / y ^ 6 + 16 / 9 * Q ^ 5 / y ^ 6 + 2 / 3 * Rabs c1 * (60 * Q ^ 3) / y ^ 6 + 2 / 3 * Rabs c2 * (68 * Q) / y ^ 6) by (field; lra).
  lra.
Qed.
