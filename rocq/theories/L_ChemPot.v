(** Bounds for the interpolations of the chemical potential. *)
From Coq Require Import Reals List Lra Lia Psatz.
From Coquelicot Require Import Coquelicot.
From Verif Require Import M_Const M_PlasmaState M_PlasmaPhysics L_PlasmaPhysics M_Math M_ChemPot L_Fermi L_FermiFit P_FermiFit.
Open Scope R_scope.

Lemma Rpower_lt_l x y z : 0 < x < y -> 0 < z -> Rpower x z < Rpower y z.
Proof. intros H Hz. unfold Rpower. apply exp_increasing. apply Rmult_lt_compat_l; [exact Hz|]. apply ln_increasing; lra. Qed.
Lemma Rpower_pos x z : 0 < Rpower x z.
Proof. apply exp_pos. Qed.
Lemma exp_le x y : x <= y -> exp x <= exp y.
Proof. intros [H|H]; [left; now apply exp_increasing|right; now subst]. Qed.
Lemma Rpower_le1 x z : 0 < x <= 1 -> 0 <= z -> Rpower x z <= 1.
Proof. intros Hx Hz. unfold Rpower. rewrite <- exp_0. apply exp_le. assert (ln x <= 0) by (rewrite <- ln_1; destruct (proj2 Hx) as [L|E]; [left; apply ln_increasing; lra|subst; lra]). nra. Qed.
Lemma Rpower_ge1 x z : 1 <= x -> 0 <= z -> 1 <= Rpower x z.
Proof. intros Hx Hz. unfold Rpower. rewrite <- exp_0. apply exp_le. assert (0 <= ln x) by (rewrite <- ln_1; destruct Hx as [L|E]; [left; apply ln_increasing; lra|subst; lra]). nra. Qed.
Lemma Rpower_mono x a b : 0 < x <= 1 -> a <= b -> Rpower x b <= Rpower x a.
Proof. intros Hx Hab. unfold Rpower. apply exp_le. assert (ln x <= 0) by (rewrite <- ln_1; destruct (proj2 Hx) as [L|E]; [left; apply ln_increasing; lra|subst; lra]). nra. Qed.

(** the correction to the classical chemical potential *)
Definition ich (t : R) : R :=
  25954 / 100000 / (Rpower t (1858 / 1000) + 25954 / 100000 * t) + 72 / 1000 / (Rpower t (929 / 1000) + 25954 / 100000 * Rpower t (71 / 1000)).
Lemma ich_eq t : 0 < t -> ichimaru_f t = - (3 / 2) * ln t + ln (4 / (3 * sqrt PI)) + ich t.
Proof.
  intros Ht. unfold ichimaru_f, ich. f_equal.
  set (b := Rpower t (858 / 1000)). assert (Hb : 0 < b) by apply exp_pos. set (q := Rpower t (929 / 1000)). assert (Hq : 0 < q) by apply exp_pos.
  replace (Rpower t (- (858 / 1000) - 1)) with (/ (b * t)).
  2:{ unfold b. rewrite <- (Rpower_1 t) at 2 by lra. rewrite <- Rpower_plus, <- Rpower_Ropp. f_equal. lra. }
  replace (Rpower t (- (858 / 1000 + 1) / 2)) with (/ q) by (unfold q; rewrite <- Rpower_Ropp; f_equal; lra).
  replace (Rpower t (- (858 / 1000))) with (/ b) by (unfold b; now rewrite <- Rpower_Ropp).
  replace (Rpower t (1858 / 1000)) with (b * t). 2:{ unfold b. rewrite <- (Rpower_1 t) at 2 by lra. rewrite <- Rpower_plus. f_equal. lra. }
  replace (Rpower t (71 / 1000)) with (q / b). 2:{ unfold q, b, Rdiv. rewrite <- Rpower_Ropp, <- Rpower_plus. f_equal. lra. }
  field. repeat split; try lra. all: try nra.
Qed.
Lemma ich_pos t : 0 < t -> 0 < ich t.
Proof.
  intros Ht. unfold ich. pose proof (Rpower_pos t (1858 / 1000)). pose proof (Rpower_pos t (929 / 1000)). pose proof (Rpower_pos t (71 / 1000)).
  apply Rplus_lt_0_compat; apply Rdiv_lt_0_compat; lra.
Qed.
Lemma ich_decr s t : 0 < s < t -> ich t < ich s.
Proof.
  intros Ht. unfold ich. pose proof (Rpower_pos s (1858 / 1000)). pose proof (Rpower_pos s (929 / 1000)). pose proof (Rpower_pos s (71 / 1000)).
  pose proof (Rpower_lt_l s t (1858 / 1000) Ht ltac:(lra)). pose proof (Rpower_lt_l s t (929 / 1000) Ht ltac:(lra)). pose proof (Rpower_lt_l s t (71 / 1000) Ht ltac:(lra)).
  apply Rplus_lt_compat; apply Rmult_lt_compat_l; try lra; apply Rinv_lt_contravar; try lra; apply Rmult_lt_0_compat; lra.
Qed.
Lemma ich_small t : 1 <= t -> ich t <= 332 / 1000 / Rpower t (929 / 1000).
Proof.
  intros Ht. unfold ich. set (q := Rpower t (929 / 1000)). assert (Hq : 1 <= q) by (apply Rpower_ge1; lra).
  replace (Rpower t (1858 / 1000)) with (q * q) by (unfold q; rewrite <- Rpower_plus; f_equal; lra). pose proof (Rpower_pos t (71 / 1000)).
  assert (A : 25954 / 100000 / (q * q + 25954 / 100000 * t) <= 25954 / 100000 / q).
  { apply Rmult_le_compat_l; [lra|]. apply Rinv_le_contravar; nra. }
  assert (B : 72 / 1000 / (q + 25954 / 100000 * Rpower t (71 / 1000)) <= 72 / 1000 / q).
  { apply Rmult_le_compat_l; [lra|]. apply Rinv_le_contravar; lra. }
  assert (0 < / q) by (apply Rinv_0_lt_compat; lra). unfold Rdiv in *. lra.
Qed.
Lemma ich_deg t : 0 < t <= 1 -> Rabs (t * ich t - 1) <= 5 * Rpower t (1 / 2).
Proof.
  intros Ht. unfold ich. set (b := Rpower t (858 / 1000)). assert (Hb : 0 < b) by apply exp_pos. set (q := Rpower t (929 / 1000)). assert (Hq : 0 < q) by apply exp_pos.
  replace (Rpower t (1858 / 1000)) with (b * t). 2:{ unfold b. rewrite <- (Rpower_1 t) at 2 by lra. rewrite <- Rpower_plus. f_equal. lra. }
  replace (Rpower t (71 / 1000)) with (q / b). 2:{ unfold q, b, Rdiv. rewrite <- Rpower_Ropp, <- Rpower_plus. f_equal. lra. }
  assert (Et : t = q * q / b). { unfold q, b, Rdiv. rewrite <- Rpower_Ropp, <- !Rpower_plus. rewrite <- (Rpower_1 t) at 1 by lra. f_equal. lra. }
  assert (E : t * (25954 / 100000 / (b * t + 25954 / 100000 * t) + 72 / 1000 / (q + 25954 / 100000 * (q / b))) - 1 = (72 / 1000 * q - b) / (b + 25954 / 100000)).
  { rewrite Et. field. repeat split; try lra; nra. }
  rewrite E. set (r := Rpower t (1 / 2)). assert (Hr : 0 < r) by apply exp_pos. assert (b <= r) by (unfold b, r; apply Rpower_mono; lra). assert (q <= r) by (unfold q, r; apply Rpower_mono; lra).
  unfold Rdiv. rewrite Rabs_mult, Rabs_inv, (Rabs_pos_eq (b + 25954 * / 100000)) by lra.
  apply (Rmult_le_reg_r (b + 25954 * / 100000)); [lra|]. rewrite Rmult_assoc, Rinv_l by lra. rewrite Rmult_1_r. apply Rabs_le. nra.
Qed.
Lemma exp_ge_taylor2 w : 0 <= w -> 1 + w + w ^ 2 / 2 <= exp w.
Proof.
  intros Hw. destruct (Req_dec w 0) as [->|N]; [rewrite exp_0; lra|].
  set (g := fun x => exp x - (1 + x + x ^ 2 / 2)). destruct (MVT_cor2 g (fun x => exp x - (1 + x)) 0 w) as (c & E & Hc); [lra| |].
  { intros c Hc. unfold g. apply is_derive_Reals. auto_derive; [trivial|]. field. }
  unfold g in E at 2. rewrite exp_0 in E. pose proof (exp_ineq1_le c). unfold g in E. assert (0 <= (exp c - (1 + c)) * (w - 0)) by (apply Rmult_le_pos; lra). lra.
Qed.
(** t ln t near zero *)
Lemma tln t : 0 < t <= 1 -> 0 <= - (t * ln t) <= Rpower t (1 / 2).
Proof.
  intros Ht. set (w := - (1 / 2) * ln t). assert (Hw : 0 <= w). { unfold w. assert (ln t <= 0) by (rewrite <- ln_1; destruct (proj2 Ht) as [L|E]; [left; apply ln_increasing; lra|subst; lra]). lra. }
  assert (El : ln t = - 2 * w) by (unfold w; field). assert (Et : t = exp (- w) * exp (- w)) by (rewrite <- exp_plus; replace (- w + - w) with (ln t) by lra; now rewrite exp_ln).
  assert (Er : Rpower t (1 / 2) = exp (- w)) by (unfold Rpower; f_equal; lra). rewrite Er. rewrite El. rewrite Et at 1 2.
  assert (0 < exp (- w)) by apply exp_pos. assert (2 * w * exp (- w) <= 1).
  { pose proof (exp_ge_taylor2 w Hw) as X. rewrite exp_Ropp. apply (Rmult_le_reg_r (exp w)); [apply exp_pos|]. pose proof (exp_pos w). rewrite Rmult_assoc, Rinv_l by lra. nra. }
  split; nra.
Qed.

(** ** the exponential near zero *)
Lemma exp_up0 x : 0 <= x <= 1 / 2 -> exp x <= 1 + 2 * x.
Proof.
  intros Hx. pose proof (exp_ineq1_le (- x)) as H. rewrite exp_Ropp in H. pose proof (exp_pos x). apply (Rmult_le_compat_r (exp x)) in H; [|lra]. rewrite Rinv_l in H by lra. nra.
Qed.
Lemma exp_step (g g' : R -> R) x : 0 <= x <= 1 / 2 -> g 0 = 1 -> (forall c, 0 <= c <= x -> is_derive g c (g' c)) -> (forall c, 0 <= c <= 1 / 2 -> exp c <= g' c) -> exp x <= g x.
Proof.
  intros Hx G0 Hd Hg. destruct (Req_dec x 0) as [->|N]; [rewrite exp_0; lra|].
  destruct (MVT_cor2 (fun y => g y - exp y) (fun y => g' y - exp y) 0 x) as (c & E & Hc); [lra| |].
  { intros c Hc. apply is_derive_Reals. apply (is_derive_minus (V := R_NormedModule) g exp); [now apply Hd|apply is_derive_Reals, derivable_pt_lim_exp]. }
  rewrite exp_0, G0 in E. pose proof (Hg c ltac:(lra)). assert (0 <= (g' c - exp c) * (x - 0)) by (apply Rmult_le_pos; lra). lra.
Qed.
Lemma exp_up1 x : 0 <= x <= 1 / 2 -> exp x <= 1 + x + x ^ 2.
Proof.
  intros Hx. apply (exp_step (fun x => 1 + x + x ^ 2) (fun x => 1 + 2 * x) x Hx); [ring| |exact exp_up0]. intros c _. auto_derive; [trivial|]. ring.
Qed.
Lemma exp_up2 x : 0 <= x <= 1 / 2 -> exp x <= 1 + x + x ^ 2 / 2 + x ^ 3 / 3.
Proof.
  intros Hx. apply (exp_step (fun x => 1 + x + x ^ 2 / 2 + x ^ 3 / 3) (fun x => 1 + x + x ^ 2) x Hx); [field| |exact exp_up1]. intros c _. auto_derive; [trivial|]. field.
Qed.

(** ** the virial expansion of the density *)
Lemma virial a b c y : 0 < y <= 3 / 10 -> 353 / 1000 <= a <= 354 / 1000 -> a * a = 1 / 8 -> b = c - 3 / 16 -> 192 / 1000 <= c <= 193 / 1000 ->
  let w := a * y - b * y ^ 2 in let z := y * exp w in
  0 <= w <= 12 / 100 /\ y <= z <= 125 / 100 * y /\ Rabs (z - a * z ^ 2 + c * z ^ 3 - y) <= 3 / 4 * y ^ 4.
Proof.
  intros Hy Ha Haa Hb Hc w z. assert (Hb' : 4 / 1000 <= b <= 6 / 1000) by lra.
  assert (Hw : 0 <= w <= 354 / 1000 * y). { unfold w. split; nra. }
  assert (Hw1 : 0 <= w <= 12 / 100) by lra. split; [exact Hw1|].
  pose proof (exp_up2 w ltac:(lra)) as U1. pose proof (exp_ge_taylor2 w ltac:(lra)) as L1. pose proof (exp_up0 w ltac:(lra)) as U0. split; [unfold z; nra|].
  pose proof (exp_up1 (w + w) ltac:(lra)) as U2. pose proof (exp_ineq1_le (w + w)) as L2.
  pose proof (exp_up0 (w + w + w) ltac:(lra)) as U3. pose proof (exp_ineq1_le (w + w + w)) as L3. rewrite (exp_plus (w + w) w) in U3, L3. rewrite (exp_plus w w) in U2, U3, L2, L3.
  set (e := exp w) in *. assert (Ez : z = y * e) by reflexivity. clearbody e. 
  set (r1 := e - (1 + w + w ^ 2 / 2)). set (r2 := e * e - (1 + 2 * w)). set (r3 := e * e * e - 1).
  assert (E : z - a * z ^ 2 + c * z ^ 3 - y = y * (r1 - a * y * r2 + c * y ^ 2 * r3 + (a * b * y ^ 3 + b ^ 2 * y ^ 4 / 2))).
  { rewrite Ez. unfold r1, r2, r3. assert (Hw' : w = a * y - b * y ^ 2) by reflexivity. 
    replace (y * e - a * (y * e) ^ 2 + c * (y * e) ^ 3 - y) with (y * (e - a * y * (e * e) + c * y ^ 2 * (e * e * e) - 1)) by ring. f_equal.
    replace (e - a * y * (e * e) + c * y ^ 2 * (e * e * e) - 1) with ((e - (1 + w + w ^ 2 / 2)) - a * y * (e * e - (1 + 2 * w)) + c * y ^ 2 * (e * e * e - 1) + (w + w ^ 2 / 2 - a * y - 2 * a * y * w + c * y ^ 2)) by field.
    f_equal. rewrite Hw'. replace c with (b + 3 / 16) by lra.
    replace (a * y - b * y ^ 2 + (a * y - b * y ^ 2) ^ 2 / 2 - a * y - 2 * a * y * (a * y - b * y ^ 2) + (b + 3 / 16) * y ^ 2) with (a * b * y ^ 3 + b ^ 2 * y ^ 4 / 2 + y ^ 2 * (3 / 16 - 3 / 2 * (a * a))) by field. rewrite Haa. field. }
  rewrite E. rewrite Rabs_mult, (Rabs_pos_eq y) by lra. replace (3 / 4 * y ^ 4) with (y * (3 / 4 * y ^ 3)) by ring. apply Rmult_le_compat_l; [lra|].
  assert (Hy2 : 0 < y ^ 2) by (apply pow_lt; lra). assert (Hy3 : 0 < y ^ 3) by (apply pow_lt; lra).
  assert (W2 : w ^ 2 <= 126 / 1000 * y ^ 2) by nra. assert (W3 : w ^ 3 <= 45 / 1000 * y ^ 3).
  { replace (w ^ 3) with (w * w ^ 2) by ring. apply Rle_trans with (354 / 1000 * y * (126 / 1000 * y ^ 2)); [apply Rmult_le_compat; try lra; apply pow2_ge_0|]. replace (y ^ 3) with (y * y ^ 2) by ring. nra. }
  assert (R1 : 0 <= r1 <= 15 / 1000 * y ^ 3) by (unfold r1; lra).
  assert (R2 : 0 <= r2 <= 504 / 1000 * y ^ 2) by (unfold r2; lra).
  assert (R3 : 0 <= r3 <= 6 * (354 / 1000 * y)) by (unfold r3; lra).
  assert (A2 : 0 <= a * y * r2 <= 354 / 1000 * y * (504 / 1000 * y ^ 2)). { split; [apply Rmult_le_pos; [apply Rmult_le_pos; lra|lra]|]. apply Rmult_le_compat; try lra; try (apply Rmult_le_pos; lra). apply Rmult_le_compat_r; lra. }
  assert (A3 : 0 <= c * y ^ 2 * r3 <= 193 / 1000 * y ^ 2 * (6 * (354 / 1000 * y))). { split; [apply Rmult_le_pos; [apply Rmult_le_pos; lra|lra]|]. apply Rmult_le_compat; try lra; try (apply Rmult_le_pos; lra). apply Rmult_le_compat_r; lra. }
  assert (A4 : 0 <= a * b * y ^ 3 <= 354 / 1000 * (6 / 1000) * y ^ 3). { split; [apply Rmult_le_pos; nra|]. apply Rmult_le_compat_r; nra. }
  assert (A5 : 0 <= b ^ 2 * y ^ 4 / 2 <= 1 / 10000 * y ^ 3). { replace (y ^ 4) with (y * y ^ 3) by ring. assert (0 <= b ^ 2 <= 36 / 1000000) by nra. split; [apply Rmult_le_pos; [apply Rmult_le_pos; [lra|]; nra|lra]|]. assert (b ^ 2 * (y * y ^ 3) <= 36 / 1000000 * (y * y ^ 3)) by (apply Rmult_le_compat_r; nra). nra. }
  replace (354 / 1000 * y * (504 / 1000 * y ^ 2)) with (354 / 1000 * (504 / 1000) * y ^ 3) in A2 by ring. replace (193 / 1000 * y ^ 2 * (6 * (354 / 1000 * y))) with (193 / 1000 * (6 * (354 / 1000)) * y ^ 3) in A3 by ring.
  apply Rabs_le. lra.
Qed.

(** ** the Fermi integrals of order 1/2 and -1/2 by their series *)
Lemma R32 k : 0 < k -> Rpower k (3 / 2) = k * sqrt k.
Proof. intros Hk. replace (3 / 2) with (1 + / 2) by field. rewrite Rpower_plus, Rpower_1, Rpower_sqrt by lra. reflexivity. Qed.
Lemma F12_series x : let z := exp x in Rabs (fermi_integral x (1 / 2) - (z - z ^ 2 / (2 * sqrt 2) + z ^ 3 / (3 * sqrt 3))) <= z ^ 4 / 8.
Proof.
  intros z. destruct prims as (_ & (P & HP) & _). pose proof sP0 as H0. set (G := 1 / 2 * sqrt PI) in *. assert (HG : 0 < G) by (unfold G; lra).
  destruct (fermi_series _ P G x 3 HP ltac:(lra)) as (F & HF & B). unfold fermi_integral.
  replace (1 / 2) with (INR 1 - 1 / 2) by (cbn [INR]; field).
  assert (RInt_gen (fun t : R => Rpower t (INR 1 - 1 / 2) / (exp (t - x) + 1)) (at_right 0) (Rbar_locally p_infty) = F) as -> by (apply (is_RInt_gen_unique (V := R_CompleteNormedModule)); exact HF).
  rewrite (gamma_prim _ _ _ HP). fold z in B. cbn [fser] in B.
  assert (R1 : Rpower (INR 1) (INR 1 - 1 / 2 + 1) = 1) by (cbn [INR]; apply Rpower_one).
  assert (R2 : Rpower (INR 2) (INR 1 - 1 / 2 + 1) = 2 * sqrt 2) by (cbn [INR]; replace (1 - 1 / 2 + 1) with (3 / 2) by field; replace (1 + 1) with 2 by ring; apply R32; lra).
  assert (R3 : Rpower (INR 3) (INR 1 - 1 / 2 + 1) = 3 * sqrt 3) by (cbn [INR]; replace (1 - 1 / 2 + 1) with (3 / 2) by field; replace (1 + 1 + 1) with 3 by ring; apply R32; lra).
  assert (R4 : Rpower (INR 4) (INR 1 - 1 / 2 + 1) = 8). { cbn [INR]. replace (1 - 1 / 2 + 1) with (3 / 2) by field. replace (1 + 1 + 1 + 1) with 4 by ring. rewrite R32 by lra. replace 4 with (2 * 2) at 2 by ring. rewrite sqrt_square; lra. }
  rewrite R1, R2, R3, R4 in B. assert (0 < sqrt 2) by (apply sqrt_lt_R0; lra). assert (0 < sqrt 3) by (apply sqrt_lt_R0; lra).
  replace (F / G - (z - z ^ 2 / (2 * sqrt 2) + z ^ 3 / (3 * sqrt 3))) with ((F - G * (0 + (-1) ^ 0 * z ^ 1 / 1 + (-1) ^ 1 * z ^ 2 / (2 * sqrt 2) + (-1) ^ 2 * z ^ 3 / (3 * sqrt 3))) / G) by (field; repeat split; lra).
  unfold Rdiv at 1. rewrite Rabs_mult, (Rabs_pos_eq (/ G)) by (left; apply Rinv_0_lt_compat; lra). apply (Rmult_le_reg_r G); [lra|]. rewrite Rmult_assoc, Rinv_l by lra. rewrite Rmult_1_r. eapply Rle_trans; [exact B|]. right. ring.
Qed.
Lemma Fm12_series x : let z := exp x in Rabs (fermi_integral x (-1 / 2) - z) <= z ^ 2 / sqrt 2.
Proof.
  intros z. destruct prims as (HP & _). pose proof sP0 as H0. set (G := sqrt PI) in *.
  destruct (fermi_series _ _ G x 1 HP ltac:(lra)) as (F & HF & B). unfold fermi_integral.
  replace (-1 / 2) with (INR 0 - 1 / 2) by (cbn [INR]; field).
  assert (RInt_gen (fun t : R => Rpower t (INR 0 - 1 / 2) / (exp (t - x) + 1)) (at_right 0) (Rbar_locally p_infty) = F) as -> by (apply (is_RInt_gen_unique (V := R_CompleteNormedModule)); exact HF).
  rewrite (gamma_prim _ _ _ HP). fold z in B. cbn [fser] in B.
  assert (R1 : Rpower (INR 1) (INR 0 - 1 / 2 + 1) = 1) by (cbn [INR]; apply Rpower_one).
  assert (R2 : Rpower (INR 2) (INR 0 - 1 / 2 + 1) = sqrt 2) by (cbn [INR]; replace (0 - 1 / 2 + 1) with (/ 2) by field; replace (1 + 1) with 2 by ring; apply Rpower_sqrt; lra).
  rewrite R1, R2 in B. assert (0 < sqrt 2) by (apply sqrt_lt_R0; lra).
  replace (F / G - z) with ((F - G * (0 + (-1) ^ 0 * z ^ 1 / 1)) / G) by (field; lra).
  unfold Rdiv at 1. rewrite Rabs_mult, (Rabs_pos_eq (/ G)) by (left; apply Rinv_0_lt_compat; lra). apply (Rmult_le_reg_r G); [lra|]. rewrite Rmult_assoc, Rinv_l by lra. rewrite Rmult_1_r. eapply Rle_trans; [exact B|]. right. ring.
Qed.
