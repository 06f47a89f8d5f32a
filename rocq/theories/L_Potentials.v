(** Lemmas on the pair potentials. *)
From Coq Require Import Reals List Bool Arith ZArith Lra Lia Psatz.
From Coquelicot Require Import Coquelicot.
From Verif Require Import M_Const M_PlasmaState M_Interp L_Gauss L_Fourier M_Potentials.
Import ListNotations.
Open Scope R_scope.

Lemma pot_ind' (P : pot -> Prop) : (forall c md, P (Prim c md)) ->
  (forall l, List.Forall P l -> P (PSum l)) -> (forall p x, P p -> P (Scaled p x)) -> forall p, P p.
Proof.
  intros H1 H2 H3. fix IH 1. intros [c md|l|p x]; [apply H1| |now apply H3].
  apply H2. induction l as [|p l IHl]; constructor; auto.
Qed.

Lemma parts_add_up u md E a b c f g h :
  full_r u md E a b c = Some f -> short_r u md E a b c = Some g -> long_r u md E a b c = Some h ->
  forall r, f r = g r + h r.
Proof.
  intros Hf Hg Hh r.
  assert (B : forall F, full_r u md E a b c = Some F -> obind (full_r u md E a b c) (fun f => Some (base_short md E a b f)) = Some g ->
    obind (full_r u md E a b c) (fun f => Some (base_long md E a b f)) = Some h -> f r = g r + h r).
  { intros F HF. rewrite HF in Hf |- *. injection Hf as <-. cbn. intros [= <-] [= <-]. unfold base_short, base_long. ring. }
  destruct c; try (apply (B f Hf); assumption); cbn in *; try discriminate.
  - injection Hf as <-. injection Hg as <-. injection Hh as <-. ring.
  - injection Hf as <-. injection Hg as <-. injection Hh as <-. ring.
  - injection Hf as <-. injection Hg as <-. injection Hh as <-. ring.
Qed.
Lemma parts_exist u md E a b c f : match c with SoftCore _ => False | _ => True end -> full_r u md E a b c = Some f ->
  (exists g, short_r u md E a b c = Some g) /\ exists h, long_r u md E a b c = Some h.
Proof.
  intros Hs Hf.
  destruct c; unfold short_r, long_r; try rewrite Hf; cbn [obind]; try (split; eexists; reflexivity); try discriminate; contradiction.
Qed.

Lemma alpha_pos md E a b : 0 < alpha md E a b.
Proof. unfold alpha, Rpower. apply Rdiv_lt_0_compat; [lra|apply exp_pos]. Qed.
Lemma kappa_pos E a b : 0 < e_len E a b -> 0 < kappa E a b.
Proof. intros. unfold kappa. apply Rdiv_lt_0_compat; lra. Qed.
Lemma fourier_eq f k F G : fourier f k F -> F = G -> fourier f k G.
Proof. now intros H <-. Qed.

(** *** symmetry *)
Lemma sym_all u tr tg md E a b c :
  e_len E a b = e_len E b a ->
  (forall f g, c = Pauli f g -> f md E a b = f md E b a /\ g md E a b = g md E b a) ->
  full_r u md E a b c = full_r u md E b a c /\ short_r u md E a b c = short_r u md E b a c /\
  long_r u md E a b c = long_r u md E b a c /\ full_k u tr tg md E a b c = full_k u tr tg md E b a c /\
  short_k u tr md E a b c = short_k u tr md E b a c /\ long_k u tr md E a b c = long_k u tr md E b a c.
Proof.
  intros HL HP.
  assert (Eq : q2 u md E a b = q2 u md E b a) by (unfold q2; ring).
  assert (Ea : alpha md E a b = alpha md E b a) by (unfold alpha; now rewrite (Rmult_comm (at_ (densities md E) a))).
  assert (Em : mu u md E a b = mu u md E b a) by (unfold mu; now rewrite (Rmult_comm (at_ _ a)), (Rplus_comm (at_ _ a))).
  assert (ET : T_ab u md E a b = T_ab u md E b a) by (unfold T_ab; now rewrite (Rplus_comm (at_ (pmasses u md E) a)), (Rplus_comm (at_ (pmasses u md E) a * _))).
  assert (Er : r_cut E a b = r_cut E b a).
  { unfold r_cut. destruct (Nat.ltb a (n_ions E)), (Nat.ltb b (n_ions E)); reflexivity. }
  assert (El : lambda_ab u md E a b = lambda_ab u md E b a) by (unfold lambda_ab; now rewrite Em, ET).
  assert (Ek : kappa E a b = kappa E b a) by (unfold kappa; now rewrite HL).
  assert (EB : (Nat.ltb a (n_ions E) && Nat.ltb b (n_ions E))%bool = (Nat.ltb b (n_ions E) && Nat.ltb a (n_ions E))%bool) by apply andb_comm.
  assert (EE : Nat.eqb a b = Nat.eqb b a) by apply Nat.eqb_sym.
  destruct c; unfold full_k, short_k, long_k, short_r, long_r, full_r, omap2, qadd, coulomb_kk, coulomb_long_k, base_long, base_short, coulomb_r;
    rewrite ?Eq, ?Ea, ?El, ?ET, ?Er, ?Ek, ?EB, ?EE; try (repeat split; reflexivity).
  destruct (HP f g eq_refl) as [-> ->]. repeat split; reflexivity.
Qed.

(** *** the bound of the Gaussian tail *)
Lemma erf_FF x : erf x = 2 / sqrt PI * FF x.
Proof. reflexivity. Qed.
Lemma FF_lt x y : x < y -> FF x < FF y.
Proof.
  intros H. destruct (MVT_gen FF x y gf) as (c & Hc & E).
  - intros z _. apply FF_derive.
  - intros z _. apply continuity_pt_filterlim. apply (ex_derive_continuous (V := R_NormedModule)). eexists. apply FF_derive.
  - unfold gf in E. pose proof (exp_pos (- c ^ 2)). nra.
Qed.
Lemma FF_half x : FF x < sqrt PI / 2.
Proof.
  pose proof (FF_lt x (x + 1) ltac:(lra)) as H.
  enough (FF (x + 1) <= sqrt PI / 2) by lra.
  assert (Q : Rbar_le (FF (x + 1)) (sqrt PI / 2)); [|exact Q].
  apply (is_lim_le_loc (fun _ => FF (x + 1)) FF p_infty).
  - exists (x + 1). intros y Hy. left. now apply FF_lt.
  - apply is_lim_const.
  - apply gauss_half.
Qed.
Lemma tail_bound x : 0 < x -> 2 * x * (sqrt PI / 2 - FF x) < exp (- x ^ 2).
Proof.
  intros Hx. set (D := fun t => FF t + exp (- t ^ 2) / (2 * x)).
  assert (Dd : forall t, is_derive D t (exp (- t ^ 2) * (1 - t / x))).
  { intros t. unfold D. auto_derive.
    - eexists; apply FF_derive.
    - change (Derive (fun x0 : R => FF x0) t) with (Derive FF t). rewrite (is_derive_unique _ _ _ (FF_derive t)). unfold gf. replace (- (t * (t * 1))) with (- t ^ 2) by ring. field. lra. }
  assert (Mid : forall y z, y < z -> exists c, y <= c <= z /\ D z - D y = exp (- c ^ 2) * (1 - c / x) * (z - y)).
  { intros y z Hz. destruct (MVT_gen D y z (fun t => exp (- t ^ 2) * (1 - t / x))) as (c & Hc & E).
    - intros t _. apply Dd.
    - intros t _. apply continuity_pt_filterlim. apply (ex_derive_continuous (V := R_NormedModule)). eexists. apply Dd.
    - rewrite Rmin_left, Rmax_right in Hc by lra. now exists c. }
  assert (Neg : forall c, x <= c -> 1 - c / x <= 0).
  { intros c Hc. enough (1 <= c / x) by lra. apply (Rmult_le_reg_r x); [exact Hx|]. unfold Rdiv. rewrite Rmult_assoc, Rinv_l by lra. lra. }
  assert (Dec : forall y z, x <= y -> y < z -> D z <= D y).
  { intros y z Hy Hz. destruct (Mid y z Hz) as (c & Hc & E). pose proof (Neg c ltac:(lra)). pose proof (exp_pos (- c ^ 2)).
    assert (0 <= exp (- c ^ 2) * - (1 - c / x)) by (apply Rmult_le_pos; lra). nra. }
  assert (S : D (x + 2) < D (x + 1)).
  { destruct (Mid (x + 1) (x + 2) ltac:(lra)) as (c & Hc & E).
    assert (1 - c / x < 0).
    { enough (1 < c / x) by lra. apply (Rmult_lt_reg_r x); [exact Hx|]. unfold Rdiv. rewrite Rmult_assoc, Rinv_l by lra. lra. }
    pose proof (exp_pos (- c ^ 2)). assert (0 < exp (- c ^ 2) * - (1 - c / x)) by (apply Rmult_lt_0_compat; lra). nra. }
  pose proof (Dec x (x + 1) ltac:(lra) ltac:(lra)) as W.
  assert (L : sqrt PI / 2 <= D (x + 2)).
  { assert (Q : Rbar_le (sqrt PI / 2) (D (x + 2))); [|exact Q].
    apply (is_lim_le_loc FF (fun _ => D (x + 2)) p_infty).
    - exists (x + 2). intros y Hy. pose proof (Dec (x + 2) y ltac:(lra) Hy) as Q. apply Rle_trans with (2 := Q).
      unfold D. pose proof (exp_pos (- y ^ 2)). assert (0 < exp (- y ^ 2) / (2 * x)) by (apply Rdiv_lt_0_compat; lra). lra.
    - apply gauss_half.
    - apply is_lim_const. }
  assert (T : sqrt PI / 2 - FF x < exp (- x ^ 2) / (2 * x)) by (unfold D in *; lra).
  apply (Rmult_lt_compat_l (2 * x)) in T; [|lra]. replace (2 * x * (exp (- x ^ 2) / (2 * x))) with (exp (- x ^ 2)) in T by (field; lra). exact T.
Qed.

(** the factors by which the Coulomb potential is weakened *)
Lemma exp_lt1 x : 0 < x -> 0 < exp (- x) < 1.
Proof. intros H. split; [apply exp_pos|]. rewrite <- exp_0. apply exp_increasing. lra. Qed.
Lemma kelbg_factor r l : 0 < r -> 0 < l ->
  0 < 1 - exp (- r ^ 2 / l ^ 2) + sqrt PI * r / l * (1 - erf (r / l)) < 1.
Proof.
  intros Hr Hl. set (x := r / l). assert (Hx : 0 < x) by now apply Rdiv_lt_0_compat.
  pose proof (sqrt_lt_R0 PI PI_RGT_0) as Hs.
  replace (- r ^ 2 / l ^ 2) with (- x ^ 2) by (unfold x; field; lra).
  replace (sqrt PI * r / l * (1 - erf x)) with (2 * x * (sqrt PI / 2 - FF x)) by (rewrite erf_FF; unfold x; field; lra).
  pose proof (tail_bound x Hx). pose proof (FF_half x). assert (0 < 2 * x * (sqrt PI / 2 - FF x)) by (apply Rmult_lt_0_compat; lra).
  pose proof (exp_lt1 (x ^ 2) ltac:(apply pow_lt; lra)). lra.
Qed.
Lemma deutsch_factor r l : 0 < r -> 0 < l -> 0 < 1 - exp (- r / (l / sqrt PI)) < 1.
Proof.
  intros Hr Hl. pose proof (sqrt_lt_R0 PI PI_RGT_0) as Hs.
  assert (H : 0 < r / (l / sqrt PI)) by (apply Rdiv_lt_0_compat; [lra|]; now apply Rdiv_lt_0_compat).
  replace (- r / (l / sqrt PI)) with (- (r / (l / sqrt PI))) by (unfold Rdiv; ring).
  pose proof (exp_lt1 _ H). lra.
Qed.
Lemma soft_factor r c be : 0 <= 1 - (if Req_EM_T c 0 then 0 else exp (- Rpower (r / c) be)) <= 1.
Proof.
  destruct (Req_EM_T c 0); [lra|]. pose proof (exp_lt1 (Rpower (r / c) be) ltac:(apply exp_pos)). lra.
Qed.

Lemma fourpi_pos u : 0 < 4 * PI * eps0 u.
Proof. pose proof PI_RGT_0. apply Rmult_lt_0_compat; [lra|apply eps0_pos]. Qed.
Lemma coulomb_nz u md E a b r : 0 < r -> q2 u md E a b <> 0 -> coulomb_r u md E a b r <> 0.
Proof.
  intros Hr Hq. pose proof (eps0_pos u). pose proof PI_RGT_0. unfold coulomb_r, Rdiv.
  apply Rmult_integral_contrapositive_currified; [exact Hq|]. apply Rinv_neq_0_compat.
  pose proof (fourpi_pos u). assert (0 < 4 * PI * eps0 u * r) by (now apply Rmult_lt_0_compat). lra.
Qed.
Lemma scaled_lt C w : C <> 0 -> 0 < w < 1 -> 0 < Rabs (C * w) < Rabs C.
Proof.
  intros HC Hw. rewrite Rabs_mult, (Rabs_right w) by lra. pose proof (Rabs_pos_lt C HC). split; [apply Rmult_lt_0_compat; lra|].
  rewrite <- (Rmult_1_r (Rabs C)) at 2. apply Rmult_lt_compat_l; lra.
Qed.
Lemma kk_form u md E a b f r : 0 < r -> q2 u md E a b <> 0 -> 0 < lambda_ab u md E a b -> 0 < T_ab u md E a b ->
  full_r u md E a b KlimontovichKraeft = Some f ->
  exists A Q, 0 < A /\ 0 < Q /\ f r = - (A / (1 + A / Q * r)) /\ Rabs (coulomb_r u md E a b r) = Q / r.
Proof.
  intros Hr Hq Hl HT Hf. injection Hf as <-. pose proof (eps0_pos u). pose proof PI_RGT_0. pose proof (kB_pos u) as Hk.
  unfold coulomb_r. set (q := q2 u md E a b) in *. set (l := lambda_ab u md E a b) in *. set (T := T_ab u md E a b) in *.
  clearbody q l T. cbv zeta. set (xi := q * (1 / (kB u * T)) / (4 * PI * eps0 u * l)).
  pose proof (fourpi_pos u) as Hp.
  assert (HkT : 0 < kB u * T) by now apply Rmult_lt_0_compat.
  assert (Hxi : xi <> 0).
  { unfold xi, Rdiv. repeat apply Rmult_integral_contrapositive_currified; try apply Rinv_neq_0_compat; try exact Hq; try lra.
    apply Rmult_integral_contrapositive_currified; lra. }
  assert (Hx2 : 0 < xi ^ 2) by (rewrite <- Rsqr_pow2; now apply Rlt_0_sqr).
  pose proof (Rabs_pos_lt q Hq) as Hqa.
  exists (kB u * T * xi ^ 2 / 16), (Rabs q / (4 * PI * eps0 u)).
  assert (HA : 0 < kB u * T * xi ^ 2 / 16) by (apply Rdiv_lt_0_compat; [now apply Rmult_lt_0_compat|lra]).
  assert (HQ : 0 < Rabs q / (4 * PI * eps0 u)) by now apply Rdiv_lt_0_compat.
  split; [exact HA|]. split; [exact HQ|]. split.
  - change (xi * (xi * 1)) with (xi ^ 2). replace (kB u * T * xi ^ 2 / (16 * Rabs q / (4 * PI * eps0 u))) with (kB u * T * xi ^ 2 / 16 / (Rabs q / (4 * PI * eps0 u))) by (clearbody xi; field; lra).
    set (A := kB u * T * xi ^ 2 / 16). set (D := 1 + A / (Rabs q / (4 * PI * eps0 u)) * r). clearbody A D.
 unfold Rdiv. ring.
  - unfold Rdiv at 1. rewrite Rabs_mult, Rabs_inv, (Rabs_right (4 * PI * eps0 u * r)).
    + field. lra.
    + assert (0 < 4 * PI * eps0 u * r) by now apply Rmult_lt_0_compat. lra.
Qed.
Lemma kk_attractive u md E a b f r : 0 < r -> q2 u md E a b <> 0 -> 0 < lambda_ab u md E a b -> 0 < T_ab u md E a b ->
  full_r u md E a b KlimontovichKraeft = Some f -> f r < 0.
Proof.
  intros Hr Hq Hl HT Hf. destruct (kk_form u md E a b f r Hr Hq Hl HT Hf) as (A & Q & HA & HQ & -> & _).
  assert (0 < A / Q * r) by (apply Rmult_lt_0_compat; [now apply Rdiv_lt_0_compat|lra]).
  assert (0 < A / (1 + A / Q * r)) by (apply Rdiv_lt_0_compat; lra). lra.
Qed.

Lemma weaker_strict u md E a b c f r : 0 < r -> q2 u md E a b <> 0 -> 0 < e_len E a b ->
  0 < lambda_ab u md E a b -> 0 < T_ab u md E a b ->
  (c = DebyeHueckel \/ c = Kelbg \/ c = KlimontovichKraeft \/ c = Deutsch) ->
  full_r u md E a b c = Some f -> 0 < Rabs (f r) < Rabs (coulomb_r u md E a b r).
Proof.
  intros Hr Hq HL Hl HT Hc Hf. pose proof (coulomb_nz u md E a b r Hr Hq) as HC.
  destruct Hc as [->|[->|[->| ->]]].
  - injection Hf as <-. apply scaled_lt; [exact HC|]. pose proof (kappa_pos E a b HL).
    replace (- kappa E a b * r) with (- (kappa E a b * r)) by ring. apply exp_lt1. now apply Rmult_lt_0_compat.
  - injection Hf as <-. apply scaled_lt; [exact HC|]. now apply kelbg_factor.
  - destruct (kk_form u md E a b f r Hr Hq Hl HT Hf) as (A & Q & HA & HQ & -> & ->).
    assert (HB : 0 < A / Q * r) by (apply Rmult_lt_0_compat; [now apply Rdiv_lt_0_compat|lra]).
    assert (0 < A / (1 + A / Q * r)) by (apply Rdiv_lt_0_compat; lra). rewrite Rabs_Ropp, Rabs_right by lra. split; [assumption|].
    apply (Rmult_lt_reg_r (1 + A / Q * r)); [lra|]. unfold Rdiv at 1. rewrite Rmult_assoc, Rinv_l by lra.
    replace (Q / r * (1 + A / Q * r)) with (Q / r + A) by (field; lra). assert (0 < Q / r) by now apply Rdiv_lt_0_compat. lra.
  - injection Hf as <-. apply scaled_lt; [exact HC|]. now apply deutsch_factor.
Qed.
Lemma scaled_le C w : 0 <= w <= 1 -> Rabs (w * C) <= Rabs C.
Proof. intros Hw. rewrite Rabs_mult, (Rabs_right w) by lra. pose proof (Rabs_pos C). nra. Qed.
Lemma weaker_cores u md E a b c f r :
  (c = EmptyCore \/ exists beta, c = SoftCore beta) ->
  full_r u md E a b c = Some f -> Rabs (f r) <= Rabs (coulomb_r u md E a b r).
Proof.
  intros [->|(be & ->)] [= <-].
  - apply scaled_le. destruct (Rlt_dec _ _); lra.
  - rewrite Rmult_comm. apply scaled_le. apply soft_factor.
Qed.
Lemma same_sign u md E a b c f r : 0 < r -> 0 < lambda_ab u md E a b ->
  (c = DebyeHueckel \/ c = Kelbg \/ c = Deutsch \/ c = EmptyCore \/ exists beta, c = SoftCore beta) ->
  full_r u md E a b c = Some f -> 0 <= f r * coulomb_r u md E a b r.
Proof.
  intros Hr Hl Hc Hf.
  assert (K : exists w, 0 <= w /\ f r = coulomb_r u md E a b r * w).
  { destruct Hc as [->|[->|[->|[->|(be & ->)]]]]; injection Hf as <-; eexists; (split; [|try reflexivity]).
    - left. apply exp_pos.
    - left. apply (kelbg_factor r _ Hr Hl).
    - left. apply (deutsch_factor r _ Hr Hl).
    - instantiate (1 := if Rlt_dec 0 (r - r_cut E a b) then 1 else 0). destruct (Rlt_dec _ _); lra.
    - apply Rmult_comm.
    - apply soft_factor. }
  destruct K as (w & Hw & ->). pose proof (pow2_ge_0 (coulomb_r u md E a b r)).
  replace (coulomb_r u md E a b r * w * coulomb_r u md E a b r) with (w * coulomb_r u md E a b r ^ 2) by ring. now apply Rmult_le_pos.
Qed.
