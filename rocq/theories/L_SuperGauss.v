(** The area under the super-Gaussian instrument function. *)
From Coq Require Import Reals List Arith Lra Lia Psatz.
From Coquelicot Require Import Coquelicot.
From Verif Require Import M_Interp L_Interp L_Gauss M_Instrument L_Instrument L_LFC.
Import ListNotations.
Open Scope R_scope.

Definition sgF (p x : R) : R := exp (- rpow (1 / 2 * x ^ 2) p).

Lemma rpow_nonneg x p : 0 <= x -> 0 < p -> 0 <= rpow x p.
Proof.
  intros [H|<-] Hp; [rewrite rpow_pos by assumption; left; apply exp_pos|rewrite rpow_0 by assumption; lra].
Qed.
Lemma rpow_mono x y p : 0 <= x <= y -> 0 < p -> rpow x p <= rpow y p.
Proof.
  intros [[H|<-] Hy] Hp.
  - rewrite !rpow_pos by lra. apply Rle_Rpower_l; lra.
  - rewrite rpow_0 by assumption. apply rpow_nonneg; assumption.
Qed.
Lemma sgF_pos p x : 0 < sgF p x.
Proof. apply exp_pos. Qed.
Lemma sgF_even p x : sgF p (- x) = sgF p x.
Proof. unfold sgF. replace ((- x) ^ 2) with (x ^ 2) by ring. reflexivity. Qed.
Lemma sgF_0 p : 0 < p -> sgF p 0 = 1.
Proof. intros H. unfold sgF. replace (1 / 2 * 0 ^ 2) with 0 by ring. rewrite rpow_0 by assumption. rewrite Ropp_0. apply exp_0. Qed.
Lemma exp_mono x y : x <= y -> exp x <= exp y.
Proof. intros [H|<-]; [left; now apply exp_increasing|lra]. Qed.
Lemma sgF_decr p x y : 0 < p -> 0 <= x <= y -> sgF p y <= sgF p x.
Proof.
  intros Hp H. unfold sgF. apply exp_mono, Ropp_le_contravar, rpow_mono; [nra|assumption].
Qed.
Lemma sgF_le1 p x : 0 < p -> sgF p x <= 1.
Proof.
  intros Hp. rewrite <- exp_0. apply exp_mono. pose proof (rpow_nonneg (1 / 2 * x ^ 2) p ltac:(nra) Hp). lra.
Qed.
Lemma rpow_cont x p : 0 < p -> continuous (fun x => rpow (1 / 2 * x ^ 2) p) x.
Proof.
  intros Hp. destruct (Req_dec x 0) as [->|Hx].
  - apply continuity_pt_filterlim. intros eps He.
    exists (Rmin 1 (Rpower eps (/ p))). split.
    { apply Rmin_glb_lt; [lra|apply exp_pos]. }
    intros y [_ Hy]. cbn in Hy. unfold R_dist in *. cbn. unfold R_dist.
    replace (1 / 2 * (0 * (0 * 1))) with 0 by ring. rewrite rpow_0 by assumption. rewrite Rminus_0_r in *.
    replace (1 / 2 * (y * (y * 1))) with (1 / 2 * y ^ 2) by ring.
    rewrite Rabs_pos_eq by (apply rpow_nonneg; [nra|assumption]).
    destruct (Req_dec y 0) as [->|Hy0]. { replace (1 / 2 * 0 ^ 2) with 0 by ring. now rewrite rpow_0. }
    pose proof (Rabs_pos_lt y Hy0) as Ha. rewrite rpow_pos by (apply Rmult_lt_0_compat; [lra|nra]).
    assert (E : y ^ 2 = Rabs y ^ 2) by (cbn; rewrite !Rmult_1_r, <- Rabs_mult, Rabs_pos_eq; [reflexivity|nra]).
    assert (H1 : Rabs y < 1) by (eapply Rlt_le_trans; [exact Hy|apply Rmin_l]).
    assert (H2 : Rabs y < Rpower eps (/ p)) by (eapply Rlt_le_trans; [exact Hy|apply Rmin_r]).
    rewrite E. apply Rlt_trans with (Rpower (Rabs y) p).
    + apply Rlt_Rpower_l; [assumption|]. split; nra.
    + replace eps with (Rpower (Rpower eps (/ p)) p). { apply Rlt_Rpower_l; [assumption|lra]. }
      rewrite Rpower_mult, Rinv_l by lra. apply Rpower_1; assumption.
  - apply (continuous_ext_loc _ (fun x => exp (p * ln (1 / 2 * x ^ 2)))).
    + assert (Hp2 : 0 < Rabs x) by (now apply Rabs_pos_lt). exists (mkposreal _ Hp2). intros y Hy.
      cbn in Hy. unfold ball, AbsRing_ball, abs, minus, plus, opp in Hy. cbn in Hy.
      assert (y <> 0). { intros ->. rewrite Rplus_0_l, Rabs_Ropp in Hy. lra. }
      rewrite rpow_pos by nra. reflexivity.
    + apply (ex_derive_continuous (V := R_NormedModule)). auto_derive. nra.
Qed.
Lemma sgF_cont p x : 0 < p -> continuous (sgF p) x.
Proof.
  intros Hp. unfold sgF. apply (continuous_comp (fun x => - rpow (1 / 2 * x ^ 2) p) exp).
  - apply (continuous_opp (V := R_NormedModule) (fun x => rpow (1 / 2 * x ^ 2) p)). now apply rpow_cont.
  - apply (ex_derive_continuous (V := R_NormedModule)). eexists. apply is_derive_exp.
Qed.
Lemma sgF_int p a b : 0 < p -> ex_RInt (sgF p) a b.
Proof. intros Hp. apply (ex_RInt_continuous (V := R_CompleteNormedModule)). intros. now apply sgF_cont. Qed.

(** the primitive *)
Definition sgP (p x : R) : R := RInt (sgF p) 0 x.
Lemma sgP_derive p x : 0 < p -> is_derive (sgP p) x (sgF p x).
Proof.
  intros Hp. unfold sgP. apply (is_derive_RInt (V := R_NormedModule) (sgF p) (fun b => RInt (sgF p) 0 b) 0).
  - apply filter_forall. intros b. apply (RInt_correct (V := R_CompleteNormedModule)). now apply sgF_int.
  - now apply sgF_cont.
Qed.
Lemma sgP_diff p a b : 0 < p -> RInt (sgF p) a b = sgP p b - sgP p a.
Proof.
  intros Hp. pose proof (RInt_Chasles (V := R_CompleteNormedModule) (sgF p) 0 a b (sgF_int _ _ _ Hp) (sgF_int _ _ _ Hp)) as E.
  change (RInt (sgF p) 0 a + RInt (sgF p) a b = RInt (sgF p) 0 b) in E. unfold sgP. lra.
Qed.
Lemma sgP_odd p x : 0 < p -> sgP p (- x) = - sgP p x.
Proof.
  intros Hp. unfold sgP. pose proof (RInt_comp_lin (V := R_CompleteNormedModule) (sgF p) (-1) 0 0 x (sgF_int _ _ _ Hp)) as H.
  replace (-1 * 0 + 0) with 0 in H by ring. replace (-1 * x + 0) with (- x) in H by ring. rewrite <- H.
  transitivity (RInt (fun t => scal (-1) (sgF p t)) 0 x).
  - apply RInt_ext. intros t _. f_equal. replace (-1 * t + 0) with (- t) by ring. apply sgF_even.
  - rewrite (RInt_scal (V := R_CompleteNormedModule) (sgF p)) by now apply sgF_int. unfold scal. cbn. unfold mult. cbn. ring.
Qed.
Lemma sgP_lower p a b : 0 < p -> 0 <= a <= b -> (b - a) * sgF p b <= sgP p b - sgP p a.
Proof.
  intros Hp H. rewrite <- sgP_diff by assumption.
  rewrite <- (Rmult_1_l (sgF p b)) at 1.
  replace ((b - a) * (1 * sgF p b)) with (RInt (fun _ => sgF p b) a b).
  - apply RInt_le; [lra|apply ex_RInt_const|now apply sgF_int|]. intros x Hx. apply sgF_decr; lra.
  - rewrite RInt_const. unfold scal. cbn. unfold mult. cbn. ring.
Qed.
Lemma sgP_upper p a b : 0 < p -> a <= b -> sgP p b - sgP p a <= b - a.
Proof.
  intros Hp H. rewrite <- sgP_diff by assumption.
  replace (b - a) with (RInt (fun _ => 1) a b).
  - apply RInt_le; [lra|now apply sgF_int|apply ex_RInt_const|]. intros x Hx. now apply sgF_le1.
  - rewrite RInt_const. unfold scal. cbn. unfold mult. cbn. ring.
Qed.

(** ** The trapezoidal rule *)
(** the variation *)
Definition sgV (p x : R) : R := if Rle_dec x 0 then sgF p x else 2 - sgF p x.
Lemma sgV_bound p x y : 0 < p -> x <= y -> Rabs (sgF p x - sgF p y) <= sgV p y - sgV p x.
Proof.
  intros Hp H. unfold sgV. pose proof (sgF_le1 p x Hp). pose proof (sgF_le1 p y Hp).
  destruct (Rle_dec y 0), (Rle_dec x 0); try lra.
  - pose proof (sgF_decr p (- y) (- x) Hp ltac:(lra)) as D. rewrite !sgF_even in D. apply Rabs_le. lra.
  - apply Rabs_le. lra.
  - pose proof (sgF_decr p x y Hp ltac:(lra)). apply Rabs_le. lra.
Qed.
Lemma trap_cell p a b : 0 < p -> a <= b ->
  Rabs (sgP p b - sgP p a - (b - a) * (sgF p b + sgF p a) / 2) <= (b - a) * ((sgV p b - sgV p a) / 2).
Proof.
  intros Hp H. rewrite <- sgP_diff by assumption. set (c := (sgF p b + sgF p a) / 2). set (M := (sgV p b - sgV p a) / 2).
  assert (B : forall x, a <= x <= b -> c - M <= sgF p x <= c + M).
  { intros x Hx. pose proof (sgV_bound p a x Hp ltac:(lra)) as B1. pose proof (sgV_bound p x b Hp ltac:(lra)) as B2.
    apply Rabs_le_between in B1, B2. unfold c, M. lra. }
  assert (RC : forall k : R, RInt (fun _ => k) a b = (b - a) * k).
  { intros k. rewrite RInt_const. unfold scal. cbn. unfold mult. cbn. ring. }
  assert (L : (b - a) * (c - M) <= RInt (sgF p) a b).
  { rewrite <- RC. apply RInt_le; [lra|apply ex_RInt_const|now apply sgF_int|]. intros x Hx. apply B. lra. }
  assert (U : RInt (sgF p) a b <= (b - a) * (c + M)).
  { rewrite <- RC. apply RInt_le; [lra|now apply sgF_int|apply ex_RInt_const|]. intros x Hx. apply B. lra. }
  replace ((b - a) * (sgF p b + sgF p a) / 2) with ((b - a) * c) by (unfold c; field).
  apply Rabs_le. nra.
Qed.
Lemma trap_grid p a h n : 0 < p -> 0 <= h -> forall k,
  let g := fun i => a + INR i * h in
  Rabs (sgP p (g (k + n)%nat) - sgP p (g k) - trapz (map g (seq k (S n))) (map (sgF p) (map g (seq k (S n)))))
  <= h / 2 * (sgV p (g (k + n)%nat) - sgV p (g k)).
Proof.
  intros Hp Hh. induction n as [|n IH]; intros k g.
  - rewrite Nat.add_0_r. cbn [seq map trapz]. replace (sgP p (g k) - sgP p (g k) - 0) with 0 by ring. rewrite Rabs_R0. lra.
  - specialize (IH (S k)). cbn zeta in IH. fold g in IH. replace (S k + n)%nat with (k + S n)%nat in IH by lia.
    assert (Eg : g (S k) = g k + h) by (unfold g; rewrite S_INR; ring).
    change (seq k (S (S n))) with (k :: seq (S k) (S n)).
    assert (Et : trapz (map g (k :: seq (S k) (S n))) (map (sgF p) (map g (k :: seq (S k) (S n)))) =
      (g (S k) - g k) * (sgF p (g (S k)) + sgF p (g k)) / 2 + trapz (map g (seq (S k) (S n))) (map (sgF p) (map g (seq (S k) (S n))))).
    { cbn [seq map trapz]. reflexivity. }
    rewrite Et. pose proof (trap_cell p (g k) (g (S k)) Hp ltac:(lra)) as C. 
    apply Rabs_le_between in IH, C. apply Rabs_le. rewrite Eg in *. lra.
Qed.

(** ** The norm *)
Lemma sg_norm_close sigma p : 0 < sigma -> 0 < p -> Rabs (2 * sgP p 10 - sg_norm sigma p) <= 20 / 599.
Proof.
  intros Hs Hp. unfold sg_norm. rewrite sg_grid_eq by assumption. unfold linspace.
  change (600 - 1)%nat with 599%nat. change (seq 0 600) with (seq 0 (S 599)).
  assert (E599 : INR 599 = 599) by (rewrite INR_IZR_INZ; reflexivity). rewrite E599.
  pose proof (trap_grid p (-10) ((10 - -10) / 599) 599 Hp ltac:(lra) 0%nat) as T. cbn zeta in T.
  replace (0 + 599)%nat with 599%nat in T by reflexivity. rewrite E599 in T. cbn [INR] in T.
  replace (-10 + 599 * ((10 - -10) / 599)) with 10 in T by field.
  replace (-10 + 0 * ((10 - -10) / 599)) with (- (10)) in T by field.
  rewrite sgP_odd in T by assumption.
  replace (sgP p 10 - - sgP p 10) with (2 * sgP p 10) in T by ring.
  eapply Rle_trans; [exact T|]. unfold sgV. destruct (Rle_dec 10 0); [lra|]. destruct (Rle_dec (- (10)) 0); [|lra].
  rewrite sgF_even. pose proof (sgF_pos p 10). lra.
Qed.
Lemma sgP_10_lower p : 0 < p -> 14 / 15 <= 2 * sgP p 10.
Proof.
  intros Hp. pose proof (sgP_lower p 0 (14 / 10) Hp ltac:(lra)) as L1. pose proof (sgP_lower p (14 / 10) 10 Hp ltac:(lra)) as L2.
  pose proof (sgF_pos p 10). assert (sgP p 0 = 0) as E0 by (unfold sgP; apply (RInt_point (V := R_CompleteNormedModule))).
  assert (/ 3 <= sgF p (14 / 10)).
  { unfold sgF. assert (rpow (1 / 2 * (14 / 10) ^ 2) p <= 1).
    { rewrite rpow_pos by lra. apply Rle_trans with (Rpower 1 p); [apply Rle_Rpower_l; lra|]. unfold Rpower. rewrite ln_1, Rmult_0_r, exp_0. lra. }
    apply Rle_trans with (exp (- (1))). { rewrite exp_Ropp. apply Rinv_le_contravar; [apply exp_pos|apply exp_le_3]. }
    apply exp_mono. lra. }
  lra.
Qed.
Lemma sg_norm_lower sigma p : 0 < sigma -> 0 < p -> 89 / 100 <= sg_norm sigma p.
Proof.
  intros Hs Hp. pose proof (sg_norm_close sigma p Hs Hp) as C. pose proof (sgP_10_lower p Hp). apply Rabs_le_between in C. lra.
Qed.
Lemma sg_norm_upper sigma p : 0 < sigma -> 0 < p -> sg_norm sigma p <= 21.
Proof.
  intros Hs Hp. pose proof (sg_norm_close sigma p Hs Hp) as C. pose proof (sgP_upper p 0 10 Hp ltac:(lra)).
  assert (sgP p 0 = 0) as E0 by (unfold sgP; apply (RInt_point (V := R_CompleteNormedModule))). apply Rabs_le_between in C. lra.
Qed.

(** ** The instrument function *)
Lemma sg_eq sigma p x : 0 < sigma -> instrument_supergaussian x sigma p = / sg_norm sigma p * (/ sigma * sgF p (x * / sigma)).
Proof.
  intros Hs. pose proof (sg_norm_pos sigma p Hs). unfold instrument_supergaussian, sgF.
  replace (1 / 2 * x ^ 2 / sigma ^ 2) with (1 / 2 * (x * / sigma) ^ 2) by (field; lra). field. lra.
Qed.
Definition sgQ (sigma p x : R) : R := / sg_norm sigma p * sgP p (x * / sigma).
Lemma sgQ_derive sigma p x : 0 < sigma -> 0 < p -> is_derive (sgQ sigma p) x (instrument_supergaussian x sigma p).
Proof.
  intros Hs Hp. rewrite sg_eq by assumption. unfold sgQ.
  apply (is_derive_scal (fun x => sgP p (x * / sigma)) x (/ sg_norm sigma p)).
  apply (is_derive_comp (sgP p) (fun x => x * / sigma)); [now apply sgP_derive|auto_derive; [exact I|ring]].
Qed.
Lemma sg_cont sigma p x : 0 < sigma -> 0 < p -> continuous (fun x => instrument_supergaussian x sigma p) x.
Proof.
  intros Hs Hp. apply (continuous_ext (fun x => / sg_norm sigma p * (/ sigma * sgF p (x * / sigma)))).
  { intros y. now rewrite sg_eq. }
  apply (continuous_scal_r (V := R_NormedModule) (/ sg_norm sigma p) (fun x => / sigma * sgF p (x * / sigma))).
  apply (continuous_scal_r (V := R_NormedModule) (/ sigma) (fun x => sgF p (x * / sigma))).
  apply (continuous_comp (fun x => x * / sigma) (sgF p)); [|now apply sgF_cont].
  apply (ex_derive_continuous (V := R_NormedModule)). auto_derive. exact I.
Qed.
Lemma sg_window sigma p T : 0 < sigma -> 0 < p ->
  is_RInt (fun x => instrument_supergaussian x sigma p) (- (T * sigma)) (T * sigma) (/ sg_norm sigma p * (2 * sgP p T)).
Proof.
  intros Hs Hp. replace (/ sg_norm sigma p * (2 * sgP p T)) with (minus (sgQ sigma p (T * sigma)) (sgQ sigma p (- (T * sigma)))).
  - apply (is_RInt_derive (V := R_CompleteNormedModule) (sgQ sigma p)); intros x _; [now apply sgQ_derive|now apply sg_cont].
  - change (sgQ sigma p (T * sigma) - sgQ sigma p (- (T * sigma)) = / sg_norm sigma p * (2 * sgP p T)). unfold sgQ. replace (T * sigma * / sigma) with T by (field; lra).
    replace (- (T * sigma) * / sigma) with (- T) by (field; lra). rewrite sgP_odd by assumption. ring.
Qed.
(** ** The tail *)
Lemma exp7 : 400 <= exp 7.
Proof.
  pose proof (exp_ineq1_le (1 / 4)) as H4. assert (H2 : 25 / 16 <= exp (1 / 2)).
  { replace (1 / 2) with (1 / 4 + 1 / 4) by lra. rewrite exp_plus. nra. }
  assert (H1 : 244 / 100 <= exp 1). { replace 1 with (1 / 2 + 1 / 2) by lra. rewrite exp_plus. nra. }
  assert (E2 : 595 / 100 <= exp 2). { replace 2 with (1 + 1) by lra. rewrite exp_plus. nra. }
  assert (E4 : 354 / 10 <= exp 4). { replace 4 with (2 + 2) by lra. rewrite exp_plus. nra. }
  assert (E3 : 145 / 10 <= exp 3). { replace 3 with (2 + 1) by lra. rewrite exp_plus. nra. }
  replace 7 with (4 + 3) by lra. rewrite exp_plus. nra.
Qed.
Lemma sgF_tail p x : 1 / 2 <= p -> 10 <= x -> sgF p x <= exp (- (7 / 10 * x)).
Proof.
  intros Hp Hx. unfold sgF. apply exp_mono, Ropp_le_contravar. rewrite rpow_pos by nra.
  apply Rle_trans with (Rpower (1 / 2 * x ^ 2) (/ 2)); [|apply Rle_Rpower; [nra|lra]].
  rewrite Rpower_sqrt by nra. rewrite <- (sqrt_pow2 (7 / 10 * x)) by lra. apply sqrt_le_1_alt. nra.
Qed.
Lemma sgP_tail p T : 1 / 2 <= p -> 10 <= T -> sgP p T - sgP p 10 <= 1 / 280.
Proof.
  intros Hp HT. rewrite <- sgP_diff by lra.
  assert (HI : is_RInt (fun x => exp (- (7 / 10 * x))) 10 T (minus (- (10 / 7) * exp (- (7 / 10 * T))) (- (10 / 7) * exp (- (7 / 10 * 10))))).
  { apply (is_RInt_derive (V := R_CompleteNormedModule) (fun x => - (10 / 7) * exp (- (7 / 10 * x)))).
    - intros x _. auto_derive; [exact I|field].
    - intros x _. apply (ex_derive_continuous (V := R_NormedModule)). auto_derive. exact I. }
  apply Rle_trans with (RInt (fun x => exp (- (7 / 10 * x))) 10 T).
  - apply RInt_le; [lra|apply sgF_int; lra|eexists; exact HI|]. intros x Hx. apply sgF_tail; lra.
  - rewrite (is_RInt_unique _ _ _ _ HI). unfold minus, plus, opp. cbn. replace (7 / 10 * 10) with 7 by field.
    pose proof (exp_pos (- (7 / 10 * T))). rewrite exp_Ropp with (x := 7).
    pose proof exp7. assert (/ exp 7 <= / 400) by (apply Rinv_le_contravar; lra). lra.
Qed.
Lemma sgP_incr p a b : 0 < p -> a <= b -> sgP p a <= sgP p b.
Proof.
  intros Hp H. assert (0 <= sgP p b - sgP p a); [|lra]. rewrite <- sgP_diff by assumption.
  apply RInt_ge_0; [assumption|now apply sgF_int|]. intros x _. left. apply sgF_pos.
Qed.
Lemma sg_area sigma p : 0 < sigma -> 1 / 2 <= p -> exists v, area (fun x => instrument_supergaussian x sigma p) v /\ Rabs (v - 1) <= 1 / 20.
Proof.
  intros Hs Hp2. assert (Hp : 0 < p) by lra. assert (sgP p 0 = 0) as E0 by (unfold sgP; apply (RInt_point (V := R_CompleteNormedModule))).
  pose proof (sg_norm_lower sigma p Hs Hp) as NL. pose proof (sg_norm_close sigma p Hs Hp) as NC. apply Rabs_le_between in NC.
  assert (UB : forall b, 0 <= b -> sgP p b <= sgP p 10 + 1 / 280).
  { intros b Hb. destruct (Rle_dec b 10) as [H|H]; [pose proof (sgP_incr p b 10 Hp H); lra|]. pose proof (sgP_tail p b Hp2 ltac:(lra)). lra. }
  destruct (monotone_lim (sgP p) (sgP p 10 + 1 / 280)) as [l Hl]; [intros a b Hab; apply sgP_incr; lra|exact UB|].
  assert (L1 : sgP p 10 <= l).
  { assert (B : Rbar_le (sgP p 10) l); [|exact B]. apply (is_lim_le_loc (fun _ => sgP p 10) (sgP p) p_infty); [exists 10; intros y Hy; apply sgP_incr; lra|apply is_lim_const|exact Hl]. }
  assert (L2 : l <= sgP p 10 + 1 / 280).
  { assert (B : Rbar_le l (sgP p 10 + 1 / 280)); [|exact B]. apply (is_lim_le_loc (sgP p) (fun _ => sgP p 10 + 1 / 280) p_infty); [exists 0; intros y Hy; apply UB; lra|exact Hl|apply is_lim_const]. }
  set (N := sg_norm sigma p) in *.
  assert (HQ : is_lim (sgQ sigma p) p_infty (Finite (/ N * l))).
  { unfold sgQ. apply (is_lim_scal_l (fun x => sgP p (x * / sigma)) (/ N) p_infty l). apply lim_comp_scale; [now apply Rinv_0_lt_compat|exact Hl]. }
  exists (/ N * l - - (/ N * l)). split.
  - apply (gen_prim _ _ _ _ (sgQ sigma p)).
    + intros x. now apply sgQ_derive.
    + intros x. now apply sg_cont.
    + apply (lim_odd (sgQ sigma p) (/ N * l)); [|exact HQ]. intros x. unfold sgQ.
      replace (- x * / sigma) with (- (x * / sigma)) by ring. rewrite sgP_odd by assumption. ring.
    + exact HQ.
  - replace (/ N * l - - (/ N * l) - 1) with ((2 * l - N) / N) by (field; lra).
    unfold Rdiv at 1. rewrite Rabs_mult, (Rabs_pos_eq (/ N)) by (left; apply Rinv_0_lt_compat; lra).
    apply Rmult_le_reg_r with N; [lra|]. rewrite Rmult_assoc, Rinv_l by lra. rewrite Rmult_1_r.
    assert (Rabs (2 * l - N) <= 42 / 1000); [apply Rabs_le; lra|lra].
Qed.
