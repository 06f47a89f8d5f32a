(** The Fourier transform of hydrogenic charge densities *)
From Coq Require Import Reals List Arith Lra Lia Psatz.
From Coquelicot Require Import Coquelicot.
From Verif Require Import M_Const M_PlasmaState M_Interp M_FormFactors L_FormFactors.
Import ListNotations.
Open Scope R_scope.

(** Binomial coefficients, associated Laguerre polynomials, radial density of the
    bound state (n, l) as a function of the scaled radius s = 2 Z r / (n a_0) *)
Fixpoint choose (n k : nat) : nat :=
  match n, k with
  | _, O => 1%nat
  | O, S _ => 0%nat
  | S n', S k' => (choose n' k' + choose n' k)%nat
  end.
Definition laguerre (k a : nat) (x : R) : R :=
  fold_right Rplus 0 (map (fun i => (- 1) ^ i * INR (choose (k + a) (k - i)) / INR (fact i) * x ^ i) (seq 0 (S k))).
Definition radial_density (n l : nat) (s : R) : R :=
  INR (fact (n - l - 1)) / (2 * INR n * INR (fact (n + l))) * (s ^ (2 * l + 2) * exp (- s) * laguerre (n - l - 1) (2 * l + 1) s ^ 2).
Definition sinc (x : R) : R := if Req_EM_T x 0 then 1 else sin x / x.
(** the integral over the positive axis *)
Definition integral_to (f : R -> R) (L : R) : Prop := is_lim (fun x => RInt f 0 x) p_infty L.

Definition imp (f : R -> R) (L : R) : Prop :=
  (forall s, continuous f s) /\ exists G, (forall s, is_derive G s (f s)) /\ is_lim G p_infty (G 0 + L).
Lemma imp_integral f L : imp f L -> integral_to f L.
Proof.
  intros [Hc [G [Hd HL]]]. unfold integral_to.
  apply (is_lim_ext (fun x => G x - G 0)).
  - intros x. symmetry. apply is_RInt_unique. apply (is_RInt_derive (V := R_CompleteNormedModule)); intros; [apply Hd|apply Hc].
  - replace (Finite L) with (Finite (G 0 + L - G 0)) by (f_equal; ring).
    apply (is_lim_minus' G (fun _ => G 0)); [exact HL|apply is_lim_const].
Qed.
Lemma imp_ext f g L : (forall s, f s = g s) -> imp f L -> imp g L.
Proof.
  intros E [Hc [G [Hd HL]]]. split.
  - intros s. apply (continuous_ext f); [exact E|apply Hc].
  - exists G. split; [|exact HL]. intros s. rewrite <- E. apply Hd.
Qed.
Lemma imp_scal c f L : imp f L -> imp (fun s => c * f s) (c * L).
Proof.
  intros [Hc [G [Hd HL]]]. split.
  - intros s. apply (continuous_scal_r (K := R_AbsRing) (V := R_NormedModule) c f s (Hc s)).
  - exists (fun s => c * G s). split.
    + intros s. apply (is_derive_scal G s c). apply Hd.
    + replace (Finite (c * G 0 + c * L)) with (Rbar_mult c (Finite (G 0 + L))) by (cbn; f_equal; ring).
      apply is_lim_scal_l. exact HL.
Qed.
Lemma imp_plus f g L M : imp f L -> imp g M -> imp (fun s => f s + g s) (L + M).
Proof.
  intros [Hc [G [Hd HL]]] [Hc' [G' [Hd' HL']]]. split.
  - intros s. apply (continuous_plus (V := R_NormedModule)); auto.
  - exists (fun s => G s + G' s). split.
    + intros s. apply (is_derive_plus (V := R_NormedModule)); auto.
    + replace (Finite (G 0 + G' 0 + (L + M))) with (Finite (G 0 + L + (G' 0 + M))) by (f_equal; ring).
      now apply (is_lim_plus' G G').
Qed.
Lemma imp_derive (H h : R -> R) : (forall s, continuous h s) -> (forall s, is_derive H s (h s)) -> is_lim H p_infty 0 -> imp h (- H 0).
Proof. intros Hc Hd HL. split; [assumption|]. exists H. split; [assumption|]. replace (H 0 + - H 0) with 0 by ring. assumption. Qed.

(** s^m e^-s vanishes at infinity *)
Lemma exp_ge_pow m x : 0 <= x -> (x / INR (S m)) ^ S m <= exp x.
Proof.
  intros Hx. pose proof (lt_0_INR (S m) ltac:(lia)) as Hm.
  replace (exp x) with (exp (x / INR (S m)) ^ S m).
  - apply pow_incr. assert (0 <= x / INR (S m)) by (apply Rmult_le_pos; [lra|left; apply Rinv_0_lt_compat; lra]).
    split; [assumption|]. pose proof (exp_ineq1_le (x / INR (S m))). lra.
  - rewrite <- Rpower_pow by apply exp_pos. unfold Rpower. rewrite ln_exp. f_equal. field. lra.
Qed.
Lemma w_lim m : is_lim (fun s => s ^ m * exp (- s)) p_infty 0.
Proof.
  apply (is_lim_le_le_loc (fun _ => 0) (fun s => INR (S m) ^ S m * / s)).
  - exists 0. intros s Hs. pose proof (exp_ge_pow m s ltac:(lra)) as E. pose proof (lt_0_INR (S m) ltac:(lia)) as Hm.
    rewrite exp_Ropp. pose proof (exp_pos s). split.
    + apply Rmult_le_pos; [apply pow_le; lra|left; apply Rinv_0_lt_compat; lra].
    + apply (Rmult_le_reg_r (exp s * s)); [nra|]. replace (s ^ m * / exp s * (exp s * s)) with (s ^ S m) by (cbn [pow]; field; lra).
      replace (INR (S m) ^ S m * / s * (exp s * s)) with (INR (S m) ^ S m * exp s) by (field; lra).
      apply Rle_trans with (INR (S m) ^ S m * (s / INR (S m)) ^ S m); [|apply Rmult_le_compat_l; [apply pow_le; lra|exact E]].
      rewrite <- Rpow_mult_distr. right. f_equal. field. lra.
  - apply is_lim_const.
  - replace (Finite 0) with (Rbar_mult (INR (S m) ^ S m) (Finite 0)) by (cbn; f_equal; ring).
    apply is_lim_scal_l. apply (is_lim_inv (fun s => s) p_infty p_infty (is_lim_id _)). discriminate.
Qed.
Lemma w_lim_bounded m (b : R -> R) : (forall s, Rabs (b s) <= 1) -> is_lim (fun s => s ^ m * exp (- s) * b s) p_infty 0.
Proof.
  intros Hb. apply (is_lim_le_le_loc (fun s => - 1 * (s ^ m * exp (- s))) (fun s => s ^ m * exp (- s))).
  - exists 0. intros s Hs. specialize (Hb s). apply Rabs_le_between in Hb.
    assert (0 <= s ^ m * exp (- s)) by (apply Rmult_le_pos; [apply pow_le; lra|left; apply exp_pos]). nra.
  - replace (Finite 0) with (Rbar_mult (- 1) (Finite 0)) by (cbn; f_equal; ring). apply is_lim_scal_l. apply w_lim.
  - apply w_lim.
Qed.
Lemma sin_le1 x : Rabs (sin x) <= 1.
Proof. apply Rabs_le. pose proof (SIN_bound x). lra. Qed.
Lemma cos_le1 x : Rabs (cos x) <= 1.
Proof. apply Rabs_le. pose proof (COS_bound x). lra. Qed.

(** numerators of the moments: ∫ s^m e^-s cos(qs) = fst/(1+q^2)^(m+1), with sin: snd *)
Fixpoint AB (q : R) (m : nat) : R * R :=
  match m with
  | O => (1, q)
  | S m' => let '(a, b) := AB q m' in (INR m * (a - q * b), INR m * (b + q * a))
  end.
Lemma cont_w m (b : R -> R) s : continuous b s -> continuous (fun s => s ^ m * exp (- s) * b s) s.
Proof.
  intros Hb. apply (continuous_mult (K := R_AbsRing) (fun s => s ^ m * exp (- s)) b); [|exact Hb].
  apply (ex_derive_continuous (V := R_NormedModule)). auto_derive. auto.
Qed.
Lemma cont_sin q s : continuous (fun s => sin (q * s)) s.
Proof. apply (ex_derive_continuous (V := R_NormedModule)). auto_derive. auto. Qed.
Lemma cont_cos q s : continuous (fun s => cos (q * s)) s.
Proof. apply (ex_derive_continuous (V := R_NormedModule)). auto_derive. auto. Qed.
Lemma moments q m :
  imp (fun s => s ^ m * exp (- s) * cos (q * s)) (fst (AB q m) / (1 + q ^ 2) ^ S m) /\
  imp (fun s => s ^ m * exp (- s) * sin (q * s)) (snd (AB q m) / (1 + q ^ 2) ^ S m).
Proof.
  assert (Hq : 0 < 1 + q ^ 2) by (pose proof (pow2_ge_0 q); lra).
  set (wc := fun m s => s ^ m * exp (- s) * cos (q * s)). set (ws := fun m s => s ^ m * exp (- s) * sin (q * s)).
  assert (Lc : forall m, is_lim (wc m) p_infty 0) by (intros; apply (w_lim_bounded m0 (fun s => cos (q * s))); intros; apply cos_le1).
  assert (Ls : forall m, is_lim (ws m) p_infty 0) by (intros; apply (w_lim_bounded m0 (fun s => sin (q * s))); intros; apply sin_le1).
  assert (Cc : forall m s, continuous (wc m) s) by (intros; apply (cont_w m0 (fun s => cos (q * s))); apply cont_cos).
  assert (Cs : forall m s, continuous (ws m) s) by (intros; apply (cont_w m0 (fun s => sin (q * s))); apply cont_sin).
  assert (CP : forall (f g : R -> R) a b, (forall s, continuous f s) -> (forall s, continuous g s) -> forall s, continuous (fun s => a * f s + b * g s) s).
  { intros f g a b Hf Hg s. apply (continuous_plus (V := R_NormedModule)).
    - apply (continuous_scal_r (K := R_AbsRing) (V := R_NormedModule) a f s (Hf s)).
    - apply (continuous_scal_r (K := R_AbsRing) (V := R_NormedModule) b g s (Hg s)). }
  assert (LP : forall (f g : R -> R) a b, is_lim f p_infty 0 -> is_lim g p_infty 0 -> is_lim (fun s => a * f s + b * g s) p_infty 0).
  { intros f g a b Hf Hg. replace (Finite 0) with (Finite (a * 0 + b * 0)) by (f_equal; ring).
    apply (is_lim_plus' (fun s => a * f s) (fun s => b * g s)).
    - exact (is_lim_scal_l f a p_infty 0 Hf).
    - exact (is_lim_scal_l g b p_infty 0 Hg). }
  set (r := / (1 + q ^ 2)).
  induction m as [|m [IHc IHs]].
  - split.
    + assert (E := imp_derive (fun s => - r * wc 0%nat s + q * r * ws 0%nat s) (fun s => 1 * wc 0%nat s + 0 * wc 0%nat s) (CP _ _ _ _ (Cc 0%nat) (Cc 0%nat))).
      apply (imp_ext (fun s => 1 * wc 0%nat s + 0 * wc 0%nat s)); [intros; unfold wc; ring|].
      replace (fst (AB q 0) / (1 + q ^ 2) ^ 1) with (- (- r * wc 0%nat 0 + q * r * ws 0%nat 0)).
      2: { unfold wc, ws, r. cbn [AB fst pow]. rewrite Rmult_0_r, Ropp_0, cos_0, sin_0, exp_0. field. cbn [pow] in Hq. lra. }
      apply E; [|apply LP; auto]. intros s. unfold wc, ws, r. auto_derive; [auto|]. field. lra.
    + assert (E := imp_derive (fun s => - r * ws 0%nat s + - q * r * wc 0%nat s) (fun s => 1 * ws 0%nat s + 0 * wc 0%nat s) (CP _ _ _ _ (Cs 0%nat) (Cc 0%nat))).
      apply (imp_ext (fun s => 1 * ws 0%nat s + 0 * wc 0%nat s)); [intros; unfold ws; ring|].
      replace (snd (AB q 0) / (1 + q ^ 2) ^ 1) with (- (- r * ws 0%nat 0 + - q * r * wc 0%nat 0)).
      2: { unfold wc, ws, r. cbn [AB snd pow]. rewrite Rmult_0_r, Ropp_0, cos_0, sin_0, exp_0. field. cbn [pow] in Hq. lra. }
      apply E; [|apply LP; auto]. intros s. unfold wc, ws, r. auto_derive; [auto|]. field. lra.
  - assert (D0 : forall b : R, 0 ^ S m * exp (- 0) * b = 0) by (intros; cbn [pow]; ring).
    assert (P : (1 + q ^ 2) ^ S m <> 0) by (apply pow_nonzero; lra).
    set (M := INR (S m)).
    split.
    + pose (h := fun s => 1 * wc (S m) s + 1 * (- (M * r) * wc m s + q * (M * r) * ws m s)).
      assert (Hh : imp h (- (- r * wc (S m) 0 + q * r * ws (S m) 0))).
      { apply (imp_derive (fun s => - r * wc (S m) s + q * r * ws (S m) s)); [|intros s|apply LP; auto].
        - apply CP; [apply Cc|apply CP; auto].
        - unfold h, wc, ws, r, M. auto_derive; [auto|]. change (match m with 0%nat => 1 | S _ => INR m + 1 end) with (INR (S m)). generalize (INR (S m)). intros M'. change (pred (S m)) with m. cbn [pow]. field. cbn [pow] in Hq. lra. }
      apply (imp_ext (fun s => h s + (M * r * wc m s + - (q * (M * r)) * ws m s))); [intros s; unfold h, wc, ws; ring|].
      replace (fst (AB q (S m)) / (1 + q ^ 2) ^ S (S m)) with
        (- (- r * wc (S m) 0 + q * r * ws (S m) 0) + (M * r * (fst (AB q m) / (1 + q ^ 2) ^ S m) + - (q * (M * r)) * (snd (AB q m) / (1 + q ^ 2) ^ S m))).
      * apply imp_plus; [exact Hh|]. apply imp_plus; apply imp_scal; assumption.
      * unfold wc, ws. rewrite !D0. unfold r. cbn [AB]. destruct (AB q m) as [a b]. cbn [fst snd]. fold M.
        change ((1 + q ^ 2) ^ S (S m)) with ((1 + q ^ 2) * (1 + q ^ 2) ^ S m). field. split; [assumption|lra].
    + pose (h := fun s => 1 * ws (S m) s + 1 * (- (M * r) * ws m s + - q * (M * r) * wc m s)).
      assert (Hh : imp h (- (- r * ws (S m) 0 + - q * r * wc (S m) 0))).
      { apply (imp_derive (fun s => - r * ws (S m) s + - q * r * wc (S m) s)); [|intros s|apply LP; auto].
        - apply CP; [apply Cs|apply CP; auto].
        - unfold h, wc, ws, r, M. auto_derive; [auto|]. change (match m with 0%nat => 1 | S _ => INR m + 1 end) with (INR (S m)). generalize (INR (S m)). intros M'. change (pred (S m)) with m. cbn [pow]. field. cbn [pow] in Hq. lra. }
      apply (imp_ext (fun s => h s + (M * r * ws m s + q * (M * r) * wc m s))); [intros s; unfold h, wc, ws; ring|].
      replace (snd (AB q (S m)) / (1 + q ^ 2) ^ S (S m)) with
        (- (- r * ws (S m) 0 + - q * r * wc (S m) 0) + (M * r * (snd (AB q m) / (1 + q ^ 2) ^ S m) + q * (M * r) * (fst (AB q m) / (1 + q ^ 2) ^ S m))).
      * apply imp_plus; [exact Hh|]. apply imp_plus; apply imp_scal; assumption.
      * unfold wc, ws. rewrite !D0. unfold r. cbn [AB]. destruct (AB q m) as [a b]. cbn [fst snd]. fold M.
        change ((1 + q ^ 2) ^ S (S m)) with ((1 + q ^ 2) * (1 + q ^ 2) ^ S m). field. split; [assumption|lra].
Qed.

Fixpoint pim (q : R) (p : list R) (m : nat) : R :=
  match p with [] => 0 | a :: p => a * (snd (AB q m) / (1 + q ^ 2) ^ S m) + pim q p (S m) end.
Fixpoint pev (q : R) (p : list R) (m : nat) (s : R) : R :=
  match p with [] => 0 | a :: p => a * (s ^ m * exp (- s) * sin (q * s)) + pev q p (S m) s end.
Lemma pev_imp q p : forall m, imp (pev q p m) (pim q p m).
Proof.
  induction p as [|a p IH]; intros m; cbn [pev pim].
  - split; [intros s; apply continuous_const|]. exists (fun _ => 0). split; [intros s; apply (is_derive_const (V := R_NormedModule))|].
    replace (0 + 0) with 0 by ring. apply is_lim_const.
  - apply (imp_plus (fun s => a * (s ^ m * exp (- s) * sin (q * s))) (pev q p (S m))); [|apply IH].
    apply (imp_scal a (fun s => s ^ m * exp (- s) * sin (q * s))). apply moments.
Qed.
Lemma imp_sinc q g p m : q <> 0 -> (forall s, s * pev q p m s = g s * sin (q * s)) -> g 0 = 0 -> pev q p m 0 = 0 ->
  imp (fun s => g s * sinc (q * s)) (/ q * pim q p m).
Proof.
  intros Hq E G0 P0. apply (imp_ext (fun s => / q * pev q p m s)); [|apply imp_scal, pev_imp].
  intros s. unfold sinc. destruct (Req_EM_T (q * s) 0) as [Z|Z].
  - apply Rmult_integral in Z. destruct Z as [Z|Z]; [contradiction|]. rewrite Z, G0, P0. ring.
  - assert (s <> 0) by (intros ->; apply Z; ring).
    apply (Rmult_eq_reg_l (q * s)); [|assumption]. transitivity (s * pev q p m s); [field; auto|]. rewrite E. field. auto.
Qed.
Ltac nums := rewrite ?INR_IZR_INZ; repeat match goal with |- context [IZR (Z.of_nat ?e)] => let v := eval vm_compute in (Z.of_nat e) in change (Z.of_nat e) with v end.
Ltac lag := unfold radial_density, laguerre; cbn [seq map fold_right Nat.sub Nat.add Nat.mul]; nums.
Ltac sh p :=
  match goal with |- imp (fun s => radial_density ?n ?l s * sinc (?q * s)) _ =>
    let m := eval cbv in (2 * l + 1)%nat in
    replace (F n l (q ^ 2)) with (/ q * pim q p m);
    [ apply imp_sinc;
      [ assumption
      | intros s; lag; cbn [pev]; generalize (sin (q * s)) (exp (- s)); intros; field
      | lag; field
      | cbn [pev]; rewrite ?Rmult_0_r, ?sin_0; ring ]
    | cbn [pim AB fst snd]; nums; unfold F; field; pose proof (pow2_ge_0 q); repeat split; first [assumption|lra|nra] ]
  end.
Lemma hydrogenic q n l : In (n, l) shells -> q <> 0 -> imp (fun s => radial_density n l s * sinc (q * s)) (F n l (q ^ 2)).
Proof.
  intros H Hq. shell H.
  - sh [1 / 2].
  - sh [1 / 2; - 1 / 2; 1 / 8].
  - sh [1 / 24].
  - sh [1 / 2; - 1; 2 / 3; - 1 / 6; 1 / 72].
  - sh [1 / 9; - 1 / 18; 1 / 144].
  - sh [1 / 720].
  - sh [1 / 2; - 3 / 2; 13 / 8; - 19 / 24; 3 / 16; - 1 / 48; 1 / 1152].
  - sh [5 / 24; - 5 / 24; 7 / 96; - 1 / 96; 1 / 1920].
  - sh [1 / 160; - 1 / 480; 1 / 5760].
  - sh [1 / 40320].
Qed.

Fixpoint pim0 (p : list R) (m : nat) : R :=
  match p with [] => 0 | a :: p => a * (fst (AB 0 m) / (1 + 0 ^ 2) ^ S m) + pim0 p (S m) end.
Fixpoint pev0 (p : list R) (m : nat) (s : R) : R :=
  match p with [] => 0 | a :: p => a * (s ^ m * exp (- s) * cos (0 * s)) + pev0 p (S m) s end.
Lemma pev0_imp p : forall m, imp (pev0 p m) (pim0 p m).
Proof.
  induction p as [|a p IH]; intros m; cbn [pev0 pim0].
  - split; [intros s; apply continuous_const|]. exists (fun _ => 0). split; [intros s; apply (is_derive_const (V := R_NormedModule))|].
    replace (0 + 0) with 0 by ring. apply is_lim_const.
  - apply (imp_plus (fun s => a * (s ^ m * exp (- s) * cos (0 * s))) (pev0 p (S m))); [|apply IH].
    apply (imp_scal a (fun s => s ^ m * exp (- s) * cos (0 * s))). apply moments.
Qed.
Ltac sh0 p :=
  match goal with |- imp (radial_density ?n ?l) 1 =>
    let m := eval cbv in (2 * l + 2)%nat in
    replace 1 with (pim0 p m);
    [ apply (imp_ext (pev0 p m)); [|apply pev0_imp];
      intros s; lag; cbn [pev0]; rewrite Rmult_0_l, cos_0; generalize (exp (- s)); intros; field
    | cbn [pim0 AB fst snd]; nums; field ]
  end.
Lemma normalised n l : In (n, l) shells -> imp (radial_density n l) 1.
Proof.
  intros H. shell H.
  - sh0 [1 / 2].
  - sh0 [1 / 2; - 1 / 2; 1 / 8].
  - sh0 [1 / 24].
  - sh0 [1 / 2; - 1; 2 / 3; - 1 / 6; 1 / 72].
  - sh0 [1 / 9; - 1 / 18; 1 / 144].
  - sh0 [1 / 720].
  - sh0 [1 / 2; - 3 / 2; 13 / 8; - 19 / 24; 3 / 16; - 1 / 48; 1 / 1152].
  - sh0 [5 / 24; - 5 / 24; 7 / 96; - 1 / 96; 1 / 1920].
  - sh0 [1 / 160; - 1 / 480; 1 / 5760].
  - sh0 [1 / 40320].
Qed.
Lemma density_nonneg n l s : In (n, l) shells -> 0 <= s -> 0 <= radial_density n l s.
Proof.
  intros H Hs. unfold radial_density. apply Rmult_le_pos.
  - apply Rmult_le_pos; [apply pos_INR|]. left. apply Rinv_0_lt_compat. apply Rmult_lt_0_compat.
    + apply Rmult_lt_0_compat; [lra|]. apply lt_0_INR. shell H; lia.
    + apply INR_fact_lt_0.
  - apply Rmult_le_pos; [|apply pow2_ge_0]. apply Rmult_le_pos; [now apply pow_le|left; apply exp_pos].
Qed.
