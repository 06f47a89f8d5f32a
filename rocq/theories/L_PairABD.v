(** Lemmas for the pair distribution functions: the transform to real space as
    an improper integral, its bounds, and the screened potentials at equal
    temperatures as smooth functions of the wavenumber. *)
From Coq Require Import Reals Lra Lia Psatz.
From Coquelicot Require Import Coquelicot.
From Verif Require Import M_Const M_PlasmaState M_PlasmaPhysics L_PlasmaPhysics M_StaticSF L_StaticSF L_LFC L_RPA L_Gauss M_PairABD.
Open Scope R_scope.

(** exact quadrature over the positive axis: an integrand that equals a
    continuous function there gets its improper integral *)
Definition half_line_exact (quad : (R -> R) -> R) : Prop :=
  forall (f g : R -> R) (L : R), (forall x, 0 < x -> f x = g x) -> (forall x, continuous g x) ->
    is_lim (fun X => RInt g 0 X) p_infty L -> quad f = L.
Definition half_line_quad (f : R -> R) : R := real (Lim (fun X => RInt f 0 X) p_infty).
Lemma half_line_quad_exact : half_line_exact half_line_quad.
Proof.
  intros f g L E _ H. unfold half_line_quad.
  assert (K : is_lim (fun X => RInt f 0 X) p_infty L).
  { apply (is_lim_ext_loc (fun X => RInt g 0 X)); [|exact H]. exists 0. intros X HX. apply RInt_ext.
    rewrite Rmin_left, Rmax_right by lra. intros x Hx. symmetry. apply E. lra. }
  now rewrite (is_lim_unique _ _ _ K).
Qed.

(** ** Bounds of improper integrals *)
Lemma abs_bound (h g : R -> R) B L : (forall x, continuous h x) -> (forall x, continuous g x) ->
  (forall k, 0 <= k -> Rabs (h k) <= g k) -> (forall X, 0 <= X -> RInt g 0 X <= B) ->
  is_lim (fun X => RInt h 0 X) p_infty (Finite L) -> Rabs L <= B.
Proof.
  intros Hh Hg Hd HB HL.
  assert (K : forall X, 0 <= X -> Rabs (RInt h 0 X) <= B).
  { intros X HX. apply Rle_trans with (RInt g 0 X); [|now apply HB].
    apply Rle_trans with (RInt (fun k => Rabs (h k)) 0 X).
    - apply abs_RInt_le; [exact HX|now apply Int_ex].
    - apply RInt_le; [exact HX| |now apply Int_ex|intros x Hx; apply Hd; lra].
      apply Int_ex. intros x. apply (continuous_comp h Rabs); [apply Hh|apply continuous_Rabs]. }
  assert (L1 : L <= B).
  { refine (is_lim_le_loc (fun X => RInt h 0 X) (fun _ => B) p_infty L B _ HL (is_lim_const B p_infty)).
    exists 0. intros X HX. specialize (K X ltac:(lra)). apply Rle_trans with (2 := K). apply Rle_abs. }
  assert (L2 : - B <= L).
  { refine (is_lim_le_loc (fun _ => - B) (fun X => RInt h 0 X) p_infty (- B) L _ (is_lim_const (- B) p_infty) HL).
    exists 0. intros X HX. specialize (K X ltac:(lra)). pose proof (Rle_abs (- RInt h 0 X)) as Q. rewrite Rabs_Ropp in Q. lra. }
  apply Rabs_le. lra.
Qed.

Lemma sin_abs_le x : 0 <= x -> Rabs (sin x) <= x.
Proof.
  intros H. assert (G : forall y, 0 <= y -> sin y <= y /\ - y <= sin y).
  { intros y Hy. destruct (Rle_lt_or_eq_dec 0 y Hy) as [P|<-]; [|rewrite sin_0; lra]. split; [left; now apply sin_lt_x|].
    destruct (Rle_dec y 1) as [L|L]; [|pose proof (SIN_bound y); lra].
    assert (0 <= sin y) by (apply sin_ge_0; pose proof PI_RGT_0; pose proof PI2_1; lra). lra. }
  specialize (G x H). apply Rabs_le. lra.
Qed.
Lemma sin_abs_1 x : Rabs (sin x) <= 1.
Proof. apply Rabs_le. pose proof (SIN_bound x). lra. Qed.

(** Lorentzian, cubic tail and Gaussian, integrated *)
Lemma lorentz_int M l X : 0 <= M -> 0 < l -> 0 <= X -> RInt (fun k => M / (1 + k ^ 2 * l)) 0 X <= M * PI / (2 * sqrt l).
Proof.
  intros HM Hl HX. pose proof (sqrt_lt_R0 _ Hl) as Hs. pose proof (sqrt_sqrt l ltac:(lra)) as Es.
  assert (D : forall k, 0 < 1 + k ^ 2 * l) by (intros k; pose proof (Rmult_le_pos _ _ (pow2_ge_0 k) (Rlt_le _ _ Hl)); lra).
  assert (E : RInt (fun k => M / (1 + k ^ 2 * l)) 0 X = M / sqrt l * atan (sqrt l * X) - M / sqrt l * atan (sqrt l * 0)).
  { apply is_RInt_unique. apply (is_RInt_derive (V := R_CompleteNormedModule) (fun k => M / sqrt l * atan (sqrt l * k))).
    - intros k _. pose proof (D k) as D0.
      assert (D1 : 1 + sqrt l * k * (sqrt l * k) = 1 + k ^ 2 * l) by (rewrite <- Es at 3; ring).
      apply (deq _ _ (M / sqrt l * (sqrt l * / (1 + k ^ 2 * l)))); [field; split; lra|].
      rewrite <- D1. auto_derive; [exact I|]. now rewrite !Rmult_1_r.
    - intros k _. apply (ex_derive_continuous (V := R_NormedModule)). auto_derive. pose proof (D k) as D'. cbn in D'. lra. }
  rewrite E, Rmult_0_r, atan_0, Rmult_0_r, Rminus_0_r. pose proof (atan_bound (sqrt l * X)).
  replace (M * PI / (2 * sqrt l)) with (M / sqrt l * (PI / 2)) by (field; lra).
  apply Rmult_le_compat_l; [|lra]. apply Rmult_le_pos; [exact HM|left; now apply Rinv_0_lt_compat].
Qed.
Lemma tail_int C X : 0 <= C -> 0 <= X -> RInt (fun k => C * k / (1 + k ^ 2) ^ 2) 0 X <= C / 2.
Proof.
  intros HC HX. assert (D : forall k, 0 < 1 + k ^ 2) by (intros k; pose proof (pow2_ge_0 k); lra).
  assert (E : RInt (fun k => C * k / (1 + k ^ 2) ^ 2) 0 X = - (C / 2) / (1 + X ^ 2) - - (C / 2) / (1 + 0 ^ 2)).
  { apply is_RInt_unique. apply (is_RInt_derive (V := R_CompleteNormedModule) (fun k => - (C / 2) / (1 + k ^ 2))).
    - intros k _. pose proof (D k) as D'. auto_derive; [cbn in D'; lra|]. field. cbn in D'. lra.
    - intros k _. apply (ex_derive_continuous (V := R_NormedModule)). auto_derive. pose proof (pow_lt _ 2 (D k)) as D'. cbn in D'. lra. }
  rewrite E. assert (0 <= (C / 2) / (1 + X ^ 2)) by (apply Rmult_le_pos; [lra|left; apply Rinv_0_lt_compat, D]).
  replace (- (C / 2) / (1 + 0 ^ 2)) with (- (C / 2)) by field. replace (- (C / 2) / (1 + X ^ 2)) with (- (C / 2 / (1 + X ^ 2))) by (field; apply Rgt_not_eq, D). lra.
Qed.
Lemma FF_le x : 0 <= x -> FF x <= sqrt PI / 2.
Proof.
  intros Hx. refine (is_lim_le_loc (fun _ => FF x) FF p_infty (FF x) (sqrt PI / 2) _ (is_lim_const _ _) gauss_half).
  exists x. intros y Hy. unfold FF.
  pose proof (RInt_Chasles (V := R_CompleteNormedModule) gf 0 x y (gf_int _ _) (gf_int _ _)) as E. change (RInt gf 0 x + RInt gf x y = RInt gf 0 y) in E.
  assert (0 <= RInt gf x y) by (apply RInt_ge_0; [lra|apply gf_int|intros t _; left; apply exp_pos]). lra.
Qed.
(** int k^2 exp(-k^2/(4 b)) dk, at most its value over the half line *)
Lemma gauss2_int M b X : 0 <= M -> 0 < b -> 0 <= X ->
  RInt (fun k => M * k ^ 2 * exp (- k ^ 2 / (4 * b))) 0 X <= M * (2 * b * sqrt b * sqrt PI).
Proof.
  intros HM Hb HX. set (s := 2 * sqrt b). pose proof (sqrt_lt_R0 _ Hb) as Hs. pose proof (sqrt_sqrt b ltac:(lra)) as Es.
  assert (Hs' : 0 < s) by (unfold s; lra). assert (Ess : s ^ 2 = 4 * b) by (unfold s; replace ((2 * sqrt b) ^ 2) with (4 * (sqrt b * sqrt b)) by ring; now rewrite Es).
  set (G := fun k => M * (2 * b) * (s * FF (k / s) - k * exp (- k ^ 2 / (4 * b)))).
  assert (E : RInt (fun k => M * k ^ 2 * exp (- k ^ 2 / (4 * b))) 0 X = G X - G 0).
  { apply is_RInt_unique. apply (is_RInt_derive (V := R_CompleteNormedModule) G).
    - intros k _. unfold G.
      assert (D1 : is_derive (fun k => FF (k / s)) k (/ s * gf (k / s))).
      { apply (is_derive_comp (V := R_NormedModule) FF (fun k => k / s) k (gf (k / s)) (/ s)); [apply FF_derive|].
        auto_derive; [exact I|]. field. lra. }
      assert (D2 : is_derive (fun k => k * exp (- k ^ 2 / (4 * b))) k (exp (- k ^ 2 / (4 * b)) - k ^ 2 / (2 * b) * exp (- k ^ 2 / (4 * b)))).
      { auto_derive; [lra|]. replace (k * (k * 1)) with (k ^ 2) by ring. unfold Rdiv. field. lra. }
      assert (Eg : gf (k / s) = exp (- k ^ 2 / (4 * b))).
      { unfold gf. f_equal. rewrite <- Ess. field. lra. }
      rewrite Eg in D1.
      apply (deq _ _ (M * (2 * b) * (s * (/ s * exp (- k ^ 2 / (4 * b))) - (exp (- k ^ 2 / (4 * b)) - k ^ 2 / (2 * b) * exp (- k ^ 2 / (4 * b)))))).
      + field. split; lra.
      + apply (is_derive_scal (fun k => s * FF (k / s) - k * exp (- k ^ 2 / (4 * b)))).
        apply (is_derive_minus (V := R_NormedModule) (fun k => s * FF (k / s)) (fun k => k * exp (- k ^ 2 / (4 * b)))); [|exact D2].
        apply (is_derive_scal (fun k => FF (k / s))). exact D1.
    - intros k _. apply (ex_derive_continuous (V := R_NormedModule)). auto_derive. lra. }
  rewrite E. unfold G. replace (0 / s) with 0 by (field; lra). assert (F0 : FF 0 = 0) by (unfold FF; rewrite RInt_point; reflexivity). rewrite F0.
  assert (F1 : FF (X / s) <= sqrt PI / 2) by (apply FF_le; apply Rmult_le_pos; [exact HX|left; now apply Rinv_0_lt_compat]).
  assert (0 <= X * exp (- X ^ 2 / (4 * b))) by (apply Rmult_le_pos; [exact HX|left; apply exp_pos]).
  replace (M * (2 * b * sqrt b * sqrt PI)) with (M * (2 * b) * (s * (sqrt PI / 2))) by (unfold s; field).
  rewrite !Rmult_0_l, Rmult_0_r, Rminus_0_r, Rmult_0_r, Rminus_0_r. apply Rmult_le_compat_l; [apply Rmult_le_pos; lra|].
  pose proof (Rmult_le_compat_l s _ _ (Rlt_le _ _ Hs') F1). lra.
Qed.

(** ** The transform *)
Lemma ang_pos : 0 < ang.
Proof. unfold ang. apply Rinv_0_lt_compat. apply pow_lt. lra. Qed.
Lemma RInt_lin (h : R -> R) c X : c <> 0 -> (forall x, continuous h x) -> RInt (fun x => h (x / c)) 0 X = c * RInt h 0 (X / c).
Proof.
  intros Hc Hh. pose proof (RInt_comp_lin (V := R_CompleteNormedModule) h (/ c) 0 0 X) as H.
  rewrite !Rplus_0_r, !Rmult_0_r in H. specialize (H (Int_ex h _ _ Hh)).
  replace (X / c) with (/ c * X) by (unfold Rdiv; ring). rewrite <- H.
  transitivity (c * (/ c * RInt (fun x => h (x / c)) 0 X)); [rewrite <- Rmult_assoc, Rinv_r by exact Hc; symmetry; apply Rmult_1_l|]. f_equal.
  assert (Hcont : forall x, continuous (fun x => h (x / c)) x).
  { intros x. apply (continuous_comp (fun x => x / c) h); [|apply Hh]. apply (ex_derive_continuous (V := R_NormedModule)). auto_derive. exact Hc || exact I. }
  transitivity (RInt (fun x => scal (/ c) (h (x / c))) 0 X); [symmetry; exact (RInt_scal (V := R_CompleteNormedModule) (fun x => h (x / c)) 0 X (/ c) (Int_ex _ _ _ Hcont))|].
  apply RInt_ext. intros x _. unfold scal; cbn; unfold mult; cbn. f_equal. f_equal. unfold Rdiv. ring.
Qed.
Lemma transform quad (Phi F : R -> R) r L : half_line_exact quad -> r <> 0 ->
  (forall k, 0 < k -> Phi k = F k) -> (forall k, continuous F k) ->
  is_lim (fun X => RInt (fun k => F k * (sin (k * r) * k)) 0 X) p_infty (Finite L) ->
  Phi_r quad Phi r = L / (2 * PI ^ 2 * r).
Proof.
  intros Hq Hr HF Hc HL. pose proof ang_pos as Ha. pose proof PI_RGT_0 as HP. unfold Phi_r.
  set (h := fun k => F k * (sin (k * r) * k)) in *.
  assert (Ch : forall k, continuous h k).
  { intros k. unfold h. apply (continuous_mult (K := R_AbsRing)); [apply Hc|].
    apply (ex_derive_continuous (V := R_NormedModule)). auto_derive. exact I. }
  assert (E : quad (to_integrate Phi r) = L / ang).
  { apply (Hq _ (fun x => / ang ^ 2 * h (x / ang))).
    - intros x Hx. unfold to_integrate, h. rewrite HF by (now apply Rdiv_lt_0_compat). unfold Rdiv. ring.
    - intros x. apply (continuous_scal_r (K := R_AbsRing) (V := R_NormedModule)). apply (continuous_comp (fun x => x / ang) h); [|apply Ch].
      apply (ex_derive_continuous (V := R_NormedModule)). auto_derive. lra || exact I.
    - apply (is_lim_ext (fun X => / ang * RInt h 0 (X / ang))).
      + intros X. symmetry. transitivity (/ ang ^ 2 * RInt (fun x => h (x / ang)) 0 X).
        * apply (RInt_scal (V := R_CompleteNormedModule) (fun x => h (x / ang)) 0 X (/ ang ^ 2)). apply Int_ex.
          intros x. apply (continuous_comp (fun x => x / ang) h); [|apply Ch].
          apply (ex_derive_continuous (V := R_NormedModule)). auto_derive. lra || exact I.
        * rewrite RInt_lin by (lra || exact Ch). field. lra.
      + replace (Finite (L / ang)) with (Rbar_mult (/ ang) L) by (cbn; f_equal; unfold Rdiv; ring).
        apply is_lim_scal_l. apply (is_lim_comp (fun X => RInt h 0 X) (fun X => X / ang) p_infty L p_infty); [exact HL| |exists 0; intros; discriminate].
        apply (is_lim_ext (fun X => / ang * X)); [intros; unfold Rdiv; ring|].
        apply is_lim_spec. intros M. exists (M * ang). intros y Hy. apply (Rmult_lt_reg_r ang); [exact Ha|].
        replace (/ ang * y * ang) with y by (field; lra). exact Hy. }
  rewrite E. field. repeat split; lra.
Qed.

(** a potential bounded and falling like k^-4 has a transform *)
Lemma transform_exists (F : R -> R) r C : (forall k, continuous F k) -> 0 <= C ->
  (forall k, 0 <= k -> Rabs (F k) <= C / (1 + k ^ 2) ^ 2) ->
  exists L, is_lim (fun X => RInt (fun k => F k * (sin (k * r) * k)) 0 X) p_infty (Finite L) /\ Rabs L <= C / 2.
Proof.
  intros Hc HC HF. set (h := fun k => F k * (sin (k * r) * k)).
  assert (Ch : forall k, continuous h k).
  { intros k. unfold h. apply (continuous_mult (K := R_AbsRing)); [apply Hc|].
    apply (ex_derive_continuous (V := R_NormedModule)). auto_derive. exact I. }
  assert (B : forall k, 0 <= k -> Rabs (h k) <= C * k / (1 + k ^ 2) ^ 2).
  { intros k Hk. unfold h. rewrite !Rabs_mult, (Rabs_pos_eq k Hk). specialize (HF k Hk). pose proof (sin_abs_1 (k * r)) as S1.
    pose proof (Rabs_pos (F k)). pose proof (Rabs_pos (sin (k * r))).
    apply Rle_trans with (Rabs (F k) * (1 * k)); [apply Rmult_le_compat_l; [assumption|]; now apply Rmult_le_compat_r|].
    rewrite Rmult_1_l. apply Rle_trans with (C / (1 + k ^ 2) ^ 2 * k); [now apply Rmult_le_compat_r|]. right. unfold Rdiv. ring. }
  destruct (dominated_lim h C 0 Ch) as [L HL].
  { intros k Hk. apply Rle_trans with (1 := B k Hk). rewrite Rminus_0_r. pose proof (pow2_ge_0 k) as K2.
    unfold Rdiv. rewrite Rmult_assoc. apply Rmult_le_compat_l; [exact HC|].
    apply (Rmult_le_reg_r ((1 + k ^ 2) ^ 2)); [apply pow_lt; lra|].
    replace (k * / (1 + k ^ 2) ^ 2 * (1 + k ^ 2) ^ 2) with k by (field; lra).
    replace (/ (1 + k ^ 2) * (1 + k ^ 2) ^ 2) with (1 + k ^ 2) by (field; lra). pose proof (pow2_ge_0 (k - 1)). nra. }
  exists L. split; [exact HL|].
  apply (abs_bound h (fun k => C * k / (1 + k ^ 2) ^ 2) (C / 2) L Ch); [|exact B|intros; now apply tail_int|exact HL].
  intros k. apply (ex_derive_continuous (V := R_NormedModule)). auto_derive. pose proof (pow2_ge_0 k) as K2.
  assert (0 < (1 + k ^ 2) ^ 2) as D by (apply pow_lt; lra). cbn in D. lra.
Qed.
(** bound at every distance from an integrable bound of k^2 F *)
Lemma transform_contact (F g : R -> R) r B L : 0 < r -> (forall k, continuous F k) -> (forall k, continuous g k) ->
  (forall k, 0 <= k -> k ^ 2 * Rabs (F k) <= g k) -> (forall X, 0 <= X -> RInt g 0 X <= B) ->
  is_lim (fun X => RInt (fun k => F k * (sin (k * r) * k)) 0 X) p_infty (Finite L) -> Rabs L <= r * B.
Proof.
  intros Hr Hc Hg HF HB HL.
  apply (abs_bound (fun k => F k * (sin (k * r) * k)) (fun k => r * g k)).
  - intros k. apply (continuous_mult (K := R_AbsRing)); [apply Hc|].
    apply (ex_derive_continuous (V := R_NormedModule)). auto_derive. exact I.
  - intros k. apply (continuous_scal_r (K := R_AbsRing) (V := R_NormedModule)). apply Hg.
  - intros k Hk. rewrite !Rabs_mult, (Rabs_pos_eq k Hk). specialize (HF k Hk).
    pose proof (sin_abs_le (k * r) (Rmult_le_pos _ _ Hk (Rlt_le _ _ Hr))) as S1. pose proof (Rabs_pos (F k)) as F0.
    apply Rle_trans with (Rabs (F k) * (k * r * k)); [apply Rmult_le_compat_l; [exact F0|]; now apply Rmult_le_compat_r|].
    replace (Rabs (F k) * (k * r * k)) with (r * (k ^ 2 * Rabs (F k))) by ring. apply Rmult_le_compat_l; lra.
  - intros X HX. apply Rle_trans with (r * RInt g 0 X); [right; exact (RInt_scal (V := R_CompleteNormedModule) g 0 X r (Int_ex _ _ _ Hg))|].
    apply Rmult_le_compat_l; [lra|now apply HB].
  - exact HL.
Qed.

(** ** The potentials at equal temperatures *)
Section Screened.
  Variables (x y lee lii A bb : R).
  Hypotheses (Hx : 0 < x) (Hy : 0 < y) (Hle : 0 < lee) (Hli : 0 < lii) (HA : 0 < A) (Hb : 0 < bb).
  Definition fa (l k : R) : R := / (1 + k ^ 2 * l).
  Definition lm : R := (lee + lii) / 2.
  Definition fE (k : R) : R := exp (- k ^ 2 / (4 * bb)).
  Definition fd (k : R) : R := fa lee k * fa lii k * fa lm k ^ 2 * k ^ 2 * ((lee - lii) / 2) ^ 2.
  Definition den (k : R) : R := k ^ 2 + x * fa lee k + y * fa lii k + x * y * fd k + A * x * (k ^ 2 + y * fa lii k) * fE k.
  Definition F_ii (k : R) : R := y * (fa lii k + x * fd k + A * x * fa lii k * fE k) / den k.
  Definition F_ee (k : R) : R := x * (fa lee k + y * fd k + A * (k ^ 2 + y * fa lii k) * fE k) / den k.
  Definition F_ei (k : R) : R := fa lm k / den k.

  Lemma lm_pos : 0 < lm. Proof. unfold lm. lra. Qed.
  Lemma fa_den l k : 0 < l -> 0 < 1 + k ^ 2 * l.
  Proof. intros H. pose proof (Rmult_le_pos _ _ (pow2_ge_0 k) (Rlt_le _ _ H)). lra. Qed.
  Lemma fa_pos l k : 0 < l -> 0 < fa l k.
  Proof. intros. now apply Rinv_0_lt_compat, fa_den. Qed.
  Lemma fa_cont l k : 0 < l -> continuous (fa l) k.
  Proof.
    intros H. apply (ex_derive_continuous (V := R_NormedModule)). unfold fa. auto_derive. pose proof (fa_den l k H) as D. cbn in D. lra.
  Qed.
  Lemma fE_pos k : 0 < fE k. Proof. apply exp_pos. Qed.
  Lemma fE_cont k : continuous fE k.
  Proof. apply (ex_derive_continuous (V := R_NormedModule)). unfold fE. auto_derive. lra. Qed.
  Lemma fd_nonneg k : 0 <= fd k.
  Proof.
    unfold fd. pose proof (fa_pos lee k Hle). pose proof (fa_pos lii k Hli).
    repeat (apply Rmult_le_pos; [|apply pow2_ge_0]). apply Rmult_le_pos; lra.
  Qed.
  (** what the screening determinant leaves *)
  Lemma fd_eq k : k ^ 2 * fd k = fa lee k * fa lii k - fa lm k ^ 2.
  Proof.
    pose proof (fa_den lee k Hle). pose proof (fa_den lii k Hli). pose proof (fa_den lm k lm_pos) as H3. unfold fd, fa, lm in *. field.
    repeat split; lra.
  Qed.
  Lemma den_pos' k : 0 < den k.
  Proof.
    unfold den. pose proof (fa_pos lee k Hle). pose proof (fa_pos lii k Hli). pose proof (fd_nonneg k). pose proof (fE_pos k). pose proof (pow2_ge_0 k).
    assert (0 < x * fa lee k) by (now apply Rmult_lt_0_compat). assert (0 < y * fa lii k) by (now apply Rmult_lt_0_compat).
    assert (0 <= x * y * fd k) by (apply Rmult_le_pos; [left; now apply Rmult_lt_0_compat|assumption]).
    assert (0 <= A * x * (k ^ 2 + y * fa lii k) * fE k).
    { apply Rmult_le_pos; [|lra]. apply Rmult_le_pos; [left; now apply Rmult_lt_0_compat|lra]. }
    lra.
  Qed.
  Ltac cont k := apply (ex_derive_continuous (V := R_NormedModule)); unfold den, fd, fa, fE;
    pose proof (fa_den lee k Hle) as D1; pose proof (fa_den lii k Hli) as D2; pose proof (fa_den lm k lm_pos) as D3; cbn in D1, D2, D3;
    auto_derive; repeat split; try exact I; lra.
  Lemma den_cont k : continuous den k.
  Proof. cont k. Qed.
  Lemma div_cont (N : R -> R) k : continuous N k -> continuous (fun k => N k / den k) k.
  Proof.
    intros H. apply (continuous_mult (K := R_AbsRing)); [exact H|]. apply (continuous_comp den Rinv); [apply den_cont|].
    apply continuous_Rinv. apply Rgt_not_eq, den_pos'.
  Qed.
  Lemma F_ii_cont k : continuous F_ii k.
  Proof. unfold F_ii. apply div_cont. cont k. Qed.
  Lemma F_ee_cont k : continuous F_ee k.
  Proof. unfold F_ee. apply div_cont. cont k. Qed.
  Lemma F_ei_cont k : continuous F_ei k.
  Proof. unfold F_ei. apply div_cont. cont k. Qed.

  Lemma quot_le (n d m : R) : 0 < d -> n <= m * d -> n / d <= m.
  Proof. intros H L. apply (Rmult_le_reg_r d); [exact H|]. replace (n / d * d) with n by (field; lra). exact L. Qed.
  Lemma F_ii_bounds k : 0 <= F_ii k <= 1 /\ k ^ 2 * F_ii k <= y / (1 + k ^ 2 * lii).
  Proof.
    pose proof (den_pos' k) as HD. unfold F_ii.
    pose proof (fa_pos lee k Hle) as Pa. pose proof (fa_pos lii k Hli) as Pb. pose proof (fa_pos lm k lm_pos) as Pc.
    pose proof (fd_nonneg k) as Pd. pose proof (fE_pos k) as PE. pose proof (pow2_ge_0 k) as Pq. pose proof (fd_eq k) as Ed.
    replace (y / (1 + k ^ 2 * lii)) with (y * fa lii k) by reflexivity. unfold den in *.
    set (a := fa lee k) in *. set (b := fa lii k) in *. set (c := fa lm k) in *. set (d := fd k) in *. set (e := fE k) in *. set (q := k ^ 2) in *.
    clearbody a b c d e q.
    assert (0 <= x * d) by (apply Rmult_le_pos; lra). assert (0 < x * a) by (now apply Rmult_lt_0_compat). assert (0 < y * b) by (now apply Rmult_lt_0_compat).
    assert (0 < A * x) by (now apply Rmult_lt_0_compat). assert (0 < A * x * b * e) by pos. assert (0 <= A * x * q * e) by (apply Rmult_le_pos; [apply Rmult_le_pos; lra|lra]).
    assert (0 <= y * (b + x * d + A * x * b * e)) by (apply Rmult_le_pos; lra).
    split; [split|].
    - apply Rmult_le_pos; [assumption|left; now apply Rinv_0_lt_compat].
    - apply quot_le; [exact HD|]. lra.
    - unfold Rdiv. rewrite <- Rmult_assoc. apply quot_le; [exact HD|].
      assert (E : y * b * (q + x * a + y * b + x * y * d + A * x * (q + y * b) * e) - q * (y * (b + x * d + A * x * b * e)) =
        y * (x * (a * b - q * d) + b * (y * b) + b * (x * y * d) + b * (A * x * (y * b) * e))) by ring.
      rewrite Ed in E. replace (a * b - (a * b - c ^ 2)) with (c ^ 2) in E by ring.
      assert (0 <= x * c ^ 2) by (apply Rmult_le_pos; [lra|apply pow2_ge_0]).
      assert (0 < b * (y * b)) by (now apply Rmult_lt_0_compat).
      assert (0 <= b * (x * y * d)) by (apply Rmult_le_pos; [lra|]; replace (x * y * d) with (y * (x * d)) by ring; apply Rmult_le_pos; lra).
      assert (0 < b * (A * x * (y * b) * e)) by pos.
      assert (0 <= y * (x * c ^ 2 + b * (y * b) + b * (x * y * d) + b * (A * x * (y * b) * e))) by (apply Rmult_le_pos; lra). lra.
  Qed.
  Lemma F_ee_bounds k : 0 <= F_ee k <= 1 /\ k ^ 2 * F_ee k <= x / (1 + k ^ 2 * lee) + A * x * k ^ 2 * fE k.
  Proof.
    pose proof (den_pos' k) as HD. unfold F_ee.
    pose proof (fa_pos lee k Hle) as Pa. pose proof (fa_pos lii k Hli) as Pb. pose proof (fa_pos lm k lm_pos) as Pc.
    pose proof (fd_nonneg k) as Pd. pose proof (fE_pos k) as PE. pose proof (pow2_ge_0 k) as Pq. pose proof (fd_eq k) as Ed.
    replace (x / (1 + k ^ 2 * lee)) with (x * fa lee k) by reflexivity. unfold den in *.
    set (a := fa lee k) in *. set (b := fa lii k) in *. set (c := fa lm k) in *. set (d := fd k) in *. set (e := fE k) in *. set (q := k ^ 2) in *.
    clearbody a b c d e q.
    assert (0 <= y * d) by (apply Rmult_le_pos; lra). assert (0 < x * a) by (now apply Rmult_lt_0_compat). assert (0 < y * b) by (now apply Rmult_lt_0_compat).
    assert (0 < A * x) by (now apply Rmult_lt_0_compat). assert (0 <= A * (q + y * b) * e) by (apply Rmult_le_pos; [apply Rmult_le_pos; lra|lra]).
    assert (0 <= x * (a + y * d + A * (q + y * b) * e)) by (apply Rmult_le_pos; lra).
    assert (0 <= A * q * e) by (apply Rmult_le_pos; [apply Rmult_le_pos; lra|lra]).
    split; [split|].
    - apply Rmult_le_pos; [assumption|left; now apply Rinv_0_lt_compat].
    - apply quot_le; [exact HD|]. lra.
    - unfold Rdiv. rewrite <- Rmult_assoc. apply quot_le; [exact HD|].
      assert (E : (x * a + A * x * q * e) * (q + x * a + y * b + x * y * d + A * x * (q + y * b) * e) - q * (x * (a + y * d + A * (q + y * b) * e)) =
        x * ((a + A * q * e) * (x * a + x * (y * d) + x * (A * (q + y * b) * e)) + y * (a * b - q * d))) by ring.
      rewrite Ed in E. replace (a * b - (a * b - c ^ 2)) with (c ^ 2) in E by ring.
      assert (0 <= y * c ^ 2) by (apply Rmult_le_pos; [lra|apply pow2_ge_0]).
      assert (0 <= x * (y * d)) by (apply Rmult_le_pos; lra). assert (0 <= x * (A * (q + y * b) * e)) by (apply Rmult_le_pos; lra).
      assert (0 <= (a + A * q * e) * (x * a + x * (y * d) + x * (A * (q + y * b) * e))) by (apply Rmult_le_pos; lra).
      assert (0 <= x * ((a + A * q * e) * (x * a + x * (y * d) + x * (A * (q + y * b) * e)) + y * c ^ 2)) by (apply Rmult_le_pos; lra). lra.
  Qed.
  Lemma F_ei_bounds k : 0 <= F_ei k <= 2 / x /\ k ^ 2 * F_ei k <= 1 / (1 + k ^ 2 * lm).
  Proof.
    pose proof (den_pos' k) as HD. unfold F_ei.
    pose proof (fa_pos lee k Hle) as Pa. pose proof (fa_pos lii k Hli) as Pb. pose proof (fa_pos lm k lm_pos) as Pc.
    pose proof (fd_nonneg k) as Pd. pose proof (fE_pos k) as PE. pose proof (pow2_ge_0 k) as Pq.
    assert (Hac : fa lm k <= 2 * fa lee k).
    { unfold fa. apply (Rmult_le_reg_r ((1 + k ^ 2 * lm) * (1 + k ^ 2 * lee))); [apply Rmult_lt_0_compat; apply fa_den; [apply lm_pos|exact Hle]|].
      pose proof (fa_den lm k lm_pos). pose proof (fa_den lee k Hle). field_simplify; [|lra|lra]. unfold lm.
      assert (0 <= k ^ 2 * lii) by (apply Rmult_le_pos; lra). lra. }
    replace (1 / (1 + k ^ 2 * lm)) with (fa lm k) by (unfold fa, Rdiv; ring). unfold den in *.
    set (a := fa lee k) in *. set (b := fa lii k) in *. set (c := fa lm k) in *. set (d := fd k) in *. set (e := fE k) in *. set (q := k ^ 2) in *.
    clearbody a b c d e q.
    assert (0 <= x * y * d) by (apply Rmult_le_pos; [left; now apply Rmult_lt_0_compat|assumption]).
    assert (0 < x * a) by (now apply Rmult_lt_0_compat). assert (0 < y * b) by (now apply Rmult_lt_0_compat).
    assert (0 < A * x) by (now apply Rmult_lt_0_compat). assert (0 <= A * x * (q + y * b) * e) by (apply Rmult_le_pos; [apply Rmult_le_pos; lra|lra]).
    split; [split|].
    - apply Rmult_le_pos; [lra|left; now apply Rinv_0_lt_compat].
    - apply quot_le; [exact HD|]. apply Rle_trans with (2 * a); [exact Hac|].
      replace (2 * a) with (2 / x * (x * a)) by (field; lra). apply Rmult_le_compat_l; [left; apply Rdiv_lt_0_compat; lra|lra].
    - unfold Rdiv. rewrite <- Rmult_assoc. apply quot_le; [exact HD|].
      replace (q * c) with (c * q) by ring. apply Rmult_le_compat_l; lra.
  Qed.

  Lemma quartic F M0 M1 k : 0 <= F <= M0 -> k ^ 2 * (k ^ 2 * F) <= M1 -> F <= 2 * (M0 + M1) / (1 + k ^ 2) ^ 2.
  Proof.
    intros H0 H1. pose proof (pow2_ge_0 k) as Hq. apply (Rmult_le_reg_r ((1 + k ^ 2) ^ 2)); [apply pow_lt; lra|].
    replace (2 * (M0 + M1) / (1 + k ^ 2) ^ 2 * (1 + k ^ 2) ^ 2) with (2 * (M0 + M1)) by (field; lra). set (q := k ^ 2) in *. clearbody q.
    pose proof (Rmult_le_pos _ _ (proj1 H0) (pow2_ge_0 (1 - q))). replace (F * (1 + q) ^ 2) with (2 * F + 2 * (q * (q * F)) - F * (1 - q) ^ 2) by ring. lra.
  Qed.
  Lemma lor_le M l k : 0 <= M -> 0 < l -> k ^ 2 * (M / (1 + k ^ 2 * l)) <= M / l.
  Proof.
    intros HM Hl. pose proof (fa_den l k Hl) as D. unfold Rdiv. rewrite (Rmult_comm M), <- Rmult_assoc, (Rmult_comm _ M). apply Rmult_le_compat_l; [exact HM|].
    apply (Rmult_le_reg_r ((1 + k ^ 2 * l) * l)); [now apply Rmult_lt_0_compat|]. field_simplify; [|lra|lra]. pose proof (pow2_ge_0 k). nra.
  Qed.
End Screened.
