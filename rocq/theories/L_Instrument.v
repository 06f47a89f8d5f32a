From Coq Require Import Reals List Arith Lra Lia Psatz.
From Coquelicot Require Import Coquelicot.
From Verif Require Import M_Interp L_Interp L_Gauss M_Instrument.
From Verif Require M_Setup L_Setup.
Import ListNotations.
Open Scope R_scope.

Definition area (f : R -> R) (v : R) : Prop :=
  is_RInt_gen f (Rbar_locally m_infty) (Rbar_locally p_infty) v.

Lemma gen_prim (Fa Fb : (R -> Prop) -> Prop) (FFa : Filter Fa) (FFb : Filter Fb) F f a b :
  (forall x, is_derive F x (f x)) -> (forall x, continuous f x) ->
  filterlim F Fa (locally a) -> filterlim F Fb (locally b) -> is_RInt_gen f Fa Fb (b - a).
Proof.
  intros HD HC La Lb.
  assert (E : forall x, Derive F x = f x) by (intros; apply is_derive_unique, HD).
  apply (is_RInt_gen_ext (Derive F) f).
  - apply filter_forall. intros ab x _. apply E.
  - apply is_RInt_gen_Derive; try assumption.
    + apply filter_forall. intros ab x _. eexists. apply HD.
    + apply filter_forall. intros ab x _. apply (continuous_ext f); [intros; symmetry; apply E|apply HC].
Qed.

(** ** Limits *)
Lemma lim_scale_p c : 0 < c -> is_lim (fun x => x * c) p_infty p_infty.
Proof.
  intros H. replace p_infty with (Rbar_mult p_infty c) at 2.
  - apply (is_lim_mult (fun x => x) (fun _ => c) p_infty p_infty c); [apply is_lim_id|apply is_lim_const|].
    cbn. lra.
  - cbn. destruct (Rle_dec 0 c); [|lra]. destruct (Rle_lt_or_eq_dec 0 c r); [reflexivity|lra].
Qed.
Lemma lim_odd F l : (forall x, F (- x) = - F x) -> is_lim F p_infty (Finite l) -> is_lim F m_infty (Finite (- l)).
Proof.
  intros Ho H. apply (is_lim_ext (fun x => - F (- x))).
  - intros y. rewrite Ho. ring.
  - apply (is_lim_opp (fun x => F (- x)) m_infty l).
    apply (is_lim_comp F Ropp m_infty l p_infty); [assumption| |].
    + replace p_infty with (Rbar_opp m_infty) by reflexivity. apply (is_lim_opp (fun x => x)), is_lim_id.
    + exists 0. intros y _. discriminate.
Qed.
Lemma lim_comp_scale F l c : 0 < c -> is_lim F p_infty (Finite l) -> is_lim (fun x => F (x * c)) p_infty (Finite l).
Proof.
  intros Hc H. apply (is_lim_comp F (fun x => x * c) p_infty l p_infty); [assumption|now apply lim_scale_p|].
  exists 0. intros y _. discriminate.
Qed.
Lemma atan_lim : is_lim atan p_infty (PI / 2).
Proof.
  apply (is_lim_ext_loc (fun x => PI / 2 - atan (/ x))).
  - exists 0. intros y Hy. rewrite atan_inv by assumption. ring.
  - replace (Finite (PI / 2)) with (Finite (PI / 2 - atan 0)) by (rewrite atan_0; f_equal; ring).
    apply (is_lim_minus (fun _ => PI / 2) (fun x => atan (/ x)) p_infty (PI / 2) (atan 0)); [apply is_lim_const| |reflexivity].
    apply (is_lim_comp_continuous (fun x => / x) atan p_infty 0).
    + replace (Finite 0) with (Rbar_inv p_infty) by reflexivity.
      apply (is_lim_inv (fun x => x)); [apply is_lim_id|discriminate].
    + apply continuity_pt_filterlim, derivable_continuous_pt. exists (/ (1 + 0 ^ 2)). apply derivable_pt_lim_atan.
Qed.
Lemma FF_odd x : FF (- x) = - FF x.
Proof.
  unfold FF. transitivity (RInt (fun t => (-1) * gf (-1 * t + 0)) 0 x).
  - pose proof (RInt_comp_lin (V := R_CompleteNormedModule) gf (-1) 0 0 x (gf_int _ _)) as H.
    replace (-1 * 0 + 0) with 0 in H by ring. replace (-1 * x + 0) with (- x) in H by ring. symmetry. exact H.
  - rewrite (RInt_ext _ (fun t => opp (gf t))).
    + rewrite (RInt_opp (V := R_CompleteNormedModule)); [reflexivity|apply gf_int].
    + intros t _. change (-1 * gf (-1 * t + 0) = - gf t). unfold gf. replace (- (-1 * t + 0) ^ 2) with (- t ^ 2) by ring. ring.
Qed.

(** ** Gaussian *)
Definition prim (sigma x : R) : R := / sqrt PI * FF (x * / (sigma * sqrt 2)).
Lemma sqrt2pi : sqrt (2 * PI) = sqrt 2 * sqrt PI.
Proof. pose proof PI_RGT_0. apply sqrt_mult; lra. Qed.
Lemma prim_derive sigma x : 0 < sigma -> is_derive (prim sigma) x (instrument_gaussian x sigma).
Proof.
  intros Hs. pose proof PI_RGT_0 as HP. pose proof (sqrt_lt_R0 PI ltac:(lra)) as H1. pose proof (sqrt_lt_R0 2 ltac:(lra)) as H2.
  unfold prim. set (c := / (sigma * sqrt 2)).
  replace (instrument_gaussian x sigma) with (/ sqrt PI * (c * gf (x * c))).
  - apply (is_derive_scal (fun x => FF (x * c)) x (/ sqrt PI)).
    apply (is_derive_comp FF (fun x => x * c)); [apply FF_derive|]. auto_derive; [exact I|ring].
  - unfold instrument_gaussian, gf, c. rewrite sqrt2pi.
    replace (- (x * / (sigma * sqrt 2)) ^ 2) with (- (1 / 2) * x ^ 2 / sigma ^ 2).
    + field. repeat split; lra.
    + replace ((x * / (sigma * sqrt 2)) ^ 2) with (x ^ 2 / (sigma ^ 2 * (sqrt 2 * sqrt 2))) by (field; split; lra).
      rewrite sqrt_sqrt by lra. field. lra.
Qed.
Lemma gaussian_cont sigma x : continuous (fun y => instrument_gaussian y sigma) x.
Proof.
  apply (ex_derive_continuous (V := R_NormedModule)). unfold instrument_gaussian. auto_derive. exact I.
Qed.
Lemma prim_lim sigma : 0 < sigma -> is_lim (prim sigma) p_infty (1 / 2).
Proof.
  intros Hs. pose proof PI_RGT_0 as HP. pose proof (sqrt_lt_R0 PI ltac:(lra)) as H1. pose proof (sqrt_lt_R0 2 ltac:(lra)) as H2.
  unfold prim. replace (Finite (1 / 2)) with (Rbar_mult (/ sqrt PI) (sqrt PI / 2)) by (cbn; f_equal; field; lra).
  apply is_lim_scal_l. apply lim_comp_scale; [|apply gauss_half]. apply Rinv_0_lt_compat, Rmult_lt_0_compat; assumption.
Qed.
Lemma prim_odd sigma x : prim sigma (- x) = - prim sigma x.
Proof. unfold prim. replace (- x * / (sigma * sqrt 2)) with (- (x * / (sigma * sqrt 2))) by ring. rewrite FF_odd. ring. Qed.
Lemma prim_0 sigma : prim sigma 0 = 0.
Proof. pose proof (prim_odd sigma 0) as H. rewrite Ropp_0 in H. lra. Qed.
Lemma gaussian_area sigma : 0 < sigma -> area (fun x => instrument_gaussian x sigma) 1.
Proof.
  intros Hs. unfold area. replace 1 with (1 / 2 - - (1 / 2)) by lra.
  apply (gen_prim _ _ _ _ (prim sigma)).
  - intros. now apply prim_derive.
  - intros. apply gaussian_cont.
  - apply (lim_odd (prim sigma) (1 / 2)); [apply prim_odd|now apply prim_lim].
  - now apply prim_lim.
Qed.
Lemma gaussian_half_right sigma : 0 < sigma ->
  is_RInt_gen (fun x => instrument_gaussian x sigma) (at_point 0) (Rbar_locally p_infty) (1 / 2).
Proof.
  intros Hs. replace (1 / 2) with (1 / 2 - prim sigma 0) by (rewrite prim_0; ring).
  apply (gen_prim _ _ _ _ (prim sigma)).
  - intros. now apply prim_derive.
  - intros. apply gaussian_cont.
  - intros P HP. unfold filtermap, at_point. now apply locally_singleton.
  - now apply prim_lim.
Qed.
Lemma gaussian_half_left sigma : 0 < sigma ->
  is_RInt_gen (fun x => instrument_gaussian x sigma) (Rbar_locally m_infty) (at_point 0) (1 / 2).
Proof.
  intros Hs. replace (1 / 2) with (prim sigma 0 - - (1 / 2)) by (rewrite prim_0; ring).
  apply (gen_prim _ _ _ _ (prim sigma)).
  - intros. now apply prim_derive.
  - intros. apply gaussian_cont.
  - apply (lim_odd (prim sigma) (1 / 2)); [apply prim_odd|now apply prim_lim].
  - intros P HP. unfold filtermap, at_point. now apply locally_singleton.
Qed.
Lemma ln2_pos : 0 < ln 2.
Proof. rewrite <- ln_1. apply ln_increasing; lra. Qed.
Lemma gaussian_shape sigma : 0 < sigma ->
  (forall x, 0 < instrument_gaussian x sigma) /\
  (forall x, instrument_gaussian (- x) sigma = instrument_gaussian x sigma) /\
  (forall x y, 0 <= x < y -> instrument_gaussian y sigma < instrument_gaussian x sigma) /\
  instrument_gaussian (fwhm_of_sigma sigma / 2) sigma = instrument_gaussian 0 sigma / 2.
Proof.
  intros Hs. pose proof PI_RGT_0. assert (Hn : 0 < 1 / (sigma * sqrt (2 * PI))).
  { apply Rdiv_lt_0_compat; [lra|]. apply Rmult_lt_0_compat; [assumption|]. apply sqrt_lt_R0. lra. }
  unfold instrument_gaussian. split; [|split; [|split]].
  - intros x. apply Rmult_lt_0_compat; [assumption|apply exp_pos].
  - intros x. replace ((- x) ^ 2) with (x ^ 2) by ring. reflexivity.
  - intros x y Hxy. apply Rmult_lt_compat_l; [assumption|]. apply exp_increasing. unfold Rdiv.
    apply Rmult_lt_compat_r; [apply Rinv_0_lt_compat, pow_lt; assumption|]. nra.
  - unfold fwhm_of_sigma. unfold Rdiv at 5. rewrite Rmult_assoc. f_equal.
    replace (- (1 / 2) * 0 ^ 2 / sigma ^ 2) with 0 by (field; lra). rewrite exp_0.
    replace (- (1 / 2) * (sigma * (2 * sqrt (2 * ln 2)) / 2) ^ 2 / sigma ^ 2) with (- (1 / 2) * (sqrt (2 * ln 2) * sqrt (2 * ln 2))) by (field; lra).
    rewrite sqrt_sqrt by (pose proof ln2_pos; lra).
    replace (- (1 / 2) * (2 * ln 2)) with (- ln 2) by lra. rewrite exp_Ropp, exp_ln by lra. lra.
Qed.
Lemma fwhm_sigma x : sigma_of_fwhm (fwhm_of_sigma x) = x /\ fwhm_of_sigma (sigma_of_fwhm x) = x.
Proof.
  unfold sigma_of_fwhm, fwhm_of_sigma. assert (0 < sqrt (2 * ln 2)) by (apply sqrt_lt_R0; pose proof ln2_pos; lra).
  split; field; lra.
Qed.

(** ** Twin Gaussian *)
Lemma norm_eq sigma : 0 < sigma -> sqrt (2 * PI * sigma ^ 2) = sigma * sqrt (2 * PI).
Proof.
  intros Hs. pose proof PI_RGT_0. rewrite sqrt_mult; [|lra|apply pow2_ge_0]. rewrite sqrt_pow2 by lra. ring.
Qed.
Lemma twin_area s1 s2 : 0 < s1 -> 0 < s2 -> area (twin_gaussian s1 s2) 1.
Proof.
  intros H1 H2. pose proof PI_RGT_0 as HP. pose proof (sqrt_lt_R0 (2 * PI) ltac:(lra)) as Hq. unfold area.
  set (D := 1 / 2 * sqrt (2 * PI * s1 ^ 2) + 1 / 2 * sqrt (2 * PI * s2 ^ 2)).
  assert (HD : D = (s1 + s2) * sqrt (2 * PI) / 2) by (unfold D; rewrite !norm_eq by assumption; field).
  assert (HDp : 0 < D) by (rewrite HD; apply Rdiv_lt_0_compat; [apply Rmult_lt_0_compat; lra|lra]).
  replace 1 with ((s1 * sqrt (2 * PI) / D) * (1 / 2) + (s2 * sqrt (2 * PI) / D) * (1 / 2)) at 1.
  2:{ rewrite HD. field. split; lra. }
  assert (TW1 : forall x, x < 0 -> twin_gaussian s1 s2 x = s1 * sqrt (2 * PI) / D * instrument_gaussian x s1).
  { intros x Hx. unfold twin_gaussian. fold D. destruct (Rlt_dec x 0); [|lra]. rewrite norm_eq by assumption. field. lra. }
  assert (TW2 : forall x, 0 <= x -> twin_gaussian s1 s2 x = s2 * sqrt (2 * PI) / D * instrument_gaussian x s2).
  { intros x Hx. unfold twin_gaussian. fold D. destruct (Rlt_dec x 0); [lra|]. rewrite norm_eq by assumption. field. lra. }
  apply (is_RInt_gen_Chasles (V := R_NormedModule) _ 0 (s1 * sqrt (2 * PI) / D * (1 / 2)) (s2 * sqrt (2 * PI) / D * (1 / 2))).
  - apply (is_RInt_gen_ext (V := R_NormedModule) (fun x => (s1 * sqrt (2 * PI) / D) * (instrument_gaussian x s1))).
    + exists (fun a => a < 0) (fun b => b = 0); [exists 0; auto|reflexivity|].
      intros a b Ha -> x. cbn [fst snd]. rewrite Rmin_left, Rmax_right by lra. intros Hx.
      symmetry. apply TW1. lra.
    + apply (is_RInt_gen_scal (V := R_NormedModule) (fun x => instrument_gaussian x s1) _ (1 / 2)). now apply gaussian_half_left.
  - apply (is_RInt_gen_ext (V := R_NormedModule) (fun x => (s2 * sqrt (2 * PI) / D) * (instrument_gaussian x s2))).
    + exists (fun a => a = 0) (fun b => 0 < b); [reflexivity|exists 0; auto|].
      intros a b -> Hb x. cbn [fst snd]. rewrite Rmin_left, Rmax_right by lra. intros Hx.
      symmetry. apply TW2. lra.
    + apply (is_RInt_gen_scal (V := R_NormedModule) (fun x => instrument_gaussian x s2) _ (1 / 2)). now apply gaussian_half_right.
Qed.
Lemma twin_same s x : 0 < s -> twin_gaussian s s x = instrument_gaussian x s.
Proof.
  intros H. pose proof PI_RGT_0 as HP. pose proof (sqrt_lt_R0 (2 * PI) ltac:(lra)) as Hq.
  unfold twin_gaussian. rewrite norm_eq by assumption. assert (Hn : 0 < s * sqrt (2 * PI)) by (apply Rmult_lt_0_compat; assumption).
  set (q := s * sqrt (2 * PI)) in *. destruct (Rlt_dec x 0); field; lra.
Qed.
(** half of its peak half a full width away, on either side *)
Lemma twin_half s1 s2 : 0 < s1 -> 0 < s2 ->
  twin_gaussian s1 s2 (- (fwhm_of_sigma s1 / 2)) = twin_gaussian s1 s2 0 / 2 /\
  twin_gaussian s1 s2 (fwhm_of_sigma s2 / 2) = twin_gaussian s1 s2 0 / 2.
Proof.
  intros H1 H2. pose proof PI_RGT_0 as HP. pose proof (sqrt_lt_R0 (2 * PI) ltac:(lra)) as Hq.
  assert (Hf : forall s, 0 < s -> 0 < fwhm_of_sigma s).
  { intros s Hs. unfold fwhm_of_sigma. apply Rmult_lt_0_compat; [assumption|]. apply Rmult_lt_0_compat; [lra|].
    apply sqrt_lt_R0. pose proof ln2_pos. lra. }
  assert (Hpk : forall s, 0 < s -> instrument_gaussian 0 s * (s * sqrt (2 * PI)) = 1).
  { intros s Hs. unfold instrument_gaussian. replace (- (1 / 2) * 0 ^ 2 / s ^ 2) with 0 by (field; lra). rewrite exp_0. field. lra. }
  destruct (gaussian_shape s1 H1) as (_ & E1 & _ & F1). destruct (gaussian_shape s2 H2) as (_ & E2 & _ & F2).
  unfold twin_gaussian. rewrite !norm_eq by assumption. set (D := _ + _).
  pose proof (Hf s1 H1). pose proof (Hf s2 H2).
  destruct (Rlt_dec (- (fwhm_of_sigma s1 / 2)) 0); [|lra]. destruct (Rlt_dec 0 0); [lra|].
  destruct (Rlt_dec (fwhm_of_sigma s2 / 2) 0); [lra|]. rewrite E1, F1, F2.
  pose proof (Hpk s1 H1) as K1. pose proof (Hpk s2 H2) as K2. split.
  - transitivity ((instrument_gaussian 0 s1 * (s1 * sqrt (2 * PI))) / 2 / D); [unfold Rdiv; ring|]. rewrite K1, K2. unfold Rdiv; ring.
  - unfold Rdiv; ring.
Qed.

(** ** Lorentzian *)
Lemma lorentz_area g : 0 < g -> area (fun x => instrument_lorentzian x g) 1.
Proof.
  intros Hg. pose proof PI_RGT_0 as HP. unfold area. replace 1 with (1 / 2 - - (1 / 2)) by lra.
  set (F := fun x => / PI * atan (x * / g)).
  assert (HL : is_lim F p_infty (1 / 2)).
  { unfold F. replace (Finite (1 / 2)) with (Rbar_mult (/ PI) (PI / 2)) by (cbn; f_equal; field; lra).
    apply is_lim_scal_l. apply lim_comp_scale; [now apply Rinv_0_lt_compat|apply atan_lim]. }
  assert (HD : forall x, 0 < 1 + (x / g) ^ 2) by (intros x; pose proof (pow2_ge_0 (x / g)); lra).
  apply (gen_prim _ _ _ _ F).
  - intros x. unfold F. replace (instrument_lorentzian x g) with (/ PI * (/ g * / (1 + (x * / g) ^ 2))).
    + apply (is_derive_scal (fun x => atan (x * / g)) x (/ PI)).
      apply (is_derive_comp atan (fun x => x * / g)); [|auto_derive; [exact I|ring]].
      apply is_derive_Reals. apply derivable_pt_lim_atan.
    + unfold instrument_lorentzian. pose proof (HD x) as H. unfold Rdiv in *. field. repeat split; try lra.
      replace (g ^ 2 + x ^ 2) with (g * g * (1 + (x * / g) ^ 2)) by (field; lra). nra.
  - intros x. apply (ex_derive_continuous (V := R_NormedModule)). unfold instrument_lorentzian. auto_derive.
    pose proof (HD x) as H. cbn in H. unfold Rdiv in H. apply Rgt_not_eq. apply Rmult_lt_0_compat; [nra|]. exact H.
  - apply (lim_odd F (1 / 2)); [|exact HL]. intros x. unfold F.
    replace (- x * / g) with (- (x * / g)) by ring. rewrite atan_opp. ring.
  - exact HL.
Qed.
Lemma lorentz_half g : 0 < g ->
  (forall x, 0 < instrument_lorentzian x g) /\
  (forall x, instrument_lorentzian (- x) g = instrument_lorentzian x g) /\
  (forall x y, 0 <= x < y -> instrument_lorentzian y g < instrument_lorentzian x g) /\
  instrument_lorentzian g g = instrument_lorentzian 0 g / 2.
Proof.
  intros Hg. pose proof PI_RGT_0 as HP. unfold instrument_lorentzian.
  assert (HD : forall x, 0 < PI * g * (1 + (x / g) ^ 2)).
  { intros x. pose proof (pow2_ge_0 (x / g)). apply Rmult_lt_0_compat; [nra|lra]. }
  split; [|split; [|split]].
  - intros x. apply Rdiv_lt_0_compat; [lra|apply HD].
  - intros x. replace (- x / g) with (- (x / g)) by (field; lra). replace ((- (x / g)) ^ 2) with ((x / g) ^ 2) by ring. reflexivity.
  - intros x y H. unfold Rdiv at 1 3. rewrite !Rmult_1_l. apply Rinv_lt_contravar; [apply Rmult_lt_0_compat; apply HD|].
    apply Rmult_lt_compat_l; [nra|]. apply Rplus_lt_compat_l.
    assert (0 <= x / g). { apply Rmult_le_pos; [lra|]. left. now apply Rinv_0_lt_compat. }
    assert (x / g < y / g). { unfold Rdiv. apply Rmult_lt_compat_r; [now apply Rinv_0_lt_compat|lra]. } nra.
  - replace (g / g) with 1 by (field; lra). replace (0 / g) with 0 by (field; lra). field. lra.
Qed.

(** ** Super-Gaussian *)
Lemma rpow_0 p : 0 < p -> rpow 0 p = 0.
Proof. intros H. unfold rpow. destruct (Req_EM_T 0 0); [|contradiction]. destruct (Req_EM_T p 0); [lra|reflexivity]. Qed.
Lemma rpow_pos x p : 0 < x -> rpow x p = Rpower x p.
Proof. intros H. unfold rpow. destruct (Req_EM_T x 0); [lra|reflexivity]. Qed.
Lemma exp_2_lt_1 : ln 2 < 1.
Proof.
  rewrite <- (ln_exp 1). apply ln_increasing; [lra|]. pose proof (exp_ineq1 1 ltac:(lra)). lra.
Qed.
Lemma linspace_length a b n : length (linspace a b n) = n.
Proof. unfold linspace. rewrite map_length. apply seq_length. Qed.
Lemma linspace_at a b n i : (i < n)%nat -> at_ (linspace a b n) i = a + INR i * ((b - a) / INR (n - 1)).
Proof.
  intros Hi. unfold linspace, at_. set (f := fun i => _).
  rewrite (nth_indep _ 0 (f O)) by (rewrite map_length, seq_length; assumption).
  rewrite (map_nth f), seq_nth by assumption. reflexivity.
Qed.
Lemma sg_grid_eq sigma : 0 < sigma -> sg_grid sigma = linspace (-10) 10 600.
Proof.
  intros Hs. unfold sg_grid, linspace. rewrite map_map. apply map_ext. intros i. 
  assert (INR (600 - 1) <> 0) by (apply not_0_INR; discriminate). field. split; [assumption|lra].
Qed.
Lemma linspace_increasing a b n : a < b -> (2 <= n)%nat -> increasing (linspace a b n).
Proof.
  intros Hab Hn i j [H1 H2]. rewrite linspace_length in H2. rewrite !linspace_at by lia.
  apply Rplus_lt_compat_l. apply Rmult_lt_compat_r; [|now apply lt_INR].
  apply Rdiv_lt_0_compat; [lra|]. apply lt_0_INR. lia.
Qed.
Lemma trapz_pos xs ys : increasing xs -> length xs = length ys -> (2 <= length xs)%nat -> (forall y, In y ys -> 0 < y) -> 0 < trapz xs ys.
Proof.
  intros Hs HL Hn Hy. destruct xs as [|x0 [|x1 xs]], ys as [|y0 [|y1 ys]]; cbn in HL, Hn; try discriminate; try lia.
  cbn [trapz]. assert (x0 < x1) by (apply (Hs 0%nat 1%nat); cbn; lia).
  assert (0 < y0) by (apply Hy; now left). assert (0 < y1) by (apply Hy; right; now left).
  assert (0 <= trapz (x1 :: xs) (y1 :: ys)).
  { apply trapz_nonneg; [apply incr_asc; intros i j Hij; apply (Hs (S i) (S j)); cbn in *; lia|]. intros y Hyy. left. apply Hy. now right. }
  assert (0 < (x1 - x0) * (y1 + y0)) by (apply Rmult_lt_0_compat; lra). cbn [trapz] in *. lra.
Qed.
Lemma sg_norm_pos sigma p : 0 < sigma -> 0 < sg_norm sigma p.
Proof.
  intros Hs. unfold sg_norm. rewrite sg_grid_eq by assumption. apply trapz_pos.
  - apply linspace_increasing; [lra|lia].
  - now rewrite map_length.
  - rewrite linspace_length. lia.
  - intros y Hy. apply in_map_iff in Hy as (x & <- & _). apply exp_pos.
Qed.
(** the trapezoidal sum on the scaled grid is one *)
Lemma trapz_map_scale s xs ys : trapz (map (fun x => s * x) xs) ys = s * trapz xs ys.
Proof.
  revert ys. induction xs as [|x xs IH]; intros [|y ys]; cbn; try ring.
  - destruct xs; cbn; ring.
  - destruct xs as [|x1 xs], ys as [|y1 ys]; try (cbn; ring).
    specialize (IH (y1 :: ys)). cbn [map trapz] in *. rewrite IH. field.
Qed.
Lemma sg_discrete_area sigma p : 0 < sigma ->
  let grid := linspace (-10 * sigma) (10 * sigma) 600 in
  trapz grid (map (fun x => instrument_supergaussian x sigma p) grid) = 1.
Proof.
  intros Hs grid. pose proof (sg_norm_pos sigma p Hs) as HN.
  assert (Eg : grid = map (fun x => sigma * x) (sg_grid sigma)).
  { unfold sg_grid, grid. rewrite map_map. rewrite <- (map_id (linspace _ _ _)) at 1. apply map_ext. intros x. field. lra. }
  rewrite Eg, trapz_map_scale, map_map.
  rewrite (map_ext _ (fun x => / (sg_norm sigma p * sigma) * exp (- rpow (1 / 2 * x ^ 2) p))).
  - rewrite <- (map_map (fun x => exp (- rpow (1 / 2 * x ^ 2) p)) (fun y => / (sg_norm sigma p * sigma) * y)).
    rewrite trapz_scale. fold (sg_norm sigma p). field. split; lra.
  - intros x. unfold instrument_supergaussian.
    replace (1 / 2 * (sigma * x) ^ 2 / sigma ^ 2) with (1 / 2 * x ^ 2) by (field; lra). unfold Rdiv. ring.
Qed.
(** The advertised full width is right for power one only. *)
Lemma sg_half sigma p : 0 < sigma -> 0 < p ->
  (instrument_supergaussian (fwhm_of_sigma sigma / 2) sigma p = instrument_supergaussian 0 sigma p / 2 <-> p = 1).
Proof.
  intros Hs Hp. pose proof (sg_norm_pos sigma p Hs) as HN. pose proof ln2_pos as HL. unfold instrument_supergaussian.
  replace (1 / 2 * (fwhm_of_sigma sigma / 2) ^ 2 / sigma ^ 2) with (ln 2).
  2:{ unfold fwhm_of_sigma. replace (1 / 2 * (sigma * (2 * sqrt (2 * ln 2)) / 2) ^ 2 / sigma ^ 2) with (1 / 2 * (sqrt (2 * ln 2) * sqrt (2 * ln 2))) by (field; lra).
      rewrite sqrt_sqrt by lra. lra. }
  replace (1 / 2 * 0 ^ 2 / sigma ^ 2) with 0 by (field; lra). rewrite rpow_0, Ropp_0, exp_0 by assumption. rewrite rpow_pos by assumption.
  set (d := sg_norm sigma p * sigma). assert (Hd : 0 < d) by (apply Rmult_lt_0_compat; assumption).
  split.
  - intros E. assert (E2 : exp (- Rpower (ln 2) p) = / 2).
    { apply (Rmult_eq_reg_r (/ d)); [|apply Rinv_neq_0_compat; lra]. unfold Rdiv in E. rewrite E. ring. }
    assert (E3 : Rpower (ln 2) p = ln 2).
    { apply (f_equal ln) in E2. rewrite ln_exp, ln_Rinv in E2 by lra. lra. }
    unfold Rpower in E3. assert (E4 : p * ln (ln 2) = ln (ln 2)).
    { rewrite <- (ln_exp (p * ln (ln 2))), E3. reflexivity. }
    assert (ln (ln 2) < 0). { rewrite <- ln_1. apply ln_increasing; [assumption|apply exp_2_lt_1]. }
    nra.
  - intros ->. rewrite Rpower_1 by assumption. rewrite exp_Ropp, exp_ln by lra. field. lra.
Qed.
Lemma sg_power_one_shape sigma x p : 0 < sigma -> p = 1 ->
  instrument_supergaussian x sigma p * (sg_norm sigma p * sigma) = instrument_gaussian x sigma * (sigma * sqrt (2 * PI)).
Proof.
  intros Hs ->. pose proof PI_RGT_0 as HP. pose proof (sqrt_lt_R0 (2 * PI) ltac:(lra)) as Hq.
  pose proof (sg_norm_pos sigma 1 Hs) as HN. unfold instrument_supergaussian, instrument_gaussian.
  assert (E : rpow (1 / 2 * x ^ 2 / sigma ^ 2) 1 = 1 / 2 * x ^ 2 / sigma ^ 2).
  { assert (0 <= 1 / 2 * x ^ 2 / sigma ^ 2).
    { pose proof (pow2_ge_0 x). apply Rmult_le_pos; [lra|]. left. apply Rinv_0_lt_compat, pow_lt. assumption. }
    unfold rpow. destruct (Req_EM_T _ 0) as [e|n]; [destruct (Req_EM_T 1 0); [lra|auto]|]. apply Rpower_1. lra. }
  rewrite E. replace (- (1 / 2) * x ^ 2 / sigma ^ 2) with (- (1 / 2 * x ^ 2 / sigma ^ 2)) by (field; lra). field. lra.
Qed.

(** ** Tabulated *)
Lemma trapz_nsum xs ys : length xs = length ys ->
  trapz xs ys = M_Setup.nsum (length xs - 1) (fun i => (at_ xs (S i) - at_ xs i) * (at_ ys (S i) + at_ ys i) / 2).
Proof.
  revert ys. induction xs as [|x xs IH]; intros [|y ys] H; cbn in H; try discriminate; [reflexivity|].
  destruct xs as [|x1 xs], ys as [|y1 ys]; cbn in H; try discriminate; [reflexivity|].
  assert (HS : forall n f, M_Setup.nsum (S n) f = f O + M_Setup.nsum n (fun i => f (S i))).
  { induction n as [|n IHn]; intros f; [cbn; ring|]. cbn [M_Setup.nsum] in *. rewrite IHn. ring. }
  specialize (IH (y1 :: ys) ltac:(cbn; congruence)). cbn [length] in *. rewrite Nat.sub_succ, Nat.sub_0_r in *.
  change (trapz (x :: x1 :: xs) (y :: y1 :: ys)) with ((x1 - x) * (y1 + y) / 2 + trapz (x1 :: xs) (y1 :: ys)).
  rewrite IH, HS. reflexivity.
Qed.
Lemma linear_int a b ya yb : a < b ->
  is_RInt (fun q => ya + (q - a) / (b - a) * (yb - ya)) a b ((b - a) * (yb + ya) / 2).
Proof.
  intros H. set (F := fun q => ya * q + (q - a) ^ 2 / 2 / (b - a) * (yb - ya)).
  replace ((b - a) * (yb + ya) / 2) with (minus (F b) (F a)).
  - apply (is_RInt_derive (V := R_CompleteNormedModule) F).
    + intros x _. unfold F. auto_derive; [exact I|]. field. lra.
    + intros x _. apply (ex_derive_continuous (V := R_NormedModule)). auto_derive. exact I.
  - unfold minus, plus, opp; cbn. unfold F. field. lra.
Qed.
Lemma interp_int l r xs ys k : increasing xs -> length xs = length ys -> (k < length xs)%nat ->
  is_RInt (interp l r xs ys) (at_ xs 0) (at_ xs k)
    (M_Setup.nsum k (fun i => (at_ xs (S i) - at_ xs i) * (at_ ys (S i) + at_ ys i) / 2)).
Proof.
  intros Hs HL. induction k as [|k IH]; intros Hk; [apply (is_RInt_point (V := R_NormedModule))|].
  cbn [M_Setup.nsum]. apply (is_RInt_Chasles (V := R_NormedModule) _ _ (at_ xs k)); [apply IH; lia|].
  assert (Hlt : at_ xs k < at_ xs (S k)) by (apply Hs; lia).
  apply (is_RInt_ext (V := R_NormedModule) (fun q => at_ ys k + (q - at_ xs k) / (at_ xs (S k) - at_ xs k) * (at_ ys (S k) - at_ ys k))).
  - intros q Hq. rewrite Rmin_left, Rmax_right in Hq by lra. symmetry. apply interp_segment; [assumption|lia|lra].
  - now apply linear_int.
Qed.
Lemma zero_int a b : is_RInt (fun _ : R => 0) a b 0.
Proof.
  pose proof (is_RInt_const (V := R_NormedModule) a b 0) as H. unfold scal in H; cbn in H; unfold mult in H; cbn in H.
  rewrite Rmult_0_r in H. exact H.
Qed.
Lemma interp_area xs ys : increasing xs -> length xs = length ys -> (2 <= length xs)%nat ->
  area (interp (Some 0) (Some 0) xs ys) (trapz xs ys).
Proof.
  intros Hs HL Hn. unfold area. set (n := length xs) in *. intros P HP.
  exists (fun a => a < at_ xs 0) (fun b => at_ xs (n - 1) < b); [exists (at_ xs 0); auto|exists (at_ xs (n - 1)); auto|].
  intros a b Ha Hb. exists (trapz xs ys). split; [|now apply locally_singleton]. cbn [fst snd].
  assert (H0 : at_ xs 0 <= at_ xs (n - 1)) by (apply incr_asc; [assumption|lia]).
  rewrite trapz_nsum by assumption. fold n.
  set (T := M_Setup.nsum _ _). replace T with (plus (plus 0 T) 0) by (unfold plus; cbn; ring).
  apply (is_RInt_Chasles (V := R_NormedModule) _ _ (at_ xs (n - 1))).
  - apply (is_RInt_Chasles (V := R_NormedModule) _ _ (at_ xs 0)).
    + apply (is_RInt_ext (V := R_NormedModule) (fun _ => 0)).
      * intros q Hq. rewrite Rmin_left, Rmax_right in Hq by lra. symmetry. apply (interp_left (Some 0)); [fold n; lia|now apply incr_asc|lra].
      * apply zero_int.
    + apply interp_int; [assumption|assumption|fold n; lia].
  - apply (is_RInt_ext (V := R_NormedModule) (fun _ => 0)).
    + intros q Hq. rewrite Rmin_left, Rmax_right in Hq by lra. symmetry. apply (interp_right (Some 0) (Some 0)). fold n. lra.
    + apply zero_int.
Qed.
Lemma from_array_area w ints : increasing w -> length w = length ints -> (2 <= length w)%nat -> trapz w ints <> 0 ->
  area (from_array w ints) 1.
Proof.
  intros Hs HL Hn Ht. unfold from_array. replace 1 with (trapz w (from_array_ints w ints)).
  - apply interp_area; [assumption|unfold from_array_ints; now rewrite map_length|assumption].
  - unfold from_array_ints. rewrite trapz_scale. field. assumption.
Qed.
