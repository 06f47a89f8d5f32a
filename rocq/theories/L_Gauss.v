(** The Gaussian integral. *)
From Coq Require Import Reals Lra Psatz.
From Coquelicot Require Import Coquelicot.
Open Scope R_scope.

Definition gf (t : R) : R := exp (- t ^ 2).
Definition gg (x t : R) : R := exp (- x ^ 2 * (1 + t ^ 2)) / (1 + t ^ 2).

Lemma gf_cont x : continuous gf x.
Proof. apply (ex_derive_continuous (V := R_NormedModule)). unfold gf. auto_derive. exact I. Qed.
Lemma gf_int a b : ex_RInt gf a b.
Proof. apply (ex_RInt_continuous (V := R_CompleteNormedModule)). intros z _. apply gf_cont. Qed.
Lemma den_pos t : 0 < 1 + t ^ 2.
Proof. pose proof (pow2_ge_0 t). lra. Qed.
Lemma gg_int x a b : ex_RInt (gg x) a b.
Proof.
  apply (ex_RInt_continuous (V := R_CompleteNormedModule)). intros z _.
  apply (ex_derive_continuous (V := R_NormedModule)). unfold gg. auto_derive. pose proof (den_pos z). cbn in *. lra.
Qed.
Definition dgg (x t : R) : R := - (2 * x) * exp (- x ^ 2 * (1 + t ^ 2)).
Lemma gg_derive x t : is_derive (fun u => gg u t) x (dgg x t).
Proof.
  unfold gg, dgg. pose proof (den_pos t) as H. set (d := 1 + t ^ 2) in *.
  auto_derive; [exact I|]. replace (- (x * (x * 1)) * d) with (- x ^ 2 * d) by ring. field. lra.
Qed.
Lemma dgg_cont x t : continuity_2d_pt dgg x t.
Proof.
  unfold dgg. apply continuity_2d_pt_mult.
  - apply (continuity_1d_2d_pt_comp (fun z => - (2 * z)) (fun u v => u)).
    + apply derivable_continuous_pt. exists (- (2)).
      apply is_derive_Reals. auto_derive; [exact I|ring].
    + apply continuity_2d_pt_id1.
  - apply (continuity_1d_2d_pt_comp exp (fun u v => - u ^ 2 * (1 + v ^ 2))).
    + apply derivable_continuous_pt, derivable_pt_exp.
    + apply continuity_2d_pt_mult.
      * apply (continuity_1d_2d_pt_comp (fun z => - z ^ 2) (fun u v => u)); [|apply continuity_2d_pt_id1].
        apply derivable_continuous_pt. exists (- (2 * x)). apply is_derive_Reals. auto_derive; [exact I|ring].
      * apply (continuity_1d_2d_pt_comp (fun z => 1 + z ^ 2) (fun u v => v)); [|apply continuity_2d_pt_id2].
        apply derivable_continuous_pt. exists (2 * t). apply is_derive_Reals. auto_derive; [exact I|ring].
Qed.
Definition GG (x : R) : R := RInt (gg x) 0 1.
Lemma GG_derive x : is_derive GG x (RInt (dgg x) 0 1).
Proof.
  unfold GG.
  replace (RInt (dgg x) 0 1) with (RInt (fun t => Derive (fun u => gg u t) x) 0 1).
  - apply is_derive_RInt_param.
    + exists (mkposreal 1 Rlt_0_1). intros y _ t _. eexists. apply gg_derive.
    + intros t _. apply (continuity_2d_pt_ext dgg).
      * intros u v. symmetry. apply is_derive_unique, gg_derive.
      * apply dgg_cont.
    + exists (mkposreal 1 Rlt_0_1). intros y _. apply gg_int.
  - apply RInt_ext. intros t _. apply is_derive_unique, gg_derive.
Qed.
Definition FF (x : R) : R := RInt gf 0 x.
Lemma FF_derive x : is_derive FF x (gf x).
Proof.
  unfold FF. apply (is_derive_RInt (V := R_NormedModule) gf (fun b => RInt gf 0 b) 0).
  - exists (mkposreal 1 Rlt_0_1). intros y _. apply (RInt_correct (V := R_CompleteNormedModule)), gf_int.
  - apply gf_cont.
Qed.
Lemma dgg_int x : RInt (dgg x) 0 1 = - 2 * gf x * FF x.
Proof.
  assert (E : forall t : R, dgg x t = (- 2 * gf x) * (x * gf (x * t + 0))).
  { intros t. unfold dgg, gf.
    replace (- x ^ 2 * (1 + t ^ 2)) with (- x ^ 2 + - (x * t + 0) ^ 2) by ring. rewrite exp_plus. ring. }
  transitivity (RInt (fun t => (- 2 * gf x) * (x * gf (x * t + 0))) 0 1).
  - apply RInt_ext. intros t _. apply E.
  - rewrite (RInt_scal (V := R_CompleteNormedModule)).
    + change (scal (- 2 * gf x) ?y) with (- 2 * gf x * y). f_equal.
      pose proof (RInt_comp_lin (V := R_CompleteNormedModule) gf x 0 0 1 (gf_int _ _)) as H.
      transitivity (RInt gf (x * 0 + 0) (x * 1 + 0)); [exact H|]. unfold FF. f_equal; ring.
    + apply (ex_RInt_comp_lin (V := R_NormedModule) gf x 0 0 1). apply gf_int.
Qed.
Lemma total_const x : 0 < x -> FF x ^ 2 + GG x = PI / 4.
Proof.
  intros Hx. assert (H0 : FF 0 ^ 2 + GG 0 = PI / 4).
  { assert (EF : FF 0 = 0) by (unfold FF; rewrite RInt_point; reflexivity). rewrite EF.
    enough (EG : GG 0 = PI / 4) by (rewrite EG; ring). unfold GG.
    rewrite (RInt_ext _ (Derive atan)).
    - rewrite RInt_Derive.
      + rewrite atan_1, atan_0. lra.
      + intros z _. eexists. apply is_derive_Reals. apply derivable_pt_lim_atan.
      + intros z _. apply (continuous_ext (fun t => / (1 + t ^ 2))).
        * intros t. symmetry. apply is_derive_unique. apply is_derive_Reals.
          apply derivable_pt_lim_atan.
        * apply (ex_derive_continuous (V := R_NormedModule)). auto_derive. pose proof (den_pos z). cbn in *. lra.
    - intros t _. unfold gg. replace (- 0 ^ 2 * (1 + t ^ 2)) with 0 by ring. rewrite exp_0.
      symmetry. apply is_derive_unique. apply is_derive_Reals.
      replace (1 / (1 + t ^ 2)) with (/ (1 + t ^ 2)) by (unfold Rdiv; rewrite Rmult_1_l; reflexivity).
      apply derivable_pt_lim_atan. }
  rewrite <- H0. symmetry.

  apply (eq_is_derive (fun y => FF y ^ 2 + GG y) 0 x); [|assumption].
  intros t _. replace (@zero (NormedModule.AbelianGroup R_AbsRing R_NormedModule)) with (2 * FF t * gf t + RInt (dgg t) 0 1).
  - apply (is_derive_plus (V := R_NormedModule)); [|apply GG_derive].
    assert (E2 : forall y : R, FF y * FF y = FF y ^ 2) by (intros; ring).
    apply (is_derive_ext (fun y => FF y * FF y) (fun y => FF y ^ 2) t _ E2).
    replace (2 * FF t * gf t) with (gf t * FF t + FF t * gf t) by ring.
    apply (is_derive_mult FF FF); [apply FF_derive|apply FF_derive|]. intros; apply Rmult_comm.
  - rewrite dgg_int. change (2 * FF t * gf t + - 2 * gf t * FF t = 0). ring.
Qed.

Lemma GG_bounds x : 0 <= GG x <= exp (- x ^ 2).
Proof.
  unfold GG. split.
  - apply RInt_ge_0; [lra|apply gg_int|]. intros t _. unfold gg. pose proof (den_pos t). pose proof (exp_pos (- x ^ 2 * (1 + t ^ 2))).
    apply Rmult_le_pos; [lra|]. left. now apply Rinv_0_lt_compat.
  - replace (exp (- x ^ 2)) with (RInt (fun _ => exp (- x ^ 2)) 0 1).
    + apply RInt_le; [lra|apply gg_int|apply ex_RInt_const|]. intros t _. unfold gg.
      pose proof (den_pos t) as Hd. pose proof (pow2_ge_0 t) as Ht. pose proof (pow2_ge_0 x).
      assert (exp (- x ^ 2 * (1 + t ^ 2)) <= exp (- x ^ 2)).
      { destruct (Req_dec (x ^ 2 * t ^ 2) 0) as [E|E].
        - right. f_equal. lra.
        - left. apply exp_increasing. assert (0 <= x ^ 2 * t ^ 2) by (apply Rmult_le_pos; assumption). lra. }
      pose proof (exp_pos (- x ^ 2 * (1 + t ^ 2))). apply Rle_trans with (exp (- x ^ 2 * (1 + t ^ 2))); [|assumption].
      apply (Rmult_le_reg_r (1 + t ^ 2)); [assumption|]. unfold Rdiv. rewrite Rmult_assoc, Rinv_l by lra. nra.
    + rewrite RInt_const. unfold scal; cbn; unfold mult; cbn. ring.
Qed.
Lemma GG_lim : is_lim GG p_infty 0.
Proof.
  apply (is_lim_le_le_loc (fun _ => 0) (fun x => exp (- x))).
  - exists 1. intros y Hy. pose proof (GG_bounds y). split; [lra|].
    apply Rle_trans with (exp (- y ^ 2)); [lra|]. left. apply exp_increasing. nra.
  - apply is_lim_const.
  - apply (is_lim_comp exp Ropp p_infty 0 m_infty).
    + apply is_lim_exp_m.
    + replace m_infty with (Rbar_opp p_infty) by reflexivity. apply (is_lim_opp (fun x => x)), is_lim_id.
    + exists 0. intros y _. discriminate.
Qed.
Lemma FF_nonneg x : 0 <= x -> 0 <= FF x.
Proof. intros H. unfold FF. apply RInt_ge_0; [assumption|apply gf_int|]. intros t _. left. apply exp_pos. Qed.
Theorem gauss_half : is_lim FF p_infty (sqrt PI / 2).
Proof.
  apply (is_lim_ext_loc (fun x => sqrt (PI / 4 - GG x))).
  - exists 0. intros y Hy. rewrite <- (total_const y Hy).
    replace (FF y ^ 2 + GG y - GG y) with (FF y ^ 2) by ring. apply sqrt_pow2. apply FF_nonneg. lra.
  - replace (sqrt PI / 2) with (sqrt (PI / 4)).
    + apply (is_lim_comp_continuous (fun x => PI / 4 - GG x) sqrt p_infty (PI / 4)).
      * replace (Finite (PI / 4)) with (Finite (PI / 4 - 0)) by (f_equal; ring).
        apply (is_lim_minus (fun _ => PI / 4) GG p_infty (PI / 4) 0); [apply is_lim_const|apply GG_lim|reflexivity].
      * apply continuous_sqrt.
    + unfold Rdiv. rewrite sqrt_mult; [|pose proof PI_RGT_0; lra|lra]. f_equal.
      replace (/ 4) with ((/ 2) * (/ 2)) by field. apply sqrt_square. lra.
Qed.
