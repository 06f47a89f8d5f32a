(** Property C48: the Fourier parts of the pair potentials. *)
From Coq Require Import Reals List Bool Arith ZArith Lra Lia Psatz.
From Coquelicot Require Import Coquelicot.
From Verif Require Import M_Const M_PlasmaState M_Interp L_Gauss L_Fourier M_Potentials L_Potentials P_Potentials.
Import ListNotations.
Open Scope R_scope.

(** With a transform that is right on the Coulomb and Yukawa shapes the two parts in Fourier space add up to the whole. *)
Theorem C48_parts : forall u md E a b tr k c S L F, 0 < k -> 0 < e_len E a b ->
  (forall f k X, fourier f k X -> tr f k = X) ->
  c = Coulomb \/ c = DebyeHueckel \/ c = EmptyCore \/ c = Kelbg \/ (exists sigma, c = Yukawa sigma) \/ c = SepExchange ->
  short_k u tr md E a b c = Some S -> long_k u tr md E a b c = Some L -> full_k u tr tr md E a b c = Some F -> F k = S k + L k.
Proof.
  intros u md E a b tr k c S L F Hk Hl Htr Hc HS HL HF. pose proof (eps0_pos u) as He. pose proof PI_RGT_0 as Hpi. pose proof (alpha_pos md E a b) as Ha. pose proof (kappa_pos E a b Hl) as Hx. set (q := q2 u md E a b).
  destruct Hc as [->|[->|[->|[->|[[sigma ->]| ->]]]]].
  - assert (S = tr (base_short md E a b (coulomb_r u md E a b))) as -> by (injection HS as <-; reflexivity). assert (L = coulomb_long_k u md E a b) as -> by (injection HL as <-; reflexivity). assert (F = coulomb_kk u md E a b) as -> by (injection HF as <-; reflexivity).
    rewrite (Htr _ k (4 * PI * (q / (4 * PI * eps0 u) / (alpha md E a b ^ 2 + k ^ 2) + 0 / (0 ^ 2 + k ^ 2)))).
    + unfold coulomb_kk, coulomb_long_k. fold q. pose proof (den_sk (alpha md E a b) k Hk) as D. cbn in D. field. cbn. repeat split; nra.
    + apply fourier_two; [exact Hk| |lra|lra]. intros r Hr. unfold base_short, coulomb_r. fold q. replace (- alpha md E a b * r) with (- (alpha md E a b) * r) by ring. field. lra.
  - set (x := kappa E a b) in *. set (al := alpha md E a b) in *. assert (S = tr (base_short md E a b (fun r => coulomb_r u md E a b r * exp (- x * r)))) as -> by (injection HS as <-; reflexivity).
    assert (L = fun k => q / (k ^ 2 * eps0 u) * k ^ 2 * (al ^ 2 + 2 * al * x) / ((k ^ 2 + x ^ 2) * (k ^ 2 + (x + al) ^ 2))) as -> by (injection HL as <-; reflexivity). assert (F = fun k => coulomb_kk u md E a b k / (1 + (x / k) ^ 2)) as -> by (injection HF as <-; reflexivity). cbv beta.
    rewrite (Htr _ k (4 * PI * (q / (4 * PI * eps0 u) / ((x + al) ^ 2 + k ^ 2) + 0 / (0 ^ 2 + k ^ 2)))).
    + unfold coulomb_kk. fold q. clearbody x al q. pose proof (den_sk x k Hk) as D1. pose proof (den_sk (x + al) k Hk) as D2. cbn in D1, D2. field. cbn. repeat split; nra.
    + apply fourier_two; [exact Hk| |lra|lra]. intros r Hr. unfold base_short, coulomb_r. fold q al. replace (- (x + al) * r) with (- x * r + - al * r) by ring. rewrite exp_plus. field. lra.
  - assert (S = fun _ => 0) as -> by (injection HS as <-; reflexivity). assert (L = F) as -> by (rewrite HF in HL || (cbn in HL, HF; congruence)). ring.
  - cbn [full_k] in HF. rewrite HS, HL in HF. injection HF as <-. reflexivity.
  - cbn [full_k] in HF. rewrite HS, HL in HF. injection HF as <-. reflexivity.
  - cbn [full_k] in HF. rewrite HS, HL in HF. injection HF as <-. reflexivity.
Qed.
Print Assumptions C48_parts.
(** The short-ranged part in Fourier space is the transform of the short-ranged part. *)
Theorem C48_short : forall u md E a b tr c f S, (forall g k, (forall r, g r = 0) -> tr g k = 0) ->
  short_r u md E a b c = Some f -> short_k u tr md E a b c = Some S -> forall k, S k = tr f k.
Proof.
  intros u md E a b tr c f S H0 Hf HS k. destruct c; try (unfold short_k in HS; rewrite Hf in HS; cbn [obind] in HS; injection HS as <-; reflexivity).
  - assert (f = fun _ => 0) as -> by (injection Hf as <-; reflexivity). assert (S = fun _ => 0) as -> by (injection HS as <-; reflexivity). symmetry. now apply H0.
  - discriminate Hf.
Qed.
Print Assumptions C48_short.
(** So is the long-ranged one of the potentials without a closed form. *)
Theorem C48_long : forall u md E a b tr c f L, c = KlimontovichKraeft \/ c = SepExchange \/ c = AvgExchange ->
  long_r u md E a b c = Some f -> long_k u tr md E a b c = Some L -> forall k, L k = tr f k.
Proof. intros u md E a b tr c f L [->|[->| ->]] Hf HL k; unfold long_k in HL; rewrite Hf in HL; cbn [obind] in HL; injection HL as <-; reflexivity. Qed.
Print Assumptions C48_long.
(** The transform of the soft core is that of the bare charge less the one of the hole. *)
Theorem C48_soft_core : forall u md E a b tr beta k f F H, 0 < k -> 0 < r_cut E a b -> (forall f k X, fourier f k X -> tr f k = X) ->
  fourier (fun r => q2 u md E a b / (4 * PI * eps0 u * r) * exp (- Rpower (r / r_cut E a b) beta)) k H ->
  full_r u md E a b (SoftCore beta) = Some f -> full_k u tr tr md E a b (SoftCore beta) = Some F -> fourier f k (F k).
Proof.
  intros u md E a b tr beta k f F H Hk Hr Htr HH Hf HF. set (hole := fun r => coulomb_r u md E a b r * exp (- Rpower (r / r_cut E a b) beta)). change (fourier hole k H) in HH.
  assert (Ef : forall r, f r = coulomb_r u md E a b r - hole r). { intros r. unfold full_r in Hf. injection Hf as <-. unfold hole. destruct (Req_EM_T (r_cut E a b) 0) as [Z|_]; [lra|]. ring. }
  assert (EF : F k = coulomb_kk u md E a b k - H). { unfold full_k in HF. injection HF as <-. f_equal. rewrite <- (Htr _ _ _ HH). destruct (Req_EM_T (r_cut E a b) 0) as [Z|_]; [lra|reflexivity]. }
  rewrite EF. destruct (C48_coulomb u md E a b tr k _ _ Hk eq_refl eq_refl) as (I1 & A1 & B1). destruct HH as (I2 & A2 & B2). exists (fun e => I1 e - I2 e). split.
  - intros e He. pose proof (is_RInt_gen_minus _ _ _ _ (A1 e He) (A2 e He)) as A. apply is_RInt_gen_ext with (2 := A). apply filter_forall. intros ab r _. rewrite Ef. unfold minus, plus, opp; cbn. match goal with |- @eq _ ?x ?y => change (@eq R x y) end. ring.
  - assert (B3 : filterlim (fun e => - I2 e) (at_right 0) (locally (- H))) by (apply (filterlim_comp _ _ _ I2 (fun y => - y) _ (locally H)); [exact B2|apply (filterlim_opp (V := R_NormedModule))]).
    apply (filterlim_comp_2 (I := locally (coulomb_kk u md E a b k - H)) I1 (fun e => - I2 e) Rplus B1 B3). exact (filterlim_plus (V := R_NormedModule) (coulomb_kk u md E a b k) (- H)).
Qed.
Print Assumptions C48_soft_core.

(** *** an exact transform *)
Definition tr0 (f : R -> R) (k : R) : R :=
  real (Lim_seq (fun n => RInt_gen (V := R_CompleteNormedModule) (fun r => 4 * PI / k * (r * f r * sin (k * r)) * exp (- / (INR n + 1) * r)) (at_right 0) (Rbar_locally p_infty))).
Lemma tr0_exact f k X : fourier f k X -> tr0 f k = X.
Proof.
  intros (I & A & B). unfold tr0. assert (P : forall n, 0 < / (INR n + 1)) by (intros n; apply Rinv_0_lt_compat; pose proof (pos_INR n); lra).
  rewrite (Lim_seq_ext _ (fun n => I (/ (INR n + 1)))). 2:{ intros n. apply (is_RInt_gen_unique (V := R_CompleteNormedModule)). exact (A _ (P n)). }
  replace X with (real (Finite X)) by reflexivity. f_equal. apply is_lim_seq_unique. intros Q HQ. apply B in HQ. destruct HQ as [d Hd].
  destruct (nfloor_ex (/ d)) as [N HN]; [left; apply Rinv_0_lt_compat; apply cond_pos|]. exists N. intros n Hn. apply Hd; [|apply P].
  unfold ball; cbn. unfold AbsRing_ball, abs, minus, plus, opp; cbn. rewrite Ropp_0, Rplus_0_r, Rabs_pos_eq by (left; apply P). apply le_INR in Hn. rewrite <- (Rinv_involutive d) by (apply Rgt_not_eq, cond_pos). apply Rinv_lt_contravar; [|lra].
  apply Rmult_lt_0_compat; [apply Rinv_0_lt_compat; apply cond_pos|]. pose proof (pos_INR n). lra.
Qed.
Example C48_parts_ex : exists S L F, short_k unit_consts tr0 SpinAveraged ex_env 0 1 DebyeHueckel = Some S /\ long_k unit_consts tr0 SpinAveraged ex_env 0 1 DebyeHueckel = Some L /\
  full_k unit_consts tr0 tr0 SpinAveraged ex_env 0 1 DebyeHueckel = Some F /\ F 1 = S 1 + L 1.
Proof.
  destruct (short_k unit_consts tr0 SpinAveraged ex_env 0 1 DebyeHueckel) as [S|] eqn:ES; [|discriminate]. destruct (long_k unit_consts tr0 SpinAveraged ex_env 0 1 DebyeHueckel) as [L|] eqn:EL; [|discriminate].
  destruct (full_k unit_consts tr0 tr0 SpinAveraged ex_env 0 1 DebyeHueckel) as [F|] eqn:EF; [|discriminate]. exists S, L, F. split; [reflexivity|]. split; [reflexivity|]. split; [reflexivity|].
  exact (C48_parts unit_consts SpinAveraged ex_env 0 1 tr0 1 DebyeHueckel S L F ltac:(lra) ltac:(cbn; lra) tr0_exact ltac:(tauto) ES EL EF).
Qed.
Example C48_soft_core_ex : exists f F, full_r unit_consts SpinAveraged ex_env 0 1 (SoftCore 1) = Some f /\ full_k unit_consts tr0 tr0 SpinAveraged ex_env 0 1 (SoftCore 1) = Some F /\ fourier f 1 (F 1).
Proof.
  destruct (full_r unit_consts SpinAveraged ex_env 0 1 (SoftCore 1)) as [f|] eqn:Ef; [|discriminate]. destruct (full_k unit_consts tr0 tr0 SpinAveraged ex_env 0 1 (SoftCore 1)) as [F|] eqn:EF; [|discriminate]. exists f, F. split; [reflexivity|]. split; [reflexivity|].
  assert (C : 0 < r_cut ex_env 0 1) by (unfold r_cut; cbn; lra).
  refine (C48_soft_core unit_consts SpinAveraged ex_env 0 1 tr0 1 1 f F _ ltac:(lra) C tr0_exact _ Ef EF).
  apply (fourier_two _ 1 (q2 unit_consts SpinAveraged ex_env 0 1 / (4 * PI * eps0 unit_consts)) 0 (/ r_cut ex_env 0 1) 0); [lra| |left; now apply Rinv_0_lt_compat|lra].
  intros r Hr. rewrite Rpower_1 by (apply Rdiv_lt_0_compat; lra). replace (- (r / r_cut ex_env 0 1)) with (- / r_cut ex_env 0 1 * r) by (field; lra). pose proof PI_RGT_0. pose proof (eps0_pos unit_consts). field. lra.
Qed.
