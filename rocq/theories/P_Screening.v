(** Screening models and lengths: C58, C111, C112. *)
From Coq Require Import Reals List Lra Lia Psatz.
From Coquelicot Require Import Coquelicot.
From Verif Require Import M_Const M_PlasmaState M_PlasmaPhysics L_PlasmaPhysics M_Interp M_Helpers L_Helpers M_StaticSF P_StaticSF M_FreeFree M_Potentials M_Screening L_LFC L_Screening.
Import ListNotations.
Open Scope R_scope.

(** ** C58 *)
Theorem C58_debye_hueckel : forall l k Z i z, 0 < l -> nth_error Z i = Some z ->
  exists q, nth_error (DebyeHueckelScreening (Some l) k Z) i = Some (Some q) /\
    (k * l) ^ 2 * q = z - q /\ (0 <= z -> 0 <= q <= z) /\ (k <> 0 -> 0 < z -> 0 < q < z).
Proof.
  intros l k Z i z Hl Hz. exists (z / (1 + (k * l) ^ 2)). assert (0 <= (k * l) ^ 2) by apply pow2_ge_0. split; [now apply nth_DH|]. split; [field; lra|]. split.
  - intros H0. split; [apply Rdiv_le_0_compat; lra|apply div_le; nra].
  - intros Hk H0. assert (0 < (k * l) ^ 2). { assert (k * l <> 0) by (apply Rmult_integral_contrapositive_currified; lra). replace ((k * l) ^ 2) with (Rsqr (k * l)) by (unfold Rsqr; ring). now apply Rlt_0_sqr. }
    split; [apply Rdiv_lt_0_compat; lra|]. apply Rmult_lt_reg_r with (1 + (k * l) ^ 2); [lra|]. unfold Rdiv. rewrite Rmult_assoc, Rinv_l by lra. nra.
Qed.
Print Assumptions C58_debye_hueckel.
Example C58_debye_hueckel_ex : exists q, nth_error (DebyeHueckelScreening (Some 2) 1 [1; 3]) 1 = Some (Some q) /\ (1 * 2) ^ 2 * q = 3 - q.
Proof. destruct (C58_debye_hueckel 2 1 [1; 3] 1 3) as (q & E & F & _); [lra|reflexivity|]. now exists q. Qed.
(** less charge at shorter waves and for weaker screening *)
Theorem C58_monotone : forall l1 l2 k1 k2 Z i z, 0 < l1 -> 0 < l2 -> 0 <= k1 -> 0 <= k2 -> k1 * l1 < k2 * l2 -> nth_error Z i = Some z -> 0 < z ->
  exists q1 q2, nth_error (DebyeHueckelScreening (Some l1) k1 Z) i = Some (Some q1) /\ nth_error (DebyeHueckelScreening (Some l2) k2 Z) i = Some (Some q2) /\ q2 < q1.
Proof.
  intros l1 l2 k1 k2 Z i z H1 H2 K1 K2 L Hz H0. eexists _, _. split; [now apply (nth_DH l1 k1 Z i z)|]. split; [now apply (nth_DH l2 k2 Z i z)|].
  assert (0 <= k1 * l1) by (apply Rmult_le_pos; lra). unfold Rdiv. apply Rmult_lt_compat_l; [lra|]. apply Rinv_lt_contravar; [apply Rmult_lt_0_compat; nra|nra].
Qed.
Print Assumptions C58_monotone.
Example C58_monotone_ex : exists q1 q2, nth_error (DebyeHueckelScreening (Some 1) 1 [1; 3]) 1 = Some (Some q1) /\ nth_error (DebyeHueckelScreening (Some 2) 1 [1; 3]) 1 = Some (Some q2) /\ q2 < q1.
Proof. apply (C58_monotone 1 2 1 1 [1; 3] 1 3); (reflexivity || lra). Qed.
(** Linear response with the susceptibility of Debye and Hueckel: the charges
    have the wrong sign *)
Theorem C58_linear_response_partial : forall u l lfc k tr tg E i z, let Z := Z_free (e_s E) in
  0 < l -> 0 < k -> lfc <= 1 -> sum Z <> 0 -> nth_error Z i = Some z ->
  exists q, nth_error (LinearResponseScreeningGericke2010 u (Some l) lfc k Z (Vei u k Z tr tg E Coulomb)) i = Some (Some (- q)) /\
    (k * l) ^ 2 * q = z - (1 - lfc) * q /\ (lfc = 0 -> nth_error (DebyeHueckelScreening (Some l) k Z) i = Some (Some q)).
Proof.
  intros u l lfc k tr tg E i z Z Hl Hk Hf Hs Hz. assert (0 < (k * l) ^ 2) by (apply pow_lt; apply Rmult_lt_0_compat; lra).
  exists (z / ((1 - lfc) + (k * l) ^ 2)). split; [apply nth_Gericke; try assumption; [reflexivity|lra]|]. split; [field; lra|].
  intros ->. rewrite (nth_DH l k Z i z Hl Hz). do 3 f_equal. ring.
Qed.
Print Assumptions C58_linear_response_partial.
Theorem C58_linear_response_sign : forall u l k tr tg E i z, let Z := Z_free (e_s E) in
  0 < l -> 0 < k -> sum Z <> 0 -> nth_error Z i = Some z -> 0 < z ->
  exists q, 0 < q /\ nth_error (DebyeHueckelScreening (Some l) k Z) i = Some (Some q) /\
    nth_error (LinearResponseScreeningGericke2010 u (Some l) 0 k Z (Vei u k Z tr tg E Coulomb)) i = Some (Some (- q)).
Proof.
  intros u l k tr tg E i z Z Hl Hk Hs Hz H0. destruct (C58_linear_response_partial u l 0 k tr tg E i z Hl Hk ltac:(lra) Hs Hz) as (q & A & B & C).
  exists q. split; [|split; [now apply C|exact A]]. assert (0 < (k * l) ^ 2) by (apply pow_lt; apply Rmult_lt_0_compat; lra). nra.
Qed.
Print Assumptions C58_linear_response_sign.
Definition carbon_env : env := mkEnv (mkPS [mkEl 6 12 1] [4] [24] 3 [5] [1]) [1] 1 [1 / 2] (fun _ _ => 1).
Example C58_linear_response_ex : exists q, 0 < q /\
  nth_error (LinearResponseScreeningGericke2010 unit_consts (Some 2) 0 1 [4] (Vei unit_consts 1 [4] (fun f => f) (fun f => f) carbon_env Coulomb)) 0 = Some (Some (- q)).
Proof.
  destruct (C58_linear_response_sign unit_consts 2 1 (fun f => f) (fun f => f) carbon_env 0 4) as (q & P & _ & E); cbn; try lra; [reflexivity|].
  exists q. split; [exact P|exact E].
Qed.
(** the finite wavelength model is linear response with the fit of Dandrea *)
Theorem C58_finite_wavelength : forall u lfc k n T Z F1 F2 F3 G V,
  FiniteWavelengthScreening u lfc k n T Z F1 F2 F3 G V = LinearResponseScreening Z (RPA_DandreaFit_susceptibility u lfc k n T F1 F2 F3 G 0) V.
Proof.
  intros u lfc k n T Z F1 F2 F3 G V. unfold FiniteWavelengthScreening, LinearResponseScreening. f_equal. apply map_ext. intros [v|]; [|reflexivity]. cbn [obind].
  rewrite finite_eq. destruct (RPA_DandreaFit_susceptibility _ _ _ _ _ _ _ _ _ _) as [x|]; reflexivity.
Qed.
Print Assumptions C58_finite_wavelength.
(** and, for a Coulomb potential, screening with a length that depends on the
    wave number; the charge lies between 0 and the free charge *)
Theorem C58_finite_coulomb : forall u lfc k n T tr tg E F1 F2 F3 G xi i z, let Z := Z_free (e_s E) in
  0 < k -> lfc <= 1 -> xi0_Dandrea u F1 F2 F3 G k 0 T n = Some xi -> fst xi < 0 -> nth_error Z i = Some z ->
  let kappa2 := - fst xi * e_ch u ^ 2 / eps0 u in
  exists q, nth_error (FiniteWavelengthScreening u lfc k n T Z F1 F2 F3 G (Vei u k Z tr tg E Coulomb)) i = Some (Some q) /\
    k ^ 2 / kappa2 * q = z - (1 - lfc) * q /\
    (lfc = 0 -> nth_error (DebyeHueckelScreening (Some (/ sqrt kappa2)) k Z) i = Some (Some q)) /\
    (lfc = 0 -> 0 <= z -> 0 <= q <= z).
Proof.
  intros u lfc k n T tr tg E F1 F2 F3 G xi i z Z Hk Hf Ex Hx Hz kappa2. cpos u. pose proof (static_real F1 F2 F3 G u k T n xi Hk Ex) as S0.
  destruct xi as [a b]. cbn [fst snd] in *. subst b. set (x := - a) in *. assert (0 < x) as Hxp by (unfold x; lra).
  assert (0 < e_ch u ^ 2) as He by (apply pow_lt; lra). assert (0 < k ^ 2) by (apply pow_lt; lra). assert (0 < kappa2) as Hk2 by (unfold kappa2; apply Rdiv_lt_0_compat; [apply Rmult_lt_0_compat; lra|lra]).
  assert (0 < k ^ 2 / kappa2) as Hr by (apply Rdiv_lt_0_compat; lra).
  set (q := z / ((1 - lfc) + k ^ 2 / kappa2)).
  assert (nth_error (FiniteWavelengthScreening u lfc k n T Z F1 F2 F3 G (Vei u k Z tr tg E Coulomb)) i = Some (Some q)) as Q.
  { unfold FiniteWavelengthScreening. rewrite (nth_unscreen Z _ i z (Some q) Hz).
    - destruct (Req_EM_T z 0) as [->|_]; [|reflexivity]. do 2 f_equal. unfold q, Rdiv. ring.
    - rewrite (map_nth_error _ i _ (nth_Vei u k Z tr tg E i z eq_refl Hz)). cbn [obind].
      rewrite (finite_real F1 F2 F3 G u lfc k n T _ x Hk Hf) by (try lra; rewrite Ex; unfold x; rewrite Ropp_involutive; reflexivity). cbn [obind fst RtoC]. do 2 f_equal.
      unfold q, kappa2, coulomb_k. assert (0 <= (1 - lfc) * (e_ch u ^ 2 * x)) by (apply Rmult_le_pos; [lra|apply Rmult_le_pos; lra]).
      field. assert (0 < k ^ 2 * eps0 u) by (apply Rmult_lt_0_compat; lra). repeat split; try lra; nra. }
  exists q. split; [exact Q|]. split; [unfold q; clear Q q; set (r := k ^ 2 / kappa2) in *; field; lra|]. assert (0 < sqrt kappa2) by (apply sqrt_lt_R0; lra). split.
  - intros ->. rewrite (nth_DH _ k Z i z) by (try assumption; now apply Rinv_0_lt_compat). do 2 f_equal. unfold q.
    replace ((k * / sqrt kappa2) ^ 2) with (k ^ 2 / (sqrt kappa2) ^ 2) by (field; lra). rewrite pow2_sqrt by lra. field. lra.
  - intros -> HZ0. unfold q. assert (0 <= z * (k ^ 2 / kappa2)) by (apply Rmult_le_pos; lra). split; [apply Rdiv_le_0_compat; lra|apply div_le; lra].
Qed.
Print Assumptions C58_finite_coulomb.
(** neutral ions carry no cloud, whatever else happens (nan included) *)
Theorem C58_neutral : forall u len lfc k n T Z V F1 F2 F3 G xi ni Ti TD quad masses i, nth_error Z i = Some 0 -> length V = length Z -> length masses = length Z ->
  nth_error (DebyeHueckelScreening len k Z) i = Some (Some 0) /\
  nth_error (FiniteWavelengthScreening u lfc k n T Z F1 F2 F3 G V) i = Some (Some 0) /\
  nth_error (LinearResponseScreening Z xi V) i = Some (Some 0) /\
  nth_error (GregoriCHSScreening u lfc k n T Z ni Ti TD) i = Some (Some 0) /\
  nth_error (Gregori2004Screening u k n T Z quad masses) i = Some (Some 0) /\
  (sum Z = 0 -> nth_error (LinearResponseScreeningGericke2010 u len lfc k Z V) i = Some (Some 0)).
Proof.
  intros u len lfc k n T Z V F1 F2 F3 G xi ni Ti TD quad masses i Hz HV HM.
  assert (i < length Z)%nat as Hi by (apply nth_error_Some; rewrite Hz; discriminate).
  assert (forall q, length q = length Z -> nth_error (unscreen Z q) i = Some (Some 0)) as U.
  { intros q Hq. destruct (nth_error q i) as [x|] eqn:Ex; [|apply nth_error_None in Ex; lia]. rewrite (nth_unscreen Z q i 0 x Hz Ex). destruct (Req_EM_T 0 0); [reflexivity|lra]. }
  repeat split.
  - apply U. destruct (obind len (qdiv 1)); unfold q_DebyeHueckel; now rewrite ?map_length.
  - apply U. now rewrite map_length.
  - apply U. now rewrite map_length.
  - apply U. now rewrite map_length.
  - apply U. clear -HM. revert Z HM. induction masses as [|m ms IH]; intros [|z Z] H; cbn in *; try lia. f_equal. apply IH. lia.
  - intros Hs. unfold LinearResponseScreeningGericke2010. destruct (Req_EM_T (sum Z) 0) as [_|?]; [|contradiction]. apply (map_nth_error (fun _ => Some 0) i Z Hz).
Qed.
Print Assumptions C58_neutral.
Example C58_neutral_ex : nth_error (DebyeHueckelScreening None 1 [2; 0]) 1 = Some (Some 0).
Proof. apply (C58_neutral unit_consts None 0 1 1 1 [2; 0] [None; None] (fun x => x) (fun x => x) (fun x => x) (fun x => x) None [1; 1] [1; 1] [1; 1] (fun _ _ _ => None) [1; 1] 1); reflexivity. Qed.
Theorem C58_gregori2004 : forall u k n T Z quad masses i m z e, 0 < k -> 0 < T -> 0 < n -> 0 < m -> 0 < z -> nth_error masses i = Some m -> nth_error Z i = Some z ->
  dielectric_function_salpeter u quad k T n 0 = Some (RtoC e) -> e <> 0 ->
  nth_error (Gregori2004Screening u k n T Z quad masses) i = Some (Some ((n / (kB u * T)) * (coulomb_k u z 1 k / (1 + k ^ 2 * lambda_AD u T (m_e u) m ^ 2)) / e)).
Proof.
  intros u k n T Z quad masses i m z e Hk HT Hn Hm Hz Em Ez Ee He. unfold Gregori2004Screening.
  erewrite nth_unscreen; [|exact Ez|eapply nth_map2; [exact Em|exact Ez]]. destruct (Req_EM_T z 0) as [?|_]; [lra|]. rewrite Ee. cbn [obind].
  destruct (Ceq_dec (RtoC e) (RtoC 0)) as [H|_]; [apply RtoC_inj in H; contradiction|]. rewrite <- RtoC_div by exact He. cbn [fst RtoC].
  rewrite C75_linear_response by (assumption || lra). do 2 f_equal. unfold Rdiv. rewrite Rinv_1. ring.
Qed.
Print Assumptions C58_gregori2004.
Example C58_gregori2004_ex : dielectric_function_salpeter unit_consts (fun _ _ _ => Some 0) 1 1 1 0 = Some (RtoC 1).
Proof.
  unfold dielectric_function_salpeter. cbn [hbar kB m_e e_ch eps0 unit_consts W_salpeter obind].
  replace (1 * 1 / 1) with 1 by field. rewrite sqrt_1. set (s := sqrt 2). assert (Hs : 0 < s) by (apply sqrt_lt_R0; lra). clearbody s.
  replace (0 / 1 / (s * 1 * 1)) with 0 by (field; lra). set (x := 1 * 1 / (2 * s * 1 * 1)). assert (Hx : 0 < x) by (unfold x; apply Rdiv_lt_0_compat; lra). clearbody x.
  unfold cdiv. destruct (Ceq_dec (RtoC (0 + x)) (RtoC 0)) as [E|_]; [apply RtoC_inj in E; lra|]. destruct (Ceq_dec (RtoC (0 - x)) (RtoC 0)) as [E|_]; [apply RtoC_inj in E; lra|]. cbn [obind]. f_equal.
  unfold Cdiv, Cinv, Cminus, Cplus, Copp, Cmult, RtoC. cbn [fst snd]. replace ((0 - x) ^ 2) with ((0 + x) ^ 2) by ring. set (w := exp _). clearbody w.
  f_equal; field; lra.
Qed.

(** charged hard spheres: the cloud of an ion grows with the root of its charge *)
Lemma nth_CHS u lfc k n T Z ni Ti TD i z q Te : nth_error Z i = Some z -> z <> 0 -> T_cf_Greg u T n = Some Te -> 0 < k -> 0 < Te -> 0 < n ->
  let Zf := 1 / sum ni * sum (map2 Rmult ni Z) in 0 < Zf -> lfc < 1 ->
  nth_error (GregoriCHSScreening u lfc k n T Z ni Ti TD) i = Some (Some q) -> q = sqrt z * q_sc u k Te n Zf lfc / sqrt Zf.
Proof.
  intros Hz H0 ET Hk HTe Hn Zf HZf Hl. unfold GregoriCHSScreening.
  erewrite nth_unscreen; [|exact Hz|apply (map_nth_error _ i Z Hz)]. destruct (Req_EM_T z 0) as [?|_]; [contradiction|]. rewrite ET. cbn [obind]. fold Zf.
  set (N := 1 / sum ni * sum (map (fun x => x ^ 2) ni)). set (Tie := 1 / sum ni * _).
  unfold S_ei_CHS. destruct (S_ii_CHS u k Te Tie n Zf N lfc) as [S|]; [|discriminate]. cbn [obind]. unfold qdiv. destruct (Req_EM_T S 0) as [?|HS]; [discriminate|]. cbn [obind].
  intros E. injection E as <-. unfold q_Glenzer2009. assert (0 < sqrt Zf) by (now apply sqrt_lt_R0). field. split; lra.
Qed.
Theorem C58_hard_spheres : forall u lfc k n T Z ni Ti TD i z q Te, nth_error Z i = Some z -> 0 < z -> T_cf_Greg u T n = Some Te -> 0 < k -> 0 < Te -> 0 < n ->
  let Zf := 1 / sum ni * sum (map2 Rmult ni Z) in let kD := k_D_AD u Te n 1 in 0 < Zf -> lfc < 1 ->
  nth_error (GregoriCHSScreening u lfc k n T Z ni Ti TD) i = Some (Some q) ->
  q = sqrt (z * Zf) * kD ^ 2 / (k ^ 2 + kD ^ 2 * (1 - lfc)).
Proof.
  intros u lfc k n T Z ni Ti TD i z q Te Hz H0 ET Hk HTe Hn Zf kD HZf Hl E. rewrite (nth_CHS u lfc k n T Z ni Ti TD i z q Te Hz) by (assumption || lra). fold Zf.
  unfold q_sc, S_ee0. fold kD. rewrite sqrt_mult by lra. assert (0 < sqrt Zf) by (now apply sqrt_lt_R0).
  assert (0 < k ^ 2) by (apply pow_lt; lra). assert (0 <= kD ^ 2 * (1 - lfc)) by (apply Rmult_le_pos; [apply pow2_ge_0|lra]).
  assert (Zf / sqrt Zf = sqrt Zf) as ER. { rewrite <- (sqrt_sqrt Zf) at 1 by lra. field. lra. } 
  transitivity (sqrt z * (Zf / sqrt Zf) * kD ^ 2 / (k ^ 2 + kD ^ 2 * (1 - lfc))); [|rewrite ER; reflexivity]. clear ER. set (w := sqrt Zf) in *. field. repeat split; lra.
Qed.
Print Assumptions C58_hard_spheres.
Lemma sigma_pos u Ti ne Z ni sig : sigma_CHS u Ti ne Z ni = Some sig -> 0 < sig.
Proof.
  unfold sigma_CHS, bisection. set (dist := Rpower _ _). assert (0 < dist) as Hd by (unfold dist, Rpower; apply exp_pos).
  assert (0 < angstrom) as Ha by (unfold angstrom; apply Rinv_0_lt_compat; apply pow_lt; lra). assert (0 < dist / angstrom) as Hr by (now apply Rdiv_lt_0_compat).
  set (r := dist / angstrom) in *. set (f := fun s => G07h1 _ _ _ _ _). generalize chs_iter at 1. intros m. generalize (S chs_iter). intros fuel.
  destruct (bisection_loop f (/ 10 ^ 15) m 0 fuel (/ 1000 * r) (21 / 10 * r)) as [[[p x] j]|] eqn:E; [|discriminate]. intros H. injection H as <-.
  unfold bisection_loop in E. apply (while_inv (fun s => 0 < fst (fst s) /\ 0 < snd (fst s))) in E.
  - destruct E as [[_ E] _]. cbn in E. now apply Rmult_lt_0_compat.
  - intros [[a b] c] [A B] _. cbn [fst snd bis_body] in *. destruct (reqb _ _); cbn [fst snd]; lra.
  - cbn [fst snd]. lra.
Qed.
Lemma Te_two : exists Te, T_cf_Greg unit_consts 1 2 = Some Te /\ 0 < Te.
Proof.
  unfold T_cf_Greg. cbn [a_0 unit_consts kB]. set (rs := wiegner_seitz_radius 2 / 1). pose proof PI2_3_2. 
  assert (rs <= 1) as Hrs. { unfold rs, wiegner_seitz_radius. rewrite Rdiv_1. apply Rle_trans with (Rpower 1 (1 / 3)); [|right; unfold Rpower; now rewrite ln_1, Rmult_0_r, exp_0].
    apply Rle_Rpower_l; [lra|]. split; [apply Rdiv_lt_0_compat; lra|apply div_le; lra]. }
  assert (sqrt rs <= 1) by (rewrite <- sqrt_1; now apply sqrt_le_1_alt). rewrite qdiv_some by lra. eexists; split; [reflexivity|]. apply sqrt_lt_R0. set (x := _ / _ / _). pose proof (pow2_ge_0 x). lra.
Qed.
Lemma CHS_defined : exists Te k, T_cf_Greg unit_consts 1 2 = Some Te /\ 0 < Te /\ 0 < k /\ forall z, 0 < z < 2 ->
  forall i, (i < 2)%nat -> exists q, nth_error (GregoriCHSScreening unit_consts 0 k 2 1 [z; 2 - z] [1; 1] [1; 1] [1; 1]) i = Some (Some q).
Proof.
  destruct Te_two as (Te & ET & HTe). set (Tie := 1 / 2 * (2 * T_i_eff_Greg 1 1)).
  assert (exists sig, sigma_CHS unit_consts Tie 2 1 1 = Some sig) as [sig Es].
  { unfold sigma_CHS, bisection. match goal with |- context [bisection_loop ?f ?t ?m ?i ?fu ?a ?b] => destruct (bis_terminates f t m i a b fu) as [[[p x] j] ->] end; [rewrite Nat.max_0_r; apply Nat.lt_succ_diag_r|]. eexists; reflexivity. }
  pose proof (sigma_pos _ _ _ _ _ _ Es) as Hs. destruct (S_ii_short unit_consts Te Tie 2 1 1 0 sig Hs) as (k & Hk & HS). specialize (HS k (Rle_refl k)).
  exists Te, k. split; [exact ET|]. split; [exact HTe|]. split; [exact Hk|]. intros z Hz i Hi.
  assert (exists zi, nth_error [z; 2 - z] i = Some zi /\ 0 < zi) as (zi & Ezi & Hzi) by (destruct i as [|[|i]]; [exists z|exists (2 - z)|lia]; split; (reflexivity || lra)).
  unfold GregoriCHSScreening. destruct i as [|[|i]]; [| |lia]; (erewrite nth_unscreen; [|exact Ezi|reflexivity]); (destruct (Req_EM_T zi 0) as [?|_]; [lra|]); rewrite ET; cbn [obind];
    cbn [map2 map sum fold_right]; (replace (1 / (1 + (1 + 0)) * (1 * z + (1 * (2 - z) + 0))) with 1 by field); (replace (1 / (1 + (1 + 0)) * (1 ^ 2 + (1 ^ 2 + 0))) with 1 by field);
    (replace (1 / (1 + (1 + 0)) * (1 * T_i_eff_Greg 1 1 + (1 * T_i_eff_Greg 1 1 + 0))) with Tie by (unfold Tie; field));
    unfold S_ei_CHS, S_ii_CHS; rewrite Es; cbn [obind]; rewrite qdiv_some by exact HS; cbn [obind]; eexists; reflexivity.
Qed.
(** and, in mixtures, exceeds the charge of the less charged ions *)
Theorem C58_hard_spheres_refuted : exists u k n T Z ni Ti TD z q,
  0 < k /\ 0 < T /\ List.Forall (fun x => 0 < x) Z /\ List.Forall (fun x => 0 < x) ni /\ n = sum (map2 Rmult ni Z) /\
  nth_error Z 0 = Some z /\ nth_error (GregoriCHSScreening u 0 k n T Z ni Ti TD) 0 = Some (Some q) /\ z < q.
Proof.
  destruct CHS_defined as (Te & k & ET & HTe & Hk & D).
  set (kD := k_D_AD unit_consts Te 2 1). assert (0 < kD) as HkD. { unfold kD, k_D_AD. cbn [e_ch unit_consts eps0 kB]. apply sqrt_lt_R0. apply Rdiv_lt_0_compat; lra. }
  set (r := kD ^ 2 / (k ^ 2 + kD ^ 2 * (1 - 0))). assert (0 < kD ^ 2) by (apply pow_lt; lra). assert (0 < k ^ 2) by (apply pow_lt; lra).
  assert (0 < r < 1) as Hr. { unfold r. split; [apply Rdiv_lt_0_compat; lra|]. apply Rmult_lt_reg_r with (k ^ 2 + kD ^ 2 * (1 - 0)); [lra|]. unfold Rdiv. rewrite Rmult_assoc, Rinv_l by lra. lra. }
  set (z := (r / 2) ^ 2). assert (0 < z < 1) as Hz by (unfold z; nra).
  destruct (D z ltac:(lra) 0%nat ltac:(lia)) as [q Eq].
  exists unit_consts, k, 2, 1, [z; 2 - z], [1; 1], [1; 1], [1; 1], z, q. split; [exact Hk|]. split; [lra|]. split; [repeat constructor; lra|]. split; [repeat constructor; lra|].
  split; [cbn; ring|]. split; [reflexivity|]. split; [exact Eq|].
  assert (1 / sum [1; 1] * sum (map2 Rmult [1; 1] [z; 2 - z]) = 1) as EZ by (cbn; field).
  rewrite (C58_hard_spheres unit_consts 0 k 2 1 [z; 2 - z] [1; 1] [1; 1] [1; 1] 0 z q Te eq_refl ltac:(lra) ET Hk HTe ltac:(lra) ltac:(rewrite EZ; lra) ltac:(lra) Eq).
  rewrite EZ, Rmult_1_r. fold kD. unfold Rdiv. rewrite Rmult_assoc. change (kD ^ 2 * / (k ^ 2 + kD ^ 2 * (1 - 0))) with r. unfold z. rewrite sqrt_pow2 by lra. nra.
Qed.
Print Assumptions C58_hard_spheres_refuted.

(** a plasma of hydrogen and helium *)
Definition two_ions : pstate := mkPS [mkEl 1 1 1; mkEl 2 4 4] [1; 2] [1; 1] 1 [1; 1] [-1; -1].
Definition env_two : env := mkEnv two_ions [1; 1] 3 [0; 0] (fun _ _ => 1).
Theorem C58_linear_response_refuted : exists u l k E i q, 0 < l /\ 0 < k /\
  nth_error (DebyeHueckelScreening (Some l) k (Z_free (e_s E))) i = Some (Some q) /\ 0 < q /\ forall tr tg,
  nth_error (LinearResponseScreeningGericke2010 u (Some l) 0 k (Z_free (e_s E)) (Vei u k (Z_free (e_s E)) tr tg E Coulomb)) i = Some (Some (- q)).
Proof.
  exists unit_consts, 1, 1, env_two, 1%nat, 1. split; [lra|]. split; [lra|].
  assert (nth_error (DebyeHueckelScreening (Some 1) 1 (Z_free (e_s env_two))) 1 = Some (Some 1)) as E.
  { change (Z_free (e_s env_two)) with [1; 2]. rewrite (nth_DH 1 1 [1; 2] 1 2) by (reflexivity || lra). do 2 f_equal. field. }
  split; [exact E|]. split; [lra|]. intros tr tg.
  destruct (C58_linear_response_sign unit_consts 1 1 tr tg env_two 1 2) as (q & _ & A & B); [lra|lra|cbn; lra|reflexivity|lra|].
  rewrite E in A. injection A as <-. exact B.
Qed.
Print Assumptions C58_linear_response_refuted.

(** ** C111: screening lengths *)
Theorem C111_lengths : forall u n T, 0 < n -> 0 < T -> exists l lg Tg,
  DebyeHueckelScreeningLength u n T = Some l /\ Gericke2010ScreeningLength u n T = Some lg /\
  l ^ 2 * (n * e_ch u ^ 2) = eps0 u * kB u * T /\ lg ^ 2 * (n * e_ch u ^ 2) = eps0 u * kB u * Tg /\
  Tg ^ 4 = T ^ 4 + fermi_temperature u n ^ 4 /\ T < Tg < T + fermi_temperature u n /\ fermi_temperature u n < Tg /\ 0 < l < lg.
Proof.
  intros u n T Hn HT. cpos u. destruct (interp4 u n T Hn HT) as (E4 & L1 & L2 & L3). set (Tg := temperature_interpolation u n T 4) in *.
  destruct (length_some u n T Hn HT) as (l & El & Hl & Ql). destruct (length_some u n Tg Hn ltac:(lra)) as (lg & Elg & Hlg & Qlg).
  exists l, lg, Tg. repeat split; try assumption. apply Rnot_le_lt. intros L.
  assert (0 < n * e_ch u ^ 2) by (apply Rmult_lt_0_compat; [lra|apply pow_lt; lra]). assert (0 < eps0 u * kB u) by (apply Rmult_lt_0_compat; lra).
  assert (lg ^ 2 <= l ^ 2) by (apply pow_incr; lra). assert (eps0 u * kB u * T < eps0 u * kB u * Tg) by (apply Rmult_lt_compat_l; lra). nra.
Qed.
Print Assumptions C111_lengths.
(** the inverse Debye length of the structure factors is the same *)
Theorem C111_inverse : forall u n T l, 0 < n -> 0 < T -> DebyeHueckelScreeningLength u n T = Some l -> k_D_AD u T n 1 * l = 1.
Proof.
  intros u n T l Hn HT E. cpos u. destruct (length_some u n T Hn HT) as (l' & El & Hl & Ql). unfold DebyeHueckelScreeningLength in E. rewrite El in E. injection E as <-.
  unfold k_D_AD. rewrite <- (sqrt_pow2 l') at 1 by lra. assert (0 < e_ch u ^ 2) by (apply pow_lt; lra).
  assert (0 < eps0 u * kB u * T) as HD by (repeat (assumption || apply Rmult_lt_0_compat)).
  rewrite <- sqrt_mult; [|apply Rdiv_le_0_compat; [|lra]; apply Rmult_le_pos; lra|apply pow2_ge_0].
  replace (1 * n * e_ch u ^ 2 / (eps0 u * kB u * T) * l' ^ 2) with (l' ^ 2 * (n * e_ch u ^ 2) / (eps0 u * kB u * T)) by (field; repeat split; lra).
  rewrite Ql. replace (eps0 u * kB u * T / (eps0 u * kB u * T)) with 1 by (field; repeat split; lra). apply sqrt_1.
Qed.
Print Assumptions C111_inverse.
(** at long waves the finite wavelength model screens with the inverse length of
    Thomas and Fermi, generalised to finite temperature *)
Theorem C111_long_waves : forall F_m12 F_32 F_52 inv_F12 u T n, 0 < n -> 0 < T ->
  let th := T * kB u / fermi_energy u n in let eta := inv_F12 ((2 / 3 * Rpower th (- (3 / 2))) / (sqrt PI / 2)) in
  forall a J K, dandrea_a th = Some a -> dandrea_J th = Some J -> dandrea_K th = Some K -> F_m12 eta <> 0 ->
  exists X M, 0 < X /\ forall k, 0 < k <= X -> exists x, xi0_Dandrea u F_m12 F_32 F_52 inv_F12 k 0 T n = Some (- x, 0) /\
    Rabs (x * e_ch u ^ 2 / eps0 u - 2 * fermi_wavenumber n / (PI * a_0 u) * (sqrt th * (F_m12 eta * sqrt PI))) <= M * k ^ 2.
Proof. intros. eapply static_long; eassumption. Qed.
Print Assumptions C111_long_waves.
Theorem C111_degenerate : forall u isle n T v, isle n T <> 0 ->
  ArbitraryDegeneracyScreeningLength isle n T = Some (/ isle n T) /\ ConstantScreeningLength v = Some v /\
  nth_error (DebyeHueckelScreening (ArbitraryDegeneracyScreeningLength isle n T) (u : R) [1]) 0 = Some (Some (isle n T ^ 2 / (u ^ 2 + isle n T ^ 2))).
Proof.
  intros u isle n T v H. assert (ArbitraryDegeneracyScreeningLength isle n T = Some (/ isle n T)) as E. { unfold ArbitraryDegeneracyScreeningLength. rewrite qdiv_some by exact H. f_equal. field. exact H. }
  split; [exact E|]. split; [reflexivity|]. rewrite E. unfold DebyeHueckelScreening. cbn [obind]. assert (/ isle n T <> 0) as Hi by (now apply Rinv_neq_0_compat). rewrite qdiv_some by exact Hi.
  cbn [q_DebyeHueckel map unscreen map2 nth_error]. destruct (Req_EM_T 1 0) as [?|_]; [lra|]. do 2 f_equal. replace (1 / / isle n T) with (isle n T) by (field; exact H). unfold Rdiv. ring.
Qed.
Print Assumptions C111_degenerate.
Definition n_unit : R := 1 / (3 * PI ^ 2).
Example C111_ex : 0 < n_unit /\ 1 / 2 * kB unit_consts / fermi_energy unit_consts n_unit = 1 /\ (exists a, dandrea_a 1 = Some a) /\ (exists J, dandrea_J 1 = Some J) /\ (exists K, dandrea_K 1 = Some K).
Proof.
  pose proof PI_RGT_0. assert (0 < PI ^ 2) as P2 by (apply pow_lt; lra). pose proof PI_4. assert (PI ^ 2 <= 16) by nra.
  assert (forall y, Rpower 1 y = 1) as R1 by (intros y; unfold Rpower; now rewrite ln_1, Rmult_0_r, exp_0).
  split; [unfold n_unit; apply Rdiv_lt_0_compat; lra|]. split.
  - unfold fermi_energy, n_unit. cbn [hbar m_e unit_consts kB]. replace (3 * PI ^ 2 * (1 / (3 * PI ^ 2))) with 1 by (field; lra). rewrite R1. field.
  - assert (0 < sqrt PI) by (apply sqrt_lt_R0; lra). assert (0 < sqrt 2) by (apply sqrt_lt_R0; lra). assert (0 < sqrt 2 / sqrt PI) as Hr by (apply Rdiv_lt_0_compat; lra).
    repeat split.
    + unfold dandrea_a. rewrite R1. repeat (rewrite qdiv_some by lra; cbn [obind]). eexists; reflexivity.
    + unfold dandrea_J. rewrite R1. rewrite qdiv_some; [eexists; reflexivity|]. replace (3 * sqrt 2 * -3202700 / (4 * sqrt PI) * 1) with (- (3 * 3202700 / 4) * (sqrt 2 / sqrt PI)) by (field; lra). apply Rlt_not_eq. nra.
    + unfold dandrea_K. rewrite R1. rewrite qdiv_some; [eexists; reflexivity|]. replace (7 * sqrt 2 * - (23375 / 10) / (8 * sqrt PI) * 1) with (- (7 * 23375 / 80) * (sqrt 2 / sqrt PI)) by (field; lra). apply Rgt_not_eq. nra.
Qed.

(** ** C112: together, the clouds neutralise the ions *)
Lemma DH_list l k Z : 0 < l -> DebyeHueckelScreening (Some l) k Z = map Some (map (fun z => z / (1 + (k * l) ^ 2)) Z).
Proof.
  intros Hl. unfold DebyeHueckelScreening. cbn [obind]. rewrite qdiv_some by lra. unfold q_DebyeHueckel, unscreen. rewrite !map_map.
  assert (0 <= (k * l) ^ 2) by apply pow2_ge_0. assert (0 < k ^ 2 * l ^ 2 + 1) by (replace (k ^ 2 * l ^ 2) with ((k * l) ^ 2) by ring; lra).
  induction Z as [|z Z IH]; [reflexivity|]. cbn [map map2]. rewrite IH. f_equal. destruct (Req_EM_T z 0) as [->|_]; f_equal; field; repeat split; lra.
Qed.
Theorem C112_debye_hueckel : forall l k Z ni, 0 < l -> exists qs, DebyeHueckelScreening (Some l) k Z = map Some qs /\
  (1 + (k * l) ^ 2) * sum (map2 Rmult ni qs) = sum (map2 Rmult ni Z).
Proof.
  intros l k Z ni Hl. eexists. split; [now apply DH_list|]. assert (0 <= (k * l) ^ 2) by apply pow2_ge_0. set (d := 1 + (k * l) ^ 2) in *.
  revert ni. induction Z as [|z Z IH]; intros [|n ni]; cbn [map map2 sum fold_right]; try ring. fold (sum (map2 Rmult ni (map (fun z => z / d) Z))). fold (sum (map2 Rmult ni Z)). rewrite <- (IH ni). field. unfold d; lra.
Qed.
Print Assumptions C112_debye_hueckel.
(** not so for charged hard spheres of different charge *)
Theorem C112_hard_spheres : forall u lfc k T z1 z2 a b Ti TD q1 q2 Te, let n := a * z1 + b * z2 in let kD := k_D_AD u Te n 1 in
  0 < k -> 0 < a -> 0 < b -> 0 < z1 -> 0 < z2 -> z1 <> z2 -> lfc < 1 -> T_cf_Greg u T n = Some Te -> 0 < Te ->
  nth_error (GregoriCHSScreening u lfc k n T [z1; z2] [a; b] Ti TD) 0 = Some (Some q1) ->
  nth_error (GregoriCHSScreening u lfc k n T [z1; z2] [a; b] Ti TD) 1 = Some (Some q2) ->
  a * q1 + b * q2 < n * (kD ^ 2 / (k ^ 2 + kD ^ 2 * (1 - lfc))).
Proof.
  intros u lfc k T z1 z2 a b Ti TD q1 q2 Te n kD Hk Ha Hb H1 H2 Hne Hl ET HTe E1 E2.
  assert (0 < n) as Hn by (unfold n; assert (0 < a * z1) by (apply Rmult_lt_0_compat; lra); assert (0 < b * z2) by (apply Rmult_lt_0_compat; lra); lra).
  assert (1 / sum [a; b] * sum (map2 Rmult [a; b] [z1; z2]) = n / (a + b)) as EZ by (unfold n; cbn; field; lra).
  assert (0 < n / (a + b)) as HZf by (apply Rdiv_lt_0_compat; lra).
  rewrite (C58_hard_spheres u lfc k n T [z1; z2] [a; b] Ti TD 0 z1 q1 Te eq_refl H1 ET Hk HTe Hn ltac:(rewrite EZ; lra) Hl E1).
  rewrite (C58_hard_spheres u lfc k n T [z1; z2] [a; b] Ti TD 1 z2 q2 Te eq_refl H2 ET Hk HTe Hn ltac:(rewrite EZ; lra) Hl E2). rewrite EZ. fold kD. clear E1 E2 EZ.
  assert (0 < kD) as HkD. { unfold kD, k_D_AD. cpos u. apply sqrt_lt_R0. assert (0 < e_ch u ^ 2) by (apply pow_lt; lra). apply Rdiv_lt_0_compat; repeat (assumption || lra || apply Rmult_lt_0_compat). }
  assert (0 < kD ^ 2) by (apply pow_lt; lra). assert (0 < k ^ 2) by (apply pow_lt; lra). assert (0 <= kD ^ 2 * (1 - lfc)) by (apply Rmult_le_pos; lra).
  set (F := kD ^ 2 / (k ^ 2 + kD ^ 2 * (1 - lfc))). assert (0 < F) as HF by (unfold F; apply Rdiv_lt_0_compat; lra).
  set (Zf := n / (a + b)) in *. rewrite !sqrt_mult by lra. set (s1 := sqrt z1). set (s2 := sqrt z2). set (w := sqrt Zf).
  assert (s1 * s1 = z1) as S1 by (apply sqrt_sqrt; lra). assert (s2 * s2 = z2) as S2 by (apply sqrt_sqrt; lra). assert (w * w = Zf) as W by (apply sqrt_sqrt; lra).
  assert (0 < s1) by (apply sqrt_lt_R0; lra). assert (0 < s2) by (apply sqrt_lt_R0; lra). assert (0 < w) by (apply sqrt_lt_R0; lra).
  assert (s1 <> s2) as Hs by (intros E; apply Hne; rewrite <- S1, <- S2, E; reflexivity).
  replace (a * (s1 * w * kD ^ 2 / (k ^ 2 + kD ^ 2 * (1 - lfc))) + b * (s2 * w * kD ^ 2 / (k ^ 2 + kD ^ 2 * (1 - lfc)))) with (w * (a * s1 + b * s2) * F) by (unfold F; field; lra).
  apply Rmult_lt_compat_r; [exact HF|].
  assert ((a + b) * (w * w) = n) as En by (rewrite W; unfold Zf; field; lra). rewrite <- En. replace ((a + b) * (w * w)) with (w * ((a + b) * w)) by ring. apply Rmult_lt_compat_l; [lra|].
  assert (0 < (s1 - s2) ^ 2) as HD. { replace ((s1 - s2) ^ 2) with (Rsqr (s1 - s2)) by (unfold Rsqr; ring). apply Rlt_0_sqr. lra. }
  assert ((a * s1 + b * s2) ^ 2 < ((a + b) * w) ^ 2) as L.
  { replace (((a + b) * w) ^ 2) with ((a + b) * ((a + b) * (w * w))) by ring. rewrite En. unfold n. rewrite <- S1, <- S2.
    assert (0 < a * b * (s1 - s2) ^ 2) by (repeat (assumption || apply Rmult_lt_0_compat)). nra. }
  assert (0 < (a + b) * w) by (apply Rmult_lt_0_compat; lra). apply Rnot_le_lt. intros G. assert (((a + b) * w) ^ 2 <= (a * s1 + b * s2) ^ 2) by (apply pow_incr; lra). lra.
Qed.
Print Assumptions C112_hard_spheres.
Theorem C112_hard_spheres_refuted : exists u k T z1 z2 a b Ti TD q1 q2 Te, let n := a * z1 + b * z2 in let kD := k_D_AD u Te n 1 in
  0 < k /\ 0 < a /\ 0 < b /\ 0 < z1 /\ 0 < z2 /\ 0 < T /\ T_cf_Greg u T n = Some Te /\ 0 < Te /\
  nth_error (GregoriCHSScreening u 0 k n T [z1; z2] [a; b] Ti TD) 0 = Some (Some q1) /\
  nth_error (GregoriCHSScreening u 0 k n T [z1; z2] [a; b] Ti TD) 1 = Some (Some q2) /\
  a * q1 + b * q2 <> n * (kD ^ 2 / (k ^ 2 + kD ^ 2)).
Proof.
  destruct CHS_defined as (Te & k & ET & HTe & Hk & D). destruct (D (1 / 2) ltac:(lra) 0%nat ltac:(lia)) as [q1 E1]. destruct (D (1 / 2) ltac:(lra) 1%nat ltac:(lia)) as [q2 E2].
  assert (1 * (1 / 2) + 1 * (2 - 1 / 2) = 2) as En by lra.
  exists unit_consts, k, 1, (1 / 2), (2 - 1 / 2), 1, 1, [1; 1], [1; 1], q1, q2, Te. cbv zeta. rewrite En. split; [exact Hk|]. do 5 (split; [lra|]). split; [exact ET|]. split; [exact HTe|]. split; [exact E1|]. split; [exact E2|].
  pose proof (C112_hard_spheres unit_consts 0 k 1 (1 / 2) (2 - 1 / 2) 1 1 [1; 1] [1; 1] q1 q2 Te) as H. cbv zeta in H. rewrite En in H.
  specialize (H Hk ltac:(lra) ltac:(lra) ltac:(lra) ltac:(lra) ltac:(lra) ltac:(lra) ET HTe E1 E2). rewrite Rminus_0_r, (Rmult_1_r (_ ^ 2)) in H. lra.
Qed.
Print Assumptions C112_hard_spheres_refuted.
Example C112_ex : DebyeHueckelScreening (Some 1) 1 [1; 2] = map Some [1 / 2; 1] /\ 2 * (3 * (1 / 2) + 1 * 1) = 3 * 1 + 1 * 2.
Proof. split; [|lra]. rewrite DH_list by lra. cbn [map]. repeat f_equal; field. Qed.
Example C58_finite_coulomb_ex : exists k xi, 0 < k /\ xi0_Dandrea unit_consts (fun _ => 1) (fun _ => 1) (fun _ => 1) (fun x => x) k 0 (1 / 2) n_unit = Some xi /\ fst xi < 0.
Proof.
  destruct C111_ex as (Hn & Ht & (a & Ea) & (J & EJ) & (K & EK)).
  destruct (C111_long_waves (fun _ => 1) (fun _ => 1) (fun _ => 1) (fun x => x) unit_consts (1 / 2) n_unit Hn ltac:(lra) a J K) as (X & M & HX & H); try (rewrite Ht; assumption); [lra|].
  rewrite Ht in H. cbn [a_0 e_ch eps0 unit_consts] in H. rewrite sqrt_1 in H.
  set (c := 2 * fermi_wavenumber n_unit / (PI * 1) * (1 * (1 * sqrt PI))) in H.
  assert (Hc : 0 < c). { pose proof PI_RGT_0. assert (0 < sqrt PI) by now apply sqrt_lt_R0. assert (0 < fermi_wavenumber n_unit) by apply exp_pos. unfold c. apply Rmult_lt_0_compat; [apply Rdiv_lt_0_compat; lra|lra]. }
  clearbody c. pose proof (Rabs_pos M) as HM. set (q := c / (2 * (Rabs M + 1))).
  assert (Hq : 0 < q) by (unfold q; apply Rdiv_lt_0_compat; lra).
  set (k := Rmin X (Rmin 1 q)). assert (Hk : 0 < k <= X /\ k <= 1 /\ k <= q).
  { unfold k, Rmin. repeat destruct (Rle_dec _ _); lra. }
  destruct Hk as (HkX & Hk1 & Hkq). destruct (H k HkX) as (x & E & B). exists k, (- x, 0). split; [lra|]. split; [exact E|]. cbn [fst].
  replace (x * 1 ^ 2 / 1) with x in B by field.
  assert (M * k ^ 2 <= c / 2).
  { apply Rle_trans with (Rabs M * k ^ 2); [apply Rmult_le_compat_r; [apply pow2_ge_0|apply Rle_abs]|].
    apply Rle_trans with (Rabs M * k); [apply Rmult_le_compat_l; [exact HM|nra]|].
    apply Rle_trans with (Rabs M * q); [apply Rmult_le_compat_l; lra|]. apply Rle_trans with ((Rabs M + 1) * q); [nra|]. unfold q. right. field. lra. }
  apply Rabs_le_between in B. lra.
Qed.
