(** Spectra built from dielectric functions; the damped functions at real energies;
    the cut-off guess. *)
From Coq Require Import Reals List Arith Lra Lia Psatz FunctionalExtensionality.
From Coquelicot Require Import Complex.
From Verif Require Import M_Const M_PlasmaState M_PlasmaPhysics L_PlasmaPhysics M_Interp L_Interp M_Instrument L_Instrument
  M_FreeFree L_FreeFree L_FreeFree2 L_FreeFree3 L_FreeFree4.
Import ListNotations.
Open Scope R_scope.

(** the quadrature only looks at the inside of the interval *)
Definition quad_inside (quad : R -> option R -> (R -> option R) -> option R) : Prop :=
  (forall lo hi f g, lo < hi -> (forall x, lo < x < hi -> f x = g x) -> quad lo (Some hi) f = quad lo (Some hi) g) /\
  (forall lo f g, (forall x, lo < x -> f x = g x) -> quad lo None f = quad lo None g).
Lemma scales_zero quad lo hi y : quad_scales quad -> quad lo hi (fun _ => Some 0) = Some y -> y = 0.
Proof.
  intros Hs H. pose proof (Hs lo hi 0 (fun _ => Some 0)) as H0. cbn in H0. rewrite Rmult_0_l, H in H0. cbn in H0.
  rewrite Rmult_0_l in H0. injection H0 as ->. reflexivity.
Qed.

Section S.
  Variable u : consts.
  Variable quad : R -> option R -> (R -> option R) -> option R.
  Variables F_m12 F_32 F_52 inv_F12 : R -> R.
  Notation V k := (coulomb_k u (-1) (-1) k).
  Notation kT T := (kB u * T).

  Lemma balance_eps k T n E v lfc (eps : R -> option C) : 0 < T -> Cconj lfc = lfc ->
    eps E = oconj (eps (- E)) ->
    obind (eps E) (fun e => obind (xi_lfc (xi0_from_eps_RPA u e k) v lfc) (fun y => S0ee_from_susceptibility_FDT u k T n E y)) =
    option_map (fun s => exp (E / kT T) * s)
      (obind (eps (- E)) (fun e => obind (xi_lfc (xi0_from_eps_RPA u e k) v lfc) (fun y => S0ee_from_susceptibility_FDT u k T n (- E) y))).
  Proof.
    intros HT Hl He.
    pose proof (balance_xi u k T n E v lfc (fun E => obind (eps E) (fun e => Some (xi0_from_eps_RPA u e k))) HT Hl) as H.
    cbv beta in H. rewrite He in H |- *. destruct (eps (- E)) as [e|]; cbn [obind oconj option_map] in *; [|reflexivity].
    apply H. rewrite xi0_conj. reflexivity.
  Qed.

  (** ** Born-Mermin dielectric functions *)
  Lemma BMA_fit_sym b nu k E mu T n : quad_scales quad -> nu (- E) = oconj (nu E) ->
    dielectric_function_BMA_fit u quad F_m12 F_32 F_52 inv_F12 b nu k (- E) mu T n =
    oconj (dielectric_function_BMA_fit u quad F_m12 F_32 F_52 inv_F12 b nu k E mu T n).
  Proof.
    intros Hq Hn. unfold dielectric_function_BMA_fit. rewrite Hn. destruct (nu E) as [x|]; cbn [obind oconj option_map]; [|reflexivity].
    destruct (dielectric_function_Dandrea _ _ _ _ _ _ _ _ _) as [e0|] eqn:E0; cbn [obind oconj option_map]; [|reflexivity].
    rewrite damped_at_sym by assumption. destruct (damped_at _ _ _ _ _ _ _ _) as [e|]; cbn [obind oconj option_map]; [|reflexivity].
    replace (- E / hbar u) with (- (E / hbar u)) by (unfold Rdiv; ring).
    apply mermin_fit_conj. rewrite Cconj_minus, Cconj_R. f_equal.
    unfold dielectric_function_Dandrea in E0. apply obind_some in E0. destruct E0 as (x0 & Hx & E0).
    assert (e0 = Cminus (RtoC 1) (Cmult (RtoC (V k)) x0)) as -> by congruence.
    rewrite Cconj_minus, Cconj_mult, !Cconj_R. now rewrite (xi0_Dandrea_static _ _ _ _ _ _ _ _ _ Hx).
  Qed.
  Lemma BMA_interp_sym b nu k E mu T n : quad_scales quad -> nu (- E) = oconj (nu E) ->
    dielectric_function_BMA_interp u quad b nu k (- E) mu T n =
    oconj (dielectric_function_BMA_interp u quad b nu k E mu T n).
  Proof.
    intros Hq Hn. unfold dielectric_function_BMA_interp. rewrite Hn. destruct (nu E) as [x|]; cbn [obind oconj option_map]; [|reflexivity].
    destruct (dielectric_function_RPA_no_damping _ _ _ _ _ _ _) as [e0|] eqn:E0; cbn [obind oconj option_map]; [|reflexivity].
    rewrite damped_at_sym by assumption. destruct (damped_at _ _ _ _ _ _ _ _) as [e|]; cbn [obind oconj option_map]; [|reflexivity].
    replace (- E / hbar u) with (- (E / hbar u)) by (unfold Rdiv; ring).
    rewrite !mermin_interp_fit. apply mermin_fit_conj. rewrite Cconj_minus, Cconj_R.
    now rewrite (no_damping_static _ _ _ _ _ _ _ E0).
  Qed.
  Lemma BMA_full_sym b nu k E mu T n : quad_scales quad -> nu (- E) = oconj (nu E) ->
    dielectric_function_BMA_full u quad b nu k (- E) mu T n =
    oconj (dielectric_function_BMA_full u quad b nu k E mu T n).
  Proof.
    intros Hq Hn. unfold dielectric_function_BMA_full. rewrite Hn. destruct (nu E) as [x|]; cbn [obind oconj option_map]; [|reflexivity].
    rewrite damped_at_sym by assumption. destruct (damped_at _ _ _ _ _ _ _ _) as [e|]; cbn [obind oconj option_map]; [|reflexivity].
    destruct (dielectric_function_RPA_no_damping _ _ _ _ _ _ _) as [e0|] eqn:E0; cbn [obind oconj option_map]; [|reflexivity].
    replace (- E / hbar u) with (- (E / hbar u)) by (unfold Rdiv; ring).
    apply mermin_full_conj. rewrite Cconj_minus, Cconj_R. now rewrite (no_damping_static _ _ _ _ _ _ _ E0).
  Qed.
  Lemma BMA_Fortmann_sym b nu k E mu T n lfc : quad_scales quad -> Cconj lfc = lfc -> nu (- E) = oconj (nu E) ->
    susceptibility_BMA_Fortmann u quad F_m12 F_32 F_52 inv_F12 b nu k (- E) mu T n lfc =
    oconj (susceptibility_BMA_Fortmann u quad F_m12 F_32 F_52 inv_F12 b nu k E mu T n lfc).
  Proof.
    intros Hq Hl Hn. unfold susceptibility_BMA_Fortmann. rewrite Hn. destruct (nu E) as [x|]; cbn [obind oconj option_map]; [|reflexivity].
    rewrite damped_at_sym by assumption. destruct (damped_at _ _ _ _ _ _ _ _) as [e|]; cbn [obind oconj option_map]; [|reflexivity].
    rewrite xi0_conj. rewrite <- Hl at 1. rewrite xi_lfc_conj.
    destruct (xi_lfc (xi0_from_eps_RPA u e k) (V k) lfc) as [xd|]; cbn [obind oconj option_map]; [|reflexivity].
    destruct (xi0_Dandrea _ _ _ _ _ _ _ _ _) as [x0|] eqn:E0; cbn [obind oconj option_map]; [|reflexivity].
    destruct (xi_lfc x0 _ _) as [xs|] eqn:E1; cbn [obind oconj option_map]; [|reflexivity].
    replace (- E / hbar u) with (- (E / hbar u)) by (unfold Rdiv; ring).
    apply mermin_Fortmann_conj. apply xi0_Dandrea_static in E0.
    pose proof (xi_lfc_conj x0 (V k) lfc) as H. rewrite E0, Hl, E1 in H. cbn in H. congruence.
  Qed.

  (** ** real energies *)
  Lemma lno_sq a b : 0 < b -> obind (qdiv (a ^ 2) (b ^ 2)) lno = option_map (fun l => 2 * l) (obind (qdiv (Rabs a) b) lno).
  Proof.
    intros Hb. unfold qdiv. destruct (Req_EM_T (b ^ 2) 0) as [H|H]; [nra|]. destruct (Req_EM_T b 0) as [H'|H']; [lra|].
    cbn [obind]. unfold lno. destruct (Req_dec a 0) as [->|Ha].
    - rewrite Rabs_R0. destruct (Rlt_dec _ _) as [L|L]; [exfalso; revert L; unfold Rdiv; rewrite pow_i, Rmult_0_l by lia; lra|].
      destruct (Rlt_dec _ _) as [L'|L']; [exfalso; revert L'; unfold Rdiv; rewrite Rmult_0_l; lra|]. reflexivity.
    - assert (0 < Rabs a) by now apply Rabs_pos_lt. assert (0 < Rabs a / b) by now apply Rdiv_lt_0_compat.
      assert (E : a ^ 2 / b ^ 2 = Rabs a / b * (Rabs a / b)).
      { rewrite <- (pow2_abs a). field. lra. }
      destruct (Rlt_dec 0 (a ^ 2 / b ^ 2)) as [L|L]; [|exfalso; apply L; rewrite E; now apply Rmult_lt_0_compat].
      destruct (Rlt_dec 0 (Rabs a / b)) as [L'|L']; [|contradiction].
      cbn [option_map]. rewrite E, ln_mult by assumption. f_equal. lra.
  Qed.
  Lemma qdiv_zero a b : b = 0 -> qdiv a b = None.
  Proof. intros ->. apply qdiv_0. Qed.
  Lemma integrand_real_twice unit k kappa mu T Q :
    integrand_real_RPA u unit k kappa 0 mu T Q = option_map (fun y => 2 * y) (integrand_no_damping u unit k kappa mu T Q).
  Proof.
    unfold integrand_real_RPA, integrand_no_damping. set (q := Q / unit). clearbody q.
    set (n1 := kappa - k / 2 - q). set (n2 := kappa + k / 2 + q). set (d1 := kappa - k / 2 + q). set (d2 := kappa + k / 2 - q).
    replace ((0 ^ 2 + n1 ^ 2) * (0 ^ 2 + n2 ^ 2)) with ((Rabs n1 * Rabs n2) ^ 2)
      by (rewrite Rpow_mult_distr, !pow2_abs; ring).
    replace ((0 ^ 2 + d1 ^ 2) * (0 ^ 2 + d2 ^ 2)) with ((Rabs d1 * Rabs d2) ^ 2)
      by (rewrite Rpow_mult_distr, !pow2_abs; ring).
    pose proof (Rmult_le_pos _ _ (Rabs_pos d1) (Rabs_pos d2)) as Hd.
    destruct (Req_dec (Rabs d1 * Rabs d2) 0) as [E|E].
    - rewrite E, (qdiv_zero _ 0) by reflexivity. rewrite qdiv_zero by ring. reflexivity.
    - pose proof (lno_sq (Rabs n1 * Rabs n2) (Rabs d1 * Rabs d2) ltac:(lra)) as H.
      rewrite (Rabs_pos_eq (Rabs n1 * Rabs n2)) in H by (apply Rmult_le_pos; apply Rabs_pos).
      destruct (qdiv ((Rabs n1 * Rabs n2) ^ 2) _) as [a|] eqn:Ea.
      + cbn [obind] in *. destruct (qdiv (Rabs n1 * Rabs n2) _) as [a'|]; cbn [obind] in *.
        * rewrite H. destruct (lno a'); cbn; [|reflexivity]. f_equal. ring.
        * cbn in H. rewrite H. reflexivity.
      + cbn [obind] in *. destruct (qdiv (Rabs n1 * Rabs n2) _) as [a'|]; cbn [obind] in *; [|reflexivity].
        destruct (lno a'); [discriminate H|reflexivity].
  Qed.
  Lemma RPA_real k E mu T : quad_scales quad ->
    dielectric_function_RPA u quad k (RtoC E) mu T = dielectric_function_RPA_no_damping u quad true k E mu T.
  Proof.
    intros Hq. unfold dielectric_function_RPA, dielectric_function_RPA_no_damping, real_RPA, imag_RPA, real_no_damping.
    cbn [fst snd RtoC]. replace (0 / hbar u * m_e u / (hbar u * k)) with 0 by (unfold Rdiv; ring).
    destruct (Req_EM_T 0 0) as [_|]; [|easy].
    rewrite (functional_extensionality _ _ (integrand_real_twice _ _ _ _ _)), Hq.
    destruct (quad 0 None (integrand_no_damping _ _ _ _ _ _)) as [I|]; cbn [obind option_map]; [|reflexivity].
    do 2 f_equal. f_equal. unfold Rdiv. rewrite !Rinv_mult. set (a := / hbar u ^ 2). clearbody a.
    set (b := / k ^ 3). clearbody b. set (c := / PI ^ 2). clearbody c. set (d := / eps0 u). clearbody d.
    set (t := / thermal_unit u T ^ 2). clearbody t. field.
  Qed.

  Lemma sqrt_rw T : 0 < T -> 0 < sqrt 2 * sqrt (kB u * T / m_e u).
  Proof.
    intros HT. apply Rmult_lt_0_compat; apply sqrt_lt_R0; [lra|]. apply Rdiv_lt_0_compat; [now apply kT_pos|apply m_e_pos].
  Qed.
  Lemma imag_rewrite_zero unit rr kap eta w : w / unit <> rr -> w / unit <> - rr ->
    integrand_imag_rewrite unit rr 0 kap eta w = Some 0.
  Proof.
    intros H1 H2. unfold integrand_imag_rewrite, qdiv.
    destruct (Req_EM_T _ 0) as [H|_]; [exfalso; nra|]. cbn [obind].
    destruct (Req_EM_T _ 0) as [H|_]; [exfalso; nra|]. cbn [obind]. f_equal. ring.
  Qed.
  Lemma rewrite_imag_real k E mu T v : quad_scales quad -> quad_inside quad -> 0 < k -> 0 < T ->
    part_rewrite u quad integrand_imag_rewrite k (RtoC E) mu T = Some v -> v = 0.
  Proof.
    intros Hs [Hi1 Hi2] Hk HT. unfold part_rewrite. cbn [fst snd RtoC].
    replace (red_w u k 0 T) with 0 by (unfold red_w, Rdiv; ring).
    destruct (Req_EM_T (red_w u k E T) 0) as [H0|H0].
    { destruct (Req_EM_T 0 0); [discriminate|easy]. }
    set (rr := red_w u k E T) in *. set (un := 1 / Rabs rr).
    assert (Hp : 0 < Rabs rr) by now apply Rabs_pos_lt.
    assert (Hz : forall x, 0 < x -> x <> 1 -> integrand_imag_rewrite un rr 0 (kap_rewrite u k T) (mu / kT T) x = Some 0).
    { intros x Hx Hx1. apply imag_rewrite_zero.
      - intros H. apply Hx1. apply (f_equal Rabs) in H. unfold un in H.
        replace (x / (1 / Rabs rr)) with (x * Rabs rr) in H by (field; lra).
        rewrite Rabs_mult, Rabs_Rabsolu, (Rabs_pos_eq x) in H by lra. nra.
      - intros H. apply Hx1. apply (f_equal Rabs) in H. unfold un in H. rewrite Rabs_Ropp in H.
        replace (x / (1 / Rabs rr)) with (x * Rabs rr) in H by (field; lra).
        rewrite Rabs_mult, Rabs_Rabsolu, (Rabs_pos_eq x) in H by lra. nra. }
    rewrite (Hi1 0 1 _ (fun _ => Some 0)) by (lra || (intros; apply Hz; lra)).
    rewrite (Hi2 1 _ (fun _ => Some 0)) by (intros; apply Hz; lra).
    destruct (quad 0 (Some 1) (fun _ => Some 0)) as [i|] eqn:Ei; cbn [obind]; [|discriminate].
    destruct (quad 1 None (fun _ => Some 0)) as [j|] eqn:Ej; cbn [obind]; [|discriminate].
    apply scales_zero in Ei, Ej; [|assumption|assumption]. subst. intros H. assert (v = _) as -> by (symmetry; injection H as H; exact H). ring.
  Qed.
  Lemma real_xi_lfc x v g y : xi_lfc (RtoC x) v (RtoC g) = Some y -> snd y = 0.
  Proof.
    unfold xi_lfc. intros H. apply cdiv_inv in H. destruct H as [_ ->].
    unfold Cdiv, Cinv, Cminus, Cplus, Cmult, Copp, RtoC; cbn [fst snd]. unfold Rdiv. ring.
  Qed.
  (** at real energies the default damped form has no spectrum *)
  Lemma S0_ee_RPA_default k T n E mu g s : quad_scales quad -> quad_inside quad -> 0 < k -> 0 < T ->
    S0_ee_RPA u quad true k T n E mu (RtoC g) = Some s -> s = 0.
  Proof.
    intros Hs Hi Hk HT H. unfold S0_ee_RPA, damped, dielectric_function_RPA_rewrite in H.
    apply obind_some in H. destruct H as (e & He & H). apply obind_some in He. destruct He as (re & _ & He).
    apply obind_some in He. destruct He as (im & Him & He). apply rewrite_imag_real in Him; try assumption. subst im.
    assert (e = RtoC (1 - re)) as -> by (unfold RtoC; injection He as <-; f_equal; ring).
    apply obind_some in H. destruct H as (y & Hy & H).
    assert (Hx : xi0_from_eps_RPA u (RtoC (1 - re)) k = RtoC (re / V k)).
    { apply C_eq; [|rewrite xi0_imag by lra]; pose proof (V_pos u k ltac:(lra)).
      - unfold xi0_from_eps_RPA, Vee. unfold Cdiv, Cinv, Cminus, Cplus, Cmult, Copp, RtoC; cbn [fst snd].
        field. lra.
      - cbn. unfold Rdiv. ring. }
    rewrite Hx in Hy. apply real_xi_lfc in Hy.
    unfold S0ee_from_susceptibility_FDT in H. apply obind_some in H. destruct H as (f & _ & H).
    assert (s = - (f * snd (Cmult y (RtoC (V k))))) as -> by congruence.
    unfold Cmult, RtoC; cbn [fst snd]. rewrite Hy. ring.
  Qed.
End S.

(** ** the guessed cut-off *)
Lemma all_some_none l : In None l -> all_some l = None.
Proof.
  induction l as [|a l IH]; cbn; [easy|]. intros [->|H]; [reflexivity|].
  rewrite (IH H). destruct a; reflexivity.
Qed.
Lemma guess_max_nan See E_max KKT : 0 <= E_max -> See 0 = None ->
  guess_E_cutoff_max See E_max KKT = if KKT then 15 * E_max else E_max.
Proof.
  intros HE H0. unfold guess_E_cutoff_max. set (G := linspace 0 (10 * E_max) 500).
  assert (HG : length G = 500%nat) by apply linspace_length.
  assert (Hhd : at_ G 0 = 0).
  { unfold G. rewrite linspace_at by lia. cbn [INR]. unfold Rdiv. ring. }
  assert (Hin : In 0 G).
  { rewrite <- Hhd. apply nth_In. lia. }
  assert (Hn : nanmax (map (option_map (fun s => s * (1 / 10000))) (map See G)) = None).
  { unfold nanmax. rewrite all_some_none; [reflexivity|]. rewrite map_map. apply in_map_iff. exists 0. rewrite H0. easy. }
  rewrite Hn.
  assert (Hmax : lmax G = 10 * E_max).
  { assert (Hle : forall i, (i < 500)%nat -> at_ G i = 10 * E_max * (INR i / INR 499)).
    { intros i Hi. unfold G. rewrite linspace_at by lia. replace (INR (500 - 1)) with (INR 499) by reflexivity.
      unfold Rdiv. ring. }
    assert (HGn : G <> []) by (intros E; rewrite E in HG; discriminate).
    rewrite lmax_last.
    - rewrite HG, Hle by lia. change (500 - 1)%nat with 499%nat. field. apply not_0_INR. lia.
    - exact HGn.
    - intros i j Hij. rewrite HG in Hij. rewrite !Hle by lia.
      apply Rmult_le_compat_l; [lra|]. apply Rmult_le_compat_r; [left; apply Rinv_0_lt_compat, lt_0_INR; lia|].
      apply le_INR. lia. }
  rewrite (lmin_const (10 * E_max)).
  - replace (10 * E_max * (3 / 2)) with (15 * E_max) by lra. rewrite Rabs_pos_eq by lra.
    destruct KKT; [reflexivity|]. apply Rmin_right. lra.
  - intros E. apply (f_equal (@length R)) in E. rewrite map2_len in E by (now rewrite map_length).
    rewrite map_length, HG in E. discriminate.
  - rewrite Hmax. clear. clearbody G. generalize (map See G). clear See. intros l. revert G.
    induction l as [|a l IH]; intros [|b m] x Hx; cbn in Hx; try easy.
    destruct Hx as [<-|Hx]; [now destruct a|]. now apply IH in Hx.
Qed.
