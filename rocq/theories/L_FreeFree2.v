From Coq Require Import Reals List Arith Lra Lia Psatz FunctionalExtensionality.
From Coquelicot Require Import Complex.
From Verif Require Import M_Const M_PlasmaState M_PlasmaPhysics L_PlasmaPhysics M_Interp L_Interp M_Instrument L_Instrument M_FreeFree L_FreeFree.
Import ListNotations.
Open Scope R_scope.

(** A quadrature is reflected with its interval for an even integrand. *)
Definition quad_reflects (quad : R -> option R -> (R -> option R) -> option R) : Prop :=
  forall x f, (forall t, f (- t) = f t) -> quad 0 (Some (- x)) f = option_map Ropp (quad 0 (Some x) f).
Definition quad_scales (quad : R -> option R -> (R -> option R) -> option R) : Prop :=
  forall lo hi c f, quad lo hi (fun x => option_map (fun y => c * y) (f x)) = option_map (fun y => c * y) (quad lo hi f).

Lemma qdiv_opp a b : qdiv (- a) b = option_map Ropp (qdiv a b).
Proof. unfold qdiv. destruct (Req_EM_T b 0); cbn; [reflexivity|]. f_equal. unfold Rdiv. ring. Qed.

Lemma ln_quot a b : 0 < a -> 0 < b -> ln (a / b) = ln a - ln b.
Proof. intros. unfold Rdiv. rewrite ln_mult, ln_Rinv by (try assumption; now apply Rinv_0_lt_compat). ring. Qed.

Section Sym.
  Variable u : consts.
  Variable quad : R -> option R -> (R -> option R) -> option R.
  Variables F_m12 F_32 F_52 inv_F12 : R -> R.
  Notation V k := (coulomb_k u (-1) (-1) k).
  Notation kT T := (kB u * T).

  Lemma kT_pos T : 0 < T -> 0 < kT T.
  Proof. intros H. pose proof (kB_pos u). now apply Rmult_lt_0_compat. Qed.
  Lemma kin_even x : kin_energy u (- x) = kin_energy u x.
  Proof. unfold kin_energy. replace ((- x) ^ 2) with (x ^ 2) by ring. reflexivity. Qed.

  (** *** Undamped RPA *)
  Lemma imag_no_damping_odd k E mu T : imag_no_damping u k (- E) mu T = - imag_no_damping u k E mu T.
  Proof.
    unfold imag_no_damping.
    replace (- E / hbar u * m_e u / (hbar u * k)) with (- (E / hbar u * m_e u / (hbar u * k))) by (unfold Rdiv; ring).
    set (q := E / hbar u * m_e u / (hbar u * k)).
    replace (- k / 2 - - q) with (- (k / 2 - q)) by lra. replace (k / 2 - - q) with (- (- k / 2 - q)) by lra.
    rewrite !kin_even. ring.
  Qed.
  Lemma integrand_no_damping_even unit k kappa mu T Q :
    integrand_no_damping u unit k (- kappa) mu T Q = integrand_no_damping u unit k kappa mu T Q.
  Proof.
    unfold integrand_no_damping. set (q := Q / unit).
    replace (- kappa - k / 2 - q) with (- (kappa + k / 2 + q)) by ring.
    replace (- kappa + k / 2 + q) with (- (kappa - k / 2 - q)) by ring.
    replace (- kappa - k / 2 + q) with (- (kappa + k / 2 - q)) by ring.
    replace (- kappa + k / 2 - q) with (- (kappa - k / 2 + q)) by ring.
    rewrite !Rabs_Ropp. rewrite (Rmult_comm (Rabs (kappa + k / 2 + q))), (Rmult_comm (Rabs (kappa + k / 2 - q))). reflexivity.
  Qed.
  Lemma real_no_damping_even b k E mu T : real_no_damping u quad b k (- E) mu T = real_no_damping u quad b k E mu T.
  Proof.
    unfold real_no_damping.
    replace (- E / hbar u * m_e u / (hbar u * k)) with (- (E / hbar u * m_e u / (hbar u * k))) by (unfold Rdiv; ring).
    set (q := E / hbar u * m_e u / (hbar u * k)).
    assert (HI : forall unit, integrand_no_damping u unit k (- q) mu T = integrand_no_damping u unit k q mu T).
    { intros unit. extensionality Q. apply integrand_no_damping_even. }
    rewrite !HI, Ropp_involutive, (Rmin_comm (- q - k / 2)). reflexivity.
  Qed.
  Lemma no_damping_sym b k E mu T :
    dielectric_function_RPA_no_damping u quad b k (- E) mu T = oconj (dielectric_function_RPA_no_damping u quad b k E mu T).
  Proof.
    unfold dielectric_function_RPA_no_damping. rewrite real_no_damping_even, imag_no_damping_odd.
    destruct (real_no_damping u quad b k E mu T); reflexivity.
  Qed.
  Lemma no_damping_static b k mu T e : dielectric_function_RPA_no_damping u quad b k 0 mu T = Some e -> Cconj e = e.
  Proof.
    intros H. pose proof (no_damping_sym b k 0 mu T) as S. rewrite Ropp_0, H in S. cbn in S. congruence.
  Qed.
  Lemma lae_lt x y : x < y -> logaddexp0 x < logaddexp0 y.
  Proof. intros H. unfold logaddexp0. apply ln_increasing; [pose proof (exp_pos x); lra|]. pose proof (exp_increasing x y H). lra. Qed.
  Lemma imag_no_damping_sign k E mu T : 0 < k -> 0 < T -> E <> 0 -> 0 < E * imag_no_damping u k E mu T.
  Proof.
    intros Hk HT HE. pose proof (kT_pos T HT) as HkT. pose proof (hbar_pos u) as Hh. pose proof (m_e_pos u) as Hm.
    pose proof (e_pos u) as He. pose proof (eps0_pos u) as H0. pose proof PI_RGT_0 as HPI.
    assert (Hpos : forall E, 0 < E -> 0 < imag_no_damping u k E mu T).
    { clear E HE. intros E HE. unfold imag_no_damping. set (q := E / hbar u * m_e u / (hbar u * k)).
      assert (Hq : 0 < q).
      { unfold q. apply Rmult_lt_0_compat; [apply Rmult_lt_0_compat; [apply Rmult_lt_0_compat; [assumption|now apply Rinv_0_lt_compat]|assumption]|].
        apply Rinv_0_lt_compat. now apply Rmult_lt_0_compat. }
      set (p := _ / (2 * PI * eps0 u * hbar u ^ 4 * k ^ 3)).
      assert (Hp : 0 < p).
      { unfold p. apply Rmult_lt_0_compat.
        - apply Rmult_lt_0_compat; [apply Rmult_lt_0_compat; [assumption|now apply pow_lt]|now apply pow_lt].
        - apply Rinv_0_lt_compat. assert (0 < hbar u ^ 4) by (now apply pow_lt). assert (0 < k ^ 3) by (now apply pow_lt).
          apply Rmult_lt_0_compat; [|assumption]. apply Rmult_lt_0_compat; [|assumption]. apply Rmult_lt_0_compat; [lra|assumption]. }
      assert (HL : logaddexp0 ((mu - kin_energy u (- k / 2 - q)) / kT T) < logaddexp0 ((mu - kin_energy u (k / 2 - q)) / kT T)).
      { apply lae_lt. apply Rdiv_lt_compat_r; [assumption|]. unfold kin_energy. apply Ropp_lt_cancel.
        enough (hbar u ^ 2 * (k / 2 - q) ^ 2 / (2 * m_e u) < hbar u ^ 2 * (- k / 2 - q) ^ 2 / (2 * m_e u)) by lra.
        apply Rdiv_lt_compat_r; [lra|]. apply Rmult_lt_compat_l; [now apply pow_lt|]. nra. }
      clearbody p q. nra. }
    destruct (Rtotal_order E 0) as [L|[L|L]]; [|contradiction|].
    - rewrite <- (Ropp_involutive E) at 2. rewrite imag_no_damping_odd. pose proof (Hpos (- E) ltac:(lra)). nra.
    - pose proof (Hpos E L). nra.
  Qed.

  (** *** Damped RPA, energies in the upper or lower half plane *)
  Lemma scale_re (z : C) : fst (Copp (Cconj z)) = - fst z /\ snd (Copp (Cconj z)) = snd z.
  Proof. unfold Copp, Cconj. cbn [fst snd]. lra. Qed.
  Lemma RPA_sym k z mu T : quad_scales quad ->
    dielectric_function_RPA u quad k (Copp (Cconj z)) mu T = oconj (dielectric_function_RPA u quad k z mu T).
  Proof.
    intros HQ. unfold dielectric_function_RPA, real_RPA, imag_RPA. destruct (scale_re z) as [-> ->].
    replace (- fst z / hbar u * m_e u / (hbar u * k)) with (- (fst z / hbar u * m_e u / (hbar u * k))) by (unfold Rdiv; ring).
    set (q := fst z / hbar u * m_e u / (hbar u * k)). set (d := snd z / hbar u * m_e u / (hbar u * k)). set (un := thermal_unit u T).
    assert (HR : integrand_real_RPA u un k (- q) d mu T = integrand_real_RPA u un k q d mu T).
    { extensionality Q. unfold integrand_real_RPA. set (y := Q / un).
      replace ((- q - k / 2 - y) ^ 2) with ((q + k / 2 + y) ^ 2) by ring.
      replace ((- q + k / 2 + y) ^ 2) with ((q - k / 2 - y) ^ 2) by ring.
      replace ((- q - k / 2 + y) ^ 2) with ((q + k / 2 - y) ^ 2) by ring.
      replace ((- q + k / 2 - y) ^ 2) with ((q - k / 2 + y) ^ 2) by ring.
      rewrite (Rmult_comm (d ^ 2 + (q + k / 2 + y) ^ 2)), (Rmult_comm (d ^ 2 + (q + k / 2 - y) ^ 2)). reflexivity. }
    rewrite HR. destruct (quad 0 None (integrand_real_RPA u un k q d mu T)) as [Ir|]; cbn [obind]; [|reflexivity].
    destruct (Req_EM_T d 0) as [E|E].
    { cbn [obind oconj option_map]. rewrite imag_no_damping_odd. reflexivity. }
    assert (HI : integrand_imag_RPA u un k (- q) d mu T = fun Q => option_map (fun y => -1 * y) (integrand_imag_RPA u un k q d mu T Q)).
    { extensionality Q. unfold integrand_imag_RPA. set (y := Q / un). rewrite !qdiv_some by assumption. cbn [obind option_map]. f_equal.
      replace ((- q - k / 2 - y) / d) with (- ((q + k / 2 + y) / d)) by (unfold Rdiv; ring).
      replace ((- q + k / 2 + y) / d) with (- ((q - k / 2 - y) / d)) by (unfold Rdiv; ring).
      replace ((- q - k / 2 + y) / d) with (- ((q + k / 2 - y) / d)) by (unfold Rdiv; ring).
      replace ((- q + k / 2 - y) / d) with (- ((q - k / 2 + y) / d)) by (unfold Rdiv; ring).
      rewrite !atan_opp. ring. }
    rewrite HI, HQ. destruct (quad 0 None (integrand_imag_RPA u un k q d mu T)) as [Ii|]; cbn [obind option_map oconj]; [|reflexivity].
    f_equal. unfold Cconj. cbn [fst snd]. f_equal. ring.
  Qed.
  Lemma red_w_opp k E T : red_w u k (- E) T = - red_w u k E T.
  Proof. unfold red_w, Rdiv. ring. Qed.
  Lemma part_sym f s k z mu T : quad_scales quad ->
    (forall un rr ri kap eta w, f un (- rr) ri kap eta w = option_map (fun y => s * y) (f un rr ri kap eta w)) ->
    part_rewrite u quad f k (Copp (Cconj z)) mu T = option_map (fun y => s * y) (part_rewrite u quad f k z mu T).
  Proof.
    intros HQ Hf. unfold part_rewrite. destruct (scale_re z) as [-> ->]. rewrite red_w_opp.
    set (rr := red_w u k (fst z) T). set (ri := red_w u k (snd z) T).
    destruct (Req_EM_T rr 0) as [E|E].
    - destruct (Req_EM_T (- rr) 0); [|lra]. destruct (Req_EM_T ri 0); cbn; [reflexivity|]. f_equal. ring.
    - destruct (Req_EM_T (- rr) 0); [lra|]. rewrite Rabs_Ropp. set (un := 1 / Rabs rr).
      assert (Hg : f un (- rr) ri (kap_rewrite u k T) (mu / kT T) = fun w => option_map (fun y => s * y) (f un rr ri (kap_rewrite u k T) (mu / kT T) w)).
      { extensionality w. apply Hf. }
      rewrite Hg, !HQ.
      destruct (quad 0 (Some 1) _) as [I1|]; cbn [obind option_map]; [|reflexivity].
      destruct (quad 1 None _) as [I2|]; cbn [obind option_map]; [|reflexivity]. f_equal. ring.
  Qed.
  Lemma rewrite_sym k z mu T : quad_scales quad ->
    dielectric_function_RPA_rewrite u quad k (Copp (Cconj z)) mu T = oconj (dielectric_function_RPA_rewrite u quad k z mu T).
  Proof.
    intros HQ. unfold dielectric_function_RPA_rewrite.
    rewrite (part_sym integrand_real_rewrite 1), (part_sym integrand_imag_rewrite (-1)); try assumption.
    - destruct (part_rewrite u quad integrand_real_rewrite k z mu T) as [re|]; cbn [obind option_map oconj]; [|reflexivity].
      destruct (part_rewrite u quad integrand_imag_rewrite k z mu T) as [im|]; cbn [obind option_map oconj]; [|reflexivity].
      f_equal. unfold Cconj. cbn [fst snd]. f_equal; ring.
    - intros un rr ri kap eta w. unfold integrand_imag_rewrite. set (y := w / un).
      replace (y - - rr) with (y + rr) by ring. replace (y + - rr) with (y - rr) by ring.
      destruct (qdiv 1 ((y + rr) ^ 2 + ri ^ 2)) as [a|]; destruct (qdiv 1 ((y - rr) ^ 2 + ri ^ 2)) as [b|]; cbn; try reflexivity. f_equal. ring.
    - intros un rr ri kap eta w. unfold integrand_real_rewrite. set (y := w / un).
      replace (y - - rr) with (y + rr) by ring. replace (y + - rr) with (y - rr) by ring.
      destruct (qdiv (y + rr) ((y + rr) ^ 2 + ri ^ 2)) as [a|]; destruct (qdiv (y - rr) ((y - rr) ^ 2 + ri ^ 2)) as [b|]; cbn; try reflexivity. f_equal. ring.
  Qed.
  Lemma damped_sym b k z mu T : quad_scales quad ->
    damped u quad b k (Copp (Cconj z)) mu T = oconj (damped u quad b k z mu T).
  Proof. intros HQ. destruct b; [now apply rewrite_sym|now apply RPA_sym]. Qed.
  Lemma damped_real_sym b k E mu T : quad_scales quad ->
    damped u quad b k (RtoC (- E)) mu T = oconj (damped u quad b k (RtoC E) mu T).
  Proof. intros HQ. rewrite <- damped_sym by assumption. f_equal. cz; ring. Qed.
  Lemma damped_at_sym b k E n mu T : quad_scales quad ->
    damped_at u quad b k (- E) (Cconj n) mu T = oconj (damped_at u quad b k E n mu T).
  Proof. intros HQ. unfold damped_at. rewrite <- damped_sym by assumption. f_equal. cz; ring. Qed.

  (** *** Salpeter *)
  Lemma salpeter_sym k T n E : quad_reflects quad ->
    dielectric_function_salpeter u quad k T n (- E) = oconj (dielectric_function_salpeter u quad k T n E).
  Proof.
    intros HQ. unfold dielectric_function_salpeter.
    replace (- E / hbar u / (sqrt 2 * k * sqrt (kT T / m_e u))) with (- (E / hbar u / (sqrt 2 * k * sqrt (kT T / m_e u)))) by (unfold Rdiv; ring).
    set (x := E / hbar u / (sqrt 2 * k * sqrt (kT T / m_e u))). set (kap := hbar u * k / (2 * sqrt 2 * m_e u * sqrt (kT T / m_e u))).
    set (A := RtoC (_ / _ * _)).
    replace (- x + kap) with (- (x - kap)) by ring. replace (- x - kap) with (- (x + kap)) by ring.
    assert (HW : forall y, W_salpeter quad (- y) = oconj (option_map (fun w => w) (W_salpeter quad y))).
    { intros y. unfold W_salpeter. rewrite HQ by (intros t; do 2 f_equal; ring).
      destruct (quad 0 (Some y) (fun t : R => Some (exp (t ^ 2)))) as [I|]; cbn [obind option_map oconj]; [|reflexivity].
      f_equal. unfold Cconj. cbn [fst snd]. replace ((- y) ^ 2) with (y ^ 2) by ring. f_equal; ring. }
    rewrite !HW. destruct (W_salpeter quad (x + kap)) as [w1|]; destruct (W_salpeter quad (x - kap)) as [w2|]; cbn [obind option_map oconj]; try reflexivity.
    assert (HD : forall w y, cdiv (Cminus (RtoC 1) (Cconj w)) (RtoC (- y)) = option_map (fun g => Copp (Cconj g)) (cdiv (Cminus (RtoC 1) w) (RtoC y))).
    { intros w y. replace (RtoC (- y)) with (Copp (Cconj (RtoC y))) by (cz; ring).
      replace (Cminus (RtoC 1) (Cconj w)) with (Copp (Copp (Cconj (Cminus (RtoC 1) w)))) by (cz; ring).
      rewrite cdiv_opp. replace (Copp (Cconj (Cminus 1 w))) with (Cconj (Copp (Cminus 1 w))) by (cz; ring). rewrite cdiv_conj.
      unfold cdiv. destruct (Ceq_dec y 0); cbn; [reflexivity|]. f_equal. unfold Cdiv. cz; ring. }
    rewrite !HD. destruct (cdiv (Cminus 1 w1) (RtoC (x + kap))) as [g1|]; destruct (cdiv (Cminus 1 w2) (RtoC (x - kap))) as [g2|]; cbn [obind option_map oconj]; try reflexivity.
    f_equal. unfold A. cz; ring.
  Qed.
  Lemma salpeter_imag k T n E e : 0 < k -> 0 < T -> 0 < n -> E <> 0 -> dielectric_function_salpeter u quad k T n E = Some e ->
    0 < E * snd e.
  Proof.
    intros Hk HT Hn HE H. unfold dielectric_function_salpeter in H.
    pose proof (kT_pos T HT) as HkT. pose proof (hbar_pos u) as Hh. pose proof (m_e_pos u) as Hm.
    pose proof (e_pos u) as He. pose proof (eps0_pos u) as H0. pose proof PI_RGT_0 as HPI.
    set (v := sqrt (kT T / m_e u)) in *. assert (Hv : 0 < v).
    { apply sqrt_lt_R0. apply Rmult_lt_0_compat; [assumption|now apply Rinv_0_lt_compat]. }
    pose proof Rlt_sqrt2_0 as H2.
    set (x := E / hbar u / (sqrt 2 * k * v)) in *. set (kap := hbar u * k / (2 * sqrt 2 * m_e u * v)) in *.
    assert (Hkap : 0 < kap).
    { unfold kap. apply Rmult_lt_0_compat; [now apply Rmult_lt_0_compat|]. apply Rinv_0_lt_compat.
      apply Rmult_lt_0_compat; [|assumption]. apply Rmult_lt_0_compat; [lra|assumption]. }
    set (A := n * e_ch u ^ 2 / (m_e u * eps0 u) / (k ^ 2 * v ^ 2) * (1 / (4 * kap))) in *.
    assert (HA : 0 < A).
    { unfold A. assert (0 < e_ch u ^ 2) by (now apply pow_lt). assert (0 < k ^ 2) by (now apply pow_lt). assert (0 < v ^ 2) by (now apply pow_lt).
      apply Rmult_lt_0_compat.
      - apply Rmult_lt_0_compat; [|apply Rinv_0_lt_compat; now apply Rmult_lt_0_compat].
        apply Rmult_lt_0_compat; [now apply Rmult_lt_0_compat|]. apply Rinv_0_lt_compat. now apply Rmult_lt_0_compat.
      - apply Rmult_lt_0_compat; [lra|]. apply Rinv_0_lt_compat. lra. }
    assert (Hsx : 0 < E * x).
    { unfold x. replace (E * (E / hbar u / (sqrt 2 * k * v))) with (E ^ 2 * / (hbar u * (sqrt 2 * k * v))) by (field; repeat split; lra).
      apply Rmult_lt_0_compat; [rewrite <- Rsqr_pow2; now apply Rsqr_pos_lt|]. apply Rinv_0_lt_compat.
      apply Rmult_lt_0_compat; [assumption|]. apply Rmult_lt_0_compat; [now apply Rmult_lt_0_compat|assumption]. }
    clearbody A kap x.
    assert (HW : forall y w, W_salpeter quad y = Some w -> snd w = sqrt PI * y * exp (- y ^ 2)).
    { intros y w Hw. unfold W_salpeter in Hw. apply obind_some in Hw. destruct Hw as (I & _ & [= <-]). reflexivity. }
    apply obind_some in H. destruct H as (w1 & Hw1 & H). apply obind_some in H. destruct H as (w2 & Hw2 & H).
    apply obind_some in H. destruct H as (g1 & Hg1 & H). apply obind_some in H. destruct H as (g2 & Hg2 & H). injection H as H. subst e.
    apply HW in Hw1, Hw2. apply cdiv_inv in Hg1, Hg2. destruct Hg1 as [N1 ->]. destruct Hg2 as [N2 ->].
    assert (M1 : x + kap <> 0) by (intros Z; apply N1; now rewrite Z). assert (M2 : x - kap <> 0) by (intros Z; apply N2; now rewrite Z).
    destruct w1 as [r1 i1]. destruct w2 as [r2 i2]. cbn [snd] in Hw1, Hw2. subst i1 i2.
    repeat (progress unfold Cplus, Cmult, Cdiv, Cminus, Cinv, Copp, RtoC; cbn [fst snd]).
    replace ((x + kap) ^ 2 + 0 ^ 2) with ((x + kap) * (x + kap)) by ring. replace ((x - kap) ^ 2 + 0 ^ 2) with ((x - kap) * (x - kap)) by ring.
    match goal with |- 0 < E * ?t => replace t with (A * sqrt PI * (exp (- (x - kap) ^ 2) - exp (- (x + kap) ^ 2))) by (field; repeat split; assumption) end.
    pose proof (sqrt_lt_R0 PI HPI) as HsP.
    destruct (Rtotal_order E 0) as [L|[L|L]]; [|contradiction|].
    - assert (x < 0) by nra. assert (x * kap < 0) by nra. assert (exp (- (x - kap) ^ 2) < exp (- (x + kap) ^ 2)) by (apply exp_increasing; nra).
      assert (0 < A * sqrt PI) by (now apply Rmult_lt_0_compat).
      match goal with |- 0 < E * (?c * (?a - ?b)) => replace (E * (c * (a - b))) with (c * (- E * (b - a))) by ring end.
      apply Rmult_lt_0_compat; [assumption|]. apply Rmult_lt_0_compat; lra.
    - assert (0 < x) by nra. assert (0 < x * kap) by nra. assert (exp (- (x + kap) ^ 2) < exp (- (x - kap) ^ 2)) by (apply exp_increasing; nra).
      assert (0 < A * sqrt PI) by (now apply Rmult_lt_0_compat).
      apply Rmult_lt_0_compat; [assumption|]. apply Rmult_lt_0_compat; lra.
  Qed.

  (** *** Dandrea fit *)
  Lemma phi_odd x th eta : phi_Dandrea F_m12 F_32 F_52 (- x) th eta = option_map Ropp (phi_Dandrea F_m12 F_32 F_52 x th eta).
  Proof.
    unfold phi_Dandrea. replace ((- x) ^ 2) with (x ^ 2) by ring. replace ((- x) ^ 4) with (x ^ 4) by ring.
    replace ((- x) ^ 6) with (x ^ 6) by ring. replace ((- x) ^ 8) with (x ^ 8) by ring. replace ((- x) ^ 10) with (x ^ 10) by ring.
    destruct (dandrea_a th) as [[[[a2 a4] a6] a8]|]; cbn [obind]; [|reflexivity].
    destruct (dandrea_J th) as [J|]; cbn [obind]; [|reflexivity]. destruct (dandrea_K th) as [K|]; cbn [obind]; [|reflexivity].
    destruct (qdiv (2 * J) _) as [qJ|]; cbn [obind]; [|reflexivity]. destruct (qdiv (2 * K) _) as [qK|]; cbn [obind]; [|reflexivity].
    destruct (qdiv _ _) as [ph|]; cbn [obind option_map]; [|reflexivity]. f_equal. ring.
  Qed.
  Lemma imag_Dandrea_odd th Q rs z eta al : imag_Dandrea th Q rs (- z) eta al = - imag_Dandrea th Q rs z eta al.
  Proof.
    unfold imag_Dandrea. replace ((- z / Q - Q) ^ 2) with ((z / Q + Q) ^ 2) by (unfold Rdiv; ring).
    replace ((- z / Q + Q) ^ 2) with ((z / Q - Q) ^ 2) by (unfold Rdiv; ring).
    set (a := 1 + exp (eta - 1 / th * (z / Q + Q) ^ 2)). set (b := 1 + exp (eta - 1 / th * (z / Q - Q) ^ 2)).
    assert (0 < a) by (unfold a; pose proof (exp_pos (eta - 1 / th * (z / Q + Q) ^ 2)); lra).
    assert (0 < b) by (unfold b; pose proof (exp_pos (eta - 1 / th * (z / Q - Q) ^ 2)); lra).
    rewrite !ln_quot by assumption. ring.
  Qed.
  Lemma xi0_Dandrea_sym k E T n :
    xi0_Dandrea u F_m12 F_32 F_52 inv_F12 k (- E) T n = oconj (xi0_Dandrea u F_m12 F_32 F_52 inv_F12 k E T n).
  Proof.
    unfold xi0_Dandrea. replace (- E / (4 * fermi_energy u n)) with (- (E / (4 * fermi_energy u n))) by (unfold Rdiv; ring).
    set (z := E / (4 * fermi_energy u n)). set (th := T * kB u / fermi_energy u n). set (Q := k / (2 * fermi_wavenumber n)).
    set (eta := inv_F12 _). set (rs := _ / a_0 u). set (al := Rpower (4 / (9 * PI)) (1 / 3)).
    rewrite imag_Dandrea_odd. unfold real_Dandrea.
    replace (- z / Q + Q) with (- (z / Q - Q)) by (unfold Rdiv; ring). replace (- z / Q - Q) with (- (z / Q + Q)) by (unfold Rdiv; ring).
    rewrite !phi_odd.
    destruct (phi_Dandrea F_m12 F_32 F_52 (z / Q - Q) th eta) as [a|]; destruct (phi_Dandrea F_m12 F_32 F_52 (z / Q + Q) th eta) as [b|]; cbn [obind option_map oconj]; try reflexivity.
    f_equal. cz; ring.
  Qed.
  Lemma xi0_Dandrea_static k T n x : xi0_Dandrea u F_m12 F_32 F_52 inv_F12 k 0 T n = Some x -> Cconj x = x.
  Proof.
    intros H. pose proof (xi0_Dandrea_sym k 0 T n) as S. rewrite Ropp_0, H in S. cbn in S. congruence.
  Qed.
  Lemma fermi_energy_pos n : 0 < fermi_energy u n.
  Proof.
    unfold fermi_energy. pose proof (hbar_pos u). pose proof (m_e_pos u).
    apply Rmult_lt_0_compat; [|apply exp_pos]. apply Rmult_lt_0_compat; [now apply pow_lt|]. apply Rinv_0_lt_compat. lra.
  Qed.
  Lemma xi0_Dandrea_imag k E T n x : 0 < k -> 0 < T -> E <> 0 -> xi0_Dandrea u F_m12 F_32 F_52 inv_F12 k E T n = Some x -> E * snd x < 0.
  Proof.
    intros Hk HT HE H. unfold xi0_Dandrea in H. apply obind_some in H. destruct H as (re & _ & H). injection H as H.
    pose proof (fermi_energy_pos n) as HF. pose proof (V_pos u k ltac:(lra)) as HV.
    set (z := E / (4 * fermi_energy u n)) in *. set (th := T * kB u / fermi_energy u n) in *. set (Q := k / (2 * fermi_wavenumber n)) in *.
    set (eta := inv_F12 _) in *. set (rs := _ / a_0 u) in *. set (al := Rpower (4 / (9 * PI)) (1 / 3)) in *.
    assert (HQ : 0 < Q). { unfold Q. apply Rmult_lt_0_compat; [assumption|]. apply Rinv_0_lt_compat. apply Rmult_lt_0_compat; [lra|apply exp_pos]. }
    assert (Hth : 0 < th). { unfold th. apply Rmult_lt_0_compat; [|now apply Rinv_0_lt_compat]. apply Rmult_lt_0_compat; [assumption|apply kB_pos]. }
    assert (Hrs : 0 < rs). { unfold rs. apply Rmult_lt_0_compat; [apply exp_pos|]. apply Rinv_0_lt_compat, a_0_pos. }
    assert (Hal : 0 < al) by apply exp_pos.
    assert (Hz : 0 < E * z).
    { unfold z. replace (E * (E / (4 * fermi_energy u n))) with (E ^ 2 * / (4 * fermi_energy u n)) by (field; lra).
      apply Rmult_lt_0_compat; [rewrite <- Rsqr_pow2; now apply Rsqr_pos_lt|]. apply Rinv_0_lt_compat. lra. }
    clearbody z th Q eta rs al.
    assert (HI : forall z, 0 < z -> imag_Dandrea th Q rs z eta al < 0).
    { clear - HQ Hth Hrs Hal. intros z Hz. unfold imag_Dandrea.
      assert (Hp : 0 < al * rs * th / (8 * Q ^ 3)).
      { apply Rmult_lt_0_compat; [apply Rmult_lt_0_compat; [now apply Rmult_lt_0_compat|assumption]|]. apply Rinv_0_lt_compat.
        assert (0 < Q ^ 3) by (now apply pow_lt). lra. }
      assert (Hlt : exp (eta - 1 / th * (z / Q + Q) ^ 2) < exp (eta - 1 / th * (z / Q - Q) ^ 2)).
      { apply exp_increasing. assert (0 < 1 / th) by (unfold Rdiv; rewrite Rmult_1_l; now apply Rinv_0_lt_compat).
        assert ((z / Q - Q) ^ 2 < (z / Q + Q) ^ 2).
        { replace ((z / Q + Q) ^ 2) with ((z / Q - Q) ^ 2 + 4 * z) by (field; lra). lra. }
        nra. }
      pose proof (exp_pos (eta - 1 / th * (z / Q + Q) ^ 2)) as P1. pose proof (exp_pos (eta - 1 / th * (z / Q - Q) ^ 2)) as P2.
      rewrite ln_quot by lra.
      assert (ln (1 + exp (eta - 1 / th * (z / Q + Q) ^ 2)) < ln (1 + exp (eta - 1 / th * (z / Q - Q) ^ 2))) by (apply ln_increasing; lra).
      replace (- al * rs * th / (8 * Q ^ 3)) with (- (al * rs * th / (8 * Q ^ 3))) by (unfold Rdiv; ring). nra. }
    assert (HS : E * imag_Dandrea th Q rs z eta al < 0).
    { destruct (Rtotal_order E 0) as [L|[L|L]]; [|contradiction|].
      - assert (z < 0) by nra. rewrite <- (Ropp_involutive z) at 1. rewrite imag_Dandrea_odd. pose proof (HI (- z) ltac:(lra)). nra.
      - assert (0 < z) by nra. pose proof (HI z ltac:(lra)). nra. }
    subst x. unfold Cmult, RtoC. cbn [fst snd]. set (im := imag_Dandrea th Q rs z eta al) in *. clearbody im.
    replace (E * (1 / V k * im + 0 * re)) with (E * im * / V k) by (field; lra).
    assert (0 < / V k) by (now apply Rinv_0_lt_compat). nra.
  Qed.
End Sym.
