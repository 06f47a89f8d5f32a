(** Theorems about the Ogata quadrature of the three-dimensional Fourier transform. *)
From Coq Require Import Reals Lra Psatz List Lia Arith.
From Coquelicot Require Import Coquelicot.
Import ListNotations.
From Verif Require Import M_Interp L_Interp M_Const M_HNC L_HNC L_HNC3 L_HNCWeak P_HNC M_Ogata L_Ogata.
Open Scope R_scope.

Lemma pow32_Rpower x : 0 < x -> pow32 x = Rpower x (3 / 2).
Proof.
  intros H. unfold pow32. replace (3 / 2) with (1 + / 2) by lra. rewrite Rpower_plus, Rpower_1, Rpower_sqrt by assumption. reflexivity.
Qed.
Lemma table_at r f i : length r = length f -> at_ (ogata_table r f) i = at_ f i * pow32 (at_ r i).
Proof.
  unfold ogata_table, at_. revert f i. induction r as [|x r IH]; intros [|y f] i H; cbn in H; try discriminate.
  - destruct i; cbn; ring.
  - destruct i; cbn; [reflexivity|]. apply IH. lia.
Qed.
(** the substituted radius *)
Definition de_radius (k h t : R) : R := PI * psi t / (h * k).

Lemma de_radius_derive k h t : 0 < k -> 0 < h -> is_derive (de_radius k h) t (PI * dpsi t / (h * k)).
Proof.
  intros Hk Hh. apply (is_derive_ext (fun t => PI / (h * k) * psi t)).
  - intros s. unfold de_radius. change (PI / (h * k) * psi s = PI * psi s / (h * k)). field. lra.
  - replace (PI * dpsi t / (h * k)) with (PI / (h * k) * dpsi t) by (field; lra). apply is_derive_scal. apply C96_dpsi_is_the_derivative.
Qed.
Lemma psi_pos t : 0 < t -> 0 < psi t.
Proof.
  intros Ht. unfold psi. apply Rmult_lt_0_compat; [assumption|]. pose proof (sinh_ge t ltac:(lra)). pose proof pi_3.
  set (u := PI * sinh t / 2). assert (Hu : 0 < u) by (unfold u; nra). unfold tanh. apply Rdiv_lt_0_compat.
  - pose proof (sinh_ge u ltac:(lra)). lra.
  - pose proof (cosh_ge_1 u). lra.
Qed.

(** The sum is the trapezoidal rule, of step [h], for the radial Fourier integral
    4 pi / k * int x F(x) sin(k x) dx after the substitution x = pi psi(t) / (h k);
    [F] is the profile whose product with x^(3/2) is the piecewise linear
    interpolant of the table, continued by constants. *)
Theorem C134_quadrature :
  forall r f : list R, length r = length f -> (2 <= length r)%nat -> increasing r -> 0 < at_ r 0 ->
  exists F : R -> R,
    (forall i, (i < length r)%nat -> F (at_ r i) = at_ f i) /\
    (forall i x, (S i < length r)%nat -> at_ r i <= x <= at_ r (S i) ->
       F x * Rpower x (3 / 2) =
       at_ f i * Rpower (at_ r i) (3 / 2) * ((at_ r (S i) - x) / (at_ r (S i) - at_ r i)) +
       at_ f (S i) * Rpower (at_ r (S i)) (3 / 2) * ((x - at_ r i) / (at_ r (S i) - at_ r i))) /\
    (forall x, at_ r (length r - 1) < x ->
       F x = at_ f (length r - 1) * Rpower (at_ r (length r - 1) / x) (3 / 2)) /\
    (forall x, 0 < x < at_ r 0 -> F x = at_ f 0 * Rpower (at_ r 0 / x) (3 / 2)) /\
    forall k h N, 0 < k -> 0 < h ->
      let rho := fun t => PI * (t * tanh (PI * sinh t / 2)) / (h * k) in
      fourier_transform_ogata k r f N h =
      h * nsum N (fun i => let t := h * INR (S i) in
            4 * PI / k * (rho t * F (rho t) * sin (k * rho t)) * Derive rho t).
Proof.
  intros r f HL H2 Hi H0. exists (fun x => ogata_f_int r f x / pow32 x).
  assert (Hrp : forall i, (i < length r)%nat -> 0 < at_ r i).
  { intros i Hlt. destruct i; [assumption|]. pose proof (Hi O (S i) ltac:(lia)). lra. }
  split; [|split; [|split; [|split]]].
  - intros i Hlt. unfold ogata_f_int. rewrite interp_knot by assumption. rewrite table_at by assumption.
    pose proof (pow32_pos _ (Hrp i Hlt)). field. lra.
  - intros i x Hlt Hx. pose proof (Hrp i ltac:(lia)). pose proof (Hrp (S i) ltac:(lia)). pose proof (Hi i (S i) ltac:(lia)).
    rewrite <- !pow32_Rpower by lra. assert (0 < pow32 x) by (apply pow32_pos; lra).
    unfold ogata_f_int. rewrite (interp_segment _ _ _ _ i) by assumption. rewrite !table_at by assumption.
    field. lra.
  - intros x Hx. assert (Hr : 0 < at_ r (length r - 1)) by (apply Hrp; lia).
    assert (0 < x) by lra. assert (0 < pow32 x) by now apply pow32_pos.
    unfold ogata_f_int. rewrite interp_right by assumption. rewrite <- HL.
    rewrite <- pow32_Rpower by (apply Rdiv_lt_0_compat; lra).
    replace (pow32 (at_ r (length r - 1))) with (pow32 (at_ r (length r - 1) / x) * pow32 x); [field; lra|].
    rewrite <- pow32_mult; [f_equal; field; lra|left; apply Rdiv_lt_0_compat; lra|lra].
  - intros x [Hx0 Hx]. assert (0 < pow32 x) by now apply pow32_pos.
    unfold ogata_f_int. rewrite interp_left; [|lia|now apply incr_asc|assumption].
    rewrite <- pow32_Rpower by (apply Rdiv_lt_0_compat; lra).
    replace (pow32 (at_ r 0)) with (pow32 (at_ r 0 / x) * pow32 x); [field; lra|].
    rewrite <- pow32_mult; [f_equal; field; lra|left; apply Rdiv_lt_0_compat; lra|lra].
  - intros k h N Hk Hh rho. unfold fourier_transform_ogata. unfold Rdiv at 1. rewrite !Rmult_assoc, <- nsum_scal_r, <- nsum_scal.
    apply nsum_ext. intros i _. cbv zeta. set (t := h * INR (S i)).
    assert (Ht : 0 < t) by (unfold t; apply Rmult_lt_0_compat; [assumption|apply lt_0_INR; lia]).
    assert (HD : Derive rho t = PI * dpsi t / (h * k)) by exact (is_derive_unique _ _ _ (de_radius_derive k h t Hk Hh)).
    rewrite HD. unfold ogata_term. destruct (C96_weights (S i) ltac:(lia)) as [HW HN]. rewrite HW. specialize (HN h Hh).
    set (y := ogata_node h (S i)) in *.
    assert (Hy : rho t = y / k) by (unfold y, ogata_node, rho, t, psi; field; lra).
    rewrite Hy. replace (k * (y / k)) with y by (field; lra). fold t.
    set (G := ogata_f_int r f (y / k)). assert (Hyk : 0 < y / k) by (apply Rdiv_lt_0_compat; lra).
    assert (Hp : 0 < pow32 (y / k)) by now apply pow32_pos.
    assert (Hs : sqrt (2 / (PI * y)) * pow32 (2 * PI) * (pow32 k * pow32 (y / k)) = 4 * PI * y).
    { pose proof PI_RGT_0. rewrite <- pow32_mult by lra. replace (k * (y / k)) with y by (field; lra). unfold pow32.
      assert (E1 : sqrt (2 / (PI * y)) * sqrt (2 * PI) * sqrt y = 2).
      { assert (0 < PI * y) by now apply Rmult_lt_0_compat.
        rewrite <- sqrt_mult; [|left; apply Rdiv_lt_0_compat; lra|lra].
        rewrite <- sqrt_mult; [|left; apply Rmult_lt_0_compat; [apply Rdiv_lt_0_compat; lra|lra]|lra].
        replace (2 / (PI * y) * (2 * PI) * y) with (2 * 2) by (field; lra). apply sqrt_square. lra. }
      transitivity (2 * PI * y * (sqrt (2 / (PI * y)) * sqrt (2 * PI) * sqrt y)); [ring|]. rewrite E1. ring. }
    unfold bessel_0_5. set (A := sqrt (2 / (PI * y))) in *. set (P := pow32 (2 * PI)) in *. set (K := pow32 k) in *.
    set (Y := pow32 (y / k)) in *. clearbody A P K Y G.
    transitivity (PI * G * sin y * dpsi t * (A * P * (K * Y)) / (k ^ 3 * Y)); [field; lra|]. rewrite Hs. field. lra.
Qed.
Print Assumptions C134_quadrature.

(** The substitution is the one of the integral: between two values of the
    variable the substituted integrand has the integral of the original one. *)
Theorem C134_substitution :
  forall (F : R -> R) k h a b, 0 < k -> 0 < h -> 0 < a <= b -> (forall x, 0 < x -> continuous F x) ->
  let rho := fun t => PI * (t * tanh (PI * sinh t / 2)) / (h * k) in
  is_RInt (fun t => 4 * PI / k * (rho t * F (rho t) * sin (k * rho t)) * Derive rho t) a b
    (RInt (fun x => 4 * PI / k * (x * F x * sin (k * x))) (rho a) (rho b)).
Proof.
  intros F k h a b Hk Hh [Ha Hab] HF rho.
  assert (HD : forall t, is_derive rho t (PI * dpsi t / (h * k))) by (intros t; exact (de_radius_derive k h t Hk Hh)).
  assert (Hpos : forall t, 0 < t -> 0 < rho t).
  { intros t Ht. unfold rho. pose proof (psi_pos t Ht) as HP. unfold psi in HP. pose proof PI_RGT_0.
    apply Rdiv_lt_0_compat; apply Rmult_lt_0_compat; assumption. }
  apply (is_RInt_ext (fun t => scal (PI * dpsi t / (h * k)) ((fun x => 4 * PI / k * (x * F x * sin (k * x))) (rho t)))).
  - intros t _. rewrite (is_derive_unique rho t _ (HD t)). unfold scal; cbn; unfold mult; cbn. ring.
  - apply (is_RInt_comp (fun x => 4 * PI / k * (x * F x * sin (k * x))) rho (fun t => PI * dpsi t / (h * k))).
    + intros t Ht. rewrite Rmin_left, Rmax_right in Ht by lra. assert (Hr : 0 < rho t) by (apply Hpos; lra).
      apply (continuous_scal_r (4 * PI / k) (fun x => x * F x * sin (k * x))).
      apply (continuous_mult (fun x => x * F x) (fun x => sin (k * x))).
      * apply (continuous_mult (fun x => x) F); [apply continuous_id|now apply HF].
      * apply (ex_derive_continuous (V := R_NormedModule) (fun x => sin (k * x))). auto_derive. auto.
    + intros t Ht. split; [apply HD|].
      apply (ex_derive_continuous (V := R_NormedModule) (fun t => PI * dpsi t / (h * k))). unfold dpsi, sinh, cosh. auto_derive.
      intros E. pose proof (exp_pos (PI * ((exp t + - exp (- t)) * / 2))). pose proof (exp_pos (- (PI * ((exp t + - exp (- t)) * / 2)))). lra.
Qed.
Print Assumptions C134_substitution.

(** ** Truncation *)
Lemma geometric_tail h n : 0 < h -> nsum n (fun i => exp (- (2 * h * INR (S i)))) <= (1 - exp (- (2 * h * INR n))) / (2 * h).
Proof.
  intros Hh. induction n as [|n IH]; [cbn; rewrite Rmult_0_r, Ropp_0, exp_0; right; field; lra|].
  cbn [nsum]. set (q := exp (- (2 * h * INR (S n)))) in *.
  assert (E : exp (- (2 * h * INR n)) = q * exp (2 * h)). { unfold q. rewrite <- exp_plus. f_equal. rewrite S_INR. ring. }
  rewrite E in IH. pose proof (exp_ge_1_plus (2 * h)). assert (0 < q) by apply exp_pos.
  apply (Rmult_le_reg_r (2 * h)); [lra|]. apply (Rmult_le_compat_r (2 * h)) in IH; [|lra].
  unfold Rdiv in *. rewrite Rmult_assoc, Rinv_l, Rmult_1_r in * by lra. nra.
Qed.
Lemma x_exp x : x * exp (- x) <= 1.
Proof.
  rewrite exp_Ropp. pose proof (exp_ge_1_plus x). pose proof (exp_pos x).
  apply (Rmult_le_reg_r (exp x)); [assumption|]. rewrite Rmult_assoc, Rinv_l by lra. lra.
Qed.
Lemma double_exponential h N i : 0 < h -> 1 <= h * INR N ->
  INR (N + S i) * exp (- (PI * sinh (h * INR (N + S i)))) <= / h * (exp (- (2 * sinh (h * INR N))) * exp (- (2 * h * INR (S i)))).
Proof.
  intros Hh HN. set (x := h * INR (N + S i)). set (d := h * INR (S i)).
  assert (Hd : 0 <= d) by (unfold d; apply Rmult_le_pos; [lra|apply pos_INR]).
  assert (Hx : x = h * INR N + d) by (unfold x, d; rewrite plus_INR; ring).
  assert (Hs : sinh (h * INR N) + d <= sinh x) by (rewrite Hx; apply sinh_add; lra).
  pose proof (sinh_ge x ltac:(lra)) as Hg. pose proof pi_3.
  assert (HI : INR (N + S i) = / h * x) by (unfold x; field; lra). rewrite HI, Rmult_assoc.
  apply Rmult_le_compat_l; [left; now apply Rinv_0_lt_compat|]. rewrite <- exp_plus.
  assert (E : exp (- (PI * sinh x)) <= exp (- x) * exp (- (2 * sinh (h * INR N)) + - (2 * h * INR (S i)))).
  { rewrite <- exp_plus. assert (G : - (PI * sinh x) <= - x + (- (2 * sinh (h * INR N)) + - (2 * h * INR (S i)))).
    { replace (2 * h * INR (S i)) with (2 * d) by (unfold d; ring). nra. }
    destruct G as [G|G]; [left; now apply exp_increasing|right; now f_equal]. }
  pose proof (x_exp x). set (T := exp (- (2 * sinh (h * INR N)) + _)) in *. assert (0 < T) by apply exp_pos.
  apply Rle_trans with (x * (exp (- x) * T)); [apply Rmult_le_compat_l; [lra|assumption]|]. rewrite <- Rmult_assoc. nra.
Qed.
(** Cutting the sum off at [N] changes it by a doubly exponentially small amount,
    whatever the number of further terms. *)
Theorem C134_truncation :
  forall r f k h M N n, length r = length f -> (1 <= length r)%nat -> ascending r -> 0 < at_ r 0 ->
    (forall i, (i < length r)%nat -> Rabs (at_ f i) * Rpower (at_ r i) (3 / 2) <= M) ->
    0 < k -> 0 < h -> 1 <= h * INR N ->
    Rabs (fourier_transform_ogata k r f (N + n) h - fourier_transform_ogata k r f N h)
    <= Rpower (2 * PI / k) (3 / 2) * (6 * PI * M) / h ^ 2 * exp (- (2 * sinh (h * INR N))).
Proof.
  intros r f k h M N n HL H1 Ha H0 HM Hk Hh HN. pose proof PI_RGT_0 as HP.
  assert (Hrp : forall i, (i < length r)%nat -> 0 < at_ r i).
  { intros i Hi. pose proof (Ha O i ltac:(lia)). lra. }
  assert (HM0 : 0 <= M). { eapply Rle_trans; [|apply (HM O); lia]. apply Rmult_le_pos; [apply Rabs_pos|left; apply exp_pos]. }
  assert (Htab : forall i, (i < length r)%nat -> - M <= at_ f i * pow32 (at_ r i) <= M).
  { intros i Hi. specialize (HM i Hi). rewrite <- pow32_Rpower in HM by auto. pose proof (pow32_pos _ (Hrp i Hi)) as Hpp.
    rewrite <- (Rabs_right (pow32 (at_ r i))), <- Rabs_mult in HM by lra. apply Rabs_le_between in HM. exact HM. }
  assert (HG : forall x, Rabs (ogata_f_int r f x) <= M).
  { intros x. apply Rabs_le. apply interp_bounds; try assumption.
    - intros i Hi. rewrite table_at by assumption. auto.
    - intros v Hv. injection Hv as <-. apply Htab. lia.
    - intros v Hv. injection Hv as <-. rewrite <- HL. apply Htab. lia. }
  unfold fourier_transform_ogata. rewrite nsum_app.
  set (S0 := nsum N _). set (S1 := nsum n _).
  assert (HS : Rabs S1 <= 6 * PI * M / h ^ 2 * exp (- (2 * sinh (h * INR N)))).
  { set (e := exp (- (2 * sinh (h * INR N)))). assert (He : 0 < e) by apply exp_pos.
    apply Rle_trans with (nsum n (fun i => 12 * PI * M * (/ h * e) * exp (- (2 * h * INR (S i))))).
    - eapply Rle_trans; [apply nsum_abs|]. apply nsum_le. intros i Hi. cbv beta.
      replace (S (N + i)) with (N + S i)%nat by lia. unfold ogata_term.
      destruct (C96_weights (N + S i) ltac:(lia)) as [-> _]. rewrite Rmult_1_r.
      assert (Hj : 1 <= h * INR (N + S i)). { rewrite plus_INR. pose proof (pos_INR (S i)). nra. }
      pose proof (bessel_node h (N + S i) Hh Hj) as HB. destruct (dpsi_bound _ Hj) as [D0 D1].
      pose proof (double_exponential h N i Hh HN) as HE. fold e in HE.
      rewrite !Rabs_mult. rewrite (Rabs_right PI) by lra. rewrite (Rabs_right (dpsi _)) by lra.
      set (G := ogata_f_int r f _). assert (HGG : Rabs G <= M) by apply HG.
      set (B := Rabs (bessel_0_5 _)) in *. assert (0 <= B) by apply Rabs_pos. assert (0 <= Rabs G) by apply Rabs_pos.
      set (E := INR (N + S i) * exp (- (PI * sinh (h * INR (N + S i))))) in *.
      rewrite Rmult_assoc in HB. fold E in HB.
      apply Rle_trans with (PI * M * (4 * E) * 3).
      + apply Rmult_le_compat; [apply Rmult_le_pos; [apply Rmult_le_pos|]; lra|assumption| |assumption].
        apply Rmult_le_compat; [apply Rmult_le_pos; lra|assumption| |assumption].
        apply Rmult_le_compat_l; lra.
      + replace (PI * M * (4 * E) * 3) with (12 * PI * M * E) by ring. rewrite (Rmult_assoc (12 * PI * M)), (Rmult_assoc (/ h)).
        apply Rmult_le_compat_l; [|exact HE]. apply Rmult_le_pos; lra.
    - rewrite nsum_scal. pose proof (geometric_tail h n Hh) as HT. pose proof (exp_pos (- (2 * h * INR n))).
      assert (HT2 : nsum n (fun i => exp (- (2 * h * INR (S i)))) <= / (2 * h)).
      { eapply Rle_trans; [exact HT|]. unfold Rdiv. rewrite <- (Rmult_1_l (/ (2 * h))) at 2.
        apply Rmult_le_compat_r; [left; apply Rinv_0_lt_compat; lra|lra]. }
      assert (0 < / h) by now apply Rinv_0_lt_compat.
      apply Rle_trans with (12 * PI * M * (/ h * e) * / (2 * h)).
      + apply Rmult_le_compat_l; [|exact HT2]. apply Rmult_le_pos; [apply Rmult_le_pos; lra|]. apply Rmult_le_pos; lra.
      + right. field. lra. }
  assert (Hc : / k ^ 3 * pow32 k * pow32 (2 * PI) = Rpower (2 * PI / k) (3 / 2)).
  { rewrite <- pow32_Rpower by (apply Rdiv_lt_0_compat; lra). pose proof (pow32_pos k Hk).
    replace (pow32 (2 * PI)) with (pow32 (2 * PI / k) * pow32 k).
    - replace (/ k ^ 3 * pow32 k * (pow32 (2 * PI / k) * pow32 k)) with (/ k ^ 3 * pow32 k ^ 2 * pow32 (2 * PI / k)) by ring.
      rewrite pow32_sq by lra. field. lra.
    - rewrite <- pow32_mult; [f_equal; field; lra|left; apply Rdiv_lt_0_compat; lra|lra]. }
  replace ((S0 + S1) / k ^ 3 * pow32 k * pow32 (2 * PI) - S0 / k ^ 3 * pow32 k * pow32 (2 * PI))
    with (Rpower (2 * PI / k) (3 / 2) * S1) by (rewrite <- Hc; field; lra).
  rewrite Rabs_mult. assert (0 < Rpower (2 * PI / k) (3 / 2)) by apply exp_pos. rewrite (Rabs_right (Rpower _ _)) by lra.
  replace (Rpower (2 * PI / k) (3 / 2) * (6 * PI * M) / h ^ 2 * exp (- (2 * sinh (h * INR N))))
    with (Rpower (2 * PI / k) (3 / 2) * (6 * PI * M / h ^ 2 * exp (- (2 * sinh (h * INR N))))) by (field; lra).
  apply Rmult_le_compat_l; [lra|exact HS].
Qed.
Print Assumptions C134_truncation.
(** Hence the full series has a sum, and the code's is that close to it. *)
Theorem C134_series :
  forall r f k h M, length r = length f -> (1 <= length r)%nat -> ascending r -> 0 < at_ r 0 ->
    (forall i, (i < length r)%nat -> Rabs (at_ f i) * Rpower (at_ r i) (3 / 2) <= M) -> 0 < k -> 0 < h ->
    exists s, is_lim_seq (fun N => fourier_transform_ogata k r f N h) s /\
      forall N, 1 <= h * INR N ->
        Rabs (fourier_transform_ogata k r f N h - s)
        <= Rpower (2 * PI / k) (3 / 2) * (6 * PI * M) / h ^ 2 * exp (- (2 * sinh (h * INR N))).
Proof.
  intros r f k h M HL H1 Ha H0 HM Hk Hh.
  assert (HT := fun N n => C134_truncation r f k h M N n HL H1 Ha H0 HM Hk Hh).
  set (F := fun N => fourier_transform_ogata k r f N h) in *. set (A := Rpower (2 * PI / k) (3 / 2) * (6 * PI * M) / h ^ 2) in *.
  assert (HA : 0 <= A).
  { destruct (archimed_cor1 h Hh) as (N & HN & Np). assert (1 <= h * INR N).
    { assert (0 < INR N) by now apply lt_0_INR. apply (Rmult_lt_compat_r (INR N)) in HN; [|assumption]. rewrite Rinv_l in HN by lra. lra. }
    specialize (HT N 0%nat H). pose proof (Rabs_pos (F (N + 0)%nat - F N)). pose proof (exp_pos (- (2 * sinh (h * INR N)))).
    apply Rnot_lt_le. intros HAn. cbv beta in HT. unfold F in *. nra. }
  assert (HC : ex_lim_seq_cauchy F).
  { intros eps. destruct (archimed_cor1 (Rmin h (h * eps / (A + 1)))) as (N & HN & Np).
    { pose proof (cond_pos eps). apply Rmin_pos; [assumption|]. apply Rdiv_lt_0_compat; [apply Rmult_lt_0_compat; assumption|lra]. }
    assert (HNp : 0 < INR N) by now apply lt_0_INR. pose proof (cond_pos eps) as He.
    assert (HN1 : 1 <= h * INR N).
    { assert (/ INR N < h) by (eapply Rlt_le_trans; [exact HN|apply Rmin_l]). apply (Rmult_lt_compat_r (INR N)) in H; [|assumption]. rewrite Rinv_l in H by lra. lra. }
    assert (HN2 : A + 1 < h * eps * INR N).
    { assert (HH : / INR N < h * eps / (A + 1)) by (eapply Rlt_le_trans; [exact HN|apply Rmin_r]).
      apply (Rmult_lt_compat_r (INR N * (A + 1))) in HH; [|apply Rmult_lt_0_compat; lra].
      replace (/ INR N * (INR N * (A + 1))) with (A + 1) in HH by (field; lra).
      replace (h * eps / (A + 1) * (INR N * (A + 1))) with (h * eps * INR N) in HH by (field; lra). exact HH. }
    assert (Hexp : A * exp (- (2 * sinh (h * INR N))) < eps / 2).
    { set (x := h * INR N) in *. pose proof (sinh_ge x ltac:(lra)).
      assert (E : exp (- (2 * sinh x)) <= exp (- (2 * x))).
      { assert (G : - (2 * sinh x) <= - (2 * x)) by lra. destruct G as [G|G]; [left; now apply exp_increasing|right; now f_equal]. }
      pose proof (x_exp (2 * x)) as HX. pose proof (exp_pos (- (2 * x))).
      assert (HY : A + 1 < x * eps) by (unfold x; lra).
      apply Rle_lt_trans with (A * exp (- (2 * x))); [apply Rmult_le_compat_l; assumption|].
      apply (Rmult_lt_reg_r (2 * x)); [lra|]. apply Rle_lt_trans with (A * 1).
      - rewrite Rmult_assoc. apply Rmult_le_compat_l; [assumption|]. lra.
      - nra. }
    exists N. intros p q Hp Hq.
    assert (HB : forall m, (N <= m)%nat -> Rabs (F m - F N) < eps / 2).
    { intros m Hm. replace m with (N + (m - N))%nat by lia. eapply Rle_lt_trans; [apply HT; assumption|exact Hexp]. }
    replace (F p - F q) with ((F p - F N) + - (F q - F N)) by ring. eapply Rle_lt_trans; [apply Rabs_triang|].
    rewrite Rabs_Ropp. pose proof (HB p Hp). pose proof (HB q Hq). lra. }
  apply ex_lim_seq_cauchy_corr in HC. destruct HC as [s Hs]. exists s. split; [exact Hs|].
  intros N HN. fold (F N).
  assert (HL2 : is_lim_seq (fun n => Rabs (F (N + n)%nat - F N)) (Rabs (s - F N))).
  { apply (is_lim_seq_abs (fun n => F (N + n)%nat - F N) (Finite (s - F N))).
    apply (is_lim_seq_minus' (fun n => F (N + n)%nat) (fun _ => F N)); [|apply is_lim_seq_const].
    apply (is_lim_seq_incr_n F N) in Hs. apply (is_lim_seq_ext (fun n => F (n + N)%nat)); [intros n; f_equal; lia|exact Hs]. }
  rewrite Rabs_minus_sym.
  exact (is_lim_seq_le (fun n => Rabs (F (N + n)%nat - F N)) (fun _ => A * exp (- (2 * sinh (h * INR N)))) (Rabs (s - F N)) (A * exp (- (2 * sinh (h * INR N))))
    (fun n => HT N n HN) HL2 (is_lim_seq_const _)).
Qed.
Print Assumptions C134_series.

(** ** Units and linearity *)
Lemma at_scale l xs i : at_ (map (Rmult l) xs) i = l * at_ xs i.
Proof.
  unfold at_. revert i. induction xs as [|x xs IH]; intros [|i]; cbn; try ring. apply IH.
Qed.
Lemma lt_scale l a b : 0 < l -> (l * a < l * b <-> a < b).
Proof. intros H. split; [apply Rmult_lt_reg_l|apply Rmult_lt_compat_l]; assumption. Qed.
Lemma interp_scale lft rgt l xs ys q : 0 < l -> interp lft rgt (map (Rmult l) xs) ys (l * q) = interp lft rgt xs ys q.
Proof.
  intros Hl.
  assert (HS : searchsorted (map (Rmult l) xs) (l * q) = searchsorted xs q).
  { assert (HB : forall s, bs_step (map (Rmult l) xs) (l * q) s = bs_step xs q s).
    { intros [lo hi]. unfold bs_step. rewrite at_scale.
      destruct (Rlt_dec (l * q) _) as [A|A]; rewrite lt_scale in A by assumption; destruct (Rlt_dec q _) as [B|B]; try reflexivity; contradiction. }
    unfold searchsorted. rewrite map_length. f_equal. generalize (Nat.log2_up (length xs + 1)) as n.
    induction n as [|n IH]; [reflexivity|]. etransitivity; [apply HB|]. change (bs_step xs q (Nat.iter n (bs_step (map (Rmult l) xs) (l * q)) (O, length xs)) = bs_step xs q (Nat.iter n (bs_step xs q) (O, length xs))). now f_equal. }
  unfold interp. rewrite HS, map_length, !at_scale.
  set (i := Nat.min _ _). rewrite <- !Rmult_minus_distr_l.
  destruct (Rgt_dec (l * q) _) as [A|A]; destruct (Rgt_dec q _) as [B|B]; unfold Rgt in *; rewrite lt_scale in A by assumption; try contradiction; [reflexivity|].
  destruct (Rlt_dec (l * q) _) as [C|C]; destruct (Rlt_dec q _) as [D|D]; rewrite lt_scale in C by assumption; try contradiction; [reflexivity|].
  set (dx := at_ xs i - at_ xs (i - 1)).
  destruct (Req_EM_T (l * dx) 0) as [E|E]; destruct (Req_EM_T dx 0) as [G|G]; try reflexivity.
  - exfalso. apply Rmult_integral in E. lra.
  - exfalso. apply E. rewrite G. ring.
  - f_equal. field. split; [assumption|]. split; [lra|assumption] || lra.
Qed.
(** The result transforms as a volume under a change of the unit of length. *)
Theorem C134_unit_of_length :
  forall l k r f N h, 0 < l -> 0 < k -> length r = length f -> (forall x, In x r -> 0 <= x) ->
    fourier_transform_ogata (k / l) (map (Rmult l) r) f N h = l ^ 3 * fourier_transform_ogata k r f N h.
Proof.
  intros l k r f N h Hl Hk HL Hr.
  assert (Hat : forall i, 0 <= at_ r i).
  { intros i. unfold at_. destruct (nth_in_or_default i r 0) as [H|H]; [now apply Hr|rewrite H; lra]. }
  assert (HT : ogata_table (map (Rmult l) r) f = map (Rmult (pow32 l)) (ogata_table r f)).
  { clear Hat. unfold ogata_table. revert f HL. induction r as [|x r IH]; intros [|y f] HL; cbn in HL; try discriminate; [reflexivity|].
    cbn. f_equal; [|apply IH; [intros z Hz; apply Hr; now right|lia]]. rewrite pow32_mult; [ring|lra|apply Hr; now left]. }
  assert (HI : forall a b xs ys q c, interp (Some (c * a)) (Some (c * b)) xs (map (Rmult c) ys) q = c * interp (Some a) (Some b) xs ys q).
  { intros. unfold interp. rewrite !at_scale. destruct (Rgt_dec _ _); [reflexivity|]. destruct (Rlt_dec _ _); [reflexivity|]. destruct (Req_EM_T _ _); [reflexivity|ring]. }
  assert (HF : forall x, ogata_f_int (map (Rmult l) r) f (l * x) = pow32 l * ogata_f_int r f x).
  { intros x. unfold ogata_f_int. rewrite interp_scale by assumption. rewrite HT, <- HI, map_length, !at_scale.
    rewrite !pow32_mult by (try apply Hat; lra). f_equal; f_equal; ring. }
  unfold fourier_transform_ogata.
  assert (HS : nsum N (fun i => ogata_term (k / l) (map (Rmult l) r) f h (S i)) = pow32 l * nsum N (fun i => ogata_term k r f h (S i))).
  { rewrite <- nsum_scal. apply nsum_ext. intros i _. unfold ogata_term.
    replace (ogata_node h (S i) / (k / l)) with (l * (ogata_node h (S i) / k)) by (field; lra). rewrite HF. ring. }
  rewrite HS. set (S0 := nsum N _).
  assert (HK : pow32 k = pow32 (k / l) * pow32 l).
  { rewrite <- pow32_mult; [f_equal; field; lra|left; apply Rdiv_lt_0_compat; lra|lra]. }
  rewrite HK. set (P := pow32 (k / l)). field. lra.
Qed.
Print Assumptions C134_unit_of_length.
Theorem C134_linear :
  forall a b k r f g N h, length r = length f -> length r = length g ->
    fourier_transform_ogata k r (map (fun p => a * fst p + b * snd p) (combine f g)) N h =
    a * fourier_transform_ogata k r f N h + b * fourier_transform_ogata k r g N h.
Proof.
  intros a b k r f g N h HLf HLg. set (c := map _ _).
  assert (Hc : length r = length c) by (unfold c; rewrite map_length, combine_length; lia).
  assert (HF : forall x, ogata_f_int r c x = a * ogata_f_int r f x + b * ogata_f_int r g x).
  { intros x. unfold ogata_f_int, interp. rewrite !table_at by assumption. rewrite <- HLf, <- HLg, <- Hc.
    unfold c. rewrite !at_map_lin by congruence.
    destruct (Rgt_dec _ _); [ring|]. destruct (Rlt_dec _ _); [ring|]. destruct (Req_EM_T _ _); ring. }
  unfold fourier_transform_ogata.
  rewrite (nsum_ext N _ (fun i => a * ogata_term k r f h (S i) + b * ogata_term k r g h (S i))).
  - rewrite nsum_plus, !nsum_scal. unfold Rdiv. ring.
  - intros i _. unfold ogata_term. rewrite HF. ring.
Qed.
Print Assumptions C134_linear.

Example C134_met : forall n,
  Rabs (fourier_transform_ogata 1 [1; 2] [1; 0] (1 + n) 1 - fourier_transform_ogata 1 [1; 2] [1; 0] 1 1)
  <= Rpower (2 * PI / 1) (3 / 2) * (6 * PI * 1) / 1 ^ 2 * exp (- (2 * sinh (1 * INR 1))).
Proof.
  intros n. apply C134_truncation; try (cbn; lra); try reflexivity; cbn; try lia.
  - intros i j Hij. cbn in Hij. unfold at_. destruct i as [|[|i]], j as [|[|j]]; cbn; try lra; lia.
  - intros i Hi. unfold at_. destruct i as [|[|i]]; cbn; [|rewrite Rabs_R0; lra|lia].
    rewrite Rabs_R1. unfold Rpower. rewrite ln_1, Rmult_0_r, exp_0. lra.
Qed.
(** and the profile beyond the table is not zero *)
Example C134_tail : ogata_f_int [1; 2] [1; 3] 5 = 3 * (2 * sqrt 2).
Proof. unfold ogata_f_int. rewrite interp_right by (unfold at_; cbn; lra). unfold at_, pow32. cbn. ring. Qed.
