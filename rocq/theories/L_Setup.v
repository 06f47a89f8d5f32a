From Coq Require Import Reals List Arith Lra Lia Psatz.
From Verif Require Import M_Const M_PlasmaPhysics L_PlasmaPhysics M_Setup.
Open Scope R_scope.

Section L.
  Variable u : consts.

  Lemma k_formula s : energy s <> 0 -> k u s = 2 * (energy s / hbar u / c_light u) * sin (angle s / 2).
  Proof. intros H. cpos u. unfold k, lambda0, planck. field. repeat split; lra. Qed.
  Lemma k_thomson s : energy s <> 0 -> k u s = thomson_momentum_transfer u (energy s) (angle s).
  Proof. intros H. rewrite k_formula by assumption. unfold thomson_momentum_transfer. cpos u. field. split; lra. Qed.

  Lemma law_cos a b th : (a - b) ^ 2 + 4 * a * b * sin (th / 2) ^ 2 = a ^ 2 + b ^ 2 - 2 * a * b * cos th.
  Proof.
    replace (cos th) with (1 - 2 * sin (th / 2) * sin (th / 2)).
    - ring.
    - replace th with (2 * (th / 2)) at 3 by lra. rewrite cos_2a_sin. reflexivity.
  Qed.
  Lemma radicand_nonneg a b th : 0 <= a ^ 2 + b ^ 2 - 2 * a * b * cos th.
  Proof.
    pose proof (COS_bound th). destruct (Rle_dec 0 (a * b)).
    - assert (0 <= a * b * (1 - cos th)) by (apply Rmult_le_pos; lra).
      pose proof (pow2_ge_0 (a - b)). lra.
    - assert (0 <= (- (a * b)) * (1 + cos th)) by (apply Rmult_le_pos; lra).
      pose proof (pow2_ge_0 (a + b)). lra.
  Qed.
  Lemma full_k_some s i : exists r, full_k u s i = Some r /\ (correct_k_dispersion s = true -> 0 <= r).
  Proof.
    unfold full_k. destruct (correct_k_dispersion s).
    - set (a := measured s i / hbar u / c_light u). set (b := energy s / hbar u / c_light u).
      rewrite sqrto_some by apply radicand_nonneg. eexists; split; [reflexivity|]. intros _. apply sqrt_pos.
    - eexists; split; [reflexivity|]. discriminate.
  Qed.
  Lemma full_k_elastic s i : correct_k_dispersion s = true -> measured s i = energy s -> energy s <> 0 ->
    full_k u s i = Some (Rabs (k u s)).
  Proof.
    intros Hc Hm He. unfold full_k. rewrite Hc, Hm. set (a := energy s / hbar u / c_light u).
    rewrite sqrto_some by apply radicand_nonneg. f_equal. rewrite <- law_cos.
    rewrite k_formula by assumption. fold a. rewrite <- sqrt_Rsqr_abs. f_equal. unfold Rsqr. ring.
  Qed.
  Lemma full_k_bounds s i r : correct_k_dispersion s = true -> 0 <= measured s i -> 0 <= energy s ->
    full_k u s i = Some r ->
    Rabs (measured s i - energy s) / (hbar u * c_light u) <= r <= (measured s i + energy s) / (hbar u * c_light u).
  Proof.
    intros Hc Hm He. cpos u. unfold full_k. rewrite Hc.
    set (a := measured s i / hbar u / c_light u). set (b := energy s / hbar u / c_light u).
    rewrite sqrto_some by apply radicand_nonneg. intros E. injection E as <-.
    assert (Ha : 0 <= a). { unfold a, Rdiv. repeat apply Rmult_le_pos; try lra; left; apply Rinv_0_lt_compat; lra. }
    assert (Hb : 0 <= b). { unfold b, Rdiv. repeat apply Rmult_le_pos; try lra; left; apply Rinv_0_lt_compat; lra. }
    replace (Rabs (measured s i - energy s) / (hbar u * c_light u)) with (Rabs (a - b)).
    2:{ replace (a - b) with ((measured s i - energy s) / (hbar u * c_light u)) by (unfold a, b; field; split; lra).
        unfold Rdiv. rewrite Rabs_mult. f_equal. apply Rabs_pos_eq. left. apply Rinv_0_lt_compat. pos. }
    replace ((measured s i + energy s) / (hbar u * c_light u)) with (a + b) by (unfold a, b; field; split; lra).
    pose proof (COS_bound (angle s)) as HC.
    assert (Hab : 0 <= a * b) by (apply Rmult_le_pos; lra).
    assert (Hm1 : 0 <= a * b * (1 - cos (angle s))) by (apply Rmult_le_pos; lra).
    assert (Hm2 : 0 <= a * b * (1 + cos (angle s))) by (apply Rmult_le_pos; lra). split.
    - rewrite <- sqrt_Rsqr_abs. apply sqrt_le_1; [apply Rle_0_sqr|apply radicand_nonneg|]. unfold Rsqr. lra.
    - rewrite <- (sqrt_pow2 (a + b)) by lra. apply sqrt_le_1; [apply radicand_nonneg|apply pow2_ge_0|lra].
  Qed.
  Lemma full_k_even s i : full_k u (mkSetup (- angle s) (energy s) (n_chan s) (measured s) (instrument s) true (frc_exponent s)) i
    = full_k u (mkSetup (angle s) (energy s) (n_chan s) (measured s) (instrument s) true (frc_exponent s)) i.
  Proof. unfold full_k. cbn. now rewrite cos_neg. Qed.

  Lemma k_mono E n m inst c f a b : 0 < E -> 0 <= a -> a < b -> b <= PI ->
    k u (mkSetup a E n m inst c f) < k u (mkSetup b E n m inst c f).
  Proof.
    intros HE Ha Hab Hb. cpos u. rewrite !k_formula by (cbn; lra). cbn. apply Rmult_lt_compat_l; [pos|].
    apply sin_increasing_1; lra.
  Qed.
  Lemma full_k_mono E n m inst f a b i ra rb : 0 < E -> 0 < m i -> 0 <= a -> a < b -> b <= PI ->
    full_k u (mkSetup a E n m inst true f) i = Some ra -> full_k u (mkSetup b E n m inst true f) i = Some rb -> ra < rb.
  Proof.
    intros HE Hm Ha Hab Hb. cpos u. unfold full_k. cbn.
    rewrite !sqrto_some; cycle 1.
    - pose proof (radicand_nonneg (m i / hbar u / c_light u) (E / hbar u / c_light u) b) as HR. cbn in HR. exact HR.
    - pose proof (radicand_nonneg (m i / hbar u / c_light u) (E / hbar u / c_light u) a) as HR. cbn in HR. exact HR.
    - intros E1 E2. injection E1 as <-. injection E2 as <-. apply sqrt_lt_1.
      + pose proof (radicand_nonneg (m i / hbar u / c_light u) (E / hbar u / c_light u) a) as HR. cbn in HR. exact HR.
      + pose proof (radicand_nonneg (m i / hbar u / c_light u) (E / hbar u / c_light u) b) as HR. cbn in HR. exact HR.
      + pose proof (cos_decreasing_1 a b ltac:(lra) ltac:(lra) ltac:(lra) ltac:(lra) Hab).
        apply Rplus_lt_compat_l, Ropp_lt_contravar. apply Rmult_lt_compat_l; [pos|assumption].
  Qed.

  Lemma dispersion_vacuum s i : 0 < energy s -> 0 < measured s i ->
    dispersion_corrected_k u s 0 i = full_k u s i.
  Proof.
    intros He Hm. cpos u. unfold dispersion_corrected_k, full_k. destruct (correct_k_dispersion s); [|reflexivity].
    assert (E0 : plasma_frequency u 0 = 0).
    { unfold plasma_frequency. rewrite Rmult_0_r. unfold Rdiv. rewrite Rmult_0_l. apply sqrt_0. }
    rewrite E0. replace (1 - 0 ^ 2 / (energy s / hbar u) ^ 2) with 1 by (field; split; lra).
    replace (1 - 0 ^ 2 / (measured s i / hbar u) ^ 2) with 1 by (field; split; lra).
    rewrite sqrto_some by lra. rewrite sqrt_1. f_equal.
    replace (energy s / hbar u / c_light u * 1) with (energy s / hbar u / c_light u) by ring.
    replace (measured s i / hbar u / c_light u * 1) with (measured s i / hbar u / c_light u) by ring. ring.
  Qed.
  (** nan exactly when a photon lies below the plasma frequency *)
  Lemma dispersion_defined s n_e i : correct_k_dispersion s = true -> 0 < energy s -> 0 < measured s i ->
    ((exists r, dispersion_corrected_k u s n_e i = Some r) <->
     plasma_frequency u n_e <= energy s / hbar u /\ plasma_frequency u n_e <= measured s i / hbar u).
  Proof.
    intros Hc He Hm. cpos u. unfold dispersion_corrected_k. rewrite Hc.
    assert (Hp : 0 <= plasma_frequency u n_e) by apply sqrt_pos.
    set (w := plasma_frequency u n_e) in *. set (a := energy s / hbar u). set (b := measured s i / hbar u).
    assert (Ha : 0 < a) by (unfold a; pos). assert (Hb : 0 < b) by (unfold b; pos).
    assert (G : forall x, 0 < x -> (1 - w ^ 2 / x ^ 2 < 0 <-> x < w)).
    { intros x Hx. assert (Hx2 : 0 < x ^ 2) by pos. split; intros H7.
      - apply Rnot_le_lt. intros Hle. assert (w ^ 2 / x ^ 2 <= 1).
        { apply (Rmult_le_reg_r (x ^ 2)); [assumption|]. unfold Rdiv. rewrite Rmult_assoc, Rinv_l by lra. nra. }
        lra.
      - assert (1 < w ^ 2 / x ^ 2); [|lra].
        apply (Rmult_lt_reg_r (x ^ 2)); [assumption|]. unfold Rdiv. rewrite Rmult_assoc, Rinv_l by lra. nra. }
    unfold sqrto at 1 2. destruct (Rlt_dec (1 - w ^ 2 / a ^ 2) 0) as [H7|H7].
    - apply G in H7; [|assumption]. split; [intros [r E]; discriminate|lra].
    - destruct (Rlt_dec (1 - w ^ 2 / b ^ 2) 0) as [H8|H8].
      + apply G in H8; [|assumption]. split; [intros [r E]; discriminate|lra].
      + rewrite G in H7, H8 by assumption. split; [lra|]. intros _.
        match goal with |- context[sqrto (?x ^ 2 + ?y ^ 2 - 2 * ?x * ?y * cos ?t)] => pose proof (radicand_nonneg x y t) as HR end.
        rewrite sqrto_some by exact HR. eauto.
  Qed.

  Lemma probe_k kk s s' : get_probe_setup u kk s = Some s' -> kk <> 0 ->
    k u s' = kk /\ angle s' = angle s /\ n_chan s' = n_chan s /\ measured s' = measured s /\ instrument s' = instrument s /\
    correct_k_dispersion s' = correct_k_dispersion s /\ frc_exponent s' = frc_exponent s.
  Proof.
    intros H Hk. cpos u. unfold get_probe_setup, qdiv in H.
    destruct (Req_EM_T (2 * sin (angle s / 2)) 0) as [|Hs]; [discriminate|]. inversion H; subst s'; clear H.
    assert (Hs' : sin (angle s / 2) <> 0) by (intros E; apply Hs; rewrite E; ring).
    split; [|cbn; tauto]. rewrite k_formula; cbn [energy angle].
    - field. repeat split; lra.
    - unfold Rdiv. repeat apply Rmult_integral_contrapositive_currified; try lra.
      apply Rinv_neq_0_compat. assumption.
  Qed.
  Lemma probe_defined kk s : sin (angle s / 2) <> 0 <-> exists s', get_probe_setup u kk s = Some s'.
  Proof.
    unfold get_probe_setup, qdiv. destruct (Req_EM_T (2 * sin (angle s / 2)) 0) as [E|E].
    - split; [lra|intros [s' H]; discriminate].
    - split; [eauto|]. intros _ H. apply E. rewrite H. ring.
  Qed.
End L.

(** ** Convolution *)
Lemma nsum_ext n f g : (forall i, (i < n)%nat -> f i = g i) -> nsum n f = nsum n g.
Proof. induction n; cbn; intros H; [reflexivity|]. rewrite IHn, H by (auto; lia). reflexivity. Qed.
Lemma nsum_lin n a b : nsum n (fun m => a + INR m * b) = INR n * a + INR n * (INR n - 1) / 2 * b.
Proof.
  induction n as [|n IH]; [cbn; lra|]. cbn [nsum]. rewrite IH, S_INR. field.
Qed.
Lemma nsum_scal n c f : nsum n (fun m => c * f m) = c * nsum n f.
Proof. induction n; cbn; [ring|]. rewrite IHn. ring. Qed.

Lemma nmin_le n f i : (i <= n)%nat -> nmin n f <= f i.
Proof.
  induction n as [|n IH]; intros H.
  - replace i with O by lia. cbn. lra.
  - cbn [nmin]. destruct (Nat.eq_dec i (S n)) as [->|]; [apply Rmin_r|].
    eapply Rle_trans; [apply Rmin_l|]. apply IH. lia.
Qed.
Lemma nmin_glb n f b : (forall i, (i <= n)%nat -> b <= f i) -> b <= nmin n f.
Proof.
  induction n as [|n IH]; intros H; cbn [nmin]; [apply H; lia|].
  apply Rmin_glb; [apply IH; intros; apply H; lia|apply H; lia].
Qed.
Lemma nmin_attained n f i : (i <= n)%nat -> (forall j, (j <= n)%nat -> f i <= f j) -> nmin n f = f i.
Proof. intros Hi H. apply Rle_antisym; [now apply nmin_le|now apply nmin_glb]. Qed.

Section Conv.
  Variable u : consts.
  Variables (s : setup) (E0 h : R).
  Let n := n_chan s.
  Hypothesis Hn : (2 <= n)%nat.
  Hypothesis Hgrid : forall m, (m < n)%nat -> measured s m = E0 + INR m * h.

  Lemma grid_mean : nsum n (measured s) / INR n = E0 + (INR n - 1) / 2 * h.
  Proof.
    rewrite (nsum_ext n _ (fun m => E0 + INR m * h)) by auto. rewrite nsum_lin.
    assert (0 < INR n) by (apply lt_0_INR; lia). field. lra.
  Qed.

  Lemma half_index : exists r : R, (r = 0 \/ r = 1 / 2) /\ (INR n - 1) / 2 = INR ((n - 1) / 2) + r.
  Proof.
    pose proof (Nat.div_mod (n - 1) 2 ltac:(lia)) as HD. pose proof (Nat.mod_upper_bound (n - 1) 2 ltac:(lia)).
    assert (Hc : INR n - 1 = 2 * INR ((n - 1) / 2) + INR ((n - 1) mod 2)).
    { replace (INR n - 1) with (INR (n - 1)) by (rewrite minus_INR by lia; cbn; lra).
      rewrite HD at 1. rewrite plus_INR, mult_INR. cbn; lra. }
    destruct ((n - 1) mod 2)%nat as [|[|]] eqn:Em; [| |lia].
    - exists 0. split; [auto|]. change (INR 0) with 0 in Hc. lra.
    - exists (1 / 2). split; [auto|]. change (INR 1) with 1 in Hc. lra.
  Qed.

  (** On an ascending grid the shifted grid is centred on index (n-1)//2. *)
  Lemma conv_grid_asc m : 0 < h -> (m < n)%nat ->
    conv_grid u s m = (INR m - INR ((n - 1) / 2)) * h / hbar u.
  Proof.
    intros Hh Hm. cpos u. unfold conv_grid. fold n. rewrite grid_mean.
    destruct half_index as (r & Hr & Er). rewrite Er.
    set (c := ((n - 1) / 2)%nat) in *.
    assert (Hcn : (c < n)%nat) by (unfold c; pose proof (Nat.div_lt (n - 1) 2 ltac:(lia) ltac:(lia)); lia).
    assert (G : forall j, (j < n)%nat -> (measured s j - (E0 + (INR c + r) * h)) / hbar u = (INR j - INR c - r) * h / hbar u).
    { intros j Hj. rewrite Hgrid by assumption. field. lra. }
    assert (Hmin : nmin (n - 1) (fun j => Rabs ((measured s j - (E0 + (INR c + r) * h)) / hbar u)) = r * h / hbar u).
    { rewrite (nmin_attained (n - 1) _ c).
      - rewrite G by assumption. replace ((INR c - INR c - r) * h / hbar u) with (- (r * h / hbar u)) by (field; lra).
        rewrite Rabs_Ropp. apply Rabs_pos_eq. apply Rmult_le_pos; [|left; apply Rinv_0_lt_compat; lra].
        apply Rmult_le_pos; [destruct Hr; lra|lra].
      - lia.
      - intros j Hj. rewrite !G by lia. unfold Rdiv. rewrite !Rabs_mult. apply Rmult_le_compat_r; [apply Rabs_pos|].
        apply Rmult_le_compat_r; [apply Rabs_pos|].
        replace (Rabs (INR c - INR c - r)) with r.
        2:{ replace (INR c - INR c - r) with (- r) by ring. rewrite Rabs_Ropp, Rabs_pos_eq; [reflexivity|destruct Hr; lra]. }
        destruct (Nat.le_gt_cases j c) as [Hle|Hgt].
        + apply le_INR in Hle. rewrite Rabs_left1; destruct Hr; lra.
        + assert (INR c + 1 <= INR j) by (rewrite <- S_INR; apply le_INR; lia).
          rewrite Rabs_pos_eq; destruct Hr; lra. }
    rewrite Hmin, G by assumption. field. lra.
  Qed.

  Lemma convolve_window Sfac i : 0 < h -> (i < n)%nat ->
    convolve u s Sfac i =
    nsum n (fun j => if (Nat.leb j (i + (n - 1) / 2) && Nat.ltb (i + (n - 1) / 2 - j) n)%bool
                     then Sfac j * instrument s ((measured s i - measured s j) / hbar u) else 0) * (h / hbar u).
  Proof.
    intros Hh Hi. unfold convolve, conv_same, conv_full. fold n. f_equal.
    - apply nsum_ext. intros j Hj.
      destruct (Nat.leb_spec j (i + (n - 1) / 2)) as [H1|]; [|reflexivity].
      destruct (Nat.ltb_spec (i + (n - 1) / 2 - j) n) as [H2|]; [|reflexivity]. cbn [andb].
      rewrite conv_grid_asc by assumption. rewrite !Hgrid by assumption. do 2 f_equal.
      rewrite minus_INR by assumption. rewrite plus_INR. f_equal. ring.
    - rewrite !Hgrid by lia. f_equal. cbn. ring.
  Qed.

  (** The full sum, for an instrument function that vanishes beyond half the
      spectrum. *)
  Lemma convolve_full Sfac i : 0 < h -> (i < n)%nat ->
    (forall w, INR n * h / (2 * hbar u) < Rabs w -> instrument s w = 0) ->
    (forall w, w = - (INR n * h / (2 * hbar u)) -> instrument s w = 0) ->
    convolve u s Sfac i = nsum n (fun j => Sfac j * instrument s ((measured s i - measured s j) / hbar u)) * (h / hbar u).
  Proof.
    intros Hh Hi Hz Hz'. cpos u. rewrite convolve_window by assumption. f_equal. apply nsum_ext. intros j Hj.
    set (c := ((n - 1) / 2)%nat).
    pose proof (Nat.div_mod (n - 1) 2 ltac:(lia)) as HD. pose proof (Nat.mod_upper_bound (n - 1) 2 ltac:(lia)). fold c in HD.
    assert (Hd : (measured s i - measured s j) / hbar u = (INR i - INR j) * h / hbar u).
    { rewrite !Hgrid by assumption. f_equal. ring. }
    assert (Hhh : 0 < h / hbar u) by pos.
    destruct (Nat.leb_spec j (i + c)) as [Hq1|Hq1]; [destruct (Nat.ltb_spec (i + c - j) n) as [Hq2|Hq2]|]; cbn [andb].
    - reflexivity.
    - (* i - j >= n - c > n/2 *)
      rewrite Hz; [ring|]. rewrite Hd. assert (Hx : INR n / 2 < INR i - INR j).
      { assert (Hr8 : INR (n - c) <= INR (i - j)) by (apply le_INR; lia). rewrite !minus_INR in Hr8 by lia.
        assert (2 * INR c <= INR n - 1).
        { assert (Hr9 : INR (2 * c) <= INR (n - 1)) by (apply le_INR; lia). rewrite mult_INR, minus_INR in Hr9 by lia. change (INR 2) with 2 in Hr9. change (INR 1) with 1 in Hr9. lra. }
        lra. }
      rewrite Rabs_pos_eq.
      + replace (INR n * h / (2 * hbar u)) with (INR n / 2 * (h / hbar u)) by (field; lra).
        replace ((INR i - INR j) * h / hbar u) with ((INR i - INR j) * (h / hbar u)) by (field; lra).
        apply Rmult_lt_compat_r; lra.
      + replace ((INR i - INR j) * h / hbar u) with ((INR i - INR j) * (h / hbar u)) by (field; lra).
        apply Rmult_le_pos; [|lra]. pose proof (pos_INR n). lra.
    - (* j - i >= c + 1 >= n/2 *)
      assert (Hx : INR n / 2 <= INR j - INR i).
      { assert (Hr8 : INR (c + 1) <= INR (j - i)) by (apply le_INR; lia). rewrite plus_INR, minus_INR in Hr8 by lia.
        assert (INR n - 1 <= 2 * INR c + 1).
        { assert (Hr9 : INR (n - 1) <= INR (2 * c + 1)) by (apply le_INR; lia). rewrite plus_INR, mult_INR, minus_INR in Hr9 by lia. change (INR 2) with 2 in Hr9. change (INR 1) with 1 in Hr9. lra. }
        change (INR 1) with 1 in Hr8. lra. }
      assert (E1 : (INR i - INR j) * h / hbar u = - ((INR j - INR i) * (h / hbar u))) by (field; lra).
      assert (E2 : INR n * h / (2 * hbar u) = INR n / 2 * (h / hbar u)) by (field; lra).
      destruct Hx as [Hx|Hx].
      + rewrite Hz; [ring|]. rewrite Hd, E1, E2, Rabs_Ropp, Rabs_pos_eq; [apply Rmult_lt_compat_r; lra|].
        apply Rmult_le_pos; [|lra]. pose proof (pos_INR n). lra.
      + rewrite Hz'; [ring|]. rewrite Hd, E1, E2, Hx. reflexivity.
  Qed.
End Conv.

(** Descending grids: for an even number of channels the result is displaced
    by one channel. *)
Lemma conv_grid_desc_even u s E0 h q : n_chan s = (2 * q)%nat -> (1 <= q)%nat -> h < 0 ->
  (forall m, (m < n_chan s)%nat -> measured s m = E0 + INR m * h) ->
  forall m, (m < n_chan s)%nat -> conv_grid u s m = (INR m - INR q) * h / hbar u.
Proof.
  intros Hq Hq1 Hh Hgrid m Hm. cpos u. unfold conv_grid.
  rewrite (grid_mean s E0 h ltac:(lia) Hgrid). rewrite Hq in *.
  assert (EQ : (INR (2 * q) - 1) / 2 = INR q - 1 / 2) by (rewrite mult_INR; cbn; lra). rewrite EQ.
  assert (G : forall j, (j < 2 * q)%nat -> (measured s j - (E0 + (INR q - 1 / 2) * h)) / hbar u = (INR j - INR q + 1 / 2) * h / hbar u).
  { intros j Hj. rewrite Hgrid by assumption. field. lra. }
  assert (Hmin : nmin (2 * q - 1) (fun j => Rabs ((measured s j - (E0 + (INR q - 1 / 2) * h)) / hbar u)) = - h / 2 / hbar u).
  { rewrite (nmin_attained (2 * q - 1) _ q).
    - rewrite G by lia. replace ((INR q - INR q + 1 / 2) * h / hbar u) with (- (- h / 2 / hbar u)) by (field; lra).
      rewrite Rabs_Ropp. apply Rabs_pos_eq. left. apply Rdiv_lt_0_compat; lra.
    - lia.
    - intros j Hj. rewrite !G by lia. unfold Rdiv. rewrite !Rabs_mult. apply Rmult_le_compat_r; [apply Rabs_pos|].
      apply Rmult_le_compat_r; [apply Rabs_pos|].
      replace (Rabs (INR q - INR q + 1 * / 2)) with (1 / 2) by (rewrite Rabs_pos_eq; lra).
      destruct (Nat.le_gt_cases q j) as [Hle|Hgt].
      + apply le_INR in Hle. rewrite Rabs_pos_eq; lra.
      + assert (INR j + 1 <= INR q) by (rewrite <- S_INR; apply le_INR; lia). rewrite Rabs_left1; lra. }
  rewrite Hmin, G by assumption. field. lra.
Qed.
Lemma convolve_desc_even u s E0 h q Sfac i : n_chan s = (2 * q)%nat -> (1 <= q)%nat -> h < 0 ->
  (forall m, (m < n_chan s)%nat -> measured s m = E0 + INR m * h) -> (i < n_chan s)%nat ->
  convolve u s Sfac i =
  nsum (n_chan s) (fun j => if (Nat.ltb j (i + q) && Nat.ltb (i + q) (n_chan s + 1 + j))%bool
                   then Sfac j * instrument s ((measured s i - measured s j - h) / hbar u) else 0) * (h / hbar u).
Proof.
  intros Hq Hq1 Hh Hgrid Hi. cpos u. unfold convolve, conv_same, conv_full.
  replace ((n_chan s - 1) / 2)%nat with (q - 1)%nat.
  2:{ rewrite Hq. replace (2 * q - 1)%nat with ((q - 1) * 2 + 1)%nat by lia.
      rewrite Nat.div_add_l by lia. rewrite (Nat.div_small 1 2) by lia. lia. }
  f_equal.
  - apply nsum_ext. intros j Hj.
    destruct (Nat.leb_spec j (i + (q - 1))) as [A|A], (Nat.ltb_spec j (i + q)) as [B|B]; try lia; cbn [andb]; [|reflexivity].
    destruct (Nat.ltb_spec (i + (q - 1) - j) (n_chan s)) as [A'|A'], (Nat.ltb_spec (i + q) (n_chan s + 1 + j)) as [B'|B']; try lia; [|reflexivity].
    rewrite (conv_grid_desc_even u s E0 h q) by assumption. rewrite !Hgrid by assumption. do 2 f_equal.
    rewrite minus_INR, plus_INR, minus_INR by lia. change (INR 1) with 1. f_equal. ring.
  - rewrite !Hgrid by lia. f_equal. cbn. ring.
Qed.
Lemma convolve_linear u s S1 S2 a b i :
  convolve u s (fun j => a * S1 j + b * S2 j) i = a * convolve u s S1 i + b * convolve u s S2 i.
Proof.
  unfold convolve, conv_same, conv_full.
  set (m := (i + (n_chan s - 1) / 2)%nat). set (f := (_ / hbar u)).
  assert (G : forall n, nsum n (fun j => if (Nat.leb j m && Nat.ltb (m - j) (n_chan s))%bool then (a * S1 j + b * S2 j) * instrument s (conv_grid u s (m - j)) else 0)
     = a * nsum n (fun j => if (Nat.leb j m && Nat.ltb (m - j) (n_chan s))%bool then S1 j * instrument s (conv_grid u s (m - j)) else 0)
     + b * nsum n (fun j => if (Nat.leb j m && Nat.ltb (m - j) (n_chan s))%bool then S2 j * instrument s (conv_grid u s (m - j)) else 0)).
  { induction n as [|n IH]; cbn [nsum]; [ring|]. rewrite IH. destruct (_ && _)%bool; ring. }
  rewrite G. ring.
Qed.

Lemma full_k_spec u s i : correct_k_dispersion s = true -> 0 < energy s -> 0 < measured s i ->
  let kin := energy s / (hbar u * c_light u) in
  let kout := measured s i / (hbar u * c_light u) in
  exists r, full_k u s i = Some r /\
    0 <= r /\ r ^ 2 = kin ^ 2 + kout ^ 2 - 2 * kin * kout * cos (angle s) /\
    Rabs (kout - kin) <= r <= kout + kin /\
    (measured s i = energy s -> r = Rabs (k u s)).
Proof.
  intros Hc He Hm kin kout. cpos u. destruct (full_k_some u s i) as (r & Er & Hr). exists r.
  split; [assumption|]. split; [auto|]. split; [|split].
  - unfold full_k in Er. rewrite Hc in Er. rewrite sqrto_some in Er by apply radicand_nonneg. injection Er as <-.
    rewrite pow2_sqrt by apply radicand_nonneg.
    replace (energy s / hbar u / c_light u) with kin by (unfold kin; field; split; lra).
    replace (measured s i / hbar u / c_light u) with kout by (unfold kout; field; split; lra). ring.
  - destruct (full_k_bounds u s i r Hc ltac:(lra) ltac:(lra) Er) as [A B].
    assert (Hp : 0 < hbar u * c_light u) by pos.
    replace (kout - kin) with ((measured s i - energy s) / (hbar u * c_light u)) by (unfold kin, kout; field; split; lra).
    replace (kout + kin) with ((measured s i + energy s) / (hbar u * c_light u)) by (unfold kin, kout; field; split; lra).
    split; [|assumption]. unfold Rdiv in *. rewrite Rabs_mult. rewrite (Rabs_pos_eq (/ _)); [assumption|].
    left. now apply Rinv_0_lt_compat.
  - intros E. rewrite (full_k_elastic u s i Hc E ltac:(lra)) in Er. now injection Er as <-.
Qed.

Lemma refraction u s i n_e r : 0 < energy s -> measured s i = energy s ->
  correct_k_dispersion s = true -> 0 <= n_e -> dispersion_corrected_k u s n_e i = Some r ->
  r ^ 2 = (1 - (plasma_frequency u n_e * hbar u / energy s) ^ 2) * k u s ^ 2 /\ 0 <= r <= Rabs (k u s).
Proof.
  intros He Hm Hc Hn H. cpos u.
  assert (E : r ^ 2 = (1 - (plasma_frequency u n_e * hbar u / energy s) ^ 2) * k u s ^ 2 /\ 0 <= r).
  { unfold dispersion_corrected_k in H. rewrite Hc, Hm in H. set (w := plasma_frequency u n_e) in *.
    unfold sqrto at 1 2 in H. destruct (Rlt_dec (1 - w ^ 2 / (energy s / hbar u) ^ 2) 0) as [|Hw]; [discriminate|].
    set (f := sqrt _) in *. cbv zeta in H. rewrite sqrto_some in H by apply radicand_nonneg.
    assert (Hf : f ^ 2 = 1 - w ^ 2 / (energy s / hbar u) ^ 2) by (unfold f; apply pow2_sqrt; lra).
    injection H as <-. split; [|apply sqrt_pos]. rewrite pow2_sqrt by apply radicand_nonneg.
    set (x := energy s / hbar u / c_light u * f).
    transitivity (x ^ 2 + x ^ 2 - 2 * x * x * cos (angle s)); [ring|]. unfold x; clear x.
    rewrite <- law_cos. rewrite k_formula by lra. set (sn := sin _).
    transitivity (4 * (energy s / hbar u / c_light u) ^ 2 * sn ^ 2 * f ^ 2); [ring|]. rewrite Hf. field. repeat split; lra. }
  destruct E as [E Hr0]. split; [assumption|]. split; [assumption|].
  rewrite <- (sqrt_pow2 r) by assumption. rewrite <- sqrt_Rsqr_abs. apply sqrt_le_1.
  - apply pow2_ge_0.
  - apply Rle_0_sqr.
  - rewrite E, Rsqr_pow2. pose proof (pow2_ge_0 (k u s)). pose proof (pow2_ge_0 (plasma_frequency u n_e * hbar u / energy s)).
    nra.
Qed.

Lemma frc_ok s i : 0 < energy s -> 0 < measured s i ->
  0 < frc s i /\ (frc_exponent s = 0 -> frc s i = 1) /\ (measured s i = energy s -> frc s i = 1) /\
  (frc_exponent s = 1 -> frc s i = measured s i / energy s) /\
  (frc_exponent s = 2 -> frc s i = (measured s i / energy s) ^ 2).
Proof.
  intros He Hm. assert (Hq : 0 < measured s i / energy s) by (apply Rdiv_lt_0_compat; assumption).
  unfold frc. split; [apply exp_pos|]. split; [intros ->; now apply Rpower_O|]. split; [|split].
  - intros E. replace (measured s i / energy s) with 1 by (rewrite E; field; lra).
    unfold Rpower. rewrite ln_1, Rmult_0_r. apply exp_0.
  - intros ->. now apply Rpower_1.
  - intros ->. change 2 with (INR 2). now apply Rpower_pow.
Qed.

Lemma nsum_single n f i : (i < n)%nat -> (forall j, (j < n)%nat -> j <> i -> f j = 0) -> nsum n f = f i.
Proof.
  induction n as [|n IH]; intros Hi H; [lia|]. cbn [nsum]. destruct (Nat.eq_dec i n) as [->|Hne].
  - rewrite (nsum_ext n f (fun _ => 0)) by (intros j Hj; apply H; lia).
    replace (nsum n (fun _ => 0)) with 0; [ring|]. clear. induction n; cbn; [reflexivity|lra].
  - rewrite IH by (try lia; intros; apply H; lia). rewrite (H n) by lia. ring.
Qed.
Lemma convolve_delta u s E0 h Sfac i : (2 <= n_chan s)%nat -> 0 < h ->
  (forall m, (m < n_chan s)%nat -> measured s m = E0 + INR m * h) ->
  (i < n_chan s)%nat -> instrument s 0 * (h / hbar u) = 1 -> (forall w, w <> 0 -> instrument s w = 0) ->
  convolve u s Sfac i = Sfac i.
Proof.
  intros Hn Hh Hg Hi Hi0 Hz. cpos u. rewrite (convolve_full u s E0 h Hn Hg Sfac i Hh Hi).
  - rewrite (nsum_single _ _ i Hi).
    + replace ((measured s i - measured s i) / hbar u) with 0 by (field; lra). rewrite Rmult_assoc, Hi0. ring.
    + intros j Hj Hne. rewrite Hz; [ring|]. rewrite !Hg by assumption.
      replace (E0 + INR i * h - (E0 + INR j * h)) with ((INR i - INR j) * h) by ring.
      unfold Rdiv. apply Rmult_integral_contrapositive_currified; [|apply Rinv_neq_0_compat; lra].
      apply Rmult_integral_contrapositive_currified; [|lra].
      intros E. apply Hne. apply INR_eq. lra.
  - intros w Hw. apply Hz. intros ->. rewrite Rabs_R0 in Hw.
    assert (0 <= INR (n_chan s) * h / (2 * hbar u)); [|lra].
    apply Rmult_le_pos; [apply Rmult_le_pos; [apply pos_INR|lra]|left; apply Rinv_0_lt_compat; lra].
  - intros w ->. apply Hz. assert (0 < INR (n_chan s) * h / (2 * hbar u)); [|lra].
    assert (0 < INR (n_chan s)) by (apply lt_0_INR; lia). pos.
Qed.
Lemma probe_own u s : energy s <> 0 -> sin (angle s / 2) <> 0 -> get_probe_setup u (k u s) s = Some s.
Proof.
  intros He Hs. cpos u. unfold get_probe_setup. rewrite qdiv_some by lra. rewrite k_formula by assumption.
  replace (hbar u * (2 * (energy s / hbar u / c_light u) * sin (angle s / 2)) * c_light u / (2 * sin (angle s / 2)))
    with (energy s) by (field; repeat split; lra).
  now destruct s.
Qed.
