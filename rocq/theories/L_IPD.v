(** Lemmas on the ionisation potential depression. *)
From Coq Require Import Reals List Bool Arith ZArith Lra Lia Psatz.
From Coquelicot Require Import Coquelicot.
From Verif Require Import M_Const M_PlasmaState M_Interp M_IPD.
Import ListNotations.
Open Scope R_scope.

Lemma rp_pos x y : 0 < Rpower x y.
Proof. apply exp_pos. Qed.
Lemma rp_cube x : 0 < x -> Rpower x (1 / 3) ^ 3 = x.
Proof.
  intros H. rewrite <- Rpower_pow by apply rp_pos. rewrite Rpower_mult. replace (1 / 3 * INR 3) with 1 by (cbn; lra). now apply Rpower_1.
Qed.
Lemma rp_two x : 0 < x -> Rpower x (2 / 3) = Rpower x (1 / 3) ^ 2.
Proof.
  intros H. rewrite <- Rpower_pow by apply rp_pos. rewrite Rpower_mult. f_equal. cbn. lra.
Qed.
Lemma sq_lt a b : 0 <= a -> 0 <= b -> a ^ 3 < b ^ 3 -> a < b.
Proof.
  intros Ha Hb H. destruct (Rlt_le_dec a b) as [|L]; [assumption|]. exfalso.
  assert (b ^ 3 <= a ^ 3) by (apply pow_incr; lra). lra.
Qed.
Lemma cube_le a b : 0 <= a -> 0 <= b -> a ^ 3 <= b ^ 3 -> a <= b.
Proof.
  intros Ha Hb H. destruct (Rle_lt_dec a b) as [|L]; [assumption|]. exfalso.
  assert (b ^ 3 < a ^ 3) by (cbn; assert (b * b < a * a) by nra; nra). lra.
Qed.

(** the interpolating function of Stewart and Pyatt *)
Definition gsp (s : R) : R := Rpower (1 + s ^ 3) (2 / 3) - s ^ 2.
Lemma gsp_bounds s : 0 < s -> 0 < gsp s /\ gsp s <= 1 /\ 3 / 2 * (gsp s) * s <= 1 /\ 1 - s ^ 2 < gsp s /\ 1 / (1 + / s ^ 3) <= 3 / 2 * gsp s * s.
Proof.
  intros Hs. assert (Hs3 : 0 < s ^ 3) by now apply pow_lt. assert (Hs2 : 0 < s ^ 2) by now apply pow_lt.
  unfold gsp. rewrite rp_two by lra. set (a := Rpower (1 + s ^ 3) (1 / 3)).
  assert (Ha : 0 < a) by apply rp_pos. assert (Ha3 : a ^ 3 = 1 + s ^ 3) by (apply rp_cube; lra). clearbody a.
  assert (Has : s < a) by (apply sq_lt; lra). assert (Ha1 : 1 < a) by (apply sq_lt; try lra).
  split; [nra|]. split; [|split; [|split]].
  - enough (a ^ 2 <= 1 + s ^ 2) by lra. apply cube_le; [nra|nra|].
    replace ((a ^ 2) ^ 3) with ((a ^ 3) ^ 2) by ring. rewrite Ha3. pose proof (pow2_ge_0 (s - s ^ 2)). nra.
  - (* 3 (a^2 - s^2) s <= 2 = 2 (a^3 - s^3) *)
    enough (3 * (a ^ 2 - s ^ 2) * s <= 2 * (a ^ 3 - s ^ 3)) by lra.
    assert (0 <= (a - s) ^ 2 * (2 * a + s)) by (apply Rmult_le_pos; [apply pow2_ge_0|lra]). nra.
  - nra.
  - (* s^3/(a^3) <= 3/2 (a^2-s^2) s *)
    assert (Hq : 0 < / s ^ 3) by now apply Rinv_0_lt_compat.
    replace (1 / (1 + / s ^ 3)) with (s ^ 3 / a ^ 3) by (rewrite Ha3; field; cbn in *; lra).
    assert (Ha3p : 0 < a ^ 3) by now apply pow_lt.
    apply (Rmult_le_reg_r (a ^ 3)); [exact Ha3p|]. unfold Rdiv at 1. rewrite Rmult_assoc, Rinv_l, Rmult_1_r by lra.
    (* s^3 (a^3 - s^3) <= 3/2 (a^2 - s^2) s a^3 *)
    apply (Rmult_le_reg_l (/ s)); [now apply Rinv_0_lt_compat|].
    replace (/ s * s ^ 3) with (s ^ 2) by (field; lra).
    replace (/ s * (3 / 2 * (a ^ 2 - s ^ 2) * s * a ^ 3)) with (3 / 2 * (a ^ 2 - s ^ 2) * a ^ 3) by (field; lra).
    replace (s ^ 2) with (s ^ 2 * (a ^ 3 - s ^ 3)) at 1 by (rewrite Ha3; ring).
    assert (H2 : s ^ 2 * (a ^ 2 + a * s + s ^ 2) <= 3 / 2 * (a + s) * a ^ 3).
    { assert (s * s <= a * a) by nra. assert (a * s <= a * a) by nra.
      assert (0 < a * a) by nra. assert (A1 : a ^ 2 + a * s + s ^ 2 <= 3 * (a * a)) by nra.
      assert (A2 : s ^ 2 * (a ^ 2 + a * s + s ^ 2) <= s ^ 2 * (3 * (a * a))) by (apply Rmult_le_compat_l; lra).
      assert (A3 : s ^ 2 <= (a + s) / 2 * a) by nra.
      assert (A4 : s ^ 2 * (3 * (a * a)) <= (a + s) / 2 * a * (3 * (a * a))) by (apply Rmult_le_compat_r; lra).
      nra. }
    replace (s ^ 2 * (a ^ 3 - s ^ 3)) with ((a - s) * (s ^ 2 * (a ^ 2 + a * s + s ^ 2))) by ring.
    replace (3 / 2 * (a ^ 2 - s ^ 2) * a ^ 3) with ((a - s) * (3 / 2 * (a + s) * a ^ 3)) by field.
    apply Rmult_le_compat_l; lra.
Qed.
(** ... and Bernoulli's inequality for its other form *)
Lemma bern L : 0 < L -> 0 < Rpower (1 + L) (2 / 3) - 1 <= 2 / 3 * L.
Proof.
  intros H. rewrite rp_two by lra. set (a := Rpower (1 + L) (1 / 3)).
  assert (Ha : 0 < a) by apply rp_pos. assert (Ha3 : a ^ 3 = 1 + L) by (apply rp_cube; lra). clearbody a.
  assert (Ha1 : 1 < a) by (apply sq_lt; lra). split; [nra|].
  assert (0 <= (a - 1) ^ 2 * (2 * a + 1)) by (apply Rmult_le_pos; [apply pow2_ge_0|lra]). nra.
Qed.

Lemma sum_nonneg l : (forall x, In x l -> 0 <= x) -> 0 <= sum l.
Proof.
  unfold sum. induction l as [|x l IH]; cbn; intros H; [lra|]. pose proof (H x (or_introl eq_refl)). pose proof (IH (fun y Hy => H y (or_intror Hy))). lra.
Qed.
Lemma in_map2 {A B C} (f : A -> B -> C) l m z : In z (map2 f l m) -> exists a b, In a l /\ In b m /\ z = f a b.
Proof.
  revert m. induction l as [|a l IH]; intros [|b m]; cbn; try tauto. intros [<-|H].
  - exists a, b. auto.
  - destruct (IH m H) as (a' & b' & ? & ? & ?). exists a', b'. auto.
Qed.
Lemma map2_map_l {A B C D} (f : B -> C -> D) (g : A -> B) l m : map2 f (map g l) m = map2 (fun a c => f (g a) c) l m.
Proof. revert m. induction l as [|a l IH]; intros [|b m]; cbn; congruence. Qed.
Lemma map2_map_r {A B C D} (f : A -> C -> D) (g : B -> C) l m : map2 f l (map g m) = map2 (fun a c => f a (g c)) l m.
Proof. revert m. induction l as [|a l IH]; intros [|b m]; cbn; congruence. Qed.

Section IPD.
  Variables (u : consts) (isle : R -> R -> R).
  Definition Qc : R := e_ch u ^ 2 / (4 * PI * eps0 u).
  Lemma Qc_pos : 0 < Qc.
  Proof. pose proof (e_pos u). pose proof (eps0_pos u). pose proof PI_RGT_0. unfold Qc. apply Rdiv_lt_0_compat; [now apply pow_lt|]. apply Rmult_lt_0_compat; lra. Qed.

  Lemma kappa_i_nonneg Zbar ni Ti j : (forall n, In n ni -> 0 < n) -> 0 < at_ Ti j -> 0 <= kappa_i_sq u Zbar ni Ti j.
  Proof.
    intros Hn HT. pose proof (eps0_pos u). pose proof (kB_pos u). pose proof (e_pos u). unfold kappa_i_sq. apply Rmult_le_pos.
    - apply sum_nonneg. intros x Hx. apply in_map2 in Hx. destruct Hx as (z & n & _ & Hn' & ->). pose proof (Hn n Hn'). pose proof (pow2_ge_0 z). pose proof (pow2_ge_0 (e_ch u)).
      apply Rmult_le_pos; [now apply Rmult_le_pos|lra].
    - left. apply Rinv_0_lt_compat. rewrite Rmult_1_l. apply Rmult_lt_0_compat; [now apply Rmult_lt_0_compat|exact HT].
  Qed.
  Lemma kappa_e_pos arb ne Te : 0 < ne -> 0 < Te -> (arb = true -> 0 < isle ne Te) -> 0 < kappa_e_sq u isle arb ne Te.
  Proof.
    intros Hn HT Hi. pose proof (eps0_pos u). pose proof (kB_pos u). pose proof (e_pos u). unfold kappa_e_sq. destruct arb.
    - apply pow_lt. now apply Hi.
    - apply Rdiv_lt_0_compat; [apply Rmult_lt_0_compat; [now apply pow_lt|lra]|]. rewrite Rmult_1_l. apply Rmult_lt_0_compat; [now apply Rmult_lt_0_compat|exact HT].
  Qed.
  Lemma kappa_D_pos arb ne ni Te Ti Zbar j : 0 < ne -> 0 < Te -> (forall n, In n ni -> 0 < n) -> 0 < at_ Ti j ->
    (arb = true -> 0 < isle ne Te) -> 0 < kappa_D u isle arb ne ni Te Ti Zbar j.
  Proof.
    intros. unfold kappa_D. apply sqrt_lt_R0. pose proof (kappa_i_nonneg Zbar ni Ti j ltac:(assumption) ltac:(assumption)).
    pose proof (kappa_e_pos arb ne Te ltac:(assumption) ltac:(assumption) ltac:(assumption)). lra.
  Qed.

  Lemma dh_form arb Zi ne ni Te Ti Zbar j :
    ipd_debye_hueckel u isle arb Zi ne ni Te Ti Zbar j = - ((Zi + 1) * Qc * kappa_D u isle arb ne ni Te Ti Zbar j).
  Proof. pose proof (eps0_pos u). pose proof PI_RGT_0. unfold ipd_debye_hueckel, Qc. set (k := kappa_D _ _ _ _ _ _ _ _ _). clearbody k. field. lra. Qed.
  Definition Rsp (ni : list R) : R := Rpower (3 / (4 * PI * sum ni)) (1 / 3).
  Lemma sp_form arb Zi ne ni Te Ti Zbar j :
    let k := kappa_D u isle arb ne ni Te Ti (map clip6 Zbar) j in
    ipd_stewart_pyatt u isle arb Zi ne ni Te Ti Zbar j
    = - ((clip6 Zi + 1) * Qc * (3 / 2 * gsp (1 / k / Rsp ni) / Rsp ni)).
  Proof.
    intros k. pose proof (eps0_pos u). pose proof PI_RGT_0. pose proof (rp_pos (3 / (4 * PI * sum ni)) (1 / 3)) as HR.
    unfold ipd_stewart_pyatt. cbv zeta. fold k. fold (Rsp ni) in *. fold (gsp (1 / k / Rsp ni)). set (g := gsp _). clearbody g.
    unfold Qc. field. lra.
  Qed.
  Lemma is_form Zi ne Zbar j :
    ipd_ion_sphere u None Zi ne Zbar j = - ((clip6 Zi + 1) * Qc * (3 / 2 / Rpower (3 * clip6 (at_ Zbar j) / (4 * PI * ne)) (1 / 3))).
  Proof.
    pose proof (eps0_pos u). pose proof PI_RGT_0. pose proof (rp_pos (3 * clip6 (at_ Zbar j) / (4 * PI * ne)) (1 / 3)) as HR.
    unfold ipd_ion_sphere. cbv zeta. set (r := Rpower _ _) in *. clearbody r. unfold Qc. field. lra.
  Qed.
  Lemma clip6_pos x : 0 < clip6 x.
  Proof. unfold clip6. pose proof (Rmax_r x (/ 1000000)). lra. Qed.
  Lemma clip6_id x : / 1000000 <= x -> clip6 x = x.
  Proof. intros H. unfold clip6. now apply Rmax_left. Qed.
  Lemma map_clip6 l : List.Forall (fun z => / 1000000 <= z) l -> map clip6 l = l.
  Proof. induction 1; cbn; [reflexivity|]. now rewrite clip6_id, IHForall. Qed.
End IPD.

(** *** Ecker-Kroell *)
Section EK.
  Variables (u : consts) (isle : R -> R -> R).
  Lemma ek_form arb C Zi ne ni Te Ti Zmax Zbar j :
    ipd_ecker_kroell u isle arb C Zi ne ni Te Ti Zmax Zbar j =
    - ((Zi + 1) * Qc u * (if Rle_dec (at_ ni j + ne) (n_crit u Te (at_ Zmax j)) then sqrt (ek_kappa_i_sq u Zbar ni Ti + kappa_e_sq u isle arb ne Te)
       else (match C with Some c => c | None => sqrt (ek_kappa_i_sq u Zbar (map (fun n => n_crit u Te (at_ Zmax j) / (ne + sum ni) * n) ni) Ti
             + kappa_e_sq u isle arb (n_crit u Te (at_ Zmax j) / (ne + sum ni) * ne) Te)
             * Rpower (3 / (4 * PI * n_crit u Te (at_ Zmax j))) (1 / 3) end) / Rpower (3 / (4 * PI * (ne + at_ ni j))) (1 / 3))).
  Proof.
    pose proof (eps0_pos u) as He. pose proof PI_RGT_0 as HP.
    pose proof (rp_pos (3 / (4 * PI * (ne + at_ ni j))) (1 / 3)) as HR.
    unfold ipd_ecker_kroell. cbv zeta. destruct (Rle_dec _ _).
    - set (k := sqrt _). clearbody k. unfold Qc. destruct (Req_dec k 0) as [->|Hk].
      + unfold Rdiv. rewrite !Rinv_0, !Rmult_0_r, Rinv_0. ring.
      + field. lra.
    - set (c := match C with Some c => c | None => _ end). set (r := Rpower (3 / (4 * PI * (ne + at_ ni j))) (1 / 3)) in *. clearbody c r.
      unfold Qc. field. lra.
  Qed.
  Lemma n_crit_pos Te Z : 0 < Te -> Z <> 0 -> 0 < n_crit u Te Z.
  Proof.
    intros HT HZ. pose proof (eps0_pos u). pose proof (kB_pos u). pose proof (e_pos u). pose proof PI_RGT_0.
    unfold n_crit. apply Rmult_lt_0_compat; [apply Rdiv_lt_0_compat; lra|]. apply pow_lt. apply Rdiv_lt_0_compat.
    - rewrite Rmult_1_r. apply Rmult_lt_0_compat; [|exact HT]. apply Rmult_lt_0_compat; [|lra]. apply Rmult_lt_0_compat; lra.
    - apply Rmult_lt_0_compat; [|now apply pow_lt]. rewrite <- Rsqr_pow2. now apply Rlt_0_sqr.
  Qed.
  (** with a common temperature the screening is that of Debye and Hueckel *)
  Lemma ek_kappa_common Zbar ni Ti T j : length Ti = length ni -> length Zbar = length ni -> List.Forall (eq T) Ti -> (j < length Ti)%nat ->
    ek_kappa_i_sq u Zbar ni Ti = kappa_i_sq u Zbar ni Ti j.
  Proof.
    intros HL HZ HT Hj. unfold kappa_i_sq. replace (at_ Ti j) with T.
    - clear Hj. unfold ek_kappa_i_sq, sum. set (D := 1 * eps0 u * kB u * T).
      revert ni Zbar HL HZ. induction HT as [|x Ti Hx HT IH]; intros [|n ni] [|z Zbar] HL HZ; try discriminate; cbn; try (unfold Rdiv; ring).
      cbn in IH. rewrite IH by (cbn in *; lia). subst x. unfold Rdiv. fold D. ring.
    - unfold at_. apply (Forall_forall (eq T) Ti); [exact HT|now apply nth_In].
  Qed.
  Lemma ek_kappa_scale c Zbar ni Ti : ek_kappa_i_sq u Zbar (map (fun n => c * n) ni) Ti = c * ek_kappa_i_sq u Zbar ni Ti.
  Proof.
    unfold ek_kappa_i_sq, sum. revert ni Ti. induction Zbar as [|z Zbar IH]; intros [|n ni] [|T Ti]; cbn; try ring.
    cbn in IH. rewrite IH. unfold Rdiv. ring.
  Qed.
  Lemma kappa_e_scale c ne Te : kappa_e_sq u isle false (c * ne) Te = c * kappa_e_sq u isle false ne Te.
  Proof. unfold kappa_e_sq, Rdiv. ring. Qed.
  Lemma ek_kappa_nonneg Zbar ni Ti : (forall n, In n ni -> 0 < n) -> (forall T, In T Ti -> 0 < T) -> 0 <= ek_kappa_i_sq u Zbar ni Ti.
  Proof.
    intros Hn HT. pose proof (eps0_pos u). pose proof (kB_pos u). pose proof (e_pos u). unfold ek_kappa_i_sq. apply sum_nonneg.
    intros x Hx. apply in_map2 in Hx. destruct Hx as (a & T & Ha & HT' & ->). apply in_map2 in Ha. destruct Ha as (z & n & _ & Hn' & ->).
    pose proof (Hn n Hn'). pose proof (HT T HT'). pose proof (pow2_ge_0 z). pose proof (pow2_ge_0 (e_ch u)). apply Rmult_le_pos.
    - apply Rmult_le_pos; [now apply Rmult_le_pos|lra].
    - left. apply Rinv_0_lt_compat. rewrite Rmult_1_l. apply Rmult_lt_0_compat; [now apply Rmult_lt_0_compat|assumption].
  Qed.
  Lemma radius_ratio nc n : 0 < nc -> 0 < n -> Rpower (3 / (4 * PI * nc)) (1 / 3) / Rpower (3 / (4 * PI * n)) (1 / 3) = Rpower (n / nc) (1 / 3).
  Proof.
    intros H1 H2. pose proof PI_RGT_0. unfold Rdiv at 1. rewrite <- Rpower_Ropp. unfold Rpower. rewrite <- exp_plus. f_equal.
    assert (0 < 3 / (4 * PI)) by (apply Rdiv_lt_0_compat; lra).
    replace (3 / (4 * PI * nc)) with (3 / (4 * PI) / nc) by (field; lra). replace (3 / (4 * PI * n)) with (3 / (4 * PI) / n) by (field; lra).
    assert (D : forall a b, 0 < a -> 0 < b -> ln (a / b) = ln a - ln b)
      by (intros a b Ha Hb; unfold Rdiv; rewrite ln_mult, ln_Rinv; [ring|assumption|assumption|now apply Rinv_0_lt_compat]).
    set (c := 3 / (4 * PI)) in *. clearbody c. rewrite (D c nc), (D c n), (D n nc) by assumption. field.
  Qed.
  Lemma ek_one Zi ne n Te T Zmax Zb : 0 < ne -> 0 < n -> 0 < Te -> 0 < T -> Zmax <> 0 ->
    ipd_ecker_kroell u isle false None Zi ne [n] Te [T] [Zmax] [Zb] 0 =
    ipd_debye_hueckel u isle false Zi ne [n] Te [T] [Zb] 0 * Rmin 1 (Rpower (n_crit u Te Zmax / (n + ne)) (1 / 6)).
  Proof.
    intros Hne Hn HTe HT HZ. pose proof (n_crit_pos Te Zmax HTe HZ) as Hc.
    rewrite ek_form, dh_form. change (at_ [n] 0) with n. change (at_ [Zmax] 0) with Zmax. set (nc := n_crit u Te Zmax) in *.
    unfold kappa_D. rewrite <- (ek_kappa_common [Zb] [n] [T] T 0) by (try reflexivity; try (cbn; lia); repeat constructor).
    replace (sum [n]) with n by (unfold sum; cbn; ring).
    change (map (fun n0 => nc / (ne + n) * n0) [n]) with (map (fun n0 => (nc / (ne + n)) * n0) [n]).
    rewrite ek_kappa_scale, kappa_e_scale, <- Rmult_plus_distr_l.
    pose proof (ek_kappa_nonneg [Zb] [n] [T] ltac:(intros x [<-|[]]; assumption) ltac:(intros x [<-|[]]; assumption)) as Hk.
    pose proof (kappa_e_pos u isle false ne Te Hne HTe ltac:(discriminate)) as Hk2.
    set (K := ek_kappa_i_sq u [Zb] [n] [T] + kappa_e_sq u isle false ne Te). assert (HK : 0 < K) by (unfold K; lra). clearbody K.
    assert (Hr : 0 < nc / (ne + n)) by (apply Rdiv_lt_0_compat; lra).
    destruct (Rle_dec (n + ne) nc) as [L|L].
    - rewrite Rmin_left; [ring|].
      assert (1 <= nc / (n + ne)) by (apply (Rmult_le_reg_r (n + ne)); [lra|]; unfold Rdiv; rewrite Rmult_assoc, Rinv_l by lra; lra).
      rewrite <- (Rpower_O (nc / (n + ne))) at 1 by lra. apply Rle_Rpower; lra.
    - rewrite Rmin_right.
      + assert (EQ : sqrt (nc / (ne + n) * K) * Rpower (3 / (4 * PI * nc)) (1 / 3) / Rpower (3 / (4 * PI * (ne + n))) (1 / 3)
          = sqrt K * Rpower (nc / (n + ne)) (1 / 6)).
        { unfold Rdiv at 1. rewrite Rmult_assoc. fold (Rdiv (Rpower (3 / (4 * PI * nc)) (1 / 3)) (Rpower (3 / (4 * PI * (ne + n))) (1 / 3))).
          rewrite radius_ratio by lra. rewrite sqrt_mult by lra. rewrite (Rmult_comm (sqrt (nc / (ne + n)))), Rmult_assoc. f_equal.
          rewrite <- Rpower_sqrt by exact Hr. replace ((ne + n) / nc) with (/ (nc / (ne + n))) by (field; lra).
          unfold Rpower. rewrite ln_Rinv by exact Hr. rewrite <- exp_plus. rewrite (Rplus_comm n ne). f_equal. field. }
        rewrite EQ. ring.
      + assert (nc / (n + ne) <= 1).
        { apply (Rmult_le_reg_r (n + ne)); [lra|]; unfold Rdiv; rewrite Rmult_assoc, Rinv_l by lra; lra. }
        rewrite Rplus_comm in Hr. unfold Rpower.
        assert (ln (nc / (n + ne)) <= 0) by (rewrite <- ln_1; destruct (Req_dec (nc / (n + ne)) 1) as [->|]; [lra|left; apply ln_increasing; lra]).
        destruct (Req_dec (1 / 6 * ln (nc / (n + ne))) 0) as [->|]; [rewrite exp_0; lra|]. left.
        pose proof (exp_increasing (1 / 6 * ln (nc / (n + ne))) 0 ltac:(lra)) as E0. rewrite exp_0 in E0. exact E0.
  Qed.
End EK.

(** *** Gluing *)
Lemma cont_glue (f g h : R -> R) (x : R) : continuous f x -> continuous g x -> continuous h x -> (h x = 0 -> f x = g x) ->
  continuous (fun t => if Rle_dec (h t) 0 then f t else g t) x.
Proof.
  intros Hf Hg Hh E. destruct (Rtotal_order (h x) 0) as [L|[Z|L]].
  - apply (continuous_ext_loc _ f); [|exact Hf].
    apply (filter_imp (fun t => h t < 0)); [intros t Ht; destruct (Rle_dec (h t) 0); [reflexivity|lra]|].
    apply (Hh (fun v => v < 0)). exists (mkposreal (- h x) ltac:(lra)). intros y Hy. unfold ball in Hy. cbn in Hy. unfold AbsRing_ball, abs, minus, plus, opp in Hy. cbn in Hy.
    apply Rabs_lt_between in Hy. lra.
  - specialize (E Z).
    assert (Hv : forall P, locally ((fun t => if Rle_dec (h t) 0 then f t else g t) x) P -> locally (f x) P)
      by (intros P; cbv beta; destruct (Rle_dec (h x) 0); [auto|rewrite E; auto]).
    intros P HP0. apply Hv in HP0. destruct HP0 as [eps HP].
    pose proof (Hf (ball (f x) eps) (locally_ball _ _)) as A. pose proof (Hg (ball (g x) eps) (locally_ball _ _)) as B.
    unfold filtermap in *. generalize (filter_and _ _ A B). apply filter_imp. intros t [At Bt]. apply HP.
    destruct (Rle_dec (h t) 0); [exact At|]. rewrite E. exact Bt.
  - apply (continuous_ext_loc _ g); [|exact Hg].
    apply (filter_imp (fun t => 0 < h t)); [intros t Ht; destruct (Rle_dec (h t) 0); [lra|reflexivity]|].
    apply (Hh (fun v => 0 < v)). exists (mkposreal (h x) L). intros y Hy. unfold ball in Hy. cbn in Hy. unfold AbsRing_ball, abs, minus, plus, opp in Hy. cbn in Hy.
    apply Rabs_lt_between in Hy. lra.
Qed.
Lemma glue_cont (f g F : R -> R) x : continuous F x -> continuous g x -> F x = f x -> (forall t, x < t -> F t = g t) -> f x = g x.
Proof.
  intros HF Hg E1 E2. rewrite <- E1.
  assert (A : filterlim F (at_right x) (locally (F x))) by (intros P HP; apply HF in HP; unfold filtermap, at_right, within in *; revert HP; apply filter_imp; auto).
  assert (B : filterlim F (at_right x) (locally (g x))).
  { apply (filterlim_ext_loc g). { unfold at_right, within. apply filter_forall. intros t Ht. symmetry. now apply E2. }
    intros P HP; apply Hg in HP; unfold filtermap, at_right, within in *; revert HP; apply filter_imp; auto. }
  exact (filterlim_locally_unique F _ _ A B).
Qed.
Lemma cont_mult (f g : R -> R) x : continuous f x -> continuous g x -> continuous (fun t => f t * g t) x.
Proof. intros. now apply (continuous_mult (K := R_AbsRing) f g). Qed.
Lemma cont_plus (f g : R -> R) x : continuous f x -> continuous g x -> continuous (fun t => f t + g t) x.
Proof. intros. now apply (continuous_plus (V := R_NormedModule) f g). Qed.
Lemma cont_inv (f : R -> R) x : continuous f x -> f x <> 0 -> continuous (fun t => / f t) x.
Proof.
  intros Hf H. apply (continuous_comp f Rinv); [exact Hf|]. apply continuity_pt_filterlim. apply continuity_pt_inv; [apply derivable_continuous_pt, derivable_pt_id|exact H].
Qed.
Lemma cont_div (f g : R -> R) x : continuous f x -> continuous g x -> g x <> 0 -> continuous (fun t => f t / g t) x.
Proof. intros. apply cont_mult; [assumption|]. now apply cont_inv. Qed.
Lemma cont_sqrt (f : R -> R) x : continuous f x -> 0 <= f x -> continuous (fun t => sqrt (f t)) x.
Proof. intros Hf H. apply (continuous_comp f sqrt); [exact Hf|]. apply continuity_pt_filterlim. now apply continuity_pt_sqrt. Qed.
Lemma cont_pow (f : R -> R) n x : continuous f x -> continuous (fun t => f t ^ n) x.
Proof. intros Hf. induction n as [|n IH]; [apply continuous_const|]. cbn. now apply cont_mult. Qed.
Lemma cont_rpower (f : R -> R) y x : continuous f x -> 0 < f x -> continuous (fun t => Rpower (f t) y) x.
Proof.
  intros Hf H. unfold Rpower. apply continuous_exp_comp. apply cont_mult; [apply continuous_const|].
  apply (continuous_comp f ln); [exact Hf|]. now apply continuous_ln.
Qed.
Lemma cont_opp (f : R -> R) x : continuous f x -> continuous (fun t => - f t) x.
Proof. intros. now apply (continuous_opp (V := R_NormedModule) f). Qed.

(** *** The Pauli integral *)
Definition pauliF (a p : R) : R := (atan (a * p) + ((a * p) ^ 3 - a * p) / (1 + (a * p) ^ 2) ^ 2) / (8 * a ^ 3).
Lemma pauliF_derive a p : 0 < a -> is_derive (pauliF a) p (p ^ 2 / (1 + a ^ 2 * p ^ 2) ^ 3).
Proof.
  intros Ha. unfold pauliF. assert (H : 0 < 1 + (a * p) ^ 2) by (pose proof (pow2_ge_0 (a * p)); lra).
  assert (H2 : 0 < 1 + a ^ 2 * p ^ 2) by (replace (a ^ 2 * p ^ 2) with ((a * p) ^ 2) by ring; exact H).
  auto_derive.
  - assert ((1 + (a * p) ^ 2) ^ 2 <> 0) by (apply pow_nonzero; lra). cbn in *. repeat split; lra.
  - cbn in H, H2. field. cbn. repeat split; try lra; unfold Rsqr; nra.
Qed.
Lemma pauliF_bound a p : 0 < a -> 0 <= p -> 0 <= pauliF a p < PI / (16 * a ^ 3).
Proof.
  intros Ha Hp. assert (Ha3 : 0 < a ^ 3) by now apply pow_lt. assert (Hx : 0 <= a * p) by (apply Rmult_le_pos; lra).
  assert (D : forall q, 0 <= q -> 0 <= q ^ 2 / (1 + a ^ 2 * q ^ 2) ^ 3).
  { intros q Hq. apply Rmult_le_pos; [apply pow2_ge_0|]. left. apply Rinv_0_lt_compat, pow_lt. pose proof (pow2_ge_0 a). pose proof (pow2_ge_0 q).
    assert (0 <= a ^ 2 * q ^ 2) by now apply Rmult_le_pos. lra. }
  assert (Z : pauliF a 0 = 0) by (unfold pauliF; rewrite Rmult_0_r, atan_0; field; lra).
  split.
  - destruct Hp as [Hp| <-]; [|lra].
    destruct (MVT_gen (pauliF a) 0 p (fun q => q ^ 2 / (1 + a ^ 2 * q ^ 2) ^ 3)) as (c & Hc & E).
    + intros q _. now apply pauliF_derive.
    + intros q _. apply continuity_pt_filterlim. apply (ex_derive_continuous (V := R_NormedModule)). eexists. now apply pauliF_derive.
    + rewrite Rmin_left, Rmax_right in Hc by lra. rewrite Z, !Rminus_0_r in E. rewrite E. apply Rmult_le_pos; [apply D; lra|lra].
  - unfold pauliF. set (x := a * p) in *. assert (H : 0 < 1 + x ^ 2) by (pose proof (pow2_ge_0 x); lra).
    enough (E : atan x + (x ^ 3 - x) / (1 + x ^ 2) ^ 2 < PI / 2).
    { replace (PI / (16 * a ^ 3)) with (PI / 2 / (8 * a ^ 3)) by (field; lra). apply Rmult_lt_compat_r; [apply Rinv_0_lt_compat; lra|exact E]. }
    (* atan x + (x^3-x)/(1+x^2)^2 is increasing with limit pi/2; compare through atan x + x/(1+x^2) ... *)
    destruct (Rle_lt_dec x 1) as [L|L].
    + assert ((x ^ 3 - x) / (1 + x ^ 2) ^ 2 <= 0).
      { assert (0 < / (1 + x ^ 2) ^ 2) by (apply Rinv_0_lt_compat, pow_lt; lra). unfold Rdiv. assert (x ^ 3 - x <= 0) by (cbn; nra). nra. }
      pose proof (atan_bound x). lra.
    + assert (A : atan x = PI / 2 - atan (/ x)) by (pose proof (atan_inv x ltac:(lra)); lra). rewrite A.
      (* atan y > y/(1+y^2) >= (x^3-x)/(1+x^2)^2 *)
      assert (B : x / (1 + x ^ 2) < atan (/ x)).
      { set (F := fun y => atan y - y / (1 + y ^ 2)). assert (Hy : 0 < / x) by (apply Rinv_0_lt_compat; lra).
        assert (HF : forall y, is_derive F y (2 * y ^ 2 / (1 + y ^ 2) ^ 2)).
        { intros y. assert (Y : 0 < 1 + y ^ 2) by (pose proof (pow2_ge_0 y); lra). unfold F. auto_derive; [cbn in Y; repeat split; lra|]. cbn in Y. field. unfold Rsqr. cbn. lra. }
        assert (E : 0 < F (/ x)).
        { assert (E : F 0 < F (/ x)).
          { destruct (MVT_cor2 F (fun y => 2 * y ^ 2 / (1 + y ^ 2) ^ 2) 0 (/ x) Hy) as (c & Ec & Hc).
            { intros c _. apply is_derive_Reals, HF. }
            assert (0 < 2 * c ^ 2 / (1 + c ^ 2) ^ 2).
            { assert (0 < c ^ 2) by (apply pow_lt; lra). apply Rdiv_lt_0_compat; [lra|]. apply pow_lt. lra. }
            assert (0 < 2 * c ^ 2 / (1 + c ^ 2) ^ 2 * (/ x - 0)) by (apply Rmult_lt_0_compat; lra). lra. }
          unfold F at 1 in E. rewrite atan_0 in E. unfold Rdiv in E. rewrite Rmult_0_l in E. lra. }
        unfold F in E. replace (/ x / (1 + (/ x) ^ 2)) with (x / (1 + x ^ 2)) in E by (field; split; [cbn in *; nra|lra]). lra. }
      assert (C : (x ^ 3 - x) / (1 + x ^ 2) ^ 2 <= x / (1 + x ^ 2)).
      { replace (x / (1 + x ^ 2)) with ((x ^ 3 + x) / (1 + x ^ 2) ^ 2) by (field; lra).
        apply Rmult_le_compat_r; [left; apply Rinv_0_lt_compat, pow_lt; lra|lra]. }
      lra.
Qed.
