(** The three-dimensional Fourier transform of a radial function (Abel-summed,
    since the Coulomb potential is not integrable), for the functions needed. *)
From Coq Require Import Reals Lra Psatz.
From Coquelicot Require Import Coquelicot.
Open Scope R_scope.

(** [F] is the limit for eps -> 0 of (4 pi / k) int_0^oo r f(r) sin(k r) exp(- eps r) dr *)
Definition fourier (f : R -> R) (k F : R) : Prop :=
  exists I : R -> R,
    (forall eps, 0 < eps -> is_RInt_gen (fun r => 4 * PI / k * (r * f r * sin (k * r)) * exp (- eps * r)) (at_right 0) (Rbar_locally p_infty) (I eps)) /\
    filterlim I (at_right 0) (locally F).

Lemma fourier_unique f k F G : fourier f k F -> fourier f k G -> F = G.
Proof.
  intros (I & H1 & H2) (J & H3 & H4). apply (filterlim_locally_unique (F := at_right 0) I); [exact H2|].
  apply (filterlim_ext_loc J); [|exact H4].
  exists (mkposreal 1 Rlt_0_1). intros y _ Hy.
  rewrite <- (is_RInt_gen_unique _ _ (H1 y Hy)). symmetry. exact (is_RInt_gen_unique _ _ (H3 y Hy)).
Qed.

Lemma igen {Fa Fb : (R -> Prop) -> Prop} {HA : Filter Fa} {HB : Filter Fb} (G g : R -> R) la lb :
  (forall x, is_derive G x (g x)) -> (forall x, continuous g x) ->
  filterlim G Fa (locally la) -> filterlim G Fb (locally lb) -> is_RInt_gen g Fa Fb (lb - la).
Proof.
  intros Hd Hc Ha Hb. apply (is_RInt_gen_ext (Derive G)).
  - exists (fun _ => True) (fun _ => True); try apply filter_true. intros x y _ _ z _. apply is_derive_unique, Hd.
  - apply is_RInt_gen_Derive; try assumption;
      exists (fun _ => True) (fun _ => True); try apply filter_true; intros x y _ _ z _.
    + eexists. apply Hd.
    + apply (continuous_ext g); [|apply Hc]. intros t. symmetry. apply is_derive_unique, Hd.
Qed.

Definition esin (s k r : R) : R := exp (- s * r) * sin (k * r).
Definition Esin (s k r : R) : R := - (exp (- s * r) * (s * sin (k * r) + k * cos (k * r)) / (s ^ 2 + k ^ 2)).
Lemma den_sk s k : 0 < k -> 0 < s ^ 2 + k ^ 2.
Proof. intros. pose proof (pow2_ge_0 s). assert (0 < k ^ 2) by nra. lra. Qed.
Lemma Esin_derive s k r : 0 < k -> is_derive (Esin s k) r (esin s k r).
Proof.
  intros Hk. pose proof (den_sk s k Hk) as D. unfold Esin, esin. auto_derive; [exact I|].
  cbn in D. field. cbn. lra.
Qed.
Lemma esin_cont s k r : continuous (esin s k) r.
Proof. apply (ex_derive_continuous (V := R_NormedModule)). unfold esin. auto_derive. exact I. Qed.
Lemma exp_dies s : 0 < s -> is_lim (fun r => exp (- s * r)) p_infty 0.
Proof.
  intros Hs. apply (is_lim_comp exp (fun r => - s * r) p_infty 0 m_infty).
  - exact is_lim_exp_m.
  - apply (is_lim_ext (fun r => (- s) * r)); [reflexivity|].
    replace m_infty with (Rbar_mult (- s) p_infty).
    + apply is_lim_scal_l. apply is_lim_id.
    + cbn. destruct (Rle_dec 0 (- s)) as [H|H]; [exfalso; lra|reflexivity].
  - exists 0. intros y _. discriminate.
Qed.
Lemma Esin_inf s k : 0 < s -> 0 < k -> is_lim (Esin s k) p_infty 0.
Proof.
  intros Hs Hk. pose proof (den_sk s k Hk) as D.
  set (M := (s + k) / (s ^ 2 + k ^ 2)).
  apply (is_lim_le_le_loc (fun r => exp (- s * r) * (- M)) (fun r => exp (- s * r) * M)).
  - exists 0. intros r _. unfold Esin, M.
    assert (B : - (s + k) <= s * sin (k * r) + k * cos (k * r) <= s + k).
    { pose proof (SIN_bound (k * r)). pose proof (COS_bound (k * r)). nra. }
    pose proof (exp_pos (- s * r)) as He. assert (0 < / (s ^ 2 + k ^ 2)) by now apply Rinv_0_lt_compat.
    unfold Rdiv. rewrite !Rmult_assoc.
    set (e := exp (- s * r)) in *. set (i := / (s ^ 2 + k ^ 2)) in *. set (z := s * sin (k * r) + k * cos (k * r)) in *.
    clearbody e i z.
    replace (- (e * (z * i))) with (e * i * (- z)) by ring.
    replace (e * - ((s + k) * i)) with (e * i * (- (s + k))) by ring.
    replace (e * ((s + k) * i)) with (e * i * (s + k)) by ring.
    assert (0 < e * i) by now apply Rmult_lt_0_compat.
    split; apply Rmult_le_compat_l; lra.
  - replace (Finite 0) with (Rbar_mult 0 (- M)) by (cbn; f_equal; ring). apply is_lim_scal_r. now apply exp_dies.
  - replace (Finite 0) with (Rbar_mult 0 M) by (cbn; f_equal; ring). apply is_lim_scal_r. now apply exp_dies.
Qed.
Lemma Esin_at s k x : 0 < k -> filterlim (Esin s k) (locally x) (locally (Esin s k x)).
Proof.
  intros Hk. apply (ex_derive_continuous (V := R_NormedModule)). eexists. now apply Esin_derive.
Qed.
Lemma at_right_cont (f : R -> R) x : filterlim f (locally x) (locally (f x)) -> filterlim f (at_right x) (locally (f x)).
Proof. intros H. apply filterlim_filter_le_1 with (2 := H). intros P HP. unfold at_right, within. now apply filter_imp with (2 := HP). Qed.

(** int_0^oo exp(-s r) sin(k r) dr *)
Lemma laplace_sin s k : 0 < s -> 0 < k ->
  is_RInt_gen (esin s k) (at_right 0) (Rbar_locally p_infty) (k / (s ^ 2 + k ^ 2)).
Proof.
  intros Hs Hk. pose proof (den_sk s k Hk) as D.
  replace (k / (s ^ 2 + k ^ 2)) with (0 - Esin s k 0).
  - apply (igen (Esin s k)).
    + intros x. now apply Esin_derive.
    + intros x. apply esin_cont.
    + apply at_right_cont. now apply Esin_at.
    + now apply Esin_inf.
  - unfold Esin. rewrite !Rmult_0_r, exp_0, sin_0, cos_0. field. cbn in *; lra.
Qed.
Lemma laplace_sin_from s k c : 0 < s -> 0 < k ->
  is_RInt_gen (esin s k) (at_point c) (Rbar_locally p_infty) (- Esin s k c).
Proof.
  intros Hs Hk. replace (- Esin s k c) with (0 - Esin s k c) by ring.
  apply (igen (Esin s k)).
  - intros x. now apply Esin_derive.
  - intros x. apply esin_cont.
  - intros P HP. unfold filtermap, at_point. now apply locally_singleton.
  - now apply Esin_inf.
Qed.

(** near zero everything is positive *)
Lemma prod_right (P : R -> Prop) : (forall x, 0 < x -> P x) ->
  filter_prod (at_right 0) (Rbar_locally p_infty) (fun ab => forall x, Rmin (fst ab) (snd ab) < x < Rmax (fst ab) (snd ab) -> P x).
Proof.
  intros H. exists (fun x => 0 < x) (fun x => 0 < x).
  - exists (mkposreal 1 Rlt_0_1). intros y _ Hy. exact Hy.
  - exists 0. intros y Hy. exact Hy.
  - cbn. intros a b Ha Hb x [Hx _]. apply H.
    revert Hx. unfold Rmin. destruct (Rle_dec a b); lra.
Qed.

Section Two.
  Variables (f : R -> R) (k A B s t : R).
  Hypothesis Hk : 0 < k.
  Hypothesis Hf : forall r, 0 < r -> r * f r = A * exp (- s * r) + B * exp (- t * r).

  Lemma two_int eps : 0 < s + eps -> 0 < t + eps ->
    is_RInt_gen (fun r => 4 * PI / k * (r * f r * sin (k * r)) * exp (- eps * r)) (at_right 0) (Rbar_locally p_infty)
      (4 * PI * (A / ((s + eps) ^ 2 + k ^ 2) + B / ((t + eps) ^ 2 + k ^ 2))).
  Proof.
    intros Hs Ht. pose proof (den_sk (s + eps) k Hk) as D1. pose proof (den_sk (t + eps) k Hk) as D2.
    apply (is_RInt_gen_ext (fun r => plus (scal (4 * PI / k * A) (esin (s + eps) k r)) (scal (4 * PI / k * B) (esin (t + eps) k r)))).
    - apply prod_right. intros r Hr. unfold plus, scal; cbn; unfold mult; cbn. rewrite (Hf r Hr). unfold esin.
      replace (- (s + eps) * r) with (- s * r + - eps * r) by ring. replace (- (t + eps) * r) with (- t * r + - eps * r) by ring.
      rewrite !exp_plus. ring.
    - replace (4 * PI * (A / ((s + eps) ^ 2 + k ^ 2) + B / ((t + eps) ^ 2 + k ^ 2)))
        with (plus (scal (4 * PI / k * A) (k / ((s + eps) ^ 2 + k ^ 2))) (scal (4 * PI / k * B) (k / ((t + eps) ^ 2 + k ^ 2)))).
      + apply (is_RInt_gen_plus (V := R_NormedModule)); apply (is_RInt_gen_scal (V := R_NormedModule)); now apply laplace_sin.
      + unfold plus, scal; cbn; unfold mult; cbn. cbn in D1, D2. field. repeat split; lra.
  Qed.

  Lemma fourier_two : 0 <= s -> 0 <= t -> fourier f k (4 * PI * (A / (s ^ 2 + k ^ 2) + B / (t ^ 2 + k ^ 2))).
  Proof.
    intros Hs Ht.
    set (I := fun eps => 4 * PI * (A / ((s + eps) ^ 2 + k ^ 2) + B / ((t + eps) ^ 2 + k ^ 2))).
    exists I. split.
    - intros eps He. apply two_int; lra.
    - replace (4 * PI * (A / (s ^ 2 + k ^ 2) + B / (t ^ 2 + k ^ 2))) with (I 0) by (unfold I; now rewrite !Rplus_0_r).
      apply at_right_cont, (ex_derive_continuous (V := R_NormedModule)). unfold I.
      pose proof (den_sk (s + 0) k Hk) as D1. pose proof (den_sk (t + 0) k Hk) as D2. cbn in D1, D2.
      auto_derive. repeat split; lra.
  Qed.

  (** screened: no convergence factor needed *)
  Lemma direct_two : 0 < s -> 0 < t ->
    is_RInt_gen (fun r => 4 * PI / k * (r * f r * sin (k * r))) (at_right 0) (Rbar_locally p_infty)
      (4 * PI * (A / (s ^ 2 + k ^ 2) + B / (t ^ 2 + k ^ 2))).
  Proof.
    intros Hs Ht. pose proof (two_int 0 ltac:(lra) ltac:(lra)) as H. rewrite !Rplus_0_r in H.
    refine (is_RInt_gen_ext (V := R_NormedModule) (fun r => 4 * PI / k * (r * f r * sin (k * r)) * exp (- 0 * r)) _ _ _ H).
    apply (prod_right (fun r => 4 * PI / k * (r * f r * sin (k * r)) * exp (- 0 * r) = 4 * PI / k * (r * f r * sin (k * r)))). intros r _. rewrite Ropp_0, Rmult_0_l, exp_0. ring.
  Qed.
End Two.

(** outside a sphere of radius [c] *)
Section Core.
  Variables (f : R -> R) (k A c : R).
  Hypotheses (Hk : 0 < k) (Hc : 0 <= c).
  Hypothesis H0 : forall r, 0 < r < c -> r * f r = 0.
  Hypothesis H1 : forall r, c < r -> r * f r = A.

  Lemma core_int eps : 0 < eps ->
    is_RInt_gen (fun r => 4 * PI / k * (r * f r * sin (k * r)) * exp (- eps * r)) (at_right 0) (Rbar_locally p_infty)
      (4 * PI / k * A * - Esin eps k c).
  Proof.
    intros He.
    assert (T : is_RInt_gen (fun r => 4 * PI / k * (r * f r * sin (k * r)) * exp (- eps * r)) (at_point c) (Rbar_locally p_infty)
      (4 * PI / k * A * - Esin eps k c)).
    { apply (is_RInt_gen_ext (fun r => scal (4 * PI / k * A) (esin eps k r))).
      - exists (fun x => x = c) (fun x => c < x).
        + reflexivity.
        + exists c. intros y Hy. exact Hy.
        + cbn. intros x y -> Hy r [Hr _]. rewrite H1.
          * unfold scal; cbn; unfold mult; cbn. unfold esin. ring.
          * revert Hr. unfold Rmin. destruct (Rle_dec c y); lra.
      - apply (is_RInt_gen_scal (V := R_NormedModule)). now apply laplace_sin_from. }
    destruct Hc as [Hc'|Hc'].
    - replace (4 * PI / k * A * - Esin eps k c) with (plus 0 (4 * PI / k * A * - Esin eps k c)) by (unfold plus; cbn; ring).
      apply (is_RInt_gen_Chasles (V := R_NormedModule) _ c _ _); [|exact T].
      apply (is_RInt_gen_ext (fun _ => 0)).
      + exists (fun x => 0 < x < c) (fun x => x = c).
        * exists (mkposreal c Hc'). intros y Hy Hy0. split; [exact Hy0|]. unfold ball in Hy; cbn in Hy; unfold AbsRing_ball, abs, minus, plus, opp in Hy; cbn in Hy.
          rewrite Ropp_0, Rplus_0_r in Hy. apply Rabs_def2 in Hy. lra.
        * reflexivity.
        * cbn. intros x y Hx -> r Hr. rewrite H0; [ring|]. revert Hr. unfold Rmin, Rmax. destruct (Rle_dec x c); lra.
      + assert (Z : is_RInt_gen (fun _ : R => 0) (at_right 0) (at_point c) (0 - 0)).
        { apply (igen (fun _ => 0)).
          - intros x. auto_derive; [exact I|ring].
          - intros x. apply continuous_const.
          - apply filterlim_const.
          - apply filterlim_const. }
        rewrite Rminus_0_r in Z. exact Z.
    - subst c. apply (is_RInt_gen_ext (fun r => scal (4 * PI / k * A) (esin eps k r))).
      + apply prod_right. intros r Hr. rewrite (H1 r Hr). unfold scal; cbn; unfold mult; cbn. unfold esin. ring.
      + apply (is_RInt_gen_scal (V := R_NormedModule)).
        replace (- Esin eps k 0) with (k / (eps ^ 2 + k ^ 2)); [now apply laplace_sin|].
        pose proof (den_sk eps k Hk) as D. unfold Esin. rewrite !Rmult_0_r, exp_0, sin_0, cos_0. field. cbn in *; lra.
  Qed.

  Lemma fourier_core : fourier f k (4 * PI * A * cos (k * c) / k ^ 2).
  Proof.
    exists (fun eps => 4 * PI / k * A * - Esin eps k c). split; [exact core_int|].
    replace (4 * PI * A * cos (k * c) / k ^ 2) with (4 * PI / k * A * - Esin 0 k c).
    - set (J := fun eps => 4 * PI / k * A * - Esin eps k c). change (filterlim J (at_right 0) (locally (J 0))).
      apply at_right_cont. apply (ex_derive_continuous (V := R_NormedModule) J). unfold J, Esin. auto_derive.
      pose proof (den_sk 0 k Hk) as D. cbn in D. lra.
    - unfold Esin. rewrite Ropp_0, Rmult_0_l, exp_0. field. lra.
  Qed.
End Core.
