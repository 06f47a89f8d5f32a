(** Lemmas on bound-free scattering *)
From Coq Require Import Reals List Arith Bool Lra Lia Psatz.
From Coquelicot Require Import Coquelicot.
From Verif Require M_Elements L_Elements M_Analysis.
From Verif Require Import M_Const M_PlasmaState M_Interp M_FormFactors M_Setup M_BoundFree L_PlasmaPhysics.
Import ListNotations.
Open Scope R_scope.

(** ** Integrals over the whole axis *)
Definition bimp (f : R -> R) (L : R) : Prop :=
  (forall s, continuous f s) /\ exists G a b, (forall s, is_derive G s (f s)) /\ is_lim G p_infty (Finite a) /\ is_lim G m_infty (Finite b) /\ a - b = L.
Lemma bimp_RInt f L : bimp f L -> is_lim (fun M => RInt f (- M) M) p_infty L.
Proof.
  intros [Hc (G & a & b & Hd & Ha & Hb & <-)].
  apply (is_lim_ext (fun M => G M - G (- M))).
  - intros x. symmetry. apply is_RInt_unique. apply (is_RInt_derive (V := R_CompleteNormedModule)); intros; [apply Hd|apply Hc].
  - apply (is_lim_minus' G (fun M => G (- M))); [exact Ha|].
    apply (is_lim_comp G Ropp p_infty b m_infty); [exact Hb| |].
    + apply (is_lim_opp (fun x => x) p_infty p_infty). apply is_lim_id.
    + exists 0. intros x _. discriminate.
Qed.
Lemma bimp_ext f g L : (forall s, f s = g s) -> bimp f L -> bimp g L.
Proof.
  intros E [Hc (G & a & b & Hd & H)]. split.
  - intros s. apply (continuous_ext f); [exact E|apply Hc].
  - exists G, a, b. split; [|exact H]. intros s. rewrite <- E. apply Hd.
Qed.
Lemma bimp_scal c f L : bimp f L -> bimp (fun s => c * f s) (c * L).
Proof.
  intros [Hc (G & a & b & Hd & Ha & Hb & <-)]. split.
  - intros s. apply (continuous_scal_r (K := R_AbsRing) (V := R_NormedModule) c f s (Hc s)).
  - exists (fun s => c * G s), (c * a), (c * b). split; [intros s; apply (is_derive_scal G s c), Hd|].
    split; [exact (is_lim_scal_l G c p_infty a Ha)|]. split; [exact (is_lim_scal_l G c m_infty b Hb)|ring].
Qed.
Lemma bimp_plus f g L M : bimp f L -> bimp g M -> bimp (fun s => f s + g s) (L + M).
Proof.
  intros [Hc (G & a & b & Hd & Ha & Hb & <-)] [Hc' (G' & a' & b' & Hd' & Ha' & Hb' & <-)]. split.
  - intros s. apply (continuous_plus (V := R_NormedModule)); auto.
  - exists (fun s => G s + G' s), (a + a'), (b + b'). split; [intros s; apply (is_derive_plus (V := R_NormedModule)); auto|].
    split; [now apply is_lim_plus'|]. split; [now apply is_lim_plus'|ring].
Qed.
Lemma bimp_affine f L a b : 0 < a -> bimp f L -> bimp (fun w => f (a * (w - b))) (L / a).
Proof.
  intros Ha [Hc (G & p & q & Hd & Hp & Hq & <-)]. split.
  - intros s. apply (continuous_comp (fun w => a * (w - b)) f); [|apply Hc].
    apply (ex_derive_continuous (V := R_NormedModule)). auto_derive. auto.
  - exists (fun w => G (a * (w - b)) / a), (p / a), (q / a). split; [|split; [|split; [|field; lra]]].
    + intros s. pose proof (is_derive_comp G (fun w => a * (w - b)) s (f (a * (s - b))) a (Hd _)) as D.
      assert (E : is_derive (fun w => a * (w - b)) s a) by (auto_derive; [auto|ring]). specialize (D E).
      pose proof (is_derive_scal (fun w => G (a * (w - b))) s (/ a) _ D) as D'.
      apply (is_derive_ext (fun w => / a * G (a * (w - b)))); [intros t; apply Rmult_comm|].
      replace (f (a * (s - b))) with (/ a * scal a (f (a * (s - b)))); [exact D'|].
      unfold scal. cbn. unfold mult. cbn. field. lra.
    + replace (Finite (p / a)) with (Rbar_mult (/ a) (Finite p)) by (cbn; f_equal; unfold Rdiv; ring).
      apply (is_lim_ext (fun w => / a * G (a * (w - b)))); [intros; unfold Rdiv; ring|]. apply is_lim_scal_l.
      apply (is_lim_comp G (fun w => a * (w - b)) p_infty p p_infty); [exact Hp| |exists 0; intros x _; discriminate].
      replace p_infty with (Rbar_mult a p_infty) at 2 by (cbn; destruct (Rle_dec 0 a); [destruct (Rle_lt_or_eq_dec 0 a r); [reflexivity|lra]|lra]).
      apply is_lim_scal_l. apply (is_lim_minus _ _ p_infty p_infty b); [apply is_lim_id|apply is_lim_const|reflexivity].
    + replace (Finite (q / a)) with (Rbar_mult (/ a) (Finite q)) by (cbn; f_equal; unfold Rdiv; ring).
      apply (is_lim_ext (fun w => / a * G (a * (w - b)))); [intros; unfold Rdiv; ring|]. apply is_lim_scal_l.
      apply (is_lim_comp G (fun w => a * (w - b)) m_infty q m_infty); [exact Hq| |exists 0; intros x _; discriminate].
      replace m_infty with (Rbar_mult a m_infty) at 2 by (cbn; destruct (Rle_dec 0 a); [destruct (Rle_lt_or_eq_dec 0 a r); [reflexivity|lra]|lra]).
      apply is_lim_scal_l. apply (is_lim_minus _ _ m_infty m_infty b); [apply is_lim_id|apply is_lim_const|reflexivity].
Qed.

(** the powers of 1/(1+x^2) *)
Fixpoint tm (m : nat) : R := match m with O => 0 | 1%nat => 1 | S m' => (2 * INR m' - 1) / (2 * INR m') * tm m' end.
Definition wm (m : nat) (x : R) : R := / (1 + x ^ 2) ^ m.
Lemma wm_pos x : 0 < 1 + x ^ 2.
Proof. pose proof (pow2_ge_0 x). lra. Qed.
Lemma wm_cont m x : continuous (wm m) x.
Proof.
  apply (ex_derive_continuous (V := R_NormedModule)). unfold wm. auto_derive. apply pow_nonzero. pose proof (wm_pos x). cbn in *. lra.
Qed.
Lemma atan_lim_p : is_lim atan p_infty (PI / 2).
Proof.
  apply is_lim_spec. intros [e He]. cbn.
  destruct (Rlt_dec e PI) as [HeP|HeP].
  - exists (tan (PI / 2 - e / 2)). intros x Hx. pose proof (atan_bound x) as B. pose proof PI_RGT_0.
    assert (PI / 2 - e / 2 < atan x).
    { rewrite <- (atan_tan (PI / 2 - e / 2)) by lra. now apply atan_increasing. }
    apply Rabs_def1; lra.
  - exists 0. intros x _. pose proof (atan_bound x) as B. pose proof (atan_bound x). assert (0 < PI) by apply PI_RGT_0. apply Rabs_def1; lra.
Qed.
Lemma atan_lim_m : is_lim atan m_infty (- (PI / 2)).
Proof.
  apply (is_lim_ext (fun x => - atan (- x))); [intros x; rewrite atan_opp; ring|].
  apply (is_lim_opp (fun x => atan (- x)) m_infty (PI / 2)).
  apply (is_lim_comp atan Ropp m_infty (PI / 2) p_infty); [apply atan_lim_p| |exists 0; intros x _; discriminate].
  apply (is_lim_opp (fun x => x) m_infty m_infty). apply is_lim_id.
Qed.
Lemma xw_bound m x : x <> 0 -> Rabs (x * wm (S m) x) <= / Rabs x.
Proof.
  intros Hx. pose proof (wm_pos x) as H1. assert (1 <= (1 + x ^ 2) ^ m) by (apply pow_R1_Rle; pose proof (pow2_ge_0 x); lra).
  assert (HA : 0 < Rabs x) by now apply Rabs_pos_lt.
  rewrite Rabs_mult. unfold wm. rewrite Rabs_inv. rewrite (Rabs_pos_eq ((1 + x ^ 2) ^ S m)) by (apply pow_le; lra).
  apply (Rmult_le_reg_r (Rabs x * (1 + x ^ 2) ^ S m)). { apply Rmult_lt_0_compat; [assumption|apply pow_lt; lra]. }
  replace (Rabs x * / (1 + x ^ 2) ^ S m * (Rabs x * (1 + x ^ 2) ^ S m)) with (Rabs x * Rabs x) by (field; apply pow_nonzero; lra).
  replace (/ Rabs x * (Rabs x * (1 + x ^ 2) ^ S m)) with ((1 + x ^ 2) ^ S m) by (field; lra).
  rewrite <- Rabs_mult. rewrite Rabs_pos_eq by nra.
  apply Rle_trans with ((1 + x ^ 2) * 1); [cbn [pow]; lra|]. change ((1 + x ^ 2) ^ S m) with ((1 + x ^ 2) * (1 + x ^ 2) ^ m).
  apply Rmult_le_compat_l; lra.
Qed.
Lemma xw_lim m (b : Rbar) : b = p_infty \/ b = m_infty -> is_lim (fun x => x * wm (S m) x) b 0.
Proof.
  intros Hb. apply is_lim_spec. intros [e He]. cbn.
  assert (Q : forall x, / e < Rabs x -> Rabs (x * wm (S m) x - 0) < e).
  { intros x Hx. rewrite Rminus_0_r. assert (0 < / e) by now apply Rinv_0_lt_compat.
    apply Rle_lt_trans with (/ Rabs x); [apply xw_bound; intros ->; rewrite Rabs_R0 in Hx; lra|].
    rewrite <- (Rinv_inv e). apply Rinv_lt_contravar; [apply Rmult_lt_0_compat; lra|assumption]. }
  destruct Hb as [-> | ->]; cbn.
  - exists (/ e). intros x Hx. apply Q. pose proof (Rle_abs x). lra.
  - exists (- / e). intros x Hx. apply Q. rewrite <- Rabs_Ropp. pose proof (Rle_abs (- x)). lra.
Qed.
Lemma bimp_wm m : bimp (wm (S m)) (PI * tm (S m)).
Proof.
  induction m as [|m IH].
  - split; [intros; apply wm_cont|]. exists atan, (PI / 2), (- (PI / 2)). split; [|split; [apply atan_lim_p|split; [apply atan_lim_m|cbn; field]]].
    intros s. unfold wm. pose proof (wm_pos s). auto_derive; [auto|]. cbn [pow]. field. cbn in H. nra.
  - destruct IH as [Hc (G & a & b & Hd & Ha & Hb & E)]. split; [intros; apply wm_cont|].
    set (M := INR (S m)). assert (HM : 0 < M) by (unfold M; apply lt_0_INR; lia).
    exists (fun x => / (2 * M) * (x * wm (S m) x) + (2 * M - 1) / (2 * M) * G x), ((2 * M - 1) / (2 * M) * a), ((2 * M - 1) / (2 * M) * b).
    split; [|split; [|split]].
    + intros s.
      assert (D : is_derive (fun x => x * wm (S m) x) s (wm (S m) s - 2 * M * s ^ 2 * wm (S (S m)) s)).
      { unfold wm. pose proof (wm_pos s) as P. auto_derive.
        - idtac. assert (Q : (1 + s * (s * 1)) * (1 + s * (s * 1)) ^ m <> 0) by (apply Rmult_integral_contrapositive_currified; [|apply pow_nonzero]; cbn in P; lra). first [exact Q|split; [exact Q|auto]].
        - change (match m with 0%nat => 1 | S _ => INR m + 1 end) with M. change (pred (S m)) with m. 
          assert (P' : (1 + s * (s * 1)) <> 0) by (cbn in P; lra). assert (P2 : (1 + s * (s * 1)) ^ m <> 0) by now apply pow_nonzero.
          cbn [pow]. field. repeat split; try assumption; cbn in P; nra. }
      pose proof (is_derive_scal _ s (/ (2 * M)) _ D) as D1. pose proof (is_derive_scal G s ((2 * M - 1) / (2 * M)) _ (Hd s)) as D2.
      pose proof (is_derive_plus (V := R_NormedModule) _ _ s _ _ D1 D2) as D3.
      match type of D3 with is_derive _ _ ?t => replace (wm (S (S m)) s) with t; [exact D3|] end.
      unfold plus. cbn [AbelianGroup.plus]. cbn.
      unfold wm. pose proof (wm_pos s) as P. assert (P' : (1 + s * (s * 1)) <> 0) by (cbn in P; lra). assert (P2 : (1 + s * (s * 1)) ^ m <> 0) by now apply pow_nonzero.
      cbn [pow]. field. repeat split; try assumption; cbn in *; nra.
    + replace (Finite ((2 * M - 1) / (2 * M) * a)) with (Finite (/ (2 * M) * 0 + (2 * M - 1) / (2 * M) * a)) by (f_equal; ring).
      apply is_lim_plus'; [exact (is_lim_scal_l _ (/ (2 * M)) p_infty 0 (xw_lim m p_infty (or_introl eq_refl)))|exact (is_lim_scal_l G _ p_infty a Ha)].
    + replace (Finite ((2 * M - 1) / (2 * M) * b)) with (Finite (/ (2 * M) * 0 + (2 * M - 1) / (2 * M) * b)) by (f_equal; ring).
      apply is_lim_plus'; [exact (is_lim_scal_l _ (/ (2 * M)) m_infty 0 (xw_lim m m_infty (or_intror eq_refl)))|exact (is_lim_scal_l G _ m_infty b Hb)].
    + change (tm (S (S m))) with ((2 * M - 1) / (2 * M) * tm (S m)). rewrite <- Rmult_minus_distr_l, E. ring.
Qed.
(** linear combinations of powers, from a first exponent on *)
Fixpoint pw (cs : list R) (m : nat) (x : R) : R := match cs with [] => 0 | c :: cs => c * wm (S m) x + pw cs (S m) x end.
Fixpoint pt (cs : list R) (m : nat) : R := match cs with [] => 0 | c :: cs => c * (PI * tm (S m)) + pt cs (S m) end.
Lemma bimp_pw cs : forall m, bimp (pw cs m) (pt cs m).
Proof.
  induction cs as [|c cs IH]; intros m; cbn [pw pt].
  - split; [intros s; apply continuous_const|]. exists (fun _ => 0), 0, 0. split; [intros s; apply (is_derive_const (V := R_NormedModule))|].
    split; [apply is_lim_const|]. split; [apply is_lim_const|ring].
  - apply (bimp_plus (fun x => c * wm (S m) x) (pw cs (S m))); [|apply IH]. apply (bimp_scal c (wm (S m))). apply bimp_wm.
Qed.
(** *** The profiles, as sums of powers *)
Definition cf (n l : nat) : list R * nat :=
  match n, l with
  | 1%nat, 0%nat => ([1 / 3], 2%nat)
  | 2%nat, 0%nat => ([4 / 3; - (4); 16 / 5], 2%nat)
  | 2%nat, 1%nat => ([1 / 4; - (1 / 5)], 3%nat)
  | 3%nat, 0%nat => ([3; - (24); 352 / 5; - (256 / 3); 256 / 7], 2%nat)
  | 3%nat, 1%nat => ([64 / 3; - (1); 4 / 3; - (4 / 7)], 3%nat)
  | 3%nat, 2%nat => ([3 / 5; - (3 / 5); 1 / 7], 4%nat)
  | 4%nat, 0%nat => ([48 / 5; - (5); 148 / 5; - (256 / 3); 128; - (96); 256 / 9], 2%nat)
  | 4%nat, 1%nat => ([25; - (53); 176; - (1968 / 7); 216; - (64)], 3%nat)
  | 4%nat, 2%nat => ([540 / 7; - (1); 13 / 7; - (3 / 2); 4 / 9], 4%nat)
  | 4%nat, 3%nat => ([6 / 7; - (3 / 7); 3 / 8; - (1 / 9)], 5%nat)
  | 5%nat, 0%nat => ([25 / 3; - (200); 1952; - (29440 / 3); 197376 / 7; - (6144); 434176 / 9; - (131072 / 5); 65536 / 11], 2%nat)
  | 5%nat, 1%nat => ([100; - (1424); 8384; - (182848 / 7); 27232; - (143360 / 3); 131072 / 5; - (65536 / 11)], 3%nat)
  | 5%nat, 2%nat => ([441 / 5; - (91); 2417 / 7; - (680); 6592 / 9; - (2048 / 5); 1024 / 11], 4%nat)
  | _, _ => ([], 0%nat)
  end.
Definition norm (n l : nat) : R :=
  match n, l with
  | 1%nat, 0%nat => 1
  | 2%nat, 0%nat => 1
  | 2%nat, 1%nat => 1
  | 3%nat, 0%nat => 1
  | 3%nat, 1%nat => 5063 / 48
  | 3%nat, 2%nat => 249 / 25
  | 4%nat, 0%nat => 2229 / 80
  | 4%nat, 1%nat => 201 / 4
  | 4%nat, 2%nat => 172357 / 180
  | 4%nat, 3%nat => 5603 / 35
  | 5%nat, 0%nat => 70357
  | 5%nat, 1%nat => - (86511 / 4)
  | 5%nat, 2%nat => 3137 / 9
  | _, _ => 0
  end.
Ltac shells_ n l := destruct n as [|[|[|[|[|[|n]]]]]]; try discriminate; destruct l as [|[|[|[|l]]]]; try discriminate.
Lemma phi_pw n l p : phi n l = Some p -> forall x, p (1 + x ^ 2) = pw (fst (cf n l)) (snd (cf n l)) x.
Proof.
  intros H x. pose proof (wm_pos x) as P. assert (Q : 1 + x ^ 2 <> 0) by lra. revert H.
  set (y := 1 + x ^ 2) in *. 
  shells_ n l; cbn [phi]; intros H; injection H as <-; cbn [cf fst snd pw];
    unfold phi10, phi20, phi21, phi30, phi31, phi32, phi40, phi41, phi42, phi43, phi50, phi51, phi52, inv, wm; fold y; field; assumption.
Qed.
Lemma tm_S m : (0 < m)%nat -> tm (S m) = (2 * INR m - 1) / (2 * INR m) * tm m.
Proof. destruct m; [lia|reflexivity]. Qed.
Lemma tm_values : tm 1 = 1 /\ tm 2 = 1 / 2 /\ tm 3 = 3 / 8 /\ tm 4 = 5 / 16 /\ tm 5 = 35 / 128 /\ tm 6 = 63 / 256 /\ tm 7 = 231 / 1024 /\ tm 8 = 429 / 2048 /\ tm 9 = 6435 / 32768 /\ tm 10 = 12155 / 65536 /\ tm 11 = 46189 / 262144.
Proof.
  assert (E1 : tm 1 = 1) by reflexivity.
  assert (E2 : tm 2 = 1 / 2) by (rewrite tm_S, E1 by lia; cbn [INR]; lra).
  assert (E3 : tm 3 = 3 / 8) by (rewrite tm_S, E2 by lia; cbn [INR]; field).
  assert (E4 : tm 4 = 5 / 16) by (rewrite tm_S, E3 by lia; cbn [INR]; field).
  assert (E5 : tm 5 = 35 / 128) by (rewrite tm_S, E4 by lia; cbn [INR]; field).
  assert (E6 : tm 6 = 63 / 256) by (rewrite tm_S, E5 by lia; cbn [INR]; field).
  assert (E7 : tm 7 = 231 / 1024) by (rewrite tm_S, E6 by lia; cbn [INR]; field).
  assert (E8 : tm 8 = 429 / 2048) by (rewrite tm_S, E7 by lia; cbn [INR]; field).
  assert (E9 : tm 9 = 6435 / 32768) by (rewrite tm_S, E8 by lia; cbn [INR]; field).
  assert (E10 : tm 10 = 12155 / 65536) by (rewrite tm_S, E9 by lia; cbn [INR]; field).
  assert (E11 : tm 11 = 46189 / 262144) by (rewrite tm_S, E10 by lia; cbn [INR]; field).
  repeat split; assumption.
Qed.
(** the normalisation of the profile over the projected momentum *)
Lemma norm_spec n l p : phi n l = Some p ->
  2 ^ (4 * l + 3) * (INR (fact (n - l - 1)) / INR (fact (n + l))) * INR n * INR (fact l) ^ 2 * pt (fst (cf n l)) (snd (cf n l)) = PI * norm n l.
Proof.
  intros H. pose proof tm_values as (T1 & T2 & T3 & T4 & T5 & T6 & T7 & T8 & T9 & T10 & T11). revert H.
  shells_ n l; intros _;
  match goal with |- context [INR (fact ?m) / INR (fact ?q)] =>
    let a := eval vm_compute in (Z.of_nat (fact m)) in let b := eval vm_compute in (Z.of_nat (fact q)) in
    rewrite (INR_IZR_INZ (fact m)), (INR_IZR_INZ (fact q)); change (Z.of_nat (fact m)) with a; change (Z.of_nat (fact q)) with b end;
  cbn [cf fst snd norm pt]; rewrite ?T2, ?T3, ?T4, ?T5, ?T6, ?T7, ?T8, ?T9, ?T10, ?T11; rewrite ?INR_IZR_INZ;
  cbn [fact Nat.mul Nat.add Z.of_nat Pos.of_succ_nat Pos.succ]; cbn [pow]; field.
Qed.
(** *** Closed forms *)
Definition alpha_pos (u : consts) : 0 < alpha u.
Proof. unfold alpha. apply Rdiv_lt_0_compat; cpos u; pos. Qed.
(** the projected momentum, in units of the orbital's *)
Definition xi_ (u : consts) (n : nat) (Z k w : R) : R := INR n / (c_light u * k * (Z * alpha u)) * (w - hbar u * k ^ 2 / (2 * m_e u)).
Lemma xi_some u n Z k w : Z <> 0 -> k <> 0 -> xi u n Z w k = Some (xi_ u n Z k w).
Proof.
  intros HZ Hk. pose proof (alpha_pos u). pose proof (c_pos u). pose proof (m_e_pos u). unfold xi, xi_. rewrite qdiv_some by (apply Rmult_integral_contrapositive_currified; lra).
  cbn [obind]. rewrite qdiv_some by (apply Rmult_integral_contrapositive_currified; lra). f_equal. field. repeat split; lra.
Qed.
Lemma Schum75_some u n l p Z k w : phi n l = Some p -> Z <> 0 -> k <> 0 ->
  J_Schum75 u n l w k Z = Some (pref u n l Z * p (1 + xi_ u n Z k w ^ 2)).
Proof. intros Hp HZ Hk. unfold J_Schum75, y_. rewrite Hp. cbn [obind]. now rewrite xi_some. Qed.
(** the integral over the projected momentum *)
Lemma profile_norm u n l p Z k : phi n l = Some p -> 0 < Z -> 0 < k ->
  bimp (fun w => pref u n l Z * p (1 + xi_ u n Z k w ^ 2) / (c_light u * k)) (norm n l).
Proof.
  intros Hp HZ Hk. pose proof (alpha_pos u) as Ha. pose proof (c_pos u) as Hc. pose proof (m_e_pos u).
  assert (Hn : (0 < n)%nat) by (destruct n; [discriminate|lia]). assert (HN : 0 < INR n) by now apply lt_0_INR.
  set (A := INR n / (c_light u * k * (Z * alpha u))).
  assert (HD : 0 < c_light u * k * (Z * alpha u)) by pos.
  assert (HA : 0 < A) by (apply Rdiv_lt_0_compat; assumption).
  pose proof (bimp_scal (pref u n l Z / (c_light u * k)) _ _ (bimp_affine _ _ A (hbar u * k ^ 2 / (2 * m_e u)) HA (bimp_pw (fst (cf n l)) (snd (cf n l))))) as B.
  assert (EL : pref u n l Z / (c_light u * k) * (pt (fst (cf n l)) (snd (cf n l)) / A) = norm n l).
  { assert (NS := norm_spec n l p Hp). unfold pref, A. pose proof PI_RGT_0.
    apply (Rmult_eq_reg_l PI); [|lra]. rewrite <- NS. field. repeat split; try lra. apply INR_fact_neq_0. }
  rewrite EL in B. revert B. apply bimp_ext. intros s. rewrite (phi_pw n l p Hp). unfold xi_. fold A. field. split; lra.
Qed.
Lemma bimp_centre f L b : bimp f L -> is_lim (fun M => RInt f (b - M) (b + M)) p_infty L.
Proof.
  intros H. apply (is_lim_ext (fun M => RInt (fun w => f (1 * (w - - b))) (- M) M)).
  - intros M. destruct H as [Hc (G & a & c & Hd & _)].
    transitivity (G (b + M) - G (b - M)).
    + apply is_RInt_unique. replace (G (b + M) - G (b - M)) with (minus (G (1 * (M - - b))) (G (1 * (- M - - b)))).
      2:{ unfold minus, plus, opp; cbn. replace (1 * (M - - b)) with (b + M) by ring. replace (1 * (- M - - b)) with (b - M) by ring. ring. }
      apply (is_RInt_derive (V := R_CompleteNormedModule) (fun w => G (1 * (w - - b)))).
      * intros x _. replace (f (1 * (x - - b))) with (scal 1 (f (1 * (x - - b)))) by apply Rmult_1_l.
        apply (is_derive_comp G (fun w => 1 * (w - - b)) x (f (1 * (x - - b))) 1 (Hd _)). auto_derive; [auto|ring].
      * intros x _. apply (continuous_comp (fun w => 1 * (w - - b)) f); [|apply Hc].
        apply (ex_derive_continuous (V := R_NormedModule)). auto_derive. auto.
    + symmetry. apply is_RInt_unique. apply (is_RInt_derive (V := R_CompleteNormedModule)); intros; [apply Hd|apply Hc].
  - replace L with (L / 1) by field. apply (bimp_RInt (fun w => f (1 * (w - - b)))). apply bimp_affine; [lra|exact H].
Qed.

(** *** The correction *)
Definition hr (i : nat) (x : R) : R :=
  match i with
  | 0%nat => 3 / 2 * x - 2 * atan x
  | 1%nat => 5 * x * (1 + 3 * x ^ 4) / (1 - 25 / 10 * x ^ 2 + 25 / 10 * x ^ 4) / 8 - 2 * atan x
  | 2%nat => (1 / 3) * ((10 + 15 * x ^ 2) / (1 + 5 * x ^ 2)) * x - atan x
  | _ => 0
  end.
Lemma hr_den x : 0 < 1 - 25 / 10 * x ^ 2 + 25 / 10 * x ^ 4.
Proof. pose proof (pow2_ge_0 (x ^ 2 - 1 / 2)). nra. Qed.
Lemma hr_den2 x : 0 < 1 + 5 * x ^ 2.
Proof. pose proof (pow2_ge_0 x). lra. Qed.
Lemma hr_odd i x : hr i (- x) = - hr i x.
Proof.
  pose proof (hr_den x). pose proof (hr_den2 x).
  destruct i as [|[|[|i]]]; cbn [hr]; rewrite ?atan_opp; replace ((- x) ^ 2) with (x ^ 2) by ring; replace ((- x) ^ 4) with (x ^ 4) by ring; unfold Rdiv; ring.
Qed.
Lemma hr_cont i (x : R) : continuous (hr i) x.
Proof.
  pose proof (hr_den x) as H1. pose proof (hr_den2 x) as H2.
  apply (ex_derive_continuous (V := R_NormedModule)). destruct i as [|[|[|i]]]; unfold hr; auto_derive; auto; cbn [pow] in *; repeat split; lra.
Qed.
Lemma impulse_some u k pop i Z w n l p : nth_error orbitals i = Some (n, l) -> phi n l = Some p -> 0 < Z -> 0 < k ->
  J_impulse_approx u w k pop i Z = Some (pop * (pref u n l Z * p (1 + xi_ u n Z k w ^ 2) / (c_light u * k)) * (1 + Z * alpha u / (k * a_0 u) * hr i (xi_ u n Z k w))).
Proof.
  intros Ho Hp HZ Hk. pose proof (c_pos u) as Hc. pose proof (a_0_pos u) as H0. unfold J_impulse_approx, all_J_Schum75.
  rewrite (nth_error_nth _ _ _ Ho), (Schum75_some u n l p) by (assumption || lra). cbn [obind].
  assert (E : all_J_HR u w k i Z = Some (pref u n l Z * p (1 + xi_ u n Z k w ^ 2) * (Z * alpha u / (k * a_0 u)) * hr i (xi_ u n Z k w))).
  { destruct i as [|[|[|i]]]; cbn [all_J_HR hr].
    - injection Ho as <- <-. unfold J10_HR. rewrite xi_some, (Schum75_some u 1 0 p) by (assumption || lra). reflexivity.
    - injection Ho as <- <-. unfold J20_HR. rewrite xi_some, (Schum75_some u 2 0 p) by (assumption || lra). reflexivity.
    - injection Ho as <- <-. unfold J21_HR. rewrite xi_some, (Schum75_some u 2 1 p) by (assumption || lra). reflexivity.
    - f_equal. ring. }
  rewrite E. cbn [obind]. rewrite qdiv_some by (apply Rmult_integral_contrapositive_currified; lra). f_equal. field. repeat split; lra.
Qed.
Lemma orbital_phi i n l : nth_error orbitals i = Some (n, l) -> exists p, phi n l = Some p.
Proof. intros H. destruct i as [|[|[|[|[|[|[|[|[|[|i]]]]]]]]]]; cbn in H; try (injection H as <- <-; eexists; reflexivity). destruct i; discriminate. Qed.
Lemma profile_cont u n l p Z k (w : R) : phi n l = Some p -> 0 < Z -> 0 < k ->
  continuous (fun w => pref u n l Z * p (1 + xi_ u n Z k w ^ 2) / (c_light u * k)) w.
Proof. intros Hp HZ Hk. apply (profile_norm u n l p Z k Hp HZ Hk). Qed.
Lemma xi_sym u n Z k d : xi_ u n Z k (hbar u * k ^ 2 / (2 * m_e u) - d) = - xi_ u n Z k (hbar u * k ^ 2 / (2 * m_e u) + d).
Proof. unfold xi_. ring. Qed.
Lemma xi_cont u n Z k (w : R) : continuous (xi_ u n Z k) w.
Proof. apply (ex_derive_continuous (V := R_NormedModule)). unfold xi_. auto_derive. auto. Qed.
(** an odd function about the centre integrates to zero *)
Lemma RInt_odd (h : R -> R) (b M : R) : (forall w, continuous h w) -> (forall d, h (b - d) = - h (b + d)) -> RInt h (b - M) (b + M) = 0.
Proof.
  intros Hc Ho.
  assert (E : ex_RInt h (b - M) (b + M)) by (apply (ex_RInt_continuous (V := R_CompleteNormedModule)); auto).
  set (v := RInt h (b - M) (b + M)).
  assert (I1 : is_RInt h (b - M) (b + M) v) by (apply (RInt_correct (V := R_CompleteNormedModule)); exact E).
  assert (I2 : is_RInt (fun y => scal (-1) (h (-1 * y + 2 * b))) (b + M) (b - M) v).
  { apply (is_RInt_comp_lin (V := R_NormedModule) h (-1) (2 * b)).
    replace (-1 * (b + M) + 2 * b) with (b - M) by ring. replace (-1 * (b - M) + 2 * b) with (b + M) by ring. exact I1. }
  assert (I3 : is_RInt h (b + M) (b - M) v).
  { revert I2. apply is_RInt_ext. intros x _. unfold scal; cbn; unfold mult; cbn.
    replace (-1 * x + 2 * b) with (b - (x - b)) by ring. rewrite Ho. replace (b + (x - b)) with x by ring. ring. }
  pose proof (is_RInt_swap (V := R_NormedModule) _ _ _ _ I3) as I4.
  pose proof (is_RInt_unique (V := R_CompleteNormedModule) _ _ _ _ I4) as H. change (v = (- v)%R) in H. clearbody v. cbn in *. clear - H. change R_CompleteNormedModule with R in *. change (@eq R v 0). change (@eq R v (- v)) in H. lra.
Qed.
Lemma impulse_RInt u n l p Z k pop i M : nth_error orbitals i = Some (n, l) -> phi n l = Some p -> 0 < Z -> 0 < k ->
  let J w := pref u n l Z * p (1 + xi_ u n Z k w ^ 2) / (c_light u * k) in
  let b := hbar u * k ^ 2 / (2 * m_e u) in
  RInt (fun w => pop * J w * (1 + Z * alpha u / (k * a_0 u) * hr i (xi_ u n Z k w))) (b - M) (b + M) = pop * RInt J (b - M) (b + M).
Proof.
  intros Ho Hp HZ Hk J b.
  assert (Hc : forall w, continuous J w) by (intros w; now apply profile_cont).
  set (h := fun w => pop * (Z * alpha u / (k * a_0 u)) * (J w * hr i (xi_ u n Z k w))).
  assert (Hh : forall w, continuous h w).
  { intros w. apply (continuous_scal_r (K := R_AbsRing) (V := R_NormedModule) _ (fun w => J w * hr i (xi_ u n Z k w))).
    apply (continuous_mult (K := R_AbsRing)); [apply Hc|]. apply (continuous_comp (xi_ u n Z k) (hr i)); [apply xi_cont|apply hr_cont]. }
  rewrite (RInt_ext _ (fun w => plus (scal pop (J w)) (h w))).
  2:{ intros w _. unfold plus, scal, h; cbn; unfold mult; cbn. ring. }
  assert (Hs : forall w, continuous (fun w => scal pop (J w)) w) by (intros w; apply (continuous_scal_r (K := R_AbsRing) (V := R_NormedModule)); apply Hc).
  rewrite (RInt_plus (V := R_CompleteNormedModule)) by (apply (ex_RInt_continuous (V := R_CompleteNormedModule)); auto).
  rewrite (RInt_scal (V := R_CompleteNormedModule)) by (apply (ex_RInt_continuous (V := R_CompleteNormedModule)); auto).
  rewrite (RInt_odd h b M Hh). { unfold plus, scal; cbn; unfold mult; cbn. ring. }
  intros d. unfold h, J. rewrite (xi_sym u n Z k d : xi_ u n Z k (b - d) = _). rewrite hr_odd. fold b. replace ((- xi_ u n Z k (b + d)) ^ 2) with (xi_ u n Z k (b + d) ^ 2) by ring. ring.
Qed.
(** *** Momentum densities.  Gegenbauer polynomials, by their recursion *)
Fixpoint gegenbauer2 (a t : R) (m : nat) : R * R :=
  match m with
  | O => (0, 1)
  | S m => let '(q, p) := gegenbauer2 a t m in (p, (2 * t * (INR m + a) * p - (INR m + 2 * a - 1) * q) / (INR m + 1))
  end.
Definition gegenbauer (m : nat) (a t : R) : R := snd (gegenbauer2 a t m).
(** the squared radial wave function in momentum space, up to a factor, at [y = 1 + (n p / Z)^2] *)
Definition density (n l : nat) (y : R) : R := (y - 1) ^ l / y ^ (2 * l + 4) * gegenbauer (n - l - 1) (INR l + 1) (1 - 2 / y) ^ 2.
Definition right_shells : list (nat * nat) := [(1, 0); (2, 0); (2, 1); (3, 0)]%nat.
Ltac nz := repeat split; repeat apply Rmult_integral_contrapositive_currified; try assumption; lra.
Lemma phi_density n l p y : In (n, l) right_shells -> phi n l = Some p -> y <> 0 -> is_derive p y (- density n l y).
Proof.
  intros Hin Hp Hy.   cbn [In right_shells] in Hin.
  destruct Hin as [H|[H|[H|[H|[]]]]]; injection H as <- <-; injection Hp as <-; unfold density, gegenbauer; cbn [gegenbauer2 snd Nat.sub Nat.mul Nat.add INR].
  - unfold phi10. auto_derive; [nz|]. cbn [pow]. field. exact Hy.
  - unfold phi20. auto_derive.
    + nz.
    + cbn [pow]. field. exact Hy.
  - unfold phi21. auto_derive.
    + nz.
    + cbn [pow]. field. exact Hy.
  - unfold phi30, inv. auto_derive.
    + nz.
    + cbn [pow]. field. exact Hy.
Qed.
Lemma density_nonneg n l y : 1 <= y -> 0 <= density n l y.
Proof.
  intros H. unfold density. apply Rmult_le_pos; [|apply pow2_ge_0]. apply Rle_mult_inv_pos; [apply pow_le; lra|apply pow_lt; lra].
Qed.
Lemma phi_decreasing n l p y y' : In (n, l) right_shells -> phi n l = Some p -> 1 <= y <= y' -> p y' <= p y.
Proof.
  intros Hin Hp [H1 H2]. destruct (Req_EM_T y y') as [->|Hne]; [lra|].
  destruct (MVT_gen p y y' (fun t => - density n l t)) as [c [Hc E]].
  - intros x Hx. rewrite Rmin_left, Rmax_right in Hx by lra. apply phi_density; auto; lra.
  - intros x Hx. rewrite Rmin_left, Rmax_right in Hx by lra. apply derivable_continuous_pt. apply ex_derive_Reals_0. eexists. apply (phi_density n l); auto; lra.
  - rewrite Rmin_left, Rmax_right in Hc by lra. pose proof (density_nonneg n l c ltac:(lra)). nra.
Qed.

(** *** Signs *)
Lemma phi_nonneg i n l p y : nth_error orbitals i = Some (n, l) -> phi n l = Some p -> 1 <= y -> 0 < p y.
Proof.
  intros Ho Hp Hy. 
  assert (G : forall m q, 0 < q -> p y = q / y ^ m -> 0 < p y) by (intros m q Hq ->; apply Rdiv_lt_0_compat; [exact Hq|apply pow_lt; lra]).
  set (t := y - 1) in *. assert (Ht : 0 <= t) by (unfold t; lra). assert (Ey : y = 1 + t) by (unfold t; ring). assert (Hy0 : y <> 0) by lra.
  assert (T2 : 0 <= t ^ 2) by now apply pow_le. assert (T3 : 0 <= t ^ 3) by now apply pow_le. assert (T4 : 0 <= t ^ 4) by now apply pow_le.
  assert (T5 : 0 <= t ^ 5) by now apply pow_le. assert (T6 : 0 <= t ^ 6) by now apply pow_le.
  destruct i as [|[|[|[|[|[|[|[|[|[|i]]]]]]]]]]; cbn in Ho; try (injection Ho as <- <-; injection Hp as <-); [..|destruct i; discriminate].
  - apply (G 3%nat (1 / 3)); [lra|]. unfold phi10. field. exact Hy0.
  - apply (G 5%nat (8 / 15 - 4 / 3 * t + 4 / 3 * t ^ 2)); [pose proof (pow2_ge_0 (t - 1 / 2)); nra|]. unfold phi20, t. field. exact Hy0.
  - apply (G 5%nat (1 / 20 + t / 4)); [lra|]. unfold phi21, t. field. exact Hy0.
  - apply (G 7%nat (67 / 105 - 68 / 15 * t + 82 / 5 * t ^ 2 - 12 * t ^ 3 + 3 * t ^ 4)).
    + pose proof (pow2_ge_0 (t ^ 2 - 2 * t + 3 / 10)). pose proof (pow2_ge_0 (t - 1 / 5)). nra.
    + unfold phi30, inv, t. field. exact Hy0.
  - apply (G 7%nat (443 / 21 + 190 / 3 * t + 63 * t ^ 2 + 64 / 3 * t ^ 3)); [lra|]. unfold phi31, inv, t. field. exact Hy0.
  - apply (G 7%nat (1 / 7 + 3 / 5 * t + 3 / 5 * t ^ 2)); [lra|]. unfold phi32, inv, t. field. exact Hy0.
  - apply (G 9%nat (419 / 45 + 55 * t + 718 / 5 * t ^ 2 + 2626 / 15 * t ^ 3 + 743 / 5 * t ^ 4 + 263 / 5 * t ^ 5 + 48 / 5 * t ^ 6)); [lra|]. unfold phi40, inv, t. field. exact Hy0.
  - apply (G 9%nat (132 / 7 + 663 / 7 * t + 1252 / 7 * t ^ 2 + 214 * t ^ 3 + 72 * t ^ 4 + 25 * t ^ 5)); [lra|]. unfold phi41, inv, t. field. exact Hy0.
  - apply (G 9%nat (1385 / 18 + 4309 / 14 * t + 3232 / 7 * t ^ 2 + 2153 / 7 * t ^ 3 + 540 / 7 * t ^ 4)); [lra|]. unfold phi42, inv, t. field. exact Hy0.
  - apply (G 9%nat (349 / 504 + 117 / 56 * t + 15 / 7 * t ^ 2 + 6 / 7 * t ^ 3)); [lra|]. unfold phi43, inv, t. field. exact Hy0.
Qed.
Lemma pref_pos u n l Z : (0 < n)%nat -> 0 < Z -> 0 < pref u n l Z.
Proof.
  intros Hn HZ. pose proof (alpha_pos u). pose proof PI_RGT_0. assert (0 < INR n) by now apply lt_0_INR. unfold pref.
  pose proof (INR_fact_lt_0 (n - l - 1)). pose proof (INR_fact_lt_0 (n + l)). pose proof (INR_fact_lt_0 l). pos.
Qed.

(** *** The two forms of the lowest profiles *)
Lemma BM_Schum75 u i n l k Z w : (i < 3)%nat -> nth_error orbitals i = Some (n, l) -> Z <> 0 -> k <> 0 ->
  all_J_BM u w k i Z = J_Schum75 u n l w k Z.
Proof.
  intros Hi Ho HZ Hk. pose proof (alpha_pos u) as HA. pose proof PI_RGT_0.
  destruct i as [|[|[|i]]]; [..|lia]; cbn in Ho; injection Ho as <- <-; cbn [all_J_BM].
  - rewrite (Schum75_some u 1 0 phi10) by (reflexivity || assumption). unfold J10_BM. rewrite xi_some by assumption. cbn [obind]. f_equal.
    pose proof (wm_pos (xi_ u 1 Z k w)). set (y := 1 + xi_ u 1 Z k w ^ 2) in *. unfold pref, phi10. cbn [fact INR Nat.sub Nat.add Nat.mul]. clearbody y. cbn. field. repeat split; lra.
  - rewrite (Schum75_some u 2 0 phi20) by (reflexivity || assumption). unfold J20_BM. rewrite xi_some by assumption. cbn [obind]. f_equal.
    pose proof (wm_pos (xi_ u 2 Z k w)). set (y := 1 + xi_ u 2 Z k w ^ 2) in *. unfold pref, phi20. clearbody y. cbn. field. repeat split; lra.
  - rewrite (Schum75_some u 2 1 phi21) by (reflexivity || assumption). unfold J21_BM. rewrite xi_some by assumption. cbn [obind]. f_equal.
    pose proof (wm_pos (xi_ u 2 Z k w)). set (x := xi_ u 2 Z k w) in *. clearbody x. unfold pref, phi21. cbn. field. cbn in H0. repeat split; nra.
Qed.

(** *** Charge states *)
Lemma floor_unique z m : IZR m <= z < IZR m + 1 -> rfloor z = IZR m.
Proof.
  intros H. unfold rfloor. f_equal. destruct (base_Int_part z) as [A B].
  assert (C1 : IZR (Int_part z) < IZR (m + 1)) by (rewrite plus_IZR; lra). assert (C2 : IZR m < IZR (Int_part z + 1)) by (rewrite plus_IZR; lra).
  apply lt_IZR in C1, C2. lia.
Qed.
Lemma over_charge_interp Z f m z : (m + 1 <= Z)%Z -> f (IZR Z) = 0 -> IZR m <= z <= IZR (m + 1) ->
  over_charge (IZR Z) f z = (IZR (m + 1) - z) * f (IZR m) + (z - IZR m) * f (IZR (m + 1)).
Proof.
  intros HZ H0 [A B]. unfold over_charge. rewrite plus_IZR in *.
  destruct (Req_EM_T z (IZR m + 1)) as [->|HN].
  - rewrite (floor_unique (IZR m + 1) (m + 1)) by (rewrite plus_IZR; lra). rewrite plus_IZR. destruct (Req_EM_T _ _); [|contradiction]. ring.
  - rewrite (floor_unique z m) by lra. destruct (Req_EM_T z (IZR m)) as [->|HN2]; [ring|].
    assert (EC : rceil z = IZR (m + 1)).
    { unfold rceil. rewrite (floor_unique (- z) (- (m + 1))) by (rewrite opp_IZR, plus_IZR; lra). rewrite opp_IZR. ring. }
    rewrite EC. destruct (Rge_dec (IZR (m + 1)) (IZR Z)) as [G|G].
    + assert (EZ : (m + 1 = Z)%Z) by (apply Rge_le, le_IZR in G; lia). subst Z. rewrite plus_IZR in *. rewrite H0. ring.
    + rewrite plus_IZR. ring.
Qed.
Lemma osum_some (f : nat -> option R) (g : nat -> R) l : (forall i, In i l -> f i = Some (g i)) -> osum (map f l) = Some (M_PlasmaState.sum (map g l)).
Proof.
  induction l as [|i l IH]; intros H; cbn; [reflexivity|]. rewrite (H i) by now left. cbn. rewrite IH by (intros; apply H; now right). reflexivity.
Qed.
Lemma osum_none (f : nat -> option R) l i : In i l -> f i = None -> osum (map f l) = None.
Proof.
  induction l as [|j l IH]; intros Hin E; [destruct Hin|]. destruct Hin as [->|H]; cbn; [now rewrite E|]. destruct (f j); cbn; [|reflexivity]. now rewrite IH.
Qed.
Lemma population_nonneg Zc i : 0 <= population Zc i.
Proof.
  unfold population. rewrite L_Elements.distribution_shells.
  destruct i as [|[|[|[|[|[|[|[|[|[|i]]]]]]]]]]; cbn [nth]; try lra; try (apply L_Elements.shell_bounds; lra). destruct i; lra.
Qed.
(** one channel of a charge state *)
Definition jhat (u : consts) (i : nat) (Z k w : R) : R := match J_impulse_approx u w k 1 i Z with Some v => v | None => 0 end.
Lemma qdiv_pop a b c : qdiv (a * b) c = obind (qdiv (1 * b) c) (fun v => Some (a * v)).
Proof. unfold qdiv. destruct (Req_EM_T c 0); cbn; [reflexivity|]. f_equal. field. assumption. Qed.
Lemma impulse_pop u w k pop i Z : J_impulse_approx u w k pop i Z = obind (J_impulse_approx u w k 1 i Z) (fun v => Some (pop * v)).
Proof.
  unfold J_impulse_approx. destruct (all_J_Schum75 u w k i Z) as [a|]; cbn; [|reflexivity]. destruct (all_J_HR u w k i Z) as [b|]; cbn; [|reflexivity]. apply qdiv_pop.
Qed.
Lemma orbitals_some i : (i < 10)%nat -> exists n l, nth_error orbitals i = Some (n, l).
Proof. intros H. do 10 (destruct i as [|i]; [do 2 eexists; reflexivity|]). lia. Qed.
Lemma J_some u w k i Z : (i < 10)%nat -> Z <> 0 -> k <> 0 -> exists v, J_impulse_approx u w k 1 i Z = Some v.
Proof.
  intros Hi HZ Hk. destruct (orbitals_some i Hi) as (n & l & Ho). destruct (orbital_phi i n l Ho) as [p Hp]. pose proof (c_pos u).
  unfold J_impulse_approx, all_J_Schum75. rewrite (nth_error_nth _ _ _ Ho), (Schum75_some u n l p) by assumption. cbn [obind].
  assert (exists v, all_J_HR u w k i Z = Some v) as [v ->].
  { destruct i as [|[|[|i]]]; cbn [all_J_HR]; [| | |eexists; reflexivity].
    - unfold J10_HR. rewrite xi_some, (Schum75_some u 1 0 phi10) by (reflexivity || assumption). eexists; reflexivity.
    - unfold J20_HR. rewrite xi_some, (Schum75_some u 2 0 phi20) by (reflexivity || assumption). eexists; reflexivity.
    - unfold J21_HR. rewrite xi_some, (Schum75_some u 2 1 phi21) by (reflexivity || assumption). eexists; reflexivity. }
  cbn [obind]. rewrite qdiv_some by (apply Rmult_integral_contrapositive_currified; lra). eexists; reflexivity.
Qed.
Lemma sum_scal c (g : nat -> R) l : M_PlasmaState.sum (map (fun i => c * g i) l) = c * M_PlasmaState.sum (map g l).
Proof. induction l as [|i l IH]; cbn; [ring|]. unfold M_PlasmaState.sum in *. cbn. rewrite IH. ring. Qed.
Lemma sum_ext_in (f g : nat -> R) l : (forall i, In i l -> f i = g i) -> M_PlasmaState.sum (map f l) = M_PlasmaState.sum (map g l).
Proof. intros H. f_equal. now apply map_ext_in. Qed.
Section CS.
  Variables (u : consts) (edge : R -> R -> R -> R) (s : ion).
  Let Zeff Zc i := Z_A s - nth i (pauling_size_screening_constants Zc) 0.
  Let E_b charge i := Rmax 0 (binding s charge i + ipd s).
  Lemma charge_state_some r_k r E0 E k charge : let Zc := Z_A s - charge in
    Zc <> 0 -> k <> 0 -> (forall i, (i < 10)%nat -> Zeff Zc i <> 0) -> new_r_k s Zc r_k = Some r ->
    charge_state u edge s r_k E0 E k charge
    = r * M_PlasmaState.sum (map (fun i => population Zc i * jhat u i (Zeff Zc i) k ((E0 - E) / hbar u) * edge E0 E (E_b charge i)) (seq 0 10)).
  Proof.
    intros Zc HZc Hk Hz Hr. unfold charge_state. fold Zc. rewrite Hr. cbn [obind]. rewrite qdiv_some by assumption. cbn [obind].
    pose proof (hbar_pos u).
    rewrite (osum_some _ (fun i => r / Zc * (population Zc i * jhat u i (Zeff Zc i) k ((E0 - E) / hbar u) * edge E0 E (E_b charge i)))).
    - cbn [obind]. rewrite sum_scal. field. assumption.
    - intros i Hi. apply in_seq in Hi. fold (Zeff Zc i). replace (E0 / hbar u - E / hbar u) with ((E0 - E) / hbar u) by (field; lra).
      rewrite impulse_pop. unfold jhat. destruct (J_some u ((E0 - E) / hbar u) k i (Zeff Zc i)) as [v Hv]; [lia|apply Hz; lia|assumption|]. rewrite Hv. cbn [obind].
      assert (EE : E_b charge i = (if Rlt_dec (binding s charge i + ipd s) 0 then 0 else binding s charge i + ipd s)).
      { unfold E_b, Rmax. destruct (Rle_dec _ _), (Rlt_dec _ _); lra. }
      rewrite <- EE. f_equal. ring.
  Qed.
  Lemma charge_state_bare r_k E0 E k : charge_state u edge s r_k E0 E k (Z_A s) = 0.
  Proof.
    unfold charge_state. replace (Z_A s - Z_A s) with 0 by ring. destruct (new_r_k s 0 r_k) as [r|]; cbn [obind]; [|reflexivity].
    unfold qdiv at 1. destruct (Req_EM_T 0 0); [reflexivity|contradiction].
  Qed.
  (** a vanishing effective charge of any shell *)
  Lemma charge_state_nan r_k E0 E k charge i : (i < 10)%nat -> Zeff (Z_A s - charge) i = 0 -> charge_state u edge s r_k E0 E k charge = 0.
  Proof.
    intros Hi HZ. unfold charge_state. destruct (new_r_k s (Z_A s - charge) r_k) as [r|]; cbn [obind]; [|reflexivity].
    destruct (qdiv r (Z_A s - charge)) as [f|]; cbn [obind]; [|reflexivity].
    rewrite (osum_none _ _ i); [reflexivity|apply in_seq; lia|]. fold (Zeff (Z_A s - charge) i). rewrite HZ.
    assert (E1 : forall w, J_impulse_approx u w k (population (Z_A s - charge) i) i 0 = None).
    { intros w. unfold J_impulse_approx, all_J_Schum75. destruct (orbitals_some i Hi) as (n & l & Ho). rewrite (nth_error_nth _ _ _ Ho).
      destruct (orbital_phi i n l Ho) as [p Hp]. unfold J_Schum75, y_, xi. rewrite Hp. cbn [obind].
      destruct (qdiv (w - _) _); cbn [obind]; [|reflexivity]. unfold qdiv at 1. rewrite Rmult_0_l. destruct (Req_EM_T 0 0); [reflexivity|contradiction]. }
    rewrite E1. reflexivity.
  Qed.
End CS.
Lemma sum_RInt_lim (f : nat -> R -> R) (L : nat -> R) b l :
  (forall i w, In i l -> continuous (f i) w) -> (forall i, In i l -> is_lim (fun M => RInt (f i) (b - M) (b + M)) p_infty (L i)) ->
  (forall w, continuous (fun w => M_PlasmaState.sum (map (fun i => f i w) l)) w) /\
  is_lim (fun M => RInt (fun w => M_PlasmaState.sum (map (fun i => f i w) l)) (b - M) (b + M)) p_infty (M_PlasmaState.sum (map L l)).
Proof.
  induction l as [|i l IH]; intros Hc HL.
  - split; [intros w; apply continuous_const|]. apply (is_lim_ext (fun _ => 0)); [|apply is_lim_const].
    intros M. symmetry. etransitivity; [apply (RInt_const (V := R_CompleteNormedModule) (b - M) (b + M) 0)|]. apply Rmult_0_r.
  - destruct IH as [A B]; [intros; apply Hc; now right|intros; apply HL; now right|].
    assert (Hi : forall w, continuous (f i) w) by (intros; apply Hc; now left).
    split; [intros w; apply (continuous_plus (V := R_NormedModule) (f i) (fun w => M_PlasmaState.sum (map (fun i => f i w) l))); auto|].
    apply (is_lim_ext (fun M => RInt (f i) (b - M) (b + M) + RInt (fun w => M_PlasmaState.sum (map (fun i => f i w) l)) (b - M) (b + M))).
    + intros M. symmetry. apply (RInt_plus (V := R_CompleteNormedModule) (f i) (fun w => M_PlasmaState.sum (map (fun i => f i w) l))); apply (ex_RInt_continuous (V := R_CompleteNormedModule)); auto.
    + apply is_lim_plus'; [apply HL; now left|exact B].
Qed.
