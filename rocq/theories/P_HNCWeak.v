(** C133: at weak coupling the hypernetted-chain iteration converges. *)
From Coq Require Import Reals Lra Psatz List Lia Arith Bool.
From Coquelicot Require Import Coquelicot.
Import ListNotations.
From Coq Require FunctionalExtensionality.
From Verif Require Import M_Const M_Helpers L_Helpers M_HNC L_HNC L_HNC2 L_HNC3 L_HNCWeak L_HNCWeak2.
Open Scope R_scope.

(** jnp.linalg.solve in exact arithmetic gives a result for every regular matrix *)
Definition complete_solver (M : nat) (solve : nat -> (nat -> nat -> R) -> (nat -> R) -> option (list R)) : Prop :=
  forall A b, regular M A -> exists x, solve M A b = Some x.
(** Either the hand-written branches of cramer_solve are in use, or the library solver is exact. *)
Definition solver_ok (N_max M : nat) (solve : nat -> (nat -> nat -> R) -> (nat -> R) -> option (list R)) : Prop :=
  ((M <= 4)%nat /\ (M <= N_max)%nat) \/ (good_solver M solve /\ complete_solver M solve).

Lemma ozr_correct solve N_max M n c h : (1 <= M)%nat -> solver_ok N_max M solve -> sym2 M c ->
  ozr solve N_max M n c = Some h -> OZ M n c h /\ sym2 M h.
Proof.
  intros HM [[H4 Hm]|[Hg _]] Hc E.
  - destruct (ozr_small solve N_max M n c h ltac:(lia) Hm Hc E) as (H1 & H2 & _). now split.
  - destruct (ozr_ok solve N_max M n c h HM Hg Hc E) as (H1 & H2 & _). now split.
Qed.
Lemma ozr_weak_total solve N_max M n D kappa c : (1 <= M)%nat -> solver_ok N_max M solve ->
  (forall s, (s < M)%nat -> Rabs (n s) <= D) -> 0 <= kappa -> INR M * D * kappa <= 1 / 1000 ->
  small2 M kappa c -> exists h, ozr solve N_max M n c = Some h.
Proof.
  intros HM Hs HD Hk Hsm Hc.
  assert (HD0 : 0 <= D) by (pose proof (HD O ltac:(lia)); pose proof (Rabs_pos (n O)); lra).
  assert (H1 : 1 <= INR M) by (apply (le_INR 1); lia). assert (Hdk : 0 <= D * kappa) by now apply Rmult_le_pos.
  assert (Hcr : (M <= 4)%nat -> (M <= N_max)%nat -> exists h, ozr solve N_max M n c = Some h).
  { intros H4 Hm. apply ozr_total; [lia|exact Hm|]. apply (near_det M _ (D * kappa)); [lia| |now apply oz_near]. split; [now apply Rmult_le_pos|]. nra. }
  destruct Hs as [[H4 Hm]|[_ Hcs]]; [now apply Hcr|].
  destruct (Nat.ltb N_max M || Nat.eqb M 0 || Nat.ltb 4 M) eqn:Eb.
  2:{ apply orb_false_elim in Eb as [Eb E4]. apply orb_false_elim in Eb as [E1 _].
      apply Nat.ltb_ge in E1, E4. now apply Hcr. }
  unfold ozr, cramer_solve_matrix. rewrite Eb.
  match goal with |- context [sequence M ?F] => destruct (sequence_some M F) as (X & E & _) end.
  - intros j Hj. apply Hcs. apply (regular_ext M (oz_matrix n c)); [|apply (dominant_regular M _ (D * kappa) HM); [lra|now apply oz_near]].
    intros i k Hi Hk'. symmetry. now apply ozr_A.
  - rewrite E. eauto.
Qed.

(** radius and bounds that fit together *)
Lemma weak_radius P N r : 0 <= P ->
  exists A B rho, 1 <= A /\
    (forall f x, 0 <= x -> (forall j, (j < N)%nat -> Rabs (f j) <= x) ->
      forall m, (m < N)%nat -> Rabs (forward N r f m) <= A * x) /\
    1 <= B /\
    (forall f x, 0 <= x -> (forall j, (j < N)%nat -> Rabs (f j) <= x) ->
      forall m, (m < N)%nat -> Rabs (backward N r f m) <= B * x) /\
    0 < rho <= 1 / 4 /\ P * (9 * A + 1) * rho <= 1 / 1000 /\
    B * (2 * P * (9 * A + 1) ^ 2 + 1) * rho <= 1 /\
    32 * A * B * P * (9 * A + 1) * rho <= 1.
Proof.
  intros HP. destruct (forward_bounded N r) as (A & HA1 & HA). destruct (backward_bounded N r) as (B & HB1 & HB).
  assert (X1 : 0 <= P * (9 * A + 1)) by (apply Rmult_le_pos; lra).
  assert (X2 : 0 <= B * (2 * P * (9 * A + 1) ^ 2 + 1)).
  { apply Rmult_le_pos; [lra|]. assert (0 <= (9 * A + 1) ^ 2) by apply pow2_ge_0. nra. }
  assert (X3 : 0 <= 32 * A * B * P * (9 * A + 1)).
  { replace (32 * A * B * P * (9 * A + 1)) with (32 * A * B * (P * (9 * A + 1))) by ring.
    apply Rmult_le_pos; [|exact X1]. apply Rmult_le_pos; lra. }
  remember (P * (9 * A + 1)) as x1 eqn:E1. remember (B * (2 * P * (9 * A + 1) ^ 2 + 1)) as x2 eqn:E2.
  remember (32 * A * B * P * (9 * A + 1)) as x3 eqn:E3.
  set (Q := 4 + 1000 * x1 + x2 + x3). assert (HQ : 4 <= Q) by (unfold Q; lra).
  exists A, B, (/ Q). split; [exact HA1|]. split; [exact HA|]. split; [exact HB1|]. split; [exact HB|].
  assert (HQi : 0 < / Q) by (apply Rinv_0_lt_compat; lra). assert (HQ1 : Q * / Q = 1) by (apply Rinv_r; lra).
  assert (E : 4 * / Q + 1000 * x1 * / Q + x2 * / Q + x3 * / Q = 1) by (rewrite <- HQ1; unfold Q; ring).
  assert (0 <= x1 * / Q) by nra. assert (0 <= x2 * / Q) by nra. assert (0 <= x3 * / Q) by nra.
  rewrite <- E1, <- E2, <- E3. clear E1 E2 E3. repeat split; nra.
Qed.
Lemma density_bound M (n : nat -> R) : (1 <= M)%nat -> exists D, 0 <= D /\ forall s, (s < M)%nat -> Rabs (n s) <= D.
Proof.
  intros HM. destruct (max1 M (fun s => Rabs (n s)) HM) as (s0 & _ & HD). exists (Rabs (n s0)). split; [apply Rabs_pos|exact HD].
Qed.

Lemma solution_ext M N r Q P : bounded_form M Q P -> forall v v' w w' Nf, (forall a b j, v a b j = v' a b j) ->
  (forall a b j, w a b j = w' a b j) -> hnc_solution M N r (QOZ M Q) v w Nf -> hnc_solution M N r (QOZ M Q) v' w' Nf.
Proof.
  intros HQ v v' w w' Nf Ev Ew H m Hm. refine (QOZ_ext M Q P HQ _ _ _ _ _ _ (H m Hm)); intros p q _ _; cbv beta.
  - rewrite Ew. f_equal. apply forward_ext. intros j _. now rewrite Ev.
  - apply forward_ext. intros j _. now rewrite Ev.
Qed.
(** The iteration: for potentials below a threshold that depends on the grid,
    the densities and the mixing alone, the hypernetted-chain equations have one
    solution near the ideal gas, and the step reaches it geometrically from
    every start near the ideal gas. *)
Theorem C133_iteration_converges :
  forall solve (M N N_max : nat) (r n : nat -> R) (mix : R),
    (1 <= M)%nat -> solver_ok N_max M solve -> good_grid N r -> 0 <= mix < 1 ->
    exists eps rho, 0 < eps /\ 0 < rho /\
      forall v w : arr3, sym3 M N v -> sym3 M N w ->
        (forall a b j, (a < M)%nat -> (b < M)%nat -> (j < N)%nat -> Rabs (v a b j) <= eps /\ Rabs (w a b j) <= eps) ->
        exists N_star : arr3,
          sym3 M N N_star /\
          (forall a b j, (a < M)%nat -> (b < M)%nat -> (j < N)%nat -> Rabs (N_star a b j) <= rho) /\
          hnc_solution M N r (OZ M n) v w N_star /\
          (** no other solution near the ideal gas *)
          (forall N', sym3 M N N' ->
             (forall a b j, (a < M)%nat -> (b < M)%nat -> (j < N)%nat -> Rabs (N' a b j) <= rho) ->
             hnc_solution M N r (OZ M n) v w N' ->
             forall a b j, (a < M)%nat -> (b < M)%nat -> (j < N)%nat -> N' a b j = N_star a b j) /\
          (** convergence, without a NaN on the way *)
          (forall s, sym_state M N s ->
             (forall a b j, (a < M)%nat -> (b < M)%nat -> (j < N)%nat -> Rabs (Ns s a b j) <= rho) ->
             (forall a b j, log_g s a b j = Ns s a b j - v a b j) ->
             forall k, exists t, steps (ozr solve N_max M n) N r mix v w k s = Some t /\
               (forall a b j, log_g t a b j = Ns t a b j - v a b j) /\
               forall a b j, (a < M)%nat -> (b < M)%nat -> (j < N)%nat ->
                 Rabs (Ns t a b j - N_star a b j) <= 2 * rho * ((1 + mix) / 2) ^ k).
Proof.
  intros solve M N N_max r n mix HM Hs G Hmix.
  destruct (density_bound M n HM) as (D & HD0 & HD).
  pose proof (oz_form_bounded M n D HM HD) as HQ.
  destruct (weak_radius (INR M * D) N r (bf_pos _ _ _ HQ)) as (A & B & rho & HA1 & HA & HB1 & HB & Hrho & R1 & R2 & R3).
  exists (rho ^ 2), rho. split; [nra|]. split; [lra|]. intros v w Sv Sw Hsm.
  assert (Bv : small3 M N (rho ^ 2) v) by (intros a b j Ha Hb Hj; now apply Hsm).
  assert (Bw : small3 M N (rho ^ 2) w) by (intros a b j Ha Hb Hj; now apply Hsm).
  set (oz := ozr solve N_max M n).
  assert (Hoz : forall c h, sym2 M c -> oz c = Some h -> OZ M n c h /\ sym2 M h) by (intros c h; now apply ozr_correct).
  assert (Hoz2 : forall c, sym2 M c -> small2 M ((9 * A + 1) * rho ^ 2) c -> exists h, oz c = Some h).
  { intros c _ Hc. apply (ozr_weak_total solve N_max M n D ((9 * A + 1) * rho ^ 2)); try assumption.
    - apply Rmult_le_pos; [lra|apply pow2_ge_0].
    - now apply (kappa_small M (oz_form M n) (INR M * D) A rho). }
  exact (weak_summary oz M N r (oz_form M n) mix (INR M * D) A B rho G HM Hmix HQ HA1 HA HB1 HB Hrho R1 R2 R3 Hoz Hoz2 v w Sv Sw Bv Bw).
Qed.
Print Assumptions C133_iteration_converges.

(** The solver: below the threshold at every temperature multiplier it returns a
    result, and the pair distribution functions differ from those of the exact
    solution by no more than the tolerance of the loop allows. *)
Theorem C133_solver :
  forall (K : consts) solve (M N N_max : nat) (r n : nat -> R) (mix : R),
    (1 <= M)%nat -> solver_ok N_max M solve -> good_grid N r -> 0 <= mix < 1 ->
    exists eps rho, 0 < eps /\ 0 < rho /\
      forall (V_s V_l_k : arr3) (T : nat -> nat -> R) (tmult : list R) (fuel : nat),
        (2000 < fuel)%nat -> sym3 M N V_s -> sym3 M N V_l_k -> (forall a b, T a b = T b a) ->
        (forall mult, In mult (tmult ++ [1]) ->
          forall a b j, (a < M)%nat -> (b < M)%nat -> (j < N)%nat ->
            Rabs (V_s a b j / (kB K * (mult * T a b))) <= eps /\ Rabs (V_l_k a b j / (kB K * (mult * T a b))) <= eps) ->
        let v := fun a b j => V_s a b j / (kB K * T a b) in
        let w := fun a b m => V_l_k a b m / (kB K * T a b) in
        exists (g : arr3) (iterations : nat) (N_star : arr3),
          pair_distribution_function_HNC K solve fuel M N V_s V_l_k r T n mix tmult N_max = Some (g, iterations) /\
          sym3 M N N_star /\ hnc_solution M N r (OZ M n) v w N_star /\
          forall a b j, (a < M)%nat -> (b < M)%nat -> (j < N)%nat ->
            0 < g a b j /\ Rabs (N_star a b j) <= rho /\
            Rabs (ln (g a b j) - (N_star a b j - v a b j))
              <= Rmax ((1 + mix) / (1 - mix) / 1000) (2 * rho * ((1 + mix) / 2) ^ 2000).
Proof.
  intros K solve M N N_max r n mix HM Hs G Hmix.
  destruct (density_bound M n HM) as (D & HD0 & HD).
  pose proof (oz_form_bounded M n D HM HD) as HQ.
  destruct (weak_radius (INR M * D) N r (bf_pos _ _ _ HQ)) as (A & B & rho & HA1 & HA & HB1 & HB & Hrho & R1 & R2 & R3).
  exists (rho ^ 2), rho. split; [nra|]. split; [lra|]. intros V_s V_l_k T tmult fuel Hf Sv Sw ST Hsm v w.
  set (oz := ozr solve N_max M n).
  assert (Hoz : forall c h, sym2 M c -> oz c = Some h -> OZ M n c h /\ sym2 M h) by (intros c h; now apply ozr_correct).
  assert (Hoz2 : forall c, sym2 M c -> small2 M ((9 * A + 1) * rho ^ 2) c -> exists h, oz c = Some h).
  { intros c _ Hc. apply (ozr_weak_total solve N_max M n D ((9 * A + 1) * rho ^ 2)); try assumption.
    - apply Rmult_le_pos; [lra|apply pow2_ge_0].
    - now apply (kappa_small M (oz_form M n) (INR M * D) A rho). }
  set (vs := fun mult a b j => beta K T mult a b * V_s a b j). set (ws := fun mult a b m => beta K T mult a b * V_l_k a b m).
  assert (Eb : forall mult a b x, beta K T mult a b * x = x / (kB K * (mult * T a b))) by (intros; unfold beta, Rdiv; ring).
  assert (Ebeta : forall mult a b, beta K T mult a b = beta K T mult b a) by (intros; unfold beta; now rewrite ST).
  assert (Hw : forall mult, In mult (tmult ++ [1]) -> weak_at M N rho vs ws mult).
  { intros mult Hin. split; [|split; [|split]]; intros a b j Ha Hb Hj; unfold vs, ws.
    - now rewrite Ebeta, Sv.
    - now rewrite Ebeta, Sw.
    - rewrite Eb. now apply (Hsm mult Hin a b j).
    - rewrite Eb. now apply (Hsm mult Hin a b j). }
  destruct (cycles_summary oz M N r (oz_form M n) mix (INR M * D) A B rho G HM Hmix HQ HA1 HA HB1 HB Hrho R1 R2 R3 Hoz Hoz2 vs ws fuel tmult Hf Hw)
    as (t & it & E & Hcl & Nf & HS & HB' & Hsol & Hn).
  exists (fun a b j => exp (log_g t a b j)), it, Nf. split; [|split; [exact HS|split]].
  - unfold pair_distribution_function_HNC. fold oz. fold vs ws. now rewrite E.
  - assert (Ev : forall a b j, vs 1 a b j = v a b j) by (intros; unfold vs, v; rewrite Eb, Rmult_1_l; reflexivity).
    assert (Ew : forall a b j, ws 1 a b j = w a b j) by (intros; unfold ws, w; rewrite Eb, Rmult_1_l; reflexivity).
    exact (solution_ext M N r _ _ HQ _ _ _ _ Nf Ev Ew Hsol).
  - intros a b j Ha Hb Hj. split; [apply exp_pos|]. split; [now apply HB'|]. rewrite ln_exp, Hcl.
    replace (Ns t a b j - vs 1 a b j - (Nf a b j - v a b j)) with (Ns t a b j - Nf a b j); [now apply Hn|].
    unfold vs, v. rewrite Eb, Rmult_1_l. ring.
Qed.
Print Assumptions C133_solver.

(** ** The solver for several temperatures *)
Lemma cramer_indep solve solve' N_max L A b : (1 <= L <= 4)%nat -> (L <= N_max)%nat ->
  cramer_solve solve N_max L A b = cramer_solve solve' N_max L A b.
Proof.
  intros HL Hm. unfold cramer_solve. destruct (Nat.ltb_spec N_max L); [lia|].
  destruct L as [|[|[|[|[|L]]]]]; try lia; reflexivity.
Qed.
Lemma svt_correct solve N_max M n m T c h : (1 <= M)%nat -> solver_ok N_max (M * M) solve ->
  pos_below M m -> pos_below2 M T -> sym2 M T -> sym2 M c ->
  svt_ozr solve N_max M n m T c = Some h -> SVT M n m T c h /\ sym2 M h.
Proof.
  intros HM Hs Pm PT ST Sc E.
  assert (HX : SVT M n m T c h /\ regular (M * M) (svt_matrix M n m T c)).
  { destruct Hs as [[H4 Hm]|[Hg _]]; [|now apply (svt_spec solve N_max)].
    apply (svt_spec (fun _ _ _ => None) N_max); try assumption; [intros A b x Ex; discriminate|].
    unfold svt_ozr in *. now rewrite <- (cramer_indep solve) by (try nia; assumption). }
  destruct HX as [H1 H2]. split; [exact H1|]. exact (svt_symmetric M n m T c h Pm PT ST Sc H2 H1).
Qed.
Definition svt_weights (M : nat) (n m : nat -> R) (T : nat -> nat -> R) (D : R) : Prop :=
  forall a b s, (a < M)%nat -> (b < M)%nat -> (s < M)%nat ->
    Rabs (n s * (m b / (m a + m b) * (T a s / T a b))) <= D /\ Rabs (n s * (m a / (m a + m b) * (T b s / T a b))) <= D.
Lemma svt_near M n m T D kappa c : pos_below M m -> pos_below2 M T -> svt_weights M n m T D -> small2 M kappa c -> 0 <= D ->
  0 <= kappa ->
  forall i j, (i < M * M)%nat -> (j < M * M)%nat -> Rabs (svt_matrix M n m T c i j - delta i j) <= 2 * D * kappa.
Proof.
  intros Pm PT HD Hc HD0 Hk i j Hi Hj. unfold svt_matrix. assert (HM0 : (M <> 0)%nat) by lia.
  assert (Hai : (i / M < M)%nat) by (apply Nat.div_lt_upper_bound; lia).
  assert (Hbi : (i mod M < M)%nat) by (apply Nat.mod_upper_bound; lia).
  assert (Haj : (j / M < M)%nat) by (apply Nat.div_lt_upper_bound; lia).
  assert (Hbj : (j mod M < M)%nat) by (apply Nat.mod_upper_bound; lia).
  set (a := (i / M)%nat) in *. set (b := (i mod M)%nat) in *. set (s := (j / M)%nat) in *. set (t := (j mod M)%nat) in *.
  pose proof (Pm a Hai) as Ma. pose proof (Pm b Hbi) as Mb. pose proof (PT a b Hai Hbi) as Tab.
  assert (C1 : Rabs (coeff_1 n m T a b s) <= D).
  { replace (coeff_1 n m T a b s) with (n s * (m b / (m a + m b) * (T a s / T a b))); [now apply HD|].
    unfold coeff_1, m_ab. field. repeat split; lra. }
  assert (C2 : Rabs (coeff_2 n m T a b t) <= D).
  { replace (coeff_2 n m T a b t) with (n t * (m a / (m a + m b) * (T b t / T a b))); [now apply HD|].
    unfold coeff_2, m_ab. field. repeat split; lra. }
  assert (Dl : forall p q, 0 <= delta p q <= 1) by (intros; unfold delta; destruct (Nat.eqb p q); lra).
  match goal with |- Rabs (?d + ?x + ?y - ?d) <= _ => replace (d + x + y - d) with (x + y) by ring end.
  apply (Rle_trans _ _ _ (Rabs_triang _ _)).
  assert (HB : forall x y z, Rabs x <= D -> Rabs y <= kappa -> 0 <= z <= 1 -> Rabs (- (x * y) * z) <= D * kappa).
  { intros x y z Hx Hy Hz. rewrite Rabs_mult, Rabs_Ropp, Rabs_mult, (Rabs_right z) by lra.
    pose proof (Rabs_pos x). pose proof (Rabs_pos y).
    assert (Rabs x * Rabs y <= D * kappa) by (apply Rmult_le_compat; assumption).
    assert (0 <= Rabs x * Rabs y) by now apply Rmult_le_pos. nra. }
  pose proof (HB _ _ _ C1 (Hc a s Hai Haj) (Dl b t)). pose proof (HB _ _ _ C2 (Hc t b Hbj Hbi) (Dl a s)). lra.
Qed.
Lemma svt_weak_total solve N_max M n m T D kappa c : (1 <= M)%nat -> solver_ok N_max (M * M) solve ->
  pos_below M m -> pos_below2 M T -> svt_weights M n m T D -> 0 <= D -> 0 <= kappa ->
  INR (M * M) * (2 * D) * kappa <= 1 / 1000 -> small2 M kappa c -> exists h, svt_ozr solve N_max M n m T c = Some h.
Proof.
  intros HM Hs Pm PT HD HD0 Hk Hsm Hc.
  pose proof (svt_near M n m T D kappa c Pm PT HD Hc HD0 Hk) as Hn.
  assert (H1 : 1 <= INR (M * M)) by (apply (le_INR 1); nia). assert (Hdk : 0 <= 2 * D * kappa) by (apply Rmult_le_pos; lra).
  assert (Hcr : (M * M <= 4)%nat -> (M * M <= N_max)%nat -> exists h, svt_ozr solve N_max M n m T c = Some h).
  { intros H4 Hm. unfold svt_ozr.
    destruct (cramer_all solve N_max (M * M) (svt_matrix M n m T c) (fun i => c (Nat.div i M) (Nat.modulo i M)) ltac:(nia) Hm) as (x & E & _).
    - apply (near_det (M * M) _ (2 * D * kappa)); [nia|nra|exact Hn].
    - rewrite E. eauto. }
  destruct Hs as [[H4 Hm]|[_ Hcs]]; [now apply Hcr|].
  destruct (Nat.le_gt_cases (M * M) N_max) as [Hm|Hm]; [destruct (Nat.le_gt_cases (M * M) 4) as [H4|H4]; [now apply Hcr|]|].
  - unfold svt_ozr, cramer_solve. destruct (Nat.ltb_spec N_max (M * M)); [lia|].
    destruct (Hcs (svt_matrix M n m T c) (fun i => c (Nat.div i M) (Nat.modulo i M))) as [x Ex].
    { apply (dominant_regular (M * M) _ (2 * D * kappa)); [nia|lra|exact Hn]. }
    destruct (M * M)%nat as [|[|[|[|[|L]]]]]; try lia. rewrite Ex. eauto.
  - unfold svt_ozr, cramer_solve. destruct (Nat.ltb_spec N_max (M * M)); [|lia].
    destruct (Hcs (svt_matrix M n m T c) (fun i => c (Nat.div i M) (Nat.modulo i M))) as [x Ex].
    { apply (dominant_regular (M * M) _ (2 * D * kappa)); [nia|lra|exact Hn]. }
    rewrite Ex. eauto.
Qed.
Lemma form_weaken M Q P P' : P <= P' -> bounded_form M Q P -> bounded_form M Q P'.
Proof.
  intros HP [H1 H2 H3 H4]. split; [lra| |exact H3|exact H4]. intros c h x y a b Hc Hh Hx Hy Ha Hb.
  apply (Rle_trans _ _ _ (H2 c h x y a b Hc Hh Hx Hy Ha Hb)). apply Rmult_le_compat_r; [exact Hy|]. now apply Rmult_le_compat_r.
Qed.
Lemma weights_bound M n m T : (1 <= M)%nat -> exists D, 0 <= D /\ svt_weights M n m T D.
Proof.
  intros HM.
  destruct (max3 M M (fun a b s => Rabs (n s * (m b / (m a + m b) * (T a s / T a b)))) HM HM) as (a1 & b1 & s1 & _ & _ & _ & H1).
  destruct (max3 M M (fun a b s => Rabs (n s * (m a / (m a + m b) * (T b s / T a b)))) HM HM) as (a2 & b2 & s2 & _ & _ & _ & H2).
  cbv beta in H1, H2. match type of H1 with forall i k l, _ -> _ -> _ -> _ <= ?x => set (D1 := x) in * end.
  match type of H2 with forall i k l, _ -> _ -> _ -> _ <= ?x => set (D2 := x) in * end.
  assert (0 <= D1) by apply Rabs_pos. assert (0 <= D2) by apply Rabs_pos.
  exists (D1 + D2). split; [lra|]. intros a b s Ha Hb Hs. pose proof (H1 a b s Ha Hb Hs). pose proof (H2 a b s Ha Hb Hs). lra.
Qed.
(** the weights do not depend on the multiplier *)
Lemma svt_ozr_mult solve N_max M n m T mult c : mult <> 0 ->
  svt_ozr solve N_max M n m (fun a b => mult * T a b) c = svt_ozr solve N_max M n m T c.
Proof.
  intros Hm. assert (aux : forall x t p q, x * (mult * t) * (p * (/ mult * q)) = x * t * (p * q)) by (intros; field; exact Hm).
  assert (E : forall i j, svt_matrix M n m (fun a b => mult * T a b) c i j = svt_matrix M n m T c i j).
  { intros i j. unfold svt_matrix. f_equal; [f_equal|]; f_equal; f_equal; f_equal; unfold coeff_1, coeff_2; f_equal; unfold Rdiv;
      rewrite !Rinv_mult; apply aux. }
  assert (EF : svt_matrix M n m (fun a b => mult * T a b) c = svt_matrix M n m T c).
  { apply FunctionalExtensionality.functional_extensionality. intros i.
    apply FunctionalExtensionality.functional_extensionality. intros j. apply E. }
  unfold svt_ozr. now rewrite EF.
Qed.
Lemma later_oz_ext oz oz' fuel M N r mix vs ws mults : (forall mult, In mult mults -> oz mult = oz' mult) ->
  forall s it, later_cycles oz fuel M N r mix vs ws mults s it = later_cycles oz' fuel M N r mix vs ws mults s it.
Proof.
  induction mults as [|mult rest IH]; intros H s it; [reflexivity|]. cbn [later_cycles]. unfold next_cycle.
  rewrite (H mult) by now left. destruct (steps _ _ _ _ _ _ 5 s); [|reflexivity].
  destruct (while_loop _ _ _ _ _ _ _ _ _); try reflexivity. apply IH. intros p Hp. apply H. now right.
Qed.
Lemma cycles_oz_ext oz oz' fuel M N r mix vs ws tmult : (forall mult, In mult (tmult ++ [1]) -> oz mult = oz' mult) ->
  cycles oz fuel M N r mix vs ws tmult = cycles oz' fuel M N r mix vs ws tmult.
Proof.
  unfold cycles. destruct (tmult ++ [1]) as [|mult rest]; intros H; [reflexivity|]. unfold first_cycle.
  rewrite (H mult) by now left. destruct (while_loop _ _ _ _ _ _ _ _ _); try reflexivity.
  apply later_oz_ext. intros p Hp. apply H. now right.
Qed.
Theorem C133_several_temperatures :
  forall (K : consts) solve (M N N_max : nat) (r n m : nat -> R) (T : nat -> nat -> R) (mix : R),
    (1 <= M)%nat -> solver_ok N_max (M * M) solve -> good_grid N r -> 0 <= mix < 1 ->
    pos_below M m -> pos_below2 M T -> (forall a b, T a b = T b a) ->
    exists eps rho, 0 < eps /\ 0 < rho /\
      forall (V_s V_l_k : arr3) (tmult : list R) (fuel : nat),
        (2000 < fuel)%nat -> sym3 M N V_s -> sym3 M N V_l_k -> (forall mult, In mult tmult -> mult <> 0) ->
        (forall mult, In mult (tmult ++ [1]) ->
          forall a b j, (a < M)%nat -> (b < M)%nat -> (j < N)%nat ->
            Rabs (V_s a b j / (kB K * (mult * T a b))) <= eps /\ Rabs (V_l_k a b j / (kB K * (mult * T a b))) <= eps) ->
        let v := fun a b j => V_s a b j / (kB K * T a b) in
        let w := fun a b k => V_l_k a b k / (kB K * T a b) in
        exists (g : arr3) (niter : nat) (N_star : arr3),
          pair_distribution_function_SVT_HNC K solve fuel M N V_s V_l_k r T n m mix tmult N_max = Some (g, niter) /\
          sym3 M N N_star /\ hnc_solution M N r (SVT M n m T) v w N_star /\
          forall a b j, (a < M)%nat -> (b < M)%nat -> (j < N)%nat ->
            0 < g a b j /\ Rabs (N_star a b j) <= rho /\
            Rabs (ln (g a b j) - (N_star a b j - v a b j))
              <= Rmax ((1 + mix) / (1 - mix) / 1000) (2 * rho * ((1 + mix) / 2) ^ 2000).
Proof.
  intros K solve M N N_max r n m T mix HM Hs G Hmix Pm PT ST.
  destruct (weights_bound M n m T HM) as (D & HD0 & HD).
  assert (HQ : bounded_form M (svt_form M n m T) (INR (M * M) * (2 * D))).
  { apply (form_weaken M _ (INR M * (2 * D))); [|now apply svt_form_bounded]. apply Rmult_le_compat_r; [lra|]. apply le_INR. nia. }
  destruct (weak_radius (INR (M * M) * (2 * D)) N r (bf_pos _ _ _ HQ)) as (A & B & rho & HA1 & HA & HB1 & HB & Hrho & R1 & R2 & R3).
  exists (rho ^ 2), rho. split; [nra|]. split; [lra|]. intros V_s V_l_k tmult fuel Hf Sv Sw Hne Hsm v w.
  set (oz := svt_ozr solve N_max M n m T).
  assert (ST2 : sym2 M T) by (intros a b _ _; apply ST).
  assert (Hoz : forall c h, sym2 M c -> oz c = Some h -> QOZ M (svt_form M n m T) c h /\ sym2 M h) by (intros c h; now apply svt_correct).
  assert (Hoz2 : forall c, sym2 M c -> small2 M ((9 * A + 1) * rho ^ 2) c -> exists h, oz c = Some h).
  { intros c _ Hc. apply (svt_weak_total solve N_max M n m T D ((9 * A + 1) * rho ^ 2)); try assumption.
    - apply Rmult_le_pos; [lra|apply pow2_ge_0].
    - now apply (kappa_small M (svt_form M n m T) (INR (M * M) * (2 * D)) A rho). }
  set (vs := fun mult a b j => beta K T mult a b * V_s a b j). set (ws := fun mult a b m => beta K T mult a b * V_l_k a b m).
  assert (Eb : forall mult a b x, beta K T mult a b * x = x / (kB K * (mult * T a b))) by (intros; unfold beta, Rdiv; ring).
  assert (Ebeta : forall mult a b, beta K T mult a b = beta K T mult b a) by (intros; unfold beta; now rewrite ST).
  assert (Hw : forall mult, In mult (tmult ++ [1]) -> weak_at M N rho vs ws mult).
  { intros mult Hin. split; [|split; [|split]]; intros a b j Ha Hb Hj; unfold vs, ws.
    - now rewrite Ebeta, Sv.
    - now rewrite Ebeta, Sw.
    - rewrite Eb. now apply (Hsm mult Hin a b j).
    - rewrite Eb. now apply (Hsm mult Hin a b j). }
  destruct (cycles_summary oz M N r (svt_form M n m T) mix (INR (M * M) * (2 * D)) A B rho G HM Hmix HQ HA1 HA HB1 HB Hrho R1 R2 R3 Hoz Hoz2 vs ws fuel tmult Hf Hw)
    as (t & it & E & Hcl & Nf & HS & HB' & Hsol & Hn).
  exists (fun a b j => exp (log_g t a b j)), (n_iter t), Nf. split; [|split; [exact HS|split]].
  - unfold pair_distribution_function_SVT_HNC. fold vs ws.
    rewrite (cycles_oz_ext _ (fun _ => oz)); [now rewrite E|]. intros mult Hin.
    apply FunctionalExtensionality.functional_extensionality. intros c. apply svt_ozr_mult.
    apply in_app_or in Hin as [Hin|[<-|[]]]; [now apply Hne|lra].
  - assert (Ev : forall a b j, vs 1 a b j = v a b j) by (intros; unfold vs, v; rewrite Eb, Rmult_1_l; reflexivity).
    assert (Ew : forall a b j, ws 1 a b j = w a b j) by (intros; unfold ws, w; rewrite Eb, Rmult_1_l; reflexivity).
    exact (solution_ext M N r _ _ HQ _ _ _ _ Nf Ev Ew Hsol).
  - intros a b j Ha Hb Hj. split; [apply exp_pos|]. split; [now apply HB'|]. rewrite ln_exp, Hcl.
    replace (Ns t a b j - vs 1 a b j - (Nf a b j - v a b j)) with (Ns t a b j - Nf a b j); [now apply Hn|].
    unfold vs, v. rewrite Eb, Rmult_1_l. ring.
Qed.
Print Assumptions C133_several_temperatures.

(** the hypotheses can be met: two species on a grid, and an exact solver for one species *)
Definition ex_solve : nat -> (nat -> nat -> R) -> (nat -> R) -> option (list R) :=
  fun _ A b => if Req_EM_T (A O O) 0 then None else Some [b O / A O O].
Example C133_met :
  solver_ok 4 2 (fun _ _ _ => None) /\ solver_ok 0 1 ex_solve /\
  good_grid 4 (fun j => INR j + 1) /\
  sym3 2 4 (fun a b j => (INR a + 1) * (INR b + 1) / (INR j + 1) / 1000000) /\
  solver_ok 4 (2 * 2) (fun _ _ _ => None) /\ pos_below 2 (fun i => INR i + 1) /\ pos_below2 2 (fun a b => INR a + INR b + 1).
Proof.
  split; [left; lia|]. split; [right; split|split; [|split; [|split; [left; lia|split]]]].
  - intros A b x E. unfold ex_solve in E. destruct (Req_EM_T (A O O) 0) as [|Hne]; [discriminate|].
    injection E as <-. split.
    + intros v Hv i Hi. replace i with O by lia. specialize (Hv O ltac:(lia)). unfold mv in Hv. cbn in Hv.
      apply (Rmult_eq_reg_l (A O O)); [lra|exact Hne].
    + split; [reflexivity|]. intros i Hi. replace i with O by lia. cbn. field. exact Hne.
  - intros A b HR. unfold ex_solve. destruct (Req_EM_T (A O O) 0) as [H0|]; [exfalso|eauto].
    assert (H1 : (fun _ : nat => 1) O = 0); [|lra].
    refine (HR (fun _ => 1) _ O _); [|lia]. intros i Hi. replace i with O by lia. unfold mv. cbn. rewrite H0. ring.
  - split; [reflexivity|]. split; [lia|]. split; [|cbn; lra]. intros j _. pose proof (pos_INR j). lra.
  - intros a b j _ _ _. f_equal. f_equal. ring.
  - intros i _. pose proof (pos_INR i). lra.
  - intros i j _ _. pose proof (pos_INR i). pose proof (pos_INR j). lra.
Qed.
