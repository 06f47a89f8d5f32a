(** C144: the hypernetted chain with a species listed in several entries. *)
From Coq Require Import Reals Lra Psatz List Lia Arith Bool.
From Coquelicot Require Import Coquelicot.
Import ListNotations.
From Verif Require Import M_Const M_Helpers L_Helpers M_HNC L_HNC L_HNC2 L_HNC3 L_HNCWeak L_SplitHNC P_HNC.
Open Scope R_scope.

Lemma onto_le M M' (q : nat -> nat) f : (forall a, (a < M')%nat -> (q a < M)%nat) -> (forall s, (s < M)%nat -> exists a, (a < M')%nat /\ q a = s) ->
  (forall s, (s < M)%nat -> 0 <= f s) -> nsum M f <= nsum M' (fun a => f (q a)).
Proof.
  intros Hl Ho Hf. rewrite (nsum_ext M' (fun a => f (q a)) (fun a => nsum M (fun s => delta (q a) s * f s))) by (intros a Ha; now rewrite (delta_sum M (q a) f (Hl a Ha))).
  rewrite nsum_swap. apply nsum_le. intros s Hs. destruct (Ho s Hs) as (a & Ha & Ea).
  refine (Rle_trans _ _ _ _ (nsum_term M' (fun i => delta (q i) s * f s) a _ Ha)); [cbv beta; rewrite Ea; unfold delta; rewrite Nat.eqb_refl; lra|].
  intros j _. apply Rmult_le_pos; [unfold delta; destruct (Nat.eqb (q j) s); lra|now apply Hf].
Qed.

Lemma rs_goes_on M M' q n n' N t t' : entries M M' q n n' -> rs M M' q N t t' ->
  en3 M' N q (log_g t) (log_g t') /\ en3 M' N q (Ns t) (Ns t') /\ (condition M N t = true -> condition M' N t' = true).
Proof.
  intros Hq Q.
  destruct Q as (_ & Hg & HN & Ho & Hi). split; [exact Hg|]. split; [exact HN|].
  unfold condition. rewrite <- Hi. rewrite !andb_true_iff. intros [H1 H2]. split; [exact H1|].
  destruct (Rlt_dec (1 / 1000000) (total M N _)) as [L|]; [|discriminate]. destruct (Rlt_dec (1 / 1000000) (total M' N _)) as [|L']; [reflexivity|].
  exfalso. apply L'. refine (Rlt_le_trans _ _ _ L _). unfold total.
  set (F := fun a b => nsum N (fun j => (Ns t a b j - Ns_old t a b j) ^ 2)).
  assert (F0 : forall a b, 0 <= F a b) by (intros; apply nsum_nonneg; intros; apply pow2_ge_0).
  rewrite (nsum_ext M' _ (fun a => nsum M' (fun b => F (q a) (q b)))) by (intros a Ha; apply nsum_ext; intros b Hb; apply nsum_ext; intros j Hj; now rewrite HN, Ho).
  change (nsum M (fun a => nsum M (fun b => F a b)) <= nsum M' (fun a => nsum M' (fun b => F (q a) (q b)))).
  refine (Rle_trans _ _ _ (onto_le M M' q (fun a => nsum M (fun b => F a b)) (en_lt _ _ _ _ _ Hq) (en_onto _ _ _ _ _ Hq) _) _); [intros; apply nsum_nonneg; intros; apply F0|].
  apply nsum_le. intros a _. exact (onto_le M M' q (fun b => F (q a) b) (en_lt _ _ _ _ _ Hq) (en_onto _ _ _ _ _ Hq) (fun _ _ => F0 _ _)).
Qed.

(** After any number of steps from the start at one temperature, the functions of two
    entries are those of their species, and the run with the longer list goes on at
    least as long: its error is summed over more pairs. *)
Theorem C144_hnc_steps : forall K solve solve' M M' N N_max N_max' q V_s V_l_k V_s' V_l_k' r T T' n n' mix mult nst t t',
  let v := fun a b j => beta K T mult a b * V_s a b j in let w := fun a b j => beta K T mult a b * V_l_k a b j in
  let v' := fun a b j => beta K T' mult a b * V_s' a b j in let w' := fun a b j => beta K T' mult a b * V_l_k' a b j in
  (1 <= M)%nat -> (1 <= M')%nat -> entries M M' q n n' -> good_solver M solve -> good_solver M' solve' -> good_grid N r ->
  sym3 M N V_s -> sym3 M N V_l_k -> en3 M' N q V_s V_s' -> en3 M' N q V_l_k V_l_k' -> (forall a b, T a b = T b a) -> en2 M' q T T' ->
  steps (ozr solve N_max M n) N r mix v w nst (init v) = Some t ->
  steps (ozr solve' N_max' M' n') N r mix v' w' nst (init v') = Some t' ->
  en3 M' N q (log_g t) (log_g t') /\ en3 M' N q (Ns t) (Ns t') /\ (condition M N t = true -> condition M' N t' = true).
Proof.
  intros K solve solve' M M' N N_max N_max' q V_s V_l_k V_s' V_l_k' r T T' n n' mix mult nst t t' v w v' w' HM HM' Hq Hs Hs' G Sv Sw Rv Rw ST RT E E'.
  assert (SB : forall V, sym3 M N V -> sym3 M N (fun a b j => beta K T mult a b * V a b j)) by (intros V HV a b j Ha Hb Hj; unfold beta; now rewrite (ST a b), (HV a b j) by assumption).
  assert (EB : forall V V', en3 M' N q V V' -> en3 M' N q (fun a b j => beta K T mult a b * V a b j) (fun a b j => beta K T' mult a b * V' a b j)) by (intros V V' HV a b j Ha Hb Hj; unfold beta; now rewrite (RT a b), (HV a b j) by assumption).
  assert (Q : rs M M' q N t t').
  { refine (rs_steps M M' q n n' Hq N r mix (fun _ => ozr solve N_max M n) (fun _ => ozr solve' N_max' M' n') (fun _ => v) (fun _ => w) (fun _ => v') (fun _ => w') G (fun _ => True) _ _ _ _ _ _ _ mult nst I (init v) (init v') t t' _ E E').
    - intros _ c h _ Sc Eh. now destruct (ozr_ok solve N_max M n c h HM Hs Sc Eh) as (_ & H & _).
    - intros _ c h _ Sc Eh. now destruct (ozr_ok solve' N_max' M' n' c h HM' Hs' Sc Eh) as (_ & H & _).
    - intros _ c c' h h' _ Sc Rc Eh Eh'. destruct (ozr_ok solve N_max M n c h HM Hs Sc Eh) as (H1 & _ & _).
      destruct (ozr_ok solve' N_max' M' n' c' h' HM' Hs' (en_sym2 M M' q n n' Hq c c' Rc Sc) Eh') as (H2 & _ & H3).
      intros a b Ha Hb. exact (oz_unique M' n' c' h' _ H3 H2 (OZ_en M M' q n n' Hq c c' h Rc H1) a b Ha Hb).
    - intros _. now apply SB.
    - intros _. now apply SB.
    - intros _. now apply EB.
    - intros _. now apply EB.
    - exact (rs_init M M' q N (fun _ => v) (fun _ => v') (fun _ => SB _ Sv) (fun _ => EB _ _ Rv) mult). }
  exact (rs_goes_on M M' q n n' N t t' Hq Q).
Qed.
Print Assumptions C144_hnc_steps.

(** the same for several temperatures, with masses *)
Theorem C144_hnc_temperatures : forall K solve solve' M M' N N_max N_max' q V_s V_l_k V_s' V_l_k' r T T' n n' m m' mix mult nst t t',
  let v := fun a b j => beta K T mult a b * V_s a b j in let w := fun a b j => beta K T mult a b * V_l_k a b j in
  let v' := fun a b j => beta K T' mult a b * V_s' a b j in let w' := fun a b j => beta K T' mult a b * V_l_k' a b j in
  (1 <= M)%nat -> (1 <= M')%nat -> entries M M' q n n' -> good_solver (M * M) solve -> good_solver (M' * M') solve' -> good_grid N r -> pos_below M m -> pos_below2 M T -> 0 < mult ->
  sym3 M N V_s -> sym3 M N V_l_k -> en3 M' N q V_s V_s' -> en3 M' N q V_l_k V_l_k' -> (forall a b, T a b = T b a) -> en2 M' q T T' -> (forall a, (a < M')%nat -> m' a = m (q a)) ->
  steps (svt_ozr solve N_max M n m (fun a b => mult * T a b)) N r mix v w nst (init v) = Some t ->
  steps (svt_ozr solve' N_max' M' n' m' (fun a b => mult * T' a b)) N r mix v' w' nst (init v') = Some t' ->
  en3 M' N q (log_g t) (log_g t') /\ en3 M' N q (Ns t) (Ns t') /\ (condition M N t = true -> condition M' N t' = true).
Proof.
  intros K solve solve' M M' N N_max N_max' q V_s V_l_k V_s' V_l_k' r T T' n n' m m' mix mult nst t t' v w v' w' HM HM' Hq Hs Hs' G Pm PT H0 Sv Sw Rv Rw ST RT Rm E E'.
  assert (SB : forall V, sym3 M N V -> sym3 M N (fun a b j => beta K T mult a b * V a b j)) by (intros V HV a b j Ha Hb Hj; unfold beta; now rewrite (ST a b), (HV a b j) by assumption).
  assert (EB : forall V V', en3 M' N q V V' -> en3 M' N q (fun a b j => beta K T mult a b * V a b j) (fun a b j => beta K T' mult a b * V' a b j)) by (intros V V' HV a b j Ha Hb Hj; unfold beta; now rewrite (RT a b), (HV a b j) by assumption).
  assert (Hl := en_lt _ _ _ _ _ Hq).
  assert (Pm' : pos_below M' m') by (intros a Ha; rewrite Rm by assumption; apply Pm; now apply Hl).
  assert (PTm : pos_below2 M (fun a b => mult * T a b)) by (intros a b Ha Hb; apply Rmult_lt_0_compat; [assumption|now apply PT]).
  assert (RTm : en2 M' q (fun a b => mult * T a b) (fun a b => mult * T' a b)) by (intros a b Ha Hb; now rewrite RT by assumption).
  assert (PTm' : pos_below2 M' (fun a b => mult * T' a b)) by (intros a b Ha Hb; rewrite (RTm a b Ha Hb); apply PTm; now apply Hl).
  assert (STm : sym2 M (fun a b => mult * T a b)) by (intros a b _ _; now rewrite ST).
  assert (Q : rs M M' q N t t').
  { refine (rs_steps M M' q n n' Hq N r mix (fun _ => svt_ozr solve N_max M n m (fun a b => mult * T a b)) (fun _ => svt_ozr solve' N_max' M' n' m' (fun a b => mult * T' a b)) (fun _ => v) (fun _ => w) (fun _ => v') (fun _ => w') G (fun _ => True) _ _ _ _ _ _ _ mult nst I (init v) (init v') t t' _ E E').
    - intros _ c h _ Sc Eh. destruct (svt_spec solve N_max M n m _ c h HM Hs Pm PTm Eh) as [H1 H2]. exact (svt_symmetric M n m _ c h Pm PTm STm Sc H2 H1).
    - intros _ c h _ Sc Eh. destruct (svt_spec solve' N_max' M' n' m' _ c h HM' Hs' Pm' PTm' Eh) as [H1 H2]. exact (svt_symmetric M' n' m' _ c h Pm' PTm' (en_sym2 M M' q n n' Hq _ _ RTm STm) Sc H2 H1).
    - intros _ c c' h h' _ Sc Rc Eh Eh'. destruct (svt_spec solve N_max M n m _ c h HM Hs Pm PTm Eh) as [H1 _].
      destruct (svt_spec solve' N_max' M' n' m' _ c' h' HM' Hs' Pm' PTm' Eh') as [H2 H3].
      intros a b Ha Hb. exact (svt_unique M' n' m' _ c' h' _ Pm' PTm' H3 H2 (SVT_en M M' q n n' Hq m m' _ _ c c' h Rm RTm Rc H1) a b Ha Hb).
    - intros _. now apply SB.
    - intros _. now apply SB.
    - intros _. now apply EB.
    - intros _. now apply EB.
    - exact (rs_init M M' q N (fun _ => v) (fun _ => v') (fun _ => SB _ Sv) (fun _ => EB _ _ Rv) mult). }
  exact (rs_goes_on M M' q n n' N t t' Hq Q).
Qed.
Print Assumptions C144_hnc_temperatures.

Lemma loop_steps oz M N r mix v w fuel : forall s t, while_loop oz M N r mix v w fuel s = Finished t ->
  exists k, steps oz N r mix v w k s = Some t /\ condition M N t = false /\ n_iter t = (n_iter s + k)%nat /\
  forall j, (j < k)%nat -> exists u, steps oz N r mix v w j s = Some u /\ condition M N u = true.
Proof.
  induction fuel as [|fuel IH]; intros s t; cbn [while_loop]; [discriminate|].
  destruct (condition M N s) eqn:C.
  - destruct (step oz N r mix v w s) as [s1|] eqn:E; [|discriminate]. intros H. destruct (IH s1 t H) as (k & A & B & D & F). exists (S k). cbn [steps]. rewrite E.
    split; [exact A|]. split; [exact B|]. split; [rewrite D, (step_iter _ _ _ _ _ _ _ _ E); lia|].
    intros [|j] Hj; [exists s; now split|]. cbn [steps]. rewrite E. apply F. lia.
  - intros H. injection H as <-. exists 0%nat. split; [reflexivity|]. split; [exact C|]. split; [lia|]. intros j Hj. lia.
Qed.

(** Whole runs at one temperature: the longer list is iterated at least as long, and
    equally long runs end with the same functions. *)
Theorem C144_hnc_run : forall K solve solve' fuel fuel' M M' N N_max N_max' q V_s V_l_k V_s' V_l_k' r T T' n n' mix g g' i i',
  (1 <= M)%nat -> (1 <= M')%nat -> entries M M' q n n' -> good_solver M solve -> good_solver M' solve' -> good_grid N r ->
  sym3 M N V_s -> sym3 M N V_l_k -> en3 M' N q V_s V_s' -> en3 M' N q V_l_k V_l_k' -> (forall a b, T a b = T b a) -> en2 M' q T T' ->
  pair_distribution_function_HNC K solve fuel M N V_s V_l_k r T n mix [] N_max = Some (g, i) ->
  pair_distribution_function_HNC K solve' fuel' M' N V_s' V_l_k' r T' n' mix [] N_max' = Some (g', i') ->
  (i <= i')%nat /\ (i = i' -> en3 M' N q g g').
Proof.
  intros K solve solve' fuel fuel' M M' N N_max N_max' q V_s V_l_k V_s' V_l_k' r T T' n n' mix g g' i i' HM HM' Hq Hs Hs' G Sv Sw Rv Rw ST RT E E'.
  unfold pair_distribution_function_HNC, cycles in E, E'. cbn [app] in E, E'. unfold first_cycle in E, E'.
  destruct (while_loop _ M N _ _ _ _ _ _) as [s| |] eqn:W in E; try discriminate. destruct (while_loop _ M' N _ _ _ _ _ _) as [s'| |] eqn:W' in E'; try discriminate.
  cbn [later_cycles] in E, E'. injection E as <- <-. injection E' as <- <-.
  destruct (loop_steps _ _ _ _ _ _ _ _ _ _ W) as (k & A & B & D & F). destruct (loop_steps _ _ _ _ _ _ _ _ _ _ W') as (k' & A' & B' & D' & F').
  cbn [n_iter init] in D, D'. rewrite D, D', !Nat.add_0_l.
  pose proof (fun nst t t' => C144_hnc_steps K solve solve' M M' N N_max N_max' q V_s V_l_k V_s' V_l_k' r T T' n n' mix 1 nst t t' HM HM' Hq Hs Hs' G Sv Sw Rv Rw ST RT) as X. cbv zeta in X.
  split.
  - destruct (Nat.le_gt_cases k k') as [|L]; [assumption|]. exfalso. destruct (F k' L) as (u & Eu & Cu). destruct (X k' u s' Eu A') as (_ & _ & H). rewrite (H Cu) in B'. discriminate.
  - intros Hk. rewrite <- Hk in A'. destruct (X k s s' A A') as (H & _). intros a b j Ha Hb Hj. now rewrite (H a b j).
Qed.
Print Assumptions C144_hnc_run.

(** The structure factor summed over the entries, each weighted with the root of its
    density, is that summed over the species. *)
Theorem C144_total_structure_factor : forall M M' N q n n' g g' k r m,
  entries M M' q n n' -> (forall a, 0 <= n a) -> (forall a, 0 <= n' a) -> good_grid N r -> en3 M' N q g g' -> (m < N)%nat ->
  nsum M' (fun a => nsum M' (fun b => sqrt (n' a) * sqrt (n' b) * S_ii_HNC N k g' n' r a b m)) =
  nsum M (fun a => nsum M (fun b => sqrt (n a) * sqrt (n b) * S_ii_HNC N k g n r a b m)).
Proof.
  intros M M' N q n n' g g' k r m Hq Pn Pn' G Hg Hm.
  destruct G as (He & HN0 & _). apply Nat.even_spec in He. destruct He as [h Eh].
  set (m1 := if Nat.eqb m 0 then 1%nat else m). assert (Hm1 : (m1 < N)%nat) by (unfold m1; destruct (Nat.eqb m 0); lia).
  set (FT := fun a b => fourier_transform_sine N k r (fun j => g a b j - 1) m1).
  assert (X : forall L (d : nat -> R) f, (forall a, 0 <= d a) ->
    nsum L (fun a => nsum L (fun b => sqrt (d a) * sqrt (d b) * S_ii_HNC N k f d r a b m)) =
    nsum L (fun a => d a * 1) + nsum L (fun a => d a * nsum L (fun b => d b * fourier_transform_sine N k r (fun j => f a b j - 1) m1))).
  { intros L d f Pd. rewrite <- nsum_plus. apply nsum_ext. intros a Ha.
    rewrite (nsum_ext L _ (fun b => delta a b * (sqrt (d a) * sqrt (d b)) + d a * (d b * fourier_transform_sine N k r (fun j => f a b j - 1) m1))).
    - rewrite nsum_plus, nsum_scal. rewrite (delta_sum L a (fun b => sqrt (d a) * sqrt (d b)) Ha). rewrite sqrt_sqrt by apply Pd. ring.
    - intros b _. pose proof (sqrt_sqrt _ (Pd a)) as A. pose proof (sqrt_sqrt _ (Pd b)) as B.
      replace (S_ii_HNC N k f d r a b m) with (delta a b + fourier_transform_sine N k r (fun j => f a b j - 1) m1 * sqrt (d a * d b)) by (unfold S_ii_HNC, three_d_four, m1; destruct (Nat.eqb m 0); reflexivity).
      rewrite sqrt_mult by apply Pd. set (F := fourier_transform_sine N k r (fun j => f a b j - 1) m1).
      replace (d a * (d b * F)) with ((sqrt (d a) * sqrt (d a)) * ((sqrt (d b) * sqrt (d b)) * F)) by (now rewrite A, B). ring. }
  rewrite (X M' n' g' Pn'), (X M n g Pn). f_equal; [exact (en_sum M M' q n n' Hq (fun _ => 1))|].
  refine (eq_trans _ (en_sum M M' q n n' Hq (fun s => nsum M (fun b => n b * FT s b)))). apply nsum_ext. intros a Ha. f_equal.
  rewrite <- (en_sum M M' q n n' Hq (fun s => FT (q a) s)). apply nsum_ext. intros b Hb. f_equal.
  unfold FT, fourier_transform_sine. f_equal. f_equal. f_equal. subst N. rewrite !dst4_spec by lia. apply nsum_ext. intros j Hj. now rewrite (Hg a b j) by (assumption || lia).
Qed.
Print Assumptions C144_total_structure_factor.

(** ** Examples *)
(** the first of two species shared between the entries 0 and 2 *)
Example C144_ex : entries 2 3 (fun a => if Nat.eqb a 1 then 1%nat else 0%nat) (fun a => if Nat.eqb a 0 then 5 else 7) (fun a => if Nat.eqb a 0 then 2 else if Nat.eqb a 1 then 7 else 3).
Proof.
  split.
  - intros a _. destruct (Nat.eqb a 1); lia.
  - intros s Hs. destruct s as [|[|s]]; [cbn; lra|cbn; lra|lia].
  - intros s Hs. destruct s as [|[|s]]; [exists 0%nat; split; [lia|reflexivity]|exists 1%nat; split; [lia|reflexivity]|lia].
Qed.
(** two entries of one species, one step, with an interaction *)
Example C144_ex2 : good_grid 4 (fun j => INR j + 1) /\ entries 1 2 (fun _ => 0%nat) (fun _ => 5) (fun a => if Nat.eqb a 0 then 2 else 3) /\ sym3 1 4 (fun _ _ j => INR j) /\ en3 2 4 (fun _ => 0%nat) (fun _ _ j => INR j) (fun _ _ j => INR j).
Proof.
  split; [split; [reflexivity|]; split; [lia|]; split; [intros j _; pose proof (pos_INR j); lra|cbn [INR]; lra]|].
  split; [|split; intros ? ? ? _ _ _; reflexivity].
  split; [intros; lia|intros [|s] Hs; [cbn; lra|lia]|intros [|s] Hs; [exists 0%nat; split; [lia|reflexivity]|lia]].
Qed.
(** both iterations exist: for the ideal gas here *)
Example C144_ex3 : exists t t',
  steps (ozr (fun _ _ _ => None) 4 1 (fun _ => 5)) 4 (fun j => INR j + 1) (1 / 2) (fun _ _ _ => 0) (fun _ _ _ => 0) 3 (init (fun _ _ _ => 0)) = Some t /\
  steps (ozr (fun _ _ _ => None) 4 2 (fun a => if Nat.eqb a 0 then 2 else 3)) 4 (fun j => INR j + 1) (1 / 2) (fun _ _ _ => 0) (fun _ _ _ => 0) 3 (init (fun _ _ _ => 0)) = Some t'.
Proof.
  assert (Z : forall M, zero3 M 4 (fun _ _ _ => 0)) by (intros M a b j _ _ _; reflexivity).
  assert (X : forall M d, (1 <= M <= 4)%nat -> forall nst s, flat M 4 s -> exists t, steps (ozr (fun _ _ _ => None) 4 M d) 4 (fun j => INR j + 1) (1 / 2) (fun _ _ _ => 0) (fun _ _ _ => 0) nst s = Some t).
  { intros M d HM. induction nst as [|nst IH]; intros s F; [now exists s|].
    destruct (ideal_step (ozr (fun _ _ _ => None) 4 M d) M 4 (fun j => INR j + 1) (1 / 2) _ _ s (proj1 C144_ex2) (fun c Hc => ozr_ideal _ 4 M d c HM (proj2 HM) Hc) (Z M) (Z M) F) as (s1 & E & F1 & _).
    cbn [steps]. rewrite E. now apply IH. }
  destruct (X 1%nat (fun _ => 5) ltac:(lia) 3%nat _ (init_flat 1 4 _ (Z 1%nat))) as [t E]. destruct (X 2%nat (fun a => if Nat.eqb a 0 then 2 else 3) ltac:(lia) 3%nat _ (init_flat 2 4 _ (Z 2%nat))) as [t' E'].
  exists t, t'. split; [exact E|exact E'].
Qed.
Example C144_ex4 : exists g g' i i',
  pair_distribution_function_HNC unit_consts (fun _ _ _ => None) 9 1 4 (fun _ _ _ => 0) (fun _ _ _ => 0) (fun j => INR j + 1) (fun _ _ => 3) (fun _ => 5) (1 / 2) [] 4 = Some (g, i) /\
  pair_distribution_function_HNC unit_consts (fun _ _ _ => None) 7 2 4 (fun _ _ _ => 0) (fun _ _ _ => 0) (fun j => INR j + 1) (fun _ _ => 3) (fun a => if Nat.eqb a 0 then 2 else 3) (1 / 2) [] 2 = Some (g', i').
Proof.
  destruct (C46_ideal_gas unit_consts (fun _ _ _ => None) 9 1 4 4 (fun _ _ _ => 0) (fun _ _ _ => 0) (fun j => INR j + 1) (fun _ => 5) (fun _ _ => 3) (1 / 2) []) as (g & E & _); try (intros; reflexivity); try lia; [exact (proj1 C144_ex2)|].
  destruct (C46_ideal_gas unit_consts (fun _ _ _ => None) 7 2 4 2 (fun _ _ _ => 0) (fun _ _ _ => 0) (fun j => INR j + 1) (fun a => if Nat.eqb a 0 then 2 else 3) (fun _ _ => 3) (1 / 2) []) as (g' & E' & _); try (intros; reflexivity); try lia; [exact (proj1 C144_ex2)|].
  exists g, g'. eexists. eexists. split; [exact E|exact E'].
Qed.
