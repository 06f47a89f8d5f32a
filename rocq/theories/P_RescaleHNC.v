(** C141: the hypernetted chain does not depend on the system of units. *)
From Coq Require Import Reals Lra Psatz List Lia Arith Bool.
From Coquelicot Require Import Coquelicot.
Import ListNotations.
From Verif Require Import M_Const M_Helpers L_Helpers M_HNC L_HNC L_HNC2 L_HNC3 L_Rescale L_Rescale8 P_HNC.
Open Scope R_scope.

Lemma Rinv_mul' x y : / (x * y) = / x * / y.
Proof.
  destruct (Req_EM_T x 0) as [->|Hx]; [rewrite Rmult_0_l, Rinv_0; ring|]. destruct (Req_EM_T y 0) as [->|Hy]; [rewrite Rmult_0_r, Rinv_0; ring|]. now apply Rinv_mult_distr.
Qed.
Lemma beta_sc w K M N T V y mult : sc3 M N y (fun a b j => beta K T mult a b * V a b j) (fun a b j => beta (conv w K) (fun a b => T a b * uK w) mult a b * (V a b j * (uE w * y))).
Proof.
  intros a b j _ _ _. upos w. pose proof (kB_pos K). unfold beta. cbn [conv kB]. replace (kB K * (uE w / uK w) * (mult * (T a b * uK w))) with (kB K * (mult * T a b) * uE w) by (field; lra).
  unfold Rdiv. rewrite (Rinv_mul' _ (uE w)). generalize (/ (kB K * (mult * T a b))). intros z. field. lra.
Qed.
Lemma beta_sym K M N T V mult : (forall a b, T a b = T b a) -> sym3 M N V -> sym3 M N (fun a b j => beta K T mult a b * V a b j).
Proof. intros HT HV a b j Ha Hb Hj. unfold beta. now rewrite (HT a b), (HV a b j) by assumption. Qed.

(** Short-range potentials are energies, the transformed long-range ones energies times
    volumes.  Whenever both runs end, they end after equally many iterations with the same
    pair distribution functions and structure factors. *)
Theorem C141_hnc : forall (w : usys) K solve solve' fuel fuel' M N N_max N_max' V_s V_l_k r T n mix tmult g g' i i',
  (1 <= M)%nat -> good_solver M solve -> good_solver M solve' -> good_grid N r ->
  sym3 M N V_s -> sym3 M N V_l_k -> (forall a b, T a b = T b a) -> (forall a, 0 <= n a) ->
  pair_distribution_function_HNC K solve fuel M N V_s V_l_k r T n mix tmult N_max = Some (g, i) ->
  pair_distribution_function_HNC (conv w K) solve' fuel' M N (fun a b j => V_s a b j * (uE w * 1)) (fun a b m => V_l_k a b m * (uE w * uL w ^ 3)) (fun j => r j * uL w)
    (fun a b => T a b * uK w) (fun a => n a / uL w ^ 3) mix tmult N_max' = Some (g', i') ->
  i = i' /\ (forall a b j, (a < M)%nat -> (b < M)%nat -> (j < N)%nat -> g' a b j = g a b j) /\
  forall a b m k, (a < M)%nat -> (b < M)%nat -> (m < N)%nat -> (forall m, k m <> 0) ->
    S_ii_HNC N (fun m => k m / uL w) g' (fun a => n a / uL w ^ 3) (fun j => r j * uL w) a b m = S_ii_HNC N k g n r a b m.
Proof.
  intros w K solve solve' fuel fuel' M N N_max N_max' V_s V_l_k r T n mix tmult g g' i i' HM Hs Hs' G Sv Sw ST Hn E E'. pose proof (uL_pos w) as Hl.
  unfold pair_distribution_function_HNC in E, E'.
  destruct (cycles (fun _ => ozr solve N_max M n) fuel M N r mix _ _ tmult) as [[s k]|] eqn:C; [|discriminate]. destruct (cycles (fun _ => ozr solve' N_max' M _) fuel' M N _ mix _ _ tmult) as [[s' k']|] eqn:C'; [|discriminate].
  injection E as <- <-. injection E' as <- <-.
  assert (Q : rs M N s s' /\ k = k').
  { refine (rs_cycles M N (uL w) Hl r mix _ _ _ _ _ _ G (fun _ => True) _ _ _ _ _ _ _ fuel fuel' tmult s s' k k' (fun _ _ => I) I C C').
    - intros _ c h _ Sc Eh. now destruct (ozr_ok solve N_max M n c h HM Hs Sc Eh) as (_ & H & _).
    - intros _ c h _ Sc Eh. now destruct (ozr_ok solve' N_max' M _ c h HM Hs' Sc Eh) as (_ & H & _).
    - intros _ c c' h h' _ Sc Rc Eh Eh'. destruct (ozr_ok solve N_max M n c h HM Hs Sc Eh) as (H1 & _ & _).
      destruct (ozr_ok solve' N_max' M _ c' h' HM Hs' (sc_sym2 M _ c c' Rc Sc) Eh') as (H2 & _ & H3).
      intros a b Ha Hb. exact (oz_unique M _ c' h' _ H3 H2 (OZ_sc M (uL w) Hl n _ c c' h (fun _ => eq_refl) Rc H1) a b Ha Hb).
    - intros mult. now apply beta_sym.
    - intros mult. now apply beta_sym.
    - intros mult. apply beta_sc.
    - intros mult. apply beta_sc. }
  destruct Q as [(_ & Hg & _) Hk]. split; [exact Hk|].
  assert (Hgg : forall a b j, (a < M)%nat -> (b < M)%nat -> (j < N)%nat -> exp (log_g s' a b j) = exp (log_g s a b j)) by (intros a b j Ha Hb Hj; now rewrite (Hg a b j), Rmult_1_r).
  split; [exact Hgg|]. intros a b m kk Ha Hb Hm Hk0.
  destruct G as (He & HN0 & _). apply Nat.even_spec in He. destruct He as [h Eh]. assert (HN : (2 <= N)%nat) by lia.
  unfold S_ii_HNC, three_d_four, fourier_transform_sine.
  assert (X : forall m, (m < N)%nat -> dst4 N (fun j => r j * uL w * (exp (log_g s' a b j) - 1)) m = dst4 N (fun j => r j * (exp (log_g s a b j) - 1)) m * uL w).
  { intros m' Hm'. rewrite Eh, !dst4_spec by lia. rewrite <- (Rmult_comm (uL w)), <- nsum_scal. apply nsum_ext. intros j Hj. rewrite (Hgg a b j) by (assumption || lia). ring. }
  assert (Y : sqrt (n a / uL w ^ 3 * (n b / uL w ^ 3)) = sqrt (n a * n b) / uL w ^ 3).
  { replace (n a / uL w ^ 3 * (n b / uL w ^ 3)) with (n a * n b * (/ uL w ^ 3) ^ 2) by (field; lra). rewrite sqrt_sc; [reflexivity|]. apply Rlt_le, Rinv_0_lt_compat, pow_lt. exact Hl. }
  rewrite Y. destruct (Nat.eqb m 0); rewrite X by lia; f_equal; field; split; auto; lra.
Qed.
Print Assumptions C141_hnc.

Theorem C141_hnc_temperatures : forall (w : usys) K solve solve' fuel fuel' M N N_max N_max' V_s V_l_k r T n m mix tmult g g' i i',
  (1 <= M)%nat -> good_solver (M * M) solve -> good_solver (M * M) solve' -> good_grid N r -> pos_below M m -> pos_below2 M T -> (forall x, In x tmult -> 0 < x) ->
  sym3 M N V_s -> sym3 M N V_l_k -> (forall a b, T a b = T b a) ->
  pair_distribution_function_SVT_HNC K solve fuel M N V_s V_l_k r T n m mix tmult N_max = Some (g, i) ->
  pair_distribution_function_SVT_HNC (conv w K) solve' fuel' M N (fun a b j => V_s a b j * (uE w * 1)) (fun a b m => V_l_k a b m * (uE w * uL w ^ 3)) (fun j => r j * uL w)
    (fun a b => T a b * uK w) (fun a => n a / uL w ^ 3) (fun a => m a * uM w) mix tmult N_max' = Some (g', i') ->
  i = i' /\ forall a b j, (a < M)%nat -> (b < M)%nat -> (j < N)%nat -> g' a b j = g a b j.
Proof.
  intros w K solve solve' fuel fuel' M N N_max N_max' V_s V_l_k r T n m mix tmult g g' i i' HM Hs Hs' G Pm PT Pt Sv Sw ST E E'. upos w. pose proof (uL_pos w) as Hl.
  unfold pair_distribution_function_SVT_HNC in E, E'.
  destruct (cycles _ fuel M N r mix _ _ tmult) as [[s k]|] eqn:C; [|discriminate]. destruct (cycles _ fuel' M N _ mix _ _ tmult) as [[s' k']|] eqn:C'; [|discriminate].
  injection E as <- <-. injection E' as <- <-.
  assert (Pm' : pos_below M (fun a => m a * uM w)) by (intros a Ha; apply Rmult_lt_0_compat; [now apply Pm|assumption]).
  assert (PTm : forall mult, 0 < mult -> pos_below2 M (fun a b => mult * T a b)) by (intros mult H0' a b Ha Hb; apply Rmult_lt_0_compat; [assumption|now apply PT]).
  assert (PTm' : forall mult, 0 < mult -> pos_below2 M (fun a b => mult * (T a b * uK w))) by (intros mult H0' a b Ha Hb; apply Rmult_lt_0_compat; [assumption|apply Rmult_lt_0_compat; [now apply PT|assumption]]).
  assert (STm : forall mult, sym2 M (fun a b => mult * T a b)) by (intros mult a b _ _; now rewrite ST).
  assert (STm' : forall mult, sym2 M (fun a b => mult * (T a b * uK w))) by (intros mult a b _ _; now rewrite ST).
  assert (Q : rs M N s s' /\ k = k').
  { refine (rs_cycles M N (uL w) Hl r mix _ _ _ _ _ _ G (fun x => 0 < x) _ _ _ _ _ _ _ fuel fuel' tmult s s' k k' Pt Rlt_0_1 C C').
    - intros mult c h Hm Sc Eh. destruct (svt_spec solve N_max M n m _ c h HM Hs Pm (PTm mult Hm) Eh) as [H1' H2']. exact (svt_symmetric M n m _ c h Pm (PTm mult Hm) (STm mult) Sc H2' H1').
    - intros mult c h Hm Sc Eh. destruct (svt_spec solve' N_max' M _ _ _ c h HM Hs' Pm' (PTm' mult Hm) Eh) as [H1' H2']. exact (svt_symmetric M _ _ _ c h Pm' (PTm' mult Hm) (STm' mult) Sc H2' H1').
    - intros mult c c' h h' Hm Sc Rc Eh Eh'. destruct (svt_spec solve N_max M n m _ c h HM Hs Pm (PTm mult Hm) Eh) as [H1' _].
      destruct (svt_spec solve' N_max' M _ _ _ c' h' HM Hs' Pm' (PTm' mult Hm) Eh') as [H2' H3'].
      intros a b Ha Hb. refine (svt_unique M _ _ _ c' h' _ Pm' (PTm' mult Hm) H3' H2' (SVT_sc M (uL w) Hl n _ m _ _ _ c c' h (uM w) (uK w) _ _ Pm (PTm mult Hm) (fun _ => eq_refl) (fun _ => eq_refl) _ Rc H1') a b Ha Hb); try assumption. intros; cbv beta; ring.
    - intros mult. now apply beta_sym.
    - intros mult. now apply beta_sym.
    - intros mult. apply beta_sc.
    - intros mult. apply beta_sc. }
  destruct Q as [(_ & Hg & _ & _ & Hi) _]. split; [exact Hi|]. intros a b j Ha Hb Hj. now rewrite (Hg a b j), Rmult_1_r.
Qed.
Print Assumptions C141_hnc_temperatures.

(** ** Example: both runs end for the ideal gas (and, by C133_solver, for every weak interaction) *)
Definition cgs : usys.
Proof. refine (mkU 100 1000 1 3000000000 1 _ _ _ _ _); lra. Defined.
Example C141_hnc_ex : good_grid 4 (fun j => INR j + 1) /\ exists g g' i i',
  pair_distribution_function_HNC unit_consts (fun _ _ _ => None) 9 2 4 (fun _ _ _ => 0) (fun _ _ _ => 0) (fun j => INR j + 1) (fun _ _ => 3) (fun a => INR a + 1) (1 / 2) [4] 4 = Some (g, i) /\
  pair_distribution_function_HNC (conv cgs unit_consts) (fun _ _ _ => None) 7 2 4 (fun _ _ _ => 0 * (uE cgs * 1)) (fun _ _ _ => 0 * (uE cgs * uL cgs ^ 3)) (fun j => (INR j + 1) * uL cgs)
    (fun _ _ => 3 * uK cgs) (fun a => (INR a + 1) / uL cgs ^ 3) (1 / 2) [4] 2 = Some (g', i').
Proof.
  assert (G : good_grid 4 (fun j => INR j + 1)) by (split; [reflexivity|]; split; [lia|]; split; [intros j _; pose proof (pos_INR j); lra|cbn [INR]; lra]).
  split; [exact G|]. pose proof (rl_grid 4 (uL cgs) (uL_pos cgs) _ G) as G'.
  destruct (C46_ideal_gas unit_consts (fun _ _ _ => None) 9 2 4 4 (fun _ _ _ => 0) (fun _ _ _ => 0) (fun j => INR j + 1) (fun a => INR a + 1) (fun _ _ => 3) (1 / 2) [4]) as (g & E & _); try (intros; reflexivity); try lia; [exact G|].
  destruct (C46_ideal_gas (conv cgs unit_consts) (fun _ _ _ => None) 7 2 4 2 (fun _ _ _ => 0 * (uE cgs * 1)) (fun _ _ _ => 0 * (uE cgs * uL cgs ^ 3)) (rl (uL cgs) (fun j => INR j + 1)) (fun a => (INR a + 1) / uL cgs ^ 3) (fun _ _ => 3 * uK cgs) (1 / 2) [4]) as (g' & E' & _);
    try lia; [exact G'|intros; ring|intros; ring|].
  exists g, g'. eexists. eexists. split; [exact E|exact E'].
Qed.
Example C141_hnc_temperatures_ex : pos_below 2 (fun a => INR a + 1) /\ pos_below2 2 (fun a b => INR a + INR b + 1) /\ good_solver 4 (fun _ _ _ => None) /\ (forall x, In x [4; 2] -> 0 < x).
Proof. split; [intros a _; pose proof (pos_INR a); lra|]. split; [intros a b _ _; pose proof (pos_INR a); pose proof (pos_INR b); lra|]. split; [discriminate|]. intros x [<-|[<-|[]]]; lra. Qed.
