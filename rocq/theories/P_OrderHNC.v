(** C142: the hypernetted chain does not depend on the numbering of the species. *)
From Coq Require Import Reals Lra Psatz List Lia Arith Bool.
From Coquelicot Require Import Coquelicot.
Import ListNotations.
From Verif Require Import M_Const M_Helpers L_Helpers M_HNC L_HNC L_HNC2 L_HNC3 L_OrderHNC P_HNC.
Open Scope R_scope.

Definition renT (M : nat) (p : nat -> nat) (T T' : nat -> nat -> R) : Prop := ren2 M p T T' /\ (forall a b, T a b = T b a).
Lemma beta_ren K M N p T T' V V' mult : renumbers M p -> renT M p T T' -> ren3 M N p V V' ->
  ren3 M N p (fun a b j => beta K T mult a b * V a b j) (fun a b j => beta K T' mult a b * V' a b j).
Proof. intros Hp [HT _] HV a b j Ha Hb Hj. unfold beta. now rewrite (HT a b), (HV a b j) by assumption. Qed.
Lemma beta_sym K M N T V mult : (forall a b, T a b = T b a) -> sym3 M N V -> sym3 M N (fun a b j => beta K T mult a b * V a b j).
Proof. intros HT HV a b j Ha Hb Hj. unfold beta. now rewrite (HT a b), (HV a b j) by assumption. Qed.

(** Number the species in another way ([p]), with any two exact linear solvers: whenever
    both runs end, they end after equally many iterations with the same functions. *)
Theorem C142_hnc : forall K solve solve' fuel fuel' M N N_max N_max' p V_s V_l_k V_s' V_l_k' r T T' n n' mix tmult g g' i i',
  (1 <= M)%nat -> renumbers M p -> good_solver M solve -> good_solver M solve' -> good_grid N r ->
  sym3 M N V_s -> sym3 M N V_l_k -> ren3 M N p V_s V_s' -> ren3 M N p V_l_k V_l_k' -> renT M p T T' -> ren1 M p n n' ->
  pair_distribution_function_HNC K solve fuel M N V_s V_l_k r T n mix tmult N_max = Some (g, i) ->
  pair_distribution_function_HNC K solve' fuel' M N V_s' V_l_k' r T' n' mix tmult N_max' = Some (g', i') ->
  i = i' /\ ren3 M N p g g' /\
  forall k, ren3 M N p (S_ii_HNC N k g n r) (S_ii_HNC N k g' n' r).
Proof.
  intros K solve solve' fuel fuel' M N N_max N_max' p V_s V_l_k V_s' V_l_k' r T T' n n' mix tmult g g' i i' HM Hp Hs Hs' G Sv Sw Rv Rw [RT ST] Rn E E'.
  unfold pair_distribution_function_HNC in E, E'.
  destruct (cycles (fun _ => ozr solve N_max M n) fuel M N r mix _ _ tmult) as [[s k]|] eqn:C; [|discriminate]. destruct (cycles (fun _ => ozr solve' N_max' M n') fuel' M N r mix _ _ tmult) as [[s' k']|] eqn:C'; [|discriminate].
  injection E as <- <-. injection E' as <- <-.
  assert (Q : rs M p N s s' /\ k = k').
  { refine (rs_cycles M p Hp N r mix _ _ _ _ _ _ G (fun _ => True) _ _ _ _ _ _ _ fuel fuel' tmult s s' k k' (fun _ _ => I) I C C').
    - intros _ c h _ Sc Eh. now destruct (ozr_ok solve N_max M n c h HM Hs Sc Eh) as (_ & H & _).
    - intros _ c h _ Sc Eh. now destruct (ozr_ok solve' N_max' M n' c h HM Hs' Sc Eh) as (_ & H & _).
    - intros _ c c' h h' _ Sc Rc Eh Eh'. destruct (ozr_ok solve N_max M n c h HM Hs Sc Eh) as (H1 & _ & _).
      destruct (ozr_ok solve' N_max' M n' c' h' HM Hs' (ren_sym2 M p Hp c c' Rc Sc) Eh') as (H2 & _ & H3).
      intros a b Ha Hb. exact (oz_unique M n' c' h' _ H3 H2 (OZ_ren M p Hp n n' c c' h Rn Rc H1) a b Ha Hb).
    - intros mult. now apply beta_sym.
    - intros mult. now apply beta_sym.
    - intros mult. apply beta_ren; [assumption|now split|assumption].
    - intros mult. apply beta_ren; [assumption|now split|assumption]. }
  destruct Q as [(_ & Hg & _) Hk]. split; [exact Hk|].
  assert (Hgg : ren3 M N p (fun a b j => exp (log_g s a b j)) (fun a b j => exp (log_g s' a b j))) by (intros a b j Ha Hb Hj; now rewrite (Hg a b j)).
  split; [exact Hgg|]. intros kk.
  assert (D : forall a b, (a < M)%nat -> (b < M)%nat -> delta a b = delta (p a) (p b)).
  { intros a b Ha Hb. unfold delta. destruct (Nat.eqb_spec a b), (Nat.eqb_spec (p a) (p b)); try reflexivity; [subst; contradiction|]. exfalso. apply n0. now apply (proj2 Hp). }
  destruct G as (He & HN0 & _). apply Nat.even_spec in He. destruct He as [h Eh]. assert (HN : (2 <= N)%nat) by lia.
  intros a b m Ha Hb Hm. unfold S_ii_HNC, three_d_four, fourier_transform_sine. rewrite <- (D a b Ha Hb), !(Rn _) by assumption.
  assert (X : forall m, dst4 N (fun j => r j * (exp (log_g s' a b j) - 1)) m = dst4 N (fun j => r j * (exp (log_g s (p a) (p b) j) - 1)) m \/ (N <= m)%nat).
  { intros m'. destruct (Nat.lt_ge_cases m' N) as [Hm'|]; [left|now right]. rewrite Eh, !dst4_spec by lia. apply nsum_ext. intros j Hj. now rewrite (Hgg a b j) by (assumption || lia). }
  destruct (Nat.eqb m 0); [destruct (X 1%nat) as [->|]; [reflexivity|lia]|]. destruct (X m) as [->|]; [reflexivity|lia].
Qed.
Print Assumptions C142_hnc.

(** the same for several temperatures, with masses *)
Theorem C142_hnc_temperatures : forall K solve solve' fuel fuel' M N N_max N_max' p V_s V_l_k V_s' V_l_k' r T T' n n' m m' mix tmult g g' i i',
  (1 <= M)%nat -> renumbers M p -> good_solver (M * M) solve -> good_solver (M * M) solve' -> good_grid N r -> pos_below M m -> pos_below2 M T -> (forall x, In x tmult -> 0 < x) ->
  sym3 M N V_s -> sym3 M N V_l_k -> ren3 M N p V_s V_s' -> ren3 M N p V_l_k V_l_k' -> renT M p T T' -> ren1 M p n n' -> ren1 M p m m' ->
  pair_distribution_function_SVT_HNC K solve fuel M N V_s V_l_k r T n m mix tmult N_max = Some (g, i) ->
  pair_distribution_function_SVT_HNC K solve' fuel' M N V_s' V_l_k' r T' n' m' mix tmult N_max' = Some (g', i') ->
  i = i' /\ ren3 M N p g g'.
Proof.
  intros K solve solve' fuel fuel' M N N_max N_max' p V_s V_l_k V_s' V_l_k' r T T' n n' m m' mix tmult g g' i i' HM Hp Hs Hs' G Pm PT Pt Sv Sw Rv Rw [RT ST] Rn Rm E E'.
  unfold pair_distribution_function_SVT_HNC in E, E'.
  destruct (cycles _ fuel M N r mix _ _ tmult) as [[s k]|] eqn:C; [|discriminate]. destruct (cycles _ fuel' M N r mix _ _ tmult) as [[s' k']|] eqn:C'; [|discriminate].
  injection E as <- <-. injection E' as <- <-.
  assert (Pm' : pos_below M m') by (intros a Ha; rewrite Rm by assumption; apply Pm; now apply Hp).
  assert (PTm : forall mult, 0 < mult -> pos_below2 M (fun a b => mult * T a b)) by (intros mult H0 a b Ha Hb; apply Rmult_lt_0_compat; [assumption|now apply PT]).
  assert (RTm : forall mult, ren2 M p (fun a b => mult * T a b) (fun a b => mult * T' a b)) by (intros mult a b Ha Hb; now rewrite RT by assumption).
  assert (PTm' : forall mult, 0 < mult -> pos_below2 M (fun a b => mult * T' a b)) by (intros mult H0 a b Ha Hb; rewrite (RTm mult a b Ha Hb); apply PTm; [assumption|now apply Hp|now apply Hp]).
  assert (STm : forall mult, sym2 M (fun a b => mult * T a b)) by (intros mult a b _ _; now rewrite ST).
  assert (Q : rs M p N s s' /\ k = k').
  { refine (rs_cycles M p Hp N r mix _ _ _ _ _ _ G (fun x => 0 < x) _ _ _ _ _ _ _ fuel fuel' tmult s s' k k' Pt Rlt_0_1 C C').
    - intros mult c h H0 Sc Eh. destruct (svt_spec solve N_max M n m _ c h HM Hs Pm (PTm mult H0) Eh) as [H1 H2]. exact (svt_symmetric M n m _ c h Pm (PTm mult H0) (STm mult) Sc H2 H1).
    - intros mult c h H0 Sc Eh. destruct (svt_spec solve' N_max' M n' m' _ c h HM Hs' Pm' (PTm' mult H0) Eh) as [H1 H2]. exact (svt_symmetric M n' m' _ c h Pm' (PTm' mult H0) (ren_sym2 M p Hp _ _ (RTm mult) (STm mult)) Sc H2 H1).
    - intros mult c c' h h' H0 Sc Rc Eh Eh'. destruct (svt_spec solve N_max M n m _ c h HM Hs Pm (PTm mult H0) Eh) as [H1 _].
      destruct (svt_spec solve' N_max' M n' m' _ c' h' HM Hs' Pm' (PTm' mult H0) Eh') as [H2 H3].
      intros a b Ha Hb. exact (svt_unique M n' m' _ c' h' _ Pm' (PTm' mult H0) H3 H2 (SVT_ren M p Hp n n' m m' _ _ c c' h Rn Rm (RTm mult) Rc H1) a b Ha Hb).
    - intros mult. now apply beta_sym.
    - intros mult. now apply beta_sym.
    - intros mult. apply beta_ren; [assumption|now split|assumption].
    - intros mult. apply beta_ren; [assumption|now split|assumption]. }
  destruct Q as [(_ & Hg & _ & _ & Hi) _]. split; [exact Hi|]. intros a b j Ha Hb Hj. now rewrite (Hg a b j).
Qed.
Print Assumptions C142_hnc_temperatures.

(** ** Examples *)
Example C142_hnc_ex : renumbers 2 (fun a => (1 - a)%nat) /\ renT 2 (fun a => (1 - a)%nat) (fun _ _ => 3) (fun _ _ => 3) /\ ren1 2 (fun a => (1 - a)%nat) (fun a => INR a + 1) (fun a => 2 - INR a) /\
  good_solver 2 (fun _ _ _ => None) /\ good_grid 4 (fun j => INR j + 1).
Proof.
  split; [split; intros; lia|]. split; [split; [intros a b _ _; reflexivity|reflexivity]|]. split; [intros a Ha; destruct a as [|[|a]]; [cbn; lra|cbn; lra|lia]|]. split; [discriminate|].
  split; [reflexivity|]. split; [lia|]. split; [intros j _; pose proof (pos_INR j); lra|cbn [INR]; lra].
Qed.
(** both runs end: for the ideal gas here, for every weak interaction by C133_solver *)
Example C142_hnc_ex2 : exists g g' i i',
  pair_distribution_function_HNC unit_consts (fun _ _ _ => None) 9 2 4 (fun _ _ _ => 0) (fun _ _ _ => 0) (fun j => INR j + 1) (fun _ _ => 3) (fun a => INR a + 1) (1 / 2) [4] 4 = Some (g, i) /\
  pair_distribution_function_HNC unit_consts (fun _ _ _ => None) 7 2 4 (fun _ _ _ => 0) (fun _ _ _ => 0) (fun j => INR j + 1) (fun _ _ => 3) (fun a => 2 - INR a) (1 / 2) [4] 2 = Some (g', i').
Proof.
  assert (G := proj2 (proj2 (proj2 (proj2 C142_hnc_ex)))).
  destruct (C46_ideal_gas unit_consts (fun _ _ _ => None) 9 2 4 4 (fun _ _ _ => 0) (fun _ _ _ => 0) (fun j => INR j + 1) (fun a => INR a + 1) (fun _ _ => 3) (1 / 2) [4]) as (g & E & _); try (intros; reflexivity); try lia; [exact G|].
  destruct (C46_ideal_gas unit_consts (fun _ _ _ => None) 7 2 4 2 (fun _ _ _ => 0) (fun _ _ _ => 0) (fun j => INR j + 1) (fun a => 2 - INR a) (fun _ _ => 3) (1 / 2) [4]) as (g' & E' & _); try (intros; reflexivity); try lia; [exact G|].
  exists g, g'. eexists. eexists. split; [exact E|exact E'].
Qed.
