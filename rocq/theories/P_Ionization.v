(** Charge-state populations and mean charges (C52, C87-C91). *)
From Coq Require Import Reals List Bool Arith ZArith Lra Lia Psatz.
From Coquelicot Require Import Coquelicot.
From Verif Require Import M_Const M_PlasmaState M_Interp M_Helpers L_Helpers P_Helpers M_PlasmaPhysics M_Ionization L_IPD L_Ionization.
Import ListNotations.
Open Scope R_scope.

(** *** C52 *)
Theorem C52_distribution : forall log_P, log_P <> [] ->
  length (weights log_P) = length log_P /\ (forall w, In w (weights log_P) -> 0 < w) /\ sum (weights log_P) = 1 /\
  0 <= zbar log_P <= INR (length log_P) - 1 /\
  zbar log_P = sum (map2 Rmult (map INR (seq 0 (length log_P))) (weights log_P)).
Proof.
  intros P HP. unfold weights. split; [rewrite softmax_len; apply map_length|]. split; [apply softmax_pos|].
  split; [apply softmax_sum; destruct P; [congruence|discriminate]|]. split; [now apply zbar_bounds|reflexivity].
Qed.
Print Assumptions C52_distribution.

(** Between two bound neighbours the populations obey [n_(k+1) n_e / n_k = coeff_k] *)
Theorem C52_ratio_partial : forall coeff mask ne k c,
  length coeff = length mask -> (k < length mask)%nat -> nth k mask true = true -> nth (S k) mask true = true ->
  0 < ne -> 0 < c -> nth k coeff None = Some c ->
  let P := log_partition_products (map log0 coeff) mask (ln ne) in
  nth k P None <> None -> unclipped P ->
  at_ (weights P) (S k) * ne = c * at_ (weights P) k.
Proof.
  intros coeff mask ne k c HL Hk M1 M2 Hne Hc Ec P HP U.
  assert (LP : length P = S (length mask)) by (unfold P; apply lpp_len; now rewrite map_length).
  destruct (nth k P None) as [p|] eqn:Ep; [|congruence].
  assert (El : nth k (map log0 coeff) None = Some (ln c)).
  { change (@None R) with (log0 None). rewrite map_nth, Ec. unfold log0. destruct (Req_EM_T c 0); [lra|reflexivity]. }
  assert (Ep1 : nth (S k) P None = Some (p + (ln c - ln ne))) by (apply lpp_step; try assumption; now rewrite map_length).
  assert (N : forall i q, (i < length P)%nat -> nth i P None = Some q -> at_ (weights P) i = exp q / sum (map exp (map clip500 P))).
  { intros i q Hi Eq. unfold weights. rewrite softmax_nth by (now rewrite map_length). f_equal. f_equal. unfold at_.
    rewrite (nth_indep _ 0 (clip500 None)) by (now rewrite map_length). rewrite map_nth, Eq. apply clip500_id. apply U. rewrite <- Eq. now apply nth_In. }
  rewrite (N k p), (N (S k) (p + (ln c - ln ne))) by (assumption || lia).
  assert (HS : 0 < sum (map exp (map clip500 P))) by (apply sum_pos_exp; destruct P; [cbn in LP; lia|discriminate]).
  rewrite exp_plus. unfold Rminus. rewrite exp_plus, exp_Ropp, !exp_ln by assumption. field. lra.
Qed.
Print Assumptions C52_ratio_partial.
Example C52_ratio_ex : let P := log_partition_products (map log0 [Some 6; Some 2]) [true; true] (ln 3) in
  at_ (weights P) 1 * 3 = 6 * at_ (weights P) 0 /\ at_ (weights P) 2 * 3 = 2 * at_ (weights P) 1.
Proof.
  assert (B : forall x, 0 < x -> x <= 6 -> / 6 <= x -> -500 <= ln x <= 500).
  { intros x H H6 H6'. split.
    - left. rewrite <- (ln_exp (-500)). apply ln_increasing; [apply exp_pos|]. apply Rlt_le_trans with (/ 6); [|exact H6'].
      rewrite <- (Rinv_involutive (exp (-500))) by (apply Rgt_not_eq, exp_pos). apply Rinv_lt_contravar; [apply Rmult_lt_0_compat; [lra|apply Rinv_0_lt_compat, exp_pos]|].
      rewrite <- exp_Ropp. pose proof (exp_ineq1 (- -500) ltac:(lra)). lra.
    - left. rewrite <- (ln_exp 500). apply ln_increasing; [exact H|]. pose proof (exp_ineq1 500 ltac:(lra)). lra. }
  assert (U : unclipped (log_partition_products (map log0 [Some 6; Some 2]) [true; true] (ln 3))).
  { unfold log_partition_products, log0. cbn [map]. destruct (Req_EM_T 6 0); [lra|]. destruct (Req_EM_T 2 0); [lra|]. cbn. intros p [[= <-]|[[= <-]|[[= <-]|[]]]]; [lra| |].
    - replace (0 + (ln 6 - ln 3)) with (ln (6 * / 3)) by (rewrite ln_mult, ln_Rinv; lra). apply B; lra.
    - replace (0 + (ln 6 - ln 3) + (ln 2 - ln 3)) with (ln (6 * / 3 * (2 * / 3))) by (rewrite !ln_mult, !ln_Rinv; lra). apply B; lra. }
  split; apply C52_ratio_partial; try assumption; try reflexivity; try lra; try (cbn; lia).
  - cbn. discriminate.
  - unfold log_partition_products, log0. cbn [map]. destruct (Req_EM_T 6 0); [lra|]. destruct (Req_EM_T 2 0); [lra|]. cbn. discriminate.
Qed.

(** States lost to the continuum have no population to speak of *)
Theorem C52_masked : forall lc mask x k, length lc = length mask -> (k < length mask)%nat -> nth k mask true = false ->
  0 < at_ (weights (log_partition_products lc mask x)) k <= exp (-500).
Proof.
  intros lc mask x k HL Hk Hm. pose proof (lpp_len lc mask x HL) as LP. pose proof (lpp_masked lc mask x k HL Hk Hm) as EP.
  destruct (lpp_reference lc mask x HL) as (r & Hr & Er & _). set (P := log_partition_products lc mask x) in *.
  unfold weights. rewrite softmax_nth by (rewrite map_length; lia).
  assert (E1 : at_ (map clip500 P) k = -500) by (unfold at_; rewrite (nth_indep _ 0 (clip500 None)) by (rewrite map_length; lia); now rewrite map_nth, EP).
  rewrite E1. assert (S : 1 <= sum (map exp (map clip500 P))).
  { assert (I : In 1 (map exp (map clip500 P))).
    { rewrite <- exp_0. apply in_map. replace 0 with (clip500 (Some 0)) by (apply clip500_id; lra). apply in_map. rewrite <- Er. apply nth_In. lia. }
    assert (Pos : forall y, In y (map exp (map clip500 P)) -> 0 <= y) by (intros y Hy; apply in_map_iff in Hy; destruct Hy as (z & <- & _); left; apply exp_pos).
    clearbody P. clear -I Pos. generalize dependent (map exp (map clip500 P)). intros l. induction l as [|y l IH]; intros I Pos; [destruct I|]. rewrite sum_cons.
    destruct I as [->|I]; [assert (0 <= sum l) by (apply sum_nonneg; intros; apply Pos; now right); lra|].
    pose proof (Pos y (or_introl eq_refl)). pose proof (IH I (fun z Hz => Pos z (or_intror Hz))). lra. }
  pose proof (exp_pos (-500)). split; [apply Rdiv_lt_0_compat; lra|]. apply (Rmult_le_reg_r (sum (map exp (map clip500 P)))); [lra|].
  unfold Rdiv. rewrite Rmult_assoc, Rinv_l by lra. nra.
Qed.
Print Assumptions C52_masked.
Example C52_masked_ex : at_ (weights (log_partition_products [Some 7; Some 8] [false; true] 1)) 0 <= exp (-500).
Proof. apply C52_masked; cbn; auto. Qed.

(** The clip spoils the ratios: states beyond +500 are equally populated *)
Theorem C52_clip_equal : forall P j k p q, nth j P None = Some p -> nth k P None = Some q -> (j < length P)%nat -> (k < length P)%nat -> 500 <= p -> 500 <= q ->
  at_ (weights P) j = at_ (weights P) k.
Proof.
  intros P j k p q Ej Ek Hj Hk Hp Hq. unfold weights. rewrite !softmax_nth by (rewrite map_length; assumption). f_equal. f_equal. unfold at_.
  rewrite !(nth_indep _ 0 (clip500 None)) by (rewrite map_length; assumption). rewrite !map_nth, Ej, Ek. unfold clip500, clip. rewrite !Rmax_left, !Rmin_right; lra.
Qed.
Print Assumptions C52_clip_equal.
(** 26 electrons, each stage favoured by a factor [e^22] over the one before (fully
    ionised iron): the coefficients call for [n_26/n_25 = e^22], the code gives 1 *)
Theorem C52_ratio_refuted : exists coeff mask ne k c,
  length coeff = 26%nat /\ mask = repeat true 26 /\ 0 < ne /\ 1 < c /\ nth k coeff None = Some (c * ne) /\
  at_ (weights (log_partition_products (map log0 coeff) mask (ln ne))) (S k) = at_ (weights (log_partition_products (map log0 coeff) mask (ln ne))) k.
Proof.
  exists (repeat (Some (exp 22)) 26), (repeat true 26), 1, 25%nat, (exp 22).
  pose proof (exp_ineq1 22 ltac:(lra)) as E22. split; [reflexivity|]. split; [reflexivity|]. split; [lra|]. split; [lra|]. split; [cbn; f_equal; ring|].
  set (P := log_partition_products (map log0 (repeat (Some (exp 22)) 26)) (repeat true 26) (ln 1)).
  assert (G : forall n a, map log0 (repeat (Some (exp 22)) n) = repeat (Some 22) n /\
     forall k, (k <= n)%nat -> nth k (lpp_from (Some a) (repeat (Some 22) n) (repeat true n) 0) None = Some (a + 22 * INR k)).
  { induction n as [|n IH]; intros a.
    - split; [reflexivity|]. intros [|k] Hk; [cbn; f_equal; ring|lia].
    - split; [cbn [repeat map]; rewrite (proj1 (IH 0)); apply (f_equal (fun z => z :: repeat (Some 22) n))|].
      + unfold log0. destruct (Req_EM_T (exp 22) 0); [lra|]. now rewrite ln_exp.
      + intros [|k] Hk; [cbn; f_equal; ring|]. cbn [repeat]. rewrite lpp_cons. cbn [obind nth]. destruct (IH (a + (22 - 0))) as [_ N]. rewrite N by lia. f_equal. rewrite S_INR. ring. }
  destruct (G 26%nat 0) as [G1 G2].
  assert (EP : P = lpp_from (Some 0) (repeat (Some 22) 26) (repeat true 26) 0) by (unfold P; rewrite G1, ln_1; reflexivity).
  assert (LP : length P = 27%nat) by (unfold P; rewrite lpp_len; reflexivity).
  rewrite <- EP in G2. apply (C52_clip_equal P 26 25 (0 + 22 * INR 26) (0 + 22 * INR 25)); [apply G2; lia|apply G2; lia|lia|lia| |]; cbn; lra.
Qed.
Print Assumptions C52_ratio_refuted.

(** The mean charge falls with the electron density ... *)
Theorem C52_monotone_partial : forall coeff mask ne ne',
  length coeff = length mask -> upward mask -> (forall c, In c coeff -> exists r, c = Some r /\ 0 < r) -> 0 < ne <= ne' ->
  unclipped (log_partition_products (map log0 coeff) mask (ln ne)) -> unclipped (log_partition_products (map log0 coeff) mask (ln ne')) ->
  zbar (log_partition_products (map log0 coeff) mask (ln ne')) <= zbar (log_partition_products (map log0 coeff) mask (ln ne)).
Proof.
  intros coeff mask ne ne' HL Hup Hc Hne U U'. apply lpp_mono; try assumption.
  assert (Hx : ln ne <= ln ne') by (destruct Hne as [H0 [H| ->]]; [left; now apply ln_increasing|apply Rle_refl]).
  clear U U' Hup Hne. revert mask HL. induction coeff as [|c coeff IH]; intros [|m mask] HL; cbn in *; try lia. split; [|apply IH; [auto|lia]].
  intros _. destruct (Hc c (or_introl eq_refl)) as (r & -> & Hr). exists (ln r), (ln r). unfold log0. destruct (Req_EM_T r 0); [lra|]. repeat split. lra.
Qed.
Print Assumptions C52_monotone_partial.
(** ... but not where the clip acts *)
Theorem C52_monotone_refuted : exists coeff mask ne ne',
  length coeff = length mask /\ upward mask /\ (forall c, In c coeff -> exists r, c = Some r /\ 0 < r) /\ 0 < ne < ne' /\
  zbar (log_partition_products (map log0 coeff) mask (ln ne)) < zbar (log_partition_products (map log0 coeff) mask (ln ne')).
Proof.
  exists [Some (exp 600); Some (exp 600)], [true; true], 1, (exp 550). pose proof (exp_pos 600) as E6. pose proof (exp_pos 550) as E5. pose proof (exp_ineq1 550 ltac:(lra)).
  split; [reflexivity|]. split; [cbn; repeat constructor|]. split; [intros c [<-|[<-|[]]]; exists (exp 600); split; [reflexivity|exact E6|reflexivity|exact E6]|]. split; [lra|].
  rewrite !zbar_eq. unfold log_partition_products, log0. cbn [map]. destruct (Req_EM_T (exp 600) 0); [lra|]. rewrite ln_1, !ln_exp. cbn [map2 obind cumsum app map].
  assert (C1 : clip500 (Some (0 + (600 - 0))) = 500) by (unfold clip500, clip; rewrite Rmax_left, Rmin_right; lra).
  assert (C2 : clip500 (Some (0 + (600 - 0) + (600 - 0))) = 500) by (unfold clip500, clip; rewrite Rmax_left, Rmin_right; lra).
  rewrite C1, C2. rewrite !clip500_id by lra. replace (0 + (600 - 550)) with 50 by ring. replace (50 + (600 - 550)) with 100 by ring. rewrite exp_0.
  unfold wsum, sum. cbn [length seq map map2 fold_right INR]. set (a := exp 500). set (b := exp 50). assert (Eb : exp 100 = b * b) by (unfold b; rewrite <- exp_plus; f_equal; lra). rewrite Eb.
  assert (Ha : 501 < a) by (pose proof (exp_ineq1 500 ltac:(lra)); unfold a; lra). assert (Hb : 51 < b) by (pose proof (exp_ineq1 50 ltac:(lra)); unfold b; lra). clearbody a b.
  apply Rlt_trans with (3 / 2).
  - apply (Rmult_lt_reg_r (1 + (a + (a + 0)))); [lra|]. unfold Rdiv at 1. rewrite Rmult_assoc, Rinv_l by lra. lra.
  - assert (0 < b * b) by nra. apply (Rmult_lt_reg_r (1 + (b + (b * b + 0)))); [lra|]. unfold Rdiv at 2. rewrite Rmult_assoc, Rinv_l by lra. nra.
Qed.
Print Assumptions C52_monotone_refuted.

(** *** C87: the solver conserves particles and finds a neutral plasma *)
Lemma lo_hi Zs Ns bts : length Zs = length Ns -> length Ns = length bts -> Ns <> [] -> List.Forall (fun N => 0 < N) Ns -> List.Forall wf bts ->
  Zs = map (fun bt => INR (length (bt_mask bt))) bts -> List.Forall (fun bt => (0 < length (bt_mask bt))%nat) bts ->
  forall x, 0 < total_charge Ns bts x < max_ne Zs Ns.
Proof.
  intros L1 L2 Hne HN Hwf -> HZ x. clear L1. unfold total_charge, max_ne. revert Ns L2 Hne HN.
  induction Hwf as [|bt bts Hb Hwf IH]; intros [|N Ns] L2 Hne HN; cbn in L2; try lia; [congruence|]. cbn [map map2]. rewrite !sum_cons.
  inversion HN as [|? ? HN1 HN2]; subst. inversion HZ as [|? ? HZ1 HZ2]; subst.
  pose proof (zbar_strict (log_partition_products (map log0 (bt_coeff bt)) (bt_mask bt) x)) as Z.
  rewrite lpp_len in Z by (rewrite map_length; exact Hb). specialize (Z ltac:(lia)). rewrite S_INR in Z.
  set (z := zbar _) in *. set (Z1 := INR (length (bt_mask bt))) in *. assert (Hz : 0 < z < Z1) by lra.
  assert (0 < N * z < Z1 * N) by nra.
  destruct Ns as [|N2 Ns], bts as [|bt2 bts]; cbn in L2; try lia.
  - unfold sum. cbn. lra.
  - specialize (IH HZ2 (N2 :: Ns) ltac:(cbn in *; lia) ltac:(discriminate) HN2). lra.
Qed.

Theorem C87_solution : forall fuel Zs Ns bts,
  (1000 < fuel)%nat -> length Zs = length Ns -> length Ns = length bts -> Ns <> [] -> List.Forall (fun N => 0 < N) Ns -> List.Forall wf bts ->
  Zs = map (fun bt => INR (length (bt_mask bt))) bts -> List.Forall (fun bt => (0 < length (bt_mask bt))%nat) bts ->
  (** more than 1e-8 free electrons per cubic metre at that electron density *)
  / 100000000 < total_charge Ns bts (ln (/ 100000000)) ->
  exists dens ne Zm, solve_ionization fuel Zs Ns bts = Some (dens, ne, Zm) /\
    / 100000000 <= ne <= max_ne Zs Ns /\
    (** populations: positive, adding up to the density of the element *)
    (exists groups, dens = concat groups /\ length groups = length Ns /\
       forall i, (i < length Ns)%nat -> length (nth i groups []) = S (length (bt_mask (nth i bts (mkBT [] [])))) /\
         (forall n, In n (nth i groups []) -> 0 < n) /\ sum (nth i groups []) = at_ Ns i /\
         wsum 0 (nth i groups []) = at_ Ns i * at_ Zm i /\ 0 < at_ Zm i < at_ Zs i) /\
    length Zm = length Ns /\
    (** a neutral state is within the tolerance *)
    exists n, / 100000000 <= n <= max_ne Zs Ns /\ n = total_charge Ns bts (ln n) /\
      (Rabs (ne - sum (map2 Rmult Ns Zm)) <= / 100000000 \/ Rabs (ln ne - ln n) <= / 100000000 \/
       Rabs (ln ne - ln n) <= Rabs (ln (max_ne Zs Ns) - ln (/ 100000000)) / 2 ^ 1000).
Proof.
  intros fuel Zs Ns bts Hf L1 L2 Hne HN Hwf EZ HZ Hlo.
  pose proof (lo_hi Zs Ns bts L1 L2 Hne HN Hwf EZ HZ) as LH. set (lo := ln (/ 100000000)) in *. set (hi := ln (max_ne Zs Ns)).
  assert (Hmax : / 100000000 < max_ne Zs Ns) by (destruct (LH lo); lra).
  assert (Hlh : lo < hi) by (apply ln_increasing; lra).
  assert (Elo : exp lo = / 100000000) by (apply exp_ln; lra). assert (Ehi : exp hi = max_ne Zs Ns) by (apply exp_ln; lra).
  assert (Rlo : residual Ns bts lo < 0) by (unfold residual; rewrite Elo; lra).
  assert (Rhi : 0 < residual Ns bts hi) by (unfold residual; rewrite Ehi; destruct (LH hi); lra).
  assert (Hs : sign (residual Ns bts lo) <> sign (residual Ns bts hi)).
  { unfold sign. destruct (Rlt_dec (residual Ns bts lo) 0); [|lra]. destruct (Rlt_dec (residual Ns bts hi) 0); [lra|]. destruct (Rgt_dec (residual Ns bts hi) 0); lra. }
  destruct (C28_bisection (residual Ns bts) (/ 100000000) 1000 1 fuel lo hi Hs ltac:(lia)) as (p & x & i & _ & EB & _ & Hd & _ & Hx & Hi & Hstop & Hroot).
  rewrite Rmin_left, Rmax_right in * by lra.
  destruct (Hroot (fun y _ => proj2 (continuity_pt_filterlim _ _) (residual_cont Ns bts y Hwf))) as (r & Hr & Er & Hxr).
  assert (Hexp : forall y, lo <= y <= hi -> / 100000000 <= exp y <= max_ne Zs Ns).
  { intros y [A B]. rewrite <- Elo, <- Ehi. split; [destruct A as [A| ->]|destruct B as [B| ->]]; try apply Rle_refl; left; now apply exp_increasing. }
  set (P := fun bt => log_partition_products (map log0 (bt_coeff bt)) (bt_mask bt) x).
  exists (concat (map2 (fun bt N => map (fun w => N * w) (weights (P bt))) bts Ns)), (exp x), (map (fun bt => zbar (P bt)) bts).
  split. { unfold solve_ionization. rewrite L2, L1, L2, Nat.eqb_refl. cbn [andb]. fold lo hi. rewrite EB. reflexivity. }
  split; [now apply Hexp|]. split.
  - exists (map2 (fun bt N => map (fun w => N * w) (weights (P bt))) bts Ns). split; [reflexivity|]. split; [rewrite map2_length; lia|]. subst Zs.
    clear LH lo hi Hmax Hlh Elo Ehi Rlo Rhi Hs EB Hd Hx Hi Hstop Hroot Hr Er Hxr Hexp p r i Hlo Hne L1.
    revert Ns L2 HN. induction Hwf as [|bt bts Hb Hwf IH]; intros [|N Ns] L2 HN i Hi; cbn in L2, Hi; try lia. inversion HN; subst. inversion HZ; subst.
    destruct i as [|i]; [|cbn [map2 nth map]; apply (IH ltac:(assumption) Ns ltac:(lia) ltac:(assumption) i ltac:(lia))].
    cbn [map2 nth map]. unfold at_. cbn [nth].
    assert (LP : length (P bt) = S (length (bt_mask bt))) by (unfold P; apply lpp_len; now rewrite map_length).
    assert (NP : P bt <> []) by (intros E; rewrite E in LP; discriminate).
    destruct (C52_distribution (P bt) NP) as (W1 & W2 & W3 & _ & W5).
    split; [rewrite map_length; lia|]. split; [intros n Hn; apply in_map_iff in Hn; destruct Hn as (w & <- & Hw); apply Rmult_lt_0_compat; auto|].
    split; [rewrite (sum_map_scal (fun w => w)), map_id, W3; ring|]. split.
    + rewrite W5. rewrite <- W1. generalize (weights (P bt)) as l, 0%nat as j. intros l. change (forall j, wsum j (map (fun w => N * w) l) = N * wsum j l).
      induction l as [|y l IHl]; intros j; [unfold wsum, sum; cbn; ring|]. cbn [map]. rewrite !wsum_cons, IHl. ring.
    + pose proof (zbar_strict (P bt) ltac:(lia)) as Z. rewrite LP, S_INR in Z. lra.
  - split; [rewrite map_length; lia|]. exists (exp r). split; [now apply Hexp|]. rewrite !ln_exp. split; [unfold residual in Er; lra|].
    destruct Hstop as [S|[S|S]].
    + left. replace (sum (map2 Rmult Ns (map (fun bt => zbar (P bt)) bts))) with (total_charge Ns bts x); [exact S|].
      unfold total_charge. now rewrite map2_map_r.
    + right. left. rewrite Hd in S. eapply Rle_trans; [exact Hxr|exact S].
    + right. right. eapply Rle_trans; [exact Hxr|]. assert (i = 1000)%nat as -> by (destruct Hi; lia). apply Rle_refl.
Qed.
Print Assumptions C87_solution.
Lemma max_small x : 0 < x -> x <= 100000000 -> / 100000000 <= x -> -500 <= ln x <= 500.
Proof.
  intros H H6 H6'. assert (E : 100000000 < exp 500).
  { replace 500 with (125 + (125 + (125 + 125))) by lra. rewrite !exp_plus. pose proof (exp_ineq1 125 ltac:(lra)).
    assert (126 * 126 < exp 125 * exp 125) by nra. nra. }
  split.
  - left. rewrite <- (ln_exp (-500)). apply ln_increasing; [apply exp_pos|]. apply Rlt_le_trans with (/ 100000000); [|exact H6'].
    replace (-500) with (- (500)) by lra. rewrite exp_Ropp. apply Rinv_lt_contravar; [|exact E]. apply Rmult_lt_0_compat; [lra|apply exp_pos].
  - left. rewrite <- (ln_exp 500). apply ln_increasing; [exact H|]. lra.
Qed.
(** hydrogen with coefficient 1, one nucleus per cubic metre *)
Example C87_ex : exists dens ne Zm, solve_ionization 1001 [1] [1] [mkBT [Some 1] [true]] = Some (dens, ne, Zm) /\ sum dens = 1 /\ length dens = 2%nat.
Proof.
  destruct (C87_solution 1001 [1] [1] [mkBT [Some 1] [true]]) as (dens & ne & Zm & E & _ & (gr & -> & Lg & G) & _); try (cbn; lia); try discriminate; try reflexivity.
  - constructor; [lra|constructor].
  - constructor; [reflexivity|constructor].
  - constructor; [cbn; lia|constructor].
  - unfold total_charge, sum. cbn [map2 fold_right bt_coeff bt_mask]. rewrite zbar_eq. unfold log_partition_products, log0. cbn [map]. destruct (Req_EM_T 1 0); [lra|].
    cbn [map2 obind cumsum app map]. rewrite !clip500_id; [|rewrite ln_1, ln_Rinv by lra; pose proof (max_small 100000000 ltac:(lra) ltac:(lra) ltac:(lra)); lra|lra].
    unfold wsum, sum. cbn [length seq map map2 fold_right INR]. rewrite ln_1, ln_Rinv by lra. replace (0 + (0 - - ln 100000000)) with (ln 100000000) by ring. rewrite exp_0, exp_ln by lra. lra.
  - exists (concat gr), ne, Zm. split; [exact E|]. destruct gr as [|g [|? ?]]; cbn in Lg; try lia. destruct (G 0%nat ltac:(cbn; lia)) as (G1 & _ & G2 & _). cbn in G1, G2. unfold at_ in G2. cbn in G2.
    cbn [concat]. rewrite app_nil_r. split; assumption.
Qed.

(** Without clipping the neutral density is ordered like the coefficients ... *)
Definition below (bt bt' : balance_term) : Prop :=
  bt_mask bt = bt_mask bt' /\ wf bt /\ wf bt' /\ upward (bt_mask bt) /\
  forall k, (k < length (bt_mask bt))%nat -> nth k (bt_mask bt) true = true ->
    exists c c', nth k (bt_coeff bt) None = Some c /\ nth k (bt_coeff bt') None = Some c' /\ 0 < c <= c'.
Definition logP (bt : balance_term) (x : R) : list (option R) := log_partition_products (map log0 (bt_coeff bt)) (bt_mask bt) x.
Lemma below_dominated bt bt' x x' : below bt bt' -> x' <= x -> dominated (map log0 (bt_coeff bt)) (map log0 (bt_coeff bt')) (bt_mask bt) x x'.
Proof.
  destruct bt as [c m], bt' as [c' m']. unfold below, wf. cbn. intros (<- & L1 & L2 & _ & H) Hx. revert c c' L1 L2 H.
  induction m as [|b m IH]; intros [|a c] [|a' c'] L1 L2 H; cbn in *; try lia; try exact I. split.
  - intros ->. destruct (H 0%nat ltac:(lia) eq_refl) as (r & r' & E1 & E2 & P1 & P2). subst a a'. exists (ln r), (ln r'). unfold log0.
    destruct (Req_EM_T r 0); [lra|]. destruct (Req_EM_T r' 0); [lra|]. repeat split.
    assert (ln r <= ln r') by (destruct P2 as [P2| ->]; [left; now apply ln_increasing|apply Rle_refl]). lra.
  - apply IH; try lia. intros k Hk. apply (H (S k)). lia.
Qed.
Lemma below_zbar bt bt' x x' : below bt bt' -> x' <= x -> unclipped (logP bt x) -> unclipped (logP bt' x') -> zbar (logP bt x) <= zbar (logP bt' x').
Proof.
  intros B Hx U U'. pose proof (below_dominated bt bt' x x' B Hx) as D. destruct B as (E & _ & _ & Up & _). unfold logP in *. rewrite <- E in *. now apply lpp_mono.
Qed.
Lemma below_total Ns bts bts' x x' : List.Forall2 below bts bts' -> List.Forall (fun N => 0 < N) Ns -> x' <= x ->
  List.Forall (fun bt => unclipped (logP bt x)) bts -> List.Forall (fun bt => unclipped (logP bt x')) bts' ->
  total_charge Ns bts x <= total_charge Ns bts' x'.
Proof.
  intros B HN Hx. revert Ns HN. unfold total_charge. induction B as [|bt bt' bts bts' B1 B IH]; intros [|N Ns] HN U U'; try (unfold sum; cbn; lra).
  cbn [map2]. rewrite !sum_cons. inversion HN; subst. inversion U; subst. inversion U'; subst. specialize (IH Ns ltac:(assumption) ltac:(assumption) ltac:(assumption)).
  pose proof (below_zbar bt bt' x x' B1 Hx ltac:(assumption) ltac:(assumption)) as Z. unfold logP in Z. apply Rplus_le_compat; [|exact IH]. apply Rmult_le_compat_l; lra.
Qed.
Theorem C87_ordered_partial : forall Ns bts bts' n n', List.Forall2 below bts bts' -> List.Forall (fun N => 0 < N) Ns -> 0 < n -> 0 < n' ->
  n = total_charge Ns bts (ln n) -> n' = total_charge Ns bts' (ln n') ->
  List.Forall (fun bt => unclipped (logP bt (ln n))) bts -> List.Forall (fun bt => unclipped (logP bt (ln n'))) bts' ->
  n <= n'.
Proof.
  intros Ns bts bts' n n' B HN Hn Hn' E E' U U'. destruct (Rle_lt_dec n n') as [H|H]; [exact H|].
  pose proof (below_total Ns bts bts' (ln n) (ln n') B HN ltac:(left; now apply ln_increasing) U U'). lra.
Qed.
Print Assumptions C87_ordered_partial.
(** ... hence unique *)
Theorem C87_unique_partial : forall Ns bts n n', List.Forall2 below bts bts -> List.Forall (fun N => 0 < N) Ns -> 0 < n -> 0 < n' ->
  n = total_charge Ns bts (ln n) -> n' = total_charge Ns bts (ln n') ->
  List.Forall (fun bt => unclipped (logP bt (ln n))) bts -> List.Forall (fun bt => unclipped (logP bt (ln n'))) bts -> n = n'.
Proof.
  intros Ns bts n n' B HN Hn Hn' E E' U U'. apply Rle_antisym; [apply (C87_ordered_partial Ns bts bts n n')|apply (C87_ordered_partial Ns bts bts n' n)]; assumption.
Qed.
Print Assumptions C87_unique_partial.
(** hydrogen with coefficients 1/2 and 6, two nuclei: neutral at 1/2... and at 3/2 *)
Example C87_ordered_ex : List.Forall2 below [mkBT [Some (1 / 6)] [true]] [mkBT [Some (9 / 2)] [true]] /\
  1 / 2 = total_charge [2] [mkBT [Some (1 / 6)] [true]] (ln (1 / 2)) /\ 3 / 2 = total_charge [2] [mkBT [Some (9 / 2)] [true]] (ln (3 / 2)) /\
  unclipped (logP (mkBT [Some (1 / 6)] [true]) (ln (1 / 2))) /\ unclipped (logP (mkBT [Some (9 / 2)] [true]) (ln (3 / 2))).
Proof.
  assert (G : forall c n, 0 < c -> 0 < n -> / 100000000 <= c * / n <= 100000000 -> unclipped (logP (mkBT [Some c] [true]) (ln n)) /\ total_charge [2] [mkBT [Some c] [true]] (ln n) = 2 * (c / n) / (1 + c / n)).
  { intros c n Hc Hn Hr. unfold total_charge, logP, log_partition_products, log0. cbn [bt_coeff bt_mask map map2]. destruct (Req_EM_T c 0); [lra|]. cbn [map2 obind cumsum app].
    replace (0 + (ln c - ln n)) with (ln (c * / n)) by (rewrite ln_mult, ln_Rinv; try lra; now apply Rinv_0_lt_compat).
    pose proof (max_small (c * / n) ltac:(lra) ltac:(lra) ltac:(lra)) as B. split.
    - intros p [[= <-]|[[= <-]|[]]]; lra.
    - unfold sum. cbn [fold_right]. rewrite zbar_eq. cbn [map]. rewrite !clip500_id by lra. unfold wsum, sum. cbn [length seq map map2 fold_right INR].
      rewrite exp_0, exp_ln by lra. unfold Rdiv. field. split; [|lra]. nra. }
  destruct (G (1 / 6) (1 / 2)) as [U1 T1]; try lra. destruct (G (9 / 2) (3 / 2)) as [U2 T2]; try lra. rewrite T1, T2. split; [|split; [field|split; [field|split; assumption]]].
  constructor; [|constructor]. unfold below, wf. cbn. split; [reflexivity|]. split; [reflexivity|]. split; [reflexivity|]. split; [constructor|]. intros [|k] Hk _; [|lia]. exists (1 / 6), (9 / 2). split; [reflexivity|]. split; [reflexivity|lra].
Qed.

(** *** C88: the Saha relation *)
Theorem C88_saha : forall u gi gj T n_e E, 0 < T -> 0 < n_e -> 0 < gi -> 0 < gj ->
  let lam := therm_de_broglie_wl u T in
  0 < lam /\
  saha_equation u gi gj T E * gi * lam ^ 3 = 2 * gj * exp (- E / (kB u * T)) /\
  gen_saha_equation u gi gj T n_e E (kB u * T * ln (n_e * lam ^ 3 / 2)) = saha_equation u gi gj T E.
Proof.
  intros u gi gj T ne E HT Hn Hgi Hgj lam. assert (Hl : 0 < lam).
  { unfold lam, therm_de_broglie_wl. apply Rmult_lt_0_compat; [apply hbar_pos|]. apply sqrt_lt_R0. pose proof PI_RGT_0. apply Rdiv_lt_0_compat; [lra|].
    apply Rmult_lt_0_compat; [apply Rmult_lt_0_compat; [apply m_e_pos|apply kB_pos]|exact HT]. }
  pose proof (kB_pos u) as Hk. pose proof (pow_lt lam 3 Hl) as Hl3. split; [exact Hl|]. unfold saha_equation, gen_saha_equation. fold lam. split; [field; repeat split; lra|].
  replace (- (kB u * T * ln (ne * lam ^ 3 / 2)) / (1 * kB u * T)) with (- ln (ne * lam ^ 3 / 2)) by (field; split; lra).
  rewrite exp_Ropp, exp_ln by (apply Rdiv_lt_0_compat; [nra|lra]). replace (1 * kB u * T) with (kB u * T) by ring. field. repeat split; lra.
Qed.
Print Assumptions C88_saha.
Theorem C88_coefficient_ordered : forall u gi gj T T' E E', 0 < T <= T' -> 0 < gi -> 0 < gj -> 0 <= E -> E' <= E ->
  0 < saha_equation u gi gj T E <= saha_equation u gi gj T' E'.
Proof.
  intros u gi gj T T' E E' HT Hgi Hgj HE HE'. pose proof (kB_pos u) as Hk.
  assert (L : forall t, 0 < t -> 0 < therm_de_broglie_wl u t) by (intros t Ht; destruct (C88_saha u gi gj t 1 E Ht Rlt_0_1 Hgi Hgj); assumption).
  assert (LL : therm_de_broglie_wl u T' <= therm_de_broglie_wl u T).
  { unfold therm_de_broglie_wl. apply Rmult_le_compat_l; [left; apply hbar_pos|]. apply sqrt_le_1_alt. unfold Rdiv. pose proof PI_RGT_0. apply Rmult_le_compat_l; [lra|].
    pose proof (m_e_pos u). assert (0 < m_e u * kB u) by (now apply Rmult_lt_0_compat). apply Rinv_le_contravar; [nra|]. apply Rmult_le_compat_l; lra. }
  unfold saha_equation. pose proof (L T ltac:(lra)) as L1. pose proof (L T' ltac:(lra)) as L2.
  assert (G : 0 < gj / gi * 2) by (apply Rmult_lt_0_compat; [now apply Rdiv_lt_0_compat|lra]).
  assert (P1 : 0 < therm_de_broglie_wl u T' ^ 3) by (now apply pow_lt). assert (P2 : therm_de_broglie_wl u T' ^ 3 <= therm_de_broglie_wl u T ^ 3) by (apply pow_incr; lra).
  split; [apply Rmult_lt_0_compat; [apply Rdiv_lt_0_compat; [lra|now apply pow_lt]|apply exp_pos]|].
  apply Rmult_le_compat; [left; apply Rdiv_lt_0_compat; [lra|now apply pow_lt]|left; apply exp_pos| |].
  - unfold Rdiv at 1 3. apply Rmult_le_compat_l; [unfold Rdiv in G; lra|]. now apply Rinv_le_contravar.
  - assert (H : - E / (kB u * T) <= - E' / (kB u * T')).
    { assert (0 < kB u * T) by (apply Rmult_lt_0_compat; lra). assert (0 < kB u * T') by (apply Rmult_lt_0_compat; lra).
      apply Rle_trans with (- E / (kB u * T')).
      - unfold Rdiv. rewrite !Ropp_mult_distr_l_reverse. apply Ropp_le_contravar. apply Rmult_le_compat_l; [exact HE|]. apply Rinv_le_contravar; [assumption|]. apply Rmult_le_compat_l; lra.
      - unfold Rdiv. apply Rmult_le_compat_r; [left; now apply Rinv_0_lt_compat|lra]. }
    destruct H as [H| ->]; [left; now apply exp_increasing|apply Rle_refl].
Qed.
Print Assumptions C88_coefficient_ordered.
Example C88_coefficient_ex : 0 < saha_equation unit_consts 2 1 1 3 <= saha_equation unit_consts 2 1 2 2.
Proof. apply C88_coefficient_ordered; lra. Qed.

(** the balance terms of hotter or more strongly lowered elements lie above, as
    long as the same states are bound *)
Lemma pairwise_nth {A} (f : R -> R -> A) g d k : (S k < length g)%nat -> nth k (pairwise f g) d = f (at_ g k) (at_ g (S k)).
Proof.
  revert k. induction g as [|a g IH]; intros k Hk; [cbn in Hk; lia|]. destruct g as [|b g]; [cbn in Hk; lia|]. destruct k as [|k]; [reflexivity|].
  change (pairwise f (a :: b :: g)) with (f a b :: pairwise f (b :: g)). cbn [nth]. rewrite IH by (cbn in *; lia). reflexivity.
Qed.
Lemma pairwise_len {A} (f : R -> R -> A) g : length (pairwise f g) = (length g - 1)%nat.
Proof. induction g as [|a g IH]; [reflexivity|]. destruct g as [|b g]; [reflexivity|]. change (pairwise f (a :: b :: g)) with (f a b :: pairwise f (b :: g)). cbn [length] in *. rewrite IH. lia. Qed.
Lemma map2_nth {A B C} (f : A -> B -> C) l m k a b c : (k < length l)%nat -> (k < length m)%nat -> nth k (map2 f l m) c = f (nth k l a) (nth k m b).
Proof. revert m k. induction l as [|x l IH]; intros [|y m] [|k] H1 H2; cbn in *; try lia; [reflexivity|]. apply IH; lia. Qed.
Lemma sort_len l : length (sort_r l) = length l.
Proof.
  unfold sort_r. induction l as [|x l IH]; [reflexivity|]. cbn [fold_right length]. rewrite <- IH. generalize (fold_right insert_r [] l). clear. intros l. induction l as [|y l IH]; [reflexivity|].
  cbn. destruct (Rle_dec x y); [reflexivity|]. cbn. now rewrite IH.
Qed.
Theorem C88_terms_ordered : forall u g E ipd ipd' T T' bt bt',
  length g = S (length E) -> length ipd = length E -> length ipd' = length E -> (forall x, In x g -> 0 < x) -> 0 < T <= T' ->
  (forall k, at_ ipd' k <= at_ ipd k) ->
  saha_balance_term u g E ipd T = Some bt -> saha_balance_term u g E ipd' T' = Some bt' ->
  bt_mask bt = bt_mask bt' -> upward (bt_mask bt) -> below bt bt'.
Proof.
  intros u g E ipd ipd' T T' bt bt' Lg Li Li' Hg HT Hi E1 E2 Em Up. unfold saha_balance_term, shifted, ew in E1, E2. rewrite sort_len in E1, E2. rewrite Li, Nat.eqb_refl in E1. rewrite Li', Nat.eqb_refl in E2. cbn [obind] in E1, E2.
  assert (F1 : bt = mkBT (map2 (fun f e => Some (f T e)) (pairwise (saha_equation u) g) (map2 Rplus (sort_r E) ipd)) (map heaviside (map2 Rplus (sort_r E) ipd))) by congruence.
  assert (F2 : bt' = mkBT (map2 (fun f e => Some (f T' e)) (pairwise (saha_equation u) g) (map2 Rplus (sort_r E) ipd')) (map heaviside (map2 Rplus (sort_r E) ipd'))) by congruence.
  clear E1 E2. subst bt bt'. unfold below, wf. cbn [bt_mask bt_coeff] in *. pose proof (sort_len E) as Ls. pose proof (pairwise_len (saha_equation u) g) as Lp. rewrite Lg in Lp.
  assert (Lm : length (map2 Rplus (sort_r E) ipd) = length E) by (rewrite map2_length; lia).
  assert (Lm' : length (map2 Rplus (sort_r E) ipd') = length E) by (rewrite map2_length; lia).
  rewrite !map_length, !map2_length by lia.
  split; [exact Em|]. split; [lia|]. split; [lia|]. split; [exact Up|]. intros k Hk Hm.
  rewrite (nth_indep _ _ (heaviside 0)) in Hm by (rewrite map_length; lia). rewrite map_nth in Hm. rewrite (map2_nth _ _ _ _ 0 0) in Hm by lia.
  rewrite !(map2_nth _ _ _ _ (saha_equation u 0 0) 0) by lia.
  rewrite !(map2_nth _ (sort_r E) _ _ 0 0) by lia. rewrite pairwise_nth by lia. unfold heaviside in Hm. destruct (Rlt_dec 0 (nth k (sort_r E) 0 + nth k ipd 0)); [|discriminate].
  eexists _, _. split; [reflexivity|]. split; [reflexivity|]. apply C88_coefficient_ordered; try lra; try (apply Hg; apply nth_In; lia). specialize (Hi k). unfold at_ in Hi. lra.
Qed.
Print Assumptions C88_terms_ordered.
(** so does the mean charge, at every electron density the clip leaves alone *)
Theorem C88_mean_charge_partial : forall u g E ipd ipd' T T' bt bt' ne,
  length g = S (length E) -> length ipd = length E -> length ipd' = length E -> (forall x, In x g -> 0 < x) -> 0 < T <= T' ->
  (forall k, at_ ipd' k <= at_ ipd k) ->
  saha_balance_term u g E ipd T = Some bt -> saha_balance_term u g E ipd' T' = Some bt' ->
  bt_mask bt = bt_mask bt' -> upward (bt_mask bt) -> unclipped (logP bt (ln ne)) -> unclipped (logP bt' (ln ne)) ->
  zbar (logP bt (ln ne)) <= zbar (logP bt' (ln ne)).
Proof. intros. apply below_zbar; try assumption; [|apply Rle_refl]. eapply C88_terms_ordered with (E := E) (ipd := ipd) (ipd' := ipd'); eassumption. Qed.
Print Assumptions C88_mean_charge_partial.

(** without lowering the sorted energies leave an admissible mask *)
Definition sorted (l : list R) : Prop := forall i j, (i < j < length l)%nat -> at_ l i <= at_ l j.
Lemma insert_in x l y : In y (insert_r x l) <-> y = x \/ In y l.
Proof. induction l as [|z l IH]; cbn; [intuition congruence|]. destruct (Rle_dec x z); cbn; intuition congruence. Qed.
Lemma sorted_cons x l : sorted (x :: l) <-> (forall y, In y l -> x <= y) /\ sorted l.
Proof.
  split.
  - intros H. split.
    + intros y Hy. destruct (In_nth l y 0 Hy) as (k & Hk & <-). apply (H 0%nat (S k)). cbn. lia.
    + intros i j Hij. apply (H (S i) (S j)). cbn. lia.
  - intros [H1 H2] [|i] [|j] Hij; cbn in Hij; try lia; unfold at_; cbn [nth]; [apply H1, nth_In; lia|apply H2; lia].
Qed.
Lemma sort_sorted l : sorted (sort_r l).
Proof.
  induction l as [|x l IH]; [intros i j Hij; cbn in Hij; lia|]. cbn. fold (sort_r l). generalize dependent (sort_r l). clear. intros l. induction l as [|y l IH]; intros S.
  - intros i j Hij; cbn in Hij; lia.
  - cbn. destruct (Rle_dec x y) as [H|H].
    + apply sorted_cons. split; [|exact S]. apply sorted_cons in S. destruct S as [S _]. intros z [<-|Hz]; [exact H|]. specialize (S z Hz). lra.
    + apply sorted_cons in S. destruct S as [S1 S2]. apply sorted_cons. split; [|now apply IH]. intros z Hz. apply insert_in in Hz. destruct Hz as [->|Hz]; [lra|now apply S1].
Qed.
Lemma sorted_upward l : sorted l -> upward (map heaviside l).
Proof.
  induction l as [|x l IH]; intros S; [exact I|]. apply sorted_cons in S. destruct S as [S1 S2]. cbn [map upward]. unfold heaviside at 1. destruct (Rlt_dec 0 x) as [H|H]; [|now apply IH].
  apply List.Forall_forall. intros b Hb. apply in_map_iff in Hb. destruct Hb as (y & <- & Hy). unfold heaviside. specialize (S1 y Hy). destruct (Rlt_dec 0 y); [reflexivity|lra].
Qed.
Theorem C88_upward : forall u g E c T bt, saha_balance_term u g E (repeat c (length E)) T = Some bt -> upward (bt_mask bt).
Proof.
  intros u g E c T bt H. unfold saha_balance_term, shifted, ew in H. rewrite sort_len, repeat_length, Nat.eqb_refl in H. cbn [obind] in H.
  assert (F : bt_mask bt = map heaviside (map2 Rplus (sort_r E) (repeat c (length E)))) by (injection H as <-; reflexivity). rewrite F. apply sorted_upward.
  intros i j Hij. rewrite map2_length in Hij by (rewrite sort_len, repeat_length; reflexivity). rewrite sort_len in Hij. unfold at_. rewrite !(map2_nth _ _ _ _ 0 c) by (rewrite ?sort_len, ?repeat_length; lia).
  rewrite !nth_repeat. pose proof (sort_sorted E i j ltac:(rewrite sort_len; lia)). unfold at_ in *. lra.
Qed.
Print Assumptions C88_upward.
Example C88_terms_ex : exists bt bt', saha_balance_term unit_consts [1; 2; 1] [5; 3] [0; 0] 1 = Some bt /\ saha_balance_term unit_consts [1; 2; 1] [5; 3] [-1; -1] 2 = Some bt' /\
  bt_mask bt = bt_mask bt' /\ below bt bt'.
Proof.
  assert (S0 : sort_r [5; 3] = [3; 5]) by (cbn; destruct (Rle_dec 5 3); [lra|reflexivity]).
  assert (M : forall a b : R, 0 < 3 + a -> 0 < 5 + b -> map heaviside (map2 Rplus [3; 5] [a; b]) = [true; true]).
  { intros a b Ha Hb. cbn. unfold heaviside. destruct (Rlt_dec 0 (3 + a)); [|lra]. destruct (Rlt_dec 0 (5 + b)); [reflexivity|lra]. }
  assert (Q : forall i j T, saha_balance_term unit_consts [1; 2; 1] [5; 3] [i; j] T =
    Some (mkBT [Some (saha_equation unit_consts 1 2 T (3 + i)); Some (saha_equation unit_consts 2 1 T (5 + j))] (map heaviside (map2 Rplus [3; 5] [i; j])))).
  { intros i j T. unfold saha_balance_term, shifted. rewrite S0. reflexivity. }
  eexists _, _. split; [apply Q|]. split; [apply Q|]. cbn [bt_mask]. rewrite (M 0 0), (M (-1) (-1)) by lra. split; [reflexivity|].
  apply (C88_terms_ordered unit_consts [1; 2; 1] [5; 3] [0; 0] [-1; -1] 1 2); try reflexivity; try lra.
  - intros x [<-|[<-|[<-|[]]]]; lra.
  - intros [|[|[|k]]]; unfold at_; cbn; lra.
  - rewrite Q, (M 0 0) by lra. reflexivity.
  - rewrite Q, (M (-1) (-1)) by lra. reflexivity.
  - cbn. repeat constructor.
Qed.

(** *** C89: the Thomas-Fermi fit *)
Theorem C89_bounds : forall u rho T m Z, 0 < Z -> 0 < more u rho T m Z < Z.
Proof.
  intros u rho T m Z HZ. unfold more.
  cbv zeta. match goal with |- 0 < Z * ?y / _ < Z => set (x := y) end.
  assert (Hx : 0 < x) by (unfold x; apply Rmult_lt_0_compat; [lra|unfold Rpower; apply exp_pos]). clearbody x.
  assert (Hs : 0 < sqrt (1 + 2 * x)) by (apply sqrt_lt_R0; lra). assert (Hd : 0 < 1 + x + sqrt (1 + 2 * x)) by lra.
  split; [apply Rdiv_lt_0_compat; [now apply Rmult_lt_0_compat|exact Hd]|]. apply (Rmult_lt_reg_r (1 + x + sqrt (1 + 2 * x))); [exact Hd|].
  unfold Rdiv. rewrite Rmult_assoc, Rinv_l, Rmult_1_r by lra. apply Rmult_lt_compat_l; lra.
Qed.
Print Assumptions C89_bounds.
Lemma more_step_len u T ions z : length z = length ions -> length (more_step u T ions z) = length ions.
Proof. intros H. unfold more_step. apply map2_length. now symmetry. Qed.
Lemma more_step_bounds u T ions z : length z = length ions -> List.Forall (fun '(_, _, ZA) => 0 < ZA) ions ->
  List.Forall2 (fun '(_, _, ZA) y => 0 < y < ZA) ions (more_step u T ions z).
Proof.
  intros HL HZ. unfold more_step. set (ne := sum _). clearbody ne. revert z HL. induction HZ as [|[[r m] ZA] ions H HZ IH]; intros [|y z] HL; cbn in HL; try lia; [constructor|].
  cbn [map2]. constructor; [now apply C89_bounds|]. apply IH. lia.
Qed.
(** The loop ends; every mean charge lies between 0 and the nuclear charge; the
    last step changed nothing by more than 1e-5, or it was the hundredth *)
Theorem C89_loop : forall u fuel T ions, (100 < fuel)%nat -> List.Forall (fun '(_, _, ZA) => 0 < ZA) ions ->
  exists z, more_charge u fuel T ions = Some z /\ List.Forall2 (fun '(_, _, ZA) y => 0 < y < ZA) ions z /\
    exists old, z = more_step u T ions old /\ (more_err old z <= / 100000 \/ z = Nat.iter 101 (more_step u T ions) (map (fun '(_, _, ZA) => 5 / 10 * ZA) ions)).
Proof.
  intros u fuel T ions Hf HZ. unfold more_charge. set (Z0 := map _ ions). set (st := more_step u T ions).
  set (cond := fun '(old, new, i) => (if Rlt_dec (/ 100000) (more_err old new) then true else false) && Nat.ltb i 100).
  set (body := fun '(old, new, i) => (new, st new, S i)).
  assert (L0 : length Z0 = length ions) by (unfold Z0; apply map_length).
  assert (G : forall n k, (n = 100 - k)%nat -> (k <= 100)%nat -> forall f, (n < f)%nat -> let s := (Nat.iter k st Z0, Nat.iter (S k) st Z0, k) in
     exists old j, while_loop f cond body s = Some (old, st old, j) /\ length old = length ions /\ (more_err old (st old) <= / 100000 \/ st old = Nat.iter 101 st Z0)).
  { assert (Lk : forall k, length (Nat.iter k st Z0) = length ions) by (induction k as [|k IH]; [exact L0|cbn; now apply more_step_len]).
    induction n as [|n IH]; intros k En Hk f Hf'; destruct f as [|f]; try lia; cbn zeta; cbn [while_loop].
    - assert (k = 100)%nat as -> by lia. unfold cond at 1. rewrite (Nat.ltb_irrefl 100), andb_false_r. exists (Nat.iter 100 st Z0), 100%nat. split; [reflexivity|]. split; [apply Lk|]. right. reflexivity.
    - unfold cond at 1. replace (Nat.ltb k 100) with true by (symmetry; apply Nat.ltb_lt; lia). destruct (Rlt_dec (/ 100000) (more_err (Nat.iter k st Z0) (Nat.iter (S k) st Z0))) as [H|H]; cbn [andb].
      + unfold body at 2. apply (IH (S k) ltac:(lia) ltac:(lia) f ltac:(lia)).
      + exists (Nat.iter k st Z0), k. split; [reflexivity|]. split; [apply Lk|]. left. exact (Rnot_lt_le _ _ H). }
  destruct (G 100%nat 0%nat eq_refl ltac:(lia) fuel Hf) as (old & j & E & Lo & S). cbn [Nat.iter nat_rect] in E. rewrite E. exists (st old). split; [reflexivity|]. split; [now apply more_step_bounds|].
  exists old. split; [reflexivity|exact S].
Qed.
Print Assumptions C89_loop.
(** A single element gets the single-species value at its own density *)
Theorem C89_one_species : forall u fuel T rho m Z, (2 < fuel)%nat -> 0 < m -> 0 < Z -> more_charge u fuel T [(rho, m, Z)] = Some [more u rho T m Z].
Proof.
  intros u fuel T rho m Z Hf Hm HZ. assert (S : forall z, 0 < z -> more_step u T [(rho, m, Z)] [z] = [more u rho T m Z]).
  { intros z Hz. unfold more_step, sum. cbn [map2 fold_right]. replace ((rho / m * z + 0) / z * m) with rho by (field; lra). reflexivity. }
  pose proof (proj1 (C89_bounds u rho T m Z HZ)) as Hp. unfold more_charge. cbn [map]. rewrite (S (5 / 10 * Z)) by lra.
  assert (E0 : forall a, more_err [a] [a] = 0) by (intros a; unfold more_err; cbn; rewrite Rminus_diag_eq, Rabs_R0 by reflexivity; apply Rmax_left; lra).
  destruct fuel as [|[|f]]; try lia. cbn [while_loop]. destruct (Rlt_dec (/ 100000) (more_err [5 / 10 * Z] [more u rho T m Z])) as [H|H]; cbn [andb]; [|reflexivity].
  cbn [Nat.ltb Nat.leb]. rewrite (S (more u rho T m Z)), E0 by exact Hp. destruct (Rlt_dec (/ 100000) 0); [lra|]. reflexivity.
Qed.
Print Assumptions C89_one_species.
Example C89_ex : exists z, more_charge unit_consts 101 1 [(1, 1, 6); (2, 3, 1)] = Some z /\ length z = 2%nat.
Proof.
  destruct (C89_loop unit_consts 101 1 [(1, 1, 6); (2, 3, 1)] ltac:(lia)) as (z & E & B & _); [repeat (apply List.Forall_cons || apply List.Forall_nil); lra|].
  exists z. split; [exact E|]. repeat match goal with H : List.Forall2 _ _ _ |- _ => inversion H; subst; clear H end. reflexivity.
Qed.

(** *** C90: Bethe-Uhlenbeck balance with Planck-Larkin sums *)
Lemma pl_nonneg x : 0 <= exp (- x) - 1 + x.
Proof. destruct (Req_dec x 0) as [->|H]; [rewrite Ropp_0, exp_0; lra|]. pose proof (exp_ineq1 (- x) ltac:(lra)). lra. Qed.
Lemma pl_pos x : x <> 0 -> 0 < exp (- x) - 1 + x.
Proof. intros H. pose proof (exp_ineq1 (- x) ltac:(lra)). lra. Qed.
Theorem C90_partition : forall u g E T, 0 < T -> (forall x, In x g -> 0 < x) ->
  0 <= planck_larkin_partition_sum u g E T /\
  (length g = length E -> (0 < planck_larkin_partition_sum u g E T <-> exists e, In e E /\ 0 < e)).
Proof.
  intros u g E T HT Hg. pose proof (kB_pos u) as Hk. assert (HkT : 0 < T * kB u) by (now apply Rmult_lt_0_compat). unfold planck_larkin_partition_sum. revert E. induction g as [|a g IH]; intros E.
  - split; [unfold sum; cbn; lra|]. destruct E; [|discriminate]. intros _. split; [unfold sum; cbn; lra|intros (e & [] & _)].
  - destruct E as [|e E]; [split; [unfold sum; cbn; lra|discriminate]|]. cbn [map2]. rewrite sum_cons. specialize (IH (fun x Hx => Hg x (or_intror Hx)) E). destruct IH as [I1 I2]. pose proof (Hg a (or_introl eq_refl)) as Ha.
    unfold heaviside at 1 3. destruct (Rlt_dec 0 e) as [He|He].
    + assert (0 < e / (T * kB u)) by (now apply Rdiv_lt_0_compat). pose proof (pl_pos (e / (T * kB u)) ltac:(lra)) as Hp. assert (0 < a * (exp (- (e / (T * kB u))) - 1 + e / (T * kB u)) * 1) by (rewrite Rmult_1_r; now apply Rmult_lt_0_compat).
      split; [lra|]. intros _. split; [intros _; exists e; split; [now left|exact He]|intros _; lra].
    + rewrite Rmult_0_r, Rplus_0_l. split; [exact I1|]. cbn [length]. intros [=HL]. specialize (I2 HL). rewrite I2. split; intros (y & Hy & Py); exists y; (split; [|exact Py]); [now right|]. destruct Hy as [<-|Hy]; [lra|exact Hy].
Qed.
Print Assumptions C90_partition.
Example C90_partition_ex : 0 < planck_larkin_partition_sum unit_consts [2; 8] [3; -1] 1.
Proof. apply C90_partition; [lra|intros x [<-|[<-|[]]]; lra|reflexivity|]. exists 3. split; [now left|lra]. Qed.

(** One bound level of weight [g] and binding energy [E]: the coefficient exceeds that
    of the generalised Saha equation by [e^x/x], [x = E/(kB T)], instead of tending to
    it for deep levels *)
Theorem C90_saha_limit_refuted : forall u g E T n_e mu bt bt', 0 < T -> 0 < E -> 0 < g -> 0 < n_e ->
  bu_balance_term u [([g], [0])] [E] [0] T n_e mu = Some bt -> gen_saha_balance_term u [g; 1] [E] [0] T n_e mu = Some bt' ->
  let x := E / (kB u * T) in
  exists cb cs, bt_coeff bt = [Some cb] /\ bt_coeff bt' = [Some cs] /\ 0 < cs /\ (1 <= x -> cs * (exp x / x) <= cb).
Proof.
  intros u g E T ne mu bt bt' HT HE Hg Hn H1 H2 x. pose proof (kB_pos u) as Hk. assert (HkT : 0 < kB u * T) by (now apply Rmult_lt_0_compat).
  assert (Hx : 0 < x) by (unfold x; now apply Rdiv_lt_0_compat).
  unfold bu_balance_term, shifted, ew in H1. cbn -[planck_larkin_partition_sum] in H1. unfold gen_saha_balance_term, shifted, ew in H2. cbn in H2.
  set (part := planck_larkin_partition_sum u [g] [E + 0 - 0] T) in H1.
  assert (Ep : part = g * (exp (- x) - 1 + x)).
  { unfold part, planck_larkin_partition_sum, sum. cbn [map2 fold_right]. unfold heaviside. destruct (Rlt_dec 0 (E + 0 - 0)); [|lra]. replace ((E + 0 - 0) / (T * kB u)) with x by (unfold x; field; split; lra). ring. }
  pose proof (pl_pos x ltac:(lra)) as Hf. assert (Hp : 0 < part) by (rewrite Ep; now apply Rmult_lt_0_compat). clearbody part.
  unfold gen_balance_equation in H1. rewrite qdiv_some in H1 by lra.
  exists (1 / part * ne * exp (- mu / (1 * kB u * T))), (gen_saha_equation u g 1 T ne (E + 0) mu).
  split; [injection H1 as <-; reflexivity|]. split; [injection H2 as <-; reflexivity|]. pose proof (exp_pos (- mu / (1 * kB u * T))) as Hm.
  unfold gen_saha_equation. replace (- (E + 0) / (1 * kB u * T)) with (- x) by (unfold x; field; split; lra). set (em := exp (- mu / (1 * kB u * T))) in *. clearbody em.
  assert (Hgi : 0 < / g) by (now apply Rinv_0_lt_compat). pose proof (exp_pos (- x)) as Hex. split.
  - unfold Rdiv. rewrite Rmult_1_l. apply Rmult_lt_0_compat; [|exact Hm]. apply Rmult_lt_0_compat; [|exact Hex]. now apply Rmult_lt_0_compat.
  - intros H1x. replace (1 / g * ne * exp (- x) * em * (exp x / x)) with (/ g * ne * em * / x * (exp (- x) * exp x)) by (field; split; lra).
    rewrite <- exp_plus, Rplus_opp_l, exp_0, Rmult_1_r. replace (1 / part * ne * em) with (/ g * ne * em * / (exp (- x) - 1 + x)) by (rewrite Ep; field; split; lra).
    apply Rmult_le_compat_l; [left; apply Rmult_lt_0_compat; [now apply Rmult_lt_0_compat|exact Hm]|]. apply Rinv_le_contravar; [exact Hf|]. assert (exp (- x) < 1) by (rewrite <- exp_0; apply exp_increasing; lra). lra.
Qed.
Print Assumptions C90_saha_limit_refuted.
(** A gap in the bound states - the neutral atom bound, the singly charged ion not -
    takes the bare nucleus away at every electron density *)
Theorem C90_gap_refuted : exists levels energies ipd bt, bu_balance_term unit_consts levels energies ipd 1 1 0 = Some bt /\ length (bt_mask bt) = 2%nat /\
  forall x, at_ (weights (logP bt x)) 2 <= exp (-500) /\ zbar (logP bt x) <= 3 * exp (-500).
Proof.
  exists [([1], [0]); ([1], [0])], [1; 2], [- (1 / 2); -3].
  assert (S0 : sort_r [1; 2] = [1; 2]) by (cbn; destruct (Rle_dec 1 2); [reflexivity|lra]).
  set (p0 := planck_larkin_partition_sum unit_consts [1] [1 + - (1 / 2) - 0] 1).
  assert (H0 : 0 < p0) by (apply C90_partition; [lra|intros y [<-|[]]; lra|reflexivity|]; exists (1 + - (1 / 2) - 0); split; [now left|lra]).
  assert (H1 : planck_larkin_partition_sum unit_consts [1] [2 + -3 - 0] 1 = 0).
  { unfold planck_larkin_partition_sum, sum. cbn [map2 fold_right]. unfold heaviside. destruct (Rlt_dec 0 (2 + -3 - 0)); [lra|ring]. }
  exists (mkBT [Some 0; None] [true; false]). split.
  { unfold bu_balance_term, shifted. rewrite S0. cbn [ew length Nat.eqb obind map2 map fst snd app removelast pairwise]. fold p0. rewrite H1. unfold gen_balance_equation.
    rewrite (qdiv_some 0 p0) by lra. unfold qdiv. destruct (Req_EM_T 0 0); [|lra]. unfold heaviside. destruct (Rlt_dec 0 p0); [|lra]. destruct (Rlt_dec 0 0); [lra|]. do 4 f_equal. field. lra. }
  split; [reflexivity|]. intros x.
  assert (EP : logP (mkBT [Some 0; None] [true; false]) x = [Some 0; None; None]).
  { unfold logP, log_partition_products, log0. cbn [bt_coeff bt_mask map map2 obind cumsum app]. destruct (Req_EM_T 0 0); [reflexivity|lra]. }
  rewrite EP. assert (C : map clip500 [Some 0; None; None] = [0; -500; -500]) by (cbn [map]; rewrite clip500_id by lra; reflexivity).
  pose proof (exp_pos (-500)) as E5. assert (D : exp 0 + (exp (-500) + (exp (-500) + 0)) = 1 + 2 * exp (-500)) by (rewrite exp_0; ring).
  split.
  - unfold weights. rewrite C, softmax_nth by (cbn; lia). unfold at_, sum. cbn [nth map fold_right]. rewrite D. apply (Rmult_le_reg_r (1 + 2 * exp (-500))); [lra|]. unfold Rdiv. rewrite Rmult_assoc, Rinv_l by lra. nra.
  - rewrite zbar_eq, C. unfold wsum, sum. cbn [length seq map map2 fold_right INR]. rewrite D. apply (Rmult_le_reg_r (1 + 2 * exp (-500))); [lra|]. unfold Rdiv. rewrite Rmult_assoc, Rinv_l by lra. nra.
Qed.
Print Assumptions C90_gap_refuted.

(** *** C91: what the wrappers return *)
Lemma logP_nonempty bt x : logP bt x <> [].
Proof.
  unfold logP, log_partition_products. assert (C : forall a l, cumsum a l <> []) by (intros a [|y l]; discriminate).
  intros H. destruct (cumsum (Some 0) _) as [|y l] eqn:E; [exact (C _ _ E)|]. destruct (bt_mask bt); discriminate H.
Qed.
Lemma sum_app l m : sum (l ++ m) = sum l + sum m.
Proof. induction l as [|x l IH]; cbn [app]; [unfold sum at 2; cbn; ring|]. rewrite !sum_cons, IH. ring. Qed.
Theorem C91_solver_sums : forall fuel Zs Ns bts dens ne Zm, solve_ionization fuel Zs Ns bts = Some (dens, ne, Zm) ->
  sum dens = sum Ns /\ 0 < ne /\ length Zm = length Ns /\ length Zs = length Ns /\ sum (map2 Rmult Ns Zm) = total_charge Ns bts (ln ne) /\ List.Forall (fun z => 0 <= z) Zm.
Proof.
  intros fuel Zs Ns bts dens ne Zm H. unfold solve_ionization in H. destruct (Nat.eqb (length Ns) (length bts)) eqn:L; [|discriminate]. destruct (Nat.eqb (length Zs) (length Ns)) eqn:L'; [|discriminate]. cbn [andb] in H.
  apply Nat.eqb_eq in L, L'. destruct (bisection _ _ _ _ _ _ _) as [[x b]|]; [|discriminate].
  assert (E : dens = concat (map2 (fun bt N => map (fun w => N * w) (weights (logP bt x))) bts Ns) /\ ne = exp x /\ Zm = map (fun bt => zbar (logP bt x)) bts) by (unfold logP; injection H as <- <- <-; repeat split).
  clear H. destruct E as (-> & -> & ->). rewrite ln_exp. split; [|split; [apply exp_pos|split; [rewrite map_length; lia|split; [exact L'|split]]]].
  - clear L'. revert Ns L. induction bts as [|bt bts IH]; intros [|N Ns] L; cbn in L; try lia; [reflexivity|]. cbn [map2 concat]. rewrite sum_app, sum_cons. rewrite (IH Ns ltac:(lia)).
    rewrite (sum_map_scal (fun w => w)), map_id. destruct (C52_distribution (logP bt x) (logP_nonempty bt x)) as (_ & _ & -> & _). ring.
  - unfold total_charge. rewrite map2_map_r. reflexivity.
  - apply List.Forall_forall. intros z Hz. apply in_map_iff in Hz. destruct Hz as (bt & <- & _). apply (zbar_bounds _ (logP_nonempty bt x)).
Qed.
Print Assumptions C91_solver_sums.
(** [charge_distribution] holds densities: they add up to the density of the nuclei *)
Theorem C91_densities : forall u fuel ipd chem_pot n_e els T_e Ns a b c d dist Zm,
  mean_free_charge_saha u fuel ipd chem_pot n_e els T_e Ns a b c d = Some (dist, Zm) ->
  sum dist = sum Ns /\ length Zm = length els /\ List.Forall (fun z => 0 <= z) Zm.
Proof.
  intros u fuel ipd chem_pot n_e els T_e Ns a b c d dist Zm H.
  set (good := fun (r : list R * list R) => sum (fst r) = sum Ns /\ length (snd r) = length els /\ List.Forall (fun z => 0 <= z) (snd r)).
  change (good (dist, Zm)).
  assert (S0 : forall bts dd n z, solve_ionization fuel (map (fun '(Z, _, _) => INR Z) els) Ns bts = Some (dd, n, z) -> good (dd, z)).
  { intros bts dd n z Hs. destruct (C91_solver_sums _ _ _ _ _ _ _ Hs) as (A1 & _ & A2 & A3 & _ & A4). rewrite map_length in A3. unfold good. cbn. repeat split; [exact A1|exact (eq_trans A2 (eq_sym A3))|exact A4]. }
  assert (S1 : forall cl ex dd n z, solve_saha u fuel els T_e Ns cl ex = Some (dd, n, z) -> good (dd, z)).
  { intros cl ex dd n z Hs. unfold solve_saha in Hs. destruct (Nat.eqb _ _); [|discriminate]. destruct (seq_opt _) as [bts|]; [|discriminate]. cbn [obind] in Hs. eapply S0; exact Hs. }
  assert (S2 : forall ne cl mu ex dd n z, solve_gen_saha u fuel els T_e ne Ns cl mu ex = Some (dd, n, z) -> good (dd, z)).
  { intros ne cl mu ex dd n z Hs. unfold solve_gen_saha in Hs. destruct (Nat.eqb _ _); [|discriminate]. destruct (seq_opt _) as [bts|]; [|discriminate]. cbn [obind] in Hs. eapply S0; exact Hs. }
  unfold mean_free_charge_saha in H. destruct (solve_saha u fuel els T_e Ns None true) as [[[d0 n0] z0]|] eqn:E0; [|discriminate]. cbn [obind] in H. pose proof (S1 _ _ _ _ _ E0) as G0. clear E0.
  match type of H with obind (Nat.iter 6 ?f ?s0) _ = _ => set (st := f) in H; set (s := s0) in H end.
  assert (I : forall k zf dd z, Nat.iter k st s = Some (zf, dd, z) -> good (dd, z)).
  { induction k as [|k IH]; intros zf dd z Hk; [cbn in Hk; unfold s in Hk; injection Hk as _ <- <-; exact G0|]. cbn [Nat.iter nat_rect] in Hk. unfold Nat.iter in IH. set (sk := nat_rect _ _ _ k) in *. destruct sk as [[[zf0 dd0] z00]|]; [|discriminate].
    unfold st in Hk. cbn [obind] in Hk. destruct (if b then chem_pot zf0 else Some 0) as [mu|]; [|discriminate]. cbn [obind] in Hk. destruct (if a then ipd zf0 (if c then Some dd0 else None) else Some (no_lowering els)) as [cl|]; [|discriminate]. cbn [obind] in Hk.
    destruct b.
    - destruct (n_e zf0) as [ne|]; [|discriminate]. cbn [obind] in Hk. destruct (solve_gen_saha u fuel els T_e ne Ns cl mu d) as [[[d1 n1] z1]|] eqn:E1; [|discriminate]. cbn in Hk. injection Hk as _ <- <-. eapply S2; exact E1.
    - destruct (solve_saha u fuel els T_e Ns (Some cl) d) as [[[d1 n1] z1]|] eqn:E1; [|discriminate]. cbn in Hk. injection Hk as _ <- <-. eapply S1; exact E1. }
  specialize (I 6%nat). destruct (Nat.iter 6 st s) as [[[zf dd] z]|]; [|discriminate]. cbn in H. injection H as <- <-. eapply I; reflexivity.
Qed.
Print Assumptions C91_densities.
Lemma hydrogen_half N c : 0 < N -> / 100000000 <= c -> N / 2 <= total_charge [N] [mkBT [Some c] [true]] (ln (/ 100000000)).
Proof.
  intros HN Hc. unfold total_charge, sum. cbn [map2 fold_right bt_coeff bt_mask]. rewrite zbar_eq. unfold log_partition_products, log0. cbn [map]. destruct (Req_EM_T c 0); [lra|]. cbn [map2 obind cumsum app map].
  assert (L : ln (/ 100000000) <= ln c) by (destruct Hc as [Hc|<-]; [left; apply ln_increasing; lra|apply Rle_refl]).
  set (p := clip500 (Some (0 + (ln c - ln (/ 100000000))))). assert (Hp : 0 <= p).
  { unfold p, clip500, clip. apply Rmin_glb; [eapply Rle_trans; [|apply Rmax_l]; lra|lra]. }
  rewrite clip500_id by lra. unfold wsum, sum. cbn [length seq map map2 fold_right INR]. rewrite exp_0. assert (E : 1 <= exp p) by (rewrite <- exp_0; destruct Hp as [Hp|<-]; [left; now apply exp_increasing|apply Rle_refl]).
  set (q := exp p) in *. clearbody q. replace ((0 * 1 + (1 * q + 0)) / (1 + (q + 0))) with (q / (1 + q)) by (f_equal; ring). rewrite Rplus_0_r. unfold Rdiv at 1. apply Rmult_le_compat_l; [lra|].
  apply (Rmult_le_reg_r (1 + q)); [lra|]. unfold Rdiv. rewrite Rmult_assoc, Rinv_l by lra. lra.
Qed.
(** two protons per unit volume: the "fractions" add up to two *)
Theorem C91_fractions_refuted : exists els T Ns dist Zm, mean_free_charge_saha unit_consts 1001 (fun _ _ => None) (fun _ => None) (fun _ => None) els T Ns false false false true = Some (dist, Zm) /\ sum dist = 2 /\ sum dist <> 1.
Proof.
  exists [(1%nat, [2; 1], [1])], 1, [2]. set (c := saha_equation unit_consts 2 1 1 (1 + 0)).
  assert (Hc : / 100000000 <= c).
  { unfold c. replace (1 + 0) with 1 by ring. destruct (C88_saha unit_consts 2 1 1 1 1 ltac:(lra) ltac:(lra) ltac:(lra) ltac:(lra)) as (Hl & Es & _). set (lam := therm_de_broglie_wl unit_consts 1) in *.
    assert (L3 : lam <= 3).
    { unfold lam, therm_de_broglie_wl. cbn [hbar m_e kB unit_consts]. rewrite Rmult_1_l. rewrite <- (sqrt_square 3) by lra. apply sqrt_le_1_alt. pose proof PI_4. lra. }
    assert (P3 : 0 < lam ^ 3 <= 27) by (split; [now apply pow_lt|replace 27 with (3 ^ 3) by ring; apply pow_incr; lra]).
    assert (Ee : / 3 <= exp (- (1) / (kB unit_consts * 1))).
    { cbn [kB unit_consts]. replace (- (1) / (1 * 1)) with (- (1)) by field. rewrite exp_Ropp. apply Rinv_le_contravar; [apply exp_pos|]. pose proof exp_le_3. lra. }
    destruct (Rle_lt_dec (/ 100000000) (saha_equation unit_consts 2 1 1 1)) as [H|H]; [exact H|exfalso].
    assert (saha_equation unit_consts 2 1 1 1 * lam ^ 3 <= / 100000000 * 27); [|lra].
    apply Rle_trans with (/ 100000000 * lam ^ 3); [apply Rmult_le_compat_r; lra|apply Rmult_le_compat_l; lra]. }
  assert (EB : saha_balance_term unit_consts [2; 1] [1] [0] 1 = Some (mkBT [Some c] [true])).
  { unfold saha_balance_term, shifted. cbn. unfold heaviside. destruct (Rlt_dec 0 (1 + 0)); [reflexivity|lra]. }
  destruct (C87_solution 1001 [1] [2] [mkBT [Some c] [true]]) as (dens & ne & Zm & E & _); try (cbn; lia); try discriminate; try reflexivity.
  - constructor; [lra|constructor].
  - constructor; [reflexivity|constructor].
  - constructor; [cbn; lia|constructor].
  - pose proof (hydrogen_half 2 c ltac:(lra) Hc). lra.
  - exists dens, Zm.
    assert (ES : forall cl, cl = None \/ cl = Some [[0]] -> solve_saha unit_consts 1001 [(1%nat, [2; 1], [1])] 1 [2] cl true = Some (dens, ne, Zm)).
    { intros cl [->| ->]; unfold solve_saha; cbn [no_lowering map length repeat Nat.eqb map2 seq_opt]; rewrite EB; cbn [obind]; exact E. }
    destruct (C91_solver_sums _ _ _ _ _ _ _ E) as (Es & _). assert (E2 : sum [2] = 2) by (unfold sum; cbn; ring). rewrite Es, E2. split; [|split; lra].
    unfold mean_free_charge_saha. rewrite (ES None) by (now left). cbn [obind]. change (no_lowering [(1%nat, [2; 1], [1])]) with [[0]].
    cbn [Nat.iter nat_rect obind]. rewrite !(ES (Some [[0]])) by (now right). reflexivity.
Qed.
Print Assumptions C91_fractions_refuted.
(** calculate_charge_state_distribution does normalise *)
Theorem C91_fractions : forall sol, sum sol <> 0 -> sum (fractions sol) = 1.
Proof. intros sol H. unfold fractions. rewrite (sum_map_div (fun n => n)), map_id. field. exact H. Qed.
Print Assumptions C91_fractions.
Example C91_fractions_ex : sum (fractions [1; 3]) = 1.
Proof. apply C91_fractions. cbn. lra. Qed.
