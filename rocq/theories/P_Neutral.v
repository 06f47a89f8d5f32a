(** C87: the clipping of the logarithms to [-500, 500] (ionization.py:405) costs the
    uniqueness of the neutral density. *)
From Coq Require Import Reals List Bool Arith ZArith Lra Lia Psatz.
From Coquelicot Require Import Coquelicot.
From Verif Require Import M_Const M_PlasmaState M_Interp M_Helpers L_Helpers P_Helpers M_PlasmaPhysics M_Ionization L_IPD L_Ionization P_Ionization.
Import ListNotations.
Open Scope R_scope.

(** 26 electrons: the ions with charge 8 and 26 are by far the most frequent ones.  The
    logarithms of the coefficients; those of the products are 500 - 8 x for the charge 8,
    700 - 26 x for the charge 26 and -1000 - k x for the others but 0. *)
Definition two_peaks : list R := [-1000; 0; 0; 0; 0; 0; 0; 1500; -1500; 0; 0; 0; 0; 0; 0; 0; 0; 0; 0; 0; 0; 0; 0; 0; 0; 1700].
Definition peaks : balance_term := mkBT (map (fun l => Some (exp l)) two_peaks) (map (fun _ => true) two_peaks).
Lemma log0_exp l : log0 (Some (exp l)) = Some l.
Proof. unfold log0. pose proof (exp_pos l). destruct (Req_EM_T (exp l) 0); [lra|]. now rewrite ln_exp. Qed.
Lemma clip_low p : p <= -500 -> clip500 (Some p) = -500.
Proof. intros H. unfold clip500, clip. rewrite Rmax_right, Rmin_left by lra. reflexivity. Qed.
Lemma clip_high p : 500 <= p -> clip500 (Some p) = 500.
Proof. intros H. unfold clip500, clip. rewrite Rmax_left, Rmin_right by lra. reflexivity. Qed.
Lemma peaks_zbar x q : -2 <= x <= 3 / 10 -> clip500 (Some (500 - 8 * x)) = q ->
  zbar (logP peaks x) = (8 * exp q + 26 * exp 500 + 317 * exp (-500)) / (1 + exp q + exp 500 + 24 * exp (-500)).
Proof.
  intros Hx <-. rewrite zbar_eq. unfold logP, peaks, log_partition_products, two_peaks. cbn [bt_coeff bt_mask map]. rewrite !log0_exp. cbn [map2 obind cumsum app map].
  match goal with |- wsum 0 ?l / sum ?l' = _ => set (L := l) end.
  assert (EL : L = [exp 0; exp (-500); exp (-500); exp (-500); exp (-500); exp (-500); exp (-500); exp (-500); exp (clip500 (Some (500 - 8 * x))); exp (-500); exp (-500); exp (-500); exp (-500); exp (-500); exp (-500); exp (-500); exp (-500); exp (-500); exp (-500); exp (-500); exp (-500); exp (-500); exp (-500); exp (-500); exp (-500); exp (-500); exp 500]).
  { unfold L. repeat apply f_equal2; try reflexivity; f_equal.
    all: try (rewrite clip500_id; lra). all: try (apply clip_low; lra). all: try (apply clip_high; lra). f_equal. f_equal. ring. }
  rewrite EL. unfold wsum, sum. cbn [length seq map map2 fold_right]. rewrite !INR_IZR_INZ. cbn [Z.of_nat Pos.of_succ_nat Pos.succ]. rewrite exp_0. set (a := exp (-500)). set (b := exp (clip500 _)). set (c := exp 500).
  f_equal; ring.
Qed.
Lemma exp_small : 0 < exp (-500) /\ exp (-500) * exp 500 = 1 /\ 10 ^ 6 <= exp 500.
Proof.
  split; [apply exp_pos|]. split; [rewrite <- exp_plus; replace (-500 + 500) with 0 by lra; apply exp_0|].
  replace 500 with (125 + (125 + (125 + 125))) by lra. rewrite !exp_plus. pose proof (exp_ineq1 125 ltac:(lra)). assert (126 * 126 <= exp 125 * exp 125) by nra. nra.
Qed.
Definition cs : list R := [2 / 35].
Lemma peaks_total x : total_charge cs [peaks] x = 2 / 35 * zbar (logP peaks x).
Proof. unfold total_charge, cs, sum, logP. cbn [map2 fold_right]. ring. Qed.
Lemma peaks_root a b : a < b -> residual cs [peaks] a * residual cs [peaks] b < 0 -> exists n, exp a < n < exp b /\ n = total_charge cs [peaks] (ln n).
Proof.
  intros Hab Hs. assert (W : List.Forall wf [peaks]) by (constructor; [reflexivity|constructor]).
  assert (C : continuity (residual cs [peaks])) by (intros y; apply (proj2 (continuity_pt_filterlim _ _)); now apply residual_cont).
  assert (exists r, a < r < b /\ residual cs [peaks] r = 0) as (r & Hr & Er).
  { set (f := residual cs [peaks]) in *. destruct (Rlt_dec (f a) 0) as [Ha|Ha].
    - assert (Hb : 0 < f b) by nra. destruct (IVT f a b C Hab Ha Hb) as (r & [A B] & E). exists r. split; [|exact E].
      split; [destruct A as [A|A]; [exact A|subst r; lra]|destruct B as [B|B]; [exact B|subst r; lra]].
    - assert (Ha' : f a <> 0) by (intros E; rewrite E, Rmult_0_l in Hs; lra). assert (Ha2 : 0 < f a) by lra. assert (Hb : f b < 0) by nra.
      destruct (IVT (fun x => - f x) a b (continuity_opp _ C) Hab ltac:(lra) ltac:(lra)) as (r & [A B] & E). exists r. assert (f r = 0) by lra. split; [|assumption].
      split; [destruct A as [A|A]; [exact A|subst r; lra]|destruct B as [B|B]; [exact B|subst r; lra]]. }
  exists (exp r). rewrite ln_exp. split; [split; now apply exp_increasing|]. unfold residual in Er. lra.
Qed.
Lemma powers a b k : 0 < a -> a <= b -> a ^ k <= b ^ k.
Proof. intros Ha Hab. apply pow_incr. lra. Qed.
Lemma exp_03 : exp (3 / 10) <= 1359 / 1000 /\ 81 / 10 <= exp (24 / 10).
Proof.
  split.
  - set (t := exp (- (3 / 80))). assert (T : exp (3 / 10) * t ^ 8 = 1). { unfold t. rewrite <- Rpower_pow by apply exp_pos. unfold Rpower. rewrite ln_exp, <- exp_plus. replace (3 / 10 + INR 8 * - (3 / 80)) with 0 by (cbn; field). apply exp_0. }
    pose proof (exp_ineq1 (- (3 / 80)) ltac:(lra)) as Q. fold t in Q. pose proof (powers (77 / 80) t 8 ltac:(lra) ltac:(lra)) as W. assert (7363 / 10000 <= (77 / 80) ^ 8) by lra. pose proof (exp_pos (3 / 10)). nra.
  - set (t := exp (3 / 10)). assert (T : exp (24 / 10) = t ^ 8). { unfold t. rewrite <- Rpower_pow by apply exp_pos. unfold Rpower. rewrite ln_exp. f_equal. cbn. field. }
    pose proof (exp_ineq1 (3 / 10) ltac:(lra)) as Q. fold t in Q. pose proof (powers (13 / 10) t 8 ltac:(lra) ltac:(lra)) as W. assert (81 / 10 <= (13 / 10) ^ 8) by lra. lra.
Qed.
Theorem C87_unique_refuted : exists Ns bts n n', List.Forall2 below bts bts /\ List.Forall (fun N => 0 < N) Ns /\ length Ns = length bts /\ / 2 < n < 1 /\ 1 < n' < 2 /\
  n = total_charge Ns bts (ln n) /\ n' = total_charge Ns bts (ln n').
Proof.
  exists cs, [peaks]. destruct exp_small as (E1 & E2 & E3). destruct exp_03 as (X3 & X24).
  assert (L1 : exp (-500) <= / 10 ^ 6) by (apply (Rmult_le_reg_r (exp 500)); [lra|]; rewrite E2; apply (Rmult_le_reg_l (10 ^ 6)); [lra|]; rewrite <- Rmult_assoc, Rinv_r by lra; lra).
  assert (Xm : / 2 < exp (- (1 / 2)) < 7 / 10). { split; [pose proof (exp_ineq1 (- (1 / 2)) ltac:(lra)); lra|]. pose proof (exp_ineq1 (1 / 2) ltac:(lra)). assert (exp (- (1 / 2)) * exp (1 / 2) = 1) by (rewrite <- exp_plus; replace (- (1 / 2) + 1 / 2) with 0 by lra; apply exp_0). pose proof (exp_pos (- (1 / 2))). nra. }
  assert (Zq : forall x, -2 <= x <= 0 -> 169 / 10 < zbar (logP peaks x) < 171 / 10).
  { intros x Hx. rewrite (peaks_zbar x 500) by (try lra; apply clip_high; lra). set (h := exp 500) in *. set (l := exp (-500)) in *. clearbody h l.
    split; [apply (Rmult_lt_reg_r (1 + h + h + 24 * l)); [lra|]|apply (Rmult_lt_reg_r (1 + h + h + 24 * l)); [lra|]]; unfold Rdiv; rewrite (Rmult_assoc (8 * h + 26 * h + 317 * l)), Rinv_l by lra; lra. }
  assert (Z3 : 24 < zbar (logP peaks (3 / 10))).
  { rewrite (peaks_zbar (3 / 10) (500 - 24 / 10)); [|lra|replace (500 - 8 * (3 / 10)) with (500 - 24 / 10) by field; apply clip500_id; lra].
    set (q := exp (500 - 24 / 10)). assert (Q : q * exp (24 / 10) = exp 500) by (unfold q; rewrite <- exp_plus; f_equal; lra). assert (Hq : 0 < q) by apply exp_pos.
    assert (81 / 10 * q <= exp 500) by nra. clearbody q. set (h := exp 500) in *. set (l := exp (-500)) in *. clearbody h l.
    apply (Rmult_lt_reg_r (1 + q + h + 24 * l)); [lra|]. unfold Rdiv. rewrite Rmult_assoc, Rinv_l by lra. lra. }
  assert (Rm : residual cs [peaks] (- (1 / 2)) < 0) by (unfold residual; rewrite peaks_total; pose proof (Zq (- (1 / 2)) ltac:(lra)); lra).
  assert (R0 : 0 < residual cs [peaks] 0) by (unfold residual; rewrite peaks_total, exp_0; pose proof (Zq 0 ltac:(lra)); lra).
  assert (R3 : residual cs [peaks] (3 / 10) < 0) by (unfold residual; rewrite peaks_total; lra).
  destruct (peaks_root (- (1 / 2)) 0 ltac:(lra) ltac:(nra)) as (n & Hn & En). destruct (peaks_root 0 (3 / 10) ltac:(lra) ltac:(nra)) as (n' & Hn' & En'). rewrite exp_0 in *.
  exists n, n'. split.
  - constructor; [|constructor]. unfold below, wf. split; [reflexivity|]. split; [reflexivity|]. split; [reflexivity|]. split; [cbn; repeat constructor|].
    intros k Hk _. cbn [bt_mask bt_coeff peaks] in *. rewrite map_length in Hk. exists (exp (nth k two_peaks 0)), (exp (nth k two_peaks 0)).
    assert (N : nth k (map (fun l => Some (exp l)) two_peaks) None = Some (exp (nth k two_peaks 0))) by (rewrite (nth_indep _ None (Some (exp 0))) by (rewrite map_length; exact Hk); apply (map_nth (fun l => Some (exp l)))).
    split; [exact N|]. split; [exact N|]. pose proof (exp_pos (nth k two_peaks 0)). lra.
  - split; [constructor; [lra|constructor]|]. split; [reflexivity|]. split; [lra|]. split; [lra|]. split; assumption.
Qed.
Print Assumptions C87_unique_refuted.

(** ** Products that are not too large: only those below exp(-500) are clipped *)
Definition ex (p : option R) : R := match p with Some x => exp x | None => 0 end.
Definition zid (P : list (option R)) : R := wsum 0 (map ex P) / sum (map ex P).
Definition no_overflow (P : list (option R)) : Prop := forall p, In (Some p) P -> p <= 500.
Definition eps500 : R := exp (-500).
Lemma eps_pos : 0 < eps500.
Proof. apply exp_pos. Qed.
Fixpoint near (e : R) (v w : list R) : Prop :=
  match v, w with [], [] => True | a :: v, b :: w => 0 <= a /\ a <= b /\ b <= a + e /\ near e v w | _, _ => False end.
Lemma near_sums e v w i : 0 <= e -> near e v w -> 0 <= sum v /\ sum v <= sum w /\ sum w <= sum v + INR (length v) * e /\
  wsum i v <= wsum i w /\ wsum i w <= wsum i v + (INR i + INR (length v)) * (INR (length v) * e).
Proof.
  intros He. revert w i. induction v as [|a v IH]; intros [|b w] i H; cbn in H; try tauto.
  - unfold sum, wsum. cbn. lra.
  - destruct H as (H1 & H2 & H3 & H). destruct (IH w (S i) H) as (A & B & C & D & F). rewrite !sum_cons, !wsum_cons. cbn [length]. rewrite S_INR in *.
    pose proof (pos_INR i). pose proof (pos_INR (length v)). assert (0 <= INR (length v) * e) by now apply Rmult_le_pos. split; [lra|]. split; [lra|]. split; [lra|]. split.
    + assert (INR i * a <= INR i * b) by now apply Rmult_le_compat_l. lra.
    + assert (INR i * b <= INR i * (a + e)) by now apply Rmult_le_compat_l. assert (0 <= INR (length v) * e * (INR (length v))) by (apply Rmult_le_pos; lra). assert (0 <= INR i * e) by now apply Rmult_le_pos.
      nra.
Qed.
Lemma near_clip P : no_overflow P -> near eps500 (map ex P) (map exp (map clip500 P)).
Proof.
  unfold eps500. pose proof (exp_pos (-500)) as E0. induction P as [|p P IH]; intros H; [exact I|]. cbn [map near]. assert (H' : no_overflow P) by (intros q Hq; apply H; now right). specialize (IH H').
  destruct p as [p|]; cbn [ex]; [|cbn [clip500]; repeat split; try lra; exact IH]. pose proof (exp_pos p). specialize (H p (or_introl eq_refl)).
  destruct (Rle_dec (-500) p) as [L|L]; [rewrite clip500_id by lra; repeat split; try lra; exact IH|]. rewrite clip_low by lra. assert (exp p < exp (-500)) by (apply exp_increasing; lra). repeat split; try lra; exact IH.
Qed.
Lemma zid_close P : no_overflow P -> In (Some 0) P -> Rabs (zbar P - zid P) <= INR (length P) ^ 2 * eps500.
Proof.
  intros HO HI. rewrite zbar_eq. unfold zid. destruct (near_sums eps500 _ _ 0 (Rlt_le _ _ eps_pos) (near_clip P HO)) as (A & B & C & D & F). rewrite !map_length in *.
  set (v := map ex P) in *. set (w := map exp (map clip500 P)) in *. cbn [INR] in F. rewrite Rplus_0_l in F.
  assert (Hv : forall x, In x v -> 0 <= x) by (intros x Hx; unfold v in Hx; apply in_map_iff in Hx; destruct Hx as (p & <- & _); destruct p; cbn; [left; apply exp_pos|lra]).
  assert (S1 : 1 <= sum v). { unfold v. clear - HI. induction P as [|p P IH]; [contradiction|]. cbn [map]. rewrite sum_cons. assert (forall Q, 0 <= sum (map ex Q)) as N by (intros Q; apply sum_nonneg; intros x Hx; apply in_map_iff in Hx; destruct Hx as (q & <- & _); destruct q; cbn; [left; apply exp_pos|lra]). destruct HI as [->|HI]; [cbn; rewrite exp_0; specialize (N P); lra|]. specialize (IH HI). assert (0 <= ex p) by (destruct p; cbn; [left; apply exp_pos|lra]). lra. }
  destruct (wsum_bounds 0 v Hv) as [W1 W2]. cbn [INR] in W1, W2. rewrite Rmult_0_l in W1. rewrite Rplus_0_l in W2. unfold v in W2 at 2. rewrite map_length in W2. fold v in W2.
  set (n := INR (length P)) in *. assert (Hn : 0 <= n) by apply pos_INR. pose proof eps_pos as He. set (e := eps500) in *.
  set (z := wsum 0 v / sum v). assert (Z : 0 <= z <= n). { unfold z. split; [apply Rle_mult_inv_pos; lra|]. apply (Rmult_le_reg_r (sum v)); [lra|]. unfold Rdiv. rewrite Rmult_assoc, Rinv_l by lra. nra. }
  assert (E : wsum 0 w / sum w - z = ((wsum 0 w - wsum 0 v) - z * (sum w - sum v)) / sum w) by (unfold z; field; lra). rewrite E.
  unfold Rdiv. rewrite Rabs_mult, Rabs_inv, (Rabs_pos_eq (sum w)) by lra. apply Rle_trans with (Rabs (wsum 0 w - wsum 0 v - z * (sum w - sum v)) * / 1); [apply Rmult_le_compat_l; [apply Rabs_pos|]; apply Rinv_le_contravar; lra|].
  rewrite Rinv_1, Rmult_1_r. assert (0 <= z * (sum w - sum v) <= n * (n * e)) by (split; [apply Rmult_le_pos; lra|apply Rmult_le_compat; lra]). apply Rabs_le. split; nra.
Qed.

(** ideal mean charges of two tables: the second keeps fewer bound states, and
    its steps are larger *)
Fixpoint mono_opt (d : option R) (P P' : list (option R)) : Prop :=
  match P, P' with
  | [], [] => True
  | p :: P, p' :: P' => match p, p', d with
      | None, None, None => mono_opt None P P'
      | Some _, None, None => mono_opt None P P'
      | Some a, Some b, None => mono_opt (Some (b - a)) P P'
      | Some a, Some b, Some d => d <= b - a /\ mono_opt (Some (b - a)) P P'
      | _, _, _ => False
      end
  | _, _ => False
  end.
Fixpoint trip (i : nat) (P P' : list (option R)) : list (R * R * R) :=
  match P, P' with p :: P, p' :: P' => (ex p, INR i, match p, p' with Some a, Some b => exp (b - a) | _, _ => 0 end) :: trip (S i) P P' | _, _ => [] end.
Lemma exp_le a b : a <= b -> exp a <= exp b.
Proof. intros [H| ->]; [left; now apply exp_increasing|apply Rle_refl]. Qed.
Lemma trip_in d i P P' w f g : mono_opt d P P' -> In (w, f, g) (trip i P P') -> INR i <= f /\ ex d <= g /\ 0 <= w.
Proof.
  revert d i P'. induction P as [|p P IH]; intros d i [|p' P'] M Hin; cbn in M, Hin; try tauto.
  destruct p as [a|], p' as [b|], d as [d|]; try tauto; try (destruct M as [M0 M]).
  - pose proof (exp_le _ _ M0). destruct Hin as [[= <- <- <-]|Hin]; [split; [lra|]; split; [cbn; lra|left; apply exp_pos]|]. destruct (IH _ _ _ M Hin) as (P1 & P2 & P3). rewrite S_INR in P1. cbn in *. repeat split; lra.
  - destruct Hin as [[= <- <- <-]|Hin]; [split; [lra|]; split; [cbn; left; apply exp_pos|left; apply exp_pos]|]. destruct (IH _ _ _ M Hin) as (P1 & P2 & P3). rewrite S_INR in P1. pose proof (exp_pos (b - a)). cbn in *. repeat split; lra.
  - destruct Hin as [[= <- <- <-]|Hin]; [split; [lra|]; split; [cbn; lra|left; apply exp_pos]|]. destruct (IH _ _ _ M Hin) as (P1 & P2 & P3). rewrite S_INR in P1. cbn in *. repeat split; lra.
  - destruct Hin as [[= <- <- <-]|Hin]; [split; [lra|]; split; cbn; lra|]. destruct (IH _ _ _ M Hin) as (P1 & P2 & P3). rewrite S_INR in P1. cbn in *. repeat split; lra.
Qed.
Lemma trip_sorted d i P P' : mono_opt d P P' -> cheb_sorted (trip i P P').
Proof.
  revert d i P'. induction P as [|p P IH]; intros d i [|p' P'] M; cbn in M; try tauto; cbn; try tauto.
  destruct p as [a|], p' as [b|], d as [d|]; try tauto; try (destruct M as [M0 M]); (split; [cbn; try (left; apply exp_pos); lra|]); (split; [|eapply IH; exact M]); intros w f g Hin; destruct (trip_in _ _ _ _ _ _ _ M Hin) as (P1 & P2 & _); rewrite S_INR in P1; cbn in P2; lra.
Qed.
Lemma trip_sums d i P P' : mono_opt d P P' ->
  s_w (trip i P P') = sum (map ex P) /\ s_f (trip i P P') = wsum i (map ex P) /\ s_g (trip i P P') = sum (map ex P') /\ s_fg (trip i P P') = wsum i (map ex P').
Proof.
  revert d i P'. induction P as [|p P IH]; intros d i [|p' P'] M; cbn in M; try contradiction; try (repeat split; reflexivity).
  assert (exists d', mono_opt d' P P' /\ (match p, p' with None, Some _ => False | _, _ => True end)) as (d' & M' & K) by (destruct p, p', d; try tauto; try (destruct M as [_ M]); eexists; split; try exact M; exact I).
  destruct (IH _ (S i) _ M') as (E1 & E2 & E3 & E4). unfold s_w, s_f, s_g, s_fg in *. cbn [trip map]. rewrite !wsum_cons, !sum_cons, E1, E2, E3, E4.
  assert (X : ex p * match p, p' with Some a, Some b => exp (b - a) | _, _ => 0 end = ex p').
  { destruct p as [a|], p' as [b|]; cbn; try tauto; try ring. rewrite <- exp_plus. f_equal. ring. }
  split; [ring|]. split; [ring|]. split; [now rewrite X|]. rewrite <- X. ring.
Qed.
Lemma zid_mono d P P' : mono_opt d P P' -> 0 < sum (map ex P) -> 0 < sum (map ex P') -> zid P <= zid P'.
Proof.
  intros M S1 S2. destruct (trip_sums _ 0 _ _ M) as (E1 & E2 & E3 & E4). pose proof (chebyshev _ (trip_sorted _ 0 _ _ M)) as C. rewrite E1, E2, E3, E4 in C. unfold zid.
  apply (Rmult_le_reg_r (sum (map ex P) * sum (map ex P'))); [now apply Rmult_lt_0_compat|]. field_simplify; lra.
Qed.
(** the second table: fewer bound states, larger coefficients *)
Fixpoint dom2 (lc lc' : list (option R)) (m m' : list bool) (x x' : R) : Prop :=
  match lc, lc', m, m' with
  | [], [], [], [] => True
  | a :: lc, a' :: lc', b :: m, b' :: m' =>
      (b' = true -> b = true) /\ (b = true -> exists l, a = Some l /\ (b' = true -> exists l', a' = Some l' /\ l - x <= l' - x')) /\ dom2 lc lc' m m' x x'
  | _, _, _, _ => False
  end.
Lemma lpp_opt_up a a' lc lc' m m' x x' : List.Forall (eq true) m -> List.Forall (eq true) m' -> dom2 lc lc' m m' x x' ->
  forall d, (match d with Some d => d <= a' - a | None => True end) -> mono_opt d (lpp_from (Some a) lc m x) (lpp_from (Some a') lc' m' x').
Proof.
  revert a a' lc lc' m'. induction m as [|b m IH]; intros a a' [|l lc] [|l' lc'] [|b' m'] Hm Hm' D d Hd; cbn in D; try tauto.
  - rewrite !lpp_nil. cbn. destruct d; [split; [exact Hd|exact I]|exact I].
  - inversion Hm; subst. inversion Hm'; subst. destruct D as (D1 & D2 & D3). destruct (D2 eq_refl) as (b & -> & D4). destruct (D4 eq_refl) as (b' & -> & Hb). rewrite !lpp_cons. cbn [obind].
    assert (R : mono_opt (Some (a' - a)) (lpp_from (Some (a + (b - x))) lc m x) (lpp_from (Some (a' + (b' - x'))) lc' m' x')) by (apply IH; try assumption; lra).
    cbn [mono_opt]. destruct d; [split; [exact Hd|exact R]|exact R].
Qed.
Lemma lpp_opt_mid a lc lc' m m' x x' : List.Forall (eq true) m -> upward m' -> dom2 lc lc' m m' x x' ->
  mono_opt None (lpp_from (Some a) lc m x) (lpp_from (Some 0) lc' m' x').
Proof.
  revert a lc lc' m'. induction m as [|b m IH]; intros a [|l lc] [|l' lc'] [|b' m'] Hm Hm' D; cbn in D; try tauto.
  destruct b'.
  - apply lpp_opt_up; try assumption; [|exact I]. constructor; [reflexivity|exact Hm'].
  - inversion Hm; subst. destruct D as (D1 & D2 & D3). destruct (D2 eq_refl) as (b & -> & _). rewrite !lpp_cons. cbn [obind mono_opt]. rewrite Rplus_0_l. now apply IH.
Qed.
Lemma lpp_opt lc lc' m m' x x' : upward m -> upward m' -> dom2 lc lc' m m' x x' -> mono_opt None (lpp_from (Some 0) lc m x) (lpp_from (Some 0) lc' m' x').
Proof.
  revert lc lc' m'. induction m as [|b m IH]; intros [|l lc] [|l' lc'] [|b' m'] Hm Hm' D; cbn in D; try tauto. destruct b.
  - apply lpp_opt_mid; try assumption. constructor; [reflexivity|exact Hm].
  - destruct D as (D1 & D2 & D3). destruct b'; [now specialize (D1 eq_refl)|]. rewrite !lpp_cons. cbn [obind mono_opt]. rewrite Rplus_0_l. now apply IH.
Qed.
Lemma reference_in lc m x : length lc = length m -> In (Some 0) (log_partition_products lc m x).
Proof.
  intros H. destruct (lpp_reference lc m x H) as (k & Hk & E & _). rewrite <- E. apply nth_In. rewrite lpp_len by assumption. lia.
Qed.
Lemma sum_ex P : In (Some 0) P -> 0 < sum (map ex P).
Proof.
  intros H. assert (N : forall Q, 0 <= sum (map ex Q)) by (intros Q; apply sum_nonneg; intros x Hx; apply in_map_iff in Hx; destruct Hx as (q & <- & _); destruct q; cbn; [left; apply exp_pos|lra]).
  induction P as [|p P IH]; [contradiction|]. cbn [map]. rewrite sum_cons. destruct H as [->|H]; [cbn; rewrite exp_0; specialize (N P); lra|]. specialize (IH H). assert (0 <= ex p) by (destruct p; cbn; [left; apply exp_pos|lra]). lra.
Qed.

(** [bt'] has at most the bound states of [bt] and larger coefficients in them *)
Definition beneath (bt bt' : balance_term) : Prop :=
  wf bt /\ wf bt' /\ length (bt_mask bt) = length (bt_mask bt') /\ upward (bt_mask bt) /\ upward (bt_mask bt') /\
  forall k, (k < length (bt_mask bt))%nat ->
    (nth k (bt_mask bt') true = true -> nth k (bt_mask bt) true = true) /\
    (nth k (bt_mask bt) true = true -> exists c, nth k (bt_coeff bt) None = Some c /\ 0 < c /\
       (nth k (bt_mask bt') true = true -> exists c', nth k (bt_coeff bt') None = Some c' /\ c <= c')).
Lemma beneath_dom2 bt bt' x x' : beneath bt bt' -> x' <= x -> dom2 (map log0 (bt_coeff bt)) (map log0 (bt_coeff bt')) (bt_mask bt) (bt_mask bt') x x'.
Proof.
  destruct bt as [c m], bt' as [c' m']. unfold beneath, wf. cbn. intros (L1 & L2 & L3 & _ & _ & H) Hx. revert c c' m' L1 L2 L3 H.
  induction m as [|b m IH]; intros [|a c] [|a' c'] [|b' m'] L1 L2 L3 H; cbn in *; try lia; try exact I. destruct (H 0%nat ltac:(lia)) as (H1 & H2). cbn in H1, H2. split; [exact H1|]. split.
  - intros Hb. destruct (H2 Hb) as (r & -> & Pr & H3). exists (ln r). unfold log0 at 1. destruct (Req_EM_T r 0); [lra|]. split; [reflexivity|]. intros Hb'. destruct (H3 Hb') as (r' & -> & Hr). exists (ln r'). unfold log0. destruct (Req_EM_T r' 0); [lra|]. split; [reflexivity|].
    assert (ln r <= ln r') by (destruct Hr as [Hr| ->]; [left; now apply ln_increasing|apply Rle_refl]). lra.
  - apply IH; try lia. intros k Hk. apply (H (S k)). lia.
Qed.
Lemma beneath_zbar bt bt' x x' : beneath bt bt' -> x' <= x -> no_overflow (logP bt x) -> no_overflow (logP bt' x') ->
  zbar (logP bt x) <= zbar (logP bt' x') + 2 * INR (S (length (bt_mask bt))) ^ 2 * eps500.
Proof.
  intros B Hx O O'. pose proof (beneath_dom2 bt bt' x x' B Hx) as D. destruct B as (W & W' & L & Up & Up' & _).
  assert (I1 : In (Some 0) (logP bt x)) by (apply reference_in; rewrite map_length; exact W). assert (I2 : In (Some 0) (logP bt' x')) by (apply reference_in; rewrite map_length; exact W').
  pose proof (zid_close _ O I1) as C1. pose proof (zid_close _ O' I2) as C2. unfold logP in C1 at 3. unfold logP in C2 at 3. rewrite lpp_len in C1 by (rewrite map_length; exact W). rewrite lpp_len in C2 by (rewrite map_length; exact W'). rewrite <- L in C2.
  pose proof (zid_mono None _ _ (lpp_opt _ _ _ _ _ _ Up Up' D) (sum_ex _ I1) (sum_ex _ I2)) as M. fold (logP bt x) in M. fold (logP bt' x') in M. change (lpp_from (Some 0) (map log0 (bt_coeff bt)) (bt_mask bt) x) with (logP bt x) in M. change (lpp_from (Some 0) (map log0 (bt_coeff bt')) (bt_mask bt') x') with (logP bt' x') in M.
  apply Rabs_le_between in C1. apply Rabs_le_between in C2. lra.
Qed.
(** the clipping costs at most this many electrons per volume *)
Definition clip_error (Ns : list R) (bts : list balance_term) : R := sum (map2 (fun N bt => N * (2 * INR (S (length (bt_mask bt))) ^ 2)) Ns bts) * exp (-500).
Lemma beneath_total Ns bts bts' x x' : List.Forall2 beneath bts bts' -> List.Forall (fun N => 0 < N) Ns -> x' <= x ->
  List.Forall (fun bt => no_overflow (logP bt x)) bts -> List.Forall (fun bt => no_overflow (logP bt x')) bts' ->
  total_charge Ns bts x <= total_charge Ns bts' x' + clip_error Ns bts.
Proof.
  intros B HN Hx. revert Ns HN. unfold total_charge, clip_error. fold eps500. induction B as [|bt bt' bts bts' B1 B IH]; intros [|N Ns] HN U U'; try (unfold sum; cbn; lra).
  cbn [map2]. rewrite !sum_cons. inversion HN; subst. inversion U; subst. inversion U'; subst. specialize (IH Ns ltac:(assumption) ltac:(assumption) ltac:(assumption)).
  pose proof (beneath_zbar bt bt' x x' B1 Hx ltac:(assumption) ltac:(assumption)) as Z. unfold logP in Z.
  apply (Rmult_le_compat_l N) in Z; [|lra]. lra.
Qed.
Theorem C87_ordered : forall Ns bts bts' n n', List.Forall2 beneath bts bts' -> List.Forall (fun N => 0 < N) Ns -> 0 < n -> 0 < n' ->
  n = total_charge Ns bts (ln n) -> n' = total_charge Ns bts' (ln n') ->
  List.Forall (fun bt => no_overflow (logP bt (ln n))) bts -> List.Forall (fun bt => no_overflow (logP bt (ln n'))) bts' ->
  n <= n' + clip_error Ns bts.
Proof.
  intros Ns bts bts' n n' B HN Hn Hn' E E' U U'. destruct (Rle_lt_dec n n') as [H|H].
  - assert (0 <= clip_error Ns bts); [|lra]. unfold clip_error. apply Rmult_le_pos; [|left; apply exp_pos]. apply sum_nonneg. intros y Hy. clear - HN Hy. revert bts Hy. induction HN as [|N Ns HN1 HN IH]; intros [|bt bts] Hy; cbn in Hy; try contradiction.
    destruct Hy as [<-|Hy]; [|eapply IH; exact Hy]. apply Rmult_le_pos; [lra|]. match goal with |- 0 <= 2 * ?a => assert (0 <= a) by (apply (pow2_ge_0 (INR (S (length (bt_mask bt)))))); lra end.
  - pose proof (beneath_total Ns bts bts' (ln n) (ln n') B HN ltac:(left; now apply ln_increasing) U U'). lra.
Qed.
Print Assumptions C87_ordered.
(** ... hence unique up to the clipping of very rare ions *)
Theorem C87_unique : forall Ns bts n n', List.Forall2 beneath bts bts -> List.Forall (fun N => 0 < N) Ns -> 0 < n -> 0 < n' ->
  n = total_charge Ns bts (ln n) -> n' = total_charge Ns bts (ln n') ->
  List.Forall (fun bt => no_overflow (logP bt (ln n))) bts -> List.Forall (fun bt => no_overflow (logP bt (ln n'))) bts -> Rabs (n - n') <= clip_error Ns bts.
Proof.
  intros Ns bts n n' B HN Hn Hn' E E' U U'. pose proof (C87_ordered Ns bts bts n n' B HN Hn Hn' E E' U U'). pose proof (C87_ordered Ns bts bts n' n B HN Hn' Hn E' E U' U). apply Rabs_le. lra.
Qed.
Print Assumptions C87_unique.

(** ** C88: heating and deeper lowering raise the mean charge *)
Lemma saha_beneath u g E ipd ipd' T T' bt bt' :
  length g = S (length E) -> length ipd = length E -> length ipd' = length E -> (forall x, In x g -> 0 < x) -> 0 < T <= T' ->
  (forall k, at_ ipd' k <= at_ ipd k) ->
  saha_balance_term u g E ipd T = Some bt -> saha_balance_term u g E ipd' T' = Some bt' ->
  upward (bt_mask bt) -> upward (bt_mask bt') -> beneath bt bt'.
Proof.
  intros Lg Li Li' Hg HT Hi E1 E2 Up Up'. unfold saha_balance_term, shifted, ew in E1, E2. rewrite sort_len in E1, E2. rewrite Li, Nat.eqb_refl in E1. rewrite Li', Nat.eqb_refl in E2. cbn [obind] in E1, E2.
  assert (F1 : bt = mkBT (map2 (fun f e => Some (f T e)) (pairwise (saha_equation u) g) (map2 Rplus (sort_r E) ipd)) (map heaviside (map2 Rplus (sort_r E) ipd))) by congruence.
  assert (F2 : bt' = mkBT (map2 (fun f e => Some (f T' e)) (pairwise (saha_equation u) g) (map2 Rplus (sort_r E) ipd')) (map heaviside (map2 Rplus (sort_r E) ipd'))) by congruence.
  clear E1 E2. subst bt bt'. unfold beneath, wf. cbn [bt_mask bt_coeff] in *. pose proof (sort_len E) as Ls. pose proof (pairwise_len (saha_equation u) g) as Lp. rewrite Lg in Lp.
  assert (Lm : length (map2 Rplus (sort_r E) ipd) = length E) by (rewrite map2_length; lia).
  assert (Lm' : length (map2 Rplus (sort_r E) ipd') = length E) by (rewrite map2_length; lia).
  rewrite !map_length, !map2_length by lia.
  split; [lia|]. split; [lia|]. split; [lia|]. split; [exact Up|]. split; [exact Up'|]. intros k Hk. specialize (Hi k). unfold at_ in Hi.
  assert (HM : forall q, length q = length E -> nth k (map heaviside (map2 Rplus (sort_r E) q)) true = heaviside (nth k (sort_r E) 0 + nth k q 0)).
  { intros q Lq. assert (length (map2 Rplus (sort_r E) q) = length E) by (rewrite map2_length; lia). rewrite (nth_indep _ _ (heaviside 0)) by (rewrite map_length; lia). rewrite map_nth. now rewrite (map2_nth Rplus _ _ _ 0 0) by lia. }
  assert (HC : forall q t, length q = length E -> nth k (map2 (fun f e => Some (f t e)) (pairwise (saha_equation u) g) (map2 Rplus (sort_r E) q)) None = Some (saha_equation u (at_ g k) (at_ g (S k)) t (nth k (sort_r E) 0 + nth k q 0))).
  { intros q t Lq. assert (length (map2 Rplus (sort_r E) q) = length E) by (rewrite map2_length; lia). rewrite (map2_nth _ _ _ _ (saha_equation u 0 0) 0) by lia. rewrite (map2_nth Rplus _ _ _ 0 0) by lia. rewrite pairwise_nth by lia. reflexivity. }
  rewrite !HM, !HC by assumption.
  unfold heaviside. destruct (Rlt_dec 0 (nth k (sort_r E) 0 + nth k ipd 0)) as [P|P], (Rlt_dec 0 (nth k (sort_r E) 0 + nth k ipd' 0)) as [P'|P']; try (exfalso; lra); (split; [intros; congruence|]); try discriminate; intros _; eexists; (split; [reflexivity|]).
  - pose proof (C88_coefficient_ordered u (at_ g k) (at_ g (S k)) T T' (nth k (sort_r E) 0 + nth k ipd 0) (nth k (sort_r E) 0 + nth k ipd' 0) HT) as O.
    destruct O as [O1 O2]; try lra; try (apply Hg; apply nth_In; lia). split; [exact O1|]. intros _. eexists. split; [reflexivity|exact O2].
  - pose proof (C88_coefficient_ordered u (at_ g k) (at_ g (S k)) T T' (nth k (sort_r E) 0 + nth k ipd 0) (nth k (sort_r E) 0 + nth k ipd' 0) HT) as O.
    destruct O as [O1 O2]; try lra; try (apply Hg; apply nth_In; lia).
Qed.
Theorem C88_mean_charge : forall u g E ipd ipd' T T' bt bt' ne,
  length g = S (length E) -> length ipd = length E -> length ipd' = length E -> (forall x, In x g -> 0 < x) -> 0 < T <= T' ->
  (forall k, at_ ipd' k <= at_ ipd k) ->
  saha_balance_term u g E ipd T = Some bt -> saha_balance_term u g E ipd' T' = Some bt' ->
  upward (bt_mask bt) -> upward (bt_mask bt') -> no_overflow (logP bt (ln ne)) -> no_overflow (logP bt' (ln ne)) ->
  zbar (logP bt (ln ne)) <= zbar (logP bt' (ln ne)) + 2 * INR (length g) ^ 2 * exp (-500).
Proof.
  intros u g E ipd ipd' T T' bt bt' ne Lg Li Li' Hg HT Hi E1 E2 Up Up' O O'. pose proof (saha_beneath u g E ipd ipd' T T' bt bt' Lg Li Li' Hg HT Hi E1 E2 Up Up') as B.
  pose proof (beneath_zbar bt bt' (ln ne) (ln ne) B (Rle_refl _) O O') as Z. replace (S (length (bt_mask bt))) with (length g) in Z; [exact Z|].
  unfold saha_balance_term, shifted, ew in E1. rewrite sort_len, Li, Nat.eqb_refl in E1. cbn [obind] in E1. assert (F : bt_mask bt = map heaviside (map2 Rplus (sort_r E) ipd)) by (injection E1 as <-; reflexivity). rewrite F, map_length, map2_length; rewrite sort_len; lia.
Qed.
Print Assumptions C88_mean_charge.
(** the neutral plasma: heating or deeper lowering of every element does not lower the
    density of the free electrons *)
Theorem C88_neutral_density : forall u Ns (els : list (list R * list R)) ipds ipds' T T' bts bts' n n',
  0 < T <= T' -> List.Forall (fun N => 0 < N) Ns -> length ipds = length els -> length ipds' = length els ->
  (forall i, (i < length els)%nat -> let '(g, E) := nth i els ([], []) in let l := nth i ipds [] in let l' := nth i ipds' [] in
     length g = S (length E) /\ length l = length E /\ length l' = length E /\ (forall x, In x g -> 0 < x) /\ forall k, at_ l' k <= at_ l k) ->
  bts = map2 (fun '(g, E) l => saha_balance_term u g E l T) els ipds -> bts' = map2 (fun '(g, E) l => saha_balance_term u g E l T') els ipds' ->
  forall b b', bts = map Some b -> bts' = map Some b' ->
  List.Forall (fun bt => upward (bt_mask bt)) b -> List.Forall (fun bt => upward (bt_mask bt)) b' ->
  0 < n -> 0 < n' -> n = total_charge Ns b (ln n) -> n' = total_charge Ns b' (ln n') ->
  List.Forall (fun bt => no_overflow (logP bt (ln n))) b -> List.Forall (fun bt => no_overflow (logP bt (ln n'))) b' ->
  n <= n' + clip_error Ns b.
Proof.
  intros u Ns els ipds ipds' T T' bts bts' n n' HT HN L L' H Eb Eb' b b' S S' Up Up' Hn Hn' E E' O O'. apply (C87_ordered Ns b b' n n'); try assumption.
  subst bts bts'. clear Hn Hn' E E' O O' HN. revert ipds ipds' b b' L L' H S S' Up Up'. induction els as [|[g e] els IH]; intros [|l ipds] [|l' ipds'] b b' L L' H S S' Up Up'; cbn in L, L'; try lia.
  - destruct b; [|discriminate]. destruct b'; [|discriminate]. constructor.
  - cbn [map2] in S, S'. destruct b as [|x b]; [discriminate|]. destruct b' as [|x' b']; [discriminate|]. cbn [map] in S, S'. injection S as S1 S2. injection S' as S1' S2'. inversion Up; subst. inversion Up'; subst.
    destruct (H 0%nat ltac:(cbn; lia)) as (A1 & A2 & A3 & A4 & A5). constructor; [eapply saha_beneath with (ipd := l) (ipd' := l'); eassumption|].
    apply (IH ipds ipds'); try assumption; try lia. intros i Hi. apply (H (Datatypes.S i)). cbn. lia.
Qed.
Print Assumptions C88_neutral_density.

(** an element that is hardly ionised, and clipped; another one that is not *)
Example C87_ordered_met : exists N c', let b := mkBT [Some (exp (-600))] [true] in let b' := mkBT [Some c'] [true] in
  List.Forall2 beneath [b] [b'] /\ 0 < N /\ 1 = total_charge [N] [b] (ln 1) /\ 2 = total_charge [N] [b'] (ln 2) /\
  no_overflow (logP b (ln 1)) /\ no_overflow (logP b' (ln 2)) /\ ~ unclipped (logP b (ln 1)).
Proof.
  destruct exp_small as (E1 & E2 & E3). set (h := exp 500) in *. set (l := exp (-500)) in *. exists (h + 1), (4 / (h - 1)). cbv zeta.
  assert (Hc : 0 < 4 / (h - 1)) by (apply Rdiv_lt_0_compat; lra).
  assert (P1 : logP (mkBT [Some (exp (-600))] [true]) (ln 1) = [Some 0; Some (0 + (-600 - 0))]) by (unfold logP, log_partition_products; cbn [bt_coeff bt_mask map]; rewrite log0_exp, ln_1; reflexivity).
  assert (Eq : exp (ln (4 / (h - 1)) - ln 2) = 2 / (h - 1)) by (unfold Rminus at 1; rewrite exp_plus, exp_Ropp, !exp_ln by (assumption || lra); field; lra).
  assert (P2 : logP (mkBT [Some (4 / (h - 1))] [true]) (ln 2) = [Some 0; Some (0 + (ln (4 / (h - 1)) - ln 2))]) by (unfold logP, log_partition_products, log0; cbn [bt_coeff bt_mask map]; destruct (Req_EM_T (4 / (h - 1)) 0); [lra|]; reflexivity).
  assert (Q1 : l < 2 / (h - 1)) by (apply (Rmult_lt_reg_r (h - 1)); [lra|]; unfold Rdiv; rewrite (Rmult_assoc 2), Rinv_l by lra; nra).
  assert (Q2 : 2 / (h - 1) < 1) by (apply (Rmult_lt_reg_r (h - 1)); [lra|]; unfold Rdiv; rewrite (Rmult_assoc 2), Rinv_l by lra; lra).
  assert (R : -500 < ln (4 / (h - 1)) - ln 2 < 0) by (split; apply exp_lt_inv; rewrite Eq, ?exp_0; assumption).
  assert (ML : exp (-600) <= l) by (left; apply exp_increasing; lra).
  assert (M4 : 2 / (h - 1) <= 4 / (h - 1)) by (apply Rmult_le_compat_r; [left; apply Rinv_0_lt_compat; lra|lra]).
  split. { constructor; [|constructor]. unfold beneath, wf. cbn. split; [reflexivity|]. split; [reflexivity|]. split; [reflexivity|]. split; [constructor|]. split; [constructor|]. intros [|k] Hk; [|lia]. split; [tauto|]. intros _. exists (exp (-600)). split; [reflexivity|]. split; [apply exp_pos|]. intros _. exists (4 / (h - 1)). split; [reflexivity|lra]. }
  split; [lra|]. split; [|split; [|split; [|split]]].
  - unfold total_charge, sum. cbn [map2 fold_right]. change (log_partition_products _ _ (ln 1)) with (logP (mkBT [Some (exp (-600))] [true]) (ln 1)). rewrite P1, zbar_eq. cbn [map]. rewrite clip500_id, clip_low by lra. rewrite exp_0. fold l. unfold wsum, sum. cbn [length seq map map2 fold_right INR].
    replace ((h + 1) * ((0 * 1 + (1 * l + 0)) / (1 + (l + 0))) + 0) with ((l * h + l) / (1 + l)) by (field; lra). rewrite E2. field. lra.
  - unfold total_charge, sum. cbn [map2 fold_right]. change (log_partition_products _ _ (ln 2)) with (logP (mkBT [Some (4 / (h - 1))] [true]) (ln 2)). rewrite P2, zbar_eq. cbn [map]. rewrite !clip500_id by lra. rewrite exp_0, Rplus_0_l, Eq. unfold wsum, sum. cbn [length seq map map2 fold_right INR]. field. split; lra.
  - rewrite P1. intros p [[= <-]|[[= <-]|[]]]; lra.
  - rewrite P2. intros p [[= <-]|[[= <-]|[]]]; lra.
  - rewrite P1. intros U. specialize (U (0 + (-600 - 0)) (or_intror (or_introl eq_refl))). lra.
Qed.

(** ** where the products exceed exp 500, heating lowers the mean charge *)
Lemma saha_unit T : 0 < T -> 0 < saha_equation unit_consts 1 1 T 1 /\ saha_equation unit_consts 1 1 (exp 40 * T) 1 = saha_equation unit_consts 1 1 T 1 * exp (60 + / T - / T * exp (-40)).
Proof.
  intros HT. assert (L : 0 < therm_de_broglie_wl unit_consts T) by (destruct (C88_saha unit_consts 1 1 T 1 1 HT Rlt_0_1 Rlt_0_1 Rlt_0_1); assumption).
  assert (E : therm_de_broglie_wl unit_consts (exp 40 * T) = therm_de_broglie_wl unit_consts T * exp (-20)).
  { unfold therm_de_broglie_wl. generalize unit_consts. intros u. transitivity (hbar u * (sqrt (2 * PI / (m_e u * kB u * T)) * exp (-20))); [|ring]. apply (f_equal (Rmult (hbar u))). pose proof PI_RGT_0. assert (0 < hbar u) by apply hbar_pos. assert (0 < m_e u) by apply m_e_pos. assert (0 < kB u) by apply kB_pos. pose proof (exp_pos (-20)). pose proof (exp_pos 40). rewrite <- (sqrt_pow2 (exp (-20))) by lra. rewrite <- sqrt_mult_alt by (apply Rlt_le, Rdiv_lt_0_compat; [lra|]; apply Rmult_lt_0_compat; [apply Rmult_lt_0_compat|]; assumption).
    f_equal. replace (exp (-20) ^ 2) with (/ exp 40); [|cbn [pow]; rewrite Rmult_1_r, <- exp_plus, <- exp_Ropp; f_equal; lra]. field. repeat split; lra. }
  unfold saha_equation. rewrite E. split; [pose proof (exp_pos (- (1) / (kB unit_consts * T))); pose proof (pow_lt _ 3 L); apply Rmult_lt_0_compat; [apply Rdiv_lt_0_compat; lra|assumption]|].
  change (kB unit_consts) with 1. set (w := therm_de_broglie_wl unit_consts T) in *.
  replace (- (1) / (1 * (exp 40 * T))) with (- (/ T * exp (-40))) by (replace (-40) with (- (40)) by lra; rewrite exp_Ropp; pose proof (exp_pos 40); field; split; lra).
  replace (60 + / T - / T * exp (-40)) with (60 + (/ T + - (/ T * exp (-40)))) by ring. rewrite !exp_plus. replace (- (1) / (1 * T)) with (- / T) by (field; lra). rewrite (exp_Ropp (/ T)).
  replace ((w * exp (-20)) ^ 3) with (w ^ 3 * / exp 60); [|rewrite Rpow_mult_distr; f_equal; rewrite <- exp_Ropp; cbn [pow]; rewrite Rmult_1_r, <- !exp_plus; f_equal; lra].
  pose proof (exp_pos 60). pose proof (exp_pos (/ T)). field. repeat split; lra.
Qed.
Theorem C88_mean_charge_refuted : exists u g E ipd T T' bt bt' ne,
  length g = S (length E) /\ length ipd = length E /\ (forall x, In x g -> 0 < x) /\ 0 < T < T' /\ 0 < ne /\
  saha_balance_term u g E ipd T = Some bt /\ saha_balance_term u g E ipd T' = Some bt' /\ bt_mask bt = bt_mask bt' /\ upward (bt_mask bt) /\
  zbar (logP bt' (ln ne)) + 1 / 4 < zbar (logP bt (ln ne)).
Proof.
  destruct (saha_unit 1 Rlt_0_1) as [S1 S2]. rewrite Rinv_1, Rmult_1_r, Rmult_1_l in S2. set (c := saha_equation unit_consts 1 1 1 1) in *.
  assert (Hd : 0 < exp (-40) < 1) by (split; [apply exp_pos|rewrite <- exp_0; apply exp_increasing; lra]).
  exists unit_consts, [1; 1; 1], [1; 1], [0; 0], 1, (exp 40).
  assert (F : forall T, saha_balance_term unit_consts [1; 1; 1] [1; 1] [0; 0] T = Some (mkBT [Some (saha_equation unit_consts 1 1 T 1); Some (saha_equation unit_consts 1 1 T 1)] [true; true])).
  { intros T. unfold saha_balance_term, shifted, ew, sort_r. cbn [fold_right insert_r]. destruct (Rle_dec 1 1); [|lra]. cbn [length Nat.eqb map2 obind map pairwise]. unfold heaviside. rewrite Rplus_0_r. destruct (Rlt_dec 0 1); [reflexivity|lra]. }
  do 2 eexists. exists (c * exp (-450)). split; [reflexivity|]. split; [reflexivity|]. split; [intros x [<-|[<-|[<-|[]]]]; lra|]. split; [split; [lra|rewrite <- exp_0 at 1; apply exp_increasing; lra]|]. split; [apply Rmult_lt_0_compat; [exact S1|apply exp_pos]|].
  split; [apply F|]. split; [apply F|]. split; [reflexivity|]. split; [cbn; repeat constructor|]. fold c. rewrite S2.
  assert (LN : ln (c * exp (-450)) = ln c - 450) by (rewrite ln_mult, ln_exp by (assumption || apply exp_pos); lra). rewrite LN.
  assert (P : forall d, logP (mkBT [Some (c * exp d); Some (c * exp d)] [true; true]) (ln c - 450) = [Some 0; Some (0 + (ln (c * exp d) - (ln c - 450))); Some (0 + (ln (c * exp d) - (ln c - 450)) + (ln (c * exp d) - (ln c - 450)))]).
  { intros d. pose proof (exp_pos d). assert (0 < c * exp d) by now apply Rmult_lt_0_compat. unfold logP, log_partition_products, log0. cbn [bt_coeff bt_mask map]. destruct (Req_EM_T (c * exp d) 0); [lra|]. reflexivity. }
  pose proof (P 0) as P0. rewrite exp_0, Rmult_1_r in P0. rewrite P, P0. rewrite ln_mult, ln_exp by (assumption || apply exp_pos). set (d := exp (-40)) in *.
  rewrite !zbar_eq. cbn [map]. rewrite !(clip500_id 0) by lra. rewrite (clip500_id (0 + (ln c - (ln c - 450)))) by lra. rewrite !clip_high by lra. replace (0 + (ln c - (ln c - 450))) with 450 by ring. rewrite exp_0.
  unfold wsum, sum. cbn [length seq map map2 fold_right INR]. assert (E50 : exp 500 = exp 450 * exp 50) by (rewrite <- exp_plus; f_equal; lra). pose proof (exp_ineq1 50 ltac:(lra)) as X. pose proof (exp_ineq1 450 ltac:(lra)) as Y. set (a := exp 450) in *. set (b := exp 50) in *. rewrite E50.
  assert (Hab : 51 * a <= a * b) by nra. set (h := a * b) in *. clearbody h. clear E50.
  apply Rlt_trans with (15 / 10 + 1 / 4 + 1 / 8).
  - assert ((0 * 1 + (1 * h + ((1 + 1) * h + 0))) / (1 + (h + (h + 0))) < 15 / 10 + 1 / 8); [|lra]. apply (Rmult_lt_reg_r (1 + (h + (h + 0)))); [lra|]. unfold Rdiv at 1. rewrite Rmult_assoc, Rinv_l by lra. lra.
  - apply (Rmult_lt_reg_r (1 + (a + (h + 0)))); [lra|]. unfold Rdiv at 4. rewrite Rmult_assoc, Rinv_l by lra. lra.
Qed.
Print Assumptions C88_mean_charge_refuted.
(** lowering the continuum below the first state *)
Example C88_mean_charge_met : exists bt bt', saha_balance_term unit_consts [1; 1; 1] [1; 3] [0; 0] 1 = Some bt /\ saha_balance_term unit_consts [1; 1; 1] [1; 3] [-2; -2] 1 = Some bt' /\
  bt_mask bt = [true; true] /\ bt_mask bt' = [false; true] /\ no_overflow (logP bt (ln 1)) /\ no_overflow (logP bt' (ln 1)).
Proof.
  assert (Eb : forall a, saha_balance_term unit_consts [1; 1; 1] [1; 3] [a; a] 1 = Some (mkBT [Some (saha_equation unit_consts 1 1 1 (1 + a)); Some (saha_equation unit_consts 1 1 1 (3 + a))] [heaviside (1 + a); heaviside (3 + a)])).
  { intros a. unfold saha_balance_term, shifted, ew, sort_r. cbn [fold_right insert_r]. destruct (Rle_dec 1 3); [|lra]. reflexivity. }
  assert (B : forall e, -1 <= e -> 0 < saha_equation unit_consts 1 1 1 e /\ ln (saha_equation unit_consts 1 1 1 e) <= 10).
  { intros e He. assert (W : 1 <= therm_de_broglie_wl unit_consts 1). { unfold therm_de_broglie_wl. cbn. rewrite Rmult_1_l. rewrite <- sqrt_1 at 1. apply sqrt_le_1_alt. pose proof PI2_3_2; lra. }
    assert (W3 : 1 <= therm_de_broglie_wl unit_consts 1 ^ 3) by (pose proof (pow_incr 1 (therm_de_broglie_wl unit_consts 1) 3 ltac:(lra)) as Q; rewrite pow1 in Q; exact Q). unfold saha_equation. change (kB unit_consts) with 1. set (w := therm_de_broglie_wl unit_consts 1 ^ 3) in *. pose proof (exp_pos (- e / (1 * 1))). 
    assert (0 < 1 / 1 * 2 / w <= 2) by (split; [apply Rdiv_lt_0_compat; lra|]; apply (Rmult_le_reg_r w); [lra|]; unfold Rdiv; rewrite (Rmult_assoc _ (/ w)), Rinv_l by lra; lra).
    split; [apply Rmult_lt_0_compat; lra|]. rewrite ln_mult, ln_exp by lra. assert (ln (1 / 1 * 2 / w) <= ln 2) by (destruct (proj2 H0) as [Q|Q]; [left; apply ln_increasing; lra|rewrite Q; lra]). pose proof (ln_lt_2). assert (ln 2 < 2) by (apply exp_lt_inv; rewrite exp_ln by lra; pose proof (exp_ineq1 2 ltac:(lra)); lra). replace (- e / (1 * 1)) with (- e) by field. lra. }
  do 2 eexists. split; [apply Eb|]. split; [apply Eb|]. cbn [bt_mask]. unfold heaviside. destruct (Rlt_dec 0 (1 + 0)); [|lra]. destruct (Rlt_dec 0 (3 + 0)); [|lra]. destruct (Rlt_dec 0 (1 + -2)); [lra|]. destruct (Rlt_dec 0 (3 + -2)); [|lra]. split; [reflexivity|]. split; [reflexivity|].
  destruct (B (1 + 0) ltac:(lra)) as [B1 B1']. destruct (B (3 + 0) ltac:(lra)) as [B2 B2']. destruct (B (1 + -2) ltac:(lra)) as [B3 B3']. destruct (B (3 + -2) ltac:(lra)) as [B4 B4'].
  unfold logP, log_partition_products, log0. cbn [bt_coeff bt_mask map]. destruct (Req_EM_T _ 0); [lra|]. destruct (Req_EM_T _ 0); [lra|]. destruct (Req_EM_T _ 0); [lra|]. destruct (Req_EM_T _ 0); [lra|]. rewrite ln_1. cbn [map2 obind cumsum app]. split.
  - intros p [[= <-]|[[= <-]|[[= <-]|[]]]]; lra.
  - intros p [H|[[= <-]|[[= <-]|[]]]]; [discriminate|lra|lra].
Qed.
