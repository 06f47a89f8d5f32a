(** Theorems about the resampling of scattering models. *)
From Coq Require Import Reals List Arith Bool Lra Lia Psatz.
From Coquelicot Require Import Rcomplements.
From Verif Require Import M_Const M_Interp L_Interp M_Instrument L_Instrument M_Setup M_ScatModel.
Import ListNotations.
Open Scope R_scope.

(** the measured energies lie between the first and the last *)
Definition spans (s : setup) : Prop := measured s 0 < measured s (n_chan s - 1) /\ forall i, (i < n_chan s)%nat -> measured s 0 <= measured s i <= measured s (n_chan s - 1).
(** the raw spectrum at a channel is a function of that channel's energy *)
Definition local (raw : setup -> nat -> R) (s : setup) (f : R -> R) : Prop :=
  forall s' i, angle s' = angle s -> energy s' = energy s -> correct_k_dispersion s' = correct_k_dispersion s -> (i < n_chan s')%nat -> raw s' i = f (measured s' i).

Lemma grid_cell a b p q : a < b -> (2 <= p)%nat -> a <= q <= b ->
  exists i, (S i < p)%nat /\ at_ (linspace a b p) i <= q <= at_ (linspace a b p) (S i) /\ at_ (linspace a b p) (S i) - at_ (linspace a b p) i = (b - a) / INR (p - 1).
Proof.
  intros Hab Hp Hq. assert (forall m, (m <= p - 1)%nat -> q <= at_ (linspace a b p) m -> exists i, (S i < p)%nat /\ at_ (linspace a b p) i <= q <= at_ (linspace a b p) (S i)) as H.
  { induction m as [|m IH]; intros Hm Hu.
    - exists O. rewrite linspace_at in Hu by lia. cbn [INR] in Hu. rewrite !linspace_at by lia. cbn [INR]. assert (0 < (b - a) / INR (p - 1)) by (apply Rdiv_lt_0_compat; [lra|]; apply lt_0_INR; lia). split; [lia|]. lra.
    - destruct (Rle_dec q (at_ (linspace a b p) m)) as [L|L]; [apply IH; [lia|exact L]|]. exists m. split; [lia|]. lra. }
  destruct (H (p - 1)%nat (le_n _)) as (i & H1 & H2).
  - rewrite linspace_at by lia. assert (0 < INR (p - 1)) by (apply lt_0_INR; lia). replace (a + INR (p - 1) * ((b - a) / INR (p - 1))) with b by (field; lra). lra.
  - exists i. split; [exact H1|]. split; [exact H2|]. rewrite !linspace_at by lia. rewrite S_INR. ring.
Qed.
Lemma low_at raw s p i f : correct_k_dispersion s = true -> local raw s f -> (i < p)%nat -> at_ (map (raw (low_res_setup p s)) (seq 0 p)) i = f (at_ (sample_grid p s) i).
Proof.
  intros Hc HL Hi. unfold at_ at 1. rewrite (nth_indep _ 0 (raw (low_res_setup p s) O)) by (rewrite map_length, seq_length; exact Hi). rewrite map_nth, seq_nth by exact Hi. cbn [Nat.add]. rewrite (HL (low_res_setup p s) i); [reflexivity|reflexivity|reflexivity|now rewrite Hc|exact Hi].
Qed.
Lemma raw_chord u0 s p i f : correct_k_dispersion s = true -> local u0 s f -> spans s -> (2 <= p)%nat -> (i < n_chan s)%nat ->
  exists x t, let h := (measured s (n_chan s - 1)%nat - measured s 0%nat) / INR (p - 1) in
    0 <= t <= 1 /\ measured s i = x + t * h /\ 0 < h /\ raw u0 (Some p) s i = (1 - t) * f x + t * f (x + h).
Proof.
  intros Hc HL [H1 H2] Hp Hi. unfold raw. cbv zeta. unfold sample_grid at 1. cbv zeta.
  destruct (grid_cell _ _ p (measured s i) H1 Hp (H2 i Hi)) as (m & Hm & Hq & Hw). set (a := measured s 0) in *. set (b := measured s (n_chan s - 1)) in *.
  assert (0 < (b - a) / INR (p - 1)) as Hh by (apply Rdiv_lt_0_compat; [lra|]; apply lt_0_INR; lia).
  rewrite (interp_segment (Some 0) (Some 0) (linspace a b p) _ m) by (exact Hq || (apply linspace_increasing; assumption) || (rewrite linspace_length; exact Hm)).
  rewrite !(low_at u0 s p _ f) by (assumption || lia). unfold sample_grid. cbv zeta. fold a b. rewrite Hw.
  exists (at_ (linspace a b p) m), ((measured s i - at_ (linspace a b p) m) / ((b - a) / INR (p - 1))). set (x := at_ (linspace a b p) m) in *. set (h := (b - a) / INR (p - 1)) in *. replace (at_ (linspace a b p) (S m)) with (x + h) in * by lra.
  split; [split|split; [|split]].
  - apply Rdiv_le_0_compat; lra.
  - apply Rmult_le_reg_r with h; [exact Hh|]. unfold Rdiv. rewrite Rmult_assoc, Rinv_l by lra. lra.
  - field. lra.
  - exact Hh.
  - field. lra.
Qed.

(** ** C121 *)
(** resampling errs by at most half a step times the spectrum's steepness *)
Theorem C121_error : forall evaluate_raw s p i f L, correct_k_dispersion s = true -> local evaluate_raw s f -> spans s -> (2 <= p)%nat -> (i < n_chan s)%nat ->
  (forall x y, measured s 0 <= x <= measured s (n_chan s - 1) -> measured s 0 <= y <= measured s (n_chan s - 1) -> Rabs (f x - f y) <= L * Rabs (x - y)) ->
  Rabs (raw evaluate_raw (Some p) s i - evaluate_raw s i) <= L / 2 * ((measured s (n_chan s - 1) - measured s 0) / INR (p - 1)).
Proof.
  intros er s p i f L Hc HL Hs Hp Hi HLip. rewrite (HL s i) by (reflexivity || exact Hi).
  destruct Hs as [H1 H2]. unfold raw. cbv zeta. unfold sample_grid at 1. cbv zeta.
  destruct (grid_cell _ _ p (measured s i) H1 Hp (H2 i Hi)) as (m & Hm & Hq & Hw). pose proof (linspace_at (measured s 0%nat) (measured s (n_chan s - 1)%nat) p m ltac:(lia)) as Em. pose proof (linspace_at (measured s 0%nat) (measured s (n_chan s - 1)%nat) p (S m) ltac:(lia)) as Em'.
  set (a := measured s 0%nat) in *. set (b := measured s (n_chan s - 1)%nat) in *.
  assert (0 < INR (p - 1)) as Hp1 by (apply lt_0_INR; lia). assert (0 < (b - a) / INR (p - 1)) as Hh by (apply Rdiv_lt_0_compat; lra).
  rewrite (interp_segment (Some 0) (Some 0) (linspace a b p) _ m) by (exact Hq || (apply linspace_increasing; assumption) || (rewrite linspace_length; exact Hm)).
  rewrite !(low_at er s p _ f) by (assumption || lia). unfold sample_grid. cbv zeta. fold a b. rewrite Hw.
  assert (INR (S m) <= INR (p - 1)) as Hm1 by (apply le_INR; lia). pose proof (pos_INR m) as Hm0. set (x := at_ (linspace a b p) m) in *. set (y := at_ (linspace a b p) (S m)) in *. set (h := (b - a) / INR (p - 1)) in *.
  assert (INR (p - 1) * h = b - a) as Hb by (unfold h; field; lra). assert (0 <= INR m * h) by (apply Rmult_le_pos; lra). assert (INR (S m) * h <= INR (p - 1) * h) by (apply Rmult_le_compat_r; lra).
  assert (a <= x) by lra. assert (y <= b) by lra. set (q := measured s i) in *. set (t := (q - x) / h). assert (q = x + t * h) as Et by (unfold t; field; lra).
  assert (0 <= t <= 1) as Ht. { split; [apply Rdiv_le_0_compat; lra|]. unfold t. apply Rmult_le_reg_r with h; [exact Hh|]. unfold Rdiv. rewrite Rmult_assoc, Rinv_l by lra. lra. }
  replace (f x + t * (f y - f x) - f q) with ((1 - t) * (f x - f q) + t * (f y - f q)) by ring.
  eapply Rle_trans; [apply Rabs_triang|]. rewrite !Rabs_mult. rewrite (Rabs_right (1 - t)), (Rabs_right t) by lra.
  pose proof (HLip x q ltac:(lra) ltac:(lra)) as A. pose proof (HLip y q ltac:(lra) ltac:(lra)) as B. rewrite (Rabs_left1 (x - q)) in A by lra. rewrite (Rabs_right (y - q)) in B by lra.
  assert ((1 - t) * Rabs (f x - f q) <= (1 - t) * (L * - (x - q))) as A1 by (apply Rmult_le_compat_l; lra). assert (t * Rabs (f y - f q) <= t * (L * (y - q))) as B1 by (apply Rmult_le_compat_l; lra).
  assert (0 <= L) as HL0. { pose proof (HLip a b ltac:(lra) ltac:(lra)) as C. pose proof (Rabs_pos (f a - f b)). rewrite (Rabs_left1 (a - b)) in C by lra. destruct (Rle_dec 0 L) as [|N]; [assumption|]. exfalso. assert (L * - (a - b) < 0 * - (a - b)) by (apply Rmult_lt_compat_r; lra). lra. }
  assert (- (x - q) = t * h) as E1 by lra. assert (y - q = (1 - t) * h) as E2 by (replace y with (x + h) by lra; rewrite Et; ring). rewrite E1 in A1. rewrite E2 in B1.
  assert (0 <= (1 - 2 * t) ^ 2 * (L * h)) as Q by (apply Rmult_le_pos; [apply pow2_ge_0|apply Rmult_le_pos; lra]).
  assert ((1 - t) * (L * (t * h)) + t * (L * ((1 - t) * h)) = L / 2 * h - (1 - 2 * t) ^ 2 * (L * h) / 2) by field. lra.
Qed.
Print Assumptions C121_error.
(** a spectrum linear in the energy comes out as without resampling *)
Theorem C121_exact : forall u evaluate_raw s p i a b, correct_k_dispersion s = true -> local evaluate_raw s (fun E => a + b * E) -> spans s -> (2 <= p)%nat ->
  evaluate u evaluate_raw (Some p) s i = evaluate u evaluate_raw None s i.
Proof.
  intros u er s p i a b Hc HL Hs Hp. unfold evaluate. f_equal. unfold convolve. f_equal. unfold conv_same, conv_full. set (m := (i + (n_chan s - 1) / 2)%nat). clearbody m.
  enough (forall n, (n <= n_chan s)%nat -> nsum n (fun j => if (j <=? m)%nat && (m - j <? n_chan s)%nat then raw er (Some p) s j * instrument s (conv_grid u s (m - j)) else 0) = nsum n (fun j => if (j <=? m)%nat && (m - j <? n_chan s)%nat then raw er None s j * instrument s (conv_grid u s (m - j)) else 0)) as H by (apply H; lia).
  induction n as [|n IH]; intros Hn; [reflexivity|]. cbn [nsum]. rewrite IH by lia. f_equal. destruct ((n <=? m)%nat && (m - n <? n_chan s)%nat); [|reflexivity]. f_equal.
  destruct (raw_chord er s p n _ Hc HL Hs Hp ltac:(lia)) as (x & t & Ht & E & _ & ->). cbn [raw]. rewrite (HL s n) by (reflexivity || lia). rewrite E. ring.
Qed.
Print Assumptions C121_exact.
(** with the dispersion correction switched off, the samples are taken with it: k_raw is
    the constant probed wavenumber without resampling *)
Definition k_raw (u : consts) (s : setup) (i : nat) : R := match full_k u s i with Some x => x | None => 0 end.
Theorem C121_dispersion_refuted : exists u s p i, correct_k_dispersion s = false /\ spans s /\ (2 <= p)%nat /\ (i < n_chan s)%nat /\
  (forall j, k_raw u s j = k u s) /\ evaluate u (k_raw u) (Some p) s i <> evaluate u (k_raw u) None s i.
Proof.
  set (s := mkSetup PI 1 2 (fun i => INR i + 1 / 2) (fun _ => 1) false 0). exists unit_consts, s, 2%nat, O. pose proof PI_RGT_0 as HPI.
  assert (k unit_consts s = 2) as Hk. { unfold k, lambda0, M_Const.planck. cbn. rewrite sin_PI2. field. lra. }
  assert (spans s) as Hs. { split; cbn; [lra|]. intros [|[|i]] Hi; cbn; lra || lia. }
  split; [reflexivity|]. split; [exact Hs|]. split; [lia|]. split; [cbn; lia|]. split; [reflexivity|].
  unfold evaluate, convolve, conv_same, conv_full, frc. cbn [n_chan instrument measured energy frc_exponent s nsum]. cbn [Nat.leb Nat.sub Nat.ltb Nat.div Nat.add Nat.divmod fst andb].
  assert (raw (k_raw unit_consts) None s 0 = 2) as E1 by (cbn [raw]; unfold k_raw, full_k; cbn [correct_k_dispersion s]; exact Hk).
  assert (raw (k_raw unit_consts) (Some 2%nat) s 0 = 3 / 2) as E2.
  { unfold raw. cbv zeta. unfold sample_grid at 1. cbv zeta. set (xs := linspace _ _ 2). assert (measured s 0 = at_ xs 0) as -> by (unfold xs; rewrite linspace_at by lia; cbn; lra).
    rewrite (interp_knot (Some 0) (Some 0) xs _ 0) by (try (unfold xs; rewrite linspace_length; lia); unfold xs; apply linspace_increasing; cbn; lra || lia).
    unfold at_. cbn [seq map nth]. unfold k_raw, full_k, low_res_setup, sqrto. cbn [correct_k_dispersion energy measured angle]. fold s.
    assert (at_ (sample_grid 2 s) 0 = 1 / 2) as -> by (unfold sample_grid; rewrite linspace_at by lia; cbn; lra). cbn. rewrite cos_PI.
    match goal with |- match (if Rlt_dec ?a 0 then _ else _) with _ => _ end = _ => replace a with ((3 / 2) * (3 / 2)) by field end. destruct (Rlt_dec (3 / 2 * (3 / 2)) 0) as [N|_]; [lra|apply sqrt_square; lra]. }
  rewrite E1, E2. assert (Rpower ((INR 0 + 1 / 2) / 1) 0 = 1) as EP by (unfold Rpower; rewrite Rmult_0_l; apply exp_0). rewrite EP. cbn. lra.
Qed.
Print Assumptions C121_dispersion_refuted.
Example C121_ex : let s := mkSetup PI 1 3 (fun i => INR i + 1) (fun w => exp (- w ^ 2)) true 1 in
  evaluate unit_consts (fun s i => 2 + 3 * measured s i) (Some 2%nat) s 1 = evaluate unit_consts (fun s i => 2 + 3 * measured s i) None s 1.
Proof.
  intros s. apply (C121_exact unit_consts (fun s i => 2 + 3 * measured s i) s 2 1 2 3); [reflexivity| |split; cbn; [lra|]|lia].
  - intros s' j _ _ _ _. reflexivity.
  - intros [|[|[|i]]] Hi; cbn; lra || lia.
Qed.
