(** C25: areas and widths of the super-Gaussian, and the remaining constructors
    of instrument_function.py. *)
From Coq Require Import Reals List Arith Lra Lia Psatz.
From Coquelicot Require Import Coquelicot.
From Verif Require Import M_Interp L_Interp L_Gauss M_Instrument L_Instrument L_SuperGauss P_Instrument.
Import ListNotations.
Open Scope R_scope.

(** Between -10 sigma and 10 sigma, where the norm is taken, the area is one to
    four per cent for every power. *)
Theorem C25_supergaussian_window : forall sigma p, 0 < sigma -> 0 < p ->
  exists v, is_RInt (fun x => instrument_supergaussian x sigma p) (- (10 * sigma)) (10 * sigma) v /\ Rabs (v - 1) <= 1 / 25.
Proof.
  intros sigma p Hs Hp. eexists. split; [now apply sg_window|].
  pose proof (sg_norm_lower sigma p Hs Hp) as NL. pose proof (sg_norm_close sigma p Hs Hp) as NC.
  set (N := sg_norm sigma p) in *. replace (/ N * (2 * sgP p 10) - 1) with ((2 * sgP p 10 - N) * / N) by (field; lra).
  rewrite Rabs_mult, (Rabs_pos_eq (/ N)) by (left; apply Rinv_0_lt_compat; lra).
  apply Rmult_le_reg_r with N; [lra|]. rewrite Rmult_assoc, Rinv_l by lra. lra.
Qed.
Print Assumptions C25_supergaussian_window.

(** Over all shifts it is one to five per cent for every power from one half on... *)
Theorem C25_supergaussian_area : forall sigma p, 0 < sigma -> 1 / 2 <= p ->
  exists v, is_RInt_gen (fun x => instrument_supergaussian x sigma p) (Rbar_locally m_infty) (Rbar_locally p_infty) v /\ Rabs (v - 1) <= 1 / 20.
Proof. exact sg_area. Qed.
Print Assumptions C25_supergaussian_area.

(** ...and has no bound for small powers, because the tail outside the window is
    not counted: the area is not one. *)
Theorem C25_supergaussian_area_unbounded : forall sigma M, 0 < sigma -> 0 < M ->
  exists p T v, 0 < p < 1 / 2 /\ 0 < T /\ is_RInt (fun x => instrument_supergaussian x sigma p) (- (T * sigma)) (T * sigma) v /\ M < v.
Proof.
  intros sigma M Hs HM. set (T := 20 + 200 * M). set (L := ln (1 / 2 * T ^ 2)).
  assert (HL : 2 * ln 2 < L).
  { replace (2 * ln 2) with (ln (2 * 2)) by (rewrite ln_mult by lra; ring). apply ln_increasing; [lra|]. unfold T. nra. }
  pose proof ln2_pos as H2. set (p := ln 2 / L).
  assert (Hp : 0 < p < 1 / 2).
  { unfold p. split; [apply Rdiv_lt_0_compat; lra|]. apply Rmult_lt_reg_r with L; [lra|]. unfold Rdiv. rewrite Rmult_assoc, Rinv_l by lra. lra. }
  exists p, T, (/ sg_norm sigma p * (2 * sgP p T)). split; [exact Hp|]. split; [unfold T; lra|]. split; [apply sg_window; lra|].
  assert (EF : sgF p T = exp (- (2))).
  { unfold sgF. rewrite rpow_pos by (unfold T; nra). unfold Rpower. fold L. unfold p.
    replace (ln 2 / L * L) with (ln 2) by (field; lra). rewrite exp_ln by lra. reflexivity. }
  assert (B : / 9 <= sgF p T).
  { rewrite EF, exp_Ropp. apply Rinv_le_contravar; [apply exp_pos|]. replace 2 with (1 + 1) by ring. rewrite exp_plus.
    pose proof exp_le_3. pose proof (exp_pos 1). nra. }
  assert (E0 : sgP p 0 = 0) by (unfold sgP; apply (RInt_point (V := R_CompleteNormedModule))).
  pose proof (sgP_lower p 0 T ltac:(lra) ltac:(unfold T; lra)) as LT. rewrite E0 in LT.
  assert (LT2 : T / 9 <= sgP p T) by (unfold T in *; nra).
  pose proof (sg_norm_upper sigma p Hs ltac:(lra)) as NU. pose proof (sg_norm_pos sigma p Hs) as NP.
  apply Rmult_lt_reg_l with (sg_norm sigma p); [assumption|]. rewrite <- Rmult_assoc, Rinv_r by lra. rewrite Rmult_1_l.
  unfold T in *. nra.
Qed.
Print Assumptions C25_supergaussian_area_unbounded.

(** The width at half maximum is 2 sigma sqrt(2 (ln 2)^(1/p)), for every power;
    nowhere else on the positive side is the value half the peak. *)
Theorem C25_supergaussian_true_width : forall sigma p, 0 < sigma -> 0 < p ->
  let w := sigma * sqrt (2 * Rpower (ln 2) (/ p)) in
  instrument_supergaussian w sigma p = instrument_supergaussian 0 sigma p / 2 /\
  (forall x y, 0 <= x < y -> instrument_supergaussian y sigma p < instrument_supergaussian x sigma p) /\
  (forall x, 0 <= x -> instrument_supergaussian x sigma p = instrument_supergaussian 0 sigma p / 2 -> x = w).
Proof.
  intros sigma p Hs Hp w. pose proof (sg_norm_pos sigma p Hs) as HN. pose proof ln2_pos as H2.
  set (q := Rpower (ln 2) (/ p)). assert (Hq : 0 < q) by apply exp_pos.
  assert (HD : 0 < sg_norm sigma p * sigma) by (now apply Rmult_lt_0_compat).
  assert (E : instrument_supergaussian w sigma p = instrument_supergaussian 0 sigma p / 2).
  { unfold instrument_supergaussian. replace (1 / 2 * 0 ^ 2 / sigma ^ 2) with 0 by (field; lra). rewrite rpow_0, Ropp_0, exp_0 by assumption.
    replace (1 / 2 * w ^ 2 / sigma ^ 2) with q.
    - rewrite rpow_pos by assumption. unfold q. rewrite Rpower_mult, Rinv_l, Rpower_1, exp_Ropp, exp_ln by lra. field. lra.
    - unfold w. fold q. replace (1 / 2 * (sigma * sqrt (2 * q)) ^ 2 / sigma ^ 2) with (1 / 2 * (sqrt (2 * q) * sqrt (2 * q))) by (field; lra).
      rewrite sqrt_sqrt by lra. lra. }
  assert (D : forall x y, 0 <= x < y -> instrument_supergaussian y sigma p < instrument_supergaussian x sigma p).
  { intros x y Hxy. unfold instrument_supergaussian. apply Rmult_lt_compat_r; [now apply Rinv_0_lt_compat|].
    apply exp_increasing, Ropp_lt_contravar.
    assert (S2 : 0 < / sigma ^ 2) by (apply Rinv_0_lt_compat; nra).
    assert (0 <= 1 / 2 * x ^ 2 / sigma ^ 2) as [Hx|Hx]. { unfold Rdiv at 2. apply Rmult_le_pos; [nra|lra]. }
    - assert (1 / 2 * x ^ 2 / sigma ^ 2 < 1 / 2 * y ^ 2 / sigma ^ 2). { unfold Rdiv at 2 4. apply Rmult_lt_compat_r; [assumption|nra]. }
      rewrite !rpow_pos by lra. apply Rlt_Rpower_l; lra.
    - rewrite <- Hx, rpow_0 by assumption. assert (0 < 1 / 2 * y ^ 2 / sigma ^ 2) by (unfold Rdiv at 2; apply Rmult_lt_0_compat; [nra|lra]).
      rewrite rpow_pos by assumption. apply exp_pos. }
  split; [exact E|]. split; [exact D|]. intros x Hx Ex. rewrite <- E in Ex.
  assert (Hw : 0 <= w) by (unfold w; apply Rmult_le_pos; [lra|apply sqrt_pos]).
  destruct (Rtotal_order x w) as [H|[H|H]]; [|exact H|].
  - specialize (D x w ltac:(lra)). lra.
  - specialize (D w x ltac:(lra)). lra.
Qed.
Print Assumptions C25_supergaussian_true_width.

(** A width given in energy is the same as that width over hbar in frequency, on
    each side of its own; each side needs a width. *)
Theorem C25_twin_construction : forall (hb : R) (e1 e2 : bool) (s1 s2 f1 f2 : option R),
  (twin_init hb e1 e2 s1 s2 f1 f2 = None <-> (s1 = None /\ f1 = None) \/ (s2 = None /\ f2 = None)) /\
  (forall a b, twin_init hb e1 e2 (Some a) (Some b) None None = Some ((if e1 then a / hb else a), (if e2 then b / hb else b))) /\
  (forall a b, twin_init hb e1 e2 s1 s2 (Some a) (Some b) =
     Some ((if e1 then a / (2 * sqrt (2 * ln 2)) / hb else a / (2 * sqrt (2 * ln 2))), (if e2 then b / (2 * sqrt (2 * ln 2)) / hb else b / (2 * sqrt (2 * ln 2))))).
Proof.
  intros. split; [|split]; [|reflexivity|reflexivity].
  destruct s1, s2, f1, f2; cbn; split; try (intros [[? ?]|[? ?]]; congruence); try discriminate; intros _; auto.
Qed.
Print Assumptions C25_twin_construction.
Theorem C25_super_construction : forall (hb p : R) (e : bool) (s f : option R),
  (super_init hb p e s f = None <-> s = None /\ f = None) /\
  (forall a, super_init hb p e (Some a) None = Some ((if e then a / hb else a), p)) /\
  (forall a, super_init hb p e s (Some a) = Some ((if e then a / (2 * sqrt (2 * ln 2)) / hb else a / (2 * sqrt (2 * ln 2))), p)) /\
  (forall g, 0 < g -> 0 < hb -> forall x, instrument_lorentzian (x / hb) (lorentz_init hb true g) = hb * instrument_lorentzian x (lorentz_init hb false g)).
Proof.
  intros. split; [|split; [|split]]; try reflexivity.
  - destruct s, f; cbn; split; try (intros [? ?]; congruence); try discriminate; auto.
  - intros g Hg Hh x. unfold instrument_lorentzian, lorentz_init. pose proof PI_RGT_0.
    replace (x / hb / (g / hb)) with (x / g) by (field; lra). pose proof (pow2_ge_0 (x / g)). field.
    repeat split; try lra. replace (g ^ 2 + x ^ 2) with (g * g * (1 + (x / g) ^ 2)) by (field; lra). nra.
Qed.
Print Assumptions C25_super_construction.

(** A file with shifts in rising order gives a function of area one through the
    points of the file; its unit only rescales the axis. *)
Theorem C25_from_file : forall (unit hb : R) (e : bool) (rows : list (R * R)), 0 < unit -> 0 < hb ->
  (forall i j, (i < j < length rows)%nat -> fst (nth i rows (0, 0)) < fst (nth j rows (0, 0))) ->
  (2 <= length rows)%nat -> trapz (map fst rows) (map snd rows) <> 0 ->
  let c := if e then unit / hb else unit in
  is_RInt_gen (instrument_from_file unit hb e rows) (Rbar_locally m_infty) (Rbar_locally p_infty) 1 /\
  (forall i, (i < length rows)%nat -> instrument_from_file unit hb e rows (c * fst (nth i rows (0, 0))) =
     snd (nth i rows (0, 0)) / (c * trapz (map fst rows) (map snd rows))).
Proof.
  intros unit hb e rows Hu Hh Hinc Hn Ht c.
  assert (Hc : 0 < c) by (unfold c; destruct e; [now apply Rdiv_lt_0_compat|assumption]).
  assert (EW : fst (from_rows unit hb e rows) = map (fun x => c * x) (map fst rows)).
  { unfold from_rows. cbn [fst]. rewrite map_map. apply map_ext. intros r. unfold c. destruct e; [unfold Rdiv; ring|reflexivity]. }
  assert (NW : forall i, (i < length rows)%nat -> nth i (map (fun x => c * x) (map fst rows)) 0 = c * fst (nth i rows (0, 0))).
  { intros i Hi. rewrite map_map. rewrite (nth_indep _ 0 (c * fst (0, 0))) by (rewrite map_length; assumption).
    exact (map_nth (fun r : R * R => c * fst r) rows (0, 0) i). }
  assert (NI : forall i, nth i (map snd rows) 0 = snd (nth i rows (0, 0))) by (intros i; exact (map_nth snd rows (0, 0) i)).
  assert (TT : trapz (map (fun x => c * x) (map fst rows)) (map snd rows) = c * trapz (map fst rows) (map snd rows)) by apply trapz_map_scale.
  destruct (C25_tabulated (map (fun x => c * x) (map fst rows)) (map snd rows)) as (A & K & _).
  - intros i j Hij. rewrite !map_length in Hij. rewrite !NW by lia. apply Rmult_lt_compat_l; [assumption|]. now apply Hinc.
  - now rewrite !map_length.
  - now rewrite !map_length.
  - rewrite TT. apply Rmult_integral_contrapositive. split; [lra|assumption].
  - split.
    + unfold instrument_from_file. rewrite EW. exact A.
    + intros i Hi. unfold instrument_from_file. rewrite EW, <- NW by assumption. rewrite K by (rewrite !map_length; assumption). rewrite NI, TT. reflexivity.
Qed.
Print Assumptions C25_from_file.

(** A file with falling shifts is normalised by minus its area, so every value
    stored has the wrong sign (and [interp] then reads a table out of order). *)
Theorem C25_falling_file_refuted : exists rows, (2 <= length rows)%nat /\
  (forall r, In r rows -> 0 < snd r) /\ (forall y, In y (from_array_ints (map fst rows) (map snd rows)) -> y < 0).
Proof.
  exists [(1, 1); (0, 2); (-1, 1)]. split; [cbn; lia|]. split.
  - intros r [<-|[<-|[<-|[]]]]; cbn; lra.
  - intros y. unfold from_array_ints. cbn [map fst snd trapz]. intros [<-|[<-|[<-|[]]]]; lra.
Qed.
Print Assumptions C25_falling_file_refuted.

Example C25_window_met : exists v, is_RInt (fun x => instrument_supergaussian x 2 3) (- (10 * 2)) (10 * 2) v /\ Rabs (v - 1) <= 1 / 25.
Proof. apply C25_supergaussian_window; lra. Qed.
Example C25_area_met : exists v, is_RInt_gen (fun x => instrument_supergaussian x 2 3) (Rbar_locally m_infty) (Rbar_locally p_infty) v /\ Rabs (v - 1) <= 1 / 20.
Proof. apply C25_supergaussian_area; lra. Qed.
Example C25_from_file_met : instrument_from_file 2 1 true [(-1, 1); (0, 4); (2, 2)] (2 / 1 * 0) = 4 / (2 / 1 * (17 / 2)).
Proof.
  assert (Ht : trapz (map fst [(-1, 1); (0, 4); (2, 2)]) (map snd [(-1, 1); (0, 4); (2, 2)]) = 17 / 2) by (cbn; lra). rewrite <- Ht.
  apply (C25_from_file 2 1 true [(-1, 1); (0, 4); (2, 2)]) with (i := 1%nat); cbn [length]; try lra; try lia.
  intros i j Hij. destruct i as [|[|[|i]]], j as [|[|[|j]]]; cbn in *; try lia; lra.
Qed.
