(** Property C130: temperature and moments of a recorded spectrum. *)
From Coq Require Import Reals List Arith Lra Lia ZArith.
From Coquelicot Require Import Coquelicot.
From Verif Require Import M_Const M_Setup L_Setup M_Interp M_Analysis L_Analysis M_PlasmaState M_Ionization M_ITCF L_IonFeature L_ITCF.
Import ListNotations.
Open Scope R_scope.

(** A spectrometer with equidistant channels, one of them at the probe energy; the
    instrument function is at most [b], the spectrum [Sf] of the sample (a function
    of the energy loss) at most [a] channels wide to either side, both fit in; all
    channels lie within the cut-off. *)
Definition spectrometer u small s E0 h c m0 a b (Sf : R -> R) : Prop :=
  0 < small /\ 0 < h /\
  (forall m, (m < n_chan s)%nat -> measured s m = E0 + INR m * h) /\ energy s = E0 + INR m0 * h /\
  (a + b < m0)%nat /\ (m0 + a + b + 1 < n_chan s)%nat /\
  (forall w, INR b * h / hbar u < Rabs w -> instrument s w = 0) /\
  (forall e, INR a * h < Rabs e -> Sf e = 0) /\
  INR m0 * h + small <= c /\ INR (n_chan s - 1 - m0) * h + small <= c.

(** The deconvolution is exact: the recorded spectrum is what the package's own
    convolution makes of the sample's, the result its Laplace transform. *)
Theorem C130_deconvolution : forall u small s E0 h c m0 a b Sf, spectrometer u small s E0 h c m0 a b Sf ->
  forall tau, zsum b (fun z => instrument s (z * h / hbar u) * exp (tau * (z * h))) <> 0 ->
  ITCF_from_setup u small (map (convolve u s (fun j => Sf (energy s - measured s j))) (seq 0 (n_chan s))) s c false tau =
  Some (h / hbar u * zsum a (fun z => Sf (z * h) * exp (- tau * (z * h)))).
Proof.
  intros u small s E0 h c m0 a b Sf (P1 & P2 & P3 & P4 & P5 & P6 & P7 & P8 & P9 & P10) tau Hi.
  pose proof (L_instrument u small s E0 h c m0 a b P1 P2 P3 P4 P5 P6 P7 P9 P10 tau) as EI.
  pose proof (L_recorded u small s E0 h c m0 a b Sf P1 P2 P3 P4 P5 P6 P7 P8 P9 P10 tau) as ER.
  unfold ITCF_from_setup, ITCF_F. unfold recorded, sample in ER. rewrite EI, ER. unfold instrument_sum, sample_sum.
  set (Q := zsum b _) in *. pose proof (hbar_pos u) as Hb. assert (0 < h / hbar u) by (now apply Rdiv_lt_0_compat).
  destruct (Req_EM_T (h / hbar u * Q) 0) as [Z|Z].
  - apply Rmult_integral in Z. destruct Z; [lra|contradiction].
  - f_equal. set (W := h / hbar u) in *. field. split; [exact Hi|lra].
Qed.
Print Assumptions C130_deconvolution.

Lemma instrument_positive s u h b tau : (forall w, 0 <= instrument s w) ->
  (exists z, Rabs (IZR z) <= INR b /\ 0 < instrument s (IZR z * h / hbar u)) ->
  0 < zsum b (fun z => instrument s (z * h / hbar u) * exp (tau * (z * h))).
Proof.
  intros H (z & Hz & Hp). apply (zsum_pos _ _ z); [|exact Hz|].
  - intros x _. apply Rmult_le_pos; [apply H|left; apply exp_pos].
  - apply Rmult_lt_0_compat; [exact Hp|apply exp_pos].
Qed.

(** The static structure factor and the f-sum *)
Theorem C130_moments : forall u small keV s E0 h c m0 a b Sf, spectrometer u small s E0 h c m0 a b Sf -> 0 < keV ->
  (forall w, 0 <= instrument s w) -> (exists z, Rabs (IZR z) <= INR b /\ 0 < instrument s (IZR z * h / hbar u)) ->
  let S_ee := map (convolve u s (fun j => Sf (energy s - measured s j))) (seq 0 (n_chan s)) in
  ITCF_ssf u small keV S_ee s c false = Some (zsum a (fun z => Sf (z * h)) * (h / hbar u)) /\
  ITCF_fsum u small keV S_ee s c false = Some (- zsum a (fun z => z * h * Sf (z * h)) * (h / hbar u)).
Proof.
  intros u small keV s E0 h c m0 a b Sf HS Hk Hi Hp S_ee.
  assert (HF : forall tau, ITCF_from_setup u small S_ee s c false tau = Some (h / hbar u * zsum a (fun z => Sf (z * h) * exp (- tau * (z * h))))).
  { intros tau. apply (C130_deconvolution u small s E0 h c m0 a b Sf HS). apply Rgt_not_eq. now apply instrument_positive. }
  split.
  - unfold ITCF_ssf, ITCF__F. rewrite HF. f_equal. rewrite Rmult_comm. f_equal. apply zsum_ext. intros x _.
    replace (- (0 / keV) * (x * h)) with 0 by (field; lra). rewrite exp_0. ring.
  - unfold ITCF_fsum, ITCF__F. rewrite HF. cbn [obind]. f_equal.
    rewrite (Derive_ext _ (fun t => h / hbar u * zsum a (fun z => Sf (z * h) * exp (- (t / keV) * (z * h))))) by (intros t; now rewrite HF).
    assert (HD : is_derive (fun t => h / hbar u * zsum a (fun z => Sf (z * h) * exp (- (t / keV) * (z * h)))) 0
      (h / hbar u * zsum a (fun z => - / keV * (z * h * Sf (z * h))))).
    { apply (is_derive_scal (fun t => zsum a (fun z => Sf (z * h) * exp (- (t / keV) * (z * h)))) 0 (h / hbar u)).
      apply (zsum_derive a (fun t z => Sf (z * h) * exp (- (t / keV) * (z * h)))). intros x. auto_derive; [exact I|].
      replace (- (0 * / keV) * (x * h)) with 0 by ring. rewrite exp_0. ring. }
    etransitivity; [apply (f_equal (fun d => d * keV)); exact (is_derive_unique _ _ _ HD)|]. rewrite zsum_scal. field. pose proof (hbar_pos u). lra.
Qed.
Print Assumptions C130_moments.

(** ** Detailed balance *)
Lemma cosh_mono p q : Rabs p < Rabs q -> exp p + exp (- p) < exp q + exp (- q).
Proof.
  assert (K : forall x, exp (Rabs x) + exp (- Rabs x) = exp x + exp (- x)).
  { intros x. unfold Rabs. destruct (Rcase_abs x); [rewrite Ropp_involutive; ring|reflexivity]. }
  intros H. rewrite <- (K p), <- (K q). pose proof (Rabs_pos p). set (P := Rabs p) in *. set (Q := Rabs q) in *.
  assert (E : exp Q + exp (- Q) - (exp P + exp (- P)) = (exp Q - exp P) * (1 - exp (- P + - Q))).
  { rewrite exp_plus, !exp_Ropp. pose proof (exp_pos P). pose proof (exp_pos Q). field. split; lra. }
  assert (exp P < exp Q) by (now apply exp_increasing).
  assert (exp (- P + - Q) < 1) by (rewrite <- exp_0; apply exp_increasing; lra).
  assert (0 < (exp Q - exp P) * (1 - exp (- P + - Q))) by (apply Rmult_lt_0_compat; lra). lra.
Qed.
Section Balance.
  Variables (Sf : R -> R) (beta h : R) (a : nat).
  Hypothesis Hh : 0 < h.
  Hypothesis Hbal : forall e, Sf (- e) = exp (- beta * e) * Sf e.
  Hypothesis Hpos : forall e, 0 <= Sf e.
  Hypothesis Hsig : exists z : Z, z <> 0%Z /\ Rabs (IZR z) <= INR a /\ 0 < Sf (IZR z * h).
  Let F (t : R) := zsum a (fun z => Sf (z * h) * exp (- t * (z * h))).
  Lemma F_even t : 2 * F t = zsum a (fun z => Sf (z * h) * exp (- (beta / 2) * (z * h)) * (exp ((t - beta / 2) * (z * h)) + exp (- ((t - beta / 2) * (z * h))))).
  Proof.
    replace (2 * F t) with (F t + F t) by ring. unfold F at 2. rewrite <- zsum_opp. unfold F. rewrite <- zsum_plus. apply zsum_ext. intros x _.
    replace (- x * h) with (- (x * h)) by ring. rewrite Hbal.
    rewrite Rmult_plus_distr_l, !Rmult_assoc, <- !exp_plus.
    replace (- t * - (x * h)) with (t * (x * h)) by ring.
    replace (exp (- beta * (x * h)) * (Sf (x * h) * exp (t * (x * h)))) with (Sf (x * h) * exp (- beta * (x * h) + t * (x * h))) by (rewrite exp_plus; ring).
    rewrite Rplus_comm. f_equal; f_equal; f_equal; field.
  Qed.
  Lemma F_mono t t' : Rabs (t - beta / 2) < Rabs (t' - beta / 2) -> F t < F t'.
  Proof.
    intros H. enough (0 < 2 * F t' + (-1) * (2 * F t)) by lra. rewrite !F_even, <- zsum_scal, <- zsum_plus.
    assert (K : forall x, 0 <= exp ((t' - beta / 2) * (x * h)) + exp (- ((t' - beta / 2) * (x * h))) - (exp ((t - beta / 2) * (x * h)) + exp (- ((t - beta / 2) * (x * h)))) /\
      (x <> 0 -> 0 < exp ((t' - beta / 2) * (x * h)) + exp (- ((t' - beta / 2) * (x * h))) - (exp ((t - beta / 2) * (x * h)) + exp (- ((t - beta / 2) * (x * h)))))).
    { intros x. destruct (Req_dec x 0) as [->|Hx].
      - split; [|lra]. replace ((t' - beta / 2) * (0 * h)) with 0 by ring. replace ((t - beta / 2) * (0 * h)) with 0 by ring. lra.
      - assert (0 < exp ((t' - beta / 2) * (x * h)) + exp (- ((t' - beta / 2) * (x * h))) - (exp ((t - beta / 2) * (x * h)) + exp (- ((t - beta / 2) * (x * h))))); [|lra].
        apply Rlt_Rminus. apply cosh_mono. rewrite !Rabs_mult. apply Rmult_lt_compat_r; [|exact H].
        rewrite <- Rabs_mult. apply Rabs_pos_lt. apply Rmult_integral_contrapositive. lra. }
    destruct Hsig as (z & Hz0 & Hza & Hzp). apply (zsum_pos a _ z); [|exact Hza|].
    - intros x _. destruct (K x) as [K1 _]. pose proof (exp_pos (- (beta / 2) * (x * h))) as E. pose proof (Hpos (x * h)) as P.
      assert (0 <= Sf (x * h) * exp (- (beta / 2) * (x * h))) as Q by (apply Rmult_le_pos; lra).
      pose proof (Rmult_le_pos _ _ Q K1). lra.
    - destruct (K (IZR z)) as [_ K2]. specialize (K2 ltac:(now apply not_0_IZR)). pose proof (exp_pos (- (beta / 2) * (IZR z * h))) as E.
      assert (0 < Sf (IZR z * h) * exp (- (beta / 2) * (IZR z * h))) as Q by (now apply Rmult_lt_0_compat).
      pose proof (Rmult_lt_0_compat _ _ Q K2). lra.
  Qed.
End Balance.

(** argmin returns the first smallest entry *)
Lemma argmin_from_spec l i best m : 
  let r := argmin_from l i best m in
  (r = best /\ (forall x, In x l -> m <= x)) \/ (exists j, r = (i + j)%nat /\ (j < length l)%nat /\ nth j l 0 < m /\ (forall x, In x l -> nth j l 0 <= x)).
Proof.
  revert i best m. induction l as [|x l IH]; intros i best m r.
  - left. split; [reflexivity|intros x []].
  - unfold r. cbn [argmin_from]. destruct (Rlt_dec x m) as [L|L].
    + right. destruct (IH (S i) i x) as [[E H]|(j & E & Hj & Hl & H)].
      * exists 0%nat. rewrite E, Nat.add_0_r. repeat split; cbn; try lia; try lra. intros y [<-|Hy]; [lra|now apply H].
      * exists (S j). rewrite E. repeat split; cbn; try lia; try lra. intros y [<-|Hy]; [lra|now apply H].
    + destruct (IH (S i) best m) as [[E H]|(j & E & Hj & Hl & H)].
      * left. rewrite E. split; [reflexivity|]. intros y [<-|Hy]; [lra|now apply H].
      * right. exists (S j). rewrite E. repeat split; cbn; try lia; try lra. intros y [<-|Hy]; [lra|now apply H].
Qed.
Lemma argmin_spec l : l <> [] -> exists i, argmin l = Some i /\ (i < length l)%nat /\ forall x, In x l -> nth i l 0 <= x.
Proof.
  destruct l as [|x l]; intros H; [congruence|]. cbn [argmin]. destruct (argmin_from_spec l 1 0 x) as [[E K]|(j & E & Hj & Hl & K)]; rewrite E.
  - exists 0%nat. split; [reflexivity|]. split; [cbn; lia|]. intros y [<-|Hy]; cbn; [lra|now apply K].
  - exists (1 + j)%nat. split; [reflexivity|]. split; [cbn; lia|]. intros y [<-|Hy]; cbn; [lra|now apply K].
Qed.

Section Thermo.
  Variables (u : consts) (small : R) (s : setup) (E0 h c : R) (m0 a b : nat) (Sf : R -> R) (T : R).
  Hypothesis HS : spectrometer u small s E0 h c m0 a b Sf.
  Hypothesis Hi : forall w, 0 <= instrument s w.
  Hypothesis Hp : exists z, Rabs (IZR z) <= INR b /\ 0 < instrument s (IZR z * h / hbar u).
  Let S_ee := map (convolve u s (fun j => Sf (energy s - measured s j))) (seq 0 (n_chan s)).
  Lemma grid_values taus : seq_opt (map2 qdiv (map (fun t => twoSidedLaplace (hbar u) small S_ee t (E_shift s) (- c) c) taus)
     (map (fun t => twoSidedLaplace (hbar u) small (inst_list u s) t (E_shift s) (- c) c) taus)) =
     Some (map (fun t => h / hbar u * zsum a (fun z => Sf (z * h) * exp (- t * (z * h)))) taus).
  Proof.
    destruct HS as (P1 & P2 & P3 & P4 & P5 & P6 & P7 & P8 & P9 & P10).
    induction taus as [|t l IH]; [reflexivity|]. cbn [map map2 seq_opt]. rewrite IH.
    pose proof (L_instrument u small s E0 h c m0 a b P1 P2 P3 P4 P5 P6 P7 P9 P10 t) as EI.
    pose proof (L_recorded u small s E0 h c m0 a b Sf P1 P2 P3 P4 P5 P6 P7 P8 P9 P10 t) as ER.
    unfold recorded, sample in ER. fold S_ee in ER. rewrite EI, ER. unfold instrument_sum, sample_sum.
    pose proof (instrument_positive s u h b t Hi Hp) as Q. pose proof (hbar_pos u). assert (0 < h / hbar u) by (now apply Rdiv_lt_0_compat).
    assert (N : h / hbar u * zsum b (fun z => instrument s (z * h / hbar u) * exp (t * (z * h))) <> 0) by (apply Rgt_not_eq; now apply Rmult_lt_0_compat).
    rewrite qdiv_some by exact N. cbn [obind]. f_equal. f_equal. set (W := h / hbar u) in *. set (I0 := zsum b _) in *. field. split; lra.
  Qed.
End Thermo.

(** The temperature found on a grid belongs to the grid point closest to 1/(2 k_B T). *)
Theorem C130_thermometer : forall u small s E0 h c m0 a b Sf T, spectrometer u small s E0 h c m0 a b Sf ->
  (forall w, 0 <= instrument s w) -> (exists z, Rabs (IZR z) <= INR b /\ 0 < instrument s (IZR z * h / hbar u)) ->
  0 < T -> (forall e, Sf (- e) = exp (- (1 / (kB u * T)) * e) * Sf e) -> (forall e, 0 <= Sf e) ->
  (exists z : Z, z <> 0%Z /\ Rabs (IZR z) <= INR a /\ 0 < Sf (IZR z * h)) ->
  forall taus, taus <> [] -> (forall t, In t taus -> 0 < t) ->
  let S_ee := map (convolve u s (fun j => Sf (energy s - measured s j))) (seq 0 (n_chan s)) in
  exists tau L, ITCFT_grid u small S_ee taus s c = Some (1 / (2 * tau * kB u), L) /\ In tau taus /\
    (forall t, In t taus -> Rabs (tau - 1 / (2 * kB u * T)) <= Rabs (t - 1 / (2 * kB u * T))) /\
    L = map (fun t => h / hbar u * zsum a (fun z => Sf (z * h) * exp (- t * (z * h)))) taus.
Proof.
  intros u small s E0 h c m0 a b Sf T HS Hi Hp HT Hbal Hpos Hsig taus Hne Ht S_ee.
  set (G := fun t => h / hbar u * zsum a (fun z => Sf (z * h) * exp (- t * (z * h)))).
  destruct (argmin_spec (map G taus)) as (i & Ei & Hlt & Hmin); [destruct taus; [congruence|discriminate]|]. rewrite map_length in Hlt.
  exists (nth i taus 0), (map G taus). pose proof (kB_pos u) as Hk. pose proof (hbar_pos u) as Hb. assert (Hh : 0 < h) by apply HS.
  assert (Hin : In (nth i taus 0) taus) by (now apply nth_In).
  split; [|split; [exact Hin|split; [|reflexivity]]].
  - unfold ITCFT_grid, ITCFT_grid_. unfold S_ee. rewrite (grid_values u small s E0 h c m0 a b Sf HS Hi Hp taus). cbn [obind]. fold G. rewrite Ei. cbn [obind].
    rewrite qdiv_some; [reflexivity|]. specialize (Ht _ Hin). apply Rgt_not_eq. apply Rmult_lt_0_compat; lra.
  - intros t Hint. destruct (Rle_dec (Rabs (nth i taus 0 - 1 / (2 * kB u * T))) (Rabs (t - 1 / (2 * kB u * T)))) as [L|L]; [exact L|]. exfalso.
    assert (E2 : 1 / (2 * kB u * T) = 1 / (kB u * T) / 2) by (field; split; lra). rewrite !E2 in L. apply Rnot_le_lt in L.
    pose proof (F_mono Sf (1 / (kB u * T)) h a Hh Hbal Hpos Hsig _ _ L) as HF.
    specialize (Hmin (G t) (in_map G _ _ Hint)). rewrite (nth_indep _ 0 (G 0)) in Hmin by (now rewrite map_length). rewrite map_nth in Hmin.
    assert (0 < h / hbar u) by (now apply Rdiv_lt_0_compat). unfold G in Hmin. apply Rmult_le_reg_l in Hmin; [|assumption]. lra.
Qed.
Print Assumptions C130_thermometer.

(** It is the temperature if that grid point is there; *)
Theorem C130_thermometer_exact : forall u small s E0 h c m0 a b Sf T, spectrometer u small s E0 h c m0 a b Sf ->
  (forall w, 0 <= instrument s w) -> (exists z, Rabs (IZR z) <= INR b /\ 0 < instrument s (IZR z * h / hbar u)) ->
  0 < T -> (forall e, Sf (- e) = exp (- (1 / (kB u * T)) * e) * Sf e) -> (forall e, 0 <= Sf e) ->
  (exists z : Z, z <> 0%Z /\ Rabs (IZR z) <= INR a /\ 0 < Sf (IZR z * h)) ->
  forall taus, (forall t, In t taus -> 0 < t) -> In (1 / (2 * kB u * T)) taus ->
  exists L, ITCFT_grid u small (map (convolve u s (fun j => Sf (energy s - measured s j))) (seq 0 (n_chan s))) taus s c = Some (T, L).
Proof.
  intros u small s E0 h c m0 a b Sf T HS Hi Hp HT Hbal Hpos Hsig taus Ht Hin.
  destruct (C130_thermometer u small s E0 h c m0 a b Sf T HS Hi Hp HT Hbal Hpos Hsig taus ltac:(intros ->; destruct Hin) Ht) as (tau & L & E & _ & K & _).
  exists L. rewrite E. specialize (K _ Hin). rewrite (Rminus_diag_eq (1 / _) (1 / _)), Rabs_R0 in K by reflexivity.
  assert (Z : tau - 1 / (2 * kB u * T) = 0) by (apply Rabs_eq_0; pose proof (Rabs_pos (tau - 1 / (2 * kB u * T))); lra).
  replace tau with (1 / (2 * kB u * T)) by lra. f_equal. f_equal. pose proof (kB_pos u). field. split; lra.
Qed.
Print Assumptions C130_thermometer_exact.

(** and only there has the deconvolved function its minimum. *)
Theorem C130_minimum : forall u small s E0 h c m0 a b Sf T, spectrometer u small s E0 h c m0 a b Sf ->
  (forall w, 0 <= instrument s w) -> (exists z, Rabs (IZR z) <= INR b /\ 0 < instrument s (IZR z * h / hbar u)) ->
  0 < T -> (forall e, Sf (- e) = exp (- (1 / (kB u * T)) * e) * Sf e) -> (forall e, 0 <= Sf e) ->
  (exists z : Z, z <> 0%Z /\ Rabs (IZR z) <= INR a /\ 0 < Sf (IZR z * h)) ->
  let F := ITCF_from_setup u small (map (convolve u s (fun j => Sf (energy s - measured s j))) (seq 0 (n_chan s))) s c false in
  forall t t', Rabs (t - 1 / (2 * kB u * T)) < Rabs (t' - 1 / (2 * kB u * T)) -> exists f f', F t = Some f /\ F t' = Some f' /\ 0 < f < f'.
Proof.
  intros u small s E0 h c m0 a b Sf T HS Hi Hp HT Hbal Hpos Hsig F t t' Hlt.
  pose proof (kB_pos u) as Hk. pose proof (hbar_pos u) as Hb. assert (Hh : 0 < h) by apply HS. assert (0 < h / hbar u) by (now apply Rdiv_lt_0_compat).
  unfold F. rewrite !(C130_deconvolution u small s E0 h c m0 a b Sf HS) by (apply Rgt_not_eq; now apply instrument_positive).
  do 2 eexists. split; [reflexivity|]. split; [reflexivity|]. split.
  - apply Rmult_lt_0_compat; [assumption|]. destruct Hsig as (z & _ & Hz & Hzp). apply (zsum_pos _ _ z); [|exact Hz|].
    + intros x _. apply Rmult_le_pos; [apply Hpos|left; apply exp_pos].
    + apply Rmult_lt_0_compat; [exact Hzp|apply exp_pos].
  - apply Rmult_lt_compat_l; [assumption|]. assert (E2 : 1 / (2 * kB u * T) = 1 / (kB u * T) / 2) by (field; split; lra). rewrite !E2 in Hlt.
    exact (F_mono Sf (1 / (kB u * T)) h a Hh Hbal Hpos Hsig _ _ Hlt).
Qed.
Print Assumptions C130_minimum.

(** Hypotheses met: unit constants, T = 1, seven channels around the probe energy 10,
    lines at -1, 0 and 1, an instrument one channel wide and asymmetric. *)
Definition ex_Sf (e : R) : R := if Rle_dec (Rabs e) 1 then exp (e / 2) else 0.
Definition ex_inst (w : R) : R := if Rle_dec (Rabs w) 1 then 2 + w else 0.
Definition ex_setup : setup := mkSetup 1 10 7 (fun m => 7 + INR m * 1) ex_inst true 0.
Example C130_met : spectrometer unit_consts (1 / 100) ex_setup 7 1 4 3 1 1 ex_Sf /\
  exists L, ITCFT_grid unit_consts (1 / 100) (map (convolve unit_consts ex_setup (fun j => ex_Sf (energy ex_setup - measured ex_setup j))) (seq 0 7)) [1 / 4; 1 / 2; 1] ex_setup 4 = Some (1, L).
Proof.
  assert (HS : spectrometer unit_consts (1 / 100) ex_setup 7 1 4 3 1 1 ex_Sf).
  { unfold spectrometer. cbn [n_chan measured energy instrument ex_setup hbar unit_consts]. repeat split; try lra; try lia.
    - cbn. lra.
    - intros w Hw. unfold ex_inst. cbn in Hw. destruct (Rle_dec _ _); [lra|reflexivity].
    - intros w Hw. unfold ex_Sf. cbn in Hw. destruct (Rle_dec _ _); [lra|reflexivity].
    - cbn. lra.
    - cbn. lra. }
  split; [exact HS|]. apply (C130_thermometer_exact unit_consts (1 / 100) ex_setup 7 1 4 3 1 1 ex_Sf 1 HS).
  - intros w. cbn. unfold ex_inst. destruct (Rle_dec _ _) as [L|L]; [|lra]. apply Rabs_le_between in L. lra.
  - exists 0%Z. cbn. rewrite Rabs_R0. split; [lra|]. unfold ex_inst. replace (0 * 1 / 1) with 0 by field. rewrite Rabs_R0. destruct (Rle_dec 0 1); lra.
  - lra.
  - intros e. unfold ex_Sf. rewrite Rabs_Ropp. cbn. destruct (Rle_dec _ _); [|ring]. rewrite <- exp_plus. f_equal. field.
  - intros e. unfold ex_Sf. destruct (Rle_dec _ _); [left; apply exp_pos|lra].
  - exists 1%Z. split; [lia|]. cbn. rewrite Rabs_R1. split; [lra|]. unfold ex_Sf. rewrite Rmult_1_l, Rabs_R1. destruct (Rle_dec 1 1); [apply exp_pos|lra].
  - intros t [<-|[<-|[<-|[]]]]; lra.
  - right. left. cbn. field.
Qed.
