(** Theorems about the sign, the size and the area of a detected signal. *)
From Coq Require Import Reals List Arith Bool Lra Lia Psatz.
From Coquelicot Require Import Rcomplements.
From Verif Require Import M_Const M_Interp L_Interp M_Instrument L_Instrument M_Setup L_Setup M_ScatModel P_ScatModel.
Import ListNotations.
Open Scope R_scope.

Lemma ns_le n f g : (forall i, (i < n)%nat -> f i <= g i) -> nsum n f <= nsum n g.
Proof.
  induction n as [|n IH]; intros H; cbn [nsum]; [lra|].
  pose proof (H n ltac:(lia)). assert (nsum n f <= nsum n g) by (apply IH; intros; apply H; lia). lra.
Qed.
Lemma ns_0 n : nsum n (fun _ => 0) = 0.
Proof. induction n as [|n IH]; cbn [nsum]; lra. Qed.
Lemma ns_nonneg n f : (forall i, (i < n)%nat -> 0 <= f i) -> 0 <= nsum n f.
Proof. intros H. rewrite <- (ns_0 n). now apply ns_le. Qed.
Lemma ns_plus n f g : nsum n (fun i => f i + g i) = nsum n f + nsum n g.
Proof. induction n as [|n IH]; cbn [nsum]; [lra|]. rewrite IH. lra. Qed.
Lemma ns_swap n m f : nsum n (fun i => nsum m (fun j => f i j)) = nsum m (fun j => nsum n (fun i => f i j)).
Proof. induction n as [|n IH]; cbn [nsum]; [now rewrite ns_0|]. rewrite IH, <- ns_plus. reflexivity. Qed.

(** what a channel [j] hands on, through the window of a result of [n] channels *)
Lemma window_sum (v : nat -> R) j c : forall n l,
  nsum l (fun i => if ((j <=? i + c) && (i + c - j <? n))%nat then v (i + c - j)%nat else 0) =
  nsum n (fun m => if ((c <=? j + m) && (j + m <? l + c))%nat then v m else 0).
Proof.
  intros n. induction l as [|l IH].
  - cbn [nsum]. rewrite (nsum_ext n _ (fun _ => 0)); [now rewrite ns_0|]. intros m Hm.
    destruct (Nat.leb_spec c (j + m)); [|reflexivity]. destruct (Nat.ltb_spec (j + m) (0 + c)); [lia|reflexivity].
  - cbn [nsum]. rewrite IH. clear IH.
    transitivity (nsum n (fun m => (if (c <=? j + m)%nat && (j + m <? l + c)%nat then v m else 0) + (if (j + m =? l + c)%nat then v m else 0))).
    + rewrite ns_plus. f_equal. destruct (Nat.leb_spec j (l + c)) as [H|H]; cbn [andb].
      * destruct (Nat.ltb_spec (l + c - j) n) as [H'|H'].
        { rewrite (nsum_single n _ (l + c - j)%nat H').
          - destruct (Nat.eqb_spec (j + (l + c - j)) (l + c)); [reflexivity|lia].
          - intros q _ Hq. destruct (Nat.eqb_spec (j + q) (l + c)); [lia|reflexivity]. }
        { symmetry. rewrite (nsum_ext n _ (fun _ => 0)); [apply ns_0|]. intros q Hq. destruct (Nat.eqb_spec (j + q) (l + c)); [lia|reflexivity]. }
      * symmetry. rewrite (nsum_ext n _ (fun _ => 0)); [apply ns_0|]. intros q Hq. destruct (Nat.eqb_spec (j + q) (l + c)); [lia|reflexivity].
    + apply nsum_ext. intros m Hm. destruct (Nat.leb_spec c (j + m)); destruct (Nat.ltb_spec (j + m) (l + c)); destruct (Nat.eqb_spec (j + m) (l + c)); destruct (Nat.ltb_spec (j + m) (S l + c)); cbn [andb]; try lia; lra.
Qed.
Lemma conv_total n (a v : nat -> R) :
  nsum n (conv_same n a v) =
  nsum n (fun j => a j * nsum n (fun m => if (((n - 1) / 2 <=? j + m) && (j + m <? n + (n - 1) / 2))%nat then v m else 0)).
Proof.
  unfold conv_same, conv_full. rewrite ns_swap. apply nsum_ext. intros j _. rewrite <- window_sum, <- nsum_scal.
  apply nsum_ext. intros i _. destruct (_ && _); ring.
Qed.

(** ** C140 *)
(** a spectrum that is nowhere negative is detected as one, with and without resampling *)
Theorem C140_nonneg : forall u er sp s i,
  0 < energy s -> (forall j, (j < n_chan s)%nat -> 0 < measured s j) -> (i < n_chan s)%nat ->
  0 < measured s 1 - measured s 0 -> measured s 0 < measured s (n_chan s - 1) ->
  (forall p, sp = Some p -> (2 <= p)%nat) ->
  (let s' := match sp with Some p => low_res_setup p s | None => s end in forall j, (j < n_chan s')%nat -> 0 <= er s' j) ->
  (forall w, 0 <= instrument s w) ->
  0 <= evaluate u er sp s i.
Proof.
  intros u er sp s i _ _ _ Hd Hs Hp He Hw. unfold evaluate, convolve.
  assert (0 < frc s i) by (unfold frc, Rpower; apply exp_pos).
  assert (0 < (measured s 1 - measured s 0) / hbar u) by (apply Rdiv_lt_0_compat; [lra|apply hbar_pos]).
  apply Rmult_le_pos; [|lra]. apply Rmult_le_pos; [|lra].
  unfold conv_same, conv_full. apply ns_nonneg. intros j Hj. destruct (_ && _); [|lra].
  apply Rmult_le_pos; [|apply Hw]. unfold raw. destruct sp as [p|]; [|now apply He]. cbv zeta.
  specialize (Hp p eq_refl). pose proof (linspace_increasing _ _ p Hs Hp) as Hinc.
  set (ys := map _ _). set (M := Rmax 0 (nsum p (at_ ys))).
  assert (Hy : forall q, 0 <= at_ ys q).
  { intros q. destruct (Nat.lt_ge_cases q p) as [Hq|Hq]; [|unfold at_; rewrite nth_overflow; [lra|unfold ys; rewrite map_length, seq_length; exact Hq]].
    unfold at_, ys. rewrite (nth_indep _ 0 (er (low_res_setup p s) O)) by (rewrite map_length, seq_length; exact Hq).
    rewrite map_nth, seq_nth by exact Hq. apply He. exact Hq. }
  refine (proj1 (interp_bounds (Some 0) (Some 0) (sample_grid p s) ys (measured s j) 0 M _ _ _ _ _)).
  - apply incr_asc. exact Hinc.
  - unfold sample_grid. cbv zeta. rewrite linspace_length. lia.
  - unfold sample_grid. cbv zeta. rewrite linspace_length. intros q Hq. split; [apply Hy|].
    apply Rle_trans with (nsum p (at_ ys)); [|apply Rmax_r]. clear - Hq Hy. clearbody ys. revert Hq. induction p as [|p IH]; intros Hq; [lia|]. cbn [nsum].
    assert (0 <= nsum p (at_ ys)) by (apply ns_nonneg; intros; apply Hy). pose proof (Hy p).
    destruct (Nat.eq_dec q p) as [->|]; [lra|]. specialize (IH ltac:(lia)). lra.
  - intros w [= <-]. split; [lra|apply Rmax_l].
  - intros w [= <-]. split; [lra|apply Rmax_l].
Qed.
Print Assumptions C140_nonneg.

(** no channel exceeds the largest raw value times the instrument's sum *)
Theorem C140_no_larger : forall u s Sfac M i,
  0 < measured s 1 - measured s 0 -> (i < n_chan s)%nat ->
  (forall j, (j < n_chan s)%nat -> 0 <= Sfac j <= M) -> (forall w, 0 <= instrument s w) ->
  convolve u s Sfac i <= M * (nsum (n_chan s) (fun m => instrument s (conv_grid u s m)) * ((measured s 1 - measured s 0) / hbar u)).
Proof.
  intros u s Sfac M i Hd Hi HS Hw. unfold convolve.
  assert (0 < (measured s 1 - measured s 0) / hbar u) by (apply Rdiv_lt_0_compat; [lra|apply hbar_pos]).
  rewrite <- Rmult_assoc. apply Rmult_le_compat_r; [lra|]. unfold conv_same, conv_full.
  set (v := fun m => instrument s (conv_grid u s m)). set (n := n_chan s) in *. set (c := ((n - 1) / 2)%nat).
  assert (HM : 0 <= M) by (specialize (HS i Hi); lra).
  apply Rle_trans with (M * nsum n (fun j => if (j <=? i + c)%nat && (i + c - j <? n)%nat then v (i + c - j)%nat else 0)).
  { rewrite <- nsum_scal. apply ns_le. intros j Hj. destruct (_ && _); [|lra]. apply Rmult_le_compat_r; [apply Hw|apply HS; exact Hj]. }
  apply Rmult_le_compat_l; [exact HM|].
  assert (E : forall l, nsum l (fun j => if (j <=? i + c)%nat && (i + c - j <? n)%nat then v (i + c - j)%nat else 0) =
              nsum n (fun m => if (m <=? i + c)%nat && (i + c - m <? l)%nat then v m else 0)).
  { induction l as [|l IH].
    - cbn [nsum]. symmetry. rewrite (nsum_ext n _ (fun _ => 0)); [apply ns_0|]. intros m Hm. destruct (Nat.ltb_spec (i + c - m) 0); [lia|]. now rewrite andb_false_r.
    - cbn [nsum]. rewrite IH.
      transitivity (nsum n (fun m => (if (m <=? i + c)%nat && (i + c - m <? l)%nat then v m else 0) + (if (m + l =? i + c)%nat then v m else 0))).
      + rewrite ns_plus. f_equal. destruct (Nat.leb_spec l (i + c)) as [H'|H']; cbn [andb]; [destruct (Nat.ltb_spec (i + c - l) n) as [H2|H2]|].
        * rewrite (nsum_single n _ (i + c - l)%nat H2); [destruct (Nat.eqb_spec (i + c - l + l) (i + c)); [reflexivity|lia]|].
          intros q _ Hq. destruct (Nat.eqb_spec (q + l) (i + c)); [lia|reflexivity].
        * symmetry. rewrite (nsum_ext n _ (fun _ => 0)); [apply ns_0|]. intros q Hq. destruct (Nat.eqb_spec (q + l) (i + c)); [lia|reflexivity].
        * symmetry. rewrite (nsum_ext n _ (fun _ => 0)); [apply ns_0|]. intros q Hq. destruct (Nat.eqb_spec (q + l) (i + c)); [lia|reflexivity].
      + apply nsum_ext. intros m Hm. destruct (Nat.leb_spec m (i + c)); destruct (Nat.ltb_spec (i + c - m) l); destruct (Nat.ltb_spec (i + c - m) (S l)); destruct (Nat.eqb_spec (m + l) (i + c)); cbn [andb]; try lia; lra. }
  rewrite E. apply ns_le. intros m Hm. destruct (_ && _); [lra|apply Hw].
Qed.
Print Assumptions C140_no_larger.

(** detection creates no signal: the detected sum is at most the product of the sums *)
Theorem C140_no_gain : forall u s Sfac,
  0 < measured s 1 - measured s 0 ->
  (forall j, (j < n_chan s)%nat -> 0 <= Sfac j) -> (forall w, 0 <= instrument s w) ->
  nsum (n_chan s) (convolve u s Sfac) <=
  nsum (n_chan s) Sfac * (nsum (n_chan s) (fun m => instrument s (conv_grid u s m)) * ((measured s 1 - measured s 0) / hbar u)).
Proof.
  intros u s Sfac Hd HS Hw. unfold convolve.
  assert (0 < (measured s 1 - measured s 0) / hbar u) by (apply Rdiv_lt_0_compat; [lra|apply hbar_pos]).
  set (d := (measured s 1 - measured s 0) / hbar u) in *. set (v := fun m => instrument s (conv_grid u s m)).
  rewrite (nsum_ext _ _ (fun i => d * conv_same (n_chan s) Sfac v i)) by (intros; apply Rmult_comm).
  rewrite nsum_scal, conv_total. set (n := n_chan s) in *.
  apply Rle_trans with (d * nsum n (fun j => nsum n v * Sfac j)); [|rewrite nsum_scal; lra].
  apply Rmult_le_compat_l; [lra|]. apply ns_le. intros j Hj. rewrite Rmult_comm. apply Rmult_le_compat_r; [now apply HS|].
  apply ns_le. intros m Hm. destruct (_ && _); [lra|apply Hw].
Qed.
Print Assumptions C140_no_gain.

(** and loses none that it does not push over the edges *)
Theorem C140_area : forall u s Sfac,
  (forall j m, (j < n_chan s)%nat -> (m < n_chan s)%nat -> Sfac j <> 0 -> instrument s (conv_grid u s m) <> 0 ->
     ((n_chan s - 1) / 2 <= j + m < n_chan s + (n_chan s - 1) / 2)%nat) ->
  nsum (n_chan s) (convolve u s Sfac) =
  nsum (n_chan s) Sfac * (nsum (n_chan s) (fun m => instrument s (conv_grid u s m)) * ((measured s 1 - measured s 0) / hbar u)).
Proof.
  intros u s Sfac Hin. unfold convolve.
  set (d := (measured s 1 - measured s 0) / hbar u) in *. set (v := fun m => instrument s (conv_grid u s m)).
  rewrite (nsum_ext _ _ (fun i => d * conv_same (n_chan s) Sfac v i)) by (intros; apply Rmult_comm).
  rewrite nsum_scal, conv_total. set (n := n_chan s) in *.
  replace (nsum n Sfac * (nsum n v * d)) with (d * nsum n (fun j => nsum n v * Sfac j)) by (rewrite nsum_scal; ring). f_equal.
  apply nsum_ext. intros j Hj. destruct (Req_dec (Sfac j) 0) as [->|HS]; [ring|]. rewrite Rmult_comm. f_equal.
  apply nsum_ext. intros m Hm. destruct (Req_dec (v m) 0) as [->|Hv]; [now destruct (_ && _)|].
  specialize (Hin j m Hj Hm HS Hv). destruct (Nat.leb_spec ((n - 1) / 2) (j + m)); destruct (Nat.ltb_spec (j + m) (n + (n - 1) / 2)); cbn [andb]; try lia. reflexivity.
Qed.
Print Assumptions C140_area.

(** For energies in descending order a positive spectrum seen through a positive
    instrument function is detected as a negative one in every channel. *)
Theorem C140_descending : forall u s er n h E0, n_chan s = S (S n) -> h < 0 -> 0 < energy s -> (forall j, (j < n_chan s)%nat -> 0 < measured s j) ->
  (forall m, (m < n_chan s)%nat -> measured s m = E0 + INR m * h) ->
  (forall s' j, 0 < er s' j) -> (forall w, 0 < instrument s w) ->
  forall i, (i < n_chan s)%nat -> evaluate u er None s i < 0.
Proof.
  intros u s er n h E0 Hn Hh _ _ Hg He Hw i Hi. unfold evaluate, convolve, raw.
  rewrite (Hg 1%nat), (Hg 0%nat) by lia. cbn [INR].
  assert (0 < frc s i) by (unfold frc, Rpower; apply exp_pos).
  assert (Hd : 0 < - ((E0 + 1 * h - (E0 + 0 * h)) / hbar u)).
  { replace (- ((E0 + 1 * h - (E0 + 0 * h)) / hbar u)) with (- h / hbar u) by (field; apply Rgt_not_eq, hbar_pos). apply Rdiv_lt_0_compat; [lra|apply hbar_pos]. }
  enough (0 < conv_same (n_chan s) (er s) (fun m => instrument s (conv_grid u s m)) i) as HC.
  { assert (0 < conv_same (n_chan s) (er s) (fun m => instrument s (conv_grid u s m)) i * - ((E0 + 1 * h - (E0 + 0 * h)) / hbar u)) by (apply Rmult_lt_0_compat; assumption).
    apply (Rmult_lt_reg_r (/ frc s i)); [now apply Rinv_0_lt_compat|]. rewrite Rmult_0_l, Rmult_assoc, Rinv_r by lra. lra. }
  unfold conv_same, conv_full. set (c := ((n_chan s - 1) / 2)%nat).
  assert (Hc : (c <= n_chan s - 1)%nat) by (unfold c; apply Nat.div_le_upper_bound; lia).
  assert (Hall : forall N j, (j < N)%nat -> (j <= i + c)%nat -> (i + c - j < n_chan s)%nat ->
     0 < nsum N (fun j => if (j <=? i + c)%nat && (i + c - j <? n_chan s)%nat then er s j * instrument s (conv_grid u s (i + c - j)) else 0)).
  { induction N as [|N IH]; intros j Hj H1 H2; [lia|]. cbn [nsum].
    assert (Hp : forall N, 0 <= nsum N (fun j => if (j <=? i + c)%nat && (i + c - j <? n_chan s)%nat then er s j * instrument s (conv_grid u s (i + c - j)) else 0)).
    { intros M. apply ns_nonneg. intros q _. destruct (_ && _); [|lra]. apply Rlt_le, Rmult_lt_0_compat; [apply He|apply Hw]. }
    destruct (Nat.eq_dec j N) as [->|Hne].
    - pose proof (Hp N). destruct (Nat.leb_spec N (i + c)); [|lia]. destruct (Nat.ltb_spec (i + c - N) (n_chan s)); [|lia]. cbn [andb].
      assert (0 < er s N * instrument s (conv_grid u s (i + c - N))) by (apply Rmult_lt_0_compat; [apply He|apply Hw]). lra.
    - specialize (IH j ltac:(lia) H1 H2). destruct (_ && _); [|lra].
      assert (0 < er s N * instrument s (conv_grid u s (i + c - N))) by (apply Rmult_lt_0_compat; [apply He|apply Hw]). lra. }
  apply (Hall (n_chan s) i); lia.
Qed.
Print Assumptions C140_descending.

Definition sigSetup : setup := mkSetup 1 2 3 (fun i => INR i + 1) (fun _ => 1) true 2.
Example C140_ex : 0 <= evaluate unit_consts (fun _ j => INR j) (Some 2%nat) sigSetup 1 /\
  nsum 3 (convolve unit_consts sigSetup INR) <= 9 /\ convolve unit_consts sigSetup INR 1 <= 6.
Proof.
  assert (H : forall j, 0 <= INR j) by (intros; apply pos_INR).
  assert (Hd : 0 < measured sigSetup 1 - measured sigSetup 0) by (cbn; lra).
  split; [apply C140_nonneg; [cbn; lra|intros; cbn [measured sigSetup]; pose proof (H j); lra|cbn; lia|exact Hd|cbn; lra|intros p [= <-]; lia|intros; apply H|cbn; intros; lra]|].
  split.
  - eapply Rle_trans; [apply (C140_no_gain unit_consts sigSetup); [exact Hd|intros; apply H|cbn; intros; lra]|]. cbn. lra.
  - eapply Rle_trans; [apply (C140_no_larger unit_consts sigSetup INR 2); [exact Hd|cbn; lia| |cbn; intros; lra]|cbn; lra].
    cbn [n_chan sigSetup]. intros j Hj. split; [apply H|]. replace 2 with (INR 2) by (cbn; lra). apply le_INR. lia.
Qed.
(** a spectrum in the middle channel, seen through an instrument function of any width *)
Example C140_area_ex : nsum 3 (convolve unit_consts sigSetup (fun j => if Nat.eqb j 1 then 5 else 0)) = 15.
Proof.
  etransitivity; [apply (C140_area unit_consts sigSetup)|cbn; lra].
  cbn [n_chan sigSetup]. intros j m Hj Hm HS _. destruct (Nat.eqb_spec j 1) as [->|]; [cbn; lia|lra].
Qed.
(** so the sign is refuted without the assumption on the order of the energies *)
Theorem C140_sign_refuted : exists u er s i, (i < n_chan s)%nat /\ 0 < energy s /\
  (forall m, (m < n_chan s)%nat -> 0 < measured s m) /\ (forall m, measured s (S m) < measured s m) /\
  (forall s' j, 0 < er s' j) /\ (forall w, 0 < instrument s w) /\ evaluate u er None s i < 0.
Proof.
  exists unit_consts, (fun _ _ => 1), (mkSetup 1 2 3 (fun i => 4 + INR i * (-1)) (fun _ => 1) true 2), 1%nat.
  split; [cbn; lia|]. split; [cbn; lra|].
  assert (HP : forall m, (m < 3)%nat -> 0 < 4 + INR m * (-1)) by (intros m Hm; assert (INR m <= 2) by (replace 2 with (INR 2) by (cbn; lra); apply le_INR; lia); lra).
  split; [exact HP|]. split; [intros m; cbn [measured]; rewrite S_INR; lra|]. split; [intros; lra|]. split; [cbn; intros; lra|].
  apply (C140_descending unit_consts _ _ 1%nat (-1) 4); cbn; intros; try (apply HP); try lra; try lia; reflexivity.
Qed.
Print Assumptions C140_sign_refuted.
