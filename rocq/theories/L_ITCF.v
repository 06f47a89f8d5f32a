(** The discrete convolution theorem for the transform of analysis.py. *)
From Coq Require Import Reals List Arith Lra Lia Psatz Permutation Sorted.
From Coquelicot Require Import Coquelicot.
From Verif Require Import M_Const M_Setup L_Setup M_Interp L_Interp M_Analysis L_Analysis M_PlasmaState M_Ionization M_ITCF L_IonFeature.
Import ListNotations.
Open Scope R_scope.

(** ** Sums *)
Lemma nsum_0 n f : (forall i, (i < n)%nat -> f i = 0) -> nsum n f = 0.
Proof. induction n as [|n IH]; cbn; intros H; [reflexivity|]. rewrite IH, H by (intros; auto; apply H; lia). ring. Qed.
Lemma nsum_app p q f : nsum (p + q) f = nsum p f + nsum q (fun i => f (p + i)%nat).
Proof.
  induction q as [|q IH]; [rewrite Nat.add_0_r; cbn; ring|]. rewrite Nat.add_succ_r. cbn [nsum]. rewrite IH. ring.
Qed.
Lemma nsum_rev n f : nsum n f = nsum n (fun i => f (n - 1 - i)%nat).
Proof.
  induction n as [|n IH]; [reflexivity|]. rewrite (nsum_first n (fun i => f (S n - 1 - i)%nat)). cbn [nsum]. rewrite IH. rewrite Rplus_comm.
  f_equal; [f_equal; lia|]. apply nsum_ext. intros i Hi. f_equal. lia.
Qed.

(** ** The trapezoidal rule on a uniform grid with vanishing ends *)
Lemma trapz_app_zero xs ys x y : trapz (x :: y :: xs) (0 :: 0 :: ys) = trapz (y :: xs) (0 :: ys).
Proof. transitivity ((y - x) * (0 + 0) / 2 + trapz (y :: xs) (0 :: ys)); [reflexivity|]. set (t := trapz _ _). clearbody t. field. Qed.
Lemma trapz_uniform x0 h f k n : trapz (map (fun i => x0 + INR i * h) (seq k (S n))) (map f (seq k (S n))) =
  h * (nsum (S n) (fun i => f (k + i)%nat) - (f k + f (k + n)%nat) / 2).
Proof.
  revert k. induction n as [|n IH]; intros k.
  - cbn. rewrite Nat.add_0_r. field.
  - change (seq k (S (S n))) with (k :: S k :: seq (S (S k)) n). cbn [map trapz].
    specialize (IH (S k)). change (seq (S k) (S n)) with (S k :: seq (S (S k)) n) in IH. cbn [map] in IH.
    etransitivity; [apply f_equal; exact IH|].
    rewrite (nsum_first (S n)). rewrite S_INR. replace (S k + n)%nat with (k + S n)%nat by lia.
    replace (nsum (S n) (fun i => f (S k + i)%nat)) with (nsum (S n) (fun i => f (k + S i)%nat)) by (apply nsum_ext; intros; f_equal; lia).
    replace (nsum (S n) (fun i => f (k + S i)%nat)) with (nsum (S n) (fun i => f (k + S i)%nat)) by reflexivity.
    rewrite Nat.add_0_r. lra.
Qed.
Lemma trapz_two_right xs ys x y x0 : length xs = length ys -> trapz (xs ++ [x0; x; y]) (ys ++ [0; 0; 0]) = trapz (xs ++ [x0]) (ys ++ [0]).
Proof.
  intros H. change (xs ++ [x0; x; y]) with (xs ++ [x0] ++ [x; y])%list. change (ys ++ [0; 0; 0]) with (ys ++ [0] ++ [0; 0])%list.
  rewrite !app_assoc. rewrite trapz_snoc by (rewrite !app_length; cbn; lia).
  rewrite <- !app_assoc. cbn [app]. rewrite trapz_snoc by exact H. set (t := trapz _ _); clearbody t; field.
Qed.

Section Lap.
  Variables (hb small : R). Hypothesis Hhb : 0 < hb. Hypothesis Hsm : 0 < small.
  Variables (x0 h c : R) (n : nat) (f : nat -> R).
  Hypothesis Hh : 0 < h. Hypothesis Hn : (2 <= n)%nat.
  Hypothesis H0 : f 0%nat = 0. Hypothesis H1 : f (n - 1)%nat = 0.
  Hypothesis Hlo : - c + small <= x0. Hypothesis Hhi : x0 + INR (n - 1) * h <= c - small.
  Let xi (i : nat) := x0 + INR i * h.
  Let xs := map xi (seq 0 n).
  Let ys := map f (seq 0 n).
  Lemma xs_sorted k m : StronglySorted (le_key (fun x : R => x)) (map xi (seq k m)).
  Proof.
    revert k. induction m as [|m IH]; intros k; cbn; [constructor|]. constructor; [apply IH|].
    rewrite Forall_forall. intros x Hx. apply in_map_iff in Hx as (j & <- & Hj). apply in_seq in Hj. unfold le_key, xi.
    assert (INR k <= INR j) by (apply le_INR; lia). nra.
  Qed.
  Lemma cs_sorted k m : StronglySorted (le_key (fst : R * R -> R)) (combine (map xi (seq k m)) (map f (seq k m))).
  Proof.
    revert k. induction m as [|m IH]; intros k; cbn; [constructor|]. constructor; [apply IH|].
    rewrite Forall_forall. intros [x y] Hx. apply in_combine_l in Hx. apply in_map_iff in Hx as (j & <- & Hj). apply in_seq in Hj. unfold le_key, xi. cbn.
    assert (INR k <= INR j) by (apply le_INR; lia). nra.
  Qed.
  Lemma at_xs i : (i < n)%nat -> at_ xs i = xi i.
  Proof. intros Hi. unfold at_, xs. rewrite (nth_indep _ 0 (xi 0)) by (now rewrite map_length, seq_length). rewrite map_nth, seq_nth by exact Hi. reflexivity. Qed.
  Lemma at_ys i : (i < n)%nat -> at_ ys i = f i.
  Proof. intros Hi. unfold at_, ys. rewrite (nth_indep _ 0 (f 0)) by (now rewrite map_length, seq_length). rewrite map_nth, seq_nth by exact Hi. reflexivity. Qed.
  Lemma len_xs : length xs = n. Proof. unfold xs. now rewrite map_length, seq_length. Qed.
  Lemma xs_nodup : NoDup xs.
  Proof.
    unfold xs. apply FinFun.Injective_map_NoDup; [|apply seq_NoDup]. intros i j E. unfold xi in E. apply INR_eq. nra.
  Qed.
  Lemma xs_increasing : increasing xs.
  Proof.
    intros i j Hij. rewrite len_xs in Hij. rewrite !at_xs by lia. unfold xi. assert (INR i < INR j) by (apply lt_INR; lia). nra.
  Qed.
  Lemma samples_id : lap_samples ys xs = combine xs ys.
  Proof.
    unfold lap_samples. apply (sorted_unique fst); [apply isort_sorted|apply cs_sorted|apply isort_perm|].
    intros a b Ha Hb Hab. apply (Permutation_in _ (isort_perm _ _)) in Ha, Hb.
    assert (K : forall p, In p (combine xs ys) -> exists i, (i < n)%nat /\ p = (xi i, f i)).
    { intros p Hp. apply (In_nth _ _ (0, 0)) in Hp as (i & Hi & <-). rewrite combine_length, len_xs in Hi. unfold ys in Hi. rewrite map_length, seq_length in Hi.
      exists i. split; [lia|]. rewrite combine_nth by (unfold ys; rewrite len_xs, map_length, seq_length; reflexivity).
      change (nth i xs 0) with (at_ xs i). change (nth i ys 0) with (at_ ys i). rewrite at_xs, at_ys by lia. reflexivity. }
    destruct (K a Ha) as (i & Hi & ->). destruct (K b Hb) as (j & Hj & ->). cbn in Hab. unfold xi in Hab.
    assert (i = j) by (apply INR_eq; nra). now subst.
  Qed.
  Lemma samples_fst : map fst (combine xs ys) = xs.
  Proof.
    assert (HL : length xs = length ys) by (unfold ys; now rewrite len_xs, map_length, seq_length).
    revert HL. generalize xs ys. intros l m. revert m. induction l as [|e l IH]; intros [|i m] H; cbn in *; try discriminate; [reflexivity|]. f_equal. apply IH. congruence.
  Qed.
  Lemma samples_snd : map snd (combine xs ys) = ys.
  Proof.
    assert (HL : length xs = length ys) by (unfold ys; now rewrite len_xs, map_length, seq_length).
    revert HL. generalize xs ys. intros l m. revert m. induction l as [|e l IH]; intros [|i m] H; cbn in *; try discriminate; [reflexivity|]. f_equal. apply IH. congruence.
  Qed.
  Lemma grid_id : lap_grid small xs (- c) c = ([- c - small; - c + small] ++ xs ++ [c - small; c + small])%list.
  Proof.
    unfold lap_grid. apply (sorted_unique (fun x => x)); [apply isort_sorted| | |auto].
    - assert (Hin : forall x, In x xs -> - c + small <= x <= c - small).
      { intros x Hx. apply in_map_iff in Hx as (j & <- & Hj). apply in_seq in Hj. unfold xi.
        assert (0 <= INR j) by apply pos_INR. assert (INR j <= INR (n - 1)) by (apply le_INR; lia). nra. }
      assert (Hc : - c + small <= c - small).
      { assert (0 <= INR (n - 1)) by apply pos_INR. nra. }
      assert (Happ : forall l, StronglySorted (le_key (fun x : R => x)) l -> (forall x, In x l -> x <= c - small) ->
         StronglySorted (le_key (fun x : R => x)) (l ++ [c - small; c + small])).
      { clear - Hsm. intros l Hl. induction Hl as [|a l Hl IH HF]; intros K; cbn.
        - repeat constructor; unfold le_key; lra.
        - constructor; [apply IH; intros; apply K; now right|]. rewrite Forall_forall in *. intros x Hx. apply in_app_or in Hx as [Hx|Hx]; [now apply HF|].
          unfold le_key. specialize (K a (or_introl eq_refl)). cbn in Hx. destruct Hx as [<-|[<-|[]]]; lra. }
      cbn [app]. assert (HS := Happ xs (xs_sorted 0 n) (fun x Hx => proj2 (Hin x Hx))).
      assert (Hb : forall x, In x (xs ++ [c - small; c + small]) -> - c + small <= x).
      { intros x Hx. apply in_app_or in Hx as [Hx|Hx]; [now apply Hin|]. cbn in Hx. destruct Hx as [<-|[<-|[]]]; lra. }
      constructor; [constructor; [exact HS|]|].
      + rewrite Forall_forall. intros x Hx. unfold le_key. now apply Hb.
      + rewrite Forall_forall. intros x [<-|Hx]; unfold le_key; [lra|]. specialize (Hb x Hx). lra.
    - rewrite isort_perm, isort_perm. 
      change [- c - small; - c + small; c + small; c - small] with ([- c - small; - c + small] ++ [c + small; c - small])%list.
      rewrite (Permutation_app_comm xs). rewrite <- !app_assoc. apply Permutation_app_head.
      rewrite (Permutation_app_comm _ xs). apply Permutation_app_head. constructor 3.
  Qed.
  Lemma lap_sum tau : twoSidedLaplace hb small ys tau xs (- c) c = h / hb * nsum n (fun i => f i * exp (- tau * xi i)).
  Proof.
    unfold twoSidedLaplace. rewrite grid_id. set (k := lap_kernel hb ys xs tau (- c) c).
    assert (HI : forall q, interp None None (map fst (lap_samples ys xs)) (map snd (lap_samples ys xs)) q = interp None None xs ys q).
    { intros q. now rewrite samples_id, samples_fst, samples_snd. }
    assert (Hasc : ascending xs) by (apply sorted_ascending, xs_sorted).
    assert (Hk : forall i, (i < n)%nat -> k (xi i) = f i * exp (- tau * xi i) / hb).
    { intros i Hi. unfold k, lap_kernel. rewrite HI. rewrite <- (at_xs i Hi). rewrite interp_knot by (try apply xs_increasing; rewrite len_xs; lia).
      rewrite at_xs, at_ys by lia. unfold xi. assert (0 <= INR i) by apply pos_INR. assert (INR i <= INR (n - 1)) by (apply le_INR; lia).
      destruct (Rle_dec (- c) (x0 + INR i * h)); [|nra]. destruct (Rle_dec (x0 + INR i * h) c); [reflexivity|nra]. }
    assert (Hz1 : k (- c - small) = 0) by (unfold k, lap_kernel; destruct (Rle_dec _ _); [lra|reflexivity]).
    assert (Hz4 : k (c + small) = 0) by (unfold k, lap_kernel; do 2 (destruct (Rle_dec _ _); try lra)).
    assert (Hz2 : k (- c + small) = 0).
    { unfold k, lap_kernel. rewrite HI. destruct (Rle_dec _ _); [|reflexivity]. destruct (Rle_dec _ _); [|reflexivity].
      replace (interp None None xs ys (- c + small)) with 0; [field; lra|]. symmetry. destruct Hlo as [L|L].
      - rewrite interp_left; [rewrite at_ys by lia; exact H0|rewrite len_xs; lia|exact Hasc|rewrite at_xs by lia; unfold xi; cbn; lra].
      - replace (- c + small) with (at_ xs 0) by (rewrite at_xs by lia; unfold xi; cbn; lra).
        rewrite interp_knot by (try apply xs_increasing; rewrite len_xs; lia). rewrite at_ys by lia. exact H0. }
    assert (Hz3 : k (c - small) = 0).
    { unfold k, lap_kernel. rewrite HI. destruct (Rle_dec _ _); [|reflexivity]. destruct (Rle_dec _ _); [|reflexivity].
      replace (interp None None xs ys (c - small)) with 0; [field; lra|]. symmetry. destruct Hhi as [L|L].
      - rewrite interp_right; [rewrite len_xs, at_ys by lia; exact H1|rewrite len_xs, at_xs by lia; exact L].
      - replace (c - small) with (at_ xs (n - 1)) by (rewrite at_xs by lia; unfold xi; exact L).
        rewrite interp_knot by (try apply xs_increasing; rewrite len_xs; lia). rewrite at_ys by lia. exact H1. }
    rewrite !map_app. cbn [map]. rewrite Hz1, Hz2, Hz3, Hz4.
    assert (Em : map k xs = map (fun i => f i * exp (- tau * xi i) / hb) (seq 0 n)).
    { unfold xs. rewrite map_map. apply map_ext_in. intros i Hi. apply in_seq in Hi. apply Hk. lia. }
    rewrite Em. set (g := fun i => f i * exp (- tau * xi i) / hb).
    assert (g0 : g 0%nat = 0) by (unfold g; rewrite H0; field; lra).
    assert (g1 : g (n - 1)%nat = 0) by (unfold g; rewrite H1; field; lra).
    transitivity (trapz (map xi (seq 0 n)) (map g (seq 0 n))).
    - assert (En : seq 0 n = (0 :: seq 1 (n - 2) ++ [n - 1])%nat).
      { replace n with (S (S (n - 2))) at 1 by lia. rewrite seq_S. cbn [seq app]. f_equal. f_equal. f_equal. lia. }
      unfold xs. rewrite En. cbn [map app]. rewrite !map_app. cbn [map]. rewrite g0, g1.
      rewrite !trapz_app_zero.
      cbn [app]. rewrite <- !app_assoc. cbn [app].
      rewrite !app_comm_cons. rewrite trapz_two_right by (cbn; rewrite !map_length; reflexivity). reflexivity.
    - unfold xi. replace n with (S (n - 1)) by lia. rewrite trapz_uniform. cbn [Nat.add].
      rewrite g0, g1. change (fun i : nat => g i) with g. replace (nsum (S (n - 1)) g) with (nsum (S (n - 1)) (fun i => / hb * (f i * exp (- tau * (x0 + INR i * h))))).
      + rewrite nsum_scal. field. lra.
      + apply nsum_ext. intros i _. unfold g, xi. field. lra.
  Qed.
End Lap.

(** ** Sums over a finite support *)
(** the sum over the integers z with |z| <= b *)
Definition zsum (b : nat) (g : R -> R) : R := nsum (2 * b + 1) (fun t => g (INR t - INR b)).
Lemma nsum_support n m b (g : R -> R) : (b <= m)%nat -> (m + b < n)%nat -> (forall x, INR b < Rabs x -> g x = 0) ->
  nsum n (fun i => g (INR i - INR m)) = zsum b g.
Proof.
  intros H1 H2 Hg. replace n with ((m - b) + ((2 * b + 1) + (n - (m + b + 1))))%nat by lia. rewrite nsum_app, (nsum_app (2 * b + 1)).
  rewrite nsum_0, (nsum_0 (n - (m + b + 1))).
  - unfold zsum. rewrite Rplus_0_l, Rplus_0_r. apply nsum_ext. intros i Hi. f_equal. rewrite plus_INR, minus_INR by lia. ring.
  - intros i Hi. apply Hg. rewrite !plus_INR, minus_INR, mult_INR by lia. rewrite Rabs_pos_eq; pose proof (pos_INR i); pose proof (pos_INR b); cbn [INR]; lra.
  - intros i Hi. apply Hg. assert (INR i + 1 <= INR (m - b)) by (rewrite <- S_INR; apply le_INR; lia). rewrite minus_INR in H by lia.
    rewrite Rabs_left; pose proof (pos_INR b); lra.
Qed.
Lemma zsum_ext b f g : (forall x, Rabs x <= INR b -> f x = g x) -> zsum b f = zsum b g.
Proof.
  intros H. unfold zsum. apply nsum_ext. intros t Ht. apply H. apply Rabs_le. pose proof (pos_INR t).
  assert (INR t <= INR (2 * b)) by (apply le_INR; lia). rewrite mult_INR in H1. cbn [INR] in H1. lra.
Qed.
Lemma zsum_scal b c g : zsum b (fun x => c * g x) = c * zsum b g.
Proof. apply nsum_scal. Qed.
Lemma zsum_plus b f g : zsum b (fun x => f x + g x) = zsum b f + zsum b g.
Proof. apply nsum_plus. Qed.
Lemma zsum_opp b g : zsum b (fun x => g (- x)) = zsum b g.
Proof.
  unfold zsum. rewrite (nsum_rev _ (fun t => g (INR t - INR b))). apply nsum_ext. intros t Ht. f_equal. rewrite !minus_INR by lia. rewrite plus_INR, mult_INR. cbn [INR]. ring.
Qed.
Lemma zsum_nonneg b g : (forall x, Rabs x <= INR b -> 0 <= g x) -> 0 <= zsum b g.
Proof.
  intros H. apply nsum_nonneg. intros t Ht. apply H. apply Rabs_le. pose proof (pos_INR t).
  assert (INR t <= INR (2 * b)) by (apply le_INR; lia). rewrite mult_INR in H1. cbn [INR] in H1. lra.
Qed.
Lemma nsum_pos n g i : (forall j, (j < n)%nat -> 0 <= g j) -> (i < n)%nat -> 0 < g i -> 0 < nsum n g.
Proof.
  induction n as [|n IH]; intros Hg Hi Hp; [lia|]. cbn. pose proof (Hg n ltac:(lia)).
  assert (0 <= nsum n g) by (apply nsum_nonneg; intros; apply Hg; lia).
  destruct (Nat.eq_dec i n) as [->|N]; [lra|]. assert (0 < nsum n g) by (apply IH; auto; lia). lra.
Qed.
Lemma zsum_pos b g (z : Z) : (forall x, Rabs x <= INR b -> 0 <= g x) -> Rabs (IZR z) <= INR b -> 0 < g (IZR z) -> 0 < zsum b g.
Proof.
  intros Hg Hz Hp. assert (Hz' : (- Z.of_nat b <= z <= Z.of_nat b)%Z).
  { rewrite INR_IZR_INZ, <- abs_IZR in Hz. apply le_IZR in Hz. lia. }
  apply (nsum_pos _ _ (Z.to_nat (z + Z.of_nat b))).
  - intros t Ht. apply Hg. apply Rabs_le. pose proof (pos_INR t).
    assert (INR t <= INR (2 * b)) by (apply le_INR; lia). rewrite mult_INR in H0. cbn [INR] in H0. lra.
  - lia.
  - replace (INR (Z.to_nat (z + Z.of_nat b)) - INR b) with (IZR z); [exact Hp|].
    rewrite !INR_IZR_INZ, Z2Nat.id, plus_IZR by lia. ring.
Qed.
Lemma zsum_derive b (g : R -> R -> R) (g' : R -> R) t : (forall x, is_derive (fun s => g s x) t (g' x)) -> is_derive (fun s => zsum b (g s)) t (zsum b g').
Proof.
  intros H. unfold zsum. generalize (2 * b + 1)%nat. induction n as [|n IH]; cbn; [exact (is_derive_const (V := R_NormedModule) 0 t)|].
  apply (is_derive_plus (V := R_NormedModule)); [exact IH|apply H].
Qed.

(** ** A spectrum taken with the spectrometer *)
Section Spectrometer.
  Variables (u : consts) (small : R) (s : setup) (E0 h c : R) (m0 a b : nat) (Sf : R -> R).
  Hypothesis Hsm : 0 < small.
  Hypothesis Hh : 0 < h.
  Hypothesis Hmeas : forall m, (m < n_chan s)%nat -> measured s m = E0 + INR m * h.
  Hypothesis Hen : energy s = E0 + INR m0 * h.
  Hypothesis Hlow : (a + b < m0)%nat.
  Hypothesis Hhigh : (m0 + a + b + 1 < n_chan s)%nat.
  Hypothesis Hinst : forall w, INR b * h / hbar u < Rabs w -> instrument s w = 0.
  Hypothesis HSf : forall e, INR a * h < Rabs e -> Sf e = 0.
  Hypothesis Hc1 : INR m0 * h + small <= c.
  Hypothesis Hc2 : INR (n_chan s - 1 - m0) * h + small <= c.
  Let n := n_chan s.
  (** the spectrum of the sample per channel, and what the code's convolution makes of it *)
  Definition sample (j : nat) : R := Sf (energy s - measured s j).
  Definition recorded : list R := map (convolve u s sample) (seq 0 (n_chan s)).

  Lemma Pn : (2 <= n)%nat. Proof. unfold n. lia. Qed.
  Lemma E_shift_eq : E_shift s = map (fun j => (INR m0 - INR j) * h) (seq 0 n).
  Proof.
    unfold E_shift, shift_of. rewrite map_map. apply map_ext_in. intros j Hj. apply in_seq in Hj. rewrite Hmeas, Hen by (unfold n in *; lia). ring.
  Qed.
  Lemma inst_eq : inst_list u s = map (fun j => instrument s ((INR j - INR m0) * h / hbar u)) (seq 0 n).
  Proof.
    unfold inst_list, inst_of. rewrite map_map. apply map_ext_in. intros j Hj. apply in_seq in Hj. rewrite Hmeas, Hen by (unfold n in *; lia). f_equal. f_equal. ring.
  Qed.
  (** the transform of channels that vanish at both ends *)
  Lemma channels_transform (f : nat -> R) tau : f 0%nat = 0 -> f (n - 1)%nat = 0 ->
    twoSidedLaplace (hbar u) small (map f (seq 0 n)) tau (E_shift s) (- c) c = h / hbar u * nsum n (fun j => f j * exp (tau * ((INR j - INR m0) * h))).
  Proof.
    intros F0 F1. rewrite E_shift_eq. pose proof Pn as Hn. pose proof (hbar_pos u) as Hb.
    set (x0 := (INR m0 - INR (n - 1)) * h). set (g := fun i => f (n - 1 - i)%nat).
    rewrite (laplace_perm (hbar u) small _ _ (map g (seq 0 n)) (map (fun i => x0 + INR i * h) (seq 0 n))).
    - rewrite (lap_sum (hbar u) small Hb Hsm x0 h c n g Hh Hn).
      + f_equal. rewrite nsum_rev. apply nsum_ext. intros i Hi. unfold g, x0. replace (n - 1 - (n - 1 - i))%nat with i by lia. f_equal. f_equal.
        rewrite !minus_INR by lia. ring.
      + unfold g. rewrite Nat.sub_0_r. exact F1.
      + unfold g. rewrite Nat.sub_diag. exact F0.
      + unfold x0. fold n in Hc2. rewrite minus_INR in Hc2 by (unfold n; lia). lra.
      + unfold x0. lra.
    - now rewrite !map_length.
    - now rewrite !map_length.
    - apply FinFun.Injective_map_NoDup; [|apply seq_NoDup]. intros i j E. apply INR_eq. nra.
    - assert (Ec : forall (X Y : nat -> R) l, combine (map X l) (map Y l) = map (fun i => (X i, Y i)) l) by (intros X Y l; induction l as [|q l IH]; cbn; [reflexivity|now rewrite IH]).
      rewrite !Ec.
      assert (Er : seq 0 n = map (fun i => n - 1 - i)%nat (rev (seq 0 n))).
      { clear. generalize n. intros k. apply (nth_ext _ _ 0%nat 0%nat); [now rewrite map_length, rev_length|]. intros i Hi. rewrite seq_length in Hi.
        rewrite (nth_indep (map _ _) 0%nat ((fun i => (k - 1 - i)%nat) 0%nat)) by (rewrite map_length, rev_length, seq_length; exact Hi).
        rewrite (map_nth (fun i => (k - 1 - i)%nat)), rev_nth by (rewrite seq_length; exact Hi). rewrite seq_length, !seq_nth by lia. lia. }
      rewrite Er at 1. rewrite map_map. rewrite (Permutation_map _ (Permutation_sym (Permutation_rev (seq 0 n)))).
      erewrite map_ext_in; [reflexivity|]. intros i Hi. apply in_seq in Hi. cbn. unfold g, x0. f_equal. rewrite !minus_INR by lia. cbn [INR]. ring.
  Qed.
  (** the code's convolution is the full sum *)
  Lemma recorded_eq i : (i < n)%nat -> convolve u s sample i = h / hbar u * nsum n (fun j => sample j * instrument s ((INR i - INR j) * h / hbar u)).
  Proof.
    intros Hi. pose proof (hbar_pos u) as Hb. pose proof Pn as Hn. unfold n in Hi, Hn.
    assert (Hz : forall w, INR (n_chan s) * h / (2 * hbar u) <= Rabs w -> instrument s w = 0).
    { intros w Hw. apply Hinst. apply Rlt_le_trans with (2 := Hw). apply (Rmult_lt_reg_r (2 * hbar u)); [lra|].
      replace (INR b * h / hbar u * (2 * hbar u)) with (2 * INR b * h) by (field; lra). replace (INR (n_chan s) * h / (2 * hbar u) * (2 * hbar u)) with (INR (n_chan s) * h) by (field; lra).
      assert (INR (2 * b) < INR (n_chan s)) by (apply lt_INR; lia). rewrite mult_INR in H. cbn [INR] in H. nra. }
    rewrite (convolve_full u s E0 h Hn Hmeas sample i Hh Hi).
    - unfold n. rewrite Rmult_comm. f_equal. apply nsum_ext. intros j Hj. rewrite !Hmeas by lia. f_equal. f_equal. f_equal. ring.
    - intros w Hw. apply Hz. lra.
    - intros w ->. apply Hz. rewrite Rabs_Ropp. apply Rle_abs.
  Qed.
  Lemma inst_far i j : (b < i - j)%nat \/ (b < j - i)%nat -> instrument s ((INR i - INR j) * h / hbar u) = 0.
  Proof.
    intros H. apply Hinst. pose proof (hbar_pos u) as Hb. unfold Rdiv. rewrite !Rabs_mult, (Rabs_pos_eq h), (Rabs_pos_eq (/ hbar u)) by (try lra; left; now apply Rinv_0_lt_compat).
    apply Rmult_lt_compat_r; [now apply Rinv_0_lt_compat|]. apply Rmult_lt_compat_r; [exact Hh|].
    destruct H as [H|H]; pose proof H as H'; apply lt_INR in H; rewrite minus_INR in H by lia; [rewrite Rabs_pos_eq by (pose proof (pos_INR b); lra)|rewrite Rabs_left by (pose proof (pos_INR b); lra)]; lra.
  Qed.
  Lemma sample_eq j : (j < n)%nat -> sample j = Sf ((INR m0 - INR j) * h).
  Proof. intros Hj. unfold sample. rewrite Hmeas, Hen by exact Hj. f_equal. ring. Qed.
  Lemma sample_far j : (j < n)%nat -> (a < j - m0)%nat \/ (a < m0 - j)%nat -> sample j = 0.
  Proof.
    intros Hj H. rewrite sample_eq by exact Hj. apply HSf. rewrite Rabs_mult, (Rabs_pos_eq h) by lra. apply Rmult_lt_compat_r; [exact Hh|].
    destruct H as [H|H]; pose proof H as H'; apply lt_INR in H; rewrite minus_INR in H by lia; [rewrite Rabs_left by (pose proof (pos_INR a); lra)|rewrite Rabs_pos_eq by (pose proof (pos_INR a); lra)]; lra.
  Qed.
  Definition instrument_sum (tau : R) : R := zsum b (fun z => instrument s (z * h / hbar u) * exp (tau * (z * h))).
  Definition sample_sum (tau : R) : R := h / hbar u * zsum a (fun z => Sf (z * h) * exp (- tau * (z * h))).
  Lemma L_instrument tau : twoSidedLaplace (hbar u) small (inst_list u s) tau (E_shift s) (- c) c = h / hbar u * instrument_sum tau.
  Proof.
    rewrite inst_eq. rewrite channels_transform.
    - f_equal. unfold instrument_sum. rewrite <- (nsum_support n m0 b).
      + reflexivity.
      + lia.
      + unfold n. lia.
      + intros x Hx. rewrite Hinst; [ring|]. pose proof (hbar_pos u) as Hb. unfold Rdiv. rewrite !Rabs_mult, (Rabs_pos_eq h), (Rabs_pos_eq (/ hbar u)) by (try lra; left; now apply Rinv_0_lt_compat).
        apply Rmult_lt_compat_r; [now apply Rinv_0_lt_compat|]. now apply Rmult_lt_compat_r.
    - apply inst_far. right. lia.
    - apply inst_far. left. unfold n. lia.
  Qed.
  Lemma L_recorded tau : twoSidedLaplace (hbar u) small recorded tau (E_shift s) (- c) c = sample_sum tau * (h / hbar u * instrument_sum tau).
  Proof.
    unfold recorded. fold n. rewrite channels_transform.
    - transitivity (h / hbar u * (h / hbar u * nsum n (fun i => nsum n (fun j => sample j * (instrument s ((INR i - INR j) * h / hbar u) * exp (tau * ((INR i - INR m0) * h))))))).
      { f_equal. rewrite <- nsum_scal. apply nsum_ext. intros i Hi. rewrite recorded_eq by exact Hi. rewrite Rmult_assoc. f_equal.
        rewrite Rmult_comm, <- nsum_scal. apply nsum_ext. intros j _. ring. }
      rewrite nsum_swap. unfold sample_sum.
      transitivity (h / hbar u * (h / hbar u * nsum n (fun j => instrument_sum tau * (sample j * exp (tau * ((INR j - INR m0) * h)))))).
      { do 2 f_equal. apply nsum_ext. intros j Hj. rewrite nsum_scal.
        destruct (Nat.le_gt_cases (j - m0) a) as [J1|J1]; [destruct (Nat.le_gt_cases (m0 - j) a) as [J2|J2]|].
        2,3: rewrite sample_far by (try exact Hj; lia); ring.
        transitivity (sample j * (exp (tau * ((INR j - INR m0) * h)) * nsum n (fun i => (fun x => instrument s (x * h / hbar u) * exp (tau * (x * h))) (INR i - INR j)))).
        { f_equal. rewrite <- nsum_scal. apply nsum_ext. intros i Hi. cbv beta.
          replace (tau * ((INR i - INR m0) * h)) with (tau * ((INR j - INR m0) * h) + tau * ((INR i - INR j) * h)) by ring. rewrite exp_plus. ring. }
        rewrite (nsum_support n j b (fun x => instrument s (x * h / hbar u) * exp (tau * (x * h)))).
        - fold (instrument_sum tau). ring.
        - lia.
        - unfold n in *. lia.
        - intros x Hx. rewrite Hinst; [ring|]. pose proof (hbar_pos u) as Hb. unfold Rdiv. rewrite !Rabs_mult, (Rabs_pos_eq h), (Rabs_pos_eq (/ hbar u)) by (try lra; left; now apply Rinv_0_lt_compat).
          apply Rmult_lt_compat_r; [now apply Rinv_0_lt_compat|]. now apply Rmult_lt_compat_r. }
      rewrite nsum_scal.
      replace (nsum n (fun j => sample j * exp (tau * ((INR j - INR m0) * h)))) with (zsum a (fun z => Sf (z * h) * exp (- tau * (z * h)))); [ring|].
      rewrite <- (zsum_opp a). rewrite <- (nsum_support n m0 a).
      + apply nsum_ext. intros j Hj. rewrite sample_eq by exact Hj. f_equal; [f_equal; ring|f_equal; ring].
      + lia.
      + unfold n. lia.
      + intros x Hx. rewrite HSf; [ring|]. rewrite Rabs_mult, Rabs_Ropp, (Rabs_pos_eq h) by lra. now apply Rmult_lt_compat_r.
    - rewrite recorded_eq by (unfold n; lia). rewrite nsum_0; [ring|]. intros j Hj.
      destruct (Nat.le_gt_cases (m0 - j) a) as [J|J]; [rewrite inst_far by lia; ring|rewrite sample_far by (try exact Hj; lia); ring].
    - rewrite recorded_eq by (unfold n; lia). rewrite nsum_0; [ring|]. intros j Hj.
      destruct (Nat.le_gt_cases (j - m0) a) as [J|J]; [rewrite inst_far by (unfold n in *; lia); ring|rewrite sample_far by (try exact Hj; lia); ring].
  Qed.
End Spectrometer.
