(** Lemmas for the cached structure factor: interpolation is linear in the
    tabulated values with weights that depend on the abscissae only, and does
    not see the unit of the abscissae. *)
From Coq Require Import Reals List Bool Arith Lra Lia.
From Verif Require Import M_Const M_PlasmaState M_Interp L_Interp M_Setup L_Setup M_IonFeature L_IonFeature M_BMSii.
Import ListNotations.
Open Scope R_scope.

(** two indices and a weight, chosen by the abscissae alone *)
Lemma interp_affine xs q : exists i j t, forall ys, interp None None xs ys q = (1 - t) * at_ ys i + t * at_ ys j.
Proof.
  set (n := length xs). set (i := Nat.min (Nat.max (searchsorted xs q) 1) (n - 1)).
  unfold interp. fold n. fold i.
  destruct (Rgt_dec q (at_ xs (n - 1))); [exists O, (n - 1)%nat, 1; intros; ring|].
  destruct (Rlt_dec q (at_ xs 0)); [exists O, O, 0; intros; ring|].
  destruct (Req_EM_T _ 0); [exists (i - 1)%nat, O, 0; intros; ring|].
  exists (i - 1)%nat, i, ((q - at_ xs (i - 1)) / (at_ xs i - at_ xs (i - 1))). intros. ring.
Qed.
(** on an ascending grid the weights are convex *)
Lemma interp_affine_convex xs q : ascending xs -> (1 <= length xs)%nat ->
  exists i j t, (i < length xs)%nat /\ (j < length xs)%nat /\ 0 <= t <= 1 /\
    forall ys, interp None None xs ys q = (1 - t) * at_ ys i + t * at_ ys j.
Proof.
  intros Ha Hn. set (n := length xs) in *. unfold interp. fold n.
  destruct (searchsorted_spec xs q Ha) as (B1 & B2 & B3). fold n in B1, B2, B3.
  set (m := searchsorted xs q) in *. set (i := Nat.min (Nat.max m 1) (n - 1)).
  destruct (Rgt_dec q (at_ xs (n - 1))); [exists O, (n - 1)%nat, 1; repeat split; try lia; try lra; intros; ring|].
  destruct (Rlt_dec q (at_ xs 0)); [exists O, O, 0; repeat split; try lia; try lra; intros; ring|].
  destruct (Req_EM_T _ 0) as [|Hd]; [exists (i - 1)%nat, O, 0; repeat split; try lia; try lra; intros; ring|].
  exists (i - 1)%nat, i, ((q - at_ xs (i - 1)) / (at_ xs i - at_ xs (i - 1))).
  assert (Hle : at_ xs (i - 1) <= at_ xs i) by (apply Ha; fold n; lia).
  assert (Hlt : 0 < at_ xs i - at_ xs (i - 1)) by lra.
  assert (L : at_ xs (i - 1) <= q).
  { destruct (Nat.eq_dec (i - 1) 0) as [E|E]; [rewrite E; lra|]. apply B2. lia. }
  assert (U : q <= at_ xs i).
  { destruct (Nat.eq_dec i (n - 1)) as [E|E]; [rewrite E; lra|].
    left. apply B3. lia. }
  split; [lia|]. split; [lia|]. split; [split|intros; ring].
  - apply Rmult_le_pos; [lra|]. left. now apply Rinv_0_lt_compat.
  - apply (Rmult_le_reg_r (at_ xs i - at_ xs (i - 1))); [exact Hlt|].
    replace ((q - at_ xs (i - 1)) / (at_ xs i - at_ xs (i - 1)) * (at_ xs i - at_ xs (i - 1))) with (q - at_ xs (i - 1)) by (field; lra). lra.
Qed.

(** ** Units *)
Lemma at_scale c xs i : at_ (map (fun x => x * c) xs) i = at_ xs i * c.
Proof.
  unfold at_. revert i. induction xs as [|x xs IH]; intros [|i]; cbn; try ring. apply IH.
Qed.
Lemma bs_step_scale c xs q s : 0 < c -> bs_step (map (fun x => x * c) xs) (q * c) s = bs_step xs q s.
Proof.
  intros Hc. destruct s as [lo hi]. unfold bs_step. rewrite at_scale. set (m := ((lo + hi) / 2)%nat).
  destruct (Rlt_dec (q * c) (at_ xs m * c)) as [H|H], (Rlt_dec q (at_ xs m)) as [G|G]; try reflexivity; exfalso.
  - apply G. now apply Rmult_lt_reg_r with c.
  - apply H. now apply Rmult_lt_compat_r.
Qed.
Lemma searchsorted_scale c xs q : 0 < c -> searchsorted (map (fun x => x * c) xs) (q * c) = searchsorted xs q.
Proof.
  intros Hc. unfold searchsorted. rewrite map_length. f_equal.
  generalize (Nat.log2_up (length xs + 1)) as L. induction L as [|L IH]; [reflexivity|].
  cbn [Nat.iter nat_rect] in *. unfold Nat.iter in *. cbn [nat_rect]. rewrite IH. now apply bs_step_scale.
Qed.
Lemma interp_scale c xs ys q : 0 < c ->
  interp None None (map (fun x => x * c) xs) ys (q * c) = interp None None xs ys q.
Proof.
  intros Hc. unfold interp. rewrite searchsorted_scale by exact Hc. rewrite map_length, !at_scale.
  set (n := length xs). set (i := Nat.min _ _).
  destruct (Rgt_dec (q * c) (at_ xs (n - 1) * c)) as [H|H], (Rgt_dec q (at_ xs (n - 1))) as [G|G]; try reflexivity.
  - exfalso. apply G. now apply Rmult_lt_reg_r with c.
  - exfalso. apply H. now apply Rmult_lt_compat_r.
  - destruct (Rlt_dec (q * c) (at_ xs 0 * c)) as [K|K], (Rlt_dec q (at_ xs 0)) as [J|J]; try reflexivity.
    + exfalso. apply J. now apply Rmult_lt_reg_r with c.
    + exfalso. apply K. now apply Rmult_lt_compat_r.
    + destruct (Req_EM_T (at_ xs i * c - at_ xs (i - 1) * c) 0) as [E|E], (Req_EM_T (at_ xs i - at_ xs (i - 1)) 0) as [F|F]; try reflexivity.
      * exfalso. apply F. apply Rmult_eq_reg_r with c; lra.
      * exfalso. apply E. rewrite <- Rmult_minus_distr_r, F. ring.
      * field. split; lra.
Qed.

(** ** Arrays *)
Definition shape (n m : nat) (S : cube) : Prop :=
  length S = n /\ (forall a, (a < n)%nat -> length (nth a S []) = n) /\
  (forall a b, (a < n)%nat -> (b < n)%nat -> length (row2 S a b) = m).
Lemma entry_interp q ks S n m a b : shape n m S -> (a < n)%nat -> (b < n)%nat ->
  entry (hnc_interp q ks S) a b = interp None None ks (row2 S a b) q.
Proof.
  intros (H1 & H2 & _) Ha Hb. unfold entry, hnc_interp, row2.
  rewrite (nth_indep _ [] (map (fun ys => interp None None ks ys q) [])) by (rewrite map_length; lia).
  rewrite (map_nth (map (fun ys => interp None None ks ys q))).
  rewrite (nth_indep _ 0 (interp None None ks [] q)) by (rewrite map_length, H2; lia).
  now rewrite (map_nth (fun ys => interp None None ks ys q)).
Qed.
Lemma at_map_seq f m i : at_ (map f (seq 0 m)) i = if Nat.ltb i m then f i else 0.
Proof.
  unfold at_. destruct (Nat.ltb_spec i m) as [H|H].
  - rewrite (nth_indep _ 0 (f O)) by (rewrite map_length, seq_length; lia). rewrite map_nth, seq_nth by lia. reflexivity.
  - apply nth_overflow. rewrite map_length, seq_length. lia.
Qed.
Lemma at_short l i : (length l <= i)%nat -> at_ l i = 0.
Proof. intros. now apply nth_overflow. Qed.
Lemma interp_nsum2 xs q n m (w : nat -> nat -> R) (rows : nat -> nat -> list R) :
  (forall a b, (a < n)%nat -> (b < n)%nat -> length (rows a b) = m) ->
  interp None None xs (map (fun j => nsum n (fun a => nsum n (fun b => w a b * at_ (rows a b) j))) (seq 0 m)) q =
  nsum n (fun a => nsum n (fun b => w a b * interp None None xs (rows a b) q)).
Proof.
  intros Hl. destruct (interp_affine xs q) as (i & j & t & E). rewrite E.
  assert (Z : forall p, at_ (map (fun j => nsum n (fun a => nsum n (fun b => w a b * at_ (rows a b) j))) (seq 0 m)) p =
    nsum n (fun a => nsum n (fun b => w a b * at_ (rows a b) p))).
  { intros p. rewrite at_map_seq. destruct (Nat.ltb_spec p m) as [H|H]; [reflexivity|].
    rewrite <- (Rmult_0_l (nsum n (fun _ => 0))). rewrite <- nsum_scal. apply nsum_ext. intros a Ha.
    rewrite <- (Rmult_0_l (nsum n (fun _ => 0))). rewrite <- nsum_scal.
    rewrite Rmult_0_l. rewrite <- (Rmult_0_l (nsum n (fun _ => 0))). rewrite <- nsum_scal. apply nsum_ext. intros b Hb.
    rewrite at_short by (rewrite Hl; lia). ring. }
  rewrite !Z, <- !nsum_scal, <- nsum_plus. apply nsum_ext. intros a Ha.
  rewrite <- !nsum_scal, <- nsum_plus. apply nsum_ext. intros b Hb. rewrite E. ring.
Qed.
