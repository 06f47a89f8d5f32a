(** The hypernetted-chain iteration at weak coupling: bounds for the transforms
    and the Ornstein-Zernike relation, and the step as a contraction. *)
From Coq Require Import Reals Lra Psatz List Lia Arith Bool.
From Coquelicot Require Import Coquelicot.
Import ListNotations.
From Verif Require Import M_Const M_Helpers L_Helpers M_HNC L_HNC L_HNC2 L_HNC3.
Open Scope R_scope.

(** ** Sums and maxima *)
Lemma nsum_le n f g : (forall i, (i < n)%nat -> f i <= g i) -> nsum n f <= nsum n g.
Proof.
  induction n as [|n IH]; intros H; cbn; [lra|]. pose proof (H n ltac:(lia)). pose proof (IH ltac:(auto)). lra.
Qed.
Lemma nsum_abs n f : Rabs (nsum n f) <= nsum n (fun i => Rabs (f i)).
Proof.
  induction n as [|n IH]; cbn; [rewrite Rabs_R0; lra|]. pose proof (Rabs_triang (nsum n f) (f n)). lra.
Qed.
Lemma nsum_bound n f x : (forall i, (i < n)%nat -> Rabs (f i) <= x) -> Rabs (nsum n f) <= INR n * x.
Proof.
  intros H. apply (Rle_trans _ _ _ (nsum_abs n f)). rewrite <- nsum_const. now apply nsum_le.
Qed.
Lemma nsum_term n f i : (forall j, (j < n)%nat -> 0 <= f j) -> (i < n)%nat -> f i <= nsum n f.
Proof.
  induction n as [|n IH]; intros H Hi; [lia|]. cbn. destruct (Nat.eq_dec i n) as [->|Hn].
  - pose proof (nsum_nonneg n f ltac:(auto)). lra.
  - pose proof (IH ltac:(auto) ltac:(lia)). pose proof (H n ltac:(lia)). lra.
Qed.
Lemma max1 n (f : nat -> R) : (1 <= n)%nat -> exists i, (i < n)%nat /\ forall j, (j < n)%nat -> f j <= f i.
Proof.
  induction n as [|n IH]; intros Hn; [lia|]. destruct n as [|n].
  - exists O. split; [lia|]. intros j Hj. replace j with O by lia. lra.
  - destruct IH as (i & Hi & H); [lia|]. destruct (Rle_dec (f (S n)) (f i)).
    + exists i. split; [lia|]. intros j Hj. destruct (Nat.eq_dec j (S n)) as [->|]; [assumption|]. apply H. lia.
    + exists (S n). split; [lia|]. intros j Hj. destruct (Nat.eq_dec j (S n)) as [->|]; [lra|].
      pose proof (H j ltac:(lia)). lra.
Qed.
Lemma max2 M N (f : nat -> nat -> R) : (1 <= M)%nat -> (1 <= N)%nat ->
  exists a b, (a < M)%nat /\ (b < N)%nat /\ forall i j, (i < M)%nat -> (j < N)%nat -> f i j <= f a b.
Proof.
  intros HM HN. revert M HM. induction M as [|M IH]; intros HM; [lia|].
  destruct (max1 N (f M) HN) as (b & Hb & H). destruct M as [|M].
  - exists O, b. split; [lia|]. split; [exact Hb|]. intros i j Hi Hj. replace i with O by lia. now apply H.
  - destruct IH as (a & b' & Ha & Hb' & H'); [lia|]. destruct (Rle_dec (f (S M) b) (f a b')).
    + exists a, b'. split; [lia|]. split; [exact Hb'|]. intros i j Hi Hj. destruct (Nat.eq_dec i (S M)) as [->|].
      * pose proof (H j Hj). lra.
      * apply H'; [lia|exact Hj].
    + exists (S M), b. split; [lia|]. split; [exact Hb|]. intros i j Hi Hj. destruct (Nat.eq_dec i (S M)) as [->|].
      * now apply H.
      * pose proof (H' i j ltac:(lia) Hj). lra.
Qed.
Lemma max3 M N (f : arr3) : (1 <= M)%nat -> (1 <= N)%nat ->
  exists a b j, (a < M)%nat /\ (b < M)%nat /\ (j < N)%nat /\
    forall i k l, (i < M)%nat -> (k < M)%nat -> (l < N)%nat -> f i k l <= f a b j.
Proof.
  intros HM HN.
  assert (H : forall a, exists b j, (b < M)%nat /\ (j < N)%nat /\ forall k l, (k < M)%nat -> (l < N)%nat -> f a k l <= f a b j).
  { intros a. apply max2; assumption. }
  assert (HP : forall P, (1 <= P)%nat -> exists a b j, (a < P)%nat /\ (b < M)%nat /\ (j < N)%nat /\
    forall i k l, (i < P)%nat -> (k < M)%nat -> (l < N)%nat -> f i k l <= f a b j).
  { induction P as [|P IH]; intros HP; [lia|]. destruct (H P) as (b & j & Hb & Hj & Hm). destruct P as [|P].
    - exists O, b, j. split; [lia|]. split; [exact Hb|]. split; [exact Hj|]. intros i k l Hi Hk Hl.
      replace i with O by lia. now apply Hm.
    - destruct IH as (a & b' & j' & Ha & Hb' & Hj' & Hm'); [lia|]. destruct (Rle_dec (f (S P) b j) (f a b' j')).
      + exists a, b', j'. split; [lia|]. split; [exact Hb'|]. split; [exact Hj'|]. intros i k l Hi Hk Hl.
        destruct (Nat.eq_dec i (S P)) as [->|]; [pose proof (Hm k l Hk Hl); lra|]. apply Hm'; [lia|exact Hk|exact Hl].
      + exists (S P), b, j. split; [lia|]. split; [exact Hb|]. split; [exact Hj|]. intros i k l Hi Hk Hl.
        destruct (Nat.eq_dec i (S P)) as [->|]; [now apply Hm|]. pose proof (Hm' i k l ltac:(lia) Hk Hl). lra. }
  now apply HP.
Qed.

(** ** Arrays of bounded entries *)
Definition small3 (M N : nat) (x : R) (f : arr3) : Prop :=
  forall a b j, (a < M)%nat -> (b < M)%nat -> (j < N)%nat -> Rabs (f a b j) <= x.
Definition near3 (M N : nat) (x : R) (f g : arr3) : Prop :=
  forall a b j, (a < M)%nat -> (b < M)%nat -> (j < N)%nat -> Rabs (f a b j - g a b j) <= x.

(** ** The transforms are bounded *)
Lemma sum_bound N (K f : nat -> R) x : (forall j, (j < N)%nat -> Rabs (f j) <= x) ->
  Rabs (nsum N (fun j => K j * f j)) <= nsum N (fun j => Rabs (K j)) * x.
Proof.
  intros H. apply (Rle_trans _ _ _ (nsum_abs N _)). rewrite <- nsum_scal_r. apply nsum_le. intros j Hj.
  rewrite Rabs_mult. apply Rmult_le_compat_l; [apply Rabs_pos|now apply H].
Qed.
Lemma linear_bounded N (L : nat -> (nat -> R) -> R) (P : nat -> R) (K : nat -> nat -> R) :
  (forall m f, (m < N)%nat -> L m f = P m * nsum N (fun j => K m j * f j)) ->
  exists A, 1 <= A /\ forall f x, 0 <= x -> (forall j, (j < N)%nat -> Rabs (f j) <= x) ->
    forall m, (m < N)%nat -> Rabs (L m f) <= A * x.
Proof.
  intros HL. set (F := fun m => Rabs (P m) * nsum N (fun j => Rabs (K m j))).
  assert (HF : forall m, 0 <= F m).
  { intros m. unfold F. apply Rmult_le_pos; [apply Rabs_pos|]. apply nsum_nonneg. intros; apply Rabs_pos. }
  exists (1 + nsum N F). split; [pose proof (nsum_nonneg N F ltac:(auto)); lra|].
  intros f x Hx Hf m Hm. rewrite HL, Rabs_mult by assumption.
  apply (Rle_trans _ (F m * x)).
  - unfold F. rewrite Rmult_assoc. apply Rmult_le_compat_l; [apply Rabs_pos|]. now apply sum_bound.
  - apply Rmult_le_compat_r; [exact Hx|]. pose proof (nsum_term N F m ltac:(auto) Hm). lra.
Qed.
Lemma forward_bounded N r : exists A, 1 <= A /\ forall f x, 0 <= x -> (forall j, (j < N)%nat -> Rabs (f j) <= x) ->
  forall m, (m < N)%nat -> Rabs (forward N r f m) <= A * x.
Proof.
  apply (linear_bounded N (fun m f => forward N r f m) (fun m => 4 * PI * (r 1%nat - r 0%nat) / k_grid N r m)
    (fun m j => r j * dst_kernel N j m)).
  intros m f Hm. unfold forward. f_equal. apply nsum_ext. intros; ring.
Qed.
Lemma backward_bounded N r : exists A, 1 <= A /\ forall f x, 0 <= x -> (forall j, (j < N)%nat -> Rabs (f j) <= x) ->
  forall m, (m < N)%nat -> Rabs (backward N r f m) <= A * x.
Proof.
  apply (linear_bounded N (fun j F => backward N r F j) (fun j => 4 * PI * k_step N r / r j / (2 * PI) ^ 3)
    (fun j m => k_grid N r m * dst_kernel N m j)).
  intros m f Hm. unfold backward, Rdiv.
  rewrite (nsum_ext N _ (fun j => k_grid N r j * dst_kernel N j m * f j)) by (intros; ring). ring.
Qed.
Lemma forward_minus N r f g m : forward N r (fun j => f j - g j) m = forward N r f m - forward N r g m.
Proof.
  rewrite (forward_ext N r _ (fun j => f j + (-1) * g j)) by (intros; ring). rewrite forward_plus, forward_scal. ring.
Qed.
Lemma backward_minus N r f g m : backward N r (fun j => f j - g j) m = backward N r f m - backward N r g m.
Proof.
  unfold backward. rewrite (nsum_ext N _ (fun j => k_grid N r j * f j * dst_kernel N j m - k_grid N r j * g j * dst_kernel N j m)) by (intros; ring).
  rewrite nsum_minus. unfold Rdiv. ring.
Qed.

(** ** The exponential near zero *)
Lemma exp_m1_bound x : Rabs x <= 1 / 2 -> Rabs (exp x - 1) <= 2 * Rabs x.
Proof.
  intros Hx. pose proof (exp_ineq1_le x) as H1. pose proof (exp_ineq1_le (- x)) as H2.
  assert (H3 : exp x * exp (- x) = 1) by (rewrite <- exp_plus, Rplus_opp_r; apply exp_0).
  pose proof (exp_pos x) as H4. revert Hx. unfold Rabs at 1 3. destruct (Rcase_abs x); intros Hx.
  - unfold Rabs. destruct (Rcase_abs _); nra.
  - assert (exp x * (1 - x) <= 1) by nra. unfold Rabs. destruct (Rcase_abs _); [nra|]. nra.
Qed.
Lemma exp_lip s x y : s <= 1 / 2 -> Rabs x <= s -> Rabs y <= s ->
  Rabs ((exp x - x) - (exp y - y)) <= 2 * s * Rabs (x - y).
Proof.
  intros Hs Hx Hy.
  destruct (MVT_gen (fun t => exp t - t) y x (fun t => exp t - 1)) as (c & Hc & E).
  - intros t _. auto_derive; [exact I|]. ring.
  - intros t _. apply continuity_pt_filterlim. apply (ex_derive_continuous (fun t => exp t - t)). auto_derive. exact I.
  - rewrite E, Rabs_mult. apply Rmult_le_compat_r; [apply Rabs_pos|].
    assert (Hcs : Rabs c <= s).
    { apply Rabs_le. apply Rabs_le_between in Hx, Hy. revert Hc. unfold Rmin, Rmax.
      destruct (Rle_dec y x); intros; lra. }
    pose proof (exp_m1_bound c ltac:(lra)). lra.
Qed.

(** ** Relations h = c + Q(c, h) for small direct correlations *)
Definition small2 (M : nat) (x : R) (c : nat -> nat -> R) : Prop := forall a b, (a < M)%nat -> (b < M)%nat -> Rabs (c a b) <= x.
(** [Q] bilinear, bounded by [P] *)
Record bounded_form (M : nat) (Q : (nat -> nat -> R) -> (nat -> nat -> R) -> nat -> nat -> R) (P : R) : Prop := {
  bf_pos : 0 <= P;
  bf_bound : forall c h x y a b, small2 M x c -> small2 M y h -> 0 <= x -> 0 <= y -> (a < M)%nat -> (b < M)%nat ->
    Rabs (Q c h a b) <= P * x * y;
  bf_diff : forall c h c' h' a b,
    Q c h a b - Q c' h' a b = Q (fun p q => c p q - c' p q) h a b + Q c' (fun p q => h p q - h' p q) a b;
  bf_ext : forall c h c' h' a b, (forall p q, (p < M)%nat -> (q < M)%nat -> c p q = c' p q) ->
    (forall p q, (p < M)%nat -> (q < M)%nat -> h p q = h' p q) -> (a < M)%nat -> (b < M)%nat -> Q c h a b = Q c' h' a b
}.
Section SmallOZ.
Variable M : nat.
Variable Q : (nat -> nat -> R) -> (nat -> nat -> R) -> nat -> nat -> R.
Variable P kappa : R.
Hypothesis HM : (1 <= M)%nat.
Hypothesis HQ : bounded_form M Q P.
Hypothesis Hk : 0 <= kappa.
Hypothesis Hsmall : P * kappa <= 1 / 1000.
Definition QOZ (c h : nat -> nat -> R) : Prop := forall a b, (a < M)%nat -> (b < M)%nat -> h a b = c a b + Q c h a b.
Lemma QOZ_ext c h c' h' : (forall p q, (p < M)%nat -> (q < M)%nat -> c p q = c' p q) ->
  (forall p q, (p < M)%nat -> (q < M)%nat -> h p q = h' p q) -> QOZ c h -> QOZ c' h'.
Proof.
  intros Hc Hh H a b Ha Hb. rewrite <- Hc, <- Hh by assumption. rewrite (H a b Ha Hb). f_equal.
  now apply (bf_ext M Q P HQ).
Qed.
Lemma oz_bound c h : small2 M kappa c -> QOZ c h -> small2 M (2 * kappa) h.
Proof.
  intros Hc Hoz. destruct (max2 M M (fun a b => Rabs (h a b)) HM HM) as (a0 & b0 & Ha0 & Hb0 & Hm). cbv beta in Hm.
  assert (H0 : Rabs (h a0 b0) <= kappa + P * kappa * Rabs (h a0 b0)).
  { rewrite (Hoz a0 b0 Ha0 Hb0) at 1. apply (Rle_trans _ _ _ (Rabs_triang _ _)). apply Rplus_le_compat; [now apply Hc|].
    apply (bf_bound M Q P HQ); try assumption; try apply Rabs_pos; intros a b Ha Hb; now apply Hm. }
  pose proof (Rabs_pos (h a0 b0)).
  intros a b Ha Hb. pose proof (Hm a b Ha Hb). nra.
Qed.
(** the indirect part h - c *)
Lemma oz_indirect c h : small2 M kappa c -> QOZ c h -> small2 M (2 * P * kappa ^ 2) (fun a b => h a b - c a b).
Proof.
  intros Hc Hoz a b Ha Hb. rewrite (Hoz a b Ha Hb).
  replace (c a b + Q c h a b - c a b) with (Q c h a b) by ring.
  replace (2 * P * kappa ^ 2) with (P * kappa * (2 * kappa)) by ring.
  apply (bf_bound M Q P HQ); try assumption; try lra. now apply (oz_bound c).
Qed.
Lemma oz_lip c h c' h' d : 0 <= d -> small2 M kappa c -> small2 M kappa c' -> QOZ c h -> QOZ c' h' ->
  small2 M d (fun a b => c a b - c' a b) ->
  small2 M (2 * d) (fun a b => h a b - h' a b) /\
  small2 M (4 * P * kappa * d) (fun a b => (h a b - c a b) - (h' a b - c' a b)).
Proof.
  intros Hd Hc Hc' H H' Hdiff.
  pose proof (oz_bound c h Hc H) as Bh.
  assert (E : forall a b, (a < M)%nat -> (b < M)%nat ->
    (h a b - c a b) - (h' a b - c' a b) = Q (fun p q => c p q - c' p q) h a b + Q c' (fun p q => h p q - h' p q) a b).
  { intros a b Ha Hb. rewrite <- (bf_diff M Q P HQ c h c' h'). rewrite (H a b Ha Hb), (H' a b Ha Hb). ring. }
  assert (B1 : forall a b, (a < M)%nat -> (b < M)%nat -> Rabs (Q (fun p q => c p q - c' p q) h a b) <= P * d * (2 * kappa)).
  { intros a b Ha Hb. apply (bf_bound M Q P HQ); try assumption. lra. }
  pose proof (bf_pos M Q P HQ) as HP.
  assert (B2 : small2 M (2 * d) (fun a b => h a b - h' a b)).
  { destruct (max2 M M (fun a b => Rabs (h a b - h' a b)) HM HM) as (a0 & b0 & Ha0 & Hb0 & Hm). cbv beta in Hm.
    assert (H0 : Rabs (h a0 b0 - h' a0 b0) <= d + (P * d * (2 * kappa) + P * kappa * Rabs (h a0 b0 - h' a0 b0))).
    { replace (h a0 b0 - h' a0 b0) with ((c a0 b0 - c' a0 b0) + ((h a0 b0 - c a0 b0) - (h' a0 b0 - c' a0 b0))) at 1 by ring.
      apply (Rle_trans _ _ _ (Rabs_triang _ _)). apply Rplus_le_compat; [now apply (Hdiff a0 b0)|].
      rewrite E by assumption. apply (Rle_trans _ _ _ (Rabs_triang _ _)). apply Rplus_le_compat; [now apply B1|].
      apply (bf_bound M Q P HQ); try assumption; try apply Rabs_pos; intros a b Ha Hb; now apply Hm. }
    set (x := Rabs (h a0 b0 - h' a0 b0)) in *. assert (0 <= x) by apply Rabs_pos.
    set (p := P * kappa) in *. assert (0 <= p) by (unfold p; now apply Rmult_le_pos).
    replace (P * d * (2 * kappa)) with (2 * p * d) in H0 by (unfold p; ring).
    intros a b Ha Hb. pose proof (Hm a b Ha Hb). assert (x <= 2 * d) by nra. lra. }
  split; [exact B2|]. intros a b Ha Hb. rewrite E by assumption. apply (Rle_trans _ _ _ (Rabs_triang _ _)).
  replace (4 * P * kappa * d) with (P * d * (2 * kappa) + P * kappa * (2 * d)) by ring.
  apply Rplus_le_compat; [now apply B1|]. apply (bf_bound M Q P HQ); try assumption. lra.
Qed.
Lemma oz_one c h h' : small2 M kappa c -> QOZ c h -> QOZ c h' -> forall a b, (a < M)%nat -> (b < M)%nat -> h a b = h' a b.
Proof.
  intros Hc H H' a b Ha Hb.
  destruct (oz_lip c h c h' 0 ltac:(lra) Hc Hc H H') as [HL _].
  - intros p q _ _. cbv beta. replace (c p q - c p q) with 0 by ring. rewrite Rabs_R0. lra.
  - specialize (HL a b Ha Hb). cbv beta in HL. rewrite Rmult_0_r in HL. apply Rabs_le_between in HL. lra.
Qed.
End SmallOZ.

(** ** The two relations *)
Definition oz_form (M : nat) (n : nat -> R) (c h : nat -> nat -> R) (a b : nat) : R := nsum M (fun s => c a s * n s * h s b).
Definition svt_form (M : nat) (n m : nat -> R) (T : nat -> nat -> R) (c h : nat -> nat -> R) (a b : nat) : R :=
  nsum M (fun s => n s * (m b / (m a + m b) * (T a s / T a b) * c a s * h s b
       + m a / (m a + m b) * (T b s / T a b) * h a s * c s b)).
Lemma oz_form_bounded M n D : (1 <= M)%nat -> (forall s, (s < M)%nat -> Rabs (n s) <= D) -> bounded_form M (oz_form M n) (INR M * D).
Proof.
  intros HM HD. split.
  - apply Rmult_le_pos; [apply pos_INR|]. pose proof (HD O ltac:(lia)). pose proof (Rabs_pos (n O)). lra.
  - intros c h x y a b Hc Hh Hx Hy Ha Hb. unfold oz_form. replace (INR M * D * x * y) with (INR M * (x * D * y)) by ring.
    apply nsum_bound. intros s Hs. rewrite !Rabs_mult.
    apply Rmult_le_compat; try apply Rabs_pos; [apply Rmult_le_pos; apply Rabs_pos| |now apply Hh].
    apply Rmult_le_compat; try apply Rabs_pos; [now apply Hc|now apply HD].
  - intros. unfold oz_form. rewrite <- nsum_plus, <- nsum_minus. apply nsum_ext. intros; ring.
  - intros c h c' h' a b Hc Hh Ha Hb. unfold oz_form. apply nsum_ext. intros s Hs. now rewrite Hc, Hh.
Qed.
Lemma svt_form_bounded M n m T D : (1 <= M)%nat ->
  (forall a b s, (a < M)%nat -> (b < M)%nat -> (s < M)%nat ->
     Rabs (n s * (m b / (m a + m b) * (T a s / T a b))) <= D /\ Rabs (n s * (m a / (m a + m b) * (T b s / T a b))) <= D) ->
  bounded_form M (svt_form M n m T) (INR M * (2 * D)).
Proof.
  intros HM HD. split.
  - apply Rmult_le_pos; [apply pos_INR|]. destruct (HD O O O ltac:(lia) ltac:(lia) ltac:(lia)) as [H _].
    pose proof (Rabs_pos (n O * (m O / (m O + m O) * (T O O / T O O)))). lra.
  - intros c h x y a b Hc Hh Hx Hy Ha Hb. unfold svt_form. replace (INR M * (2 * D) * x * y) with (INR M * (D * (x * y) + D * (x * y))) by ring.
    apply nsum_bound. intros s Hs. destruct (HD a b s Ha Hb Hs) as [D1 D2].
    replace (n s * (m b / (m a + m b) * (T a s / T a b) * c a s * h s b + m a / (m a + m b) * (T b s / T a b) * h a s * c s b))
      with (n s * (m b / (m a + m b) * (T a s / T a b)) * (c a s * h s b) + n s * (m a / (m a + m b) * (T b s / T a b)) * (c s b * h a s)) by ring.
    apply (Rle_trans _ _ _ (Rabs_triang _ _)). rewrite (Rabs_mult _ (c a s * h s b)), (Rabs_mult _ (c s b * h a s)), (Rabs_mult (c a s)), (Rabs_mult (c s b)).
    apply Rplus_le_compat; (apply Rmult_le_compat; try apply Rabs_pos; [apply Rmult_le_pos; apply Rabs_pos|assumption|];
      apply Rmult_le_compat; try apply Rabs_pos; [now apply Hc|now apply Hh]).
  - intros. unfold svt_form. rewrite <- nsum_plus, <- nsum_minus. apply nsum_ext. intros; ring.
  - intros c h c' h' a b Hc Hh Ha Hb. unfold svt_form. apply nsum_ext. intros s Hs. now rewrite !Hc, !Hh.
Qed.
(** 1 - c n is diagonally dominant, hence regular *)
Lemma dominant_regular L A t : (1 <= L)%nat -> INR L * t <= 1 / 1000 ->
  (forall i j, (i < L)%nat -> (j < L)%nat -> Rabs (A i j - delta i j) <= t) -> regular L A.
Proof.
  intros HL Ht HA v Hv i Hi. destruct (max1 L (fun i => Rabs (v i)) HL) as (i0 & Hi0 & Hm). cbv beta in Hm.
  pose proof (Hv i0 Hi0) as E. unfold mv in E.
  rewrite (nsum_ext L _ (fun j => (A i0 j - delta i0 j) * v j + delta i0 j * v j)) in E by (intros; ring).
  rewrite nsum_plus, (delta_sum L i0 v Hi0) in E.
  assert (B : Rabs (nsum L (fun j => (A i0 j - delta i0 j) * v j)) <= INR L * (t * Rabs (v i0))).
  { apply nsum_bound. intros s Hs. rewrite !Rabs_mult. apply Rmult_le_compat; try apply Rabs_pos; [now apply HA|now apply Hm]. }
  replace (nsum L (fun j => (A i0 j - delta i0 j) * v j)) with (- v i0) in B by lra. rewrite Rabs_Ropp in B.
  pose proof (Rabs_pos (v i0)). pose proof (Rabs_pos (v i)). pose proof (Hm i Hi).
  assert (Rabs (v i) = 0) by nra. destruct (Req_dec (v i) 0) as [|Hn]; [assumption|]. now apply Rabs_no_R0 in Hn.
Qed.

(** ** Determinants near the identity *)
Lemma sumn_abs n f x : (forall i, (i < n)%nat -> Rabs (f i) <= x) -> Rabs (sumn n f) <= INR n * x.
Proof. intros H. rewrite <- nsum_sumn. now apply nsum_bound. Qed.
Lemma minor_index m c j : (c < m)%nat -> (j < S m)%nat -> ((if Nat.ltb c j then c else S c) < S m)%nat.
Proof. intros. destruct (Nat.ltb c j); lia. Qed.
Lemma abs_sign j : Rabs ((-1) ^ j) = 1.
Proof. rewrite <- RPow_abs. replace (Rabs (-1)) with 1 by (rewrite Rabs_left; lra). apply pow1. Qed.
Fixpoint det_bound (m : nat) : R := match m with O => 1 | S p => INR (S p) * (2 * det_bound p) end.
Lemma det_bounded m : forall A, (forall i j, (i < m)%nat -> (j < m)%nat -> Rabs (A i j) <= 2) -> Rabs (det m A) <= det_bound m.
Proof.
  induction m as [|m IH]; intros A HA; [cbn; rewrite Rabs_R1; lra|].
  cbn [det det_bound]. apply sumn_abs. intros j Hj. rewrite !Rabs_mult, abs_sign, Rmult_1_l.
  apply Rmult_le_compat; try apply Rabs_pos; [apply HA; lia|]. apply IH. intros r c Hr Hc. unfold minor.
  apply HA; [lia|now apply minor_index].
Qed.
Lemma det_near m t : 0 <= t <= 1 ->
  forall A, (forall i j, (i < m)%nat -> (j < m)%nat -> Rabs (A i j - delta i j) <= t) ->
  Rabs (det m A - 1) <= (match m with O => 0 | S O => 1 | S (S O) => 5 | S (S (S O)) => 27 | _ => 199 end) * t \/ (4 < m)%nat.
Proof.
  intros Ht.
  assert (St : forall p e A, (forall i j, (i < S p)%nat -> (j < S p)%nat -> Rabs (A i j - delta i j) <= t) ->
     Rabs (det p (minor A 0) - 1) <= e -> Rabs (det (S p) A - 1) <= 2 * e + t + INR p * (t * det_bound p)).
  { intros p e A HA He. cbn [det].
    rewrite <- nsum_sumn, nsum_shift. rewrite pow_O, Rmult_1_l.
    set (d0 := det p (minor A 0)) in *.
    replace (A 0%nat 0%nat * d0 + nsum p (fun i => (-1) ^ S i * A 0%nat (S i) * det p (minor A (S i))) - 1)
      with (A 0%nat 0%nat * (d0 - 1) + (A 0%nat 0%nat - 1) + nsum p (fun i => (-1) ^ S i * A 0%nat (S i) * det p (minor A (S i)))) by ring.
    pose proof (HA 0%nat 0%nat ltac:(lia) ltac:(lia)) as H00. unfold delta in H00. cbn in H00.
    apply (Rle_trans _ _ _ (Rabs_triang _ _)). apply Rplus_le_compat.
    - apply (Rle_trans _ _ _ (Rabs_triang _ _)). apply Rplus_le_compat; [|exact H00].
      rewrite Rabs_mult. apply Rmult_le_compat; try apply Rabs_pos; [|exact He].
      apply Rabs_le. apply Rabs_le_between in H00. lra.
    - apply nsum_bound. intros i Hi. rewrite !Rabs_mult, abs_sign, Rmult_1_l.
      apply Rmult_le_compat; try apply Rabs_pos.
      + pose proof (HA 0%nat (S i) ltac:(lia) ltac:(lia)) as H. unfold delta in H. cbn in H. now rewrite Rminus_0_r in H.
      + apply det_bounded. intros a c Ha Hc. unfold minor.
        pose proof (HA (S a) (if Nat.ltb c (S i) then c else S c) ltac:(lia) ltac:(apply minor_index; lia)) as H.
        assert (Hd : delta (S a) (if Nat.ltb c (S i) then c else S c) = 0 \/ delta (S a) (if Nat.ltb c (S i) then c else S c) = 1).
        { unfold delta. destruct (Nat.eqb _ _); auto. }
        apply Rabs_le. apply Rabs_le_between in H. destruct Hd as [Hd|Hd]; rewrite Hd in H; lra. }
  assert (Mi : forall p A, (forall i j, (i < S p)%nat -> (j < S p)%nat -> Rabs (A i j - delta i j) <= t) ->
     forall i j, (i < p)%nat -> (j < p)%nat -> Rabs (minor A 0 i j - delta i j) <= t).
  { intros p A HA i j Hi Hj. unfold minor. cbn [Nat.ltb Nat.leb]. pose proof (HA (S i) (S j) ltac:(lia) ltac:(lia)) as H.
    unfold delta in *. exact H. }
  assert (B0 : forall A, Rabs (det 0 A - 1) <= 0) by (intros; cbn; replace (1 - 1) with 0 by ring; rewrite Rabs_R0; lra).
  assert (B1 : forall A, (forall i j, (i < 1)%nat -> (j < 1)%nat -> Rabs (A i j - delta i j) <= t) -> Rabs (det 1 A - 1) <= t).
  { intros A HA. pose proof (St 0%nat 0 A HA (B0 _)) as H. cbn [INR] in H. lra. }
  assert (B2 : forall A, (forall i j, (i < 2)%nat -> (j < 2)%nat -> Rabs (A i j - delta i j) <= t) -> Rabs (det 2 A - 1) <= 5 * t).
  { intros A HA. pose proof (St 1%nat t A HA (B1 _ (Mi _ _ HA))) as H. cbn [INR det_bound] in H. lra. }
  assert (B3 : forall A, (forall i j, (i < 3)%nat -> (j < 3)%nat -> Rabs (A i j - delta i j) <= t) -> Rabs (det 3 A - 1) <= 27 * t).
  { intros A HA. pose proof (St 2%nat (5 * t) A HA (B2 _ (Mi _ _ HA))) as H. cbn [INR det_bound] in H. lra. }
  assert (B4 : forall A, (forall i j, (i < 4)%nat -> (j < 4)%nat -> Rabs (A i j - delta i j) <= t) -> Rabs (det 4 A - 1) <= 199 * t).
  { intros A HA. pose proof (St 3%nat (27 * t) A HA (B3 _ (Mi _ _ HA))) as H. cbn [INR det_bound] in H. lra. }
  intros A HA. destruct m as [|[|[|[|[|m]]]]]; [left|left|left|left|left|right; lia].
  - pose proof (B0 A). lra.
  - pose proof (B1 A HA). lra.
  - now apply B2.
  - now apply B3.
  - now apply B4.
Qed.
Lemma near_det L A t : (1 <= L <= 4)%nat -> 0 <= t <= 1 / 1000 ->
  (forall i j, (i < L)%nat -> (j < L)%nat -> Rabs (A i j - delta i j) <= t) -> det L A <> 0.
Proof.
  intros HL Ht HA. destruct (det_near L t ltac:(lra) A HA) as [H|H]; [intros E|lia].
  rewrite E in H. replace (0 - 1) with (-1) in H by ring. replace (Rabs (-1)) with 1 in H by (rewrite Rabs_left; lra).
  destruct L as [|[|[|[|[|L]]]]]; cbn in H; try lia; lra.
Qed.
Lemma oz_near M n D kappa c : (forall s, (s < M)%nat -> Rabs (n s) <= D) -> small2 M kappa c ->
  forall i j, (i < M)%nat -> (j < M)%nat -> Rabs (oz_matrix n c i j - delta i j) <= D * kappa.
Proof.
  intros HD Hc i j Hi Hj. unfold oz_matrix. replace (delta i j - c i j * n j - delta i j) with (- (c i j * n j)) by ring.
  rewrite Rabs_Ropp, Rabs_mult, Rmult_comm. apply Rmult_le_compat; try apply Rabs_pos; [now apply HD|now apply Hc].
Qed.
