(** Accuracy of the rational approximations of the Fermi integrals up to the step at 2: a polynomial in the fugacity obtained from Chebyshev's polynomials, and integer arithmetic. *)
From Coq Require Import Reals List Arith ZArith QArith Qreals Lra Lia Psatz.
From Coquelicot Require Import Coquelicot.
From Verif Require Import M_Const M_PlasmaState M_Math L_Poly L_Fermi L_FermiFit.
Import ListNotations.
Open Scope R_scope.

(** *** integer polynomials *)
Definition rz (p : list Z) : list R := map IZR p.
Fixpoint zadd (p q : list Z) : list Z := match p, q with [], _ => q | _, [] => p | a :: p', b :: q' => (a + b)%Z :: zadd p' q' end.
Definition zscal (c : Z) (p : list Z) : list Z := map (Z.mul c) p.
Fixpoint zmul (p q : list Z) : list Z := match p with [] => [] | a :: p' => zadd (zscal a q) (0%Z :: zmul p' q) end.
(** p (x + m) *)
Fixpoint zsh (p : list Z) (m : Z) : list Z := match p with [] => [] | c :: r => let s := zsh r m in zadd (c :: s) (zscal m s) end.
(** p (x / 4) times a power of four *)
Fixpoint zq (p : list Z) : list Z := match p with [] => [] | c :: r => (c * 4 ^ Z.of_nat (length r))%Z :: zq r end.
Fixpoint zab (p : list Z) (r : Z) : Z := match p with [] => 0%Z | c :: q => (Z.abs c + r * zab q r)%Z end.
Fixpoint zv (p : list Z) (x : Z) : Z := match p with [] => 0%Z | c :: q => (c + x * zv q x)%Z end.
Lemma ze_add p q x : pe (rz (zadd p q)) x = pe (rz p) x + pe (rz q) x.
Proof. revert q. induction p as [|a p IH]; intros [|b q]; cbn [zadd rz map pe]; try ring. fold (rz (zadd p q)). rewrite IH, plus_IZR. unfold rz. ring. Qed.
Lemma ze_scal c p x : pe (rz (zscal c p)) x = IZR c * pe (rz p) x.
Proof. induction p as [|a p IH]; cbn [zscal rz map pe]; [ring|]. fold (zscal c p). fold (rz (zscal c p)). rewrite IH, mult_IZR. unfold rz. ring. Qed.
Lemma ze_mul p q x : pe (rz (zmul p q)) x = pe (rz p) x * pe (rz q) x.
Proof. induction p as [|a p IH]; cbn [zmul]; [cbn; ring|]. rewrite ze_add, ze_scal. cbn [rz map pe]. change (map IZR (zmul p q)) with (rz (zmul p q)). rewrite IH. unfold rz. ring. Qed.
Lemma ze_sh p m h : pe (rz (zsh p m)) h = pe (rz p) (IZR m + h).
Proof. induction p as [|c p IH]; cbn [zsh]; [reflexivity|]. cbv zeta. rewrite ze_add, ze_scal. cbn [rz map pe]. change (map IZR (zsh p m)) with (rz (zsh p m)). change (map IZR p) with (rz p). rewrite IH. ring. Qed.
Lemma ze_q p y : 4 * pe (rz (zq p)) (4 * y) = 4 ^ length p * pe (rz p) y.
Proof.
  induction p as [|c p IH]; cbn [zq]; [cbn; ring|]. cbn [rz map pe length pow]. change (map IZR (zq p)) with (rz (zq p)). change (map IZR p) with (rz p). rewrite mult_IZR, <- pow_IZR.
  replace (4 * (IZR c * 4 ^ length p + 4 * y * pe (rz (zq p)) (4 * y))) with (4 * IZR c * 4 ^ length p + 4 * y * (4 * pe (rz (zq p)) (4 * y))) by ring. rewrite IH. ring.
Qed.
Lemma ze_ab p h r : Rabs h <= IZR r -> Rabs (pe (rz p) h) <= IZR (zab p r).
Proof.
  intros Hh. induction p as [|c p IH]; cbn [zab rz map pe]; [rewrite Rabs_R0; lra|]. change (map IZR p) with (rz p). rewrite plus_IZR, mult_IZR, abs_IZR. eapply Rle_trans; [apply Rabs_triang|]. apply Rplus_le_compat_l. rewrite Rabs_mult.
  apply Rmult_le_compat; try apply Rabs_pos; assumption.
Qed.
Lemma ze_v p x : pe (rz p) (IZR x) = IZR (zv p x).
Proof. induction p as [|c p IH]; cbn [zv rz map pe]; [reflexivity|]. change (map IZR p) with (rz p). rewrite IH, plus_IZR, mult_IZR. reflexivity. Qed.
Lemma ze_mono p x y : forallb (Z.leb 0) p = true -> 0 <= x <= y -> 0 <= pe (rz p) x <= pe (rz p) y.
Proof.
  intros Hp Hx. induction p as [|c p IH]; cbn [rz map pe]; [lra|]. cbn [forallb] in Hp. apply andb_prop in Hp as [H1 H2]. apply Z.leb_le in H1. apply IZR_le in H1. specialize (IH H2). change (map IZR p) with (rz p). split.
  - assert (0 <= x * pe (rz p) x) by (apply Rmult_le_pos; lra). lra.
  - apply Rplus_le_compat_l. apply Rmult_le_compat; lra.
Qed.

(** *** the polynomials of Chebyshev, 2 2^k T_k (1 - w / 4) *)
Fixpoint cheb2 (k : nat) : list Z * list Z :=
  match k with O => ([2], [4; -1])%Z | S k' => let (a, b) := cheb2 k' in (b, zadd (zmul [4; -1]%Z b) (zscal (-4) a)) end.
Definition cheb (k : nat) : list Z := fst (cheb2 k).
Lemma cheb_cos k th : pe (rz (fst (cheb2 k))) (4 * (1 - cos th)) = 2 ^ S k * cos (INR k * th) /\ pe (rz (snd (cheb2 k))) (4 * (1 - cos th)) = 2 ^ S (S k) * cos (INR (S k) * th).
Proof.
  induction k as [|k [IH1 IH2]].
  - cbn [cheb2 fst snd rz map pe INR pow]. rewrite Rmult_0_l, cos_0, Rmult_1_l. split; ring.
  - cbn [cheb2]. destruct (cheb2 k) as [a b]. cbn [fst snd] in *. split; [exact IH2|]. rewrite ze_add, ze_mul, ze_scal, IH1, IH2. cbn [rz map pe].
    replace (INR k * th) with (INR (S k) * th - th) by (rewrite S_INR; ring). replace (INR (S (S k)) * th) with (INR (S k) * th + th) by (rewrite (S_INR (S k)); ring). rewrite cos_minus, cos_plus. cbn [pow]. ring.
Qed.
Lemma cheb_bound k w : 0 <= w <= 8 -> Rabs (pe (rz (cheb k)) w) <= 2 ^ S k.
Proof.
  intros Hw. set (th := acos (1 - w / 4)). assert (cos th = 1 - w / 4) as E by (apply cos_acos; lra). replace w with (4 * (1 - cos th)) by (rewrite E; field). unfold cheb. rewrite (proj1 (cheb_cos k th)). rewrite Rabs_mult, Rabs_pos_eq by (apply pow_le; lra).
  rewrite <- (Rmult_1_r (2 ^ S k)) at 2. apply Rmult_le_compat_l; [apply pow_le; lra|]. apply Rabs_le. apply COS_bound.
Qed.
(** the quotient of M - c_N by 1 + w, M = 4^N + 1 *)
Fixpoint zdiv1 (prev : Z) (p : list Z) : list Z := match p with [] => [] | [_] => [] | c :: r => let v := (c - prev)%Z in v :: zdiv1 v r end.
Definition cM (N : nat) : Z := (4 ^ Z.of_nat N + 1)%Z.
Definition rest (N : nat) : list Z := zadd [cM N] (zscal (-1) (cheb N)).
Definition quo (N : nat) : list Z := zdiv1 0 (rest N).
Fixpoint zeqb (p q : list Z) : bool := match p, q with [], [] => true | a :: p', b :: q' => Z.eqb a b && zeqb p' q' | _, _ => false end.
Lemma zeqb_eq p q : zeqb p q = true -> p = q.
Proof. revert q. induction p as [|a p IH]; intros [|b q] H; cbn in H; try discriminate; [reflexivity|]. apply andb_prop in H as [H1 H2]. apply Z.eqb_eq in H1. f_equal; [exact H1|now apply IH]. Qed.

(** *** the integral of a polynomial in the fugacity *)
Fixpoint tw (n : R) (k : nat) (q : list R) : list R := match q with [] => [] | c :: r => c / Rpower (INR (S k)) (n + 1) :: tw n (S k) r end.
Lemma pow_IG' n P G x k : prim n P G -> (0 < k)%nat -> IG (fun t => Rpower t n * exp (x - t) ^ k) (G * (exp x ^ k / Rpower (INR k) (n + 1))).
Proof.
  intros HP Hk. assert (0 < INR k) as HN by (apply lt_0_INR; lia). pose proof (prim_scaled n P G (INR k) HP HN) as H. apply (is_RInt_gen_scal _ (exp x ^ k)) in H. unfold scal in H; cbn -[pow INR] in H. unfold mult in H; cbn -[pow INR] in H.
  replace (G * (exp x ^ k / Rpower (INR k) (n + 1))) with (exp x ^ k * (G / Rpower (INR k) (n + 1))) by (field; apply Rgt_not_eq, exp_pos). apply is_RInt_gen_ext with (2 := H). apply filter_forall. intros ab t _. cbn beta. unfold Rminus. rewrite exp_plus, Rpow_mult_distr.
  assert (exp (- (INR k * t)) = exp (- t) ^ k) as -> by (rewrite <- exp_pow_n; f_equal; ring). apply eq_R. ring.
Qed.
Lemma tw_IG n P G x q : prim n P G -> forall k, IG (fun t => Rpower t n * (exp (x - t) ^ S k * pe q (exp (x - t)))) (G * (exp x ^ S k * pe (tw n k q) (exp x))).
Proof.
  intros HP. induction q as [|c q IH]; intros k; cbn [tw pe].
  - replace (G * (exp x ^ S k * 0)) with 0 by ring. apply is_RInt_gen_ext with (2 := IG_zero). apply filter_forall. intros ab t _. apply eq_R. ring.
  - pose proof (pow_IG' n P G x (S k) HP ltac:(lia)) as H. apply (is_RInt_gen_scal _ c) in H. pose proof (is_RInt_gen_plus _ _ _ _ H (IH (S k))) as H2. unfold plus, scal in H2; cbn -[pow INR] in H2. unfold mult in H2; cbn -[pow INR] in H2.
    replace (G * (exp x ^ S k * (c / Rpower (INR (S k)) (n + 1) + exp x * pe (tw n (S k) q) (exp x)))) with (c * (G * (exp x ^ S k / Rpower (INR (S k)) (n + 1))) + G * (exp x ^ S (S k) * pe (tw n (S k) q) (exp x))) by (cbn [pow]; field; apply Rgt_not_eq, exp_pos).
    apply is_RInt_gen_ext with (2 := H2). apply filter_forall. intros ab t _. apply eq_R. cbn [pow]. ring.
Qed.
Lemma fermi_poly n P G x q (e : R -> R) eps : prim n P G -> 0 < G -> (forall w, (1 + w) * pe q w = 1 - e w) -> (forall w, 0 <= w <= exp x -> Rabs (e w) <= eps) ->
  exists F : R, IG (fterm n x) F /\ Rabs (F - G * (exp x * pe (tw n 0 q) (exp x))) <= eps * F /\ G * (exp x / (1 + exp x)) <= F.
Proof.
  intros HP HG Hq He. assert (forall t, fterm n x t = Rpower t n * (exp (x - t) / (1 + exp (x - t)))) as EQ.
  { intros t. unfold fterm. replace (t - x) with (- (x - t)) by ring. rewrite exp_Ropp. pose proof (exp_pos (x - t)). field. lra. }
  destruct (fermi_series n P G x 0 HP ltac:(lra)) as (F & HF & _). exists F. split; [exact HF|]. pose proof (tw_IG n P G x q HP 0) as HS. rewrite pow_1 in HS.
  assert (forall t, 0 < t -> 0 < exp (x - t) <= exp x) as W. { intros t Ht. split; [apply exp_pos|]. left. apply exp_increasing. lra. }
  split.
  - assert (forall t, 0 < t -> Rabs (fterm n x t - Rpower t n * (exp (x - t) ^ 1 * pe q (exp (x - t)))) <= eps * fterm n x t) as B.
    { intros t Ht. rewrite EQ. destruct (W t Ht) as [W1 W2]. set (w := exp (x - t)) in *. assert (0 < Rpower t n) as R0 by apply exp_pos. replace (Rpower t n * (w / (1 + w)) - Rpower t n * (w ^ 1 * pe q w)) with (Rpower t n * (w / (1 + w)) * e w).
      2:{ assert (e w = 1 - (1 + w) * pe q w) as -> by (rewrite Hq; ring). field. lra. }
      assert (0 < Rpower t n * (w / (1 + w))) as K by (apply Rmult_lt_0_compat; [exact R0|apply Rdiv_lt_0_compat; lra]). rewrite Rabs_mult, (Rabs_pos_eq (Rpower t n * (w / (1 + w)))) by lra. rewrite (Rmult_comm eps). apply Rmult_le_compat_l; [lra|]. apply He. lra. }
    assert (IG (fun t => fterm n x t - Rpower t n * (exp (x - t) ^ 1 * pe q (exp (x - t)))) (F - G * (exp x * pe (tw n 0 q) (exp x)))) as HD by exact (is_RInt_gen_minus _ _ _ _ HF HS).
    assert (IG (fun t => eps * fterm n x t) (eps * F)) as HE by exact (is_RInt_gen_scal _ eps _ HF). assert (IG (fun t => - (eps * fterm n x t)) (- (eps * F))) as HEo by exact (is_RInt_gen_opp _ _ HE).
    apply Rabs_le. split.
    + eapply IG_le; [|exact HEo|exact HD]. intros t Ht. pose proof (B t Ht) as Bt. apply Rabs_le_between in Bt. lra.
    + eapply IG_le; [|exact HD|exact HE]. intros t Ht. pose proof (B t Ht) as Bt. apply Rabs_le_between in Bt. lra.
  - pose proof (pow_IG' n P G x 1 HP ltac:(lia)) as H1. cbn [INR] in H1. rewrite Rpower_one, pow_1 in H1. assert (0 < exp x) as Ey by apply exp_pos.
    assert (IG (fun t => / (1 + exp x) * (Rpower t n * exp (x - t) ^ 1)) (/ (1 + exp x) * (G * (exp x / 1)))) as H2 by exact (is_RInt_gen_scal _ (/ (1 + exp x)) _ H1).
    replace (G * (exp x / (1 + exp x))) with (/ (1 + exp x) * (G * (exp x / 1))) by (field; lra). eapply IG_le; [|exact H2|exact HF]. intros t Ht. rewrite EQ. destruct (W t Ht) as [W1 W2]. set (w := exp (x - t)) in *. assert (0 < Rpower t n) as R0 by apply exp_pos.
    replace (/ (1 + exp x) * (Rpower t n * w ^ 1)) with (Rpower t n * (w * / (1 + exp x))) by (cbn [pow]; ring). apply Rmult_le_compat_l; [lra|]. apply Rmult_le_compat_l; [lra|]. apply Rinv_le_contravar; lra.
Qed.

(** *** the weights 1 / (k + 1)^(n + 1) to thirty digits; [m] is n + 1/2 *)
Definition tz (m k : nat) : Z := Z.sqrt (10 ^ 60 / Z.of_nat (S k) ^ Z.of_nat (2 * m + 1)).
Fixpoint tzl (m k : nat) (q : list Z) : list Z := match q with [] => [] | c :: r => (c * tz m k)%Z :: tzl m (S k) r end.
Lemma tz_approx m k : IZR (tz m k) <= 10 ^ 30 / Rpower (INR (S k)) (INR m - 1 / 2 + 1) <= IZR (tz m k) + 1.
Proof.
  rewrite half_power. unfold tz. set (d := (Z.of_nat (S k) ^ Z.of_nat (2 * m + 1))%Z). assert (0 < d)%Z as Hd by (unfold d; apply Z.pow_pos_nonneg; lia). set (X := (10 ^ 60 / d)%Z).
  assert (0 <= X)%Z as HX by (unfold X; apply Z.div_pos; lia). destruct (Z.sqrt_spec X HX) as [H1 H2]. pose proof (Z.sqrt_nonneg X) as H0. set (s := Z.sqrt X) in *.
  assert (d * X <= 10 ^ 60 < d * (X + 1))%Z as HXd. { unfold X. pose proof (Z.div_mod (10 ^ 60) d ltac:(lia)) as E. pose proof (Z.mod_pos_bound (10 ^ 60) d Hd) as B. lia. }
  assert (d * (s * s) <= 10 ^ 60 < d * ((s + 1) * (s + 1)))%Z as HS. { destruct HXd as [A B]. split; [nia|]. assert (X + 1 <= (s + 1) * (s + 1))%Z by lia. nia. }
  destruct HS as [A B]. apply IZR_le in A. apply IZR_lt in B. rewrite !mult_IZR, !plus_IZR in *. apply IZR_le in H0.
  assert (IZR (10 ^ 60) = 10 ^ 30 * 10 ^ 30) as E60. { change (10 ^ 60)%Z with (10 ^ Z.of_nat 60)%Z. rewrite <- pow_IZR. rewrite <- pow_add. reflexivity. }
  rewrite E60 in *. set (T := 10 ^ 30) in *. assert (0 < T) as HT by (unfold T; apply pow_lt; lra). set (z := INR (S k)) in *. assert (0 < z) as Hz by (unfold z; apply lt_0_INR; lia).
  assert (IZR d = z ^ m * sqrt z * (z ^ m * sqrt z)) as Ed.
  { unfold d. rewrite <- pow_IZR. rewrite <- INR_IZR_INZ. fold z. replace (z ^ m * sqrt z * (z ^ m * sqrt z)) with (z ^ m * z ^ m * (sqrt z * sqrt z)) by ring. rewrite sqrt_sqrt by lra. replace (2 * m + 1)%nat with (m + m + 1)%nat by lia. rewrite !pow_add. ring. }
  rewrite Ed in *. set (D := z ^ m * sqrt z) in *. assert (0 < D) as HD by (unfold D; apply Rmult_lt_0_compat; [now apply pow_lt|now apply sqrt_lt_R0]).
  split; apply Rmult_le_reg_r with D; try exact HD; unfold Rdiv; rewrite ?Rmult_assoc, ?Rinv_l, ?Rmult_1_r by lra.
  - apply Rsqr_incr_0_var; [unfold Rsqr; nra|lra].
  - apply Rsqr_incr_0_var; [unfold Rsqr; nra|nra].
Qed.
Lemma tw_approx m M y q k : 0 < M -> 0 <= y -> Rabs (M * 10 ^ 30 * pe (tw (INR m - 1 / 2) k (map (fun c => IZR c / M) q)) y - pe (rz (tzl m k q)) y) <= pe (map (fun c => IZR (Z.abs c)) q) y.
Proof.
  intros HM Hy. revert k. induction q as [|c q IH]; intros k; cbn [tw tzl rz map pe]; [rewrite Rmult_0_r, Rminus_0_r, Rabs_R0; lra|]. change (map IZR (tzl m (S k) q)) with (rz (tzl m (S k) q)).
  pose proof (tz_approx m k) as HT. set (u := Rpower (INR (S k)) (INR m - 1 / 2 + 1)) in *. assert (0 < u) as Hu by apply exp_pos. set (B := pe (tw (INR m - 1 / 2) (S k) (map (fun c => IZR c / M) q)) y) in *. specialize (IH (S k)). fold B in IH.
  rewrite mult_IZR. replace (M * 10 ^ 30 * (IZR c / M / u + y * B) - (IZR c * IZR (tz m k) + y * pe (rz (tzl m (S k) q)) y)) with (IZR c * (10 ^ 30 / u - IZR (tz m k)) + y * (M * 10 ^ 30 * B - pe (rz (tzl m (S k) q)) y)) by (field; lra).
  eapply Rle_trans; [apply Rabs_triang|]. rewrite !Rabs_mult, (Rabs_pos_eq y) by exact Hy. apply Rplus_le_compat; [|apply Rmult_le_compat_l; [exact Hy|exact IH]]. rewrite abs_IZR. rewrite <- (Rmult_1_r (Rabs (IZR c))) at 2. apply Rmult_le_compat_l; [apply Rabs_pos|]. apply Rabs_le. lra.
Qed.
Lemma abs_poly q y : 0 <= y <= 8 -> pe (map (fun c => IZR (Z.abs c)) q) y <= IZR (zab q 8).
Proof.
  intros Hy. induction q as [|c q IH]; cbn [map pe zab]; [lra|]. rewrite plus_IZR, mult_IZR. apply Rplus_le_compat_l. assert (0 <= pe (map (fun c => IZR (Z.abs c)) q) y). { clear IH. induction q as [|d q IH]; cbn [map pe]; [lra|]. assert (0 <= IZR (Z.abs d)) by (apply IZR_le; lia). assert (0 <= y * pe (map (fun c => IZR (Z.abs c)) q) y) by (apply Rmult_le_pos; lra). lra. }
  apply Rmult_le_compat; lra.
Qed.

(** *** the tables over a common denominator *)
Definition toz (s : Z) (a : list Q) : list Z := map (fun q => Qnum q * (s / Zpos (Qden q)))%Z a.
Definition tozb (s : Z) (a : list Q) : bool := forallb (fun q => Z.eqb (s / Zpos (Qden q) * Zpos (Qden q)) s) a.
Lemma toz_pe s a y : tozb s a = true -> pe (rz (toz s a)) y = IZR s * pe (rq a) y.
Proof.
  intros H. induction a as [|q a IH]; cbn [toz rz rq map pe]; [ring|]. cbn [tozb forallb] in H. apply andb_prop in H as [H1 H2]. apply Z.eqb_eq in H1. specialize (IH H2). change (map IZR (map (fun q => Qnum q * (s / Zpos (Qden q)))%Z a)) with (rz (toz s a)). rewrite IH.
  change (map Q2R a) with (rq a). rewrite mult_IZR. assert (IZR s = IZR (s / Zpos (Qden q)) * IZR (Zpos (Qden q))) as Es by (rewrite <- mult_IZR; f_equal; symmetry; exact H1).
  set (k := IZR (s / Zpos (Qden q))) in *. unfold Q2R. rewrite Es. field. apply not_0_IZR. discriminate.
Qed.

(** *** the check *)
Record ivl := Ivl { mid : Z; rad : Z }.
Section Check.
  Variables (a b : list Q) (m N : nat) (gn gd s dn dd : Z).
  Let az := toz s a.
  Let bz := toz s b.
  Let T := tzl m 0 (quo N).
  Let D := zadd (zscal (cM N * 10 ^ 30 * gd) az) (zscal (- gn) (zmul bz T)).
  Definition ivl_ok (D4 b4 : list Z) (i : ivl) : bool :=
    Z.leb 0 (mid i - rad i) && Z.leb (mid i + rad i) 32 && Z.ltb 0 (zv b4 (mid i - rad i)) &&
    Z.leb (zab (zsh D4 (mid i)) (rad i) * 4 ^ Z.of_nat (length b) * (4 + mid i + rad i) * dd) (dn * 4 * 4 ^ Z.of_nat (length D) * cM N * 10 ^ 30 * gn * zv b4 (mid i - rad i)).
  Definition mid_check (l : list ivl) : bool :=
    zeqb (zmul [1; 1]%Z (quo N)) (rest N) && Z.leb (zab (quo N) 8 * 10 ^ 12) (cM N * 10 ^ 30) && Z.leb (2 ^ Z.of_nat (S N) * 10 ^ 9) (cM N) &&
    Z.ltb 0 s && Z.ltb 0 gn && Z.ltb 0 gd && Z.ltb 0 dd && Z.leb 0 dn && Z.leb (dn * 10 ^ 7) (dd * 9) && tozb s a && tozb s b && forallb (Z.leb 0) bz && forallb (ivl_ok (zq D) (zq bz)) l.
  Lemma mid_sound l i x P G : mid_check l = true -> In i l -> IZR (mid i - rad i) <= 4 * exp x <= IZR (mid i + rad i) -> prim (INR m - 1 / 2) P G ->
    Rabs (G - IZR gn / IZR gd) <= 1 / 10 ^ 8 * G -> 0 < G ->
    exists F : R, IG (fterm (INR m - 1 / 2) x) F /\ 0 < F / G /\ 0 < pe (rq b) (exp x) /\ Rabs (exp x * (pe (rq a) (exp x) / pe (rq b) (exp x)) / G - F / G) <= 1 / 1000000 * (F / G).
  Proof.
    intros HC Hi Hx HP HG G0. unfold mid_check in HC. rewrite !Bool.andb_true_iff in HC. destruct HC as [[[[[[[[[[[[C1 C2] C3] C4] C5] C6] C7] C8] C9] C10] C11] C12] C13].
    apply zeqb_eq in C1. apply Z.leb_le in C2, C3, C8, C9. apply Z.ltb_lt in C4, C5, C6, C7. rewrite forallb_forall in C13. specialize (C13 i Hi). unfold ivl_ok in C13. rewrite !Bool.andb_true_iff in C13. destruct C13 as [[[I1 I2] I3] I4].
    apply Z.leb_le in I1, I2, I4. apply Z.ltb_lt in I3.
    apply IZR_le in C2, C3, C8, C9, I1, I2, I4. apply IZR_lt in C4, C5, C6, C7, I3. repeat rewrite mult_IZR in C2. repeat rewrite mult_IZR in C3. repeat rewrite mult_IZR in C9. repeat rewrite mult_IZR in I4. repeat rewrite plus_IZR in I4.
    change (10 ^ 30)%Z with (10 ^ Z.of_nat 30)%Z in *. change (10 ^ 12)%Z with (10 ^ Z.of_nat 12)%Z in *. change (10 ^ 9)%Z with (10 ^ Z.of_nat 9)%Z in *. change (10 ^ 7)%Z with (10 ^ Z.of_nat 7)%Z in *. repeat rewrite <- pow_IZR in C2. repeat rewrite <- pow_IZR in C3. repeat rewrite <- pow_IZR in C9. repeat rewrite <- pow_IZR in I4.
    set (y := exp x) in *. assert (0 < y) as Hy by apply exp_pos. assert (y <= 8) as Hy8 by lra.
    assert (0 < IZR (cM N)) as HM by (apply IZR_lt; unfold cM; pose proof (Z.pow_pos_nonneg 4 (Z.of_nat N)); lia). set (M := IZR (cM N)) in *.
    set (q := map (fun c => IZR c / M) (quo N)). set (e := fun w => pe (rz (cheb N)) w / M).
    assert (forall w, pe q w = pe (rz (quo N)) w / M) as Eq. { intros w. unfold q. generalize (quo N). intros l0. induction l0 as [|c l0 IH]; cbn [map rz pe]; [unfold Rdiv; ring|]. rewrite IH. unfold rz. field. lra. }
    assert (forall w, (1 + w) * pe q w = 1 - e w) as Hq.
    { intros w. rewrite Eq. unfold e. assert (pe (rz (zmul [1; 1]%Z (quo N))) w = pe (rz (rest N)) w) as E by (now rewrite C1). rewrite ze_mul in E. unfold rest in E. rewrite ze_add, ze_scal in E. cbn [rz map pe] in E. fold M in E. unfold rz in *.
      replace ((1 + w) * (pe (map IZR (quo N)) w / M)) with ((1 + w * (1 + w * 0)) * pe (map IZR (quo N)) w / M) by (field; lra). rewrite E. field. lra. }
    assert (forall w, 0 <= w <= y -> Rabs (e w) <= 1 / 10 ^ 9) as He.
    { intros w Hw. unfold e, Rdiv. rewrite Rabs_mult, (Rabs_pos_eq (/ M)) by (left; now apply Rinv_0_lt_compat). pose proof (cheb_bound N w ltac:(lra)) as B. apply Rmult_le_reg_r with M; [exact HM|]. rewrite Rmult_assoc, Rinv_l, Rmult_1_r by lra.
      apply Rmult_le_reg_r with (10 ^ 9); [lra|]. apply Rle_trans with (2 ^ S N * 10 ^ 9); [apply Rmult_le_compat_r; lra|]. replace (1 * / 10 ^ 9 * M * 10 ^ 9) with M by (field; lra). exact C3. }
    destruct (fermi_poly _ P G x q e (1 / 10 ^ 9) HP G0 Hq He) as (F & HF & H1 & H2). fold y in H1, H2. exists F. split; [exact HF|].
    set (W := pe (tw (INR m - 1 / 2) 0 q) y) in *. set (f := F / G). assert (F = G * f) as Ef by (unfold f; field; lra). rewrite Ef in H1, H2. apply Rmult_le_reg_l in H2; [|exact G0].
    assert (0 < y / (1 + y)) as Y0 by (apply Rdiv_lt_0_compat; lra). assert (0 < f) as F0 by lra. split; [exact F0|].
    assert (Rabs (f - y * W) <= 1 / 10 ^ 9 * f) as H1'. { apply Rmult_le_reg_l with G; [exact G0|]. rewrite <- (Rabs_pos_eq G) at 1 by lra. rewrite <- Rabs_mult. replace (G * (f - y * W)) with (G * f - G * (y * W)) by ring. lra. }
    (* the weights *)
    set (W0 := pe (rz T) y / (M * 10 ^ 30)). assert (Rabs (W - W0) <= 1 / 10 ^ 12) as HW.
    { pose proof (tw_approx m M y (quo N) 0 HM ltac:(lra)) as A1. fold q W T in A1. pose proof (abs_poly (quo N) y ltac:(lra)) as A2. assert (0 < M * 10 ^ 30) as K by (apply Rmult_lt_0_compat; [exact HM|apply pow_lt; lra]). set (K0 := M * 10 ^ 30) in *.
      unfold W0. replace (W - pe (rz T) y / K0) with ((K0 * W - pe (rz T) y) / K0) by (field; lra). unfold Rdiv. rewrite Rabs_mult, (Rabs_pos_eq (/ K0)) by (left; now apply Rinv_0_lt_compat). apply Rmult_le_reg_r with K0; [exact K|]. rewrite Rmult_assoc, Rinv_l, Rmult_1_r by lra.
      eapply Rle_trans; [exact A1|]. eapply Rle_trans; [exact A2|]. apply Rmult_le_reg_r with (10 ^ 12); [lra|]. replace (1 * / 10 ^ 12 * K0 * 10 ^ 12) with K0 by (field; lra). exact C2. }
    (* the quotient *)
    set (A := pe (rq a) y) in *. set (B := pe (rq b) y) in *. set (g := IZR gn / IZR gd) in *. assert (0 < g) as g0 by (apply Rdiv_lt_0_compat; assumption).
    pose proof (toz_pe s a y C10) as EA. fold az A in EA. pose proof (toz_pe s b y C11) as EB. fold bz B in EB.
    set (Bl := IZR (zv (zq bz) (mid i - rad i))) in *. set (S := IZR s) in *. set (L := IZR (mid i - rad i)) in *. set (U := IZR (mid i) + IZR (rad i)). assert (IZR (mid i + rad i) = U) as EU by (unfold U; now rewrite plus_IZR). rewrite EU in *.
    assert (length bz = length b) as Lb by (unfold bz, toz; now rewrite map_length).
    assert (4 * Bl <= 4 ^ length b * (S * B)) as HB.
    { rewrite <- EB. unfold Bl. rewrite <- ze_v. fold L. replace L with (4 * (L / 4)) by field. rewrite ze_q, Lb. apply Rmult_le_compat_l; [apply pow_le; lra|]. apply ze_mono; [exact C12|lra]. }
    assert (0 < B) as B0. { assert (0 < 4 ^ length b * S) by (apply Rmult_lt_0_compat; [apply pow_lt; lra|exact C4]). apply Rmult_lt_reg_l with (4 ^ length b * S); [assumption|]. lra. }
    split; [exact B0|].
    assert (Rabs (4 ^ length D * (M * 10 ^ 30 * IZR gd * S * A - IZR gn * (S * B) * pe (rz T) y)) <= 4 * IZR (zab (zsh (zq D) (mid i)) (rad i))) as HD.
    { pose proof (ze_ab (zsh (zq D) (mid i)) (4 * y - IZR (mid i)) (rad i)) as Z. rewrite ze_sh in Z. replace (IZR (mid i) + (4 * y - IZR (mid i))) with (4 * y) in Z by ring.
      assert (Rabs (4 * y - IZR (mid i)) <= IZR (rad i)) as Hr. { unfold L in Hx. rewrite minus_IZR in Hx. unfold U in Hx. apply Rabs_le. lra. } specialize (Z Hr).
      pose proof (ze_q D y) as E. unfold D at 3 in E. rewrite ze_add, !ze_scal, ze_mul, EA, EB, !mult_IZR, opp_IZR in E. fold M in E. change (10 ^ 30)%Z with (10 ^ Z.of_nat 30)%Z in E. rewrite <- pow_IZR in E.
      replace (4 ^ length D * (M * 10 ^ 30 * IZR gd * S * A - IZR gn * (S * B) * pe (rz T) y)) with (4 * pe (rz (zq D)) (4 * y)) by (rewrite E; ring). rewrite Rabs_mult, (Rabs_pos_eq 4) by lra. lra. }
    set (E := IZR (zab (zsh (zq D) (mid i)) (rad i))) in *. set (r := A / B). assert (A = r * B) as Er by (unfold r; field; lra).
    set (K := M * 10 ^ 30) in *. assert (0 < K) as K0 by (apply Rmult_lt_0_compat; [exact HM|apply pow_lt; lra]). assert (pe (rz T) y = W0 * K) as EW by (unfold W0; field; lra).
    assert (IZR gn = g * IZR gd) as Eg by (unfold g; field; lra). set (gdr := IZR gd) in *. set (lD := 4 ^ length D) in *. set (lb := 4 ^ length b) in *.
    assert (0 < lD) as lD0 by (apply pow_lt; lra). assert (0 < lb) as lb0 by (apply pow_lt; lra).
    assert (lD * K * gdr * (S * B) * Rabs (r - g * W0) <= 4 * E) as HD2.
    { assert (0 < lD * K * gdr * (S * B)) as Kp. { assert (0 < lD * K) by (now apply Rmult_lt_0_compat). assert (0 < lD * K * gdr) by (now apply Rmult_lt_0_compat). assert (0 < S * B) by (now apply Rmult_lt_0_compat). now apply Rmult_lt_0_compat. }
      rewrite <- (Rabs_pos_eq (lD * K * gdr * (S * B))) by lra. rewrite <- Rabs_mult. replace (lD * K * gdr * (S * B) * (r - g * W0)) with (lD * (K * gdr * S * A - IZR gn * (S * B) * pe (rz T) y)); [exact HD|]. rewrite Er, EW, Eg. ring. }
    assert (0 <= U) as HU by (unfold L in I1; lra).
    assert (E * lb * (4 + U) * IZR dd <= IZR dn * 4 * lD * K * (g * gdr) * Bl) as HE.
    { unfold U. replace (4 + (IZR (mid i) + IZR (rad i))) with (4 + IZR (mid i) + IZR (rad i)) by ring. rewrite <- Eg. unfold K. replace (IZR dn * 4 * lD * (M * 10 ^ 30) * IZR gn * Bl) with (IZR dn * 4 * lD * M * 10 ^ 30 * IZR gn * Bl) by ring. exact I4. }
    assert (Rabs (r - g * W0) * (4 + U) * IZR dd <= IZR dn * 4 * g) as HF1.
    { assert (0 < lD * K * gdr) as Kq by (assert (0 < lD * K) by (now apply Rmult_lt_0_compat); now apply Rmult_lt_0_compat). assert (0 < S * B) as SB by (now apply Rmult_lt_0_compat).
      assert (0 < Bl) as Bl0 by exact I3. set (p := Rabs (r - g * W0)) in *. assert (0 <= p) as p0 by apply Rabs_pos. set (kq := lD * K * gdr) in *. set (sb := S * B) in *.
      assert (kq * Bl * p <= lb * E) as Q1. { assert (kq * (4 * Bl) * p <= kq * (lb * sb) * p) as Q by (apply Rmult_le_compat_r; [exact p0|]; apply Rmult_le_compat_l; lra). assert (lb * (kq * sb * p) <= lb * (4 * E)) as Q2 by (apply Rmult_le_compat_l; lra). lra. }
      apply Rmult_le_reg_l with (kq * Bl); [now apply Rmult_lt_0_compat|]. replace (kq * Bl * (p * (4 + U) * IZR dd)) with (kq * Bl * p * ((4 + U) * IZR dd)) by ring.
      apply Rle_trans with (lb * E * ((4 + U) * IZR dd)). { apply Rmult_le_compat_r; [apply Rmult_le_pos; lra|exact Q1]. }
      replace (kq * Bl * (IZR dn * 4 * g)) with (IZR dn * 4 * lD * K * (g * gdr) * Bl) by (unfold kq; ring). lra. }
    (* y is below (1 + U / 4) f *)
    assert (y <= (1 + U / 4) * f) as Hyf. { apply Rle_trans with ((1 + y) * (y / (1 + y))); [right; field; lra|]. apply Rmult_le_compat; lra. }
    assert (y <= 9 * f) as Hyf9. { assert (U / 4 <= 8) by lra. nra. }
    assert (y * Rabs (r - g * W0) <= 9 / 10 ^ 7 * g * f) as Z1.
    { set (p := Rabs (r - g * W0)) in *. assert (0 <= p) as p0 by apply Rabs_pos. apply Rle_trans with ((1 + U / 4) * f * p); [apply Rmult_le_compat_r; lra|]. assert ((1 + U / 4) * p * IZR dd <= IZR dn * g) as Q by lra.
      assert (IZR dn * g <= IZR dd * 9 / 10 ^ 7 * g) as Q2 by (apply Rmult_le_compat_r; [lra|]; apply Rmult_le_reg_r with (10 ^ 7); [lra|]; replace (IZR dd * 9 / 10 ^ 7 * 10 ^ 7) with (IZR dd * 9) by (field; lra); exact C9).
      assert ((1 + U / 4) * p <= 9 / 10 ^ 7 * g) as Q3. { apply Rmult_le_reg_r with (IZR dd); [exact C7|]. lra. } replace ((1 + U / 4) * f * p) with (((1 + U / 4) * p) * f) by ring. apply Rmult_le_compat_r; lra. }
    assert (Rabs (y * r - G * (y * W)) <= G * (99 / 10 ^ 8 * f)) as Z2.
    { replace (y * r - G * (y * W)) with (y * (r - g * W0) + (g - G) * (y * W0) + G * (y * (W0 - W))) by ring. apply Rabs_le_between in HG, H1', HW.
      assert (Rabs (y * W0) <= 2 * f) as Y1. { apply Rabs_le. split; nra. }
      assert (Rabs (y * (r - g * W0)) <= 9 / 10 ^ 7 * g * f) as Y2 by (rewrite Rabs_mult, (Rabs_pos_eq y) by lra; exact Z1).
      assert (Rabs ((g - G) * (y * W0)) <= 1 / 10 ^ 8 * G * (2 * f)) as Y3 by (rewrite Rabs_mult; apply Rmult_le_compat; try apply Rabs_pos; [apply Rabs_le; lra|exact Y1]).
      assert (Rabs (G * (y * (W0 - W))) <= G * (9 * f * (1 / 10 ^ 12))) as Y4. { rewrite !Rabs_mult, (Rabs_pos_eq G), (Rabs_pos_eq y) by lra. apply Rmult_le_compat_l; [lra|]. apply Rmult_le_compat; try apply Rabs_pos; [lra|exact Hyf9|apply Rabs_le; lra]. }
      assert (9 / 10 ^ 7 * g * f <= 9 / 10 ^ 7 * (G * (1 + 1 / 10 ^ 8)) * f) as Y5 by (apply Rmult_le_compat_r; [lra|]; apply Rmult_le_compat_l; lra).
      eapply Rle_trans; [apply Rabs_triang|]. eapply Rle_trans; [apply Rplus_le_compat_r; apply Rabs_triang|]. assert (0 < G * f) as GF by (now apply Rmult_lt_0_compat). lra. }
    assert (y * r / G - f = (y * r - G * (y * W)) / G + (y * W - f)) as -> by (field; lra). eapply Rle_trans; [apply Rabs_triang|]. rewrite (Rabs_minus_sym (y * W)). unfold Rdiv at 1. rewrite Rabs_mult, (Rabs_pos_eq (/ G)) by (left; now apply Rinv_0_lt_compat).
    assert (Rabs (y * r - G * (y * W)) * / G <= 99 / 10 ^ 8 * f) as Z3. { apply Rmult_le_reg_r with G; [exact G0|]. rewrite Rmult_assoc, Rinv_l, Rmult_1_r by lra. lra. }
    lra.
  Qed.
End Check.
