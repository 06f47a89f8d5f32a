(** The hypernetted-chain iteration at weak coupling: the step is a contraction
    of a ball, its fixed point, and what the loop returns. *)
From Coq Require Import Reals Lra Psatz List Lia Arith Bool.
From Coquelicot Require Import Coquelicot.
Import ListNotations.
From Verif Require Import M_Const M_Helpers L_Helpers M_HNC L_HNC L_HNC2 L_HNC3 L_HNCWeak.
Open Scope R_scope.

(** The hypernetted-chain equations for the indirect correlation function [Nf]:
    closure g = exp (N - v), and the Ornstein-Zernike relation [rel] between h = g - 1
    and the direct correlation function, short-range part plus - w. *)
Definition hnc_solution (M N : nat) (r : nat -> R) (rel : (nat -> nat -> R) -> (nat -> nat -> R) -> Prop) (v w Nf : arr3) : Prop :=
  let h := fun a b j => exp (Nf a b j - v a b j) - 1 in
  let c_s := fun a b j => h a b j - Nf a b j in
  forall m, (m < N)%nat ->
    rel (fun a b => forward N r (c_s a b) m - w a b m) (fun a b => forward N r (h a b) m).

Lemma Rabs_triang4 x y : Rabs (x - y) <= Rabs x + Rabs y.
Proof. unfold Rminus. rewrite <- (Rabs_Ropp y). apply Rabs_triang. Qed.

Section Weak.
Variable oz : (nat -> nat -> R) -> option (nat -> nat -> R).
Variable M N : nat.
Variable r : nat -> R.
Variable Q : (nat -> nat -> R) -> (nat -> nat -> R) -> nat -> nat -> R.
Variable mix P A B rho : R.
Let K := 9 * A + 1.
Let eps := rho ^ 2.
Let kappa := K * rho ^ 2.
Hypothesis G : good_grid N r.
Hypothesis HM : (1 <= M)%nat.
Hypothesis Hmix : 0 <= mix < 1.
Hypothesis HQ : bounded_form M Q P.
Hypothesis HA1 : 1 <= A.
Hypothesis HA : forall f x, 0 <= x -> (forall j, (j < N)%nat -> Rabs (f j) <= x) ->
  forall m, (m < N)%nat -> Rabs (forward N r f m) <= A * x.
Hypothesis HB1 : 1 <= B.
Hypothesis HB : forall f x, 0 <= x -> (forall j, (j < N)%nat -> Rabs (f j) <= x) ->
  forall m, (m < N)%nat -> Rabs (backward N r f m) <= B * x.
Hypothesis Hrho : 0 < rho <= 1 / 4.
Hypothesis R1 : P * K * rho <= 1 / 1000.
Hypothesis R2 : B * (2 * P * K ^ 2 + 1) * rho <= 1.
Hypothesis R3 : 32 * A * B * P * K * rho <= 1.
Hypothesis Hoz : forall c h, sym2 M c -> oz c = Some h -> QOZ M Q c h /\ sym2 M h.
Hypothesis Hoz2 : forall c, sym2 M c -> small2 M kappa c -> exists h, oz c = Some h.

Lemma K_pos : 1 <= K. Proof. unfold K. lra. Qed.
Lemma P_nonneg : 0 <= P.
Proof. exact (bf_pos M Q P HQ). Qed.
Lemma kappa_nonneg : 0 <= kappa.
Proof. unfold kappa. pose proof K_pos. nra. Qed.
Lemma kappa_small : P * kappa <= 1 / 1000.
Proof.
  unfold kappa. pose proof P_nonneg. pose proof K_pos.
  replace (P * (K * rho ^ 2)) with (P * K * rho * rho) by ring.
  assert (0 <= P * K * rho) by (apply Rmult_le_pos; [apply Rmult_le_pos|]; lra).
  nra.
Qed.
Lemma eps_rho : 0 <= eps <= rho / 4.
Proof. unfold eps. nra. Qed.

Lemma phi_small Nx l : Rabs Nx <= rho -> Rabs (Nx - l) <= eps -> Rabs (exp l - 1 - Nx) <= 9 * rho ^ 2.
Proof.
  intros HN Hl. pose proof eps_rho.
  assert (Hl2 : Rabs l <= 2 * rho).
  { apply Rabs_le. apply Rabs_le_between in HN, Hl. lra. }
  pose proof (exp_lip (2 * rho) l 0 ltac:(lra) Hl2 ltac:(rewrite Rabs_R0; lra)) as HL.
  rewrite exp_0, !Rminus_0_r in HL.
  replace (exp l - 1 - Nx) with ((exp l - l - 1) + - (Nx - l)) by ring.
  apply (Rle_trans _ _ _ (Rabs_triang _ _)). rewrite Rabs_Ropp.
  assert (2 * (2 * rho) * Rabs l <= 8 * rho ^ 2) by nra. unfold eps in *. lra.
Qed.
Lemma phi_lip Nx l Ny l' : Rabs Nx <= rho -> Rabs Ny <= rho -> Rabs (Nx - l) <= eps -> Nx - l = Ny - l' ->
  Rabs ((exp l - 1 - Nx) - (exp l' - 1 - Ny)) <= 4 * rho * Rabs (Nx - Ny).
Proof.
  intros HN HN' Hl E. pose proof eps_rho.
  assert (Hl2 : Rabs l <= 2 * rho) by (apply Rabs_le; apply Rabs_le_between in HN, Hl; lra).
  assert (Hl3 : Rabs l' <= 2 * rho) by (rewrite E in Hl; apply Rabs_le; apply Rabs_le_between in HN', Hl; lra).
  pose proof (exp_lip (2 * rho) l l' ltac:(lra) Hl2 Hl3) as HL.
  replace (exp l - 1 - Nx - (exp l' - 1 - Ny)) with (exp l - l - (exp l' - l')) by lra.
  replace (Nx - Ny) with (l - l') by lra. lra.
Qed.

Definition ball (s : hnc_state) : Prop :=
  sym_state M N s /\ small3 M N rho (Ns s) /\ near3 M N eps (Ns s) (log_g s).

Section Potential.
Variable v w : arr3.
Hypothesis Sv : sym3 M N v.
Hypothesis Sw : sym3 M N w.
Hypothesis Bv : small3 M N eps v.
Hypothesis Bw : small3 M N eps w.
Notation step := (step oz N r mix v w).
(** in the ball, and closed with this potential *)
Definition good (s : hnc_state) : Prop := ball s /\ forall a b j, log_g s a b j = Ns s a b j - v a b j.

Lemma c_small s a b m : ball s -> (a < M)%nat -> (b < M)%nat -> (m < N)%nat ->
  Rabs (forward N r (fun j => exp (log_g s a b j) - 1 - Ns s a b j) m - w a b m) <= kappa.
Proof.
  intros (_ & B1 & B2) Ha Hb Hm.
  assert (HF : Rabs (forward N r (fun j => exp (log_g s a b j) - 1 - Ns s a b j) m) <= A * (9 * rho ^ 2)).
  { apply HA; [nra| |exact Hm]. intros j Hj. apply phi_small; [now apply B1|now apply B2]. }
  pose proof (Bw a b m Ha Hb Hm) as HW. apply (Rle_trans _ _ _ (Rabs_triang4 _ _)).
  unfold kappa, K, eps in *. lra.
Qed.
Lemma weak_step s : ball s ->
  exists s', step s = Some s' /\ good s' /\ n_iter s' = S (n_iter s) /\ Ns_old s' = Ns s.
Proof.
  intros HS. pose proof HS as ((Sg & SN) & B1 & B2).
  set (c_k := fun a b m => three_d_four N (k_grid N r) r (fun a b j => exp (log_g s a b j) - 1 - Ns s a b j) a b m - w a b m).
  assert (Ec : forall a b m, (m < N)%nat -> c_k a b m = forward N r (fun j => exp (log_g s a b j) - 1 - Ns s a b j) m - w a b m).
  { intros a b m Hm. unfold c_k, three_d_four. now rewrite forward_model. }
  destruct (oz_all_total oz c_k N) as [L EL].
  { intros m Hm. apply Hoz2.
    - intros a b Ha Hb. rewrite !Ec by assumption. f_equal; [|now rewrite Sw].
      apply forward_ext. intros j Hj. now rewrite Sg, SN.
    - intros a b Ha Hb. rewrite Ec by assumption. now apply c_small. }
  assert (exists s', step s = Some s') as [s' Es].
  { unfold M_HNC.step. fold c_k. rewrite EL. eexists. reflexivity. }
  exists s'. split; [exact Es|].
  destruct (step_meets M N r oz (QOZ M Q) mix v w s s' G Hoz Sv Sw (conj Sg SN) Es) as [S' (c & h & SS)].
  split; [|split; [now apply step_iter in Es|exact (ss_old _ _ _ _ _ _ _ _ _ _ _ SS)]].
  assert (Bc : forall m, (m < N)%nat -> small2 M kappa (fun a b => c a b m)).
  { intros m Hm a b Ha Hb. rewrite (ss_c _ _ _ _ _ _ _ _ _ _ _ SS a b m Ha Hb Hm). now apply c_small. }
  pose proof (ss_g _ _ _ _ _ _ _ _ _ _ _ SS) as Hg.
  assert (BN : small3 M N rho (Ns s')).
  { intros a b j Ha Hb Hj. rewrite (ss_N _ _ _ _ _ _ _ _ _ _ _ SS a b j Ha Hb Hj).
    assert (HX : Rabs (backward N r (fun m => h a b m - (c a b m + w a b m)) j) <= rho).
    { apply (Rle_trans _ (B * (2 * P * kappa ^ 2 + eps))).
      - apply HB; [|intros m Hm|exact Hj].
        + pose proof P_nonneg. pose proof eps_rho. assert (0 <= kappa ^ 2) by apply pow2_ge_0. nra.
        + pose proof (oz_indirect M Q P kappa HM HQ kappa_nonneg kappa_small _ _ (Bc m Hm) (ss_h _ _ _ _ _ _ _ _ _ _ _ SS m Hm) a b Ha Hb) as HI.
          cbv beta in HI. replace (h a b m - (c a b m + w a b m)) with ((h a b m - c a b m) + - w a b m) by ring.
          apply (Rle_trans _ _ _ (Rabs_triang _ _)). rewrite Rabs_Ropp. apply Rplus_le_compat; [exact HI|now apply Bw].
      - unfold kappa, eps. pose proof P_nonneg as HMD. pose proof K_pos as HK.
        assert (H4 : rho ^ 4 <= rho ^ 2).
        { replace (rho ^ 4) with (rho ^ 2 * rho ^ 2) by ring. assert (0 <= rho ^ 2 <= 1) by nra. nra. }
        assert (HPK : 0 <= 2 * P * K ^ 2) by (assert (0 <= K ^ 2) by apply pow2_ge_0; nra).
        apply (Rle_trans _ (B * (2 * P * K ^ 2 + 1) * rho * rho)); [|nra].
        replace (B * (2 * P * K ^ 2 + 1) * rho * rho) with (B * (2 * P * K ^ 2 * rho ^ 2 + rho ^ 2)) by ring.
        apply Rmult_le_compat_l; [lra|]. apply Rplus_le_compat_r.
        replace (2 * P * (K * rho ^ 2) ^ 2) with (2 * P * K ^ 2 * rho ^ 4) by ring. now apply Rmult_le_compat_l. }
    pose proof (B1 a b j Ha Hb Hj) as HY. apply Rabs_le_between in HX, HY. apply Rabs_le. nra. }
  split; [|exact Hg]. split; [exact S'|]. split; [exact BN|].
  intros a b j Ha Hb Hj. rewrite Hg. replace (Ns s' a b j - (Ns s' a b j - v a b j)) with (v a b j) by ring. now apply Bv.
Qed.
Lemma good_sym s : good s -> sym_state M N s.
Proof. intros [[H _] _]. exact H. Qed.
Lemma weak_lip s t s' t' d : good s -> good t -> 0 <= d -> near3 M N d (Ns s) (Ns t) ->
  step s = Some s' -> step t = Some t' -> near3 M N ((1 + mix) / 2 * d) (Ns s') (Ns t').
Proof.
  intros Hs Ht Hd Hn Es Et.
  destruct (step_meets M N r oz (QOZ M Q) mix v w s s' G Hoz Sv Sw (good_sym s Hs) Es) as [_ (c & h & SS)].
  destruct (step_meets M N r oz (QOZ M Q) mix v w t t' G Hoz Sv Sw (good_sym t Ht) Et) as [_ (c' & h' & TT)].
  assert (Bc : forall m, (m < N)%nat -> small2 M kappa (fun a b => c a b m)).
  { intros m Hm a b Ha Hb. rewrite (ss_c _ _ _ _ _ _ _ _ _ _ _ SS a b m Ha Hb Hm). apply c_small; try assumption. apply Hs. }
  assert (Bc' : forall m, (m < N)%nat -> small2 M kappa (fun a b => c' a b m)).
  { intros m Hm a b Ha Hb. rewrite (ss_c _ _ _ _ _ _ _ _ _ _ _ TT a b m Ha Hb Hm). apply c_small; try assumption. apply Ht. }
  assert (Hcc : forall m, (m < N)%nat -> small2 M (A * (4 * rho * d)) (fun a b => c a b m - c' a b m)).
  { intros m Hm a b Ha Hb. rewrite (ss_c _ _ _ _ _ _ _ _ _ _ _ SS a b m Ha Hb Hm), (ss_c _ _ _ _ _ _ _ _ _ _ _ TT a b m Ha Hb Hm).
    match goal with |- Rabs (?x - ?z - (?y - ?z)) <= _ => replace (x - z - (y - z)) with (x - y) by ring end.
    rewrite <- forward_minus. apply HA; [nra| |exact Hm]. intros j Hj.
    destruct Hs as [(_ & B1 & B2) Hgs]. destruct Ht as [(_ & B1' & B2') Hgt].
    apply (Rle_trans _ (4 * rho * Rabs (Ns s a b j - Ns t a b j))).
    - apply phi_lip; [now apply B1|now apply B1'|now apply B2|]. rewrite Hgs, Hgt. ring.
    - apply Rmult_le_compat_l; [lra|]. now apply Hn. }
  intros a b j Ha Hb Hj.
  rewrite (ss_N _ _ _ _ _ _ _ _ _ _ _ SS a b j Ha Hb Hj), (ss_N _ _ _ _ _ _ _ _ _ _ _ TT a b j Ha Hb Hj).
  match goal with |- Rabs (?p * ?x + ?q * ?y - (?p * ?x' + ?q * ?y')) <= _ =>
    replace (p * x + q * y - (p * x' + q * y')) with (p * (x - x') + q * (y - y')) by ring; set (X := x - x') end.
  assert (HX : Rabs X <= d / 2).
  { unfold X. rewrite <- backward_minus. apply (Rle_trans _ (B * (4 * P * kappa * (A * (4 * rho * d))))).
    - pose proof P_nonneg. pose proof kappa_nonneg. apply HB; [|intros m Hm|exact Hj].
      + replace (4 * P * kappa * (A * (4 * rho * d))) with (P * kappa * (16 * A * rho * d)) by ring.
        apply Rmult_le_pos; [now apply Rmult_le_pos|]. apply Rmult_le_pos; [|exact Hd]. apply Rmult_le_pos; lra.
      + destruct (oz_lip M Q P kappa HM HQ kappa_nonneg kappa_small _ _ _ _ (A * (4 * rho * d)) ltac:(apply Rmult_le_pos; [lra|nra])
          (Bc m Hm) (Bc' m Hm) (ss_h _ _ _ _ _ _ _ _ _ _ _ SS m Hm) (ss_h _ _ _ _ _ _ _ _ _ _ _ TT m Hm) (Hcc m Hm)) as [_ HI].
        specialize (HI a b Ha Hb). cbv beta in HI.
        match goal with |- Rabs (?x - (?y + ?z) - (?x' - (?y' + ?z))) <= _ => replace (x - (y + z) - (x' - (y' + z))) with (x - y - (x' - y')) by ring end.
        exact HI.
    - unfold kappa. pose proof P_nonneg as HMD. pose proof K_pos as HK.
      replace (B * (4 * P * (K * rho ^ 2) * (A * (4 * rho * d)))) with ((32 * A * B * P * K * rho) * (rho ^ 2 / 2 * d)) by field.
      assert (0 <= rho ^ 2 / 2 * d) by (assert (0 <= rho ^ 2) by apply pow2_ge_0; nra).
      assert (rho ^ 2 <= 1) by nra. assert (rho ^ 2 / 2 * d <= d / 2) by nra. nra. }
  pose proof (Hn a b j Ha Hb Hj) as HY. apply Rabs_le_between in HX, HY. apply Rabs_le. nra.
Qed.
(** ** The fixed point *)
Let q := (1 + mix) / 2.
Lemma q_range : 0 <= q < 1.
Proof. unfold q. lra. Qed.
Lemma q_pow k : 0 <= q ^ k.
Proof. apply pow_le. apply q_range. Qed.
Lemma good_init : good (init v).
Proof.
  pose proof eps_rho.
  split; [split; [split|split]|]; cbn [init log_g Ns]; intros a b j.
  - intros Ha Hb Hj. now rewrite Sv.
  - reflexivity.
  - intros. rewrite Rabs_R0. lra.
  - intros Ha Hb Hj. replace (0 - - v a b j) with (v a b j) by ring. now apply Bv.
  - ring.
Qed.
Definition next (s : hnc_state) : hnc_state := match step s with Some s' => s' | None => s end.
Lemma next_step s : good s -> step s = Some (next s) /\ good (next s).
Proof.
  intros H. destruct (weak_step s (proj1 H)) as (s' & E & Hg & _). unfold next. rewrite E. now split.
Qed.
Fixpoint seq_from (s : hnc_state) (k : nat) : hnc_state :=
  match k with O => s | S p => next (seq_from s p) end.
Lemma seq_good s k : good s -> good (seq_from s k).
Proof. intros H. induction k as [|k IH]; [exact H|]. cbn. now apply next_step. Qed.
Lemma ball_diam s t : good s -> good t -> near3 M N (2 * rho) (Ns s) (Ns t).
Proof.
  intros [(_ & H1 & _) _] [(_ & H2 & _) _] a b j Ha Hb Hj. apply (Rle_trans _ _ _ (Rabs_triang4 _ _)).
  pose proof (H1 a b j Ha Hb Hj). pose proof (H2 a b j Ha Hb Hj). lra.
Qed.
Lemma seq_near s t d k : good s -> good t -> 0 <= d -> near3 M N d (Ns s) (Ns t) ->
  near3 M N (q ^ k * d) (Ns (seq_from s k)) (Ns (seq_from t k)).
Proof.
  intros Hs Ht Hd Hn. induction k as [|k IH]; [intros a b j Ha Hb Hj; rewrite pow_O, Rmult_1_l; now apply Hn|].
  replace (q ^ S k * d) with ((1 + mix) / 2 * (q ^ k * d)) by (cbn [pow]; unfold q; ring).
  pose proof (q_pow k).
  apply (weak_lip (seq_from s k) (seq_from t k)); try (now apply seq_good); try exact IH; try (now apply next_step; apply seq_good).
  now apply Rmult_le_pos.
Qed.
Lemma seq_shift s k p : seq_from s (k + p) = seq_from (seq_from s p) k.
Proof. induction k as [|k IH]; [reflexivity|]. cbn. now rewrite IH. Qed.
Lemma seq_cauchy k p : near3 M N (q ^ k * (2 * rho)) (Ns (seq_from (init v) (k + p))) (Ns (seq_from (init v) k)).
Proof.
  rewrite seq_shift. apply seq_near; [apply seq_good, good_init|apply good_init|lra|].
  apply ball_diam; [apply seq_good|]; apply good_init.
Qed.
Lemma geom_small d e : 0 < e -> 0 <= d -> exists k, q ^ k * d < e.
Proof.
  intros He Hd. pose proof q_range as Hq.
  destruct (pow_lt_1_zero q ltac:(rewrite Rabs_right; lra) (e / (d + 1)) ltac:(apply Rdiv_lt_0_compat; lra)) as [k Hk].
  exists k. specialize (Hk k (Nat.le_refl k)). pose proof (q_pow k). rewrite Rabs_right in Hk by lra.
  apply (Rmult_lt_compat_r (d + 1)) in Hk; [|lra]. unfold Rdiv in Hk. rewrite Rmult_assoc, Rinv_l, Rmult_1_r in Hk by lra. nra.
Qed.
Definition Nlim : arr3 := fun a b j => real (Lim_seq (fun k => Ns (seq_from (init v) k) a b j)).
Lemma Nlim_lim a b j : (a < M)%nat -> (b < M)%nat -> (j < N)%nat ->
  is_lim_seq (fun k => Ns (seq_from (init v) k) a b j) (Nlim a b j).
Proof.
  intros Ha Hb Hj. apply Lim_seq_correct'. apply ex_lim_seq_cauchy_corr. intros e.
  destruct (geom_small (2 * rho) (e / 2) ltac:(pose proof (cond_pos e); lra) ltac:(lra)) as [k Hk]. exists k. intros p p' Hp Hp'.
  pose proof (seq_cauchy k (p - k) a b j Ha Hb Hj) as H1. pose proof (seq_cauchy k (p' - k) a b j Ha Hb Hj) as H2.
  replace (k + (p - k))%nat with p in H1 by lia. replace (k + (p' - k))%nat with p' in H2 by lia.
  apply Rabs_le_between in H1, H2. apply Rabs_lt_between. lra.
Qed.
Lemma Nlim_near k : near3 M N (q ^ k * (2 * rho)) (Ns (seq_from (init v) k)) Nlim.
Proof.
  intros a b j Ha Hb Hj. pose proof (Nlim_lim a b j Ha Hb Hj) as HL.
  apply (is_lim_seq_incr_n _ k) in HL.
  assert (HU : forall p, Ns (seq_from (init v) k) a b j - q ^ k * (2 * rho) <= Ns (seq_from (init v) (p + k)) a b j <= Ns (seq_from (init v) k) a b j + q ^ k * (2 * rho)).
  { intros p. pose proof (seq_cauchy k p a b j Ha Hb Hj) as H. rewrite Nat.add_comm in H. apply Rabs_le_between in H. lra. }
  apply Rabs_le_between.
  pose proof (is_lim_seq_le _ _ _ _ (fun p => proj2 (HU p)) HL (is_lim_seq_const _)) as H1.
  pose proof (is_lim_seq_le _ _ _ _ (fun p => proj1 (HU p)) (is_lim_seq_const _) HL) as H2. cbn in H1, H2. lra.
Qed.
Definition state_of (Nf : arr3) : hnc_state := mkHS (fun a b j => Nf a b j - v a b j) Nf Nf 0.
Lemma good_state Nf : sym3 M N Nf -> small3 M N rho Nf -> good (state_of Nf).
Proof.
  intros HS HB'. split; [split; [split|split]|]; cbn [state_of log_g Ns].
  - intros a b j Ha Hb Hj. now rewrite HS, Sv.
  - exact HS.
  - exact HB'.
  - intros a b j Ha Hb Hj. replace (Nf a b j - (Nf a b j - v a b j)) with (v a b j) by ring. now apply Bv.
  - reflexivity.
Qed.
Lemma Nlim_good : sym3 M N Nlim /\ small3 M N rho Nlim.
Proof.
  split.
  - intros a b j Ha Hb Hj. unfold Nlim. f_equal. apply Lim_seq_ext. intros k.
    apply (good_sym _ (seq_good (init v) k good_init)); assumption.
  - intros a b j Ha Hb Hj. pose proof (Nlim_lim a b j Ha Hb Hj) as HL.
    assert (HU : forall k, - rho <= Ns (seq_from (init v) k) a b j <= rho).
    { intros k. apply Rabs_le_between. destruct (seq_good (init v) k good_init) as [(_ & H & _) _]. now apply H. }
    apply Rabs_le_between.
    pose proof (is_lim_seq_le _ _ _ _ (fun p => proj2 (HU p)) HL (is_lim_seq_const _)) as H1.
    pose proof (is_lim_seq_le _ _ _ _ (fun p => proj1 (HU p)) (is_lim_seq_const _) HL) as H2. cbn in H1, H2. lra.
Qed.
Definition fixed (Nf : arr3) : Prop := forall a b j, (a < M)%nat -> (b < M)%nat -> (j < N)%nat ->
  Ns (next (state_of Nf)) a b j = Nf a b j.
Lemma Nlim_fixed : fixed Nlim.
Proof.
  intros a b j Ha Hb Hj. destruct Nlim_good as [HS HB'].
  pose proof (good_state Nlim HS HB') as Hg.
  destruct (Req_dec (Ns (next (state_of Nlim)) a b j) (Nlim a b j)) as [|Hne]; [assumption|exfalso].
  set (e := Rabs (Ns (next (state_of Nlim)) a b j - Nlim a b j)).
  assert (He : 0 < e) by (apply Rabs_pos_lt; lra).
  destruct (geom_small (2 * rho) (e / 3) ltac:(lra) ltac:(lra)) as [k Hk].
  pose proof (seq_good (init v) k good_init) as Hgk.
  assert (H1 : near3 M N ((1 + mix) / 2 * (q ^ k * (2 * rho))) (Ns (next (seq_from (init v) k))) (Ns (next (state_of Nlim)))).
  { apply (weak_lip (seq_from (init v) k) (state_of Nlim)); try assumption; try (now apply next_step).
    - pose proof (q_pow k). nra.
    - exact (Nlim_near k). }
  pose proof (Nlim_near (S k) a b j Ha Hb Hj) as H2. specialize (H1 a b j Ha Hb Hj). cbn [seq_from] in H2.
  replace (q ^ S k * (2 * rho)) with (q * (q ^ k * (2 * rho))) in H2 by (cbn [pow]; ring).
  fold q in H1. pose proof q_range. pose proof (q_pow k).
  assert (0 <= q ^ k * (2 * rho)) by nra. assert (q * (q ^ k * (2 * rho)) <= q ^ k * (2 * rho)) by nra.
  unfold e in *. apply Rabs_le_between in H1, H2. clear He. 
  assert (Rabs (Ns (next (state_of Nlim)) a b j - Nlim a b j) <= 2 * (q ^ k * (2 * rho))) by (apply Rabs_le; lra).
  pose proof (Rabs_pos_lt (Ns (next (state_of Nlim)) a b j - Nlim a b j) ltac:(lra)). lra.
Qed.
(** fixed points and solutions of the equations *)
Lemma fixed_solution Nf : sym3 M N Nf -> small3 M N rho Nf -> fixed Nf -> hnc_solution M N r (QOZ M Q) v w Nf.
Proof.
  intros HS HB' Hf. pose proof (good_state Nf HS HB') as Hg. destruct (next_step _ Hg) as [E _].
  destruct (step_meets M N r oz (QOZ M Q) mix v w _ _ G Hoz Sv Sw (good_sym _ Hg) E) as [_ (c & h & SS)].
  set (h0 := fun a b j => exp (Nf a b j - v a b j) - 1). set (c_s := fun a b j => h0 a b j - Nf a b j).
  intros m Hm.
  assert (Hck : forall a b m, (a < M)%nat -> (b < M)%nat -> (m < N)%nat -> c a b m = forward N r (c_s a b) m - w a b m).
  { intros a b p Ha Hb Hp. rewrite (ss_c _ _ _ _ _ _ _ _ _ _ _ SS a b p Ha Hb Hp). reflexivity. }
  assert (Hhk : forall a b m, (a < M)%nat -> (b < M)%nat -> (m < N)%nat -> h a b m = forward N r (h0 a b) m).
  { intros a b p Ha Hb Hp.
    assert (HNs : forall j, (j < N)%nat -> Nf a b j = backward N r (fun m => h a b m - (c a b m + w a b m)) j).
    { intros j Hj. pose proof (ss_N _ _ _ _ _ _ _ _ _ _ _ SS a b j Ha Hb Hj) as H1. rewrite Hf in H1 by assumption.
      cbn [state_of Ns] in H1. apply (Rmult_eq_reg_l (1 - mix)); [|lra]. lra. }
    pose proof (forward_backward N r G (fun m => h a b m - (c a b m + w a b m)) p Hp) as Hfb. cbv beta in Hfb.
    rewrite <- (forward_ext N r _ _ p HNs) in Hfb.
    rewrite (forward_ext N r _ (fun j => c_s a b j + Nf a b j) p) by (intros; unfold c_s; ring).
    rewrite forward_plus. rewrite Hfb, Hck by assumption. ring. }
  apply (QOZ_ext M Q P HQ (fun a b => c a b m) (fun a b => h a b m) (fun a b => forward N r (c_s a b) m - w a b m) (fun a b => forward N r (h0 a b) m)).
  - intros p q' Hp Hq'. now apply Hck.
  - intros p q' Hp Hq'. now apply Hhk.
  - exact (ss_h _ _ _ _ _ _ _ _ _ _ _ SS m Hm).
Qed.
Lemma solution_fixed Nf : sym3 M N Nf -> small3 M N rho Nf -> hnc_solution M N r (QOZ M Q) v w Nf -> fixed Nf.
Proof.
  intros HS HB' Hsol. pose proof (good_state Nf HS HB') as Hg. destruct (next_step _ Hg) as [E _].
  destruct (step_meets M N r oz (QOZ M Q) mix v w _ _ G Hoz Sv Sw (good_sym _ Hg) E) as [_ (c & h & SS)].
  unfold hnc_solution in Hsol. set (h0 := fun a b j => exp (Nf a b j - v a b j) - 1) in *.
  set (c_s := fun a b j => h0 a b j - Nf a b j) in *. cbv zeta in Hsol.
  assert (Hck : forall a b m, (a < M)%nat -> (b < M)%nat -> (m < N)%nat -> c a b m = forward N r (c_s a b) m - w a b m).
  { intros a b p Ha Hb Hp. rewrite (ss_c _ _ _ _ _ _ _ _ _ _ _ SS a b p Ha Hb Hp). reflexivity. }
  assert (Bc : forall m, (m < N)%nat -> small2 M kappa (fun a b => c a b m)).
  { intros m Hm a b Ha Hb. rewrite (ss_c _ _ _ _ _ _ _ _ _ _ _ SS a b m Ha Hb Hm). apply c_small; try assumption. apply Hg. }
  assert (Hhk : forall a b m, (a < M)%nat -> (b < M)%nat -> (m < N)%nat -> h a b m = forward N r (h0 a b) m).
  { intros a b m Ha Hb Hm.
    apply (oz_one M Q P kappa HM HQ kappa_nonneg kappa_small (fun a b => c a b m) (fun a b => h a b m) (fun a b => forward N r (h0 a b) m)); try assumption.
    - exact (Bc m Hm).
    - exact (ss_h _ _ _ _ _ _ _ _ _ _ _ SS m Hm).
    - apply (QOZ_ext M Q P HQ (fun a b => forward N r (c_s a b) m - w a b m) (fun a b => forward N r (h0 a b) m)); [| |now apply Hsol].
      + intros p t Hp Ht. now rewrite Hck.
      + reflexivity. }
  intros a b j Ha Hb Hj. rewrite (ss_N _ _ _ _ _ _ _ _ _ _ _ SS a b j Ha Hb Hj). cbn [state_of Ns].
  rewrite (backward_ext N r _ (forward N r (Nf a b))).
  - rewrite backward_forward by assumption. ring.
  - intros m Hm. rewrite Hhk, Hck by assumption.
    rewrite (forward_ext N r (h0 a b) (fun j => c_s a b j + Nf a b j)) by (intros; unfold c_s; ring).
    rewrite forward_plus. ring.
Qed.
(** every sequence approaches a fixed point *)
Lemma fixed_near Nf s d k : sym3 M N Nf -> small3 M N rho Nf -> fixed Nf -> good s -> 0 <= d -> near3 M N d (Ns s) Nf ->
  near3 M N (q ^ k * d) (Ns (seq_from s k)) Nf.
Proof.
  intros HS HB' Hf Hs Hd Hn. induction k as [|k IH]; [intros a b j Ha Hb Hj; rewrite pow_O, Rmult_1_l; now apply Hn|].
  intros a b j Ha Hb Hj. cbn [seq_from]. rewrite <- (Hf a b j Ha Hb Hj).
  replace (q ^ S k * d) with ((1 + mix) / 2 * (q ^ k * d)) by (cbn [pow]; unfold q; ring).
  pose proof (good_state Nf HS HB') as Hg. pose proof (seq_good s k Hs) as Hk.
  apply (weak_lip (seq_from s k) (state_of Nf)); try assumption; try (now apply next_step).
  apply Rmult_le_pos; [apply q_pow|exact Hd].
Qed.
Lemma fixed_unique Nf Nf' : sym3 M N Nf -> small3 M N rho Nf -> fixed Nf ->
  sym3 M N Nf' -> small3 M N rho Nf' -> fixed Nf' ->
  forall a b j, (a < M)%nat -> (b < M)%nat -> (j < N)%nat -> Nf a b j = Nf' a b j.
Proof.
  intros HS HB1' Hf HS' HB2' Hf' a b j Ha Hb Hj.
  destruct (Req_dec (Nf a b j) (Nf' a b j)) as [|Hne]; [assumption|exfalso].
  pose proof (Rabs_pos_lt (Nf a b j - Nf' a b j) ltac:(lra)) as He.
  destruct (geom_small (2 * rho) (Rabs (Nf a b j - Nf' a b j) / 3) ltac:(lra) ltac:(lra)) as [k Hk].
  pose proof (fixed_near Nf (init v) (2 * rho) k HS HB1' Hf good_init ltac:(lra)
     (ball_diam (init v) (state_of Nf) good_init (good_state Nf HS HB1')) a b j Ha Hb Hj) as H1.
  pose proof (fixed_near Nf' (init v) (2 * rho) k HS' HB2' Hf' good_init ltac:(lra)
     (ball_diam (init v) (state_of Nf') good_init (good_state Nf' HS' HB2')) a b j Ha Hb Hj) as H2.
  apply Rabs_le_between in H1, H2.
  assert (Rabs (Nf a b j - Nf' a b j) <= 2 * (q ^ k * (2 * rho))) by (apply Rabs_le; lra). lra.
Qed.
Lemma steps_seq k : forall s, good s -> steps oz N r mix v w k s = Some (seq_from s k).
Proof.
  induction k as [|k IH]; intros s Hs; [reflexivity|]. cbn [steps]. destruct (next_step s Hs) as [E Hg]. rewrite E, IH by exact Hg.
  f_equal. change (next s) with (seq_from s 1). rewrite <- seq_shift. f_equal. lia.
Qed.

(** ** The loop *)
Notation while_loop := (while_loop oz M N r mix v w).
(** what holds of the states of the loop: in the ball, and made by a step from the ball *)
Definition from_good (t : hnc_state) : Prop :=
  good t /\ exists p, good p /\ Ns_old t = Ns p /\ (forall a b j, Ns t a b j = Ns (next p) a b j).
Lemma next_from_good p : good p -> from_good (next p).
Proof.
  intros Hp. destruct (next_step p Hp) as [E Hg]. split; [exact Hg|]. exists p. split; [exact Hp|].
  destruct (weak_step p (proj1 Hp)) as (s' & E' & _ & _ & Ho). assert (s' = next p) by congruence. subst s'. now split.
Qed.
Lemma loop_weak Nf : sym3 M N Nf -> small3 M N rho Nf -> fixed Nf ->
  forall fuel s, (2000 < fuel + n_iter s)%nat -> (n_iter s <= 2000)%nat -> from_good s \/ (good s /\ condition M N s = true) ->
    near3 M N (q ^ (n_iter s) * (2 * rho)) (Ns s) Nf ->
    exists t, while_loop fuel s = Finished t /\ from_good t /\ near3 M N (q ^ (n_iter t) * (2 * rho)) (Ns t) Nf
      /\ condition M N t = false.
Proof.
  intros HS HB' Hf fuel. induction fuel as [|f IH]; intros s Hfu Hi Hs Hn; [lia|]. cbn [M_HNC.while_loop].
  destruct (condition M N s) eqn:Ec.
  - assert (Hgs : good s) by (destruct Hs as [[H _]|[H _]]; exact H).
    destruct (weak_step s (proj1 Hgs)) as (s' & E & Hg' & Hi' & Ho'). rewrite E.
    assert (En : s' = next s) by (unfold next; now rewrite E).
    assert (Hlt : (n_iter s < 2000)%nat).
    { unfold condition in Ec. apply andb_prop in Ec as [Ec _]. now apply Nat.ltb_lt. }
    apply IH; [lia|lia|left; rewrite En; now apply next_from_good|].
    rewrite Hi', En. cbn [pow]. rewrite Rmult_assoc. pose proof (q_pow (n_iter s)).
    pose proof (fixed_near Nf s (q ^ n_iter s * (2 * rho)) 1 HS HB' Hf Hgs ltac:(nra) Hn) as H1.
    rewrite pow_1 in H1. exact H1.
  - exists s. split; [reflexivity|]. destruct Hs as [Hs|[_ Hc]]; [|congruence]. now split.
Qed.
(** the distance to the fixed point when the loop stops *)
Definition loop_error : R := Rmax ((1 + mix) / (1 - mix) / 1000) (2 * rho * q ^ 2000).
Lemma stop_weak Nf t : sym3 M N Nf -> small3 M N rho Nf -> fixed Nf -> from_good t ->
  near3 M N (q ^ (n_iter t) * (2 * rho)) (Ns t) Nf -> condition M N t = false -> near3 M N loop_error (Ns t) Nf.
Proof.
  intros HS HB' Hf (Hgt & p & Hgp & Ho & Hnp) Hn Hc. unfold condition in Hc. apply andb_false_elim in Hc as [Hc|Hc].
  - apply Nat.ltb_ge in Hc. intros a b j Ha Hb Hj. apply (Rle_trans _ _ _ (Hn a b j Ha Hb Hj)).
    apply (Rle_trans _ (2 * rho * q ^ 2000)); [|apply Rmax_r].
    rewrite (Rmult_comm (q ^ n_iter t)). apply Rmult_le_compat_l; [lra|].
    replace (n_iter t) with (2000 + (n_iter t - 2000))%nat by lia. rewrite pow_add. pose proof (q_pow 2000) as Hp.
    assert (q ^ (n_iter t - 2000) <= 1). { rewrite <- (pow1 (n_iter t - 2000)). apply pow_incr. pose proof q_range. lra. }
    nra.
  - destruct (Rlt_dec _ _) as [|Hle]; [discriminate|]. apply Rnot_lt_le in Hle.
    assert (Hd : near3 M N (1 / 1000) (Ns t) (Ns_old t)).
    { intros a b j Ha Hb Hj.
      assert (Ht : (Ns t a b j - Ns_old t a b j) ^ 2 <= total M N (fun a b j => (Ns t a b j - Ns_old t a b j) ^ 2)).
      { unfold total.
        apply (Rle_trans _ (nsum N (fun j => (Ns t a b j - Ns_old t a b j) ^ 2))).
        { apply (nsum_term N (fun j => (Ns t a b j - Ns_old t a b j) ^ 2)); [intros; apply pow2_ge_0|exact Hj]. }
        apply (Rle_trans _ (nsum M (fun b => nsum N (fun j => (Ns t a b j - Ns_old t a b j) ^ 2)))).
        { apply (nsum_term M (fun b => nsum N (fun j => (Ns t a b j - Ns_old t a b j) ^ 2))); [|exact Hb].
          intros; apply nsum_nonneg; intros; apply pow2_ge_0. }
        apply (nsum_term M (fun a => nsum M (fun b => nsum N (fun j => (Ns t a b j - Ns_old t a b j) ^ 2)))); [|exact Ha].
        intros; apply nsum_nonneg; intros; apply nsum_nonneg; intros; apply pow2_ge_0. }
      apply Rabs_le. set (x := Ns t a b j - Ns_old t a b j) in *. assert (x ^ 2 <= 1 / 1000000) by lra. nra. }
    destruct G as (_ & HN0 & _).
    destruct (max3 M N (fun a b j => Rabs (Ns t a b j - Nf a b j)) HM ltac:(lia)) as (a0 & b0 & j0 & Ha0 & Hb0 & Hj0 & Hm).
    cbv beta in Hm. set (e := Rabs (Ns t a0 b0 j0 - Nf a0 b0 j0)) in *. assert (He : 0 <= e) by apply Rabs_pos.
    assert (H1 : near3 M N (q ^ 1 * (1 / 1000 + e)) (Ns (seq_from p 1)) Nf).
    { apply fixed_near; try assumption; [lra|]. intros a b j Ha Hb Hj. rewrite <- Ho.
      pose proof (Hd a b j Ha Hb Hj) as X1. pose proof (Hm a b j Ha Hb Hj) as X2.
      apply Rabs_le_between in X1, X2. apply Rabs_le. lra. }
    rewrite pow_1 in H1. specialize (H1 a0 b0 j0 Ha0 Hb0 Hj0). cbn [seq_from] in H1. rewrite <- Hnp in H1. fold e in H1.
    assert (Hfin : e <= (1 + mix) / (1 - mix) / 1000).
    { apply (Rmult_le_reg_r (1 - mix)); [lra|]. replace ((1 + mix) / (1 - mix) / 1000 * (1 - mix)) with ((1 + mix) / 1000) by (field; lra).
      unfold q in H1. lra. }
    intros a b j Ha Hb Hj. apply (Rle_trans _ _ _ (Hm a b j Ha Hb Hj)). apply (Rle_trans _ _ _ Hfin). apply Rmax_l.
Qed.
(** ** Summary *)
Lemma weak_summary :
  exists Nf, sym3 M N Nf /\ small3 M N rho Nf /\ hnc_solution M N r (QOZ M Q) v w Nf /\
    (forall N', sym3 M N N' -> small3 M N rho N' -> hnc_solution M N r (QOZ M Q) v w N' ->
       forall a b j, (a < M)%nat -> (b < M)%nat -> (j < N)%nat -> N' a b j = Nf a b j) /\
    (forall s, sym_state M N s -> small3 M N rho (Ns s) -> (forall a b j, log_g s a b j = Ns s a b j - v a b j) ->
       forall k, exists t, steps oz N r mix v w k s = Some t /\
         (forall a b j, log_g t a b j = Ns t a b j - v a b j) /\
         near3 M N (2 * rho * ((1 + mix) / 2) ^ k) (Ns t) Nf).
Proof.
  destruct Nlim_good as [LS LB]. pose proof Nlim_fixed as LF.
  exists Nlim. split; [exact LS|]. split; [exact LB|]. split; [now apply fixed_solution|]. split.
  - intros N' S' B' H'. apply fixed_unique; try assumption. now apply solution_fixed.
  - intros s Ss Bs Hc k.
    assert (Hg : good s).
    { split; [|exact Hc]. split; [exact Ss|]. split; [exact Bs|]. intros a b j Ha Hb Hj. rewrite Hc.
      replace (Ns s a b j - (Ns s a b j - v a b j)) with (v a b j) by ring. now apply Bv. }
    exists (seq_from s k). split; [now apply steps_seq|]. split; [apply (seq_good s k Hg)|].
    rewrite Rmult_comm. apply fixed_near; try assumption; [lra|].
    apply (ball_diam s (state_of Nlim)); [exact Hg|now apply good_state].
Qed.
End Potential.
(** ** All temperatures *)
Section Temperatures.
Variable vs ws : R -> arr3.
Definition weak_at (mult : R) : Prop :=
  sym3 M N (vs mult) /\ sym3 M N (ws mult) /\ small3 M N eps (vs mult) /\ small3 M N eps (ws mult).
Definition near_limit (mult : R) (t : hnc_state) : Prop :=
  good (vs mult) t /\ near3 M N loop_error (Ns t) (Nlim (vs mult) (ws mult)).
Notation first_cycle fuel := (first_cycle (fun _ => oz) fuel M N r mix vs ws).
Notation next_cycle fuel := (next_cycle (fun _ => oz) fuel M N r mix vs ws).
Notation later_cycles fuel := (later_cycles (fun _ => oz) fuel M N r mix vs ws).
Lemma reset_good v w s : from_good v w s -> from_good v w (mkHS (log_g s) (Ns s) (Ns_old s) 0).
Proof. intros [Hg (p & Hp & Ho & Hn)]. split; [exact Hg|]. exists p. now split. Qed.
Lemma first_weak fuel mult : (2000 < fuel)%nat -> weak_at mult ->
  exists t, first_cycle fuel mult = Finished t /\ near_limit mult t.
Proof.
  intros Hf (Sv & Sw & Bv & Bw). unfold M_HNC.first_cycle.
  destruct (Nlim_good (vs mult) (ws mult) Sv Sw Bv Bw) as [LS LB].
  pose proof (Nlim_fixed (vs mult) (ws mult) Sv Sw Bv Bw) as LF.
  pose proof (good_init (vs mult) Sv Bv) as Hi.
  destruct (loop_weak (vs mult) (ws mult) Sv Sw Bv Bw _ LS LB LF fuel (init (vs mult))) as (t & E & Hg & Hn & Hc).
  - cbn. lia.
  - cbn. lia.
  - right. split; [exact Hi|]. apply (init_condition M N r G HM).
  - cbn [init n_iter]. rewrite pow_O, Rmult_1_l. apply (ball_diam (vs mult) _ (state_of (vs mult) (Nlim (vs mult) (ws mult))) Hi).
    now apply good_state.
  - exists t. split; [exact E|]. split; [apply Hg|]. now apply (stop_weak (vs mult) (ws mult)).
Qed.
Lemma next_weak fuel mult s : (2000 < fuel)%nat -> weak_at mult -> ball s ->
  exists t, next_cycle fuel mult s = Finished t /\ near_limit mult t.
Proof.
  intros Hf (Sv & Sw & Bv & Bw) Hs. unfold M_HNC.next_cycle.
  destruct (Nlim_good (vs mult) (ws mult) Sv Sw Bv Bw) as [LS LB].
  pose proof (Nlim_fixed (vs mult) (ws mult) Sv Sw Bv Bw) as LF.
  destruct (weak_step (vs mult) (ws mult) Sv Sw Bv Bw s Hs) as (s1 & E1 & G1 & _).
  change (steps oz N r mix (vs mult) (ws mult) 5 s) with (match step oz N r mix (vs mult) (ws mult) s with Some s' => steps oz N r mix (vs mult) (ws mult) 4 s' | None => None end).
  rewrite E1, (steps_seq (vs mult) (ws mult) Sv Sw Bv Bw 4 s1 G1).
  assert (H5 : from_good (vs mult) (ws mult) (seq_from (vs mult) (ws mult) s1 4)).
  { cbn [seq_from]. apply next_from_good; try assumption. apply (seq_good (vs mult) (ws mult) Sv Sw Bv Bw s1 3 G1). }
  apply reset_good in H5. set (s5 := mkHS _ _ _ _) in *.
  destruct (loop_weak (vs mult) (ws mult) Sv Sw Bv Bw _ LS LB LF fuel s5) as (t & E & Hg & Hn & Hc).
  - cbn. lia.
  - cbn. lia.
  - now left.
  - change (n_iter s5) with O. rewrite pow_O, Rmult_1_l. apply (ball_diam (vs mult) _ (state_of (vs mult) (Nlim (vs mult) (ws mult))) (proj1 H5)).
    now apply good_state.
  - exists t. split; [exact E|]. split; [apply Hg|]. now apply (stop_weak (vs mult) (ws mult)).
Qed.
Lemma later_weak fuel rest : (2000 < fuel)%nat -> forall s it, ball s -> (forall mult, In mult (rest ++ [1]) -> weak_at mult) ->
  exists t it', later_cycles fuel (rest ++ [1]) s it = Some (t, it') /\ near_limit 1 t.
Proof.
  intros Hf. induction rest as [|mult rest IH]; intros s it Hs Hw; cbn [app M_HNC.later_cycles].
  - destruct (next_weak fuel 1 s Hf (Hw 1 ltac:(now left)) Hs) as (t & E & Ht). rewrite E. eauto.
  - destruct (next_weak fuel mult s Hf (Hw mult ltac:(now left)) Hs) as (t & E & Ht). rewrite E.
    apply IH; [apply Ht|]. intros m Hm. apply Hw. now right.
Qed.
Lemma cycles_weak fuel tmult : (2000 < fuel)%nat -> (forall mult, In mult (tmult ++ [1]) -> weak_at mult) ->
  exists t it, cycles (fun _ => oz) fuel M N r mix vs ws tmult = Some (t, it) /\ near_limit 1 t.
Proof.
  intros Hf Hw. unfold cycles. destruct tmult as [|mult rest]; cbn [app] in *.
  - destruct (first_weak fuel 1 Hf (Hw 1 ltac:(now left))) as (t & E & Ht). rewrite E. cbn [M_HNC.later_cycles]. eauto.
  - destruct (first_weak fuel mult Hf (Hw mult ltac:(now left))) as (t & E & Ht). rewrite E.
    apply later_weak; [exact Hf|apply Ht|]. intros m Hm. apply Hw. now right.
Qed.
Lemma cycles_summary fuel tmult : (2000 < fuel)%nat -> (forall mult, In mult (tmult ++ [1]) -> weak_at mult) ->
  exists t it, cycles (fun _ => oz) fuel M N r mix vs ws tmult = Some (t, it) /\
    (forall a b j, log_g t a b j = Ns t a b j - vs 1 a b j) /\
    exists Nf, sym3 M N Nf /\ small3 M N rho Nf /\ hnc_solution M N r (QOZ M Q) (vs 1) (ws 1) Nf /\
      near3 M N (Rmax ((1 + mix) / (1 - mix) / 1000) (2 * rho * ((1 + mix) / 2) ^ 2000)) (Ns t) Nf.
Proof.
  intros Hf Hw. destruct (cycles_weak fuel tmult Hf Hw) as (t & it & E & Hg & Hn).
  exists t, it. split; [exact E|]. split; [apply Hg|].
  destruct (Hw 1) as (Sv & Sw & Bv & Bw); [apply in_or_app; right; now left|].
  destruct (Nlim_good (vs 1) (ws 1) Sv Sw Bv Bw) as [LS LB].
  exists (Nlim (vs 1) (ws 1)). split; [exact LS|]. split; [exact LB|]. split; [|exact Hn].
  apply fixed_solution; try assumption. now apply Nlim_fixed.
Qed.
End Temperatures.
End Weak.
