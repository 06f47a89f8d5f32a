(** Lemmas about the Pauli potentials. *)
From Coq Require Import Reals Lra Psatz List Lia Arith Bool.
From Coquelicot Require Import Coquelicot.
From Verif Require Import M_Const M_PlasmaState L_PlasmaState M_PlasmaPhysics M_Interp L_Interp M_Helpers L_Helpers M_HNC L_HNC L_HNC2 L_HNC3 M_Pauli P_HNC.
Import ListNotations.
Open Scope R_scope.

(** ** Fixed points of the hypernetted chain *)
(** a pair distribution [g], a potential [v] in units of the temperature: the state the
    solver has to keep *)
Definition chain_state (v g : arr3) (i : nat) : hnc_state :=
  mkHS (fun a b j => ln (g a b j)) (fun a b j => ln (g a b j) + v a b j) (fun a b j => ln (g a b j) + v a b j) i.
Lemma chain_fixed solve N_max M N r n mix (g c v : arr3) i : (1 <= M <= 4)%nat -> (M <= N_max)%nat -> good_grid N r ->
  (forall a b j, (a < M)%nat -> (b < M)%nat -> (j < N)%nat -> 0 < g a b j) ->
  (forall m, (m < N)%nat -> sym2 M (fun a b => c a b m)) ->
  (forall m, (m < N)%nat -> OZ M n (fun a b => c a b m) (fun a b => forward N r (fun j => g a b j - 1) m)) ->
  (forall m, (m < N)%nat -> det M (oz_matrix n (fun a b => c a b m)) <> 0) ->
  (forall a b m, (a < M)%nat -> (b < M)%nat -> (m < N)%nat ->
    forward N r (v a b) m = forward N r (fun j => g a b j - 1) m - forward N r (fun j => ln (g a b j)) m - c a b m) ->
  exists s', step (ozr solve N_max M n) N r mix v (fun _ _ _ => 0) (chain_state v g i) = Some s' /\
    forall a b j, (a < M)%nat -> (b < M)%nat -> (j < N)%nat ->
      Ns s' a b j = Ns (chain_state v g i) a b j /\ log_g s' a b j = log_g (chain_state v g i) a b j.
Proof.
  intros HM Hm G Hg Sc Hoz Hd Hv. set (s := chain_state v g i).
  set (cs_k := three_d_four N (k_grid N r) r (fun a b j => exp (log_g s a b j) - 1 - Ns s a b j)).
  assert (Hcs : forall a b m, (a < M)%nat -> (b < M)%nat -> (m < N)%nat -> cs_k a b m = c a b m).
  { intros a b m Ha Hb Hmm. unfold cs_k, three_d_four. rewrite forward_model by assumption.
    rewrite (forward_ext N r _ (fun j => (g a b j - 1) + -1 * (ln (g a b j) + v a b j))).
    2:{ intros j Hj. cbn [s chain_state log_g Ns]. rewrite exp_ln by (apply Hg; assumption). ring. }
    rewrite forward_plus, forward_scal, forward_plus, Hv by assumption. ring. }
  set (c_k := fun a b m => cs_k a b m - 0).
  assert (Hc : forall a b m, (a < M)%nat -> (b < M)%nat -> (m < N)%nat -> c_k a b m = c a b m) by (intros; unfold c_k; rewrite Hcs by assumption; ring).
  assert (Hd' : forall m, (m < N)%nat -> det M (oz_matrix n (fun a b => c_k a b m)) <> 0).
  { intros m Hmm. rewrite (det_ext M _ (oz_matrix n (fun a b => c a b m))); [now apply Hd|]. intros a b Ha Hb. unfold oz_matrix. now rewrite Hc. }
  destruct (oz_all_total (ozr solve N_max M n) c_k N) as [L EL].
  { intros m Hmm. apply ozr_total; [exact HM|exact Hm|now apply Hd']. }
  assert (HL : forall a b m, (a < M)%nat -> (b < M)%nat -> (m < N)%nat -> plane L a b m = forward N r (fun j => g a b j - 1) m).
  { intros a b m Ha Hb Hmm. destruct (oz_all_spec _ _ _ _ EL) as [_ Hsp]. specialize (Hsp m Hmm).
    assert (Sk : sym2 M (fun a b => c_k a b m)). { intros a' b' Ha' Hb'. rewrite !Hc by assumption. exact (Sc m Hmm a' b' Ha' Hb'). }
    destruct (ozr_small solve N_max M n (fun a b => c_k a b m) (fun a b => plane L a b m) HM Hm Sk Hsp) as (O1 & _ & Rg).
    refine (oz_unique M n (fun a b => c_k a b m) (fun a b => plane L a b m) (fun a b => forward N r (fun j => g a b j - 1) m) Rg O1 _ a b Ha Hb).
    apply (OZ_ext M n (fun a b => c a b m)); [|now apply Hoz]. intros; symmetry; now apply Hc. }
  unfold step. fold cs_k c_k. rewrite EL. eexists. split; [reflexivity|].
  assert (HB : forall a b j, (a < M)%nat -> (b < M)%nat -> (j < N)%nat ->
     three_d_four N r (k_grid N r) (fun a b m => plane L a b m - cs_k a b m) a b j / (2 * PI) ^ 3 = Ns s a b j).
  { intros a b j Ha Hb Hj. unfold three_d_four. rewrite backward_model by assumption.
    rewrite (backward_ext N r _ (forward N r (fun j => ln (g a b j) + v a b j))); [now rewrite backward_forward|].
    intros m Hmm. rewrite HL, Hcs, forward_plus, Hv by assumption. ring. }
  intros a b j Ha Hb Hj. cbn [log_g Ns]. rewrite HB by assumption. cbn [s chain_state log_g Ns]. split; ring.
Qed.

(** ** Arrays without nan *)
Lemma all_ok_spec N V W : all_ok N V = Some W -> forall m, (m < N)%nat -> V m = Some (W m).
Proof.
  unfold all_ok. destruct (forallb _ _) eqn:E; [|discriminate]. intros EW m Hm. assert (EW' : W = fun m => match V m with Some v => v | None => 0 end) by congruence. rewrite EW'.
  rewrite forallb_forall in E. specialize (E m). rewrite in_seq in E. specialize (E ltac:(lia)). destruct (V m); [reflexivity|discriminate].
Qed.
Lemma all_ok_make N V : (forall m, (m < N)%nat -> V m <> None) -> exists W, all_ok N V = Some W.
Proof.
  intros H. unfold all_ok. destruct (forallb _ _) eqn:E; [eauto|]. exfalso. rewrite <- not_true_iff_false in E. apply E. apply forallb_forall.
  intros m Hm. apply in_seq in Hm. specialize (H m ltac:(lia)). destruct (V m); [reflexivity|congruence].
Qed.

(** ** The index picked *)
Lemma last_below_le k lim N : (last_below k lim N <= N - 1)%nat.
Proof. induction N as [|N IH]; cbn [last_below]; [lia|]. destruct (Rlt_dec _ _); lia. Qed.
Lemma last_below_spec k lim N : (exists i, (i < N)%nat /\ k i < lim) ->
  (last_below k lim N < N)%nat /\ k (last_below k lim N) < lim /\ forall i, (last_below k lim N < i < N)%nat -> lim <= k i.
Proof.
  induction N as [|N IH]; intros (i & Hi & Hk); [lia|]. cbn [last_below]. destruct (Rlt_dec (k N) lim) as [L|L].
  - split; [lia|]. split; [exact L|]. intros j Hj. lia.
  - destruct IH as (A & B & C). { exists i. split; [|exact Hk]. assert (i <> N) by (intros ->; contradiction). lia. }
    split; [lia|]. split; [exact B|]. intros j Hj. destruct (Nat.eq_dec j N) as [->|]; [lra|]. apply C. lia.
Qed.

(** ** Transforms of a vanishing function *)
Lemma three_d_zero N r f a b m : good_grid N r -> (m < N)%nat -> (forall j, (j < N)%nat -> f a b j = 0) ->
  three_d_four N (k_grid N r) r f a b m = 0.
Proof.
  intros G Hm H. unfold three_d_four. rewrite forward_model by assumption. rewrite (forward_ext N r _ (fun _ => 0)) by exact H. apply forward_0.
Qed.

(** ** The two spins do not mix *)
Lemma separated_raw u N2 r2 n T g0 a b m : good_grid N2 r2 -> (a < 2)%nat -> (b < 2)%nat -> (m < N2)%nat ->
  (forall a b j, (a < 2)%nat -> (b < 2)%nat -> g0 a b j = if Nat.eqb a b then g0 0%nat 0%nat j else 1) ->
  1 + n / 2 * forward N2 r2 (fun j => g0 0%nat 0%nat j - 1) m <> 0 ->
  potential_separated u N2 r2 n T g0 a b m =
  if Nat.eqb a b then potential_averaged u N2 r2 (n / 2) T (g0 0%nat 0%nat) m else Some 0.
Proof.
  intros G Ha Hb Hm Hg Hd. unfold potential_separated, potential_averaged. cbv zeta.
  set (x := forward N2 r2 (fun j => g0 0%nat 0%nat j - 1) m) in *.
  assert (Hh : forall a b, (a < 2)%nat -> (b < 2)%nat -> three_d_four N2 (k_grid N2 r2) r2 (fun a b j => g0 a b j - 1) a b m = if Nat.eqb a b then x else 0).
  { intros a' b' Ha' Hb'. destruct (Nat.eqb a' b') eqn:E.
    - unfold three_d_four. rewrite forward_model by assumption. apply forward_ext. intros j Hj. rewrite Hg, E by assumption. reflexivity.
    - apply three_d_zero; try assumption. intros j Hj. rewrite Hg, E by assumption. ring. }
  set (y := fourier_transform_sine N2 (k_grid N2 r2) r2 (fun j => ln (g0 0%nat 0%nat j)) m).
  assert (HN : forall a b, (a < 2)%nat -> (b < 2)%nat -> three_d_four N2 (k_grid N2 r2) r2 (fun a b j => ln (g0 a b j)) a b m = if Nat.eqb a b then y else 0).
  { intros a' b' Ha' Hb'. destruct (Nat.eqb a' b') eqn:E.
    - unfold three_d_four, y. rewrite !forward_model by assumption. apply forward_ext. intros j Hj. rewrite Hg, E by assumption. reflexivity.
    - apply three_d_zero; try assumption. intros j Hj. rewrite Hg, E by assumption. apply ln_1. }
  assert (Hx : fourier_transform_sine N2 (k_grid N2 r2) r2 (fun j => g0 0%nat 0%nat j - 1) m = x) by (unfold x; now apply forward_model).
  rewrite Hx. unfold ozr_inverted. set (A := fun i j => delta i j + _).
  assert (EA : forall i j, (i < 2)%nat -> (j < 2)%nat -> A i j = if Nat.eqb i j then 1 + n / 2 * x else 0).
  { intros i j Hi Hj. unfold A. cbn [nsum]. rewrite !Hh by lia. destruct i as [|[|i]]; destruct j as [|[|j]]; try lia; cbn [Nat.eqb]; unfold delta; cbn [Nat.eqb]; ring. }
  unfold inv2. rewrite !EA by lia. cbn [Nat.eqb]. destruct (Req_EM_T _ 0) as [E|E].
  { exfalso. apply Hd. apply (Rmult_eq_reg_l (1 + n / 2 * x)); [lra|exact Hd]. }
  assert (Hd2 : 2 + n * x <> 0) by (intros E2; apply Hd; lra).
  cbn [obind]. rewrite qdiv_some by exact Hd. cbn [obind nsum]. rewrite !Hh, !HN by lia.
  destruct a as [|[|a]]; destruct b as [|[|b]]; try lia; cbn [Nat.eqb Nat.sub]; rewrite ?EA by lia; cbn [Nat.eqb]; f_equal; field; first [exact Hd2|split; exact Hd2].
Qed.
