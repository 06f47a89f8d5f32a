(** Properties C26 and C68: the imaginary-time correlation function. *)
From Coq Require Import Reals List Arith Lra Lia Permutation.
From Coquelicot Require Import Coquelicot.
From Verif Require Import M_Interp L_Interp M_Analysis L_Analysis.
Import ListNotations.
Open Scope R_scope.

(** ** C26 *)
Theorem C26_linear : forall hb small I1 I2 E a b tau lo hi, 0 < hb ->
  length I1 = length I2 -> length E = length I1 ->
  twoSidedLaplace hb small (map (fun p => a * fst p + b * snd p) (combine I1 I2)) tau E lo hi =
  a * twoSidedLaplace hb small I1 tau E lo hi + b * twoSidedLaplace hb small I2 tau E lo hi.
Proof. intros. now apply laplace_linear. Qed.
Print Assumptions C26_linear.

Theorem C26_nonnegative : forall hb small I E tau lo hi, 0 < hb ->
  length E = length I -> (1 <= length E)%nat -> (forall y, In y I -> 0 <= y) ->
  0 <= twoSidedLaplace hb small I tau E lo hi.
Proof. intros. now apply laplace_nonneg. Qed.
Print Assumptions C26_nonnegative.

(** The order in which the samples are listed does not matter. *)
Theorem C26_order_independent : forall hb small I E I' E' tau lo hi,
  length E = length I -> length E' = length I' -> NoDup E ->
  Permutation (combine E I) (combine E' I') ->
  twoSidedLaplace hb small I tau E lo hi = twoSidedLaplace hb small I' tau E' lo hi.
Proof. intros. now apply laplace_perm. Qed.
Print Assumptions C26_order_independent.

(** Convex in tau, so the minimum searched by [get_T] is global. *)
Theorem C26_convex_in_tau : forall hb small I E lo hi t1 t2 t, 0 < hb ->
  length E = length I -> (1 <= length E)%nat -> (forall y, In y I -> 0 <= y) -> 0 <= t <= 1 ->
  twoSidedLaplace hb small I ((1 - t) * t1 + t * t2) E lo hi <=
  (1 - t) * twoSidedLaplace hb small I t1 E lo hi + t * twoSidedLaplace hb small I t2 E lo hi.
Proof. intros. now apply laplace_convex. Qed.
Print Assumptions C26_convex_in_tau.

(** A constant spectrum [v] on [-c-small, c+small]: the window integral up to the
    edge cells, which pins the transform quantitatively. *)
Lemma constant_samples v E e : (1 <= length E)%nat ->
  interp None None (map fst (lap_samples (map (fun _ => v) E) E)) (map snd (lap_samples (map (fun _ => v) E) E)) e = v.
Proof.
  intros Hn. set (s := lap_samples _ _).
  assert (Hs : forall y, In y (map snd s) -> y = v).
  { intros y Hy. apply in_map_iff in Hy as (p & <- & Hp). apply (Permutation_in _ (isort_perm _ _)) in Hp.
    destruct p as [x z]. apply in_combine_r in Hp. apply in_map_iff in Hp as (? & <- & _). reflexivity. }
  assert (Hl : length s = length E).
  { unfold s, lap_samples. rewrite (Permutation_length (isort_perm _ _)), combine_length, map_length. lia. }
  assert (Ha : forall i, (i < length E)%nat -> at_ (map snd s) i = v).
  { intros i Hi. apply Hs. apply nth_In. rewrite map_length. lia. }
  destruct (interp_convex None None (map fst s) (map snd s) e) as [(i & j & t & Hi & Hj & Ht & ->)|[(w & Hw & _)|(w & Hw & _)]]; try discriminate.
  - apply samples_ascending.
  - rewrite map_length. lia.
  - rewrite map_length in Hi, Hj. rewrite !Ha by lia. ring.
Qed.
Theorem C26_zeroth_moment_of_a_constant : forall hb small v c, 0 < hb -> 0 < small < c ->
  twoSidedLaplace hb small [v; v] 0 [- c; c] (- c) c = v / hb * (2 * c + small).
Proof.
  intros hb small v c Hh Hs. unfold twoSidedLaplace.
  assert (Eg : lap_grid small [- c; c] (- c) c = [- c - small; - c; - c + small; c - small; c; c + small]).
  { unfold lap_grid, isort, insert; cbn [fold_right app]. repeat (destruct (Rle_dec _ _); try lra; cbn [fold_right app]); reflexivity. }
  rewrite Eg. unfold lap_kernel. change [v; v] with (map (fun _ : R => v) [- c; c]).
  cbn [map]. rewrite !(constant_samples v [- c; c]) by (cbn; lia).
  repeat (destruct (Rle_dec _ _); try lra). rewrite !Ropp_0, !Rmult_0_l, !exp_0. cbn [trapz]. field. lra.
Qed.
Print Assumptions C26_zeroth_moment_of_a_constant.

Example C26_ex : 0 <= twoSidedLaplace 1 (1/100) [1; 3; 2] 1 [0; 2; 1] (-1) 1.
Proof. apply C26_nonnegative; [lra|reflexivity|cbn; lia|]. cbn. intros y [<-|[<-|[<-|[]]]]; lra. Qed.
Example C26_ex_order : twoSidedLaplace 1 (1/100) [1; 3; 2] 1 [0; 2; 1] (-1) 1 = twoSidedLaplace 1 (1/100) [1; 2; 3] 1 [0; 1; 2] (-1) 1.
Proof.
  apply C26_order_independent; [reflexivity|reflexivity| |].
  - repeat constructor; cbn; intuition lra.
  - cbn. constructor. constructor.
Qed.

(** ** C68: thermometry *)
(** The setup: detailed balance at inverse temperature [beta], a symmetric set of
    sampled energies which contains the inner cut-off points. *)
Theorem C68_symmetric_in_tau : forall hb small S beta c E tau, 0 < hb -> 0 < small -> small < c ->
  (forall e, S (- e) = exp (- beta * e) * S e) ->
  NoDup E -> (forall e, In e E -> In (- e) E) -> In (c - small) E ->
  twoSidedLaplace hb small (map S E) (beta - tau) E (- c) c = twoSidedLaplace hb small (map S E) tau E (- c) c.
Proof. intros. now apply laplace_balance. Qed.
Print Assumptions C68_symmetric_in_tau.

(** The minimiser is beta/2 and nothing else, and get_T's formula turns it into T. *)
Theorem C68_thermometry : forall hb kB small S T c E, 0 < hb -> 0 < kB -> 0 < T -> 0 < small -> small < c ->
  (forall e, S (- e) = exp (- (1 / (kB * T)) * e) * S e) ->
  NoDup E -> (forall e, In e E -> In (- e) E) -> In (c - small) E ->
  (forall e, In e E -> 0 <= S e) -> 0 < S (c - small) ->
  forall inst inst_E tau, 
    (forall t f f', ITCF_F hb small (map S E) E inst inst_E c true t = Some f ->
       ITCF_F hb small (map S E) E inst inst_E c true tau = Some f' -> f' <= f) ->
    T_of_tau kB tau = T.
Proof.
  intros hb kB small S T c E Hh Hk HT Hs Hc Hb HN Hsym Hcut HS Hp inst inst_E tau Hmin.
  assert (Ht : tau = 1 / (kB * T) / 2).
  { destruct (Req_dec tau (1 / (kB * T) / 2)) as [h|h]; [exact h|].
    pose proof (laplace_min_strict hb small Hh Hs S _ c E Hb HN Hsym Hcut Hc HS tau Hp h) as Hlt.
    specialize (Hmin (1 / (kB * T) / 2) _ _ eq_refl eq_refl). lra. }
  subst tau. unfold T_of_tau. field. lra.
Qed.
Print Assumptions C68_thermometry.
(** such a minimiser exists *)
Theorem C68_minimum_is_attained : forall hb small S beta c E tau, 0 < hb -> 0 < small -> small < c ->
  (forall e, S (- e) = exp (- beta * e) * S e) ->
  NoDup E -> (forall e, In e E -> In (- e) E) -> In (c - small) E -> (forall e, In e E -> 0 <= S e) ->
  twoSidedLaplace hb small (map S E) (beta / 2) E (- c) c <= twoSidedLaplace hb small (map S E) tau E (- c) c.
Proof. intros. now apply laplace_min. Qed.
Print Assumptions C68_minimum_is_attained.

(** Value and slope at tau = 0: the zeroth and minus the first moment over the window. *)
Theorem C68_moments : forall hb small I E lo hi, 0 < hb ->
  let inten := fun e => interp None None (map fst (lap_samples I E)) (map snd (lap_samples I E)) e in
  let g := lap_grid small E lo hi in
  let window := fun (f : R -> R) e => if Rle_dec lo e then if Rle_dec e hi then f e else 0 else 0 in
  twoSidedLaplace hb small I 0 E lo hi = trapz g (map (window (fun e => inten e / hb)) g) /\
  is_derive (fun t => twoSidedLaplace hb small I t E lo hi) 0 (trapz g (map (window (fun e => - e * (inten e / hb))) g)).
Proof.
  intros hb small I E lo hi Hh inten g window. split.
  - unfold twoSidedLaplace. fold g. f_equal. apply map_ext. intros e. unfold lap_kernel, window. fold (inten e).
    destruct (Rle_dec lo e); [destruct (Rle_dec e hi)|]; try reflexivity.
    replace (- 0 * e) with 0 by ring. rewrite exp_0. field. lra.
  - pose proof (laplace_derive hb small Hh I E lo hi 0) as HD. fold g in HD.
    replace (map (window (fun e => - e * (inten e / hb))) g) with (map (fun e => - e * lap_kernel hb I E 0 lo hi e) g); [exact HD|].
    apply map_ext. intros e. unfold lap_kernel, window. fold (inten e).
    destruct (Rle_dec lo e); [destruct (Rle_dec e hi)|]; try ring.
    replace (- 0 * e) with 0 by ring. rewrite exp_0. field. lra.
Qed.
Print Assumptions C68_moments.

(** A measured energy below the probe energy is a positive shift (an energy loss),
    and the instrument function is looked up at the measured side. *)
Theorem C68_sign_convention : forall hb inst energy measured i, (i < length measured)%nat ->
  at_ (shift_of energy measured) i = energy - at_ measured i /\
  at_ (inst_of hb inst energy measured) i = inst ((at_ measured i - energy) / hb).
Proof.
  intros hb inst energy measured i Hi. unfold at_, shift_of, inst_of. split.
  - set (f := fun E : R => - (E - energy)). rewrite (nth_indep _ 0 (f 0)) by now rewrite map_length.
    rewrite map_nth. unfold f. ring.
  - set (f := fun E : R => inst (- - (E - energy) / hb)). rewrite (nth_indep _ 0 (f 0)) by now rewrite map_length.
    rewrite map_nth. unfold f. now rewrite Ropp_involutive.
Qed.
Print Assumptions C68_sign_convention.

(** Deconvolution: the result times the transform of the instrument function is the
    transform of the spectrum; there is no result where the former vanishes. *)
Theorem C68_deconvolution : forall hb small S E inst inst_E c tau,
  let LS := twoSidedLaplace hb small S tau E (- c) c in
  let Li := twoSidedLaplace hb small inst tau inst_E (- c) c in
  ITCF_F hb small S E inst inst_E c true tau = Some LS /\
  (forall f, ITCF_F hb small S E inst inst_E c false tau = Some f <-> Li <> 0 /\ f * Li = LS).
Proof.
  intros hb small S E inst inst_E c tau LS Li. split; [reflexivity|]. intros f. unfold ITCF_F. fold LS Li.
  destruct (Req_EM_T Li 0) as [h|h]; split.
  - discriminate.
  - intros [H _]. now elim H.
  - intros [= <-]. split; [assumption|now field].
  - intros [_ H]. f_equal. rewrite <- H. now field.
Qed.
Print Assumptions C68_deconvolution.

Definition exS (e : R) : R := exp (e / 2).
Lemma exS_balance e : exS (- e) = exp (- (1 / (1 * 1)) * e) * exS e.
Proof. unfold exS. rewrite <- exp_plus. f_equal. field. Qed.
Example C68_ex : T_of_tau 1 (1/2) = 1 /\ (forall tau, twoSidedLaplace 1 1 (map exS [2; -2; 0]) (1/2) [2; -2; 0] (-3) 3 <= twoSidedLaplace 1 1 (map exS [2; -2; 0]) tau [2; -2; 0] (-3) 3).
Proof.
  split; [unfold T_of_tau; field|]. intros tau.
  apply (C68_minimum_is_attained 1 1 exS 1 3 [2; -2; 0] tau); try lra.
  - intros e. rewrite exS_balance. f_equal. f_equal. field.
  - repeat constructor; cbn; intuition lra.
  - cbn. intros e [<-|[<-|[<-|[]]]]; [right; left; lra|left; lra|right; right; left; lra].
  - cbn. left. lra.
  - intros e _. left. apply exp_pos.
Qed.
