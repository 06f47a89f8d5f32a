(** Lemmas on the two forms of the damped random phase approximation: an
    integration by parts over the half line, and exact quadratures. *)
From Coq Require Import Reals List Lra Lia Psatz.
From Coquelicot Require Import Coquelicot.
From Verif Require Import M_Const M_PlasmaState M_PlasmaPhysics L_PlasmaPhysics M_Interp M_FreeFree L_FreeFree L_LFC.
Import ListNotations.
Open Scope R_scope.

(** exact quadratures; improper integrals are limits *)
Definition oquad_exact (quad : R -> option R -> (R -> option R) -> option R) : Prop :=
  (forall (a b : R) (f : R -> option R) (g : R -> R) (I : R), a < b -> (forall x, a <= x <= b -> f x = Some (g x)) -> is_RInt g a b I -> quad a (Some b) f = Some I) /\
  (forall (a : R) (f : R -> option R) (g : R -> R) (I : R), (forall x, a <= x -> f x = Some (g x)) -> (forall X, a <= X -> ex_RInt g a X) ->
    is_lim (fun X => RInt g a X) p_infty (Finite I) -> quad a None f = Some I).
Definition val (x : option R) : R := match x with Some y => y | None => 0 end.
Definition the_quad (a : R) (b : option R) (f : R -> option R) : option R :=
  match b with
  | Some b => Some (RInt (fun x => val (f x)) a b)
  | None => Some (real (Lim (fun X => RInt (fun x => val (f x)) a X) p_infty))
  end.
Lemma the_quad_exact : oquad_exact the_quad.
Proof.
  split.
  - intros a b f g I Hab H HI. unfold the_quad. f_equal. apply is_RInt_unique. apply (is_RInt_ext g); [|exact HI]. rewrite Rmin_left, Rmax_right by lra. intros x Hx. rewrite H by lra. reflexivity.
  - intros a f g I H Hex HI. unfold the_quad. f_equal. assert (is_lim (fun X => RInt (fun x => val (f x)) a X) p_infty I) as HL.
    { apply (is_lim_ext_loc (fun X => RInt g a X)); [|exact HI]. exists a. intros X HX. apply RInt_ext. rewrite Rmin_left, Rmax_right by lra. intros x Hx. rewrite H by lra. reflexivity. }
    rewrite (is_lim_unique _ _ _ HL). reflexivity.
Qed.

Lemma Int_ex (f : R -> R) a b : (forall x, continuous f x) -> ex_RInt f a b.
Proof. intros H. apply (ex_RInt_continuous (V := R_CompleteNormedModule)). intros; apply H. Qed.
Lemma Int_derive (f : R -> R) a x : (forall x, continuous f x) -> is_derive (fun x => RInt f a x) x (f x).
Proof.
  intros H. apply (is_derive_RInt (V := R_NormedModule) f (fun x => RInt f a x) a x); [|apply H].
  exists (mkposreal 1 Rlt_0_1). intros y _. apply (RInt_correct (V := R_CompleteNormedModule)). now apply Int_ex.
Qed.
Lemma deq (f : R -> R) (x a b : R) : a = b -> is_derive f x a -> is_derive f x b.
Proof. now intros ->. Qed.
Lemma const_derive (f : R -> R) : (forall x, is_derive f x 0) -> forall x y, f x = f y.
Proof.
  intros H. assert (forall x y, x < y -> f x = f y) as L by (intros x y L; apply (eq_is_derive f); [intros t _; apply H|exact L]).
  intros x y. destruct (Rtotal_order x y) as [A|[->|A]]; [now apply L|reflexivity|symmetry; now apply L].
Qed.

(** dominated by a Lorentzian *)
Lemma dominated_lim (f : R -> R) M c : (forall x, continuous f x) -> (forall x, 0 <= x -> Rabs (f x) <= M / (1 + (x - c) ^ 2)) ->
  exists l : R, is_lim (fun X => RInt f 0 X) p_infty l.
Proof.
  intros Hf HM. set (g := fun x => M / (1 + (x - c) ^ 2)). pose proof PI_RGT_0.
  assert (forall x, 0 < 1 + (x - c) ^ 2) as Hd by (intros x; pose proof (pow2_ge_0 (x - c)); lra).
  assert (0 <= M) as HM0. { specialize (HM 0 (Rle_refl 0)). pose proof (Rabs_pos (f 0)). pose proof (Hd 0). apply Rnot_lt_le. intros L. assert (M / (1 + (0 - c) ^ 2) < 0); [|lra]. unfold Rdiv. apply Ropp_lt_cancel. rewrite Ropp_0, <- Ropp_mult_distr_l_reverse. apply Rmult_lt_0_compat; [lra|apply Rinv_0_lt_compat; lra]. }
  assert (forall x, is_derive (fun x => M * atan (x - c)) x (g x)) as Dg by (intros x; unfold g; auto_derive; [exact I|]; pose proof (Hd x) as D; cbn in D; unfold Rsqr; field; nra).
  assert (forall x, continuous g x) as Cg. { intros x. apply (ex_derive_continuous (V := R_NormedModule)). unfold g. auto_derive. pose proof (Hd x) as D; cbn in D; nra. }
  assert (forall X, RInt g 0 X = M * atan (X - c) - M * atan (0 - c)) as Ig. { intros X. apply is_RInt_unique. refine (is_RInt_derive (V := R_CompleteNormedModule) (fun x => M * atan (x - c)) g 0 X _ _); intros x _; [exact (Dg x)|exact (Cg x)]. }
  assert (forall X, 0 <= X -> RInt g 0 X <= M * PI) as Bg. { intros X HX. rewrite Ig. pose proof (atan_bound (X - c)). pose proof (atan_bound (0 - c)). nra. }
  assert (forall a b, 0 <= a <= b -> forall h, (forall x, continuous h x) -> (forall x, a <= x -> 0 <= h x) -> RInt h 0 a <= RInt h 0 b) as Hmono.
  { intros a b Hab h Ch Hh. pose proof (RInt_Chasles (V := R_CompleteNormedModule) h 0 a b (Int_ex _ _ _ Ch) (Int_ex _ _ _ Ch)) as E. change (RInt h 0 a + RInt h a b = RInt h 0 b) in E.
    assert (0 <= RInt h a b) by (apply RInt_ge_0; [lra|now apply Int_ex|intros x Hx; apply Hh; lra]). lra. }
  assert (forall x, 0 <= x -> 0 <= g x) as Pg by (intros x Hx; unfold g; apply Rdiv_le_0_compat; [exact HM0|apply Hd]).
  destruct (monotone_lim (fun X => RInt g 0 X) (M * PI)) as [lg Lg]; [|exact Bg|].
  { intros a b Hab. apply Hmono; [exact Hab|exact Cg|intros x Hx; apply Pg; lra]. }
  assert (forall x, continuous (fun x => f x + g x) x) as Cs by (intros x; apply (continuous_plus (V := R_NormedModule)); [apply Hf|apply Cg]).
  assert (forall X, RInt (fun x => f x + g x) 0 X = RInt f 0 X + RInt g 0 X) as Is. { intros X. apply (RInt_plus (V := R_CompleteNormedModule) f g); now apply Int_ex. }
  destruct (monotone_lim (fun X => RInt (fun x => f x + g x) 0 X) (2 * (M * PI))) as [ls Ls].
  { intros a b Hab. apply Hmono; [exact Hab|exact Cs|]. intros x Hx. specialize (HM x ltac:(lra)). apply Rabs_def2b in HM || idtac. pose proof (Rle_abs (- f x)) as R1. rewrite Rabs_Ropp in R1. unfold g. lra. }
  { intros X HX. rewrite Is. assert (RInt f 0 X <= RInt g 0 X). { apply RInt_le; [exact HX|now apply Int_ex|now apply Int_ex|]. intros x Hx. specialize (HM x ltac:(lra)). pose proof (Rle_abs (f x)). unfold g. lra. } specialize (Bg X HX). lra. }
  exists (ls - lg). apply (is_lim_ext (fun X => RInt (fun x => f x + g x) 0 X - RInt g 0 X)); [intros X; rewrite Is; ring|].
  apply (is_lim_minus' _ _ _ ls lg); assumption.
Qed.

Section Parts.
  Variables eta c B : R.
  Variables P L : R -> R.
  Definition lnF (w : R) : R := ln (1 + exp (eta - w ^ 2)).
  Definition FD (x : R) : R := 1 / (1 + exp (x ^ 2 - eta)).
  Lemma lnF_derive x : is_derive lnF x (- 2 * x * FD x).
  Proof.
    unfold lnF, FD. pose proof (exp_pos (eta - x ^ 2)) as E. pose proof (exp_pos (x ^ 2 - eta)) as E2. auto_derive; [replace (x * (x * 1)) with (x ^ 2) by (cbn; ring); unfold Rminus in E; lra|].
    replace (x * (x * 1)) with (x ^ 2) by (cbn; ring). assert (exp (x ^ 2 - eta) = / exp (eta - x ^ 2)) as -> by (rewrite <- exp_Ropp; f_equal; ring). unfold Rminus in E |- *. field. split; lra.
  Qed.
  Lemma lnF_pos x : 0 <= lnF x <= exp eta / (1 + x ^ 2).
  Proof.
    unfold lnF. pose proof (exp_pos (eta - x ^ 2)) as E. pose proof (pow2_ge_0 x). split.
    - rewrite <- ln_1. apply Rcomplements.ln_le; lra.
    - apply Rle_trans with (exp (eta - x ^ 2)).
      + pose proof (exp_ineq1_le (exp (eta - x ^ 2))) as Q. rewrite <- (ln_exp (exp (eta - x ^ 2))) at 2. apply Rcomplements.ln_le; lra.
      + unfold Rminus. rewrite exp_plus, exp_Ropp. unfold Rdiv. apply Rmult_le_compat_l; [left; apply exp_pos|]. apply Rinv_le_contravar; [lra|]. apply exp_ineq1_le.
  Qed.
  Lemma lnF_even x : lnF (- x) = lnF x.
  Proof. unfold lnF. do 4 f_equal. ring. Qed.
  Lemma lnF_cont x : continuous lnF x.
  Proof. apply (ex_derive_continuous (V := R_NormedModule)). eexists. apply lnF_derive. Qed.

  Hypothesis HB : 0 <= B.
  Hypothesis Hc : 0 <= c.
  Hypothesis P_odd : forall x, P (- x) = - P x.
  Hypothesis P_cont : forall x, continuous P x.
  Hypothesis P_bound : forall x, Rabs (P x) <= B.
  Hypothesis L_derive : forall x, is_derive L x (2 * (P (x + c) - P (x - c))).
  Hypothesis L_0 : L 0 = 0.

  Let H y := lnF (y + c) - lnF (y - c).
  Let A1 x := lnF x * P (x - c).
  Let A2 x := lnF x * P (x + c).
  Let f1 x := x * FD x * L x.
  Let f2 x := H x * P x.
  Let comp_cont (f : R -> R) a x : (forall x, continuous f x) -> continuous (fun x => f (x + a)) x.
  Proof. intros Hf. apply (continuous_comp (fun x => x + a) f); [|apply Hf]. apply (ex_derive_continuous (V := R_NormedModule)). auto_derive. exact I. Qed.
  Let A1_cont x : continuous A1 x.
  Proof. apply (continuous_mult (K := R_AbsRing)); [apply lnF_cont|]. apply (comp_cont P (- c)). exact P_cont. Qed.
  Let A2_cont x : continuous A2 x.
  Proof. apply (continuous_mult (K := R_AbsRing)); [apply lnF_cont|]. apply (comp_cont P c). exact P_cont. Qed.
  Lemma f1_cont x : continuous f1 x.
  Proof.
    apply (continuous_mult (K := R_AbsRing)).
    - apply (ex_derive_continuous (V := R_NormedModule)). unfold FD. pose proof (exp_pos (x ^ 2 - eta)) as E. auto_derive. replace (x * (x * 1)) with (x ^ 2) by (cbn; ring). unfold Rminus in E. lra.
    - apply (ex_derive_continuous (V := R_NormedModule)). eexists. apply L_derive.
  Qed.
  Lemma f2_cont x : continuous f2 x.
  Proof. apply (continuous_mult (K := R_AbsRing)); [|apply P_cont]. apply (continuous_minus (V := R_NormedModule)); [apply (comp_cont lnF c)|apply (comp_cont lnF (- c))]; exact lnF_cont. Qed.

  Lemma shift_derive (f : R -> R) a x : (forall x, continuous f x) -> is_derive (fun x => RInt f 0 (x + a)) x (f (x + a)).
  Proof.
    intros Hf. replace (f (x + a)) with (1 * f (x + a)) by ring. apply (is_derive_comp (K := R_AbsRing) (V := R_NormedModule) (fun y => RInt f 0 y) (fun x => x + a)); [now apply Int_derive|]. auto_derive; [exact I|ring].
  Qed.
  Lemma ends : RInt A2 0 (- c) = RInt A1 0 c.
  Proof.
    assert (forall s : R, is_derive (fun s => RInt A2 0 (- s) - RInt A1 0 s) s 0) as D.
    { intros s. refine (deq _ s (- 1 * A2 (- s) - A1 s) 0 _ _). { unfold A1, A2. rewrite lnF_even. replace (- s + c) with (- (s - c)) by ring. rewrite P_odd. ring. }
      apply (is_derive_minus (V := R_NormedModule)); [|apply Int_derive; exact A1_cont].
      apply (is_derive_comp (K := R_AbsRing) (V := R_NormedModule) (fun y => RInt A2 0 y) Ropp); [apply Int_derive; exact A2_cont|]. auto_derive; [exact I|ring]. }
    pose proof (const_derive _ D c 0) as E. cbn beta in E. rewrite Ropp_0, !RInt_point in E. change (RInt A2 0 (- c) - RInt A1 0 c = 0 - 0) in E. lra.
  Qed.
  Lemma by_parts X : RInt f1 0 X + RInt f2 0 X = - (1 / 2) * lnF X * L X + (RInt A2 0 X - RInt A2 0 (X + - c)) + (RInt A1 0 (X + c) - RInt A1 0 X).
  Proof.
    assert (forall s : R, is_derive (fun s => RInt f1 0 s + RInt f2 0 s - (- (1 / 2) * lnF s * L s + (RInt A2 0 s - RInt A2 0 (s + - c)) + (RInt A1 0 (s + c) - RInt A1 0 s))) s 0) as D.
    { intros s. refine (deq _ s (f1 s + f2 s - (- (1 / 2) * ((- 2 * s * FD s) * L s + lnF s * (2 * (P (s + c) - P (s - c)))) + (A2 s - A2 (s + - c)) + (A1 (s + c) - A1 s))) 0 _ _).
      { unfold f1, f2, A1, A2, H. replace (s + - c) with (s - c) by ring. replace (s - c + c) with s by ring. replace (s + c - c) with s by ring. field. }
      apply (is_derive_minus (V := R_NormedModule)).
      - apply (is_derive_plus (V := R_NormedModule)); apply Int_derive; [exact f1_cont|exact f2_cont].
      - apply (is_derive_plus (V := R_NormedModule)); [apply (is_derive_plus (V := R_NormedModule))|].
        + apply (is_derive_ext (fun s => - (1 / 2) * (lnF s * L s))); [intros t; change (- (1 / 2) * (lnF t * L t) = - (1 / 2) * lnF t * L t); ring|]. apply is_derive_scal. apply (is_derive_mult lnF L s); [apply lnF_derive|apply L_derive|intros; apply Rmult_comm].
        + apply (is_derive_minus (V := R_NormedModule)); [apply Int_derive; exact A2_cont|apply shift_derive; exact A2_cont].
        + apply (is_derive_minus (V := R_NormedModule)); [apply shift_derive; exact A1_cont|apply Int_derive; exact A1_cont]. }
    pose proof (const_derive _ D X 0) as E. cbn beta in E. rewrite !RInt_point, L_0 in E. rewrite !Rplus_0_l, ends in E. 
    change (RInt f1 0 X + RInt f2 0 X - (- (1 / 2) * lnF X * L X + (RInt A2 0 X - RInt A2 0 (X + - c)) + (RInt A1 0 (X + c) - RInt A1 0 X)) =
      0 - (- (1 / 2) * lnF 0 * 0 + (0 - RInt A1 0 c) + (RInt A1 0 c - 0))) in E.
    apply Rminus_diag_uniq. rewrite E. ring.
  Qed.
  Lemma L_bound x : 0 <= x -> Rabs (L x) <= 4 * B * x.
  Proof.
    intros Hx. destruct (Rle_lt_or_eq_dec 0 x Hx) as [Hx'|<-]; [|rewrite L_0, Rabs_R0; lra].
    destruct (MVT_gen L 0 x (fun x => 2 * (P (x + c) - P (x - c)))) as (z & _ & E).
    - intros t _. apply L_derive.
    - intros t _. apply continuity_pt_filterlim. apply (ex_derive_continuous (V := R_NormedModule)). eexists. apply L_derive.
    - rewrite L_0, !Rminus_0_r in E. rewrite E, Rabs_mult, (Rabs_pos_eq x) by lra. apply Rmult_le_compat_r; [lra|]. rewrite Rabs_mult, (Rabs_pos_eq 2) by lra.
      pose proof (P_bound (z + c)) as B1. pose proof (P_bound (z - c)) as B2. pose proof (Rabs_triang (P (z + c)) (- P (z - c))) as T. rewrite Rabs_Ropp in T. unfold Rminus at 1. lra.
  Qed.
  Lemma piece (f : R -> R) a b K : a <= b -> (forall x, continuous f x) -> (forall x, a <= x <= b -> Rabs (f x) <= K) -> Rabs (RInt f 0 b - RInt f 0 a) <= (b - a) * K.
  Proof.
    intros Hab Cf Hf. pose proof (RInt_Chasles (V := R_CompleteNormedModule) f 0 a b (Int_ex _ _ _ Cf) (Int_ex _ _ _ Cf)) as E. change (RInt f 0 a + RInt f a b = RInt f 0 b) in E.
    replace (RInt f 0 b - RInt f 0 a) with (RInt f a b) by lra. apply abs_RInt_le_const; [exact Hab|now apply Int_ex|exact Hf].
  Qed.
  Lemma remainder X : c < X -> Rabs (RInt f1 0 X + RInt f2 0 X) <= (2 * B + 2 * (c * B)) * exp eta / (X - c).
  Proof.
    intros HX. rewrite by_parts. pose proof (exp_pos eta) as He.
    assert (forall x, X - c <= x -> lnF x <= exp eta / (X - c)) as G1.
    { intros x Hx. destruct (lnF_pos x) as [_ U]. eapply Rle_trans; [exact U|]. unfold Rdiv. apply Rmult_le_compat_l; [lra|]. apply Rinv_le_contravar; [lra|]. nra. }
    assert (X * lnF X <= exp eta / (X - c)) as G2.
    { destruct (lnF_pos X) as [_ U]. apply Rle_trans with (X * (exp eta / (1 + X ^ 2))); [apply Rmult_le_compat_l; lra|].
      replace (X * (exp eta / (1 + X ^ 2))) with (exp eta * (X / (1 + X ^ 2))) by (field; nra). unfold Rdiv at 2. apply Rmult_le_compat_l; [lra|]. apply div_le; [nra|]. rewrite Rmult_comm. change (X <= (1 + X ^ 2) / (X - c)). apply le_div; nra. }
    assert (Rabs (- (1 / 2) * lnF X * L X) <= 2 * B * (exp eta / (X - c))) as T1.
    { rewrite !Rabs_mult. pose proof (L_bound X ltac:(lra)) as LB. destruct (lnF_pos X) as [Q _]. rewrite (Rabs_pos_eq (lnF X)) by exact Q. replace (Rabs (- (1 / 2))) with (1 / 2) by (rewrite Rabs_left; lra).
      apply Rle_trans with (1 / 2 * lnF X * (4 * B * X)); [apply Rmult_le_compat_l; [lra|exact LB]|]. replace (1 / 2 * lnF X * (4 * B * X)) with (2 * B * (X * lnF X)) by field. apply Rmult_le_compat_l; lra. }
    set (E := exp eta / (X - c)) in *. assert (0 < E) by (unfold E; apply Rdiv_lt_0_compat; lra).
    assert (Rabs (RInt A2 0 X - RInt A2 0 (X + - c)) <= (X - (X + - c)) * (E * B)) as T2.
    { apply piece; [lra|exact A2_cont|]. intros x Hx. unfold A2. rewrite Rabs_mult. destruct (lnF_pos x) as [Q _]. rewrite (Rabs_pos_eq (lnF x)) by exact Q. apply Rmult_le_compat; [exact Q|apply Rabs_pos|apply G1; lra|apply P_bound]. }
    assert (Rabs (RInt A1 0 (X + c) - RInt A1 0 X) <= (X + c - X) * (E * B)) as T3.
    { apply piece; [lra|exact A1_cont|]. intros x Hx. unfold A1. rewrite Rabs_mult. destruct (lnF_pos x) as [Q _]. rewrite (Rabs_pos_eq (lnF x)) by exact Q. apply Rmult_le_compat; [exact Q|apply Rabs_pos|apply G1; lra|apply P_bound]. }
    eapply Rle_trans; [apply Rabs_triang|]. eapply Rle_trans; [apply Rplus_le_compat_r, Rabs_triang|]. replace ((2 * B + 2 * (c * B)) * exp eta / (X - c)) with (2 * B * E + c * (E * B) + c * (E * B)) by (unfold E; field; lra). lra.
  Qed.
  (** the two integrals are opposite *)
  Theorem opposite : exists K : R, is_lim (fun X => RInt f2 0 X) p_infty K /\ is_lim (fun X => RInt f1 0 X) p_infty (- K).
  Proof.
    destruct (dominated_lim f2 (2 * B * exp eta) c) as [K HK].
    - exact f2_cont.
    - intros x Hx. unfold f2, H. rewrite Rabs_mult. pose proof (exp_pos eta). assert (0 < 1 + (x - c) ^ 2) by (pose proof (pow2_ge_0 (x - c)); lra).
      replace (2 * B * exp eta / (1 + (x - c) ^ 2)) with (2 * (exp eta / (1 + (x - c) ^ 2)) * B) by (field; lra). apply Rmult_le_compat; [apply Rabs_pos|apply Rabs_pos| |apply P_bound].
      destruct (lnF_pos (x + c)) as [Q1 U1]. destruct (lnF_pos (x - c)) as [Q2 U2]. assert (exp eta / (1 + (x + c) ^ 2) <= exp eta / (1 + (x - c) ^ 2)). { unfold Rdiv. apply Rmult_le_compat_l; [lra|]. apply Rinv_le_contravar; [lra|]. nra. }
      apply Rabs_le. lra.
    - exists K. split; [exact HK|]. apply (is_lim_ext (fun X => (RInt f1 0 X + RInt f2 0 X) - RInt f2 0 X)); [intros X; ring|]. replace (- K) with (0 - K) by ring.
      apply (is_lim_minus' _ _ _ 0 K); [|exact HK]. apply is_lim_spec. intros eps. cbn. set (M := (2 * B + 2 * (c * B)) * exp eta). assert (0 <= M). { unfold M. assert (0 <= c * B) by (apply Rmult_le_pos; assumption). apply Rmult_le_pos; [lra|left; apply exp_pos]. }
      pose proof (cond_pos eps). exists (c + M / eps + 1). assert (0 <= M / eps) by (apply Rdiv_le_0_compat; lra). intros X HX. rewrite Rminus_0_r. eapply Rle_lt_trans; [apply remainder; lra|]. fold M.
      apply (proj1 (Rlt_div_l M (X - c) eps ltac:(lra))) || apply Rlt_div_l; [lra|]. assert (M = M / eps * eps) as E by (field; lra). rewrite E at 1. rewrite Rmult_comm. apply Rmult_lt_compat_l; lra.
  Qed.
End Parts.
