(** Theorems about the approximations of the Fermi integrals up to the step at 2. *)
From Coq Require Import Reals List Arith ZArith QArith Qreals Lra Lia Psatz.
From Coquelicot Require Import Coquelicot.
From Verif Require Import M_Const M_PlasmaState M_Math L_Poly L_Fermi L_FermiFit L_FermiFit2 L_FermiTables L_FermiMid P_FermiFit.
Import ListNotations.
Open Scope R_scope.

(** intervals of the fugacity, in quarters: from 1/2 to 15/2 *)
Definition pieces : list ivl := [Ivl 3 1; Ivl 6 2; Ivl 10 2; Ivl 14 2; Ivl 20 4; Ivl 27 3].
Lemma piece_of y : 1 / 2 <= y <= 15 / 2 -> exists i, In i pieces /\ IZR (mid i - rad i) <= 4 * y <= IZR (mid i + rad i).
Proof.
  intros Hy. destruct (Rle_dec y 1); [exists (Ivl 3 1); split; [unfold pieces; cbn; tauto|cbn; lra]|]. destruct (Rle_dec y 2); [exists (Ivl 6 2); split; [unfold pieces; cbn; tauto|cbn; lra]|].
  destruct (Rle_dec y 3); [exists (Ivl 10 2); split; [unfold pieces; cbn; tauto|cbn; lra]|]. destruct (Rle_dec y 4); [exists (Ivl 14 2); split; [unfold pieces; cbn; tauto|cbn; lra]|].
  destruct (Rle_dec y 6); [exists (Ivl 20 4); split; [unfold pieces; cbn; tauto|cbn; lra]|]. exists (Ivl 27 3); split; [unfold pieces; cbn; tauto|cbn; lra].
Qed.
Lemma check_m : mid_check qa_neg12 qb_neg12 0 32 1772453851 1000000000 (10 ^ 15) 8 10000000 pieces = true. Proof. vm_compute. reflexivity. Qed.
Lemma check_1 : mid_check qa_12 qb_12 1 32 1772453851 2000000000 (10 ^ 15) 8 10000000 pieces = true. Proof. vm_compute. reflexivity. Qed.
Lemma check_5 : mid_check qa_52 qb_52 3 32 26586807765 8000000000 (10 ^ 18) 8 10000000 pieces = true. Proof. vm_compute. reflexivity. Qed.
Lemma mid_close fit m n a b c d gn gd s P G x : (forall x, fit x = F_n x (rq a) (rq b) c d n) -> n = INR m - 1 / 2 -> mid_check a b m 32 gn gd s 8 10000000 pieces = true -> prim (INR m - 1 / 2) P G ->
  Rabs (G - IZR gn / IZR gd) <= 1 / 10 ^ 8 * G -> 0 < G -> 1 / 2 <= exp x -> x < 2 -> close fit n (1 / 1000000) x.
Proof.
  intros Hf -> HC HP HG G0 H1 H2. assert (exp x <= 15 / 2) as H3. { pose proof exp2_approx as [_ H]. pose proof (exp_increasing x 2 H2). unfold Q2R in H; cbn in H. lra. }
  destruct (piece_of (exp x) (conj H1 H3)) as (i & Hi & Hx). destruct (mid_sound a b m 32 gn gd s 8 10000000 pieces i x P G HC Hi Hx HP HG G0) as (F & HF & F0 & B0 & HB). unfold close, fermi_integral.
  assert (RInt_gen (fun t : R => Rpower t (INR m - 1 / 2) / (exp (t - x) + 1)) (at_right 0) (Rbar_locally p_infty) = F) as -> by (apply (is_RInt_gen_unique (V := R_CompleteNormedModule)); exact HF).
  rewrite (gamma_prim _ _ _ HP). split; [exists F; exact HF|]. exists (exp x * (pe (rq a) (exp x) / pe (rq b) (exp x)) / G). rewrite Hf. split; [|split; assumption].
  unfold F_n. destruct (Rlt_dec x 2) as [_|N2]; [|contradiction]. rewrite R1_pe, qdiv_some by lra. cbn [obind]. rewrite (gamma_prim _ _ _ HP), qdiv_some by lra. reflexivity.
Qed.

(** ** C122 *)
(** everywhere below the step at 2 the fits of orders -1/2, 1/2 and 5/2 have the integrals to six digits *)
Theorem C122_below_step : forall x, x < 2 ->
  close fermi_neg12_antia (-1 / 2) (1 / 1000000) x /\ close fermi_12_antia (1 / 2) (1 / 1000000) x /\ close fermi_52_antia (5 / 2) (1 / 1000000) x.
Proof.
  intros x Hx. destruct prims as (P0 & (P1' & P1) & _ & (P3' & P3)). pose proof sqrt_PI_approx as [S1 S2].
  destruct (Rle_dec (1 / 2) (exp x)) as [Hy|Hy].
  - split; [|split].
    + refine (mid_close fermi_neg12_antia 0 (-1 / 2) qa_neg12 qb_neg12 c_neg12 d_neg12 _ _ _ _ _ x (fun _ => eq_refl) ltac:(cbn [INR]; field) check_m P0 _ _ Hy Hx); [apply Rabs_le; cbn [pow]; lra|lra].
    + refine (mid_close fermi_12_antia 1 (1 / 2) qa_12 qb_12 c_12 d_12 _ _ _ _ _ x (fun _ => eq_refl) ltac:(cbn [INR]; field) check_1 P1 _ _ Hy Hx); [apply Rabs_le; cbn [pow]; lra|lra].
    + refine (mid_close fermi_52_antia 3 (5 / 2) qa_52 qb_52 c_52 d_52 _ _ _ _ _ x (fun _ => eq_refl) ltac:(cbn [INR]; field) check_5 P3 _ _ Hy Hx); [apply Rabs_le; cbn [pow]; lra|lra].
  - apply low_close3; [unfold Q2R; cbn; lra|exact Hx].
Qed.
Print Assumptions C122_below_step.
Example C122_below_step_ex : close fermi_12_antia (1 / 2) (1 / 1000000) (19 / 10).
Proof. exact (proj1 (proj2 (C122_below_step (19 / 10) ltac:(lra)))). Qed.

(** *** the order 3/2 with the last coefficient of the table b divided by ten thousand *)
Definition qb_32_fixed : list Q := removelast qb_32 ++ [(199507945223266 # 10000000000000000)].
Lemma check_3 : mid_check qa_32 qb_32_fixed 2 32 5317361553 4000000000 (10 ^ 18) 8 10000000 pieces = true. Proof. vm_compute. reflexivity. Qed.
(** the slip is in that coefficient alone: with it put right the fit has the integral to six digits *)
Theorem C122_order_32_repaired : forall x, x < 2 -> close (fun x => F_n x a_32 (removelast b_32 ++ [last b_32 0 / 10000]) c_32 d_32 (3 / 2)) (3 / 2) (1 / 1000000) x.
Proof.
  intros x Hx. destruct prims as (_ & _ & (P2' & P2) & _). pose proof sqrt_PI_approx as [S1 S2].
  assert (removelast b_32 ++ [last b_32 0 / 10000] = rq qb_32_fixed) as EB. { unfold qb_32_fixed, rq. rewrite map_app, eb_32. unfold qb_32, rq. cbn [removelast map app last]. do 7 f_equal. f_equal. unfold Q2R. cbn [Qnum Qden]. field. }
  rewrite EB. destruct (Rle_dec (1 / 2) (exp x)) as [Hy|Hy].
  - refine (mid_close _ 2 (3 / 2) qa_32 qb_32_fixed c_32 d_32 _ _ _ _ _ x (fun _ => eq_refl) ltac:(cbn [INR]; field) check_3 P2 _ _ Hy Hx); [apply Rabs_le; cbn [pow]; lra|lra].
  - replace (1 / 1000000) with (Q2R (1 # 1000000)) by (unfold Q2R; cbn; field).
    apply (close_of _ (3 / 2) 2 qa_32 qb_32_fixed c_32 d_32 24 (3 * 1772453851 # 4000000000) (4 # 1000000000) (1 # 2) _ x _ _ (fun _ => eq_refl) ltac:(cbn [INR]; field)) with (2 := P2); [vm_compute; reflexivity| |unfold Q2R; cbn; lra|lra]. unfold Q2R; cbn -[sqrt PI]. apply Rabs_le. lra.
Qed.
Print Assumptions C122_order_32_repaired.
