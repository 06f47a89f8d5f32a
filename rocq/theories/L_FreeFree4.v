From Coq Require Import Reals List Arith Lra Lia Psatz FunctionalExtensionality.
From Coquelicot Require Import Complex.
From Verif Require Import M_Const M_PlasmaState M_PlasmaPhysics L_PlasmaPhysics M_Interp L_Interp M_Instrument L_Instrument M_FreeFree L_FreeFree L_FreeFree2 L_FreeFree3.
Import ListNotations.
Open Scope R_scope.

Lemma Cmult_neq0 a b : a <> RtoC 0 -> b <> RtoC 0 -> Cmult a b <> RtoC 0.
Proof. apply Cmult_neq_0. Qed.
Lemma Cmult_0 a b : Cmult a b = RtoC 0 -> a = RtoC 0 \/ b = RtoC 0.
Proof.
  intros H. destruct (Ceq_dec a 0); [now left|]. destruct (Ceq_dec b 0); [now right|]. exfalso. now apply (Cmult_neq_0 a b).
Qed.
Lemma Ci_neq0 : Ci <> RtoC 0.
Proof. intros H. apply (f_equal snd) in H. cbn in H. lra. Qed.
Lemma RtoC_neq0 x : x <> 0 -> RtoC x <> RtoC 0.
Proof. intros H E. apply H. now apply RtoC_inj. Qed.
Lemma C1_neq0 : RtoC 1 <> RtoC 0.
Proof. apply RtoC_neq0. lra. Qed.
Lemma Ci2 : Cmult Ci Ci = Copp (RtoC 1).
Proof. cz; ring. Qed.
Lemma Cmult_reg_l a b c : a <> RtoC 0 -> Cmult a b = Cmult a c -> b = c.
Proof.
  intros H E. replace b with (Cmult (Cinv a) (Cmult a b)) by (field; assumption). rewrite E. field. assumption.
Qed.

(** *** Mermin's step *)
Lemma mermin_interp_fit w n e p : mermin_interp w n e p = mermin_fit w n e p.
Proof.
  unfold mermin_interp, mermin_fit. set (q := Cminus e 1).
  replace (Cplus (Cmult (Cmult w p) q) (Cmult (Cmult (Cmult Ci n) p) q)) with (Cmult (Cmult (Cplus w (Cmult Ci n)) p) q) by ring. reflexivity.
Qed.
Lemma mermin_full_fit w n e p : w <> 0 -> p <> RtoC 0 -> mermin_full w n e p = mermin_fit w n e p.
Proof.
  intros Hw Hp. apply RtoC_neq0 in Hw. unfold mermin_full, mermin_fit. rewrite !(cdiv_some _ _ Hw), !(cdiv_some _ _ Hp). cbn [obind].
  set (q := Cminus e 1). set (W := RtoC w) in *. clearbody W q.
  assert (D : Cplus 1 (Cmult (Cmult Ci (Cdiv n W)) (Cdiv q p)) = Cdiv (Cplus (Cmult p W) (Cmult (Cmult Ci n) q)) (Cmult W p)) by (field; auto).
  rewrite D. set (d := Cplus (Cmult p W) (Cmult (Cmult Ci n) q)) in *.
  destruct (Ceq_dec d 0) as [Z|Z].
  - rewrite Z. replace (Cdiv 0 (Cmult W p)) with (RtoC 0) by (field; auto). now rewrite !cdiv_0.
  - assert (Cdiv d (Cmult W p) <> 0).
    { unfold Cdiv. apply Cmult_neq_0; [assumption|]. intros E. apply C1_neq0. replace (RtoC 1) with (Cmult (Cmult W p) (Cinv (Cmult W p))) by (field; auto). rewrite E. ring. }
    rewrite !cdiv_some by assumption. cbn [obind]. f_equal. clearbody d. field. auto.
Qed.
Lemma mermin_fit_conj w n e p : Cconj p = p -> mermin_fit (- w) (Cconj n) (Cconj e) p = oconj (mermin_fit w n e p).
Proof.
  intros Hp. unfold mermin_fit. rewrite <- Hp at 1 2.
  replace (Cmult (Cmult (Cplus (RtoC (- w)) (Cmult Ci (Cconj n))) (Cconj p)) (Cminus (Cconj e) 1))
    with (Copp (Cconj (Cmult (Cmult (Cplus (RtoC w) (Cmult Ci n)) p) (Cminus e 1)))) by (cz; ring).
  replace (Cplus (Cmult (Cconj p) (RtoC (- w))) (Cmult (Cmult Ci (Cconj n)) (Cminus (Cconj e) 1)))
    with (Copp (Cconj (Cplus (Cmult p (RtoC w)) (Cmult (Cmult Ci n) (Cminus e 1))))) by (cz; ring).
  rewrite cdiv_opp, cdiv_conj. match goal with |- obind (oconj ?x) _ = _ => destruct x as [m|] end; cbn [obind oconj option_map]; [|reflexivity]. f_equal. now autorewrite with conj.
Qed.
Lemma mermin_full_conj w n e p : Cconj p = p -> mermin_full (- w) (Cconj n) (Cconj e) p = oconj (mermin_full w n e p).
Proof.
  intros Hp. unfold mermin_full.
  replace (RtoC (- w)) with (Copp (Cconj (RtoC w))) by (cz; ring).
  replace (Cconj n) with (Copp (Cconj (Copp n))) by (cz; ring). rewrite cdiv_opp, cdiv_conj.
  assert (HO : cdiv (Copp n) w = option_map Copp (cdiv n w)).
  { unfold cdiv. destruct (Ceq_dec w 0); cbn; [reflexivity|]. f_equal. unfold Cdiv. ring. }
  rewrite HO. destruct (cdiv n w) as [q|]; cbn [obind oconj option_map]; [|reflexivity].
  rewrite <- Hp at 1. replace (Cminus (Cconj e) 1) with (Cconj (Cminus e 1)) by (now autorewrite with conj). rewrite cdiv_conj.
  destruct (cdiv (Cminus e 1) p) as [r|]; cbn [obind oconj option_map]; [|reflexivity].
  replace (Cmult (Cplus 1 (Cmult Ci (Cconj (Copp q)))) (Cconj (Cminus e 1))) with (Cconj (Cmult (Cplus 1 (Cmult Ci q)) (Cminus e 1))) by (cz; ring).
  replace (Cplus 1 (Cmult (Cmult Ci (Cconj (Copp q))) (Cconj r))) with (Cconj (Cplus 1 (Cmult (Cmult Ci q) r))) by (cz; ring).
  rewrite cdiv_conj. match goal with |- obind (oconj ?x) _ = _ => destruct x as [m|] end; cbn [obind oconj option_map]; [|reflexivity]. f_equal. now autorewrite with conj.
Qed.
Lemma mermin_Fortmann_conj w n a b : Cconj b = b -> mermin_Fortmann (- w) (Cconj n) (Cconj a) b = oconj (mermin_Fortmann w n a b).
Proof.
  intros Hb. unfold mermin_Fortmann. replace (Cmult Ci (RtoC (- w))) with (Cconj (Cmult Ci (RtoC w))) by (cz; ring). rewrite cdiv_conj.
  destruct (cdiv (Cmult Ci w) n) as [r|]; cbn [obind oconj option_map]; [|reflexivity]. rewrite <- Hb at 1 2.
  replace (Cmult (Cminus 1 (Cconj r)) (Cmult (Cconj a) (Cconj b))) with (Cconj (Cmult (Cminus 1 r) (Cmult a b))) by (now autorewrite with conj).
  replace (Cminus (Cconj a) (Cmult (Cconj r) (Cconj b))) with (Cconj (Cminus a (Cmult r b))) by (now autorewrite with conj).
  apply cdiv_conj.
Qed.
(** The local field correction before or after Mermin's step. *)
Lemma Fortmann_after v (lfc n xd xs : C) (w : R) : v <> 0 -> n <> RtoC 0 ->
  let c := Cmult (RtoC v) (Cminus 1 lfc) in
  Cminus 1 (Cmult c xd) <> RtoC 0 -> Cminus 1 (Cmult c xs) <> RtoC 0 ->
  Cplus (Cmult xs (RtoC w)) (Cmult (Cmult Ci n) xd) <> RtoC 0 ->
  obind (mermin_fit w n (Cminus 1 (Cmult v xd)) (Copp (Cmult v xs))) (fun e => xi_lfc (Cdiv (Cminus 1 e) v) v lfc) =
  obind (xi_lfc xd v lfc) (fun a => obind (xi_lfc xs v lfc) (fun b => mermin_Fortmann w n a b)).
Proof.
  intros Hv Hn c Hd Hs HD. apply RtoC_neq0 in Hv. set (Vc := RtoC v) in *. set (W := RtoC w) in *.
  unfold xi_lfc at 2 3. fold Vc c. rewrite !cdiv_some by assumption. cbn [obind].
  unfold mermin_fit, mermin_Fortmann. fold W. rewrite (cdiv_some (Cmult Ci W) n Hn). cbn [obind].
  set (D := Cplus (Cmult xs W) (Cmult (Cmult Ci n) xd)) in *. set (N := Cmult (Cmult (Cplus W (Cmult Ci n)) xd) xs).
  assert (Hden : Cplus (Cmult (Copp (Cmult Vc xs)) W) (Cmult (Cmult Ci n) (Cminus (Cminus 1 (Cmult Vc xd)) 1)) = Copp (Cmult Vc D)) by (unfold D; ring).
  rewrite Hden. assert (HVD : Copp (Cmult Vc D) <> 0).
  { intros E. apply (Cmult_neq_0 Vc D); [assumption|assumption|]. replace (Cmult Vc D) with (Copp (Copp (Cmult Vc D))) by ring. rewrite E. ring. }
  rewrite cdiv_some by assumption. cbn [obind]. unfold xi_lfc. fold Vc c.
  set (X := Cdiv (Cminus 1 (Cplus 1 _)) Vc).
  assert (HX : X = Cdiv N D).
  { unfold X, N. unfold D in HD |- *. clearbody Vc W. field. split; [assumption|]. split; [|assumption]. unfold D in HVD. intros E. apply HVD. rewrite <- E. ring. }
  rewrite HX. clear X HX.
  (* both denominators are multiples of  w xs (1 - c xd) + i n xd (1 - c xs) *)
  set (Q := Cplus (Cmult (Cmult W xs) (Cminus 1 (Cmult c xd))) (Cmult (Cmult (Cmult Ci n) xd) (Cminus 1 (Cmult c xs)))).
  assert (H1 : Cminus 1 (Cmult c (Cdiv N D)) = Cdiv Q D) by (unfold Q, N; unfold D in HD |- *; clearbody c Vc W; field; assumption).
  assert (H2 : Cminus (Cdiv xd (Cminus 1 (Cmult c xd))) (Cmult (Cdiv (Cmult Ci W) n) (Cdiv xs (Cminus 1 (Cmult c xs))))
               = Cdiv Q (Cmult (Cmult (Cmult Ci n) (Cminus 1 (Cmult c xd))) (Cminus 1 (Cmult c xs)))).
  { pose proof Ci_neq0 as HC. unfold Q. clearbody c Vc W.
    apply (Cmult_reg_l (Cmult (Cmult (Cmult Ci n) (Cminus 1 (Cmult c xd))) (Cminus 1 (Cmult c xs)))).
    1: repeat apply Cmult_neq_0; assumption.
    transitivity (Cminus (Cmult (Cmult (Cmult Ci n) xd) (Cminus 1 (Cmult c xs))) (Cmult (Cmult (Cmult (Cmult Ci Ci) W) xs) (Cminus 1 (Cmult c xd)))).
    - field. auto.
    - rewrite Ci2. field. auto. }
  rewrite H1, H2. clear H1 H2.
  assert (HdivQ : forall B, B <> RtoC 0 -> (Cdiv Q B = RtoC 0 <-> Q = RtoC 0)).
  { intros B HB. split; intros E; [|rewrite E; field; assumption]. replace Q with (Cmult (Cdiv Q B) B) by (field; assumption). rewrite E. ring. }
  assert (HB : Cmult (Cmult (Cmult Ci n) (Cminus 1 (Cmult c xd))) (Cminus 1 (Cmult c xs)) <> 0) by (pose proof Ci_neq0; repeat apply Cmult_neq_0; assumption).
  destruct (Ceq_dec Q 0) as [Z|Z].
  - rewrite Z. assert (D0 : forall b, Cdiv 0 b = RtoC 0) by (intros b; unfold Cdiv; ring). rewrite !D0.
    now rewrite !cdiv_0.
  - rewrite !cdiv_some by (rewrite HdivQ by assumption; assumption). f_equal. unfold N. clearbody Q c Vc W.
    pose proof Ci_neq0 as HC.
    transitivity (Cdiv (Cmult (Cmult (Cplus W (Cmult Ci n)) xd) xs) Q); [field; split; assumption|].
    apply (Cmult_reg_l Q); [assumption|].
    transitivity (Cmult (Cmult (Cplus W (Cmult Ci n)) xd) xs); [field; assumption|].
    transitivity (Cmult (Cmult (Cminus (Cmult Ci n) (Cmult (Cmult Ci Ci) W)) xd) xs); [rewrite Ci2; ring|]. field. repeat split; assumption.
Qed.
