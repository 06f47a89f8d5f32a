(** Taylor models in integer arithmetic: polynomials on [-1, 1] with a bound of the error, to prove inequalities between rational functions by computation. *)
From Coq Require Import Reals List Arith ZArith QArith Qreals Lra Lia Psatz.
From Coquelicot Require Import Coquelicot.
From Verif Require Import L_Poly.
Import ListNotations.
Open Scope R_scope.

(** the scale of the integers *)
Definition SH : Z := 54.
Definition SC : Z := 2 ^ SH.
Lemma SC_pos : (0 < SC)%Z. Proof. reflexivity. Qed.
Definition sc : R := IZR SC.
Lemma sc_pos : 0 < sc. Proof. apply IZR_lt, SC_pos. Qed.
Opaque SC.

Fixpoint zp (p : list Z) (t : R) : R := match p with [] => 0 | c :: r => IZR c + t * zp r t end.
Fixpoint zabs (p : list Z) : Z := match p with [] => 0%Z | c :: r => (Z.abs c + zabs r)%Z end.
Fixpoint zadd (p q : list Z) : list Z :=
  match p, q with [], _ => q | _, [] => p | a :: p', b :: q' => (a + b)%Z :: zadd p' q' end.
Definition zscal (k : Z) (p : list Z) : list Z := map (Z.mul k) p.
Fixpoint zmul (p q : list Z) : list Z := match p with [] => [] | a :: p' => zadd (zscal a q) (0%Z :: zmul p' q) end.
Lemma zp_add p q t : zp (zadd p q) t = zp p t + zp q t.
Proof. revert q. induction p as [|a p IH]; intros [|b q]; cbn [zadd zp]; try ring. rewrite IH, plus_IZR. ring. Qed.
Lemma zp_scal k p t : zp (zscal k p) t = IZR k * zp p t.
Proof. induction p as [|a p IH]; cbn [zscal map zp]; [ring|]. fold (zscal k p). rewrite IH, mult_IZR. ring. Qed.
Lemma zp_mul p q t : zp (zmul p q) t = zp p t * zp q t.
Proof. induction p as [|a p IH]; cbn [zmul zp]; [ring|]. rewrite zp_add, zp_scal. cbn [zp]. rewrite IH. ring. Qed.
Lemma zp_abs p t : Rabs t <= 1 -> Rabs (zp p t) <= IZR (zabs p).
Proof.
  intros Ht. induction p as [|a p IH]; cbn [zp zabs]; [rewrite Rabs_R0; lra|]. rewrite plus_IZR, abs_IZR. eapply Rle_trans; [apply Rabs_triang|]. rewrite Rabs_mult.
  pose proof (Rabs_pos (zp p t)). pose proof (Rabs_pos t). nra.
Qed.
Lemma zabs_nonneg p : (0 <= zabs p)%Z. Proof. induction p as [|a p IH]; cbn [zabs]; lia. Qed.
(** rounding of a scaled polynomial *)
Definition zround (p : list Z) : list Z := map (fun c => Z.shiftr c SH) p.
Lemma div_round c : 0 <= IZR c / sc - IZR (Z.shiftr c SH) <= 1.
Proof.
  rewrite Z.shiftr_div_pow2 by discriminate. change (2 ^ SH)%Z with SC.
  pose proof SC_pos as H. pose proof sc_pos as H1. pose proof (Z.div_mod c SC ltac:(lia)) as E. pose proof (Z.mod_pos_bound c SC H) as B. apply (f_equal IZR) in E. rewrite plus_IZR, mult_IZR in E. fold sc in E.
  assert (0 <= IZR (c mod SC) <= sc) as B2 by (split; [apply IZR_le|unfold sc; apply IZR_le]; lia).
  replace (IZR c / sc - IZR (c / SC)) with (IZR (c mod SC) / sc) by (rewrite E; field; lra).
  split; [apply Rmult_le_pos; [lra|left; now apply Rinv_0_lt_compat]|]. apply Rle_div_l; lra.
Qed.
Lemma zp_round p t : Rabs t <= 1 -> Rabs (zp p t / sc - zp (zround p) t) <= INR (length p).
Proof.
  intros Ht. induction p as [|c p IH]; cbn [zp zround map length].
  - unfold Rdiv. rewrite Rmult_0_l, Rminus_0_r, Rabs_R0. cbn. lra.
  - fold (zround p). replace ((IZR c + t * zp p t) / sc - (IZR (Z.shiftr c SH) + t * zp (zround p) t)) with ((IZR c / sc - IZR (Z.shiftr c SH)) + t * (zp p t / sc - zp (zround p) t)) by (field; pose proof sc_pos; lra).
    eapply Rle_trans; [apply Rabs_triang|]. rewrite Rabs_mult, S_INR. pose proof (div_round c) as [D1 D2]. rewrite (Rabs_pos_eq _ D1). pose proof (Rabs_pos (zp p t / sc - zp (zround p) t)). pose proof (Rabs_pos t). nra.
Qed.
Lemma zp_split n p t : zp p t = zp (firstn n p) t + t ^ n * zp (skipn n p) t.
Proof. revert p. induction n as [|n IH]; intros [|c p]; cbn [firstn skipn zp pow]; try ring. rewrite (IH p). ring. Qed.

(** ** Taylor models *)
Definition tm := (list Z * Z)%type.
Definition ok (m : tm) (f : R -> R) : Prop := forall t, Rabs t <= 1 -> Rabs (f t * sc - zp (fst m) t) <= IZR (snd m).
Lemma ok_ext m f g : (forall t, Rabs t <= 1 -> f t = g t) -> ok m f -> ok m g.
Proof. intros H O t Ht. rewrite <- H by exact Ht. now apply O. Qed.
Definition tadd (a b : tm) : tm := (zadd (fst a) (fst b), (snd a + snd b)%Z).
Lemma ok_add a b f g : ok a f -> ok b g -> ok (tadd a b) (fun t => f t + g t).
Proof.
  intros Ha Hb t Ht. cbn [tadd fst snd]. rewrite zp_add, plus_IZR. replace ((f t + g t) * sc - (zp (fst a) t + zp (fst b) t)) with ((f t * sc - zp (fst a) t) + (g t * sc - zp (fst b) t)) by ring.
  eapply Rle_trans; [apply Rabs_triang|]. pose proof (Ha t Ht). pose proof (Hb t Ht). lra.
Qed.
Definition topp (a : tm) : tm := (zscal (-1) (fst a), snd a).
Lemma ok_opp a f : ok a f -> ok (topp a) (fun t => - f t).
Proof. intros Ha t Ht. cbn [topp fst snd]. rewrite zp_scal. replace (- f t * sc - -1 * zp (fst a) t) with (- (f t * sc - zp (fst a) t)) by ring. rewrite Rabs_Ropp. now apply Ha. Qed.
Definition tsub (a b : tm) : tm := tadd a (topp b).
Lemma ok_sub a b f g : ok a f -> ok b g -> ok (tsub a b) (fun t => f t - g t).
Proof. intros Ha Hb. exact (ok_add _ _ _ _ Ha (ok_opp _ _ Hb)). Qed.
(** a number *)
Definition tcst (q : Q) : tm := ([(Qnum q * SC / Zpos (Qden q))%Z], 1%Z).
Lemma ok_cst q : ok (tcst q) (fun _ => Q2R q).
Proof.
  intros t Ht. cbn [tcst fst snd zp]. rewrite Rmult_0_r, Rplus_0_r. set (c := (Qnum q * SC)%Z). set (d := Zpos (Qden q)).
  assert (0 < d)%Z as Hd by reflexivity. pose proof (Z.div_mod c d ltac:(lia)) as E. pose proof (Z.mod_pos_bound c d Hd) as B. apply (f_equal IZR) in E. rewrite plus_IZR, mult_IZR in E.
  assert (0 <= IZR (c mod d) <= IZR d) as B2 by (split; apply IZR_le; lia). assert (0 < IZR d) as Hd2 by (apply IZR_lt; exact Hd).
  assert (Q2R q * sc = IZR c / IZR d) as -> by (unfold Q2R, c, d, sc; rewrite mult_IZR; field; exact (Rgt_not_eq _ _ Hd2)).
  replace (IZR c / IZR d - IZR (c / d)) with (IZR (c mod d) / IZR d) by (rewrite E; field; lra). rewrite Rabs_pos_eq; [apply Rle_div_l; lra|]. apply Rmult_le_pos; [lra|left; now apply Rinv_0_lt_compat].
Qed.
(** a number known to e *)
Definition tint (q e : Q) : tm := (fst (tcst q), (1 + (Qnum e * SC / Zpos (Qden e) + 1))%Z).
Lemma ok_int q e f : (forall t, Rabs t <= 1 -> Rabs (f t - Q2R q) <= Q2R e) -> ok (tint q e) f.
Proof.
  intros H t Ht. pose proof (ok_cst q t Ht) as H1. pose proof (ok_cst e t Ht) as H2. cbn [tint fst snd] in *. cbn [tcst fst snd zp] in H2. rewrite !plus_IZR. apply Rabs_le_between in H2. pose proof (H t Ht) as H3.
  replace (f t * sc - zp (fst (tcst q)) t) with ((f t - Q2R q) * sc + (Q2R q * sc - zp (fst (tcst q)) t)) by ring. eapply Rle_trans; [apply Rabs_triang|]. rewrite Rabs_mult. pose proof sc_pos. rewrite (Rabs_pos_eq sc) by lra.
  pose proof (Rmult_le_compat_r sc _ _ ltac:(lra) H3). cbn [snd tcst] in H1. lra.
Qed.
(** the variable, c + w t *)
Definition tvar (c w : Q) : tm := ([(Qnum c * SC / Zpos (Qden c))%Z; (Qnum w * SC / Zpos (Qden w))%Z], 2%Z).
Lemma ok_var c w : ok (tvar c w) (fun t => Q2R c + t * Q2R w).
Proof.
  intros t Ht. pose proof (ok_cst c t Ht) as H1. pose proof (ok_cst w t Ht) as H2. cbn [tcst tvar fst snd zp] in *. set (x := IZR (_ / Zpos (Qden c))) in *. set (y := IZR (_ / Zpos (Qden w))) in *.
  replace ((Q2R c + t * Q2R w) * sc - (x + t * (y + t * 0))) with ((Q2R c * sc - (x + t * 0)) + t * (Q2R w * sc - (y + t * 0))) by ring. eapply Rle_trans; [apply Rabs_triang|]. rewrite Rabs_mult. pose proof (Rabs_pos t). pose proof (Rabs_pos (Q2R w * sc - (y + t * 0))). nra.
Qed.
(** products, cut at the seventh power *)
Definition DEG : nat := 8.
Definition tmul (a b : tm) : tm :=
  let c := zmul (fst a) (fst b) in
  let h := firstn DEG c in
  (zround h, ((Z.shiftr (snd a * (zabs (fst b) + snd b) + zabs (fst a) * snd b + zabs (skipn DEG c)) SH) + 1 + Z.of_nat (length h))%Z).
Lemma ok_mul a b f g : ok a f -> ok b g -> ok (tmul a b) (fun t => f t * g t).
Proof.
  intros Ha Hb t Ht. unfold tmul. set (c := zmul (fst a) (fst b)). set (h := firstn DEG c). cbn [fst snd]. rewrite !plus_IZR, <- INR_IZR_INZ. set (E := (snd a * (zabs (fst b) + snd b) + zabs (fst a) * snd b + zabs (skipn DEG c))%Z).
  pose proof (div_round E) as [_ D]. pose proof (zp_round h t Ht) as HR. pose proof sc_pos as S0.
  specialize (Ha t Ht). specialize (Hb t Ht). set (F := f t * sc) in *. set (G := g t * sc) in *. set (p := zp (fst a) t) in *. set (q := zp (fst b) t) in *.
  assert (Rabs (F * G - zp h t) <= IZR E) as K.
  { assert (zp h t = p * q - t ^ DEG * zp (skipn DEG c) t) as -> by (unfold p, q; rewrite <- zp_mul; fold c; rewrite (zp_split DEG c t); unfold h; ring).
    replace (F * G - (p * q - t ^ DEG * zp (skipn DEG c) t)) with ((F - p) * G + p * (G - q) + t ^ DEG * zp (skipn DEG c) t) by ring.
    unfold E. rewrite !plus_IZR, !mult_IZR, plus_IZR. pose proof (zp_abs (fst a) t Ht) as A1. fold p in A1. pose proof (zp_abs (fst b) t Ht) as B1. fold q in B1. pose proof (zp_abs (skipn DEG c) t Ht) as C1.
    assert (Rabs G <= IZR (zabs (fst b)) + IZR (snd b)) as G1. { replace G with ((G - q) + q) by ring. eapply Rle_trans; [apply Rabs_triang|]. lra. }
    assert (Rabs (t ^ DEG) <= 1) as T1. { rewrite <- RPow_abs. rewrite <- (pow1 DEG). apply pow_incr. pose proof (Rabs_pos t). lra. }
    eapply Rle_trans; [apply Rabs_triang|]. apply Rplus_le_compat; [eapply Rle_trans; [apply Rabs_triang|]; apply Rplus_le_compat|]; rewrite Rabs_mult.
    - apply Rmult_le_compat; try apply Rabs_pos; assumption.
    - apply Rmult_le_compat; try apply Rabs_pos; assumption.
    - rewrite <- (Rmult_1_l (IZR _)). apply Rmult_le_compat; try apply Rabs_pos; assumption. }
  assert (Rabs (f t * g t * sc - zp h t / sc) <= IZR E / sc) as K2.
  { replace (f t * g t * sc - zp h t / sc) with ((F * G - zp h t) * / sc) by (unfold F, G; field; lra). rewrite Rabs_mult, (Rabs_pos_eq (/ sc)) by (left; now apply Rinv_0_lt_compat). apply Rmult_le_compat_r; [left; now apply Rinv_0_lt_compat|exact K]. }
  replace (f t * g t * sc - zp (zround h) t) with ((f t * g t * sc - zp h t / sc) + (zp h t / sc - zp (zround h) t)) by ring.
  eapply Rle_trans; [apply Rabs_triang|]. lra.
Qed.
(** polynomials *)
Fixpoint thor (p : list Q) (m : tm) : tm := match p with [] => ([], 0%Z) | c :: r => tadd (tcst c) (tmul m (thor r m)) end.
Lemma ok_hor p m f : ok m f -> ok (thor p m) (fun t => pe (rq p) (f t)).
Proof.
  intros H. induction p as [|c p IH]; cbn [thor rq map pe].
  - intros t Ht. cbn. rewrite Rmult_0_l, Rminus_0_r, Rabs_R0. lra.
  - apply (ok_add _ _ (fun _ => Q2R c)); [apply ok_cst|]. now apply (ok_mul _ _ f).
Qed.
(** sign *)
Definition tpos (m : tm) : bool := match fst m with [] => false | c :: r => (0 <? c - zabs r - snd m)%Z end.
Lemma ok_pos m f t : ok m f -> tpos m = true -> Rabs t <= 1 -> 0 < f t.
Proof.
  intros H P Ht. specialize (H t Ht). destruct m as [[|c r] e]; [discriminate|]. cbn [tpos fst snd zp] in *. apply Z.ltb_lt in P. apply IZR_lt in P. rewrite !minus_IZR in P.
  pose proof (zp_abs r t Ht) as A. assert (Rabs (t * zp r t) <= IZR (zabs r)) as B. { rewrite Rabs_mult. pose proof (Rabs_pos t). pose proof (Rabs_pos (zp r t)). nra. }
  apply Rabs_le_between in H. apply Rabs_le_between in B. assert (0 < f t * sc) by lra. pose proof sc_pos. apply Rmult_lt_reg_r with sc; lra.
Qed.
(** ** covering an interval *)
Fixpoint cover (chk : Q -> Q -> bool) (fuel : nat) (c w : Q) : bool :=
  if chk c w then true
  else match fuel with
       | O => false
       | S n => let h := Qred (w / 2) in cover chk n (Qred (c - h)) h && cover chk n (Qred (c + h)) h
       end.
Lemma cover_sound chk (P : R -> Prop) : (forall c w, chk c w = true -> forall t, Rabs t <= 1 -> P (Q2R c + t * Q2R w)) ->
  forall fuel c w, cover chk fuel c w = true -> forall t, Rabs t <= 1 -> P (Q2R c + t * Q2R w).
Proof.
  intros HC. induction fuel as [|n IH]; intros c w H t Ht; cbn [cover] in H; destruct (chk c w) eqn:E; try (exact (HC c w E t Ht)); [discriminate|].
  apply Bool.andb_true_iff in H. destruct H as [H1 H2]. assert (Q2R (Qred (w / 2)) = Q2R w / 2) as EH by (rewrite Q2R_red, Q2R_div by discriminate; unfold Q2R at 2; cbn; field).
  apply Rabs_le_between in Ht. destruct (Rle_lt_dec t 0) as [L|L].
  - pose proof (IH _ _ H1 (2 * t + 1) ltac:(apply Rabs_le; lra)) as K. rewrite Q2R_red, Q2R_minus, EH in K. replace (Q2R c + t * Q2R w) with (Q2R c - Q2R w / 2 + (2 * t + 1) * (Q2R w / 2)) by field. exact K.
  - pose proof (IH _ _ H2 (2 * t - 1) ltac:(apply Rabs_le; lra)) as K. rewrite Q2R_red, Q2R_plus, EH in K. replace (Q2R c + t * Q2R w) with (Q2R c + Q2R w / 2 + (2 * t - 1) * (Q2R w / 2)) by field. exact K.
Qed.
(** the first halvings without trying *)
Fixpoint cover_at (chk : Q -> Q -> bool) (pre fuel : nat) (c w : Q) : bool :=
  match pre with
  | O => cover chk fuel c w
  | S n => let h := Qred (w / 2) in cover_at chk n fuel (Qred (c - h)) h && cover_at chk n fuel (Qred (c + h)) h
  end.
Lemma cover_at_sound chk (P : R -> Prop) : (forall c w, chk c w = true -> forall t, Rabs t <= 1 -> P (Q2R c + t * Q2R w)) ->
  forall pre fuel c w, cover_at chk pre fuel c w = true -> forall t, Rabs t <= 1 -> P (Q2R c + t * Q2R w).
Proof.
  intros HC. induction pre as [|n IH]; intros fuel c w H t Ht; cbn [cover_at] in H; [exact (cover_sound chk P HC fuel c w H t Ht)|].
  apply Bool.andb_true_iff in H. destruct H as [H1 H2]. assert (Q2R (Qred (w / 2)) = Q2R w / 2) as EH by (rewrite Q2R_red, Q2R_div by discriminate; unfold Q2R at 2; cbn; field).
  apply Rabs_le_between in Ht. destruct (Rle_lt_dec t 0) as [L|L].
  - pose proof (IH _ _ _ H1 (2 * t + 1) ltac:(apply Rabs_le; lra)) as K. rewrite Q2R_red, Q2R_minus, EH in K. replace (Q2R c + t * Q2R w) with (Q2R c - Q2R w / 2 + (2 * t + 1) * (Q2R w / 2)) by field. exact K.
  - pose proof (IH _ _ _ H2 (2 * t - 1) ltac:(apply Rabs_le; lra)) as K. rewrite Q2R_red, Q2R_plus, EH in K. replace (Q2R c + t * Q2R w) with (Q2R c + Q2R w / 2 + (2 * t - 1) * (Q2R w / 2)) by field. exact K.
Qed.
Lemma cover_range chk (P : R -> Prop) pre fuel lo hi : (forall c w, chk c w = true -> forall t, Rabs t <= 1 -> P (Q2R c + t * Q2R w)) ->
  cover_at chk pre fuel ((lo + hi) / 2) ((hi - lo) / 2) = true -> forall x, Q2R lo <= x <= Q2R hi -> P x.
Proof.
  intros HC H x Hx. pose proof (cover_at_sound chk P HC pre fuel _ _ H) as K. rewrite !Q2R_div, Q2R_plus, Q2R_minus in K by discriminate. assert (Q2R 2 = 2) as E2 by (unfold Q2R; cbn; lra). rewrite E2 in K.
  destruct (Rle_lt_dec (Q2R hi) (Q2R lo)) as [L|L].
  - assert (x = (Q2R lo + Q2R hi) / 2 + 0 * ((Q2R hi - Q2R lo) / 2)) as -> by lra. apply K. rewrite Rabs_R0. lra.
  - set (t := (x - (Q2R lo + Q2R hi) / 2) / ((Q2R hi - Q2R lo) / 2)). replace x with ((Q2R lo + Q2R hi) / 2 + t * ((Q2R hi - Q2R lo) / 2)) by (unfold t; field; lra). apply K.
    apply Rabs_le. unfold t. split; [apply Rle_div_r; lra|apply Rle_div_l; lra].
Qed.
Transparent SC.
