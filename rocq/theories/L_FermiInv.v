(** The fit of the inverse Fermi integral undoes the fit of the integral: the inequalities, checked with Taylor models. *)
From Coq Require Import Reals List Arith ZArith QArith Qreals Lra Lia Psatz.
From Coquelicot Require Import Coquelicot.
From Verif Require Import M_Const M_PlasmaState M_Math L_Poly L_Fermi L_FermiFit L_FermiFit2 L_FermiTables L_TM.
Import ListNotations.
Open Scope R_scope.

(** *** more operations *)
Definition tfuzz (m : tm) (e : Q) : tm := (fst m, (snd m + (Qnum e * SC / Zpos (Qden e) + 1))%Z).
Lemma ok_fuzz m e f g : ok m g -> (forall t, Rabs t <= 1 -> Rabs (f t - g t) <= Q2R e) -> ok (tfuzz m e) f.
Proof.
  intros Hm H t Ht. pose proof (Hm t Ht) as H1. pose proof (ok_cst e t Ht) as H2. cbn [tfuzz fst snd] in *. cbn [tcst fst snd zp] in H2. rewrite !plus_IZR. apply Rabs_le_between in H2. pose proof (H t Ht) as H3.
  replace (f t * sc - zp (fst m) t) with ((f t - g t) * sc + (g t * sc - zp (fst m) t)) by ring. eapply Rle_trans; [apply Rabs_triang|]. rewrite Rabs_mult. pose proof sc_pos. rewrite (Rabs_pos_eq sc) by lra.
  pose proof (Rmult_le_compat_r sc _ _ ltac:(lra) H3). lra.
Qed.
Opaque tmul thor tpos tadd tsub tcst tvar tfuzz.
(** homogeneous polynomials *)
Fixpoint thom (u : list Q) (y q : tm) : tm * tm :=
  match u with
  | [] => (([], 0%Z), tcst 1)
  | c :: r => match r with
              | [] => (tcst c, tcst 1)
              | _ => let (h, p) := thom r y q in let p' := tmul p q in (tadd (tmul (tcst c) p') (tmul y h), p')
              end
  end.
Lemma ok_hom u y q fy fq : u <> [] -> ok y fy -> ok q fq -> (forall t, Rabs t <= 1 -> fq t <> 0) ->
  ok (fst (thom u y q)) (fun t => fq t ^ (length u - 1) * pe (rq u) (fy t / fq t)) /\ ok (snd (thom u y q)) (fun t => fq t ^ (length u - 1)).
Proof.
  intros Hu Hy Hq Hn. induction u as [|c r IH]; [contradiction|]. destruct r as [|c' r'].
  - cbn [thom fst snd length Nat.sub rq map pe]. split; (eapply ok_ext; [|apply ok_cst]); intros t Ht; cbn; [ring|unfold Q2R; cbn; lra].
  - destruct (IH ltac:(discriminate)) as [I1 I2]. set (r := c' :: r') in *.
    assert (thom (c :: r) y q = let (h, p) := thom r y q in let p' := tmul p q in (tadd (tmul (tcst c) p') (tmul y h), p')) as -> by reflexivity.
    destruct (thom r y q) as [h p]. cbn [fst snd] in *.
    assert (ok (tmul p q) (fun t => fq t ^ (length (c :: r) - 1))) as K. { eapply ok_ext; [|exact (ok_mul _ _ _ _ I2 Hq)]. intros t Ht. cbn beta. change (length (c :: r)) with (S (length r)). replace (S (length r) - 1)%nat with (S (length r - 1)) by (unfold r; cbn; lia). cbn [pow]. ring. }
    split; [|exact K]. eapply ok_ext; [|exact (ok_add _ _ _ _ (ok_mul _ _ _ _ (ok_cst c) K) (ok_mul _ _ _ _ Hy I1))]. intros t Ht. cbn beta. change (pe (rq (c :: r)) (fy t / fq t)) with (Q2R c + fy t / fq t * pe (rq r) (fy t / fq t)).
    change (length (c :: r)) with (S (length r)). replace (S (length r) - 1)%nat with (S (length r - 1)) by (unfold r; cbn; lia). cbn [pow]. pose proof (Hn t Ht). field. assumption.
Qed.
Lemma frac_of (W N L x : R) : 0 < W -> 0 < L -> forall e, W * N - x * (W * L) <= e * (W * L) -> x * (W * L) - W * N <= e * (W * L) -> Rabs (N / L - x) <= e.
Proof.
  intros HW HL e H1 H2. assert (0 < W * L) as P by now apply Rmult_lt_0_compat. replace (N / L) with (W * N / (W * L)) by (field; lra).
  apply Rabs_le. split; [assert (x - e <= W * N / (W * L)); [apply Rle_div_r; lra|lra]|assert (W * N / (W * L) <= x + e); [apply Rle_div_l; lra|lra]].
Qed.

(** *** tables scaled to the order of one; the quotients do not change *)
Definition k6 : Q := 1 # 1000000.
Definition k14 : Q := 100000000000000.
Definition sA := pscal k6 qa_12. Definition sB := pscal k6 qb_12.
Definition sC := pscal k14 qc_12. Definition sD := pscal k14 qd_12.
Lemma sAB z : pe (rq sA) z / pe (rq sB) z = pe (rq qa_12) z / pe (rq qb_12) z \/ pe (rq sB) z = 0.
Proof.
  unfold sA, sB. rewrite !pe_scal. assert (Q2R k6 <> 0) by (unfold k6, Q2R; cbn; lra). destruct (Req_dec (pe (rq qb_12) z) 0) as [E|E]; [right; rewrite E; ring|left; field; tauto].
Qed.
Lemma sCD z : pe (rq sC) z / pe (rq sD) z = pe (rq qc_12) z / pe (rq qd_12) z \/ pe (rq sD) z = 0.
Proof.
  unfold sC, sD. rewrite !pe_scal. assert (Q2R k14 <> 0) by (unfold k14, Q2R; cbn; lra). destruct (Req_dec (pe (rq qd_12) z) 0) as [E|E]; [right; rewrite E; ring|left; field; tauto].
Qed.

(** *** small arguments, in z = exp x *)
Definition c0 (u l : list Q) (eps : Q) (z A B : tm) : bool :=
  if tpos B then
  let zA := tmul z A in
  let U := fst (thom u zA B) in let V := fst (thom l zA B) in
  let AU := tmul A U in let BV := tmul B V in let e := tmul (tcst eps) BV in
  tpos V && tpos (tsub e (tsub AU BV)) && tpos (tsub e (tsub BV AU))
  else false.
Definition chk0 (eps c w : Q) : bool := let z := tvar c w in c0 qr0_upper qr0_lower eps z (thor sA z) (thor sB z).
Lemma c0_ok u l eps z A B fz fa fb : u <> [] -> l <> [] -> length u = length l -> ok z fz -> ok A fa -> ok B fb -> c0 u l eps z A B = true -> forall t, Rabs t <= 1 ->
  let X := fz t * (fa t / fb t) in 0 < fb t /\ 0 < pe (rq l) X /\ Rabs (fa t / fb t * (pe (rq u) X / pe (rq l) X) - 1) <= Q2R eps.
Proof.
  intros Hu Hl Hlen Oz OA OB H t Ht. unfold c0 in H.
  destruct (tpos B) eqn:PB; [|discriminate]. cbv zeta in H. pose proof (ok_mul _ _ _ _ Oz OA) as OzA. set (zA := tmul z A) in *.
  pose proof (ok_hom u zA B _ _ Hu OzA OB ltac:(intros s Hs; apply Rgt_not_eq; exact (ok_pos B _ s OB PB Hs))) as [OU _]. pose proof (ok_hom l zA B _ _ Hl OzA OB ltac:(intros s Hs; apply Rgt_not_eq; exact (ok_pos B _ s OB PB Hs))) as [OV _].
  set (U := fst (thom u zA B)) in *. set (V := fst (thom l zA B)) in *. pose proof (ok_mul _ _ _ _ OA OU) as OAU. pose proof (ok_mul _ _ _ _ OB OV) as OBV. set (AU := tmul A U) in *. set (BV := tmul B V) in *. pose proof (ok_mul _ _ _ _ (ok_cst eps) OBV) as Oe. set (e := tmul (tcst eps) BV) in *.
  rewrite !Bool.andb_true_iff in H. destruct H as [[H1 H2] H3]. pose proof (ok_pos B _ t OB PB Ht) as K0. pose proof (ok_pos V _ t OV H1 Ht) as K1. pose proof (ok_pos _ _ t (ok_sub _ _ _ _ Oe (ok_sub _ _ _ _ OAU OBV)) H2 Ht) as K2. pose proof (ok_pos _ _ t (ok_sub _ _ _ _ Oe (ok_sub _ _ _ _ OBV OAU)) H3 Ht) as K3.
  cbv beta in *. set (a := fa t) in *. set (b := fb t) in *. cbv zeta. replace (fz t * (a / b)) with (fz t * a / b) by (field; lra). set (X := fz t * a / b) in *. rewrite <- Hlen in *. set (W := b ^ (length u - 1)) in *.
  assert (0 < W) as B2 by now apply pow_lt. assert (0 < pe (rq l) X) as L0 by (apply Rmult_lt_reg_l with W; [exact B2|lra]). split; [exact K0|split; [exact L0|]].
  replace (a / b * (pe (rq u) X / pe (rq l) X)) with (a * pe (rq u) X / (b * pe (rq l) X)) by (field; lra). apply (frac_of W); [exact B2|now apply Rmult_lt_0_compat|lra|lra].
Qed.
Definition good0 (eps : Q) (z : R) : Prop :=
  let X := z * (pe (rq sA) z / pe (rq sB) z) in
  0 < pe (rq sB) z /\ 0 < pe (rq qr0_lower) X /\ Rabs (pe (rq sA) z / pe (rq sB) z * (pe (rq qr0_upper) X / pe (rq qr0_lower) X) - 1) <= Q2R eps.
Lemma chk0_ok eps c w : chk0 eps c w = true -> forall t, Rabs t <= 1 -> good0 eps (Q2R c + t * Q2R w).
Proof.
  intros H t Ht. unfold chk0 in H. cbv zeta in H. pose proof (ok_var c w) as Oz. pose proof (ok_hor sA _ _ Oz) as OA. pose proof (ok_hor sB _ _ Oz) as OB. cbv beta in OA, OB.
  pose proof (c0_ok qr0_upper qr0_lower eps _ _ _ _ _ _ ltac:(discriminate) ltac:(discriminate) eq_refl Oz OA OB H t Ht) as K. cbv beta zeta in K. unfold good0. cbv zeta. exact K.
Qed.

(** *** x between 2 and about 31, in v = 1 / sqrt x *)
Definition ch (u l : list Q) (al be eps : Q) (v v2 P D : tm) : bool :=
  let Q := tmul (tmul v v2) D in
  if tpos Q && tpos D && tpos v2 then
  let y := tadd (tmul (tcst al) Q) (tmul (tcst be) P) in
  let U := fst (thom u y Q) in let V := fst (thom l y Q) in
  let vU := tmul v2 U in let e := tmul (tcst eps) (tmul (tadd v2 (tcst 1)) V) in
  tpos V && tpos (tsub e (tsub vU V)) && tpos (tsub e (tsub V vU))
  else false.
Definition chkh (u l : list Q) (al be eps c w : Q) : bool :=
  let v := tvar c w in let v2 := tmul v v in let v4 := tmul v2 v2 in ch u l al be eps v v2 (thor sC v4) (thor sD v4).
Lemma ch_ok u l al be eps v v2 P D fv f2 fp fd : u <> [] -> l <> [] -> length u = length l -> ok v fv -> ok v2 f2 -> ok P fp -> ok D fd -> ch u l al be eps v v2 P D = true ->
  forall t, Rabs t <= 1 -> f2 t = fv t * fv t -> let X := fp t / fd t / (fv t * f2 t) in let Y := Q2R al + Q2R be * X in
  0 < fd t /\ 0 < pe (rq l) Y /\ Rabs (pe (rq u) Y / pe (rq l) Y - / f2 t) <= Q2R eps * (1 + / f2 t).
Proof.
  intros Hu Hl Hlen Ov O2 OP OD H t Ht E2. unfold ch in H. cbv zeta in H. pose proof (ok_mul _ _ _ _ (ok_mul _ _ _ _ Ov O2) OD) as OQ. set (Q := tmul (tmul v v2) D) in *.
  destruct (tpos Q && tpos D && tpos v2) eqn:PQ; [|discriminate]. rewrite !Bool.andb_true_iff in PQ. destruct PQ as [[PQ PD] PV]. cbv beta in OP, OD, OQ.
  pose proof (ok_add _ _ _ _ (ok_mul _ _ _ _ (ok_cst al) OQ) (ok_mul _ _ _ _ (ok_cst be) OP)) as Oy. set (y := tadd (tmul (tcst al) Q) (tmul (tcst be) P)) in *.
  pose proof (ok_hom u y Q _ _ Hu Oy OQ ltac:(intros s Hs; apply Rgt_not_eq; exact (ok_pos Q _ s OQ PQ Hs))) as [OU _]. pose proof (ok_hom l y Q _ _ Hl Oy OQ ltac:(intros s Hs; apply Rgt_not_eq; exact (ok_pos Q _ s OQ PQ Hs))) as [OV _].
  set (U := fst (thom u y Q)) in *. set (V := fst (thom l y Q)) in *. pose proof (ok_mul _ _ _ _ O2 OU) as OvU. set (vU := tmul v2 U) in *.
  pose proof (ok_mul _ _ _ _ (ok_cst eps) (ok_mul _ _ _ _ (ok_add _ _ _ _ O2 (ok_cst 1)) OV)) as Oe. set (e := tmul (tcst eps) (tmul (tadd v2 (tcst 1)) V)) in *.
  rewrite !Bool.andb_true_iff in H. destruct H as [[H1 H2] H3]. pose proof (ok_pos Q _ t OQ PQ Ht) as KQ. pose proof (ok_pos D _ t OD PD Ht) as KD. pose proof (ok_pos _ _ t O2 PV Ht) as K2'. pose proof (ok_pos V _ t OV H1 Ht) as K1. pose proof (ok_pos _ _ t (ok_sub _ _ _ _ Oe (ok_sub _ _ _ _ OvU OV)) H2 Ht) as K2. pose proof (ok_pos _ _ t (ok_sub _ _ _ _ Oe (ok_sub _ _ _ _ OV OvU)) H3 Ht) as K3.
  cbv beta in *. set (x := fv t) in *. set (p := fp t) in *. set (d := fd t) in *. cbv zeta. set (s := f2 t) in *. set (q := x * s * d) in *.
  assert (x <> 0) as X0 by (intros E; rewrite E2, E in K2'; lra). replace (p / d / (x * s)) with (p / q) by (unfold q; field; lra). replace (Q2R al + Q2R be * (p / q)) with ((Q2R al * q + Q2R be * p) / q) by (field; lra). set (Y := (Q2R al * q + Q2R be * p) / q) in *. rewrite <- Hlen in *.
  set (W := q ^ (length u - 1)) in *. assert (0 < W) as HW by now apply pow_lt. assert (0 < pe (rq l) Y) as L0 by (apply Rmult_lt_reg_l with W; [exact HW|lra]). split; [exact KD|split; [exact L0|]].
  replace (Q2R 1) with 1 in * by (unfold Q2R; cbn; lra). set (N := pe (rq u) Y) in *. set (L := pe (rq l) Y) in *.
  assert (/ s * s = 1) as Is by (field; lra). assert (0 < / s) as Ip by now apply Rinv_0_lt_compat.
  apply (frac_of W); [exact HW|exact L0| |].
  - apply Rmult_le_reg_l with s; [exact K2'|]. replace (s * (W * N - / s * (W * L))) with (s * (W * N) - (/ s * s) * (W * L)) by ring. replace (s * (Q2R eps * (1 + / s) * (W * L))) with (Q2R eps * ((s + / s * s) * (W * L))) by ring. rewrite Is. lra.
  - apply Rmult_le_reg_l with s; [exact K2'|]. replace (s * (/ s * (W * L) - W * N)) with ((/ s * s) * (W * L) - s * (W * N)) by ring. replace (s * (Q2R eps * (1 + / s) * (W * L))) with (Q2R eps * ((s + / s * s) * (W * L))) by ring. rewrite Is. lra.
Qed.
Definition goodh (u l : list Q) (al be eps : Q) (v : R) : Prop :=
  let s := v * v * (v * v) in let X := pe (rq sC) s / pe (rq sD) s / (v * (v * v)) in let Y := Q2R al + Q2R be * X in
  0 < pe (rq sD) s /\ 0 < pe (rq l) Y /\ Rabs (pe (rq u) Y / pe (rq l) Y - / (v * v)) <= Q2R eps * (1 + / (v * v)).
Lemma chkh_ok u l al be eps c w : u <> [] -> l <> [] -> length u = length l -> chkh u l al be eps c w = true -> forall t, Rabs t <= 1 -> goodh u l al be eps (Q2R c + t * Q2R w).
Proof.
  intros Hu Hl Hlen H t Ht. unfold chkh in H. cbv zeta in H. pose proof (ok_var c w) as Ov. pose proof (ok_mul _ _ _ _ Ov Ov) as O2. pose proof (ok_mul _ _ _ _ O2 O2) as O4. pose proof (ok_hor sC _ _ O4) as OC. pose proof (ok_hor sD _ _ O4) as OD. cbv beta in O2, OC, OD.
  pose proof (ch_ok u l al be eps _ _ _ _ _ _ _ _ Hu Hl Hlen Ov O2 OC OD H t Ht) as K. cbv beta zeta in K. unfold goodh. cbv zeta. exact (K eq_refl).
Qed.

(** *** x below 2 in the second branch of the inverse *)
Definition ecoef (n : nat) : list Q := map (fun k => Qred (/ qf k)) (seq 0 (S n)).
Lemma pe_app p q x : pe (p ++ q) x = pe p x + x ^ length p * pe q x.
Proof. induction p as [|a p IH]; cbn [app pe length pow]; [ring|]. rewrite IH. ring. Qed.
Lemma ecoef_etay n x : pe (rq (ecoef n)) x = etay n x.
Proof.
  unfold ecoef, rq. induction n as [|n IH].
  - cbn. unfold Q2R; cbn. lra.
  - rewrite seq_S, !map_app, pe_app, IH, !map_length, seq_length. cbn [map pe Nat.add]. rewrite Q2R_red, Q2R_inv, qf_rf by apply qf_nz. cbn [etay]. unfold Rdiv. ring.
Qed.
Lemma exp_taylor x : 0 <= x <= 2 -> Rabs (exp x - pe (rq (ecoef 26)) x) <= Q2R (1 # 1000000000000000).
Proof.
  intros Hx. rewrite ecoef_etay. pose proof (exp_low 26 2 x Hx) as L. pose proof (exp_up 26 2 x Hx) as U. rewrite Rabs_pos_eq by exact L.
  assert (exp 2 <= 9) as B. { replace 2 with (1 + 1) by ring. rewrite exp_plus. pose proof exp_le_3. pose proof (exp_pos 1). nra. }
  assert (x ^ 27 / rf 27 <= 2 ^ 27 / rf 27) as P1. { apply Rmult_le_compat_r; [left; apply Rinv_0_lt_compat, rf_pos|]. apply pow_incr. exact Hx. }
  assert (0 <= x ^ 27 / rf 27) as P0. { apply Rmult_le_pos; [apply pow_le; lra|left; apply Rinv_0_lt_compat, rf_pos]. }
  assert (9 * (2 ^ 27 / rf 27) <= Q2R (1 # 1000000000000000)) as E.
  { replace 2 with (Q2R 2) by (unfold Q2R; cbn; lra). replace 9 with (Q2R 9) by (unfold Q2R; cbn; lra). rewrite <- qf_rf, <- (Q2R_pow 2 27), <- Q2R_div, <- Q2R_mult by apply qf_nz. apply Q2R_le. vm_compute. reflexivity. }
  pose proof (exp_pos 2). nra.
Qed.
Definition ce (u l : list Q) (al be eps : Q) (x z A B : tm) : bool :=
  if tpos B then
  let zA := tmul z A in
  let y := tadd (tmul (tcst al) B) (tmul (tcst be) zA) in
  let U := fst (thom u y B) in let V := fst (thom l y B) in
  let xV := tmul x V in let e := tmul (tcst eps) V in
  tpos V && tpos (tsub e (tsub U xV)) && tpos (tsub e (tsub xV U))
  else false.
Lemma ce_ok u l al be eps x z A B fx fz fa fb : u <> [] -> l <> [] -> length u = length l -> ok x fx -> ok z fz -> ok A fa -> ok B fb -> ce u l al be eps x z A B = true ->
  forall t, Rabs t <= 1 -> let X := fz t * (fa t / fb t) in let Y := Q2R al + Q2R be * X in
  0 < fb t /\ 0 < pe (rq l) Y /\ Rabs (pe (rq u) Y / pe (rq l) Y - fx t) <= Q2R eps.
Proof.
  intros Hu Hl Hlen Ox Oz OA OB H t Ht. unfold ce in H.
  destruct (tpos B) eqn:PB; [|discriminate]. cbv zeta in H. pose proof (ok_mul _ _ _ _ Oz OA) as OzA. set (zA := tmul z A) in *. cbv beta in OzA, OB.
  pose proof (ok_add _ _ _ _ (ok_mul _ _ _ _ (ok_cst al) OB) (ok_mul _ _ _ _ (ok_cst be) OzA)) as Oy. set (y := tadd (tmul (tcst al) B) (tmul (tcst be) zA)) in *.
  pose proof (ok_hom u y B _ _ Hu Oy OB ltac:(intros s Hs; apply Rgt_not_eq; exact (ok_pos B _ s OB PB Hs))) as [OU _]. pose proof (ok_hom l y B _ _ Hl Oy OB ltac:(intros s Hs; apply Rgt_not_eq; exact (ok_pos B _ s OB PB Hs))) as [OV _].
  set (U := fst (thom u y B)) in *. set (V := fst (thom l y B)) in *. pose proof (ok_mul _ _ _ _ Ox OV) as OxV. set (xV := tmul x V) in *. pose proof (ok_mul _ _ _ _ (ok_cst eps) OV) as Oe. set (e := tmul (tcst eps) V) in *.
  rewrite !Bool.andb_true_iff in H. destruct H as [[H1 H2] H3]. pose proof (ok_pos B _ t OB PB Ht) as KB. pose proof (ok_pos V _ t OV H1 Ht) as K1. pose proof (ok_pos _ _ t (ok_sub _ _ _ _ Oe (ok_sub _ _ _ _ OU OxV)) H2 Ht) as K2. pose proof (ok_pos _ _ t (ok_sub _ _ _ _ Oe (ok_sub _ _ _ _ OxV OU)) H3 Ht) as K3.
  cbv beta in *. set (X := fz t) in *. set (a := fa t) in *. set (b := fb t) in *. cbv zeta.
  replace (Q2R al + Q2R be * (X * (a / b))) with ((Q2R al * b + Q2R be * (X * a)) / b) by (field; lra). set (Y := (Q2R al * b + Q2R be * (X * a)) / b) in *. rewrite <- Hlen in *.
  set (W := b ^ (length u - 1)) in *. assert (0 < W) as HW by now apply pow_lt. assert (0 < pe (rq l) Y) as L0 by (apply Rmult_lt_reg_l with W; [exact HW|lra]). split; [exact KB|split; [exact L0|]].
  apply (frac_of W); [exact HW|exact L0|lra|lra].
Qed.
Definition te : Q := 1 # 1000000000000000.
Definition chke (u l : list Q) (al be eps c w : Q) : bool :=
  if Qle_bool 0 (c - w) && Qle_bool (c + w) 2 && Qle_bool 0 w then
  let x := tvar c w in let z := tfuzz (thor (ecoef 26) x) te in ce u l al be eps x z (thor sA z) (thor sB z)
  else false.
Definition goode (u l : list Q) (al be eps : Q) (x : R) : Prop :=
  let z := exp x in let X := z * (pe (rq sA) z / pe (rq sB) z) in let Y := Q2R al + Q2R be * X in
  0 < pe (rq sB) z /\ 0 < pe (rq l) Y /\ Rabs (pe (rq u) Y / pe (rq l) Y - x) <= Q2R eps.
Lemma chke_ok u l al be eps c w : u <> [] -> l <> [] -> length u = length l -> chke u l al be eps c w = true -> forall t, Rabs t <= 1 -> goode u l al be eps (Q2R c + t * Q2R w).
Proof.
  intros Hu Hl Hlen H. unfold chke in H. destruct (Qle_bool 0 (c - w) && Qle_bool (c + w) 2 && Qle_bool 0 w) eqn:R; [|discriminate]. rewrite !Bool.andb_true_iff in R. destruct R as [[R1 R2] R3]. apply Q2R_le in R1, R2, R3. rewrite Q2R_minus, Q2R_0 in R1. rewrite Q2R_plus in R2. rewrite Q2R_0 in R3. replace (Q2R 2) with 2 in R2 by (unfold Q2R; cbn; lra).
  pose proof (ok_var c w) as Ox.
  assert (ok (tfuzz (thor (ecoef 26) (tvar c w)) te) (fun t => exp (Q2R c + t * Q2R w))) as Oz. { apply (ok_fuzz _ _ _ _ (ok_hor (ecoef 26) _ _ Ox)). intros s Hs. apply exp_taylor. apply Rabs_le_between in Hs. nra. }
  intros t Ht. cbv zeta in H. pose proof (ok_hor sA _ _ Oz) as OA. pose proof (ok_hor sB _ _ Oz) as OB. cbv beta in OA, OB.
  pose proof (ce_ok u l al be eps _ _ _ _ _ _ _ _ Hu Hl Hlen Ox Oz OA OB H t Ht) as K. cbv beta zeta in K. unfold goode. cbv zeta. exact K.
Qed.

(** *** large x, in s = 1 / x^2 *)
Definition qhat : list Q := [17170713638 # 10000000000; -28244692238 # 10000000000; 16263608247 # 10000000000; -21239572 # 1000000; -88051423 # 1000000; -155965 # 1].
Definition dq : Q := 1 # 10000000000.
(** the power -4/3 of C / D *)
Definition cq (C D q : tm) : bool :=
  let C2 := tmul C C in let C4 := tmul C2 C2 in let D2 := tmul D D in let D4 := tmul D2 D2 in
  let ql := tsub q (tcst dq) in let qh := tadd q (tcst dq) in
  tpos C && tpos D && tpos ql && tpos (tsub D4 (tmul (tmul ql (tmul ql ql)) C4)) && tpos (tsub (tmul (tmul qh (tmul qh qh)) C4) D4).
Lemma cube_lt a b : 0 < b -> a * (a * a) < b * (b * b) -> a < b.
Proof. intros Hb H. apply Rnot_le_lt. intros L. assert (b * b <= a * a) by nra. nra. Qed.
Lemma cq_ok C D q fc fd fq : ok C fc -> ok D fd -> ok q fq -> cq C D q = true -> forall t, Rabs t <= 1 -> 0 < fc t /\ 0 < fd t /\
  forall r, 0 < r -> r ^ 3 * (fc t / fd t) ^ 4 = 1 -> Rabs (r - fq t) <= Q2R dq.
Proof.
  intros OC OD Oq H t Ht. unfold cq in H. cbv zeta in H. pose proof (ok_mul _ _ _ _ OC OC) as OC2. pose proof (ok_mul _ _ _ _ OC2 OC2) as OC4. pose proof (ok_mul _ _ _ _ OD OD) as OD2. pose proof (ok_mul _ _ _ _ OD2 OD2) as OD4.
  pose proof (ok_sub _ _ _ _ Oq (ok_cst dq)) as Ol. pose proof (ok_add _ _ _ _ Oq (ok_cst dq)) as Oh. set (ql := tsub q (tcst dq)) in *. set (qh := tadd q (tcst dq)) in *.
  rewrite !Bool.andb_true_iff in H. destruct H as [[[[H1 H2] H3] H4] H5]. pose proof (ok_pos _ _ t OC H1 Ht) as K1. pose proof (ok_pos _ _ t OD H2 Ht) as K2. pose proof (ok_pos _ _ t Ol H3 Ht) as K3.
  pose proof (ok_pos _ _ t (ok_sub _ _ _ _ OD4 (ok_mul _ _ _ _ (ok_mul _ _ _ _ Ol (ok_mul _ _ _ _ Ol Ol)) OC4)) H4 Ht) as K4. pose proof (ok_pos _ _ t (ok_sub _ _ _ _ (ok_mul _ _ _ _ (ok_mul _ _ _ _ Oh (ok_mul _ _ _ _ Oh Oh)) OC4) OD4) H5 Ht) as K5.
  cbv beta in *. set (a := fc t) in *. set (d := fd t) in *. set (m := fq t) in *. split; [exact K1|split; [exact K2|]]. intros r Hr E.
  assert (r * (r * r) * (a * a * (a * a)) = d * d * (d * d)) as E2. { replace (d * d * (d * d)) with (d ^ 4 * 1) by ring. rewrite <- E. field. lra. }
  assert (0 < a * a * (a * a)) as A4 by (repeat (apply Rmult_lt_0_compat; try assumption)). assert (0 <= Q2R dq) by (unfold dq, Q2R; cbn; lra).
  assert (m - Q2R dq < r). { apply cube_lt; [exact Hr|]. apply Rmult_lt_reg_r with (a * a * (a * a)); [exact A4|]. lra. }
  assert (r < m + Q2R dq). { apply cube_lt; [lra|]. apply Rmult_lt_reg_r with (a * a * (a * a)); [exact A4|]. lra. }
  apply Rabs_le. lra.
Qed.
Definition bS : Q := 111632691 # 1000000.
Definition cS (u l : list Q) (eps : Q) (s q : tm) : bool :=
  let bq := tmul (tcst bS) q in
  let y := tsub (tcst 1) (tmul bq s) in let U := thor u y in let V := thor l y in
  let qV := tmul bq V in let e := tmul (tcst eps) qV in
  tpos V && tpos bq && tpos (tsub e (tsub U qV)) && tpos (tsub e (tsub qV U)).
Lemma cS_ok u l eps s q fs fr : ok s fs -> ok q fr -> cS u l eps s q = true -> forall t, Rabs t <= 1 ->
  let y := 1 - Q2R bS * fr t * fs t in 0 < pe (rq l) y /\ Rabs (pe (rq u) y / pe (rq l) y / (Q2R bS * fr t) - 1) <= Q2R eps.
Proof.
  intros Os Of H t Ht. unfold cS in H. cbv zeta in H. rewrite !Bool.andb_true_iff in H. destruct H as [[[H1 H2] H3] H4].
  pose proof (ok_mul _ _ _ _ (ok_cst bS) Of) as Ob. set (bq := tmul (tcst bS) q) in *. pose proof (ok_sub _ _ _ _ (ok_cst 1) (ok_mul _ _ _ _ Ob Os)) as Oy. set (y := tsub (tcst 1) (tmul bq s)) in *.
  pose proof (ok_hor u y _ Oy) as OU. pose proof (ok_hor l y _ Oy) as OV. set (U := thor u y) in *. set (V := thor l y) in *. pose proof (ok_mul _ _ _ _ Ob OV) as OqV. set (qV := tmul bq V) in *. pose proof (ok_mul _ _ _ _ (ok_cst eps) OqV) as Oe. set (e := tmul (tcst eps) qV) in *.
  pose proof (ok_pos _ _ t OV H1 Ht) as K1. pose proof (ok_pos _ _ t Ob H2 Ht) as K2. pose proof (ok_pos _ _ t (ok_sub _ _ _ _ Oe (ok_sub _ _ _ _ OU OqV)) H3 Ht) as K3. pose proof (ok_pos _ _ t (ok_sub _ _ _ _ Oe (ok_sub _ _ _ _ OqV OU)) H4 Ht) as K4.
  cbv beta in *. set (r := fr t) in *. replace (Q2R 1) with 1 in * by (unfold Q2R; cbn; lra). set (Y := 1 - Q2R bS * r * fs t) in *. cbv zeta. split; [exact K1|].
  replace (pe (rq u) Y / pe (rq l) Y / (Q2R bS * r)) with (pe (rq u) Y / (Q2R bS * r * pe (rq l) Y)) by (field; split; [lra|]; split; intros E0; rewrite E0 in K2; lra). apply (frac_of 1); [lra|now apply Rmult_lt_0_compat|lra|lra].
Qed.
Definition chkS (eps c w : Q) : bool :=
  let s := tvar c w in let q := thor qhat s in cq (thor sC s) (thor sD s) q && cS qrS_upper qrS_lower eps s (tfuzz q dq).
Definition goodS (eps : Q) (s : R) : Prop := 0 < pe (rq sC) s /\ 0 < pe (rq sD) s /\ forall q, 0 < q -> q ^ 3 * (pe (rq sC) s / pe (rq sD) s) ^ 4 = 1 ->
  let y := 1 - Q2R bS * q * s in 0 < pe (rq qrS_lower) y /\ Rabs (pe (rq qrS_upper) y / pe (rq qrS_lower) y / (Q2R bS * q) - 1) <= Q2R eps.
Lemma chkS_ok eps c w : chkS eps c w = true -> forall t, Rabs t <= 1 -> goodS eps (Q2R c + t * Q2R w).
Proof.
  intros H t Ht. unfold chkS in H. cbv zeta in H. apply Bool.andb_true_iff in H. destruct H as [Hq HS]. pose proof (ok_var c w) as Os. pose proof (ok_hor qhat _ _ Os) as Oq.
  pose proof (cq_ok _ _ _ _ _ _ (ok_hor sC _ _ Os) (ok_hor sD _ _ Os) Oq Hq t Ht) as (K1 & K2 & G). split; [exact K1|split; [exact K2|]]. intros r Hr E. specialize (G r Hr E).
  set (fr := fun s => if Req_EM_T s t then r else pe (rq qhat) (Q2R c + s * Q2R w)).
  assert (ok (tfuzz (thor qhat (tvar c w)) dq) fr) as Of. { apply (ok_fuzz _ _ _ _ Oq). intros p Hp. unfold fr. destruct (Req_EM_T p t) as [->|]; [exact G|]. rewrite Rminus_eq_0, Rabs_R0. unfold dq, Q2R; cbn; lra. }
  pose proof (cS_ok qrS_upper qrS_lower eps _ _ _ _ Os Of HS t Ht) as K. assert (fr t = r) as Er by (unfold fr; destruct (Req_EM_T t t); congruence). cbv beta in K. rewrite Er in K. exact K.
Qed.
Transparent tmul thor tpos tadd tsub tcst tvar tfuzz.
