(** Polynomials with rational coefficients: exact arithmetic, values and bounds. *)
From Coq Require Import Reals List Arith QArith Qreals Lra Lia Psatz.
From Coquelicot Require Import Coquelicot.
From Verif Require Import M_Const M_PlasmaState M_Math.
Import ListNotations.
Open Scope R_scope.

(** value of a polynomial with real coefficients *)
Fixpoint pe (p : list R) (x : R) : R := match p with [] => 0 | c :: r => c + x * pe r x end.
Definition rq (p : list Q) : list R := map Q2R p.

Lemma power_sum p x k : sum (map2 Rmult p (map (pow x) (seq k (length p)))) = x ^ k * pe p x.
Proof.
  revert k. induction p as [|c p IH]; intros k; cbn -[pow]; [ring|]. rewrite IH. cbn [pow]. ring.
Qed.
Lemma R1_pe a b x : R1_mk a b x = qdiv (pe a x) (pe b x).
Proof. unfold R1_mk. rewrite !power_sum. cbn [pow]. now rewrite !Rmult_1_l. Qed.

Fixpoint padd (p q : list Q) : list Q :=
  match p, q with [], _ => q | _, [] => p | a :: p', b :: q' => Qred (a + b) :: padd p' q' end.
Definition pscal (c : Q) (p : list Q) : list Q := map (fun a => Qred (c * a)) p.
Fixpoint pmul (p q : list Q) : list Q :=
  match p with [] => [] | a :: p' => padd (pscal a q) (0%Q :: pmul p' q) end.
Fixpoint pder_from (k : Z) (p : list Q) : list Q :=
  match p with [] => [] | a :: p' => Qred (inject_Z k * a) :: pder_from (k + 1) p' end.
Definition pder (p : list Q) : list Q := match p with [] => [] | _ :: p' => pder_from 1 p' end.
(** bound of the absolute value on [0, Y] *)
Fixpoint pabs (p : list Q) (Y : Q) : Q := match p with [] => 0%Q | a :: p' => Qred (Qabs.Qabs a + Y * pabs p' Y) end.
(** lower bound on [0, Y] *)
Fixpoint plow (p : list Q) (Y : Q) : Q :=
  match p with [] => 0%Q | a :: p' => Qred (a + (if Qlt_le_dec (plow p' Y) 0 then Y * plow p' Y else 0)) end.
Fixpoint pval (p : list Q) (x : Q) : Q := match p with [] => 0%Q | a :: p' => Qred (a + x * pval p' x) end.

Lemma Q2R_red q : Q2R (Qred q) = Q2R q.
Proof. apply Qeq_eqR. apply Qred_correct. Qed.
Lemma pe_add p q x : pe (rq (padd p q)) x = pe (rq p) x + pe (rq q) x.
Proof.
  revert q. induction p as [|a p IH]; intros [|b q]; cbn [padd rq map pe]; try ring. fold (rq (padd p q)). rewrite IH, Q2R_red, Q2R_plus. unfold rq. ring.
Qed.
Lemma pe_scal c p x : pe (rq (pscal c p)) x = Q2R c * pe (rq p) x.
Proof. induction p as [|a p IH]; cbn [pscal rq map pe]; [ring|]. fold (rq (map (fun a => Qred (c * a)) p)). fold (pscal c p). rewrite IH, Q2R_red, Q2R_mult. unfold rq. ring. Qed.
Lemma Q2R_0 : Q2R 0 = 0. Proof. unfold Q2R. cbn. lra. Qed.
Lemma pe_mul p q x : pe (rq (pmul p q)) x = pe (rq p) x * pe (rq q) x.
Proof.
  induction p as [|a p IH]; cbn [pmul]; [cbn; ring|]. rewrite pe_add, pe_scal. cbn [rq map pe]. change (map Q2R (pmul p q)) with (rq (pmul p q)). rewrite IH, Q2R_0. unfold rq. ring.
Qed.
Lemma Q2R_inj z : Q2R (inject_Z z) = IZR z. Proof. unfold Q2R, inject_Z. cbn. field. Qed.
Lemma pder_from_S k p x : pe (rq (pder_from (k + 1) p)) x = pe (rq (pder_from k p)) x + pe (rq p) x.
Proof.
  revert k. induction p as [|a p IH]; intros k; cbn [pder_from rq map pe]; [ring|]. fold (rq (pder_from (k + 1 + 1) p)). fold (rq (pder_from (k + 1) p)). rewrite IH, !Q2R_red, !Q2R_mult, !Q2R_inj, plus_IZR. unfold rq. ring.
Qed.
Lemma pe_der p x : is_derive (pe (rq p)) x (pe (rq (pder p)) x).
Proof.
  induction p as [|a p IH]; cbn [rq map pe pder]; [apply @is_derive_const|].
  evar_last; [apply @is_derive_plus; [apply @is_derive_const|apply (is_derive_mult (fun y : R => y)); [apply @is_derive_id|exact IH|intros; apply Rmult_comm]]|].
  unfold plus, zero, mult, one; cbn. assert (forall p, pe (rq (pder_from 1 p)) x = pe (rq p) x + x * pe (rq (pder p)) x) as H.
  { intros [|b p']; cbn [pder_from]; [cbn; ring|]. cbn [rq map pe pder]. fold (rq (pder_from (1 + 1) p')). rewrite Q2R_red, Q2R_mult, Q2R_inj.
    rewrite pder_from_S. unfold rq. ring. }
  change (map Q2R (pder_from 1 p)) with (rq (pder_from 1 p)). rewrite H. unfold rq. ring.
Qed.
Lemma pe_abs p x Y : 0 <= x <= Q2R Y -> Rabs (pe (rq p) x) <= Q2R (pabs p Y).
Proof.
  intros Hx. induction p as [|a p IH]; cbn [rq map pe pabs]; [rewrite Rabs_R0, Q2R_0; lra|].
  rewrite Q2R_red, Q2R_plus, Q2R_mult. eapply Rle_trans; [apply Rabs_triang|]. apply Rplus_le_compat.
  - destruct (Qlt_le_dec a 0) as [H|H].
    + assert (Q2R a < 0) by (rewrite <- Q2R_0; now apply Qlt_Rlt). rewrite Rabs_left by assumption. rewrite (Qeq_eqR (Qabs.Qabs a) (- a)) by (apply Qabs.Qabs_neg; now apply Qlt_le_weak). rewrite Q2R_opp. lra.
    + assert (0 <= Q2R a) by (rewrite <- Q2R_0; now apply Qle_Rle). rewrite Rabs_pos_eq by assumption. rewrite (Qeq_eqR (Qabs.Qabs a) a) by (now apply Qabs.Qabs_pos). lra.
  - rewrite Rabs_mult, (Rabs_pos_eq x) by lra. apply Rmult_le_compat; [lra|apply Rabs_pos|lra|exact IH].
Qed.
Lemma pe_low p x Y : 0 <= x <= Q2R Y -> Q2R (plow p Y) <= pe (rq p) x.
Proof.
  intros Hx. induction p as [|a p IH]; cbn [rq map pe plow]; [rewrite Q2R_0; lra|]. fold (rq p).
  rewrite Q2R_red, Q2R_plus. apply Rplus_le_compat_l. destruct (Qlt_le_dec (plow p Y) 0) as [H|H].
  - rewrite Q2R_mult. assert (Q2R (plow p Y) < 0) by (rewrite <- Q2R_0; now apply Qlt_Rlt).
    apply Rle_trans with (x * Q2R (plow p Y)); [|apply Rmult_le_compat_l; lra]. assert (0 <= (Q2R Y - x) * - Q2R (plow p Y)) by (apply Rmult_le_pos; lra). lra.
  - assert (0 <= Q2R (plow p Y)) by (rewrite <- Q2R_0; now apply Qle_Rle). rewrite Q2R_0. apply Rmult_le_pos; lra.
Qed.
Lemma pe_val p x : pe (rq p) (Q2R x) = Q2R (pval p x).
Proof. induction p as [|a p IH]; cbn [rq map pe pval]; [now rewrite Q2R_0|]. fold (rq p). rewrite IH, Q2R_red, Q2R_plus, Q2R_mult. reflexivity. Qed.
(** positive coefficients *)
Definition ppos (p : list Q) : bool := forallb (fun a => if Qlt_le_dec a 0 then false else true) p.
Lemma pe_nonneg p x : ppos p = true -> 0 <= x -> 0 <= pe (rq p) x.
Proof.
  intros Hp Hx. induction p as [|a p IH]; cbn; [lra|]. cbn in Hp. destruct (Qlt_le_dec a 0) as [|H]; [discriminate|]. assert (0 <= Q2R a) by (rewrite <- Q2R_0; now apply Qle_Rle).
  pose proof (Rmult_le_pos x _ Hx (IH Hp)). unfold rq in *. lra.
Qed.
Lemma pe_mono p x y : ppos p = true -> 0 <= x <= y -> pe (rq p) x <= pe (rq p) y.
Proof.
  intros Hp Hx. induction p as [|a p IH]; cbn; [lra|]. cbn in Hp. destruct (Qlt_le_dec a 0) as [|H]; [discriminate|]. apply Rplus_le_compat_l. apply Rmult_le_compat; try lra; [now apply pe_nonneg; [|lra]|now apply IH].
Qed.
Lemma pe_head a p x : ppos p = true -> 0 <= x -> Q2R a <= pe (rq (a :: p)) x.
Proof. intros Hp Hx. cbn. pose proof (Rmult_le_pos x _ Hx (pe_nonneg p x Hp Hx)). unfold rq in *. lra. Qed.
Lemma pe_cont p x : continuous (pe (rq p)) x.
Proof. apply (ex_derive_continuous (pe (rq p))). eexists. apply pe_der. Qed.
(** a fraction whose numerator of the derivative has positive coefficients increases *)
Definition pwron (p q : list Q) : list Q := padd (pmul (pder p) q) (pscal (-1) (pmul p (pder q))).
Lemma pe_wron p q x : pe (rq (pwron p q)) x = pe (rq (pder p)) x * pe (rq q) x - pe (rq p) x * pe (rq (pder q)) x.
Proof. unfold pwron. rewrite pe_add, pe_scal, !pe_mul. replace (Q2R (-1)) with (-1) by (unfold Q2R; cbn; lra). ring. Qed.
Lemma frac_derive p q x : pe (rq q) x <> 0 -> is_derive (fun y => pe (rq p) y / pe (rq q) y) x (pe (rq (pwron p q)) x / pe (rq q) x ^ 2).
Proof.
  intros Hq. evar_last; [apply is_derive_div; [apply pe_der|apply pe_der|exact Hq]|]. rewrite pe_wron. unfold minus, plus, opp, mult; cbn. field. exact Hq.
Qed.
