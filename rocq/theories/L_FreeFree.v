From Coq Require Import Reals List Arith Lra Lia Psatz FunctionalExtensionality.
From Coquelicot Require Import Complex.
From Verif Require Import M_Const M_PlasmaState M_PlasmaPhysics L_PlasmaPhysics M_Interp L_Interp M_Instrument L_Instrument M_FreeFree.
Import ListNotations.
Open Scope R_scope.

(** ** Complex numbers *)
Lemma C_eq (a b : C) : fst a = fst b -> snd a = snd b -> a = b.
Proof. destruct a, b; cbn; congruence. Qed.
Ltac cz := apply C_eq; unfold Cdiv, Cinv, Cminus, Cplus, Cmult, Copp, Cconj, RtoC, Ci; cbn [fst snd].
Lemma Cconj_conj a : Cconj (Cconj a) = a.
Proof. cz; ring. Qed.
Lemma Cconj_mult a b : Cconj (Cmult a b) = Cmult (Cconj a) (Cconj b).
Proof. cz; ring. Qed.
Lemma Cconj_plus a b : Cconj (Cplus a b) = Cplus (Cconj a) (Cconj b).
Proof. cz; ring. Qed.
Lemma Cconj_opp a : Cconj (Copp a) = Copp (Cconj a).
Proof. cz; ring. Qed.
Lemma Cconj_minus a b : Cconj (Cminus a b) = Cminus (Cconj a) (Cconj b).
Proof. cz; ring. Qed.
Lemma Cconj_R x : Cconj (RtoC x) = RtoC x.
Proof. cz; ring. Qed.
Lemma Cconj_i : Cconj Ci = Copp Ci.
Proof. cz; ring. Qed.
Lemma Cconj_inv a : Cconj (Cinv a) = Cinv (Cconj a).
Proof. cz; unfold Rdiv; replace ((- snd a) ^ 2) with (snd a ^ 2) by ring; ring. Qed.
Lemma Cconj_div a b : Cconj (Cdiv a b) = Cdiv (Cconj a) (Cconj b).
Proof. unfold Cdiv. now rewrite Cconj_mult, Cconj_inv. Qed.
Lemma Cconj_0 a : Cconj a = RtoC 0 <-> a = RtoC 0.
Proof.
  split; intros H; [|subst; apply Cconj_R]. rewrite <- (Cconj_conj a), H. apply Cconj_R.
Qed.
Global Hint Rewrite Cconj_mult Cconj_plus Cconj_opp Cconj_minus Cconj_R Cconj_i Cconj_inv Cconj_div Cconj_conj : conj.

Definition oconj (x : option C) : option C := option_map Cconj x.
Lemma oconj_oconj x : oconj (oconj x) = x.
Proof. destruct x; cbn; [|reflexivity]. now rewrite Cconj_conj. Qed.
Lemma cdiv_conj a b : cdiv (Cconj a) (Cconj b) = oconj (cdiv a b).
Proof.
  unfold cdiv. destruct (Ceq_dec b 0) as [->|H].
  - destruct (Ceq_dec (Cconj 0) 0) as [|n]; [reflexivity|]. destruct n. apply Cconj_R.
  - destruct (Ceq_dec (Cconj b) 0) as [e|n]; [apply (proj1 (Cconj_0 b)) in e; contradiction|]. cbn. now rewrite Cconj_div.
Qed.
Lemma cdiv_opp a b : cdiv (Copp a) (Copp b) = cdiv a b.
Proof.
  unfold cdiv. destruct (Ceq_dec b 0) as [->|H].
  - destruct (Ceq_dec (Copp 0) 0) as [|n]; [reflexivity|]. destruct n. cz; ring.
  - destruct (Ceq_dec (Copp b) 0) as [e|n].
    + destruct H. replace b with (Copp (Copp b)) by (cz; ring). rewrite e. cz; ring.
    + f_equal. field. split; assumption.
Qed.
Lemma cdiv_some a b : b <> RtoC 0 -> cdiv a b = Some (Cdiv a b).
Proof. intros H. unfold cdiv. destruct (Ceq_dec b 0); [contradiction|reflexivity]. Qed.
Lemma cdiv_inv a b c : cdiv a b = Some c -> b <> RtoC 0 /\ c = Cdiv a b.
Proof. unfold cdiv. destruct (Ceq_dec b 0); [discriminate|]. intros [= <-]. auto. Qed.
Lemma cdiv_0 a : cdiv a (RtoC 0) = None.
Proof. unfold cdiv. destruct (Ceq_dec 0 0); [reflexivity|congruence]. Qed.
Lemma qdiv_inv a b c : qdiv a b = Some c -> b <> 0 /\ c = a / b.
Proof. unfold qdiv. destruct (Req_EM_T b 0); [discriminate|]. intros [= <-]. auto. Qed.
Lemma qdiv_0 a : qdiv a 0 = None.
Proof. unfold qdiv. destruct (Req_EM_T 0 0); [reflexivity|congruence]. Qed.
Lemma obind_some {A B} (x : option A) (f : A -> option B) y : obind x f = Some y -> exists a, x = Some a /\ f a = Some y.
Proof. destruct x; cbn; [eauto|discriminate]. Qed.
Lemma obind_none {A B} (x : option A) : obind x (fun _ => @None B) = None.
Proof. now destruct x. Qed.

Lemma xi_lfc_conj xi v lfc : xi_lfc (Cconj xi) v (Cconj lfc) = oconj (xi_lfc xi v lfc).
Proof. unfold xi_lfc. rewrite <- cdiv_conj. f_equal. now autorewrite with conj. Qed.

Section FF.
  Variable u : consts.
  Notation V k := (coulomb_k u (-1) (-1) k).
  Notation kT T := (kB u * T).

  Lemma V_pos k : k <> 0 -> 0 < V k.
  Proof.
    intros H. unfold coulomb_k. pose proof (eps0_pos u). pose proof (e_pos u).
    assert (0 < k ^ 2) by (rewrite <- Rsqr_pow2; now apply Rsqr_pos_lt).
    assert (0 < e_ch u ^ 2) by (now apply pow_lt).
    replace (1 / eps0 u * (-1 * -1 * e_ch u ^ 2) / k ^ 2) with (e_ch u ^ 2 * / (eps0 u * k ^ 2)) by (field; split; lra).
    apply Rmult_lt_0_compat; [assumption|]. apply Rinv_0_lt_compat. now apply Rmult_lt_0_compat.
  Qed.
  Lemma v_k_V k : k <> 0 -> v_k u k = V k.
  Proof. intros H. unfold v_k, coulomb_k. pose proof (eps0_pos u). field. split; (assumption || lra). Qed.

  (** Boltzmann factor *)
  Lemma boltz_0 T E : 0 < T -> 1 - exp (- (E / kT T)) = 0 <-> E = 0.
  Proof.
    intros HT. pose proof (kB_pos u) as HK. assert (0 < kT T) by (now apply Rmult_lt_0_compat). split; intros H0.
    - assert (exp (- (E / kT T)) = exp 0) as H1 by (rewrite exp_0; lra). apply exp_inv in H1.
      assert (E / kT T = 0) by lra. replace E with (E / kT T * kT T) by (field; lra). rewrite H2. ring.
    - subst. unfold Rdiv. rewrite Rmult_0_l, Ropp_0, exp_0. ring.
  Qed.
  Lemma boltz_sign T E : 0 < T -> E <> 0 -> 0 < E * (1 - exp (- (E / kT T))).
  Proof.
    intros HT HE. pose proof (kB_pos u) as HK. assert (0 < kT T) by (now apply Rmult_lt_0_compat).
    assert (Hx : forall x, 0 < x -> 0 < x / kT T) by (intros x Hx; apply Rmult_lt_0_compat; [assumption|now apply Rinv_0_lt_compat]).
    destruct (Rtotal_order E 0) as [L|[L|L]]; [|contradiction|].
    - assert (exp 0 < exp (- (E / kT T))).
      { apply exp_increasing. specialize (Hx (- E) ltac:(lra)). unfold Rdiv in *. lra. }
      rewrite exp_0 in H0. nra.
    - assert (exp (- (E / kT T)) < exp 0) by (apply exp_increasing; specialize (Hx E L); lra).
      rewrite exp_0 in H0. nra.
  Qed.

  Lemma fdt_zero k T n xi : 0 < T -> S0ee_from_susceptibility_FDT u k T n 0 xi = None.
  Proof.
    intros HT. unfold S0ee_from_susceptibility_FDT. replace (1 - exp (- (0 / kT T))) with 0.
    - now rewrite qdiv_0.
    - symmetry. now apply boltz_0.
  Qed.
  Lemma fdt_conj k T n E xi : 0 < T ->
    S0ee_from_susceptibility_FDT u k T n (- E) (Cconj xi) =
    option_map (fun s => exp (- (E / kT T)) * s) (S0ee_from_susceptibility_FDT u k T n E xi).
  Proof.
    intros HT. destruct (Req_EM_T E 0) as [->|HE].
    { rewrite Ropp_0, !fdt_zero by assumption. reflexivity. }
    unfold S0ee_from_susceptibility_FDT. rewrite !qdiv_some by (now rewrite boltz_0 by assumption; lra).
    cbn [obind option_map]. f_equal. unfold Cmult, Cconj, RtoC. cbn [fst snd].
    pose proof (proj2 (not_iff_compat (boltz_0 T E HT)) HE) as H1.
    replace (- (- E / kT T)) with (E / kT T) by (unfold Rdiv; ring). rewrite exp_Ropp in *.
    set (x := exp (E / kT T)) in *. assert (Hx : 0 < x) by apply exp_pos. clearbody x.
    assert (H2 : 1 - x <> 0).
    { intros H. apply H1. replace x with 1 by lra. rewrite Rinv_1. ring. }
    set (c := hbar u / (PI * n * V k)). clearbody c. field. split; [intros H; apply H2; lra|split; [lra|assumption]].
  Qed.
  Lemma fdt_pos k T n E xi : 0 < T -> 0 < n -> k <> 0 -> E <> 0 -> E * snd xi < 0 ->
    exists s, S0ee_from_susceptibility_FDT u k T n E xi = Some s /\ 0 < s.
  Proof.
    intros HT Hn Hk HE Hx. unfold S0ee_from_susceptibility_FDT.
    pose proof (boltz_sign T E HT HE) as HB. rewrite qdiv_some by (intros H; rewrite H in HB; lra).
    cbn [obind]. eexists; split; [reflexivity|]. pose proof (V_pos k Hk) as HV. pose proof (hbar_pos u) as Hh.
    pose proof PI_RGT_0 as HPI. unfold Cmult, RtoC. cbn [fst snd]. set (b := 1 - exp _) in *. clearbody b.
    assert (Hb : b <> 0) by (intros ->; lra).
    replace (- (hbar u / (PI * n * V k) / b * (fst xi * 0 + snd xi * V k)))
      with (- (E * snd xi) * (hbar u * / (PI * n)) * / (E * b)).
    - apply Rmult_lt_0_compat; [|now apply Rinv_0_lt_compat]. apply Rmult_lt_0_compat; [lra|].
      apply Rmult_lt_0_compat; [assumption|]. apply Rinv_0_lt_compat. now apply Rmult_lt_0_compat.
    - field. repeat split; lra.
  Qed.

  (** A real local field correction divides the dissipative part by a square. *)
  Lemma xi_lfc_pos (xi : C) v g : snd xi <> 0 -> v <> 0 ->
    exists y d, 0 < d /\ xi_lfc xi v (RtoC g) = Some y /\ snd y = snd xi / d.
  Proof.
    destruct xi as [a b]. cbn [snd]. intros Hb Hv.
    assert (Hd : 0 < (1 - v * (1 - g) * a) ^ 2 + (v * (1 - g) * b) ^ 2).
    { destruct (Req_EM_T (1 - g) 0) as [E|E].
      - rewrite E. rewrite Rmult_0_r, !Rmult_0_l. lra.
      - assert (v * (1 - g) * b <> 0) by (repeat apply Rmult_integral_contrapositive_currified; assumption).
        pose proof (pow2_ge_0 (1 - v * (1 - g) * a)). assert (0 < (v * (1 - g) * b) ^ 2) by (rewrite <- Rsqr_pow2; now apply Rsqr_pos_lt). lra. }
    exists (Cdiv (a, b) (Cminus (RtoC 1) (Cmult (Cmult (RtoC v) (Cminus (RtoC 1) (RtoC g))) (a, b)))),
      ((1 - v * (1 - g) * a) ^ 2 + (v * (1 - g) * b) ^ 2).
    split; [assumption|]. split.
    - unfold xi_lfc. apply cdiv_some. intros E.
      assert (E1 : 1 - v * (1 - g) * a = 0).
      { transitivity (fst (Cminus (RtoC 1) (Cmult (Cmult (RtoC v) (Cminus (RtoC 1) (RtoC g))) (a, b)))); [|now rewrite E].
        unfold Cminus, Cmult, Cplus, Copp, RtoC. cbn [fst snd]. ring. }
      assert (E2 : v * (1 - g) * b = 0).
      { transitivity (- snd (Cminus (RtoC 1) (Cmult (Cmult (RtoC v) (Cminus (RtoC 1) (RtoC g))) (a, b)))); [|rewrite E; cbn; ring].
        unfold Cminus, Cmult, Cplus, Copp, RtoC. cbn [fst snd]. ring. }
      rewrite E1, E2 in Hd. lra.
    - unfold Cdiv, Cminus, Cinv, Cmult, Cplus, Copp, RtoC. cbn [fst snd]. field.
      intros H.
      match type of H with ?t = 0 => replace t with ((1 - v * (1 - g) * a) ^ 2 + (v * (1 - g) * b) ^ 2) in H by ring end. lra.
  Qed.
  Lemma xi0_conj eps k : xi0_from_eps_RPA u (Cconj eps) k = Cconj (xi0_from_eps_RPA u eps k).
  Proof. unfold xi0_from_eps_RPA, Vee. now autorewrite with conj. Qed.
  Lemma xi0_imag eps k : k <> 0 -> snd (xi0_from_eps_RPA u eps k) = - snd eps / V k.
  Proof.
    intros H. pose proof (V_pos k H). unfold xi0_from_eps_RPA, Vee, Cdiv, Cinv, Cmult, Cminus, Cplus, Copp, RtoC. cbn [fst snd].
    field. lra.
  Qed.

  (** *** Spectra from a response function with the reality symmetry *)
  Lemma balance_xi k T n E v lfc (xi : R -> option C) : 0 < T -> Cconj lfc = lfc ->
    xi E = oconj (xi (- E)) ->
    obind (xi E) (fun x => obind (xi_lfc x v lfc) (fun y => S0ee_from_susceptibility_FDT u k T n E y)) =
    option_map (fun s => exp (E / kT T) * s)
      (obind (xi (- E)) (fun x => obind (xi_lfc x v lfc) (fun y => S0ee_from_susceptibility_FDT u k T n (- E) y))).
  Proof.
    intros HT Hl Hs. rewrite Hs. destruct (xi (- E)) as [x|]; cbn [oconj option_map obind]; [|reflexivity].
    rewrite <- Hl at 1. rewrite xi_lfc_conj. destruct (xi_lfc x v lfc) as [y|]; cbn [oconj option_map obind]; [|reflexivity].
    rewrite <- (Ropp_involutive E) at 1. rewrite fdt_conj by assumption.
    replace (- (- E / kT T)) with (E / kT T) by (unfold Rdiv; ring). reflexivity.
  Qed.
  Lemma positive_xi k T n E v g (x : C) : 0 < T -> 0 < n -> k <> 0 -> E <> 0 -> v <> 0 -> E * snd x < 0 ->
    exists s, obind (xi_lfc x v (RtoC g)) (fun y => S0ee_from_susceptibility_FDT u k T n E y) = Some s /\ 0 < s.
  Proof.
    intros HT Hn Hk HE Hv Hx. destruct (xi_lfc_pos x v g) as (y & d & Hd & -> & Hy); [intros H; rewrite H in Hx; lra|assumption|].
    cbn [obind]. apply fdt_pos; try assumption. rewrite Hy. unfold Rdiv. rewrite <- Rmult_assoc.
    assert (0 < / d) by (now apply Rinv_0_lt_compat). nra.
  Qed.
End FF.
