From Coq Require Import Reals List Bool Arith Lra Lia Psatz Permutation.
From Verif Require Import M_Const M_PlasmaState L_PlasmaState M_PlasmaPhysics L_PlasmaPhysics M_StaticSF L_StaticSF M_Interp M_Elements
  M_Setup L_Setup M_IonFeature.
Import ListNotations.
Open Scope R_scope.

(** ** Sums *)
Lemma nsum_plus n f g : nsum n (fun i => f i + g i) = nsum n f + nsum n g.
Proof. induction n as [|n IH]; cbn; [lra|]. rewrite IH. lra. Qed.
Lemma nsum_swap n m f : nsum n (fun i => nsum m (fun j => f i j)) = nsum m (fun j => nsum n (fun i => f i j)).
Proof.
  induction n as [|n IH]; cbn.
  - induction m as [|m IHm]; cbn; [reflexivity|]. rewrite <- IHm. lra.
  - rewrite IH, <- nsum_plus. reflexivity.
Qed.
Lemma nsum_nonneg n f : (forall i, (i < n)%nat -> 0 <= f i) -> 0 <= nsum n f.
Proof. induction n as [|n IH]; cbn; intros H; [lra|]. pose proof (H n ltac:(lia)). assert (0 <= nsum n f) by (apply IH; intros; apply H; lia). lra. Qed.
Lemma nsum_first n f : nsum (S n) f = f O + nsum n (fun i => f (S i)).
Proof. induction n as [|n IH]; [cbn; lra|]. change (nsum (S (S n)) f) with (nsum (S n) f + f (S n)). rewrite IH. cbn [nsum]. lra. Qed.
Lemma nsum_eye n f i : (i < n)%nat -> nsum n (fun a => eye a i * f a) = f i.
Proof.
  intros Hi. rewrite (nsum_single n _ i Hi).
  - unfold eye. rewrite Nat.eqb_refl. lra.
  - intros j Hj Hne. unfold eye. destruct (Nat.eqb_spec j i); [contradiction|lra].
Qed.
Lemma nsum_list {A} (f : A -> R) d l : nsum (length l) (fun a => f (nth a l d)) = sum (map f l).
Proof.
  induction l as [|x l IH]; [reflexivity|]. cbn [length]. rewrite nsum_first. cbn [nth map]. rewrite IH. reflexivity.
Qed.
Lemma nsum_outer n c v : nsum n (fun b => nsum n (fun a => c * (v a * v b))) = c * (nsum n v) ^ 2.
Proof.
  rewrite (nsum_ext n _ (fun b => (c * nsum n v) * v b)).
  - rewrite nsum_scal. ring.
  - intros b _. rewrite (nsum_ext n _ (fun a => (c * v b) * v a)) by (intros; ring). rewrite nsum_scal. ring.
Qed.
Lemma cauchy n v w : (nsum n (fun i => v i * w i)) ^ 2 <= nsum n (fun i => v i ^ 2) * nsum n (fun i => w i ^ 2).
Proof.
  set (P := nsum n (fun i => v i * w i)). set (V := nsum n (fun i => v i ^ 2)). set (W := nsum n (fun i => w i ^ 2)).
  assert (HV : 0 <= V) by (apply nsum_nonneg; intros; apply pow2_ge_0).
  assert (HW : 0 <= W) by (apply nsum_nonneg; intros; apply pow2_ge_0).
  assert (Q : forall t, 0 <= t ^ 2 * V - 2 * t * P + W).
  { intros t. replace (t ^ 2 * V - 2 * t * P + W) with (nsum n (fun i => (t * v i - w i) ^ 2)).
    - apply nsum_nonneg. intros. apply pow2_ge_0.
    - unfold V, P, W. rewrite (nsum_ext n _ (fun i => (t ^ 2 * v i ^ 2 + (-2 * t) * (v i * w i)) + w i ^ 2)) by (intros; ring).
      rewrite !nsum_plus, !nsum_scal. ring. }
  destruct HV as [HV|HV].
  - specialize (Q (P / V)). replace ((P / V) ^ 2 * V - 2 * (P / V) * P + W) with ((V * W - P ^ 2) / V) in Q by (field; lra).
    assert (0 <= (V * W - P ^ 2) / V * V) by (apply Rmult_le_pos; lra). unfold Rdiv in H. rewrite Rmult_assoc, Rinv_l in H by lra. lra.
  - rewrite <- HV in *. destruct (Req_dec P 0) as [->|HP]; [lra|].
    specialize (Q ((W + 1) / (2 * P))). replace (((W + 1) / (2 * P)) ^ 2 * 0 - 2 * ((W + 1) / (2 * P)) * P + W) with (-1) in Q by (field; lra). lra.
Qed.

(** ** Quadratic forms *)
Definition quad (n : nat) (S : nat -> nat -> R) (v : nat -> R) : R :=
  nsum n (fun b => nsum n (fun a => v a * v b * S a b)).
(** positive semi-definite *)
Definition PSD (n : nat) (S : nat -> nat -> R) : Prop := forall v, 0 <= quad n S v.

Lemma Rayleigh_quad n x F S : (forall a, (a < n)%nat -> 0 <= x a) -> Rayleigh n x F S = quad n S (fun a => sqrt (x a) * F a).
Proof.
  intros Hx. unfold Rayleigh, quad. apply nsum_ext. intros b Hb. apply nsum_ext. intros a Ha.
  rewrite sqrt_mult_alt by (apply Hx; assumption). ring.
Qed.
Lemma quad_eye n v : quad n eye v = nsum n (fun a => v a ^ 2).
Proof.
  unfold quad. apply nsum_ext. intros b Hb. rewrite (nsum_ext n _ (fun a => eye a b * (v a * v b))) by (intros; ring).
  rewrite (nsum_eye n (fun a => v a * v b) b Hb). ring.
Qed.
Lemma quad_rank1 n S w c v : (forall a b, (a < n)%nat -> (b < n)%nat -> S a b = eye a b + c * (w a * w b)) ->
  quad n S v = nsum n (fun a => v a ^ 2) + c * (nsum n (fun a => v a * w a)) ^ 2.
Proof.
  intros HS. rewrite <- (nsum_outer n c (fun a => v a * w a)), <- quad_eye. unfold quad. rewrite <- nsum_plus.
  apply nsum_ext. intros b Hb. rewrite <- nsum_plus. apply nsum_ext. intros a Ha. rewrite HS by assumption. ring.
Qed.
Lemma quad_ext n S T v : (forall a b, (a < n)%nat -> (b < n)%nat -> S a b = T a b) -> quad n S v = quad n T v.
Proof. intros H. unfold quad. apply nsum_ext. intros b Hb. apply nsum_ext. intros a Ha. now rewrite H. Qed.

(** ** Reordering indices *)
Definition reindexing (n : nat) (p : nat -> nat) : Prop := Permutation (map p (seq 0 n)) (seq 0 n).
Lemma nsum_seq n f : nsum n f = sum (map f (seq 0 n)).
Proof.
  induction n as [|n IH]; [reflexivity|]. rewrite seq_S, map_app. cbn [nsum]. rewrite IH. unfold sum. rewrite fold_right_app. cbn [map fold_right plus].
  generalize (f n). intros y. generalize (map f (seq 0 n)). intros l. induction l as [|x l IHl]; cbn in *; lra.
Qed.
Lemma nsum_reindex n p f : reindexing n p -> nsum n (fun a => f (p a)) = nsum n f.
Proof.
  intros H. rewrite !nsum_seq, <- (map_map p f). apply sum_perm. now apply Permutation_map.
Qed.
Lemma Rayleigh_reindex n p x F S : reindexing n p ->
  Rayleigh n (fun a => x (p a)) (fun a => F (p a)) (fun a b => S (p a) (p b)) = Rayleigh n x F S.
Proof.
  intros H. unfold Rayleigh.
  rewrite (nsum_reindex n p (fun b => nsum n (fun a => sqrt (x (p a) * x b) * F (p a) * F b * S (p a) b)) H).
  apply nsum_ext. intros b _. exact (nsum_reindex n p (fun a => sqrt (x a * x b) * F a * F b * S a b) H).
Qed.

(** ** States as lists of species carrying anything else *)
Section Zip.
  Context {A : Type}.
  Variables (sp : A -> spec) (Te : R) (ov : list R).
  Definition state_of (L : list A) : pstate :=
    mkPS (map (fun x => sp_el (sp x)) L) (map (fun x => sp_Z (sp x)) L) (map (fun x => sp_rho (sp x)) L) Te
         (map (fun x => sp_T (sp x)) L) ov.
  Definition nd (x : A) : R := sp_n (sp x).
  Lemma state_of_zip L : state_of L = mkPS (map sp_el (map sp L)) (map sp_Z (map sp L)) (map sp_rho (map sp L)) Te (map sp_T (map sp L)) ov.
  Proof. unfold state_of. now rewrite !map_map. Qed.
  Definition Ntot (L : list A) : R := sum (map nd L).
  Lemma ni_of L : n_i (state_of L) = Some (map nd L).
  Proof. rewrite state_of_zip, n_i_zip, map_map. reflexivity. Qed.
  Lemma ne_of L : n_e (state_of L) = Some (sum (map (fun x => nd x * sp_Z (sp x)) L)).
  Proof. rewrite state_of_zip, n_e_zip, map_map. reflexivity. Qed.
  Lemma nf_of L : Ntot L <> 0 -> number_fraction (state_of L) = Some (map (fun x => nd x / Ntot L) L).
  Proof. intros H. unfold number_fraction. rewrite ni_of. cbn [obind]. unfold div_scalar. fold (Ntot L). destruct (Req_EM_T _ 0); [contradiction|]. now rewrite map_map. Qed.
  Lemma zcore_of L : Z_core (state_of L) = Some (map (fun x => el_Z (sp_el (sp x)) - sp_Z (sp x)) L).
  Proof. unfold Z_core, Z_A, state_of. cbn [ions Z_free]. now rewrite map_map, ew_map. Qed.
  Lemma masses_of L : atomic_masses (state_of L) = map (fun x => sp_m (sp x)) L.
  Proof. unfold atomic_masses, state_of. cbn [ions]. now rewrite map_map. Qed.
  Lemma nions_of L : nions (state_of L) = length L.
  Proof. unfold nions, state_of. cbn. apply map_length. Qed.
  Lemma weighted_of f L : Ntot L <> 0 -> weighted (map nd L) (map f L) = Some (1 / Ntot L * sum (map (fun x => nd x * f x) L)).
  Proof. intros H. unfold weighted. rewrite ew_map. cbn [obind]. fold (Ntot L). rewrite qdiv_some by assumption. reflexivity. Qed.

  Lemma at_map f (L : list A) d a : (a < length L)%nat -> at_ (map f L) a = f (nth a L d).
  Proof. intros H. unfold at_. now apply nth_map_in. Qed.

  (** the mixture matrix as a rank-one correction *)
  Definition good (L : list A) : Prop := List.Forall (fun x => 0 < sp_m (sp x) /\ 0 < sp_rho (sp x)) L /\ L <> [].
  Lemma nd_pos L x : good L -> In x L -> 0 < nd x.
  Proof. intros [G _] Hx. rewrite Forall_forall in G. destruct (G x Hx). unfold nd, sp_n. now apply Rdiv_lt_0_compat. Qed.
  Lemma Ntot_pos L : good L -> 0 < Ntot L.
  Proof.
    intros G. apply sum_pos; [destruct G as [_ G]; destruct L; [contradiction|discriminate]|].
    intros y Hy. apply in_map_iff in Hy. destruct Hy as (x & <- & Hx). now apply nd_pos with L.
  Qed.
  Lemma mixture_rank1 L d Zf S M : good L -> mixture (map nd L) (map (fun x => sp_Z (sp x)) L) Zf S = Some M ->
    forall a b, (a < length L)%nat -> (b < length L)%nat ->
    M a b = eye a b + (S - 1) / Zf ^ 2 *
      ((sqrt (nd (nth a L d) / Ntot L) * sp_Z (sp (nth a L d))) * (sqrt (nd (nth b L d) / Ntot L) * sp_Z (sp (nth b L d)))).
  Proof.
    intros G HM a b Ha Hb. unfold mixture in HM. destruct (Req_EM_T Zf 0); [discriminate|]. fold (Ntot L) in HM.
    destruct (Req_EM_T (Ntot L) 0); [discriminate|]. injection HM as <-.
    rewrite !(at_map _ L d) by assumption. pose proof (Ntot_pos L G) as HN.
    pose proof (nd_pos L _ G (nth_In L d Ha)). pose proof (nd_pos L _ G (nth_In L d Hb)).
    rewrite !sqrt_div_alt, sqrt_mult_alt by lra.
    f_equal. replace (Ntot L) with (sqrt (Ntot L) * sqrt (Ntot L)) at 1 by (apply sqrt_sqrt; lra).
    pose proof (sqrt_lt_R0 _ HN). field. split; lra.
  Qed.
  Lemma mixture_some L Zf S : good L -> Zf <> 0 -> exists M, mixture (map nd L) (map (fun x => sp_Z (sp x)) L) Zf S = Some M.
  Proof.
    intros G HZ. unfold mixture. destruct (Req_EM_T Zf 0); [contradiction|]. fold (Ntot L). pose proof (Ntot_pos L G).
    destruct (Req_EM_T (Ntot L) 0); [lra|]. eexists. reflexivity.
  Qed.

  (** averages over the ions *)
  Definition avg (f : A -> R) (L : list A) : R := sum (map (fun x => nd x / Ntot L * f x) L).
  Lemma avg_weighted f L : good L -> 1 / Ntot L * sum (map (fun x => nd x * f x) L) = avg f L.
  Proof.
    intros G. pose proof (Ntot_pos L G). unfold avg. rewrite <- sum_map_scal. apply sum_map_ext. intros x _. field. lra.
  Qed.
  Lemma quad_mixture L d Zf S M v : good L -> mixture (map nd L) (map (fun x => sp_Z (sp x)) L) Zf S = Some M ->
    quad (length L) M v = nsum (length L) (fun a => v a ^ 2) +
      (S - 1) / Zf ^ 2 * (nsum (length L) (fun a => v a * (sqrt (nd (nth a L d) / Ntot L) * sp_Z (sp (nth a L d))))) ^ 2.
  Proof.
    intros G HM. apply (quad_rank1 _ _ (fun a => sqrt (nd (nth a L d) / Ntot L) * sp_Z (sp (nth a L d)))).
    intros a b Ha Hb. now apply (mixture_rank1 L d Zf S M).
  Qed.
  Lemma frac_nonneg L x : good L -> In x L -> 0 <= nd x / Ntot L.
  Proof. intros G Hx. left. apply Rdiv_lt_0_compat; [now apply nd_pos with L|now apply Ntot_pos]. Qed.
  Lemma Rayleigh_mixture L d Zf S M (F : A -> R) : good L -> mixture (map nd L) (map (fun x => sp_Z (sp x)) L) Zf S = Some M ->
    Rayleigh (length L) (fun a => nd (nth a L d) / Ntot L) (fun a => F (nth a L d)) M
    = avg (fun x => F x ^ 2) L + (S - 1) / Zf ^ 2 * (avg (fun x => F x * sp_Z (sp x)) L) ^ 2.
  Proof.
    intros G HM. rewrite Rayleigh_quad.
    2:{ intros a Ha. apply frac_nonneg; [assumption|]. now apply nth_In. }
    rewrite (quad_mixture L d Zf S M) by assumption. f_equal; [|f_equal; f_equal].
    - unfold avg. rewrite <- (nsum_list _ d). apply nsum_ext. intros a Ha.
      rewrite Rpow_mult_distr, pow2_sqrt; [ring|]. apply frac_nonneg; [assumption|]. now apply nth_In.
    - unfold avg. rewrite <- (nsum_list _ d). apply nsum_ext. intros a Ha.
      assert (0 <= nd (nth a L d) / Ntot L) by (apply frac_nonneg; [assumption|now apply nth_In]).
      rewrite <- (sqrt_sqrt (nd (nth a L d) / Ntot L)) at 3 by assumption. ring.
  Qed.
  Lemma PSD_mixture L Zf S M : good L -> mixture (map nd L) (map (fun x => sp_Z (sp x)) L) Zf S = Some M ->
    (PSD (length L) M <-> 0 <= 1 + (S - 1) / Zf ^ 2 * avg (fun x => sp_Z (sp x) ^ 2) L).
  Proof.
    intros G HM. assert (HL : L <> []) by apply G. destruct L as [|d L0] eqn:EL; [contradiction|]. rewrite <- EL in *.
    assert (HZf : Zf <> 0). { unfold mixture in HM. destruct (Req_EM_T Zf 0); [discriminate|assumption]. }
    assert (HW : nsum (length L) (fun a => (sqrt (nd (nth a L d) / Ntot L) * sp_Z (sp (nth a L d))) ^ 2) = avg (fun x => sp_Z (sp x) ^ 2) L).
    { unfold avg. rewrite <- (nsum_list _ d). apply nsum_ext. intros a Ha. rewrite Rpow_mult_distr, pow2_sqrt; [ring|].
      apply frac_nonneg; [assumption|]. now apply nth_In. }
    set (W := avg (fun x => sp_Z (sp x) ^ 2) L) in *.
    assert (HW0 : 0 <= W) by (rewrite <- HW; apply nsum_nonneg; intros; apply pow2_ge_0).
    split.
    - intros HP. specialize (HP (fun a => sqrt (nd (nth a L d) / Ntot L) * sp_Z (sp (nth a L d)))).
      rewrite (quad_mixture L d Zf S M) in HP by assumption.
      rewrite (nsum_ext _ (fun a => _ * _ * (_ * _)) (fun a => (sqrt (nd (nth a L d) / Ntot L) * sp_Z (sp (nth a L d))) ^ 2)) in HP by (intros; ring).
      rewrite HW in HP. destruct HW0 as [H|H].
      + apply Rmult_le_reg_r with W; [assumption|]. lra.
      + rewrite <- H. lra.
    - intros HP v. rewrite (quad_mixture L d Zf S M) by assumption.
      set (w := fun a => sqrt (nd (nth a L d) / Ntot L) * sp_Z (sp (nth a L d))) in *.
      pose proof (cauchy (length L) v w) as HC. change (nsum (length L) (fun i => w i ^ 2)) with (nsum (length L) (fun a => (w a) ^ 2)) in HC. unfold w in HC at 2. cbv beta in HC. unfold w in HW. cbv beta in HW. rewrite HW in HC.
      set (P := nsum (length L) (fun a => v a * w a)) in *. set (V := nsum (length L) (fun i => v i ^ 2)) in *.
      assert (0 <= V) by (apply nsum_nonneg; intros; apply pow2_ge_0). fold P.
      set (c := (S - 1) / Zf ^ 2) in *. destruct (Rle_dec 0 c).
      + assert (0 <= c * P ^ 2) by (apply Rmult_le_pos; [assumption|apply pow2_ge_0]).
        change (nsum (length L) (fun a => v a * (sqrt (nd (nth a L d) / Ntot L) * sp_Z (sp (nth a L d))))) with P. lra.
      + change (nsum (length L) (fun a => v a * (sqrt (nd (nth a L d) / Ntot L) * sp_Z (sp (nth a L d))))) with P.
        assert (c * (V * W) <= c * P ^ 2) by nra. assert (0 <= V * (1 + c * W)) by (apply Rmult_le_pos; lra). lra.
  Qed.
End Zip.

(** every well-formed state is of this shape *)
Lemma wf_state s : wf s -> exists l, s = state_of (fun x => x) (T_e s) (over_radius s) l.
Proof. intros H. destruct (wf_zip s H) as [l E]. exists l. exact E. Qed.
