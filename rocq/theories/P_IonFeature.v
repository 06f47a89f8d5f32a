(** Properties C42, C43 and C77-C79: structure factors of mixtures and the
    Rayleigh weight. *)
From Coq Require Import Reals List Bool Arith Lra Lia Psatz Permutation.
From Verif Require Import M_Const M_PlasmaState L_PlasmaState M_PlasmaPhysics L_PlasmaPhysics M_StaticSF L_StaticSF L_DebyeWaller M_Interp M_Elements L_Elements
  M_Setup L_Setup M_IonFeature L_IonFeature L_IonFeature2.
Import ListNotations.
Open Scope R_scope.

(** ** C42 *)
Lemma mixture_sym n Z Zf S M : mixture n Z Zf S = Some M -> forall a b, M a b = M b a.
Proof.
  unfold mixture. destruct (Req_EM_T Zf 0); [discriminate|]. destruct (Req_EM_T (sum n) 0); [discriminate|].
  intros [= <-] a b. rewrite (Rmult_comm (at_ n a)), (Rmult_comm (at_ Z a)). f_equal. unfold eye. now rewrite Nat.eqb_sym.
Qed.
Ltac peel H := repeat match type of H with obind ?o _ = Some _ => let E := fresh "E" in destruct o eqn:E; [cbn [obind] in H|discriminate H] end.
Theorem C42_symmetric : forall u TD lfc s k M,
  (Arkhipov_S u s k = Some M \/ Gregori2003_S u s k = Some M \/ Gregori2006_S u TD s k = Some M \/ CHS_S u TD lfc s k = Some M) ->
  forall a b, M a b = M b a.
Proof.
  intros u TD lfc s k M H a b.
  unfold Arkhipov_S, Gregori2003_S, Gregori2006_S, CHS_S in H.
  destruct H as [H|[H|[H|H]]]; peel H; eapply mixture_sym; exact H.
Qed.
Print Assumptions C42_symmetric.

(** a single species *)
Definition alone (el : M_PlasmaState.element) (Z rho Te Ti : R) : pstate := mkPS [el] [Z] [rho] Te [Ti] [-1].

Lemma mixture_one n Z S M : mixture [n] [Z] Z S = Some M -> 0 < n -> M 0%nat 0%nat = S.
Proof.
  unfold mixture. destruct (Req_EM_T Z 0) as [|HZ]; [discriminate|]. destruct (Req_EM_T _ 0); [discriminate|].
  intros [= <-] Hn. unfold eye, at_, sum. cbn [Nat.eqb nth fold_right]. rewrite sqrt_square by lra. field. split; lra.
Qed.
Lemma mixture_one_some n Z S : 0 < n -> Z <> 0 -> exists M, mixture [n] [Z] Z S = Some M /\ M 0%nat 0%nat = S.
Proof.
  intros Hn HZ. destruct (mixture [n] [Z] Z S) as [M|] eqn:E.
  - exists M. split; [reflexivity|]. eapply mixture_one; eassumption.
  - unfold mixture, sum in E. cbn in E. destruct (Req_EM_T Z 0); [contradiction|]. destruct (Req_EM_T _ 0); [lra|discriminate].
Qed.
Lemma weighted_one n v : 0 < n -> weighted [n] [v] = Some v.
Proof.
  intros Hn. unfold weighted. cbn. rewrite qdiv_some by lra. cbn. f_equal. field. lra.
Qed.

Theorem C42_one_species : forall u TD lfc el Z rho Te Ti k,
  0 < el_mass el -> 0 < rho -> 0 < Z ->
  let s := alone el Z rho Te Ti in
  let m := el_mass el in
  let n := rho / m in
  (exists M, Arkhipov_S u s k = Some M /\ M 0%nat 0%nat = S_ii_AD u k Te Te (n * Z) m Z) /\
  (forall T, T_cf_Greg u Te (n * Z) = Some T ->
     (exists M, Gregori2003_S u s k = Some M /\ M 0%nat 0%nat = S_ii_AD u k T T (n * Z) m Z) /\
     (exists M, Gregori2006_S u [TD] s k = Some M /\ M 0%nat 0%nat = S_ii_AD u k T (T_i_eff_Greg Ti TD) (n * Z) m Z) /\
     (forall S, S_ii_CHS u k T (T_i_eff_Greg Ti TD) (n * Z) Z n lfc = Some S ->
        exists M, CHS_S u [TD] lfc s k = Some M /\ M 0%nat 0%nat = S)).
Proof.
  intros u TD lfc el Z rho Te Ti k Hm Hr HZ s m n. assert (Hn : 0 < n) by now apply Rdiv_lt_0_compat.
  assert (E1 : n_i s = Some [n]).
  { reflexivity. }
  assert (E2 : n_e s = Some (n * Z)) by (unfold n_e; rewrite E1; cbn; f_equal; lra).
  assert (E3 : CHS_density s = Some n).
  { unfold CHS_density. rewrite E1. cbn. rewrite qdiv_some by lra. cbn. f_equal. field. lra. }
  change (atomic_masses s) with [m] in *.
  split; [|intros T HT; split; [|split]].
  - unfold Arkhipov_S. rewrite E1, E2. cbn [obind]. change (Z_free s) with [Z]. change (atomic_masses s) with [m].
    rewrite !weighted_one by assumption. cbn [obind]. apply mixture_one_some; lra.
  - unfold Gregori2003_S. rewrite E1, E2. cbn [obind]. change (Z_free s) with [Z]. change (atomic_masses s) with [m].
    rewrite !weighted_one by assumption. cbn [obind]. change (T_e s) with Te. rewrite HT. cbn [obind]. apply mixture_one_some; lra.
  - unfold Gregori2006_S. rewrite E1, E2. cbn [obind]. change (Z_free s) with [Z]. change (atomic_masses s) with [m].
    rewrite !weighted_one by assumption. cbn [obind]. change (T_e s) with Te. rewrite HT. cbn [obind]. change (T_i s) with [Ti].
    change (ew T_i_eff_Greg [Ti] [TD]) with (Some [T_i_eff_Greg Ti TD]). cbn [obind]. rewrite weighted_one by assumption. cbn [obind].
    apply mixture_one_some; lra.
  - intros S HS. unfold CHS_S. rewrite E1, E2, E3. cbn [obind]. change (Z_free s) with [Z].
    rewrite !weighted_one by assumption. cbn [obind]. change (T_e s) with Te. rewrite HT. cbn [obind]. change (T_i s) with [Ti].
    change (ew T_i_eff_Greg [Ti] [TD]) with (Some [T_i_eff_Greg Ti TD]). cbn [obind]. rewrite weighted_one by assumption. cbn [obind].
    rewrite HS. cbn [obind]. apply mixture_one_some; lra.
Qed.
Print Assumptions C42_one_species.

(** the four models, given the one-component factor [S] *)
Lemma models_mixture u lfc Te L k M : good i_sp L ->
  (Arkhipov_S u (plasma Te L) k = Some M \/ Gregori2003_S u (plasma Te L) k = Some M \/
   Gregori2006_S u (map i_TD L) (plasma Te L) k = Some M \/ CHS_S u (map i_TD L) lfc (plasma Te L) k = Some M) ->
  exists S, mixture (map (nd i_sp) L) (map (fun x => sp_Z (i_sp x)) L) (Zbar L) S = Some M.
Proof.
  intros G H. pose proof (Ntot_pos i_sp L G) as HN.
  unfold Arkhipov_S, Gregori2003_S, Gregori2006_S, CHS_S in H.
  assert (E1 : n_i (plasma Te L) = Some (map (nd i_sp) L)) by apply ni_of.
  change (Z_free (plasma Te L)) with (map (fun x => sp_Z (i_sp x)) L) in H.
  rewrite E1 in H. cbn [obind] in H. rewrite weighted_of in H by lra. rewrite avg_weighted in H by assumption.
  fold (Zbar L) in H.
  destruct H as [H|[H|[H|H]]]; cbn [obind] in H; peel H; eexists; exact H.
Qed.
(** averaging over the species gives back the one-component factor *)
Theorem C42_average : forall u Te L k,
  good i_sp L -> Zbar L <> 0 ->
  exists M, Arkhipov_S u (plasma Te L) k = Some M /\
    Sum_Sii (plasma Te L) M =
    Some (S_ii_AD u k Te Te (ne_of L) (avg i_sp (fun x => sp_m (i_sp x)) L) (Zbar L)).
Proof.
  intros u Te L k G HZ. pose proof (Ntot_pos i_sp L G) as HN.
  set (S := S_ii_AD _ _ _ _ _ _ _). destruct (mixture_some i_sp L (Zbar L) S G HZ) as [M HM]. exists M. split.
  - unfold Arkhipov_S, plasma. rewrite ni_of, L_IonFeature.ne_of. cbn [obind]. rewrite masses_of.
    unfold state_of at 1. cbn [Z_free]. rewrite !weighted_of by lra. cbn [obind]. rewrite !avg_weighted by assumption. exact HM.
  - unfold Sum_Sii, plasma. rewrite nf_of by lra. cbn [obind]. f_equal. rewrite nions_of.
    transitivity (Rayleigh (length L) (fun a => nd i_sp (nth a L ion0) / Ntot i_sp L) (fun a => (fun _ => 1) (nth a L ion0)) M).
    + unfold Rayleigh. rewrite nsum_swap. apply nsum_ext. intros b Hb. apply nsum_ext. intros a Ha.
      rewrite !(at_map _ L ion0) by assumption. ring.
    + rewrite (Rayleigh_mixture i_sp L ion0 (Zbar L) S M (fun _ => 1) G HM).
      assert (Ea : avg i_sp (fun _ => 1 ^ 2) L = 1).
      { rewrite <- avg_weighted by assumption. unfold Ntot in *.
        rewrite (sum_map_ext (fun x => nd i_sp x * 1 ^ 2) (nd i_sp) L) by (intros; ring). field. lra. }
      assert (Eb : avg i_sp (fun x => 1 * sp_Z (i_sp x)) L = Zbar L).
      { unfold Zbar, avg. apply sum_map_ext. intros; ring. }
      rewrite Ea, Eb. field. exact HZ.
Qed.
Print Assumptions C42_average.

(** hydrogen and carbon *)
Definition hyd (n : R) : ion := mkIon (mkSp (mkEl 1 1 1) 1 n 1) (fun _ => 1) 1 1.
Definition car (n : R) : ion := mkIon (mkSp (mkEl 6 12 1) 4 (12 * n) 1) (fun _ => 1) 4 2.
Example C42_ex : good i_sp [hyd 2; car 1] /\ Zbar [hyd 2; car 1] = 2 /\
  (exists M, Arkhipov_S unit_consts (plasma 1 [hyd 2; car 1]) 1 = Some M) /\
  0 < el_mass (mkEl 1 1 1).
Proof.
  assert (G : good i_sp [hyd 2; car 1]).
  { split; [|discriminate]. repeat constructor; cbn; lra. }
  assert (Z2 : Zbar [hyd 2; car 1] = 2).
  { unfold Zbar, avg, Ntot, nd, sp_n, sp_m, sum. cbn. field. }
  split; [exact G|]. split; [exact Z2|]. split; [|cbn; lra].
  destruct (C42_average unit_consts 1 [hyd 2; car 1] 1 G) as (M & H & _); [rewrite Z2; lra|]. exists M. exact H.
Qed.

(** ** C43 *)
Lemma number_fraction_nonneg s x : wf s -> masses_pos s -> List.Forall (fun r => 0 <= r) (mass_density s) ->
  number_fraction s = Some x -> forall a, 0 <= at_ x a.
Proof.
  intros Hw Hm Hr Hx a. destruct (wf_zip s Hw) as [l El]. rewrite El in *. unfold number_fraction in Hx. rewrite n_i_zip in Hx. cbn [obind] in Hx.
  unfold div_scalar in Hx. destruct (Req_EM_T _ 0) as [|Hn]; [discriminate|]. injection Hx as <-. rewrite map_map.
  assert (P : forall y, In y l -> 0 <= sp_n y).
  { intros y Hy. unfold masses_pos in Hm. cbn in Hm, Hr. rewrite Forall_forall in Hr.
    unfold sp_n. apply Rmult_le_pos; [apply Hr; now apply in_map|]. left. apply Rinv_0_lt_compat. apply (Hm (sp_el y)). now apply in_map. }
  assert (Q : 0 <= sum (map sp_n l)).
  { clear Hn. induction l as [|y l IH]; cbn; [lra|]. assert (0 <= sp_n y) by (apply P; now left).
    assert (0 <= sum (map sp_n l)).
    { clear - P. induction l as [|z l IH]; cbn; [lra|]. assert (0 <= sp_n z) by (apply P; right; now left).
      assert (0 <= sum (map sp_n l)) by (apply IH; intros w [<-|Hw]; apply P; [now left|right; now right]). unfold sum in *. lra. }
    unfold sum in *. lra. }
  unfold at_. destruct (nth_in_or_default a (map (fun x => sp_n x / sum (map sp_n l)) l) 0) as [H|H]; [|rewrite H; lra].
  apply in_map_iff in H. destruct H as (y & <- & Hy). apply Rmult_le_pos; [now apply P|]. left. apply Rinv_0_lt_compat. lra.
Qed.
Theorem C43_nonnegative : forall fi q M s W,
  wf s -> masses_pos s -> List.Forall (fun r => 0 <= r) (mass_density s) ->
  (forall v, 0 <= nsum (nions s) (fun b => nsum (nions s) (fun a => v a * v b * M a b))) ->
  Rayleigh_weight fi q M s = Some W -> 0 <= W.
Proof.
  intros fi q M s W Hw Hm Hr HP H. unfold Rayleigh_weight in H. peel H. injection H as <-.
  rewrite Rayleigh_quad by (intros; eapply number_fraction_nonneg; eassumption). apply HP.
Qed.
Print Assumptions C43_nonnegative.

Theorem C43_uncorrelated : forall fi q s x Zc,
  wf s -> masses_pos s -> List.Forall (fun r => 0 <= r) (mass_density s) ->
  number_fraction s = Some x -> Z_core s = Some Zc ->
  Rayleigh_weight fi q (fun a b => if Nat.eqb a b then 1 else 0) s =
  Some (nsum (nions s) (fun a => at_ x a *
    (nsum 10 (fun o => fi o a * nth o (electron_distribution_ionized_state (at_ Zc a)) 0) + at_ q a) ^ 2)).
Proof.
  intros fi q s x Zc Hw Hm Hr Hx Hz. unfold Rayleigh_weight. rewrite Hx, Hz. cbn [obind]. f_equal.
  pose proof (number_fraction_nonneg s x Hw Hm Hr Hx) as P.
  rewrite Rayleigh_quad by (intros; apply P). change (fun a b => if Nat.eqb a b then 1 else 0) with eye. rewrite quad_eye.
  apply nsum_ext. intros a _. rewrite Rpow_mult_distr, pow2_sqrt by apply P. reflexivity.
Qed.
Print Assumptions C43_uncorrelated.

Lemma nth_map_seq {A} (f : nat -> A) d n a : (a < n)%nat -> nth a (map f (seq 0 n)) d = f a.
Proof.
  intros H. rewrite (nth_indep _ _ (f 0%nat)) by now rewrite map_length, seq_length. rewrite (map_nth f), seq_nth by assumption. reflexivity.
Qed.
(** any structure factors, relabelled along with the ions *)
Theorem C43_relabelling : forall Te L p M,
  good i_sp L -> Permutation (map p (seq 0 (length L))) (seq 0 (length L)) ->
  let L' := map (fun a => nth (p a) L ion0) (seq 0 (length L)) in
  Rayleigh_weight (fun o a => i_ff (nth a L' ion0) o) (map i_q L') (fun a b => M (p a) (p b)) (plasma Te L') =
  Rayleigh_weight (fun o a => i_ff (nth a L ion0) o) (map i_q L) M (plasma Te L).
Proof.
  intros Te L p M G Hp L'.
  assert (HL : length L' = length L) by (unfold L'; now rewrite map_length, seq_length).
  assert (HP : Permutation L' L).
  { unfold L'. rewrite <- (map_map p (fun a => nth a L ion0)).
    apply Permutation_trans with (map (fun a => nth a L ion0) (seq 0 (length L))); [now apply Permutation_map|].
    replace (map (fun a => nth a L ion0) (seq 0 (length L))) with L; [reflexivity|].
    apply nth_ext with ion0 ion0; [now rewrite map_length, seq_length|].
    intros n Hn. symmetry. now apply (nth_map_seq (fun a => nth a L ion0)). }
  assert (G' : good i_sp L') by (eapply good_perm; [apply Permutation_sym; exact HP|exact G]).
  assert (HN : Ntot i_sp L' = Ntot i_sp L) by (apply sum_perm; now apply Permutation_map).
  pose proof (Ntot_pos i_sp L G) as Hpos.
  unfold Rayleigh_weight, plasma. rewrite !zcore_of, !nf_of by lra. cbn [obind]. f_equal. rewrite !nions_of, HL, HN.
  set (X := at_ (map (fun x => nd i_sp x / Ntot i_sp L) L)).
  set (F := fun a => form_factor (fun o a0 => i_ff (nth a0 L ion0) o) (map (fun x => el_Z (sp_el (i_sp x)) - sp_Z (i_sp x)) L) a + at_ (map i_q L) a).
  rewrite <- (Rayleigh_reindex (length L) p X F M Hp).
  assert (Hb : forall a, (a < length L)%nat -> (p a < length L)%nat).
  { intros a Ha. assert (In (p a) (seq 0 (length L))).
    { eapply Permutation_in; [exact Hp|]. apply in_map. apply in_seq. lia. }
    apply in_seq in H. lia. }
  assert (Hn : forall a, (a < length L)%nat -> nth a L' ion0 = nth (p a) L ion0).
  { intros a Ha. unfold L'. now apply (nth_map_seq (fun a => nth (p a) L ion0)). }
  unfold Rayleigh. apply nsum_ext. intros b Hb'. apply nsum_ext. intros a Ha.
  assert (EX : forall c, (c < length L)%nat -> at_ (map (fun x => nd i_sp x / Ntot i_sp L) L') c = X (p c)).
  { intros c Hc. unfold X. rewrite (at_map _ L' ion0) by lia. rewrite (at_map _ L ion0) by auto. now rewrite Hn. }
  assert (EF : forall c, (c < length L)%nat ->
    form_factor (fun o a0 => i_ff (nth a0 L' ion0) o) (map (fun x => el_Z (sp_el (i_sp x)) - sp_Z (i_sp x)) L') c + at_ (map i_q L') c = F (p c)).
  { intros c Hc. unfold F, form_factor, population. rewrite !(at_map _ L' ion0) by lia. rewrite !(at_map _ L ion0) by auto. now rewrite !Hn. }
  now rewrite !EX, !EF.
Qed.
Print Assumptions C43_relabelling.

(** and the four analytic models *)
Theorem C43_order_independent : forall u lfc Te k L L',
  good i_sp L -> Zbar L <> 0 -> Permutation L L' ->
  rayleigh_of (fun s => Arkhipov_S u s k) Te L = rayleigh_of (fun s => Arkhipov_S u s k) Te L' /\
  rayleigh_of (fun s => Gregori2003_S u s k) Te L = rayleigh_of (fun s => Gregori2003_S u s k) Te L' /\
  rayleigh_of (fun s => Gregori2006_S u (map i_TD L) s k) Te L = rayleigh_of (fun s => Gregori2006_S u (map i_TD L') s k) Te L' /\
  rayleigh_of (fun s => CHS_S u (map i_TD L) lfc s k) Te L = rayleigh_of (fun s => CHS_S u (map i_TD L') lfc s k) Te L'.
Proof.
  intros u lfc Te k L L' G HZ HP. pose proof (good_perm L L' HP G) as G'. pose proof (alike_perm L L' HP) as HA.
  destruct (alike_all L L' G G' HA) as (E1 & E2 & E3 & E4). pose proof (alike_weight L L') as EW.
  assert (HZ' : Zbar L' <> 0) by (rewrite <- E1; exact HZ).
  assert (EN : sum (map (fun x => nd i_sp x ^ 2) L) = sum (map (fun x => nd i_sp x ^ 2) L')) by (apply sum_perm; now apply Permutation_map).
  rewrite !Arkhipov_closed, !Gregori2003_closed, !Gregori2006_closed, !CHS_closed by assumption.
  rewrite <- E1, <- E2, <- E3, <- E4, <- (alike_N L L' HA), <- EN.
  split; [f_equal; now apply EW|]. split; [|split].
  - destruct (T_cf_Greg _ _ _); [cbn; f_equal; now apply EW|reflexivity].
  - destruct (T_cf_Greg _ _ _); [cbn; f_equal; now apply EW|reflexivity].
  - destruct (T_cf_Greg _ _ _) as [T|]; [cbn [obind]|reflexivity].
    destruct (S_ii_CHS _ _ _ _ _ _ _ _); [cbn; f_equal; now apply EW|reflexivity].
Qed.
Print Assumptions C43_order_independent.
Example C43_ex : good i_sp [hyd 2; car 1] /\ Permutation [hyd 2; car 1] [car 1; hyd 2] /\ [hyd 2; car 1] <> [car 1; hyd 2] /\
  Permutation (map (fun a => (1 - a)%nat) (seq 0 2)) (seq 0 2) /\ wf (plasma 1 [hyd 2; car 1]) /\ masses_pos (plasma 1 [hyd 2; car 1]) /\
  (exists W, rayleigh_of (fun s => Arkhipov_S unit_consts s 1) 1 [hyd 2; car 1] = Some W).
Proof.
  destruct C42_ex as (G & Z2 & _).
  split; [exact G|]. split; [apply perm_swap|]. split.
  { intros H. injection H as H _. lra. }
  split; [cbn; apply perm_swap|].
  split; [repeat split|]. split; [intros e [<-|[<-|[]]]; cbn; lra|].
  rewrite Arkhipov_closed; [eexists; reflexivity|exact G|rewrite Z2; lra].
Qed.

(** ** C77 *)
Theorem C77_criterion : forall u lfc Te L k M,
  good i_sp L ->
  (Arkhipov_S u (plasma Te L) k = Some M \/ Gregori2003_S u (plasma Te L) k = Some M \/
   Gregori2006_S u (map i_TD L) (plasma Te L) k = Some M \/ CHS_S u (map i_TD L) lfc (plasma Te L) k = Some M) ->
  exists S, Sum_Sii (plasma Te L) M = Some S /\
  ((forall v, 0 <= nsum (length L) (fun b => nsum (length L) (fun a => v a * v b * M a b))) <->
   (1 - S) * avg i_sp (fun x => sp_Z (i_sp x) ^ 2) L <= Zbar L ^ 2).
Proof.
  intros u lfc Te L k M G H. destruct (models_mixture u lfc Te L k M G H) as [S HM]. exists S. pose proof (Ntot_pos i_sp L G) as HN.
  assert (HZ : Zbar L <> 0).
  { intros E. unfold mixture in HM. rewrite E in HM. destruct (Req_EM_T 0 0); [discriminate|contradiction]. }
  split.
  - unfold Sum_Sii, plasma. rewrite nf_of by lra. cbn [obind]. f_equal. rewrite nions_of.
    transitivity (Rayleigh (length L) (fun a => nd i_sp (nth a L ion0) / Ntot i_sp L) (fun a => (fun _ => 1) (nth a L ion0)) M).
    + unfold Rayleigh. rewrite nsum_swap. apply nsum_ext. intros b Hb. apply nsum_ext. intros a Ha.
      rewrite !(at_map _ L ion0) by assumption. ring.
    + rewrite (Rayleigh_mixture i_sp L ion0 (Zbar L) S M (fun _ => 1) G HM).
      assert (Ea : avg i_sp (fun _ => 1 ^ 2) L = 1).
      { rewrite <- avg_weighted by assumption. unfold Ntot in *.
        rewrite (sum_map_ext (fun x => nd i_sp x * 1 ^ 2) (nd i_sp) L) by (intros; ring). field. lra. }
      assert (Eb : avg i_sp (fun x => 1 * sp_Z (i_sp x)) L = Zbar L).
      { unfold Zbar, avg. apply sum_map_ext. intros; ring. }
      rewrite Ea, Eb. field. exact HZ.
  - rewrite (PSD_mixture i_sp L (Zbar L) S M G HM : _ <-> _).
    assert (HZ2 : 0 < Zbar L ^ 2) by (rewrite <- Rsqr_pow2; now apply Rlt_0_sqr).
    set (A := avg i_sp (fun x => sp_Z (i_sp x) ^ 2) L).
    assert (E : Zbar L ^ 2 * (1 + (S - 1) / Zbar L ^ 2 * A) = Zbar L ^ 2 - (1 - S) * A) by (field; lra).
    split; intros H1.
    + assert (0 <= Zbar L ^ 2 * (1 + (S - 1) / Zbar L ^ 2 * A)) by (apply Rmult_le_pos; lra). lra.
    + apply Rmult_le_reg_l with (Zbar L ^ 2); [assumption|]. lra.
Qed.
Print Assumptions C77_criterion.

(** With one charge state the criterion holds for every non-negative factor. *)
Theorem C77_one_charge_partial : forall u Te L k Z,
  good i_sp L -> 0 < k -> 0 < Te -> 0 < Z -> (forall x, In x L -> sp_Z (i_sp x) = Z) ->
  exists M, Arkhipov_S u (plasma Te L) k = Some M /\
  forall v, 0 <= nsum (length L) (fun b => nsum (length L) (fun a => v a * v b * M a b)).
Proof.
  intros u Te L k Z G Hk HT HZ HL. pose proof (Ntot_pos i_sp L G) as HN.
  assert (E1 : forall c, avg i_sp (fun _ => c) L = c).
  { intros c. rewrite <- avg_weighted by assumption. unfold Ntot in *.
    rewrite (sum_map_ext (fun x => nd i_sp x * c) (fun x => c * nd i_sp x) L) by (intros; ring). rewrite sum_map_scal. field. lra. }
  assert (EZb : Zbar L = Z).
  { unfold Zbar. rewrite <- (E1 Z). unfold avg. apply sum_map_ext. intros x Hx. now rewrite HL. }
  assert (EZ2 : avg i_sp (fun x => sp_Z (i_sp x) ^ 2) L = Z ^ 2).
  { rewrite <- (E1 (Z ^ 2)). unfold avg. apply sum_map_ext. intros x Hx. now rewrite HL. }
  destruct (C42_average u Te L k G ltac:(rewrite EZb; lra)) as (M & HM & HS). exists M. split; [assumption|].
  destruct (C77_criterion u 0 Te L k M G (or_introl HM)) as (S & HS' & Hiff). rewrite HS in HS'. injection HS' as <-.
  apply Hiff. rewrite EZ2, EZb.
  assert (Hm : 0 < avg i_sp (fun x => sp_m (i_sp x)) L).
  { apply sum_pos; [destruct G as [_ G]; destruct L; [contradiction|discriminate]|].
    intros y Hy. apply in_map_iff in Hy. destruct Hy as (x & <- & Hx).
    assert (0 < nd i_sp x) by (now apply nd_pos with L). destruct G as [G _]. rewrite Forall_forall in G. destruct (G x Hx).
    apply Rmult_lt_0_compat; [now apply Rdiv_lt_0_compat|assumption]. }
  assert (Hne : 0 < ne_of L) by (rewrite Zbar_ne, EZb by assumption; now apply Rmult_lt_0_compat).
  pose proof (eq_S_ii u k Te (ne_of L) _ Z Hk HT Hne Hm HZ) as [H0 _].
  assert (0 < S_ii_AD u k Te Te (ne_of L) (avg i_sp (fun x => sp_m (i_sp x)) L) Z * Z ^ 2) by (apply Rmult_lt_0_compat; [assumption|now apply pow_lt]). lra.
Qed.
Print Assumptions C77_one_charge_partial.

(** Fully ionised CH at long wavelengths, with the ions completely screened:
    the carbon-carbon structure factor and the Rayleigh weight are negative. *)
Lemma no_core_population o : nth o (electron_distribution_ionized_state 0) 0 = 0.
Proof.
  pose proof (distribution_bounds 0) as B. pose proof (distribution_sum 0) as E.
  rewrite Rmin_right in E by lra. rewrite Rmax_left in E by lra.
  assert (F : List.Forall (fun p => p = 0) (electron_distribution_ionized_state 0)).
  { revert E. generalize capacities, (electron_distribution_ionized_state 0), B. clear B. intros c l B. induction B as [|p n l c Hp B IH]; intros E; constructor.
    - assert (0 <= rsum l) by (clear - B; induction B as [|p n l c Hp B IH]; cbn; [lra|unfold rsum in *; lra]). cbn in E. unfold rsum in *. cbn in E. lra.
    - apply IH. assert (0 <= rsum l) by (clear - B; induction B as [|q m l c Hp B IH]; cbn; [lra|unfold rsum in *; lra]). unfold rsum in *. cbn in E. lra. }
  destruct (nth_in_or_default o (electron_distribution_ionized_state 0) 0) as [H|H]; [|exact H]. rewrite Forall_forall in F. now apply F.
Qed.
Definition bare (Z m n T : R) (ff : nat -> R) : ion := mkIon (mkSp (mkEl Z m 1) Z (n * m) T) ff Z 1.
Lemma amp_bare Z m n T ff : amp (bare Z m n T ff) = Z.
Proof.
  unfold amp, bare. cbn [i_ff i_q i_sp sp_el sp_Z el_Z]. rewrite (nsum_ext 10 _ (fun _ => 0 * 0)).
  - rewrite (nsum_scal 10 0). lra.
  - intros o _. replace (Z - Z) with 0 by ring. rewrite no_core_population. ring.
Qed.
Theorem C77_refuted : forall u T n m_H m_C ff, 0 < T -> 0 < n -> 0 < m_H -> 0 < m_C ->
  let CH := [bare 1 m_H n T ff; bare 6 m_C n T ff] in
  exists k0, 0 < k0 /\ forall k, 0 < k < k0 ->
  (exists M, Arkhipov_S u (plasma T CH) k = Some M /\ M 1%nat 1%nat < 0) /\
  (exists W, rayleigh_of (fun s => Arkhipov_S u s k) T CH = Some W /\ W < 0).
Proof.
  intros u T n mH mC ff HT Hn HH HC CH.
  assert (G : good i_sp CH).
  { split; [|discriminate]. repeat constructor; cbn; try assumption; now apply Rmult_lt_0_compat. }
  assert (EnH : nd i_sp (bare 1 mH n T ff) = n) by (unfold nd, sp_n, sp_m; cbn; field; lra).
  assert (EnC : nd i_sp (bare 6 mC n T ff) = n) by (unfold nd, sp_n, sp_m; cbn; field; lra).
  assert (EN : Ntot i_sp CH = 2 * n) by (unfold Ntot, CH; cbn [map]; rewrite EnH, EnC; unfold sum; cbn; ring).
  assert (EA : forall f, avg i_sp f CH = (f (bare 1 mH n T ff) + f (bare 6 mC n T ff)) / 2).
  { intros f. unfold avg. rewrite EN. unfold CH. cbn [map]. rewrite EnH, EnC. unfold sum. cbn. field. lra. }
  assert (EZ : Zbar CH = 7 / 2) by (unfold Zbar; rewrite EA; cbn; lra).
  assert (Ene : ne_of CH = 7 * n) by (rewrite Zbar_ne, EN, EZ by assumption; lra).
  assert (EM : avg i_sp (fun x => sp_m (i_sp x)) CH = (mH + mC) / 2) by (rewrite EA; reflexivity).
  destruct (long_wavelength_ex u T (7 * n) ((mH + mC) / 2) (1 / 10) HT ltac:(lra) ltac:(lra) ltac:(lra)) as (k0 & Hk0 & Hk).
  exists k0. split; [assumption|]. intros k Hkk. specialize (Hk k (7 / 2) Hkk ltac:(lra)).
  set (S := S_ii_AD u k T T (7 * n) ((mH + mC) / 2) (7 / 2)) in *.
  assert (HS : S < 3 / 10).
  { assert (E : 1 + 7 / 2 / (1 + 1 / 10) ^ 2 = 471 / 121) by field. rewrite E in Hk. lra. }
  split.
  - destruct (mixture_some i_sp CH (7 / 2) S G ltac:(lra)) as [M HM]. exists M. split.
    + unfold Arkhipov_S, plasma. pose proof (Ntot_pos i_sp CH G) as HN. rewrite ni_of, L_IonFeature.ne_of. cbn [obind]. rewrite masses_of.
      unfold state_of at 1. cbn [Z_free]. rewrite !weighted_of by lra. cbn [obind]. rewrite !avg_weighted by assumption.
      fold (Zbar CH). fold (ne_of CH). rewrite EZ, Ene, EM. exact HM.
    + rewrite (mixture_rank1 i_sp CH ion0 (7 / 2) S M G HM 1 1) by (cbn; lia). rewrite EN. unfold CH. cbn [nth]. rewrite EnC.
      replace (n / (2 * n)) with (1 / 2) by (field; lra). cbn [bare i_sp sp_Z eye Nat.eqb].
      replace (sqrt (1 / 2) * 6 * (sqrt (1 / 2) * 6)) with (36 * (sqrt (1 / 2) * sqrt (1 / 2))) by ring.
      rewrite sqrt_sqrt by lra. unfold eye. cbn [Nat.eqb]. lra.
  - rewrite Arkhipov_closed; [|exact G|rewrite EZ; lra]. eexists. split; [reflexivity|].
    rewrite EZ, Ene, EM. fold S. unfold weight. rewrite !EA, !amp_bare. cbn [bare i_sp sp_Z]. lra.
Qed.
Print Assumptions C77_refuted.
Example C77_ex : good i_sp [hyd 2; hyd 3] /\ (forall x, In x [hyd 2; hyd 3] -> sp_Z (i_sp x) = 1).
Proof.
  split; [split; [repeat constructor; cbn; lra|discriminate]|]. intros x [<-|[<-|[]]]; reflexivity.
Qed.

(** ** C78 *)
Theorem C78_splitting_partial : forall u Te k x L t,
  good i_sp (x :: L) -> Zbar (x :: L) <> 0 -> 0 < t < 1 ->
  let L' := with_rho x (t * sp_rho (i_sp x)) :: with_rho x ((1 - t) * sp_rho (i_sp x)) :: L in
  rayleigh_of (fun s => Arkhipov_S u s k) Te (x :: L) = rayleigh_of (fun s => Arkhipov_S u s k) Te L' /\
  rayleigh_of (fun s => Gregori2003_S u s k) Te (x :: L) = rayleigh_of (fun s => Gregori2003_S u s k) Te L' /\
  rayleigh_of (fun s => Gregori2006_S u (map i_TD (x :: L)) s k) Te (x :: L) = rayleigh_of (fun s => Gregori2006_S u (map i_TD L') s k) Te L'.
Proof.
  intros u Te k x L t G HZ Ht L'. pose proof (good_split x L t Ht G) as G'. fold L' in G'.
  assert (Hm : sp_m (i_sp x) <> 0) by (destruct G as [G _]; inversion G as [|? ? [H _] _]; lra).
  pose proof (alike_split x L t Hm) as HA. fold L' in HA.
  destruct (alike_all (x :: L) L' G G' HA) as (E1 & E2 & E3 & E4). pose proof (alike_weight (x :: L) L') as EW.
  assert (HZ' : Zbar L' <> 0) by (rewrite <- E1; exact HZ).
  rewrite !Arkhipov_closed, !Gregori2003_closed, !Gregori2006_closed by assumption.
  rewrite <- E1, <- E2, <- E3, <- E4.
  split; [f_equal; now apply EW|]. split; (destruct (T_cf_Greg _ _ _); [cbn; f_equal; now apply EW|reflexivity]).
Qed.
Print Assumptions C78_splitting_partial.
(** The ion density of CHSIonFeat is the sum of squares over the sum. *)
Theorem C78_refuted : forall Te x L t, good i_sp (x :: L) -> 0 < t < 1 ->
  let L' := with_rho x (t * sp_rho (i_sp x)) :: with_rho x ((1 - t) * sp_rho (i_sp x)) :: L in
  exists N N', CHS_density (plasma Te (x :: L)) = Some N /\ CHS_density (plasma Te L') = Some N' /\ N' < N.
Proof.
  intros Te x L t G Ht L'. pose proof (good_split x L t Ht G) as G'. fold L' in G'.
  assert (Hx : 0 < sp_m (i_sp x) /\ 0 < sp_rho (i_sp x)) by (destruct G as [G _]; inversion G; assumption).
  pose proof (alike_N _ _ (alike_split x L t ltac:(lra))) as EN. fold L' in EN.
  rewrite (CHS_density_closed Te (x :: L) G), (CHS_density_closed Te L' G'). eexists. eexists. split; [reflexivity|]. split; [reflexivity|].
  rewrite <- EN. pose proof (Ntot_pos i_sp _ G) as HN. apply Rmult_lt_compat_l; [apply Rdiv_lt_0_compat; lra|].
  unfold L'. cbn [map]. unfold sum. cbn [fold_right]. set (r := fold_right _ _ _).
  assert (En : nd i_sp (with_rho x (t * sp_rho (i_sp x))) = t * nd i_sp x) by (unfold nd, sp_n, sp_m, with_rho; cbn; unfold sp_m in *; field; lra).
  assert (En' : nd i_sp (with_rho x ((1 - t) * sp_rho (i_sp x))) = (1 - t) * nd i_sp x) by (unfold nd, sp_n, sp_m, with_rho; cbn; unfold sp_m in *; field; lra).
  rewrite En, En'. assert (Hn : 0 < nd i_sp x) by (unfold nd, sp_n; now apply Rdiv_lt_0_compat).
  assert (0 < 2 * (t * (1 - t)) * nd i_sp x ^ 2).
  { apply Rmult_lt_0_compat; [|now apply pow_lt]. apply Rmult_lt_0_compat; [lra|]. apply Rmult_lt_0_compat; lra. }
  lra.
Qed.
Print Assumptions C78_refuted.
Example C78_ex : good i_sp [hyd 2; car 1] /\ Zbar [hyd 2; car 1] <> 0 /\ 0 < 1 / 2 < 1.
Proof. destruct C42_ex as (G & Z2 & _). split; [exact G|]. split; [rewrite Z2; lra|lra]. Qed.

(** ** C79 *)
Lemma DW_defined u NA TD Sp b Te L k : good i_sp L -> (length TD = 1%nat \/ length TD = length L) ->
  DebyeWaller_S u NA TD Sp b (plasma Te L) k =
  let w := debyeWallerFactor u NA k (avg i_sp (fun x => sp_m (i_sp x)) L / amu u * / 1000) TD (avg i_sp (fun x => sp_T (i_sp x)) L) in
  Some (fun i j => Sp i j * ((1 - bcast w j) + bcast w j * b i j)).
Proof.
  intros G HL. pose proof (Ntot_pos i_sp L G) as HN. unfold DebyeWaller_S, plasma. rewrite nf_of by lra. cbn [obind]. rewrite masses_of.
  unfold state_of at 1. cbn [T_i]. rewrite !ew_map. cbn [obind]. rewrite nions_of.
  replace (sum (map (fun x => sp_m (i_sp x) * (nd i_sp x / Ntot i_sp L)) L)) with (avg i_sp (fun x => sp_m (i_sp x)) L) by (apply sum_map_ext; intros; ring).
  replace (sum (map (fun x => sp_T (i_sp x) * (nd i_sp x / Ntot i_sp L)) L)) with (avg i_sp (fun x => sp_T (i_sp x)) L) by (apply sum_map_ext; intros; ring).
  replace (Nat.eqb (length TD) 1 || Nat.eqb (length TD) (length L)) with true; [reflexivity|].
  symmetry. apply orb_true_iff. destruct HL as [H|H]; [left|right]; now apply Nat.eqb_eq.
Qed.
Lemma avg_pos f L : good i_sp L -> (forall x, In x L -> 0 < f x) -> 0 < avg i_sp f L.
Proof.
  intros G H. pose proof (Ntot_pos i_sp L G). apply L_PlasmaState.sum_pos; [destruct G as [_ G]; destruct L; [contradiction|discriminate]|].
  intros y Hy. apply in_map_iff in Hy. destruct Hy as (x & <- & Hx).
  apply Rmult_lt_0_compat; [|now apply H]. apply Rdiv_lt_0_compat; [now apply nd_pos with L|assumption].
Qed.
(** With one Debye temperature for all: a mixture of plasma and lattice with
    one weight between 0 and 1, symmetric whenever both are. *)
Theorem C79_one_temperature_partial : forall u N_A theta Sp b Te L k,
  good i_sp L -> 0 < N_A -> 0 < theta -> (forall x, In x L -> 0 < sp_T (i_sp x)) ->
  exists M w, DebyeWaller_S u N_A [theta] Sp b (plasma Te L) k = Some M /\ 0 < w <= 1 /\
    (forall i j, M i j = (1 - w) * Sp i j + w * (Sp i j * b i j)) /\
    ((forall i j, Sp i j = Sp j i) -> (forall i j, b i j = b j i) -> forall i j, M i j = M j i).
Proof.
  intros u NA th Sp b Te L k G HN Hth HT. rewrite DW_defined by (auto). cbv zeta.
  set (m := _ * / 1000). set (T := avg i_sp (fun x => sp_T (i_sp x)) L).
  set (w := debyeWallerFactor u NA k m [th] T).
  assert (Hm : 0 < m).
  { unfold m. cpos u. pose proof (amu_pos u). assert (0 < avg i_sp (fun x => sp_m (i_sp x)) L).
    { apply avg_pos; [assumption|]. intros x Hx. destruct G as [G _]. rewrite Forall_forall in G. apply (G x Hx). }
    apply Rmult_lt_0_compat; [now apply Rdiv_lt_0_compat|lra]. }
  assert (HT' : 0 < T) by now apply avg_pos.
  assert (Hw : 0 < nth 0 w 0 <= 1).
  { unfold w. rewrite dw_nth by (cbn; lia). cbn [nth]. rewrite mean_single. pose proof (bracket_pos th T Hth HT') as Hb. cpos u. pose proof (planck_pos u).
    split; [apply exp_pos|]. rewrite <- exp_0.
    set (e := _ * bracket th T). assert (0 <= e).
    { unfold e. apply Rmult_le_pos; [|lra]. apply Rmult_le_pos; [|left; clearbody m; pos]. apply Rmult_le_pos; [left; pos|apply pow2_ge_0]. }
    destruct (Req_dec e 0) as [->|]; [rewrite Ropp_0; lra|left; apply exp_increasing; lra]. }
  eexists. exists (nth 0 w 0). split; [reflexivity|]. split; [assumption|].
  assert (E : forall j, bcast w j = nth 0 w 0) by reflexivity.
  split; [intros i j; rewrite E; ring|]. intros H1 H2 i j. rewrite !E. now rewrite (H1 i j), (H2 i j).
Qed.
Print Assumptions C79_one_temperature_partial.
(** With a Debye temperature per ion (what BohmStaver returns) the factor is
    applied along the second index only. *)
Theorem C79_refuted : forall u N_A t0 t1 Sp b Te x y k,
  good i_sp [x; y] -> 0 < N_A -> 0 < t0 < t1 -> 0 < k -> 0 < sp_T (i_sp x) -> 0 < sp_T (i_sp y) ->
  Sp 0%nat 1%nat = Sp 1%nat 0%nat -> b 0%nat 1%nat = b 1%nat 0%nat -> Sp 0%nat 1%nat <> 0 -> b 0%nat 1%nat <> 1 ->
  exists M, DebyeWaller_S u N_A [t0; t1] Sp b (plasma Te [x; y]) k = Some M /\ M 0%nat 1%nat <> M 1%nat 0%nat.
Proof.
  intros u NA t0 t1 Sp b Te x y k G HN Ht Hk HTx HTy E1 E2 N1 N2. rewrite DW_defined by auto. cbv zeta.
  set (m := _ * / 1000). set (T := avg i_sp (fun x => sp_T (i_sp x)) _).
  assert (Hm : 0 < m).
  { unfold m. cpos u. pose proof (amu_pos u). assert (0 < avg i_sp (fun x => sp_m (i_sp x)) [x; y]).
    { apply avg_pos; [assumption|]. intros z Hz. destruct G as [G _]. rewrite Forall_forall in G. apply (G z Hz). }
    apply Rmult_lt_0_compat; [now apply Rdiv_lt_0_compat|lra]. }
  assert (HT' : 0 < T) by (apply avg_pos; [assumption|intros z [<-|[<-|[]]]; assumption]).
  set (w := debyeWallerFactor u NA k m [t0; t1] T).
  eexists. split; [reflexivity|]. cbv beta. cbv beta. rewrite <- E1, <- E2.
  assert (Hw : bcast w 1 <> bcast w 0).
  { change (nth 1 w 0 <> nth 0 w 0). unfold w. rewrite !dw_nth by (cbn; lia). cbn [nth]. intros H. apply exp_inv in H.
    pose proof (bracket_pos (mean [t0; t1]) T ltac:(unfold mean; cbn; lra) HT') as Hb. cpos u. pose proof (planck_pos u).
    set (B := bracket _ _) in *. set (c := 3 * planck u ^ 2 * NA * (k / (2 * PI)) ^ 2) in *. assert (Hc : 0 < c) by (unfold c; pos).
    assert (H' : c / (m * kB u * t1) * B < c / (m * kB u * t0) * B); [|lra].
    apply Rmult_lt_compat_r; [lra|]. apply Rmult_lt_compat_l; [assumption|]. clearbody m. apply Rinv_lt_contravar; [pos|]. apply Rmult_lt_compat_l; [pos|lra]. }
  intros H. apply Hw. clear Hw. set (p := bcast w 1) in *. set (q := bcast w 0) in *.
  assert (H' : Sp 0%nat 1%nat * ((p - q) * (b 0%nat 1%nat - 1)) = 0) by lra.
  apply Rmult_integral in H'. destruct H' as [|H']; [contradiction|]. apply Rmult_integral in H'. destruct H'; lra.
Qed.
Print Assumptions C79_refuted.
Example C79_ex : good i_sp [hyd 2; car 1] /\ 0 < 1 < 2 /\ 0 < sp_T (i_sp (hyd 2)) /\ 0 < sp_T (i_sp (car 1)) /\ i_TD (hyd 2) = 1 /\ i_TD (car 1) = 2.
Proof. destruct C42_ex as (G & _). split; [exact G|]. cbn. repeat split; lra. Qed.

(** ** C43: the spectrum is the instrument function, shifted to the probe energy and
    weighted with the Rayleigh weight per nuclear charge *)
Theorem C43_channel : forall u w s st i omega mZ, mean_Z_A s = Some mZ -> mZ <> 0 -> measured st i = energy st + hbar u * omega ->
  exists I, ion_feature u w s st i = Some I /\ I * mZ = w * instrument st omega * Rpower (measured st i / energy st) (frc_exponent st) /\
  (frc_exponent st = 0 -> 0 < measured st i / energy st -> I * mZ = w * instrument st omega).
Proof.
  intros u w s st i omega mZ Hm H0 E. unfold ion_feature, frc. rewrite Hm. cbn [obind]. rewrite qdiv_some by exact H0.
  replace ((measured st i - energy st) / hbar u) with omega by (rewrite E; field; apply Rgt_not_eq, hbar_pos). eexists. split; [reflexivity|]. split; [field; exact H0|].
  intros -> Hp. rewrite Rpower_O by exact Hp. field. exact H0.
Qed.
Print Assumptions C43_channel.
Example C43_channel_ex : let st := mkSetup 1 2 1 (fun _ => 3) (fun x => x) false 0 in
  exists mZ, mean_Z_A (alone (mkEl 6 12 1) 4 24 1 1) = Some mZ /\ mZ <> 0 /\ measured st 0 = energy st + hbar unit_consts * 1 /\ 0 < measured st 0 / energy st.
Proof.
  exists (6 * (24 / 12 / (24 / 12 + 0)) + 0). split; [|cbn; split; [lra|split; [lra|lra]]].
  unfold mean_Z_A, number_fraction, n_i, alone. cbn. unfold div_scalar, sum. cbn. destruct (Req_EM_T _ _); [lra|]. reflexivity.
Qed.

(** ** C92: a collection of peaks is the sum of its peaks *)
Lemma peak_acc (peak : R -> nat -> nat -> R) l k a b x : fold_left (fun out (cf : R * R) => out + peak (k - fst cf) a b * snd cf) l x = x + sum (map (fun cf : R * R => peak (k - fst cf) a b * snd cf) l).
Proof. revert x. induction l as [|c l IH]; intros x; cbn [fold_left map]; [unfold sum; cbn; ring|]. rewrite IH. unfold sum. cbn [fold_right]. ring. Qed.
Theorem C92_peaks : forall (peak : R -> nat -> nat -> R) ks Is k a b,
  PeakCollection_S peak ks Is k a b = sum (map (fun cf => snd cf * peak (k - fst cf) a b) (combine ks Is)) /\
  (** shifting all peaks shifts the curve *)
  (forall d, PeakCollection_S peak (map (fun c => c + d) ks) Is (k + d) a b = PeakCollection_S peak ks Is k a b) /\
  (** joining two collections adds them *)
  (forall ks' Is', length ks = length Is -> PeakCollection_S peak (ks ++ ks') (Is ++ Is') k a b = PeakCollection_S peak ks Is k a b + PeakCollection_S peak ks' Is' k a b) /\
  (forall c, PeakCollection_S peak ks (map (Rmult c) Is) k a b = c * PeakCollection_S peak ks Is k a b) /\
  ((forall x, peak x a b = peak x b a) -> PeakCollection_S peak ks Is k a b = PeakCollection_S peak ks Is k b a).
Proof.
  intros peak ks Is k a b. unfold PeakCollection_S.
  assert (G : forall ks Is k a b, fold_left (fun out (cf : R * R) => out + peak (k - fst cf) a b * snd cf) (combine ks Is) (0 * peak (10 ^ 10) a b) = sum (map (fun cf => snd cf * peak (k - fst cf) a b) (combine ks Is))).
  { intros ks0 Is0 k0 a0 b0. rewrite peak_acc, Rmult_0_l, Rplus_0_l. f_equal. apply map_ext. intros c. ring. }
  split; [apply G|]. split; [|split; [|split]].
  - intros d. rewrite !G. revert Is. induction ks as [|c ks IH]; intros [|i Is]; try reflexivity. cbn [map combine]. unfold sum in *. cbn [fold_right fst snd]. rewrite (IH Is). replace (k + d - (c + d)) with (k - c) by ring. reflexivity.
  - intros ks' Is' HL. rewrite !G. revert Is HL. induction ks as [|c ks IH]; intros [|i Is] HL; cbn in HL; try lia; [unfold sum; cbn; ring|]. cbn [app combine map]. unfold sum in *. cbn [fold_right]. rewrite (IH Is) by lia. ring.
  - intros c. rewrite !G. revert Is. induction ks as [|x ks IH]; intros [|i Is]; try (unfold sum; cbn; ring). cbn [map combine]. unfold sum in *. cbn [fold_right fst snd]. rewrite (IH Is). ring.
  - intros Hs. rewrite !G. f_equal. apply map_ext. intros c. now rewrite Hs.
Qed.
Print Assumptions C92_peaks.
Example C92_ex : PeakCollection_S (fun x _ _ => x ^ 2) [1; 2] [3; 4] 5 0 0 = 84.
Proof. destruct (C92_peaks (fun x _ _ => x ^ 2) [1; 2] [3; 4] 5 0 0) as [-> _]. unfold sum. cbn. ring. Qed.
