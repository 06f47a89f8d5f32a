(** Property C128: the structure factor cached for the Born collision
    frequencies is the one the 'BM S_ii' model evaluates. *)
From Coq Require Import Reals List Bool Arith Lra Lia.
From Verif Require Import M_Const M_PlasmaState L_PlasmaState M_Interp L_Interp M_Setup L_Setup M_IonFeature L_IonFeature M_BMSii L_BMSii
  P_Setup P_IonFeature.
Import ListNotations.
Open Scope R_scope.

Lemma angstrom_pos : 0 < angstrom.
Proof. unfold angstrom. apply Rinv_0_lt_compat. apply pow_lt. lra. Qed.

Lemma probe_wavenumber u kk st st' : kk <> 0 -> get_probe_setup u kk st = Some st' -> k u st' = kk.
Proof.
  intros Hk E. destruct (Req_dec (sin (angle st / 2)) 0) as [H|H].
  - rewrite (proj2 (C24_probe_setup u kk st Hk) H) in E. discriminate.
  - destruct (proj1 (C24_probe_setup u kk st Hk) H) as (s' & E' & K & _). congruence.
Qed.

(** the closure of Sum_Sii for any ion feature model that interpolates its grid *)
Lemma sum_cached u ion s st ks S x : supports ion = true -> on_grid ion s = Some (ks, S) ->
  shape (nions s) (length ks) S -> (1 <= nions s)%nat -> number_fraction s = Some x ->
  exists f, build_cached u (BM_Sum ion) s st = Some f /\
    forall kk, f kk = Some (nsum (nions s) (fun a => nsum (nions s) (fun b =>
      sqrt (at_ x a * at_ x b) * interp None None ks (row2 S a b) kk))).
Proof.
  intros Hs Hg Sh Hn Hx. unfold build_cached, BM_Sum. cbn [bm_supports bm_on_grid]. rewrite Hs, Hg. cbn [obind snd fst].
  unfold combine_grid. rewrite Hx. cbn [obind fst snd]. eexists. split; [reflexivity|]. intros kk. f_equal.
  cbn [fst snd]. rewrite interp_scale by exact angstrom_pos. unfold row2 at 1. cbn [nth].
  rewrite (proj2 (proj2 Sh) O O) by lia. f_equal. exact (interp_nsum2 ks kk (nions s) (length ks) (fun a b => sqrt (at_ x a * at_ x b)) (row2 S) (proj2 (proj2 Sh))).
Qed.

(** ** Caching changes nothing *)
Definition state_ok (s : pstate) : Prop := exists x, number_fraction s = Some x.

Theorem C128_one_potential : forall u hnc s st kk st', let '(ks, C) := hnc s in
  shape (nions s) (length ks) C -> (1 <= nions s)%nat -> state_ok s ->
  kk <> 0 -> get_probe_setup u kk st = Some st' ->
  exists f v, build_cached u (BM_Sum (OnePotential u hnc)) s st = Some f /\ f kk = Some v /\
    bm_eval (BM_Sum (OnePotential u hnc)) s st' = Some v.
Proof.
  intros u hnc s st kk st'. destruct (hnc s) as [ks C] eqn:E. intros Sh Hn [x Hx] Hk Hp.
  destruct (sum_cached u (OnePotential u hnc) s st ks C x) as (f & Hf & Hv); try assumption; [reflexivity|cbn; now rewrite E|].
  exists f. eexists. split; [exact Hf|]. split; [apply Hv|].
  unfold BM_Sum, OnePotential. cbn [bm_eval S_ii]. rewrite E. cbn [obind]. unfold Sum_Sii. rewrite Hx. cbn [obind]. f_equal.
  rewrite (probe_wavenumber u kk st st' Hk Hp). apply nsum_ext. intros a Ha. apply nsum_ext. intros b Hb.
  now rewrite (entry_interp kk ks C _ _ a b Sh Ha Hb).
Qed.
Print Assumptions C128_one_potential.

(** the electrons' row and column are dropped before or after interpolation *)
Lemma removelast_map {A B} (f : A -> B) l : removelast (map f l) = map f (removelast l).
Proof.
  induction l as [|x l IH]; [reflexivity|]. destruct l as [|y l]; [reflexivity|].
  change (removelast (map f (x :: y :: l))) with (f x :: removelast (map f (y :: l))). rewrite IH. reflexivity.
Qed.
Lemma drop_interp q ks S : drop_electrons (hnc_interp q ks S) = hnc_interp q ks (drop_electrons S).
Proof.
  unfold drop_electrons, hnc_interp. rewrite removelast_map, !map_map. apply map_ext. intros r. apply removelast_map.
Qed.
Lemma removelast_nth {A} (l : list A) i d : (S i < length l)%nat -> nth i (removelast l) d = nth i l d.
Proof.
  revert i. induction l as [|x l IH]; intros i H; cbn in H; [lia|]. destruct l as [|y l]; [cbn in H; lia|].
  change (removelast (x :: y :: l)) with (x :: removelast (y :: l)). destruct i as [|i]; [reflexivity|]. cbn [nth]. rewrite IH; [reflexivity|cbn in *; lia].
Qed.
Lemma removelast_length {A} (l : list A) : length (removelast l) = (length l - 1)%nat.
Proof.
  induction l as [|x l IH]; [reflexivity|]. destruct l as [|y l]; [reflexivity|].
  change (removelast (x :: y :: l)) with (x :: removelast (y :: l)). cbn [length] in *. rewrite IH. lia.
Qed.
Lemma drop_shape n m C : shape (S n) m C -> shape n m (drop_electrons C) /\
  forall a b, (a < n)%nat -> (b < n)%nat -> row2 (drop_electrons C) a b = row2 C a b.
Proof.
  intros (H1 & H2 & H3).
  assert (R : forall a, (a < n)%nat -> nth a (drop_electrons C) [] = removelast (nth a C [])).
  { intros a Ha. unfold drop_electrons. change (@nil (list R)) with (@removelast (list R) []). rewrite map_nth.
    now rewrite removelast_nth by lia. }
  assert (K : forall a b, (a < n)%nat -> (b < n)%nat -> row2 (drop_electrons C) a b = row2 C a b).
  { intros a b Ha Hb. unfold row2. rewrite R by assumption. apply removelast_nth. rewrite H2; lia. }
  split; [|exact K]. split; [|split].
  - unfold drop_electrons. rewrite map_length, removelast_length. lia.
  - intros a Ha. rewrite R by assumption. rewrite removelast_length, H2; lia.
  - intros a b Ha Hb. rewrite K by assumption. apply H3; lia.
Qed.

Theorem C128_three_potential : forall u hnc s st kk st', let '(ks, C) := hnc s in
  shape (S (nions s)) (length ks) C -> (1 <= nions s)%nat -> state_ok s ->
  kk <> 0 -> get_probe_setup u kk st = Some st' ->
  exists f v, build_cached u (BM_Sum (ThreePotential u hnc)) s st = Some f /\ f kk = Some v /\
    bm_eval (BM_Sum (ThreePotential u hnc)) s st' = Some v /\
    (forall x, number_fraction s = Some x ->
       v = nsum (nions s) (fun a => nsum (nions s) (fun b => sqrt (at_ x a * at_ x b) * interp None None ks (row2 C a b) kk))).
Proof.
  intros u hnc s st kk st'. destruct (hnc s) as [ks C] eqn:E. intros Sh Hn [x Hx] Hk Hp.
  destruct (drop_shape _ _ _ Sh) as [Sh' K].
  destruct (sum_cached u (ThreePotential u hnc) s st ks (drop_electrons C) x) as (f & Hf & Hv); try assumption; [reflexivity|cbn; now rewrite E|].
  exists f. eexists. split; [exact Hf|]. split; [apply Hv|]. split.
  - unfold BM_Sum, ThreePotential. cbn [bm_eval S_ii]. rewrite E. cbn [obind]. unfold Sum_Sii. rewrite Hx. cbn [obind]. f_equal.
    rewrite (probe_wavenumber u kk st st' Hk Hp). rewrite drop_interp. apply nsum_ext. intros a Ha. apply nsum_ext. intros b Hb.
    now rewrite (entry_interp kk ks _ _ _ a b Sh' Ha Hb).
  - intros y Hy. rewrite Hx in Hy. injection Hy as <-. apply nsum_ext. intros a Ha. apply nsum_ext. intros b Hb.
    now rewrite K by assumption.
Qed.
Print Assumptions C128_three_potential.

(** the average atom: one species, the chain solved for the averaged state *)
Theorem C128_average_atom : forall u hnc s st kk st' aa, average s = Some aa -> let '(ks, C) := hnc aa in
  shape 1 (length ks) C -> kk <> 0 -> get_probe_setup u kk st = Some st' ->
  exists f v, build_cached u (BM_Average u hnc) s st = Some f /\ f kk = Some v /\
    bm_eval (BM_Average u hnc) s st' = Some v /\ v = interp None None ks (row2 C 0 0) kk.
Proof.
  intros u hnc s st kk st' aa Ha. destruct (hnc aa) as [ks C] eqn:E. intros Sh Hk Hp.
  unfold build_cached, BM_Average. cbn [bm_supports bm_on_grid bm_eval]. rewrite Ha. cbn [obind fst snd]. rewrite E. cbn [fst snd].
  eexists. eexists. split; [reflexivity|]. split; [reflexivity|].
  rewrite (probe_wavenumber u kk st st' Hk Hp). rewrite interp_scale by exact angstrom_pos.
  rewrite (entry_interp kk ks C 1 (length ks) 0 0 Sh) by lia. split; reflexivity.
Qed.
Print Assumptions C128_average_atom.

(** Without a grid the model is evaluated at the probe setup, whose wavenumber
    is the one asked for; in forward direction there is none. *)
Theorem C128_no_grid : forall u S s st,
  exists f, build_cached u (BM_Sum (NoGrid S)) s st = Some f /\
  forall kk, kk <> 0 ->
    (sin (angle st / 2) <> 0 -> exists st', k u st' = kk /\ measured st' = measured st /\ angle st' = angle st /\
       f kk = bm_eval (BM_Sum (NoGrid S)) s st') /\
    (sin (angle st / 2) = 0 -> f kk = None).
Proof.
  intros u S s st. eexists. split; [reflexivity|]. intros kk Hk. split; intros H.
  - destruct (proj1 (C24_probe_setup u kk st Hk) H) as (st' & E & K & A & _ & M & _). exists st'.
    split; [exact K|]. split; [exact M|]. split; [exact A|]. rewrite E. reflexivity.
  - now rewrite (proj2 (C24_probe_setup u kk st Hk) H).
Qed.
Print Assumptions C128_no_grid.
(** the grid needs no probe setup: defined at every angle, for every wavenumber,
    and the same for every setup *)
Theorem C128_any_angle : forall u hnc s st1 st2, let '(ks, C) := hnc s in
  shape (nions s) (length ks) C -> (1 <= nions s)%nat -> state_ok s ->
  exists f g, build_cached u (BM_Sum (OnePotential u hnc)) s st1 = Some f /\
    build_cached u (BM_Sum (OnePotential u hnc)) s st2 = Some g /\
    forall kk, exists v, f kk = Some v /\ g kk = Some v.
Proof.
  intros u hnc s st1 st2. destruct (hnc s) as [ks C] eqn:E. intros Sh Hn [x Hx].
  destruct (sum_cached u (OnePotential u hnc) s st1 ks C x) as (f & Hf & Hv); try assumption; [reflexivity|cbn; now rewrite E|].
  destruct (sum_cached u (OnePotential u hnc) s st2 ks C x) as (g & Hg & Hw); try assumption; [reflexivity|cbn; now rewrite E|].
  exists f, g. split; [exact Hf|]. split; [exact Hg|]. intros kk. eexists. split; [apply Hv|apply Hw].
Qed.
Print Assumptions C128_any_angle.

(** ** What the combined factor is *)
(** the matrices at the grid's points positive semi-definite: nonnegative *)
Theorem C128_nonnegative : forall u hnc s st, let '(ks, C) := hnc s in
  shape (nions s) (length ks) C -> (1 <= nions s)%nat -> wf s -> masses_pos s ->
  List.Forall (fun r => 0 <= r) (mass_density s) -> state_ok s ->
  ascending ks -> (1 <= length ks)%nat ->
  (forall j v, (j < length ks)%nat ->
     0 <= nsum (nions s) (fun a => nsum (nions s) (fun b => v a * v b * at_ (row2 C a b) j))) ->
  exists f, build_cached u (BM_Sum (OnePotential u hnc)) s st = Some f /\ forall kk, exists v, f kk = Some v /\ 0 <= v.
Proof.
  intros u hnc s st. destruct (hnc s) as [ks C] eqn:E. intros Sh Hn Hw Hm Hr [x Hx] Ha Hl HP.
  destruct (sum_cached u (OnePotential u hnc) s st ks C x) as (f & Hf & Hv); try assumption; [reflexivity|cbn; now rewrite E|].
  exists f. split; [exact Hf|]. intros kk. eexists. split; [apply Hv|].
  destruct (interp_affine_convex ks kk Ha Hl) as (i & j & t & Hi & Hj & Ht & EI).
  pose proof (number_fraction_nonneg s x Hw Hm Hr Hx) as X0.
  assert (Q : forall p, nsum (nions s) (fun a => nsum (nions s) (fun b => sqrt (at_ x a * at_ x b) * at_ (row2 C a b) p)) =
    nsum (nions s) (fun a => nsum (nions s) (fun b => sqrt (at_ x a) * sqrt (at_ x b) * at_ (row2 C a b) p))).
  { intros p. apply nsum_ext. intros a _. apply nsum_ext. intros b _. now rewrite sqrt_mult. }
  replace (nsum _ _) with
    ((1 - t) * nsum (nions s) (fun a => nsum (nions s) (fun b => sqrt (at_ x a * at_ x b) * at_ (row2 C a b) i)) +
     t * nsum (nions s) (fun a => nsum (nions s) (fun b => sqrt (at_ x a * at_ x b) * at_ (row2 C a b) j))).
  - rewrite !Q. pose proof (HP i (fun a => sqrt (at_ x a)) Hi) as P1. pose proof (HP j (fun a => sqrt (at_ x a)) Hj) as P2. cbn beta in P1, P2.
    apply Rplus_le_le_0_compat; apply Rmult_le_pos; try assumption; lra.
  - rewrite <- !nsum_scal, <- nsum_plus. apply nsum_ext. intros a _.
    rewrite <- !nsum_scal, <- nsum_plus. apply nsum_ext. intros b _. rewrite EI. ring.
Qed.
Print Assumptions C128_nonnegative.

Lemma fraction_sum s x : wf s -> number_fraction s = Some x -> nsum (nions s) (at_ x) = 1.
Proof.
  intros Hw Hx. destruct (wf_zip s Hw) as [l El]. rewrite El in *. unfold number_fraction in Hx. rewrite n_i_zip in Hx. cbn [obind] in Hx.
  unfold div_scalar in Hx. destruct (Req_EM_T _ 0) as [|Hn]; [discriminate|]. injection Hx as <-. rewrite map_map.
  set (y := map (fun z => sp_n z / sum (map sp_n l)) l). replace (nions _) with (length y) by (unfold y, nions; cbn [ions]; now rewrite !map_length).
  transitivity (sum (map (fun z => z) y)); [exact (nsum_list (fun z => z) 0 y)|]. rewrite map_id.
  unfold y. rewrite (sum_map_div (sum (map sp_n l)) sp_n). now field.
Qed.
Lemma sum_of_alike s x c : wf s -> masses_pos s -> List.Forall (fun r => 0 <= r) (mass_density s) -> number_fraction s = Some x ->
  nsum (nions s) (fun a => nsum (nions s) (fun b => sqrt (at_ x a * at_ x b) * (eye a b + sqrt (at_ x a * at_ x b) * c))) = 1 + c.
Proof.
  intros Hw Hm Hr Hx. pose proof (number_fraction_nonneg s x Hw Hm Hr Hx) as X0. pose proof (fraction_sum s x Hw Hx) as X1.
  transitivity (nsum (nions s) (fun a => nsum (nions s) (fun b => eye b a * at_ x b)) + nsum (nions s) (fun a => nsum (nions s) (fun b => c * (at_ x b * at_ x a)))).
  - rewrite <- nsum_plus. apply nsum_ext. intros a Ha. rewrite <- nsum_plus. apply nsum_ext. intros b Hb.
    unfold eye. rewrite (Nat.eqb_sym b a). destruct (Nat.eqb_spec a b) as [->|N].
    + rewrite sqrt_square by apply X0. ring.
    + replace (sqrt (at_ x a * at_ x b) * (0 + sqrt (at_ x a * at_ x b) * c)) with ((sqrt (at_ x a * at_ x b) * sqrt (at_ x a * at_ x b)) * c) by ring.
      rewrite sqrt_sqrt by (apply Rmult_le_pos; apply X0). ring.
  - rewrite (nsum_ext _ (fun a => nsum _ (fun b => eye b a * at_ x b)) (at_ x)) by (intros a Ha; now rewrite (nsum_eye (nions s) (at_ x) a Ha)).
    rewrite nsum_outer, X1. ring.
Qed.

(** Species that are alike (whatever they are labelled, however many there are):
    the sum is the structure factor of the one-component plasma.  With
    [g] constant zero this is the uncorrelated plasma, and the factor is one. *)
Theorem C128_alike : forall u hnc s st g, let '(ks, C) := hnc s in
  shape (nions s) (length ks) C -> (1 <= nions s)%nat -> wf s -> masses_pos s ->
  List.Forall (fun r => 0 <= r) (mass_density s) -> length g = length ks -> ascending ks -> (1 <= length ks)%nat ->
  (exists x, number_fraction s = Some x /\
     forall a b j, (a < nions s)%nat -> (b < nions s)%nat -> (j < length ks)%nat ->
       at_ (row2 C a b) j = (if Nat.eqb a b then 1 else 0) + sqrt (at_ x a * at_ x b) * at_ g j) ->
  exists f, build_cached u (BM_Sum (OnePotential u hnc)) s st = Some f /\
    forall kk, f kk = Some (1 + interp None None ks g kk).
Proof.
  intros u hnc s st g. destruct (hnc s) as [ks C] eqn:E. intros Sh Hn Hw Hm Hr Hg Ha Hl (x & Hx & HS).
  destruct (sum_cached u (OnePotential u hnc) s st ks C x) as (f & Hf & Hv); try assumption; [reflexivity|cbn; now rewrite E|].
  exists f. split; [exact Hf|]. intros kk. rewrite Hv. f_equal.
  destruct (interp_affine_convex ks kk Ha Hl) as (i & j & t & Hi & Hj & Ht & EI).
  rewrite EI, <- (sum_of_alike s x ((1 - t) * at_ g i + t * at_ g j) Hw Hm Hr Hx).
  apply nsum_ext. intros a La. apply nsum_ext. intros b Lb. rewrite EI, !HS by assumption. unfold eye. ring.
Qed.
Print Assumptions C128_alike.

(** Outside of the grid the closure is frozen at the grid's ends. *)
Theorem C128_outside : forall u hnc s st aa, average s = Some aa -> let '(ks, C) := hnc aa in
  ascending ks -> (1 <= length ks)%nat ->
  exists f, build_cached u (BM_Average u hnc) s st = Some f /\
    (forall kk, kk < at_ ks 0 -> f kk = Some (at_ (row2 C 0 0) 0)) /\
    (forall kk, at_ ks (length ks - 1) < kk -> f kk = Some (at_ (row2 C 0 0) (length ks - 1))) /\
    (forall lo hi, (forall i, (i < length ks)%nat -> lo <= at_ (row2 C 0 0) i <= hi) ->
       forall kk, exists v, f kk = Some v /\ lo <= v <= hi).
Proof.
  intros u hnc s st aa Ha. destruct (hnc aa) as [ks C] eqn:E. intros Hs Hl.
  unfold build_cached, BM_Average. cbn [bm_supports bm_on_grid]. rewrite Ha. cbn [obind]. rewrite E. cbn [fst snd].
  eexists. split; [reflexivity|]. split; [|split].
  - intros kk Hk. rewrite interp_scale by exact angstrom_pos. f_equal. now rewrite interp_left.
  - intros kk Hk. rewrite interp_scale by exact angstrom_pos. f_equal. now rewrite interp_right.
  - intros lo hi H kk. eexists. split; [reflexivity|]. rewrite interp_scale by exact angstrom_pos.
    apply interp_bounds; try assumption; intros; discriminate.
Qed.
Print Assumptions C128_outside.

(** the mean charge handed on is the electron density per ion, and the potential
    is the one 'BM V_eiS' gives at the wavenumber *)
Theorem C128_inputs : forall u bm V mu s st f Vk Z m ne ni, wf s -> n_e s = Some ne -> n_i s = Some ni ->
  prepare_BM u bm V mu s st = Some (f, Vk, Z, m) ->
  build_cached u bm s st = Some f /\ Z * sum ni = ne /\ mu s = Some m /\
  (forall st', Vk (k u st') = BM_V_evaluate u V s st').
Proof.
  intros u bm V mu s st f Vk Z m ne ni Hw Hne Hni H. unfold prepare_BM in H.
  destruct (build_cached u bm s st) as [f'|]; [|discriminate]. cbn [obind] in H.
  destruct (number_fraction s) as [x|] eqn:Hx; [|discriminate]. cbn [obind] in H.
  destruct (ew Rmult (Z_free s) x) as [zx|] eqn:Hz; [|discriminate]. cbn [obind] in H.
  destruct (mu s) as [m'|]; [|discriminate]. cbn [obind] in H. injection H as <- <- <- <-.
  split; [reflexivity|]. split; [|split; reflexivity].
  destruct (wf_zip s Hw) as [l El]. rewrite El in Hne, Hni, Hx, Hz. rewrite n_e_zip in Hne. rewrite n_i_zip in Hni.
  injection Hne as <-. injection Hni as <-. unfold number_fraction in Hx. rewrite n_i_zip in Hx. cbn [obind] in Hx.
  unfold div_scalar in Hx. destruct (Req_EM_T _ 0) as [|Hn]; [discriminate|]. injection Hx as <-. rewrite map_map in Hz.
  cbn [Z_free] in Hz. rewrite ew_map in Hz. injection Hz as <-.
  set (c := sum (map sp_n l)) in *.
  rewrite (map_ext (fun y => sp_Z y * (sp_n y / c)) (fun y => (sp_n y * sp_Z y) / c)) by (intros; field; exact Hn).
  rewrite (sum_map_div c (fun y => sp_n y * sp_Z y)). field. exact Hn.
Qed.
Print Assumptions C128_inputs.

(** ** The hypotheses are met: two species, a grid of three wavenumbers *)
Definition bm_grid : list R := [1; 2; 4].
Definition bm_cube : cube := [[[1; 2; 1]; [0; 1 / 2; 0]]; [[0; 1 / 2; 0]; [1; 1 / 2; 1]]].
Definition bm_state : pstate := mkPS [mkEl 1 1 1; mkEl 6 12 1] [1; 4] [1; 12] 1 [1; 1] [-1; -1].
Lemma bm_shape : shape (nions bm_state) (length bm_grid) bm_cube.
Proof.
  split; [reflexivity|]. split; [intros [|[|a]] H; cbn in *; try reflexivity; lia|].
  intros [|[|a]] [|[|b]] H1 H2; cbn in *; try reflexivity; lia.
Qed.
Lemma bm_fractions : number_fraction bm_state = Some [1 / 2; 1 / 2].
Proof.
  unfold number_fraction, n_i, bm_state, atomic_masses. cbn. unfold div_scalar, sum. cbn [fold_right].
  destruct (Req_EM_T _ 0); [exfalso; lra|]. cbn. repeat f_equal; field.
Qed.
Example C128_met : exists st', get_probe_setup unit_consts 3 exSetup = Some st' /\
  exists f, build_cached unit_consts (BM_Sum (OnePotential unit_consts (fun _ => (bm_grid, bm_cube)))) bm_state exSetup = Some f /\
    f 3 = Some (11 / 8) /\ bm_eval (BM_Sum (OnePotential unit_consts (fun _ => (bm_grid, bm_cube)))) bm_state st' = Some (11 / 8).
Proof.
  assert (Hs : sin (angle exSetup / 2) <> 0) by apply C24_ex.
  destruct (proj1 (C24_probe_setup unit_consts 3 exSetup ltac:(lra)) Hs) as (st' & E & _). exists st'. split; [exact E|].
  destruct (C128_one_potential unit_consts (fun _ => (bm_grid, bm_cube)) bm_state exSetup 3 st' bm_shape ltac:(cbn; lia)
    (ex_intro _ _ bm_fractions) ltac:(lra) E) as (f & v & Hf & Hv & He).
  destruct (sum_cached unit_consts (OnePotential unit_consts (fun _ => (bm_grid, bm_cube))) bm_state exSetup bm_grid bm_cube _ eq_refl eq_refl bm_shape ltac:(cbn; lia) bm_fractions)
    as (f' & Hf' & Hv'). rewrite Hf in Hf'. injection Hf' as <-.
  assert (Hi : increasing bm_grid).
  { intros i j H. cbn in H. destruct i as [|[|[|i]]], j as [|[|[|j]]]; cbn; try lia; lra. }
  assert (I : forall ys, interp None None bm_grid ys 3 = at_ ys 1 + (at_ ys 2 - at_ ys 1) / 2).
  { intros ys. rewrite (interp_segment None None bm_grid ys 1 3 Hi) by (cbn; lia || (cbn; lra)). cbn. field. }
  assert (V : v = 11 / 8).
  { specialize (Hv' 3). rewrite Hv in Hv'. injection Hv' as ->. cbn [nions bm_state ions length nsum]. rewrite !I.
    cbn [at_ nth row2 bm_cube]. rewrite sqrt_square by lra. unfold at_, row2. cbn [nth bm_cube]. lra. }
  subst v. exists f. auto.
Qed.
