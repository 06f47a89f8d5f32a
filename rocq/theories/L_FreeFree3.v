From Coq Require Import Reals List Arith Lra Lia Psatz FunctionalExtensionality.
From Coquelicot Require Import Complex.
From Verif Require Import M_Const M_PlasmaState M_PlasmaPhysics L_PlasmaPhysics M_Interp L_Interp M_Instrument L_Instrument L_HNC M_FreeFree L_FreeFree L_FreeFree2.
Import ListNotations.
Open Scope R_scope.

(** ** Arrays antisymmetric or symmetric about their middle *)
Definition mirrored (s : R) (l : list R) : Prop := forall i, (i < length l)%nat -> at_ l (length l - 1 - i) = s * at_ l i.

Lemma segment xs q : (2 <= length xs)%nat -> at_ xs 0 <= q <= at_ xs (length xs - 1) ->
  exists i, (S i < length xs)%nat /\ at_ xs i <= q <= at_ xs (S i).
Proof.
  intros Hn [H0 H1]. assert (G : forall m, (m < length xs)%nat -> q <= at_ xs m -> (1 <= m)%nat ->
    exists i, (S i < length xs)%nat /\ at_ xs i <= q <= at_ xs (S i)).
  { induction m as [|m IH]; intros Hm Hq H; [lia|]. destruct (Rle_dec (at_ xs m) q) as [L|L].
    - exists m. auto.
    - destruct m as [|m]; [contradiction|]. apply IH; [lia|lra|lia]. }
  apply (G (length xs - 1)%nat); [lia|assumption|lia].
Qed.
Lemma interp_mirror s xs ys q : increasing xs -> (2 <= length xs)%nat -> length ys = length xs -> s * s = 1 ->
  mirrored (-1) xs -> mirrored s ys -> interp None None xs ys (- q) = s * interp None None xs ys q.
Proof.
  intros Hs Hn HL Hss Hx Hy. set (n := length xs) in *. unfold mirrored in Hx, Hy. rewrite HL in Hy. fold n in Hx, Hy.
  pose proof (Hx 0%nat ltac:(lia)) as Hx0. pose proof (Hy 0%nat ltac:(lia)) as Hy0. rewrite Nat.sub_0_r in Hx0, Hy0.
  assert (Hy1 : at_ ys 0 = s * at_ ys (n - 1)) by (rewrite Hy0, <- Rmult_assoc, Hss; ring).
  destruct (Rlt_dec q (at_ xs 0)) as [L|L].
  { rewrite (interp_left None None xs ys q) by (try apply incr_asc; assumption || (fold n; lia)).
    rewrite interp_right by (fold n; lra). fold n. exact Hy0. }
  destruct (Rlt_dec (at_ xs (n - 1)) q) as [G|G].
  { rewrite (interp_right None None xs ys q) by exact G. fold n.
    rewrite interp_left by (try (apply incr_asc; assumption); try (fold n; lia); lra). exact Hy1. }
  destruct (segment xs q) as (i & Hi & Hq); [assumption|fold n; lra|]. fold n in Hi.
  rewrite (interp_segment None None xs ys i q) by assumption.
  assert (E1 : at_ xs (n - 2 - i) = - at_ xs (S i)).
  { replace (n - 2 - i)%nat with (n - 1 - S i)%nat by lia. rewrite Hx by lia. ring. }
  assert (E2 : at_ xs (S (n - 2 - i)) = - at_ xs i).
  { replace (S (n - 2 - i))%nat with (n - 1 - i)%nat by lia. rewrite Hx by lia. ring. }
  assert (E3 : at_ ys (n - 2 - i) = s * at_ ys (S i)).
  { replace (n - 2 - i)%nat with (n - 1 - S i)%nat by lia. now rewrite Hy by lia. }
  assert (E4 : at_ ys (S (n - 2 - i)) = s * at_ ys i).
  { replace (S (n - 2 - i))%nat with (n - 1 - i)%nat by lia. now rewrite Hy by lia. }
  rewrite (interp_segment None None xs ys (n - 2 - i) (- q)); [|assumption|fold n; lia|rewrite E1, E2; lra].
  rewrite E1, E2, E3, E4. assert (at_ xs i < at_ xs (S i)) by (apply Hs; fold n; lia). field. lra.
Qed.

(** *** The mirrored tables *)
Lemma mirror_length s l : length (mirror s l) = (2 * length l)%nat.
Proof. unfold mirror. rewrite app_length, map_length, rev_length. lia. Qed.
Lemma mirror_hi s l i : at_ (mirror s l) (length l + i) = at_ l i.
Proof. unfold mirror, at_. rewrite app_nth2; rewrite map_length, rev_length; [|lia]. f_equal. lia. Qed.
Lemma mirror_lo s l i : (i < length l)%nat -> at_ (mirror s l) i = s * at_ l (length l - 1 - i).
Proof.
  intros H. unfold mirror, at_. rewrite app_nth1 by (rewrite map_length, rev_length; lia).
  rewrite (nth_indep _ 0 ((fun x => s * x) 0)) by (rewrite map_length, rev_length; lia). rewrite map_nth. f_equal.
  rewrite rev_nth by lia. f_equal. lia.
Qed.
Lemma mirror_mirrored s l : s * s = 1 -> mirrored s (mirror s l).
Proof.
  intros Hss i Hi. rewrite mirror_length in *. set (m := length l) in *.
  destruct (Nat.lt_ge_cases i m) as [L|L].
  - rewrite (mirror_lo s l i) by assumption. fold m. replace (2 * m - 1 - i)%nat with (m + (m - 1 - i))%nat by lia.
    rewrite mirror_hi. rewrite <- Rmult_assoc, Hss. ring.
  - rewrite (mirror_lo s l (2 * m - 1 - i)) by lia. fold m. replace i with (m + (i - m))%nat at 2 by lia. rewrite mirror_hi.
    f_equal. f_equal. lia.
Qed.
Lemma mirror_increasing l : increasing l -> 0 < at_ l 0 -> increasing (mirror (-1) l).
Proof.
  intros Hs H0 i j [Hij Hj]. rewrite mirror_length in Hj. set (m := length l) in *.
  assert (P : forall i, (i < m)%nat -> 0 < at_ l i).
  { intros a Ha. destruct a; [assumption|]. assert (at_ l 0 < at_ l (S a)) by (apply Hs; fold m; lia). lra. }
  destruct (Nat.lt_ge_cases j m) as [J|J].
  - rewrite !mirror_lo by lia. fold m. assert (at_ l (m - 1 - j) < at_ l (m - 1 - i)) by (apply Hs; fold m; lia). lra.
  - replace j with (m + (j - m))%nat by lia. rewrite mirror_hi. destruct (Nat.lt_ge_cases i m) as [I|I].
    + rewrite mirror_lo by lia. fold m. pose proof (P (m - 1 - i)%nat ltac:(lia)). pose proof (P (j - m)%nat ltac:(lia)). lra.
    + replace i with (m + (i - m))%nat by lia. rewrite mirror_hi. apply Hs. fold m. lia.
Qed.

(** *** Kramers-Kronig transform *)
Lemma at_map f l i : (i < length l)%nat -> at_ (map f l) i = f (at_ l i).
Proof.
  intros H. unfold at_. rewrite (nth_indep _ 0 (f 0)) by (rewrite map_length; assumption). apply map_nth.
Qed.
Lemma map2_len {A B D} (f : A -> B -> D) l m : length l = length m -> length (map2 f l m) = length l.
Proof. revert m. induction l as [|a l IH]; intros [|b m] H; cbn in *; try discriminate; [reflexivity|]. f_equal. apply IH. lia. Qed.
Lemma at_map2 f l m i : length l = length m -> (i < length l)%nat -> at_ (map2 f l m) i = f (at_ l i) (at_ m i).
Proof.
  unfold at_. revert m i. induction l as [|a l IH]; intros [|b m] i H Hi; cbn in *; try discriminate; try lia.
  destruct i; [reflexivity|]. apply IH; lia.
Qed.
Lemma trapz_mirror s xs ys zs : length ys = length xs -> length zs = length xs -> mirrored (-1) xs ->
  (forall i, (i < length xs)%nat -> at_ ys (length xs - 1 - i) = s * at_ zs i) -> trapz xs ys = s * trapz xs zs.
Proof.
  intros H1 H2 Hx Hy. rewrite !trapz_nsum by congruence. rewrite nsum_rev, <- nsum_scal. apply nsum_ext. intros i Hi.
  set (n := length xs) in *. unfold mirrored in Hx. fold n in Hx.
  replace (S (n - 1 - 1 - i))%nat with (n - 1 - i)%nat by lia. replace (n - 1 - 1 - i)%nat with (n - 1 - S i)%nat by lia.
  rewrite !Hx, !Hy by lia. field.
Qed.
Lemma kkt_odd E Es Is eps : length Is = length Es -> mirrored (-1) Es -> mirrored 1 Is ->
  KKT_single_point (- E) Es Is eps = - KKT_single_point E Es Is eps.
Proof.
  intros HL Hx HI. unfold KKT_single_point. unfold mirrored in HI. rewrite HL in HI.
  rewrite (trapz_mirror (-1) Es (kkt_masked (fun E0 => if Rlt_dec E0 (- E - eps) then true else false) (- E) Es Is)
             (kkt_masked (fun E0 => if Rgt_dec E0 (E + eps) then true else false) E Es Is));
    [|now apply map2_len|now apply map2_len|assumption|].
  2:{ intros i Hi. unfold kkt_masked. rewrite !at_map2 by (try lia; congruence). rewrite Hx, HI by assumption.
      destruct (Rlt_dec (-1 * at_ Es i) (- E - eps)); destruct (Rgt_dec (at_ Es i) (E + eps)); try lra.
      unfold Rdiv. replace (-1 * at_ Es i - - E) with (- (at_ Es i - E)) by ring. rewrite Rinv_opp. ring. }
  rewrite (trapz_mirror (-1) Es (kkt_masked (fun E0 => if Rgt_dec E0 (- E + eps) then true else false) (- E) Es Is)
             (kkt_masked (fun E0 => if Rlt_dec E0 (E - eps) then true else false) E Es Is));
    [|now apply map2_len|now apply map2_len|assumption|].
  2:{ intros i Hi. unfold kkt_masked. rewrite !at_map2 by (try lia; congruence). rewrite Hx, HI by assumption.
      destruct (Rgt_dec (-1 * at_ Es i) (- E + eps)); destruct (Rlt_dec (at_ Es i) (E - eps)); try lra.
      unfold Rdiv. replace (-1 * at_ Es i - - E) with (- (at_ Es i - E)) by ring. rewrite Rinv_opp. ring. }
  ring.
Qed.
Lemma linspace_mirrored M n : (2 <= n)%nat -> mirrored (-1) (linspace (- M) M n).
Proof.
  intros Hn i Hi. rewrite linspace_length in *. rewrite !linspace_at by lia.
  rewrite !minus_INR by lia. assert (INR n - INR 1 <> 0) by (assert (2 <= INR n) by (apply (le_INR 2); assumption); cbn; lra).
  field. exact H.
Qed.
Lemma KKT_length Es Is eps n : length (KramersKronigTransform Es Is eps n) = length Es.
Proof. unfold KramersKronigTransform. apply map_length. Qed.
Lemma KKT_mirrored Es Is eps n : (2 <= n)%nat -> increasing Es -> (2 <= length Es)%nat -> length Is = length Es ->
  0 < lmax (map Rabs Es) -> mirrored (-1) Es -> mirrored 1 Is -> mirrored (-1) (KramersKronigTransform Es Is eps n).
Proof.
  intros Hn Hs HL2 HL HM HE HI i Hi. rewrite KKT_length in *. unfold KramersKronigTransform.
  set (M := lmax (map Rabs Es)) in *. set (grid := linspace (- M) M n). set (Ig := map (interp None None Es Is) grid).
  set (IK := map _ grid).
  assert (Hg : mirrored (-1) grid) by (now apply linspace_mirrored).
  assert (Lg : length grid = n) by apply linspace_length.
  assert (HIg : mirrored 1 Ig).
  { intros j Hj. unfold Ig in *. rewrite map_length in *. rewrite !at_map by lia. rewrite Hg by lia.
    replace (-1 * at_ grid j) with (- at_ grid j) by ring. apply interp_mirror; try assumption. ring. }
  assert (HIK : mirrored (-1) IK).
  { intros j Hj. unfold IK in *. rewrite map_length in *. rewrite !at_map by lia. rewrite Hg by lia.
    replace (-1 * at_ grid j) with (- at_ grid j) by ring. rewrite kkt_odd; [ring|unfold Ig; now rewrite map_length|assumption|assumption]. }
  rewrite !at_map by lia. rewrite HE by lia. replace (-1 * at_ Es i) with (- at_ Es i) by ring.
  apply interp_mirror; try assumption.
  - apply linspace_increasing; [lra|assumption].
  - rewrite Lg. assumption.
  - unfold IK. apply map_length.
  - ring.
Qed.
Lemma lmax_spec l : l <> [] -> (forall x, In x l -> x <= lmax l) /\ In (lmax l) l.
Proof.
  destruct l as [|a l]; [congruence|]. intros _. cbn [lmax]. revert a. induction l as [|b l IH]; intros a; cbn [fold_left].
  - split; [intros x [->|[]]; lra|now left].
  - destruct (IH (Rmax a b)) as [U I]. split.
    + intros x [->|[->|Hx]].
      * apply Rle_trans with (Rmax x b); [apply Rmax_l|]. apply U. now left.
      * apply Rle_trans with (Rmax a x); [apply Rmax_r|]. apply U. now left.
      * apply U. now right.
    + destruct I as [I|I]; [|right; right; exact I]. rewrite <- I. unfold Rmax. destruct (Rle_dec a b); [right; now left|now left].
Qed.
Lemma lmin_const c l : l <> [] -> (forall x, In x l -> x = c) -> lmin l = c.
Proof.
  destruct l as [|a l]; [congruence|]. intros _ H. cbn [lmin]. assert (a = c) by (apply H; now left). subst a.
  assert (H' : forall x, In x l -> x = c) by (intros x Hx; apply H; now right). clear H.
  induction l as [|b l IH]; [reflexivity|]. cbn [fold_left]. rewrite (H' b) by (now left).
  rewrite Rmin_left by lra. apply IH. intros x Hx. apply H'. now right.
Qed.
Lemma lmax_last l : l <> [] -> ascending l -> lmax l = at_ l (length l - 1).
Proof.
  intros Hl Ha. destruct (lmax_spec l Hl) as [U I]. apply Rle_antisym.
  - apply (In_nth _ _ 0) in I. destruct I as (i & Hi & E). rewrite <- E. apply Ha. lia.
  - apply U. apply nth_In. destruct l; [congruence|cbn; lia].
Qed.

(** *** The interpolated collision frequency *)
Lemma interp_table_sym kkt Es re im E : (1 <= length Es)%nat -> increasing Es -> 0 < at_ Es 0 -> length re = length Es ->
  (kkt = None -> length im = length Es) -> interp_table kkt Es re im (- E) = Cconj (interp_table kkt Es re im E).
Proof.
  intros Hn Hs H0 Hr Hi. unfold interp_table.
  pose proof (mirror_increasing Es Hs H0) as HI. pose proof (mirror_mirrored (-1) Es ltac:(ring)) as HM.
  pose proof (mirror_mirrored 1 re ltac:(ring)) as HR.
  assert (HL : (2 <= length (mirror (-1) Es))%nat) by (rewrite mirror_length; lia).
  assert (HX : length (match kkt with Some e => KramersKronigTransform (mirror (-1) Es) (mirror 1 re) e 1000 | None => mirror (-1) im end)
               = length (mirror (-1) Es) /\
               mirrored (-1) (match kkt with Some e => KramersKronigTransform (mirror (-1) Es) (mirror 1 re) e 1000 | None => mirror (-1) im end)).
  { destruct kkt as [e|].
    - split; [apply KKT_length|]. apply KKT_mirrored; try assumption; [lia|rewrite !mirror_length; congruence|].
      set (l := map Rabs (mirror (-1) Es)). assert (HN : l <> []) by (intros E0; apply (f_equal (@length R)) in E0; unfold l in E0; rewrite map_length in E0; cbn in E0; lia).
      destruct (lmax_spec l HN) as [U _]. apply Rlt_le_trans with (Rabs (at_ Es 0)); [rewrite Rabs_right; lra|].
      apply U. unfold l. apply in_map. rewrite <- (mirror_hi (-1) Es 0). apply nth_In. rewrite mirror_length. lia.
    - specialize (Hi eq_refl). split; [rewrite !mirror_length; congruence|]. apply mirror_mirrored. ring. }
  destruct HX as [LX MX]. unfold Cconj. cbn [fst snd]. f_equal.
  - rewrite (interp_mirror 1); try assumption; [ring|rewrite !mirror_length; congruence|ring].
  - rewrite (interp_mirror (-1)); try assumption; [ring|ring].
Qed.
Lemma all_some_length l m : all_some l = Some m -> length m = length l.
Proof.
  revert m. induction l as [|x l IH]; intros m H; cbn in H; [injection H as <-; reflexivity|].
  destruct x as [a|]; [|discriminate]. cbn in H. destruct (all_some l) as [b|] eqn:E; [|discriminate]. cbn in H. injection H as <-.
  cbn. f_equal. now apply IH.
Qed.

Section Coll.
  Variable u : consts.
  Variable quad : R -> option R -> (R -> option R) -> option R.
  Variable eps : R -> R -> option C.
  Variables S_ii V_eiS : R -> R.
  Variable Zf : R.

  Lemma collision_interp_sym kkt Emin Emax points E : 0 < Emin < Emax -> (2 <= points)%nat ->
    collision_frequency_interp u quad eps S_ii V_eiS Zf kkt Emin Emax points (- E) =
    oconj (collision_frequency_interp u quad eps S_ii V_eiS Zf kkt Emin Emax points E).
  Proof.
    intros HE Hp. unfold collision_frequency_interp.
    destruct (all_some (map (coll_part u quad eps S_ii V_eiS Zf fst) (linspace Emin Emax points))) as [re|] eqn:Er; cbn [obind]; [|reflexivity].
    apply all_some_length in Er. rewrite map_length in Er.
    destruct (match kkt with Some _ => Some [] | None => all_some (map (coll_part u quad eps S_ii V_eiS Zf snd) (linspace Emin Emax points)) end) as [im|] eqn:Ei;
      cbn [obind oconj option_map]; [|reflexivity].
    f_equal. apply interp_table_sym; try assumption.
    - rewrite linspace_length. lia.
    - apply linspace_increasing; [lra|assumption].
    - rewrite linspace_at by lia. cbn [INR]. lra.
    - intros ->. apply all_some_length in Ei. now rewrite map_length in Ei.
  Qed.

  Hypothesis Heps : forall q E, eps q (- E) = oconj (eps q E).
  Lemma coll_integrand_sym E q : coll_integrand u eps S_ii V_eiS (- E) q = oconj (coll_integrand u eps S_ii V_eiS E q).
  Proof.
    unfold coll_integrand. pose proof (Heps q 0) as H0. rewrite Ropp_0 in H0. rewrite Heps.
    destruct (eps q 0) as [e0|]; cbn [obind oconj option_map] in *; [|reflexivity]. injection H0 as H0.
    destruct (eps q E) as [e|]; cbn [obind oconj option_map]; [|reflexivity].
    replace (- E / hbar u) with (- (E / hbar u)) by (unfold Rdiv; ring). unfold qdiv.
    destruct (Req_EM_T (E / hbar u) 0) as [Z|Z]; destruct (Req_EM_T (- (E / hbar u)) 0); try lra; cbn [obind oconj option_map]; [reflexivity|].
    f_equal. set (w := E / hbar u) in *. replace (1 / - w) with (- (1 / w)) by (field; lra).
    rewrite H0 at 1. destruct e as [a b], e0 as [a0 b0].
    repeat (progress unfold Cconj, Cmult, Copp, Cminus, Cplus, Ci, RtoC; cbn [fst snd]). f_equal; ring.
  Qed.
  Lemma coll_part_sym part s E : quad_scales quad -> (forall z, part (Cconj z) = s * part z) ->
    coll_part u quad eps S_ii V_eiS Zf part (- E) = option_map (fun y => s * y) (coll_part u quad eps S_ii V_eiS Zf part E).
  Proof.
    intros HQ Hp. unfold coll_part.
    replace (fun q => option_map part (coll_integrand u eps S_ii V_eiS (- E) q))
      with (fun q => option_map (fun y => s * y) (option_map part (coll_integrand u eps S_ii V_eiS E q))).
    2:{ extensionality q. rewrite coll_integrand_sym. destruct (coll_integrand u eps S_ii V_eiS E q) as [z|]; cbn; [now rewrite Hp|reflexivity]. }
    rewrite HQ. destruct (quad 0 None _) as [a|]; cbn [obind option_map]; [|reflexivity]. f_equal. ring.
  Qed.
  Lemma collision_sym E : quad_scales quad ->
    collision_frequency u quad eps S_ii V_eiS Zf (- E) = oconj (collision_frequency u quad eps S_ii V_eiS Zf E).
  Proof.
    intros HQ. unfold collision_frequency.
    rewrite (coll_part_sym fst 1), (coll_part_sym snd (-1)) by (try assumption; intros z; unfold Cconj; cbn; ring).
    destruct (coll_part u quad eps S_ii V_eiS Zf fst E) as [a|]; cbn [obind oconj option_map]; [|reflexivity].
    destruct (coll_part u quad eps S_ii V_eiS Zf snd E) as [b|]; cbn [obind oconj option_map]; [|reflexivity].
    f_equal. unfold Cconj. cbn [fst snd]. f_equal; ring.
  Qed.
  (** tables over a symmetric grid *)
  Lemma all_some_mirrored part s M n l : quad_scales quad -> (forall z, part (Cconj z) = s * part z) -> (2 <= n)%nat ->
    all_some (map (coll_part u quad eps S_ii V_eiS Zf part) (linspace (- M) M n)) = Some l -> mirrored s l.
  Proof.
    intros HQ Hp Hn H i Hi. pose proof (all_some_length _ _ H) as HL. rewrite map_length, linspace_length in HL.
    assert (G : forall L l, all_some L = Some l -> forall i, (i < length l)%nat -> nth i L None = Some (at_ l i)).
    { clear. induction L as [|x L IH]; intros l H i Hi; cbn in H; [injection H as <-; cbn in Hi; lia|].
      destruct x as [a|]; [|discriminate]. cbn in H. destruct (all_some L) as [b|]; [|discriminate]. cbn in H. injection H as <-.
      destruct i; [reflexivity|]. cbn in Hi. change (nth i L None = Some (at_ b i)); apply IH; [reflexivity|lia]. }
    set (g := linspace (- M) M n) in *. set (f := coll_part u quad eps S_ii V_eiS Zf part) in *.
    assert (Lg : length g = n) by apply linspace_length.
    assert (K : forall j, (j < n)%nat -> f (at_ g j) = Some (at_ l j)).
    { intros j Hj. rewrite <- (G _ _ H j) by lia. unfold at_. rewrite (nth_indep _ None (f 0)) by (rewrite map_length; lia).
      now rewrite map_nth. }
    pose proof (K i ltac:(lia)) as K1. pose proof (K (length l - 1 - i)%nat ltac:(lia)) as K2.
    rewrite HL in K2. rewrite <- Lg in K2. unfold g in K2 at 1. rewrite (linspace_mirrored M n Hn) in K2 by (fold g; lia). fold g in K2.
    replace (-1 * at_ g i) with (- at_ g i) in K2 by ring. unfold f in K1, K2. rewrite (coll_part_sym part s) in K2 by assumption.
    rewrite K1 in K2. cbn in K2. injection K2 as K2. rewrite Lg, <- HL in K2. now symmetry.
  Qed.
  Lemma resampled_sym Es E : quad_scales quad -> lmin Es = - lmax Es -> 0 < lmax Es ->
    resampled u quad eps S_ii V_eiS Zf Es (- E) = oconj (resampled u quad eps S_ii V_eiS Zf Es E).
  Proof.
    intros HQ HM HP. unfold resampled. rewrite HM. replace (10 * - lmax Es) with (- (10 * lmax Es)) by ring.
    set (M := 10 * lmax Es). assert (HM0 : 0 < M) by (unfold M; lra). clearbody M.
    destruct (all_some (map (coll_part u quad eps S_ii V_eiS Zf fst) (linspace (- M) M 1000))) as [re|] eqn:Er; cbn [obind]; [|reflexivity].
    destruct (all_some (map (coll_part u quad eps S_ii V_eiS Zf snd) (linspace (- M) M 1000))) as [im|] eqn:Ei; cbn [obind oconj option_map]; [|reflexivity].
    pose proof (all_some_length _ _ Er) as Lr. pose proof (all_some_length _ _ Ei) as Li. rewrite map_length in Lr, Li.
    apply (all_some_mirrored fst 1) in Er; [|assumption|intros z; unfold Cconj; cbn; ring|lia].
    apply (all_some_mirrored snd (-1)) in Ei; [|assumption|intros z; unfold Cconj; cbn; ring|lia].
    assert (H1 : increasing (linspace (- M) M 1000)) by (apply linspace_increasing; [lra|lia]).
    assert (H2 : (2 <= length (linspace (- M) M 1000))%nat) by (rewrite linspace_length; lia).
    assert (H3 : mirrored (-1) (linspace (- M) M 1000)) by (apply linspace_mirrored; lia).
    f_equal. unfold Cconj. cbn [fst snd]. f_equal.
    - rewrite (interp_mirror 1); try assumption; ring.
    - rewrite (interp_mirror (-1)); try assumption; ring.
  Qed.
End Coll.
