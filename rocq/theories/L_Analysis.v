From Coq Require Import Reals List Arith Lra Lia Psatz Permutation Sorted.
From Coquelicot Require Import Coquelicot.
From Verif Require Import M_Interp L_Interp M_Analysis.
Import ListNotations.
Open Scope R_scope.

(** ** Sorting *)
Section Sort.
  Context {A : Type} (key : A -> R).
  Lemma insert_perm a l : Permutation (insert key a l) (a :: l).
  Proof.
    induction l as [|b l IH]; cbn; [constructor; constructor|]. destruct (Rle_dec _ _); [reflexivity|].
    rewrite IH. constructor.
  Qed.
  Lemma isort_perm l : Permutation (isort key l) l.
  Proof. induction l as [|a l IH]; cbn; [constructor|]. rewrite insert_perm. now constructor. Qed.
  Definition le_key a b := key a <= key b.
  Lemma insert_sorted a l : StronglySorted le_key l -> StronglySorted le_key (insert key a l).
  Proof.
    induction l as [|b l IH]; intros H; cbn; [constructor; constructor|].
    inversion H as [|x y H1 H2]; subst. destruct (Rle_dec (key a) (key b)) as [h|h].
    - constructor; [assumption|]. constructor; [exact h|]. eapply Forall_impl; [|exact H2]. intros c Hc. unfold le_key in *. lra.
    - constructor; [now apply IH|]. rewrite Forall_forall in *. intros c Hc.
      apply (Permutation_in _ (insert_perm a l)) in Hc. destruct Hc as [<-|Hc]; [unfold le_key; lra|now apply H2].
  Qed.
  Lemma isort_sorted l : StronglySorted le_key (isort key l).
  Proof. induction l as [|a l IH]; cbn; [constructor|now apply insert_sorted]. Qed.
  (** Sorted lists with the same elements and distinct keys are equal. *)
  Lemma sorted_unique l m : StronglySorted le_key l -> StronglySorted le_key m -> Permutation l m ->
    (forall a b, In a l -> In b l -> key a = key b -> a = b) -> l = m.
  Proof.
    revert m. induction l as [|a l IH]; intros m Hl Hm HP HK.
    - apply Permutation_nil in HP. now subst.
    - destruct m as [|b m]; [apply Permutation_sym, Permutation_nil in HP; discriminate|].
      inversion Hl as [|? ? Hl1 Hl2]; inversion Hm as [|? ? Hm1 Hm2]; subst. rewrite Forall_forall in *.
      assert (a = b).
      { assert (Ha : In a (b :: m)) by (eapply Permutation_in; [exact HP|now left]).
        assert (Hb : In b (a :: l)) by (eapply Permutation_in; [symmetry; exact HP|now left]).
        destruct Ha as [|Ha]; [now symmetry|]. destruct Hb as [|Hb]; [assumption|].
        pose proof (Hm2 a Ha). pose proof (Hl2 b Hb). unfold le_key in *.
        apply HK; [now left|now right|lra]. }
      subst b. f_equal. apply IH; auto.
      + eapply Permutation_cons_inv. exact HP.
      + intros x y Hx Hy. apply HK; now right.
  Qed.
End Sort.

Lemma insert_map {A B} (kA : A -> R) (kB : B -> R) (g : A -> B) a l :
  (forall x, kB (g x) = kA x) -> insert kB (g a) (map g l) = map g (insert kA a l).
Proof.
  intros H. induction l as [|b l IH]; cbn; [reflexivity|]. rewrite !H. destruct (Rle_dec _ _); cbn; [reflexivity|]. now rewrite IH.
Qed.
Lemma isort_map {A B} (kA : A -> R) (kB : B -> R) (g : A -> B) l :
  (forall x, kB (g x) = kA x) -> isort kB (map g l) = map g (isort kA l).
Proof.
  intros H. unfold isort. induction l as [|a l IH]; cbn [map fold_right]; [reflexivity|]. rewrite IH. now apply insert_map.
Qed.

Lemma sorted_ascending l : StronglySorted (le_key (fun x : R => x)) l -> ascending l.
Proof.
  intros H. induction H as [|a l H IH HF]; intros i j Hij; [cbn in Hij; lia|].
  rewrite Forall_forall in HF. unfold at_ in *. destruct i as [|i], j as [|j]; cbn in *; try lra; try lia.
  - apply HF. apply nth_In. lia.
  - apply IH. lia.
Qed.
Lemma key_map_sorted {A} (key : A -> R) l : StronglySorted (le_key key) l -> StronglySorted (le_key (fun x : R => x)) (map key l).
Proof.
  intros H. induction H as [|a l H IH HF]; cbn; constructor; auto. rewrite Forall_forall in *.
  intros x Hx. apply in_map_iff in Hx as (b & <- & Hb). now apply HF.
Qed.

(** ** The transform *)
Section L.
  Variables hb small : R.
  Hypothesis Hhb : 0 < hb.

  Lemma grid_ascending E a b : ascending (lap_grid small E a b).
  Proof. apply sorted_ascending, isort_sorted. Qed.

  Lemma kernel_linear I1 I2 E a b tau lo hi e : length I1 = length I2 -> length E = length I1 ->
    lap_kernel hb (map (fun p => a * fst p + b * snd p) (combine I1 I2)) E tau lo hi e =
    a * lap_kernel hb I1 E tau lo hi e + b * lap_kernel hb I2 E tau lo hi e.
  Proof.
    intros H1 H2. unfold lap_kernel, lap_samples.
    set (T := combine E (combine I1 I2)).
    assert (E0 : combine E (map (fun p => a * fst p + b * snd p) (combine I1 I2)) =
                 map (fun t => (fst t, a * fst (snd t) + b * snd (snd t))) T).
    { unfold T. clear. generalize (combine I1 I2). induction E as [|e E IH]; intros [|p m]; cbn; try reflexivity. now rewrite IH. }
    assert (E1 : combine E I1 = map (fun t => (fst t, fst (snd t))) T).
    { unfold T. clear - H1 H2. revert I1 I2 H1 H2. induction E as [|e E IH]; intros [|p m] [|q n] H1 H2; cbn in *; try discriminate; try reflexivity. rewrite (IH m n); congruence. }
    assert (E2 : combine E I2 = map (fun t => (fst t, snd (snd t))) T).
    { unfold T. clear - H1 H2. revert I1 I2 H1 H2. induction E as [|e E IH]; intros [|p m] [|q n] H1 H2; cbn in *; try discriminate; try reflexivity. rewrite (IH m n); congruence. }
    rewrite E0, E1, E2. rewrite !(isort_map fst fst) by reflexivity. set (S := isort fst T). rewrite !map_map. cbn [fst snd].
    replace (map (fun x => a * fst (snd x) + b * snd (snd x)) S)
      with (map (fun p => a * fst p + b * snd p) (combine (map (fun x : R * (R * R) => fst (snd x)) S) (map (fun x : R * (R * R) => snd (snd x)) S))).
    - rewrite interp_linear by now rewrite !map_length.
      destruct (Rle_dec lo e); [destruct (Rle_dec e hi)|]; field; lra.
    - clear. induction S as [|s S IH]; cbn; [reflexivity|]. now rewrite IH.
  Qed.
  Lemma trapz_map_lin {A} (xs : list R) (f g : A -> R) a b (l : list A) : length xs = length l ->
    trapz xs (map (fun e => a * f e + b * g e) l) = a * trapz xs (map f l) + b * trapz xs (map g l).
  Proof.
    intros H. rewrite <- trapz_linear by now rewrite map_length. f_equal.
    clear. induction l as [|x l IH]; cbn; [reflexivity|]. now rewrite IH.
  Qed.
  Lemma laplace_linear I1 I2 E a b tau lo hi : length I1 = length I2 -> length E = length I1 ->
    twoSidedLaplace hb small (map (fun p => a * fst p + b * snd p) (combine I1 I2)) tau E lo hi =
    a * twoSidedLaplace hb small I1 tau E lo hi + b * twoSidedLaplace hb small I2 tau E lo hi.
  Proof.
    intros H1 H2. unfold twoSidedLaplace. rewrite <- trapz_map_lin by reflexivity. f_equal. apply map_ext.
    intros e. now apply kernel_linear.
  Qed.

  Lemma samples_ascending I E : ascending (map fst (lap_samples I E)).
  Proof. apply sorted_ascending, key_map_sorted, isort_sorted. Qed.
  Lemma samples_perm I E : Permutation (lap_samples I E) (combine E I).
  Proof. apply isort_perm. Qed.
  Lemma inten_nonneg I E e : length E = length I -> (1 <= length E)%nat -> (forall y, In y I -> 0 <= y) ->
    0 <= interp None None (map fst (lap_samples I E)) (map snd (lap_samples I E)) e.
  Proof.
    intros HL Hn Hy. pose proof (Permutation_length (samples_perm I E)) as HPL. rewrite combine_length in HPL.
    assert (Hlen : (1 <= length (map fst (lap_samples I E)))%nat) by (rewrite map_length; lia).
    destruct (interp_convex None None _ (map snd (lap_samples I E)) e (samples_ascending I E) Hlen) as [(i & j & t & Hi & Hj & Ht & ->)|[(v & Hv & _)|(v & Hv & _)]]; try discriminate.
    assert (HI : forall k, (k < length (map fst (lap_samples I E)))%nat -> 0 <= at_ (map snd (lap_samples I E)) k).
    { intros k Hk. apply Hy. rewrite map_length in Hk.
      assert (Hin : In (at_ (map snd (lap_samples I E)) k) (map snd (lap_samples I E))) by (unfold at_; apply nth_In; rewrite map_length; assumption).
      apply in_map_iff in Hin as (p & <- & Hp). apply (Permutation_in _ (samples_perm I E)) in Hp. destruct p as [x y]. now apply in_combine_r in Hp. }
    pose proof (HI i Hi). pose proof (HI j Hj). nra.
  Qed.
  Lemma kernel_nonneg I E tau lo hi e : length E = length I -> (1 <= length E)%nat -> (forall y, In y I -> 0 <= y) ->
    0 <= lap_kernel hb I E tau lo hi e.
  Proof.
    intros HL Hn Hy. unfold lap_kernel. destruct (Rle_dec lo e); [|lra]. destruct (Rle_dec e hi); [|lra].
    pose proof (inten_nonneg I E e HL Hn Hy). pose proof (exp_pos (- tau * e)).
    apply Rmult_le_pos; [apply Rmult_le_pos; lra|]. left. now apply Rinv_0_lt_compat.
  Qed.
  Lemma laplace_nonneg I E tau lo hi : length E = length I -> (1 <= length E)%nat -> (forall y, In y I -> 0 <= y) ->
    0 <= twoSidedLaplace hb small I tau E lo hi.
  Proof.
    intros HL Hn Hy. unfold twoSidedLaplace. apply trapz_nonneg; [apply grid_ascending|].
    intros y Hin. apply in_map_iff in Hin as (e & <- & _). now apply kernel_nonneg.
  Qed.

  Lemma laplace_perm I E I' E' tau lo hi : length E = length I -> length E' = length I' -> NoDup E ->
    Permutation (combine E I) (combine E' I') ->
    twoSidedLaplace hb small I tau E lo hi = twoSidedLaplace hb small I' tau E' lo hi.
  Proof.
    intros HL HL' HN HP.
    assert (HF : forall (E : list R) (I : list R), length E = length I -> map fst (combine E I) = E).
    { clear. induction E as [|e E IH]; intros [|i I] H; cbn in *; try discriminate; [reflexivity|]. f_equal. apply IH. congruence. }
    assert (HPE : Permutation E E'). { rewrite <- (HF E I HL), <- (HF E' I' HL'). now apply Permutation_map. }
    assert (ES : lap_samples I E = lap_samples I' E').
    { unfold lap_samples. apply (sorted_unique fst); try apply isort_sorted.
      - rewrite !isort_perm. exact HP.
      - intros a b Ha Hb Hab. apply (Permutation_in _ (isort_perm _ _)) in Ha, Hb.
        rewrite <- (HF E I HL) in HN. clear - HN Ha Hb Hab. induction (combine E I) as [|p l IH]; [destruct Ha|].
        cbn in HN. inversion HN as [|? ? Hn1 Hn2]; subst.
        destruct Ha as [->|Ha], Hb as [->|Hb]; auto.
        + exfalso. apply Hn1. rewrite Hab. now apply in_map.
        + exfalso. apply Hn1. rewrite <- Hab. now apply in_map. }
    assert (EG : lap_grid small E lo hi = lap_grid small E' lo hi).
    { unfold lap_grid. f_equal. f_equal. apply (sorted_unique (fun x => x)); try apply isort_sorted.
      - rewrite !isort_perm. exact HPE.
      - auto. }
    unfold twoSidedLaplace. rewrite EG. f_equal. apply map_ext. intros e. unfold lap_kernel. now rewrite ES.
  Qed.

  (** Convex in tau. *)
  Lemma exp_tangent y : 1 + y <= exp y.
  Proof. destruct (Req_dec y 0) as [->|H]; [rewrite exp_0; lra|left; now apply exp_ineq1]. Qed.
  Lemma exp_convex x y t : 0 <= t <= 1 -> exp ((1 - t) * x + t * y) <= (1 - t) * exp x + t * exp y.
  Proof.
    intros Ht. set (m := (1 - t) * x + t * y).
    assert (Hx : exp m * (1 + (x - m)) <= exp x).
    { replace (exp x) with (exp m * exp (x - m)) by (rewrite <- exp_plus; f_equal; ring).
      apply Rmult_le_compat_l; [left; apply exp_pos|apply exp_tangent]. }
    assert (Hy : exp m * (1 + (y - m)) <= exp y).
    { replace (exp y) with (exp m * exp (y - m)) by (rewrite <- exp_plus; f_equal; ring).
      apply Rmult_le_compat_l; [left; apply exp_pos|apply exp_tangent]. }
    assert (E : exp m = (1 - t) * (exp m * (1 + (x - m))) + t * (exp m * (1 + (y - m)))).
    { assert (Hz : (1 - t) * (x - m) + t * (y - m) = 0) by (unfold m; ring).
      transitivity (exp m * (1 + ((1 - t) * (x - m) + t * (y - m)))); [rewrite Hz; ring|ring]. }
    rewrite E. apply Rplus_le_compat; apply Rmult_le_compat_l; lra.
  Qed.
  Lemma trapz_le xs (f g : R -> R) l : ascending xs -> length xs = length l -> (forall e, In e l -> f e <= g e) ->
    trapz xs (map f l) <= trapz xs (map g l).
  Proof.
    intros Hs HL H. assert (0 <= trapz xs (map (fun e => 1 * g e + (-1) * f e) l)).
    { apply trapz_nonneg; [assumption|]. intros y Hy. apply in_map_iff in Hy as (e & <- & He). specialize (H e He). lra. }
    rewrite trapz_map_lin in H0 by assumption. lra.
  Qed.
  Lemma laplace_convex I E lo hi t1 t2 t : length E = length I -> (1 <= length E)%nat -> (forall y, In y I -> 0 <= y) -> 0 <= t <= 1 ->
    twoSidedLaplace hb small I ((1 - t) * t1 + t * t2) E lo hi <=
    (1 - t) * twoSidedLaplace hb small I t1 E lo hi + t * twoSidedLaplace hb small I t2 E lo hi.
  Proof.
    intros HL Hn Hy Ht. unfold twoSidedLaplace. rewrite <- trapz_map_lin by reflexivity.
    apply trapz_le; [apply grid_ascending|reflexivity|]. intros e _. unfold lap_kernel.
    destruct (Rle_dec lo e); [destruct (Rle_dec e hi)|]; try lra.
    pose proof (inten_nonneg I E e HL Hn Hy) as HI. set (q := interp _ _ _ _ _) in *.
    pose proof (exp_convex (- t1 * e) (- t2 * e) t Ht) as HC.
    replace ((1 - t) * (- t1 * e) + t * (- t2 * e)) with (- ((1 - t) * t1 + t * t2) * e) in HC by ring.
    assert (Hq : 0 <= q / hb) by (apply Rmult_le_pos; [assumption|left; now apply Rinv_0_lt_compat]).
    apply (Rmult_le_compat_l _ _ _ Hq) in HC.
    replace (q * exp (- ((1 - t) * t1 + t * t2) * e) / hb) with (q / hb * exp (- ((1 - t) * t1 + t * t2) * e)) by (field; lra).
    replace ((1 - t) * (q * exp (- t1 * e) / hb) + t * (q * exp (- t2 * e) / hb)) with (q / hb * ((1 - t) * exp (- t1 * e) + t * exp (- t2 * e))) by (field; lra).
    exact HC.
  Qed.

  (** Derivative in tau: minus the first moment. *)
  Lemma seg_derive (f1 f0 : R -> R) tau d1 d0 x1 x : is_derive f1 tau d1 -> is_derive f0 tau d0 ->
    is_derive (fun t => (x1 - x) * (f1 t + f0 t) / 2) tau ((x1 - x) * (d1 + d0) / 2).
  Proof.
    intros K1 K0. auto_derive; [split; [eexists; exact K1|split; [eexists; exact K0|exact Logic.I]]|].
    change (Derive (fun t => f1 t) tau) with (Derive f1 tau). change (Derive (fun t => f0 t) tau) with (Derive f0 tau).
    rewrite (is_derive_unique _ _ _ K1), (is_derive_unique _ _ _ K0). field.
  Qed.
  Lemma trapz_derive (k : R -> R -> R) (k' : R -> R) tau l xs :
    (forall e, is_derive (fun t => k t e) tau (k' e)) ->
    is_derive (fun t => trapz xs (map (k t) l)) tau (trapz xs (map k' l)).
  Proof.
    intros K. revert xs.
    induction l as [|e l IH]; intros xs.
    - destruct xs as [|x [|x1 xs]]; exact (is_derive_const (V := R_NormedModule) 0 tau).
    - destruct xs as [|x [|x1 xs]]; [exact (is_derive_const (V := R_NormedModule) 0 tau)| |].
      + destruct l; exact (is_derive_const (V := R_NormedModule) 0 tau).
      + destruct l as [|e1 l]; [exact (is_derive_const (V := R_NormedModule) 0 tau)|].
        specialize (IH (x1 :: xs)). pose proof (K e1) as K1. pose proof (K e) as K0.
        pose proof (seg_derive _ _ tau _ _ x1 x K1 K0) as HD.
        exact (is_derive_plus (V := R_NormedModule) _ _ _ _ _ HD IH).
  Qed.
  Lemma laplace_derive I E lo hi tau :
    is_derive (fun t => twoSidedLaplace hb small I t E lo hi) tau
      (trapz (lap_grid small E lo hi) (map (fun e => - e * lap_kernel hb I E tau lo hi e) (lap_grid small E lo hi))).
  Proof.
    unfold twoSidedLaplace. apply (trapz_derive (fun t e => lap_kernel hb I E t lo hi e)).
    intros e0. unfold lap_kernel. set (q := interp _ _ _ _ _).
    destruct (Rle_dec lo e0); [destruct (Rle_dec e0 hi)|];
      try (replace (- e0 * 0) with 0 by ring; exact (is_derive_const (V := R_NormedModule) 0 tau)).
    auto_derive; [exact Logic.I|]. field. lra.
  Qed.
End L.

(** ** Detailed balance *)
Lemma trapz_snoc xs ys x y x0 y0 : length xs = length ys ->
  trapz (xs ++ [x0; x]) (ys ++ [y0; y]) = trapz (xs ++ [x0]) (ys ++ [y0]) + (x - x0) * (y + y0) / 2.
Proof.
  revert ys. induction xs as [|a xs IH]; intros [|b ys] H; cbn in H; try discriminate; [cbn; ring|].
  specialize (IH ys ltac:(congruence)). destruct xs as [|a1 xs], ys as [|b1 ys]; cbn in H; try discriminate.
  - cbn in *. lra.
  - cbn [app trapz] in *. rewrite IH. ring.
Qed.
Lemma trapz_rev_opp xs ys : length xs = length ys -> trapz (rev (map Ropp xs)) (rev ys) = trapz xs ys.
Proof.
  revert ys. induction xs as [|a xs IH]; intros [|b ys] H; cbn in H; try discriminate; [reflexivity|].
  specialize (IH ys ltac:(congruence)). destruct xs as [|a1 xs], ys as [|b1 ys]; cbn in H; try discriminate; [reflexivity|].
  cbn [map rev] in *. rewrite <- !app_assoc. cbn [app]. rewrite trapz_snoc.
  - rewrite IH. cbn [trapz]. field.
  - rewrite !rev_length, map_length. congruence.
Qed.
Lemma opp_rev_sorted l : StronglySorted (le_key (fun x : R => x)) l -> StronglySorted (le_key (fun x : R => x)) (rev (map Ropp l)).
Proof.
  intros H. induction H as [|a l H IH HF]; cbn; [constructor|].
  assert (Happ : forall (m : list R) (x : R), StronglySorted (le_key (fun x : R => x)) m -> List.Forall (fun y => y <= x) m -> StronglySorted (le_key (fun x : R => x)) (m ++ [x])%list).
  { clear. induction m as [|y m IHm]; intros x Hm Hx; cbn; [constructor; constructor|].
    inversion Hm as [|? ? Hm1 Hm2]; inversion Hx as [|? ? Hx1 Hx2]; subst. constructor; [auto|].
    rewrite Forall_forall in *. intros z Hz. apply in_app_or in Hz as [Hz|[<-|[]]]; [now apply Hm2|exact Hx1]. }
  apply Happ; [exact IH|]. rewrite Forall_forall in *. intros y Hy. apply in_rev in Hy. apply in_map_iff in Hy as (z & <- & Hz).
  specialize (HF z Hz). unfold le_key in HF. lra.
Qed.

Lemma trapz_strict (f : R -> R) l e e' : StronglySorted (le_key (fun x : R => x)) l -> (forall x, In x l -> 0 <= f x) ->
  In e l -> In e' l -> e < e' -> 0 < f e -> 0 < trapz l (map f l).
Proof.
  intros Hl Hf He He' Hlt Hp. induction l as [|x0 l IH]; [destruct He|].
  pose proof (trapz_nonneg (x0 :: l) (map f (x0 :: l)) (sorted_ascending _ Hl)) as _.
  inversion Hl as [|? ? Hl1 Hl2]; subst. rewrite List.Forall_forall in Hl2. unfold le_key in Hl2.
  destruct l as [|x1 t].
  - destruct He as [<-|[]]. destruct He' as [<-|[]]. lra.
  - assert (H01 : x0 <= x1) by (apply Hl2; now left).
    assert (Hf0 : 0 <= f x0) by (apply Hf; now left). assert (Hf1 : 0 <= f x1) by (apply Hf; right; now left).
    assert (HT : 0 <= trapz (x1 :: t) (map f (x1 :: t))).
    { apply trapz_nonneg; [now apply sorted_ascending|]. intros y Hy. apply in_map_iff in Hy as (z & <- & Hz). apply Hf. now right. }
    assert (Hseg : 0 <= (x1 - x0) * (f x1 + f x0)) by (apply Rmult_le_pos; lra).
    change (0 < (x1 - x0) * (f x1 + f x0) / 2 + trapz (x1 :: t) (map f (x1 :: t))).
    destruct (in_dec Req_EM_T e (x1 :: t)) as [Hin|Hin].
    + assert (0 < trapz (x1 :: t) (map f (x1 :: t))); [|lra]. apply IH; auto.
      * intros x Hx. apply Hf. now right.
      * destruct He' as [<-|He']; [|assumption]. pose proof (Hl2 e Hin). lra.
    + destruct He as [<-|He]; [|contradiction].
      assert (x0 <> x1) by (intros ->; apply Hin; now left).
      assert (0 < (x1 - x0) * (f x1 + f x0)) by (apply Rmult_lt_0_compat; lra). lra.
Qed.
Lemma exp_mid x y : x <> y -> exp ((x + y) / 2) < (exp x + exp y) / 2.
Proof.
  intros H. replace (exp x) with (exp (x / 2) * exp (x / 2)) by (rewrite <- exp_plus; f_equal; field).
  replace (exp y) with (exp (y / 2) * exp (y / 2)) by (rewrite <- exp_plus; f_equal; field).
  replace (exp ((x + y) / 2)) with (exp (x / 2) * exp (y / 2)) by (rewrite <- exp_plus; f_equal; field).
  assert (Hn : exp (x / 2) - exp (y / 2) <> 0) by (intros h; apply H; assert (x / 2 = y / 2) by (apply exp_inv; lra); lra).
  pose proof (Rsqr_pos_lt _ Hn) as Hq. unfold Rsqr in Hq. lra.
Qed.

Section DB.
  Variables hb small : R.
  Hypothesis Hhb : 0 < hb.
  Hypothesis Hsm : 0 < small.

  Lemma samples_increasing I E : length E = length I -> NoDup E -> increasing (map fst (lap_samples I E)).
  Proof.
    intros HL HN i j Hij. pose proof (samples_ascending I E i j ltac:(lia)) as Hle.
    assert (HND : NoDup (map fst (lap_samples I E))).
    { eapply Permutation_NoDup; [|exact HN]. symmetry.
      transitivity (map fst (combine E I)); [apply Permutation_map, samples_perm|].
      replace (map fst (combine E I)) with E; [reflexivity|].
      clear - HL. revert I HL. induction E as [|e E IH]; intros [|i I] H; cbn in *; try discriminate; [reflexivity|]. f_equal. apply IH. congruence. }
    destruct Hle as [h|h]; [exact h|]. exfalso. unfold at_ in h. rewrite NoDup_nth in HND.
    specialize (HND i j ltac:(lia) ltac:(lia) h). lia.
  Qed.
  (** At a sampled energy the interpolated intensity is the sample. *)
  Lemma inten_sample (S : R -> R) E e : NoDup E -> (2 <= length E)%nat -> In e E ->
    interp None None (map fst (lap_samples (map S E) E)) (map snd (lap_samples (map S E) E)) e = S e.
  Proof.
    intros HN Hn Hin. set (s := lap_samples (map S E) E).
    assert (HLm : length E = length (map S E)) by now rewrite map_length.
    assert (Hs : s = map (fun x => (x, S x)) (isort (fun x => x) E)).
    { unfold s, lap_samples. rewrite <- (isort_map (fun x => x) fst (fun x => (x, S x))) by reflexivity. f_equal.
      clear. induction E as [|x E IH]; cbn; [reflexivity|now rewrite IH]. }
    pose proof (samples_increasing (map S E) E HLm HN) as HI. fold s in HI.
    rewrite Hs in *. rewrite !map_map in *. cbn [fst snd] in *.
    set (l := isort (fun x => x) E) in *. rewrite map_id in *.
    assert (Hinl : In e l) by (eapply Permutation_in; [symmetry; apply isort_perm|exact Hin]).
    assert (Hll : length l = length E) by (apply Permutation_length, isort_perm).
    apply (In_nth _ _ 0) in Hinl as (i & Hi & <-). change (nth i l 0) with (at_ l i).
    rewrite interp_knot by (assumption || lia). unfold at_.
    rewrite (nth_indep _ 0 (S 0)) by (rewrite map_length; assumption). apply map_nth.
  Qed.

  Variables (S : R -> R) (beta c : R) (E : list R).
  Hypothesis Hbal : forall e, S (- e) = exp (- beta * e) * S e.
  Hypothesis HN : NoDup E.
  Hypothesis Hsym : forall e, In e E -> In (- e) E.
  Hypothesis Hcut : In (c - small) E.
  Hypothesis Hc : small < c.

  Lemma two_energies : (2 <= length E)%nat.
  Proof.
    pose proof (Hsym _ Hcut) as H2. destruct E as [|a [|b l]]; cbn in *; [tauto| |lia].
    destruct Hcut as [h|[]], H2 as [h'|[]]. lra.
  Qed.
  Let g := lap_grid small E (- c) c.
  Lemma grid_in e : In e g <-> In e E \/ e = - c - small \/ e = - c + small \/ e = c + small \/ e = c - small.
  Proof.
    unfold g, lap_grid. split; intros H.
    - apply (Permutation_in _ (isort_perm _ _)) in H. apply in_app_or in H as [H|H].
      + left. now apply (Permutation_in _ (isort_perm _ _)) in H.
      + cbn in H. intuition.
    - eapply Permutation_in; [symmetry; apply isort_perm|]. apply in_or_app. destruct H as [H|H].
      + left. eapply Permutation_in; [symmetry; apply isort_perm|exact H].
      + right. cbn. intuition.
  Qed.
  Lemma grid_sym : rev (map Ropp g) = g.
  Proof.
    apply (sorted_unique (fun x => x)); [apply opp_rev_sorted, isort_sorted|apply isort_sorted| |auto].
    rewrite <- Permutation_rev. unfold g, lap_grid.
    rewrite !isort_perm, map_app. apply Permutation_app.
    - apply NoDup_Permutation; [|assumption|].
      + apply FinFun.Injective_map_NoDup; [|assumption]. intros x y h. lra.
      + intros x. rewrite in_map_iff. split.
        * intros (y & <- & Hy). now apply Hsym.
        * intros Hx. exists (- x). split; [ring|now apply Hsym].
    - cbn [map]. replace (- (- c - small)) with (c + small) by ring. replace (- (- c + small)) with (c - small) by ring.
      replace (- (c + small)) with (- c - small) by ring. replace (- (c - small)) with (- c + small) by ring.
      apply (Permutation_app_comm [c + small; c - small] [- c - small; - c + small]).
  Qed.
  Lemma kernel_balance tau e : In e g ->
    lap_kernel hb (map S E) E (beta - tau) (- c) c e = lap_kernel hb (map S E) E tau (- c) c (- e).
  Proof.
    intros He. unfold lap_kernel. apply grid_in in He.
    destruct (Rle_dec (- c) e) as [h1|h1]; [destruct (Rle_dec e c) as [h2|h2]|];
      (destruct (Rle_dec (- c) (- e)) as [h3|h3]; [destruct (Rle_dec (- e) c) as [h4|h4]|]); try lra.
    assert (HeE : In e E).
    { destruct He as [He|[He|[He|[He|He]]]]; [assumption| | | |now rewrite He]; try lra.
      rewrite He. replace (- c + small) with (- (c - small)) by ring. now apply Hsym. }
    rewrite !inten_sample by (try assumption; try apply two_energies; now apply Hsym).
    rewrite Hbal. replace (- (beta - tau) * e) with (- beta * e + - tau * - e) by ring. rewrite exp_plus. field. lra.
  Qed.
  Lemma laplace_balance tau :
    twoSidedLaplace hb small (map S E) (beta - tau) E (- c) c = twoSidedLaplace hb small (map S E) tau E (- c) c.
  Proof.
    unfold twoSidedLaplace. fold g. set (k := lap_kernel hb (map S E) E tau (- c) c).
    replace (map (lap_kernel hb (map S E) E (beta - tau) (- c) c) g) with (map (fun e => k (- e)) g).
    2:{ apply map_ext_in. intros e He. symmetry. now apply kernel_balance. }
    rewrite <- trapz_rev_opp by now rewrite map_length.
    rewrite grid_sym. rewrite <- map_rev. replace (map (fun e => k (- e)) (rev g)) with (map k (rev (map Ropp g))).
    - now rewrite grid_sym.
    - rewrite <- map_rev, map_map. reflexivity.
  Qed.
  Hypothesis HS : forall e, In e E -> 0 <= S e.
  Lemma laplace_min tau :
    twoSidedLaplace hb small (map S E) (beta / 2) E (- c) c <= twoSidedLaplace hb small (map S E) tau E (- c) c.
  Proof.
    assert (HLm : length E = length (map S E)) by now rewrite map_length.
    pose proof two_energies as H2.
    pose proof (laplace_convex hb small Hhb (map S E) E (- c) c tau (beta - tau) (1 / 2) HLm ltac:(lia)) as HC.
    rewrite laplace_balance in HC. replace ((1 - 1 / 2) * tau + 1 / 2 * (beta - tau)) with (beta / 2) in HC by field.
    enough (twoSidedLaplace hb small (map S E) (beta / 2) E (- c) c <=
      (1 - 1 / 2) * twoSidedLaplace hb small (map S E) tau E (- c) c + 1 / 2 * twoSidedLaplace hb small (map S E) tau E (- c) c) by lra.
    apply HC; [|lra]. intros y Hy. apply in_map_iff in Hy as (e & <- & He). now apply HS.
  Qed.
  (** and nowhere else, as soon as there is signal at the cut-off *)
  Lemma laplace_min_strict tau : 0 < S (c - small) -> tau <> beta / 2 ->
    twoSidedLaplace hb small (map S E) (beta / 2) E (- c) c < twoSidedLaplace hb small (map S E) tau E (- c) c.
  Proof.
    intros Hp Ht. pose proof two_energies as H2.
    assert (HLm : length E = length (map S E)) by now rewrite map_length.
    assert (HSm : forall y, In y (map S E) -> 0 <= y) by (intros y Hy; apply in_map_iff in Hy as (e & <- & He); now apply HS).
    enough (HQ : 0 < 1 * (1 / 2 * twoSidedLaplace hb small (map S E) tau E (- c) c + 1 / 2 * twoSidedLaplace hb small (map S E) (beta - tau) E (- c) c) +
            (-1) * twoSidedLaplace hb small (map S E) (beta / 2) E (- c) c) by (rewrite laplace_balance in HQ; lra).
    unfold twoSidedLaplace. fold g. rewrite <- !trapz_map_lin by reflexivity.
    assert (Hk : forall e, 0 <= 1 * (1 / 2 * lap_kernel hb (map S E) E tau (- c) c e + 1 / 2 * lap_kernel hb (map S E) E (beta - tau) (- c) c e) + (-1) * lap_kernel hb (map S E) E (beta / 2) (- c) c e /\
             (e <> 0 -> - c <= e <= c -> In e E -> 0 < S e -> 0 < 1 * (1 / 2 * lap_kernel hb (map S E) E tau (- c) c e + 1 / 2 * lap_kernel hb (map S E) E (beta - tau) (- c) c e) + (-1) * lap_kernel hb (map S E) E (beta / 2) (- c) c e)).
    { intros e. unfold lap_kernel. destruct (Rle_dec (- c) e); [destruct (Rle_dec e c)|]; try (split; [lra|intros; lra]).
      pose proof (inten_nonneg (map S E) E e HLm ltac:(lia) HSm) as HI.
      pose proof (inten_sample S E e HN H2) as HIS.
      set (q := interp _ _ _ _ _) in *.
      replace (1 * (1 / 2 * (q * exp (- tau * e) / hb) + 1 / 2 * (q * exp (- (beta - tau) * e) / hb)) + -1 * (q * exp (- (beta / 2) * e) / hb))
        with (q / hb * ((exp (- tau * e) + exp (- (beta - tau) * e)) / 2 - exp (- (beta / 2) * e))) by (field; lra).
      assert (Hm : - (beta / 2) * e = (- tau * e + - (beta - tau) * e) / 2) by field. rewrite Hm.
      split.
      - apply Rmult_le_pos; [apply Rmult_le_pos; [assumption|left; now apply Rinv_0_lt_compat]|].
        destruct (Req_dec (- tau * e) (- (beta - tau) * e)) as [h|h].
        + rewrite h. replace ((- (beta - tau) * e + - (beta - tau) * e) / 2) with (- (beta - tau) * e) by field. lra.
        + pose proof (exp_mid _ _ h). lra.
      - intros He0 _ HeE HeS. rewrite (HIS HeE). apply Rmult_lt_0_compat; [now apply Rdiv_lt_0_compat|].
        assert (h : - tau * e <> - (beta - tau) * e).
        { intros h. apply Ht. assert (h' : (2 * tau - beta) * e = 0) by lra. apply Rmult_integral in h' as [h'|h']; lra. }
        pose proof (exp_mid _ _ h). lra. }
    pose (D := fun e => 1 * (1 / 2 * lap_kernel hb (map S E) E tau (- c) c e + 1 / 2 * lap_kernel hb (map S E) E (beta - tau) (- c) c e) + (-1) * lap_kernel hb (map S E) E (beta / 2) (- c) c e).
    change (0 < trapz g (map D g)). apply (trapz_strict D g (c - small) (c + small)).
    - apply isort_sorted.
    - intros x _. apply (Hk x).
    - apply grid_in. now left.
    - apply grid_in. tauto.
    - lra.
    - apply (Hk (c - small)); [lra|lra|assumption|assumption].
  Qed.
End DB.
