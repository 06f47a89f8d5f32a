(** Properties C27-C30: helpers.py. *)
From Coq Require Import String List Bool Arith Reals Lra Lia.
From Verif Require Import M_Helpers L_Helpers.
Import ListNotations.
Open Scope list_scope.

(** ** C27: invert_dict *)
Theorem C27_inverse_exactly_when_values_unique :
  forall (K V : Type) (eqV : V -> V -> bool), (forall x y, reflect (x = y) (eqV x y)) ->
  forall (d : list (K * V)), NoDup (map fst d) ->
    ((exists d', invert_dict eqV d = Some d') <->
     (forall k1 k2 v, In (k1, v) d -> In (k2, v) d -> k1 = k2)) /\
    (forall d', invert_dict eqV d = Some d' ->
       NoDup (map fst d') /\ (forall k v, In (v, k) d' <-> In (k, v) d)).
Proof.
  intros K V eqV Hs d Hk.
  assert (HU : NoDup (map snd d) <-> (forall k1 k2 v, In (k1, v) d -> In (k2, v) d -> k1 = k2)).
  { clear eqV Hs. induction d as [|[k v] d IH]; cbn in *.
    - split; [easy|constructor].
    - inversion Hk as [|? ? Hk1 Hk2]; subst. specialize (IH Hk2). split.
      + intros Hn. inversion Hn as [|? ? Hn1 Hn2]; subst. pose proof (proj1 IH Hn2) as Hn3.
        intros k1 k2 v' [E1|H1] [E2|H2].
        * congruence.
        * injection E1 as <- <-. exfalso. apply Hn1. apply in_map_iff. now exists (k2, v).
        * injection E2 as <- <-. exfalso. apply Hn1. apply in_map_iff. now exists (k1, v).
        * eauto.
      + intros H. constructor.
        * intros Hin. apply in_map_iff in Hin as [[k' v'] [E Hin]]. cbn in E. subst v'.
          assert (k = k') by (eapply H; eauto). subst k'. apply Hk1. apply in_map_iff. now exists (k, v).
        * apply IH. intros k1 k2 v' H1 H2. eapply H; eauto. }
  split.
  - rewrite <- HU. split.
    + intros [d' E]. apply (invert_iff eqV Hs) in E. tauto.
    + intros H. eexists. apply (invert_iff eqV Hs). eauto.
  - intros d' E. apply (invert_iff eqV Hs) in E as [H ->]. split.
    + rewrite map_map. cbn. exact H.
    + intros k v. rewrite in_map_iff. split.
      * intros ([k' v'] & E & H'). unfold swap in E. cbn in E. injection E as -> ->. exact H'.
      * intros H'. now exists (k, v).
Qed.
Print Assumptions C27_inverse_exactly_when_values_unique.

Theorem C27_twice_is_the_original :
  forall (K V : Type) (eqK : K -> K -> bool) (eqV : V -> V -> bool),
  (forall x y, reflect (x = y) (eqK x y)) -> (forall x y, reflect (x = y) (eqV x y)) ->
  forall (d : list (K * V)) d', NoDup (map fst d) ->
    invert_dict eqV d = Some d' -> invert_dict eqK d' = Some d.
Proof.
  intros K V eqK eqV HK HV d d' Hn E. apply (invert_iff eqV HV) in E as [H ->].
  apply (invert_iff eqK HK). split.
  - rewrite map_map. cbn. exact Hn.
  - symmetry. apply map_swap_swap.
Qed.
Print Assumptions C27_twice_is_the_original.
Open Scope string_scope.
Example C27_ex : invert_dict String.eqb [(1, "H"); (2, "He"); (3, "Li")] =
  Some [("H", 1); ("He", 2); ("Li", 3)].
Proof. reflexivity. Qed.
Example C27_ex_clash : invert_dict String.eqb [(1, "H"); (2, "He"); (3, "H")] = None.
Proof. reflexivity. Qed.
Close Scope string_scope.
Open Scope R_scope.

(** ** C28: bisection *)
Theorem C28_bisection :
  forall (func : R -> R) (tol : R) (max_iter min_iter fuel : nat) (a b : R),
    sign (func a) <> sign (func b) ->
    (Nat.max max_iter min_iter < fuel)%nat ->
    exists (p x : R) (i : nat),
      bisection_loop func tol max_iter min_iter fuel a b = Some (p, x, i) /\
      bisection func tol max_iter min_iter fuel a b = Some (x, i) /\
      (** the bracket *)
      sign (func p) <> sign (func x) /\
      Rabs (p - x) = Rabs (b - a) / 2 ^ i /\
      Rmin a b <= p <= Rmax a b /\ Rmin a b <= x <= Rmax a b /\
      (** why it stopped *)
      (min_iter <= i <= Nat.max max_iter min_iter)%nat /\
      (Rabs (func x) <= tol \/ Rabs (p - x) <= tol \/ (max_iter <= i)%nat) /\
      (** a root of a continuous function is that close *)
      ((forall y, Rmin a b <= y <= Rmax a b -> continuity_pt func y) ->
       exists r, Rmin a b <= r <= Rmax a b /\ func r = 0 /\ Rabs (x - r) <= Rabs (b - a) / 2 ^ i).
Proof.
  intros func tol max_iter min_iter fuel a b Hs Hf.
  destruct (bis_terminates func tol max_iter min_iter a b fuel Hf) as [[[p x] i] E].
  exists p, x, i. split; [assumption|]. split; [unfold bisection; now rewrite E|].
  destruct (bis_post func tol max_iter min_iter a b fuel p x i Hs E) as [HI HS].
  pose proof (bis_root func a b p x i HI) as HR.
  destruct HI as (H1 & H2 & H3 & H4).
  repeat (split; [assumption|]). split; [now apply bis_count in E|]. split; assumption.
Qed.
Print Assumptions C28_bisection.
Example C28_ex : sign ((fun x => x * x - 2) 1) <> sign ((fun x => x * x - 2) 2) /\
  (forall y, continuity_pt (fun x => x * x - 2) y).
Proof.
  split.
  - destruct (sign_cases (1 * 1 - 2)) as [[? ->]|[[? ->]|[? ->]]]; try lra;
    destruct (sign_cases (2 * 2 - 2)) as [[? ->]|[[? ->]|[? ->]]]; lra.
  - intros y. apply derivable_continuous_pt. apply derivable_pt_minus.
    + apply derivable_pt_mult; apply derivable_pt_id.
    + apply derivable_pt_const.
Qed.

(** Without a sign change nothing is guaranteed: the code makes no check. *)
Theorem C28_no_sign_change_no_root :
  exists func tol max_iter min_iter fuel x i,
    bisection func tol max_iter min_iter fuel 0 1 = Some (x, i) /\ Rabs (func x) > tol /\
    (forall y, func y <> 0).
Proof.
  exists (fun _ => 1), (1/2), 0%nat, 0%nat, 1%nat, 1, 0%nat. split; [reflexivity|].
  split; [rewrite Rabs_R1; lra|intros; lra].
Qed.
Print Assumptions C28_no_sign_change_no_root.

(** ** C29: cramer_solve *)
Theorem C29_solves :
  forall solve (N_max N : nat) (A : nat -> nat -> R) (b : nat -> R),
    (1 <= N <= 4)%nat -> (N <= N_max)%nat -> det N A <> 0 ->
    exists x, cramer_solve solve N_max N A b = Some x /\ solves N A b x /\
      (forall y, solves N A b y -> y = x).
Proof.
  intros solve N_max N A b HN Hm Hd.
  destruct (cramer_all solve N_max N A b HN Hm Hd) as (x & E & Hx). exists x.
  split; [assumption|]. split; [assumption|]. intros y Hy.
  pose proof (cramer_unique solve N_max N A b y HN Hm Hd Hy). congruence.
Qed.
Print Assumptions C29_solves.
Example C29_ex : det 4 (fun i j => if Nat.eqb i j then 2 else 1) = 5.
Proof. cbn. unfold minor. cbn. ring. Qed.

Theorem C29_singular_matrices_are_reported :
  forall solve (N_max N : nat) (A : nat -> nat -> R) (b : nat -> R),
    (1 <= N <= 4)%nat -> (N <= N_max)%nat -> det N A = 0 ->
    cramer_solve solve N_max N A b = None.
Proof. exact cramer_singular. Qed.
Print Assumptions C29_singular_matrices_are_reported.
Example C29_singular_ex : det 3 (fun i j => INR i + INR j) = 0.
Proof. cbn. unfold minor. cbn. ring. Qed.

(** Larger systems go to jnp.linalg.solve unchanged. *)
Theorem C29_larger_systems_are_delegated :
  forall solve (N_max N : nat) A b, (4 < N)%nat \/ (N_max < N)%nat ->
    cramer_solve solve N_max N A b = solve N A b.
Proof.
  intros solve N_max N A b H. unfold cramer_solve. destruct (Nat.ltb_spec N_max N); [reflexivity|].
  destruct N as [|[|[|[|[|N]]]]]; try lia. reflexivity.
Qed.
Print Assumptions C29_larger_systems_are_delegated.

(** The docstring promises batches ([A] of shape (..., N, N)); for size 4 the
    division broadcasts the batch of determinants along the wrong axis. *)
Definition diag (d : R) : nat -> nat -> R := fun i j => if Nat.eqb i j then d else 0.
Theorem C29_batches_of_size_four_refuted :
  (forall n, n <> 1%nat -> n <> 4%nat -> forall batch, length batch = n -> cramer4_batched batch = None) /\
  exists batch xs A b x,
    (forall A b, In (A, b) batch -> det 4 A <> 0) /\
    cramer4_batched batch = Some xs /\
    nth_error batch 0 = Some (A, b) /\ nth_error xs 0 = Some (Some x) /\ ~ solves 4 A b x.
Proof.
  split.
  - intros n H1 H4 batch Hl.
    destruct batch as [|p0 [|p1 [|p2 [|p3 [|p4 t]]]]]; cbn in Hl; try (exfalso; lia); reflexivity.
  - pose (one := fun _ : nat => 1).
    exists [(diag 1, one); (diag 2, one); (diag 1, one); (diag 1, one)].
    assert (HD : forall d b, det4 (diag d) b = d ^ 4).
    { intros d b'. unfold det4. rewrite <- (det4_eq (diag d) b'). cbn. unfold minor, diag. cbn. ring. }
    assert (HN : forall d, nums4 (diag d) one = [d ^ 3; d ^ 3; d ^ 3; d ^ 3]).
    { intros. unfold nums4, cramer4_terms, diag, one. cbn. repeat (f_equal; try ring). }
    unfold cramer4_batched. cbn [map fst snd]. rewrite !(HD _ one), !HN.
    cbn [map combine fst snd].
    assert (Hdiv : forall x d, d <> 0 -> divo x d = Some (x / d)).
    { intros x d H. unfold divo. destruct (Req_EM_T d 0); congruence. }
    rewrite !Hdiv by lra. cbn [all_some].
    eexists _, (diag 1), one, _. split; [|split; [reflexivity|split; [reflexivity|split; [reflexivity|]]]].
    + intros A b H. assert (HD' : forall d, det 4 (diag d) = d ^ 4).
      { intros d. rewrite (det4_eq _ one). apply (HD d one). }
      cbn in H. destruct H as [E|[E|[E|[E|[]]]]]; injection E as <- <-; rewrite HD'; lra.
    + intros [_ H]. specialize (H 1%nat ltac:(lia)). cbn in H. unfold one in H. lra.
Qed.
Print Assumptions C29_batches_of_size_four_refuted.

(** ** C30: secant_extrema_finding *)
Theorem C30_stays_in_interval :
  forall (f : R -> R) (xmin xmax tol : R) (max_iter fuel : nat),
    xmin <= xmax -> 0 < tol -> (max_iter < fuel)%nat ->
    exists x i, secant f xmin xmax tol max_iter fuel = Some (x, i) /\
      xmin <= x <= xmax /\ (i <= max_iter)%nat.
Proof. intros. now apply secant_spec. Qed.
Print Assumptions C30_stays_in_interval.

(** With a positive tolerance no step divides by zero. *)
Theorem C30_no_division_by_zero :
  forall f tol max_iter x0 x1 i, tol > 0 ->
    sec_cond f tol max_iter (x0, x1, i) = true -> f x1 - f x0 <> 0.
Proof. exact secant_no_zero_division. Qed.
Print Assumptions C30_no_division_by_zero.
Example C30_ex : sec_cond (fun x => x) (1/2) 5 (0, 1, 0%nat) = true.
Proof.
  cbn. unfold rgeb. destruct (Rge_dec _ _) as [|n]; [reflexivity|]. exfalso. apply n.
  rewrite Rabs_left; lra.
Qed.

(** For a quadratic function (linear slope with non-zero coefficient) the
    extremum is found in one step when it lies in the interval. *)
Theorem C30_exact_on_quadratics :
  forall (m c xmin xmax : R),
    xmin < xmax -> m <> 0 -> xmin <= - c / m <= xmax ->
    sec_body (fun x => m * x + c) xmin xmax ((xmin + xmax) / 2, xmax, 0%nat) = (xmax, - c / m, 1%nat).
Proof.
  intros m c xmin xmax H Hm Hr. unfold sec_body. f_equal. f_equal.
  assert (E : xmax - (m * xmax + c) * (xmax - (xmin + xmax) / 2) /
    (m * xmax + c - (m * ((xmin + xmax) / 2) + c)) = - c / m).
  { field. split; [assumption|]. intros E. assert (H0 : m * (xmax - xmin) = 0) by lra.
    apply Rmult_integral in H0 as [|]; lra. }
  rewrite E. unfold clip. rewrite Rmax_left by lra. apply Rmin_left. lra.
Qed.
Print Assumptions C30_exact_on_quadratics.
Example C30_quadratic_ex : 0 < 3 /\ 2 <> 0 /\ 0 <= - (-2) / 2 <= 3.
Proof. lra. Qed.
