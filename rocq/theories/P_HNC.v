(** Theorems about the hypernetted-chain solver. *)
From Coq Require Import Reals Lra Psatz List Lia Arith Bool.
From Coquelicot Require Import Coquelicot.
Import ListNotations.
From Verif Require Import M_Const M_Helpers L_Helpers M_HNC L_HNC L_HNC2 L_HNC3.
Open Scope R_scope.

(** ** C44: the sine transform *)
(** The FFT algorithm computes the type-IV discrete sine transform. *)
Theorem C44_dst4_is_the_sine_transform :
  forall (N : nat) (f : nat -> R) (k : nat), Nat.even N = true -> (k < N)%nat ->
    dst4 N f k = nsum N (fun j => f j * sin (PI * (2 * INR j + 1) * (2 * INR k + 1) / (4 * INR N))).
Proof.
  intros N f k He Hk. apply Nat.even_spec in He. destruct He as [M ->]. now apply dst4_spec; [lia|].
Qed.
Print Assumptions C44_dst4_is_the_sine_transform.
Theorem C44_dst4_involution :
  forall (N : nat) (f : nat -> R) (k : nat), Nat.even N = true -> (k < N)%nat ->
    dst4 N (dst4 N f) k = INR N / 2 * f k.
Proof.
  intros N f k He Hk. rewrite C44_dst4_is_the_sine_transform by assumption.
  rewrite <- (kernel_involution N f k Hk). apply nsum_ext. intros j Hj.
  rewrite C44_dst4_is_the_sine_transform by assumption. reflexivity.
Qed.
Print Assumptions C44_dst4_involution.
Example C44_dst4_ex : dst4 2 (fun j => INR j + 1) 0 = sin (PI / 8) + 2 * sin (PI * 3 / 8).
Proof.
  rewrite C44_dst4_is_the_sine_transform by (reflexivity || lia). cbn [nsum INR].
  replace (PI * (2 * 0 + 1) * (2 * 0 + 1) / (4 * (1 + 1))) with (PI / 8) by field.
  replace (PI * (2 * 1 + 1) * (2 * 0 + 1) / (4 * (1 + 1))) with (PI * 3 / 8) by field. ring.
Qed.
(** Parseval: no signal is lost. *)
Theorem C44_parseval :
  forall (N : nat) (f : nat -> R), Nat.even N = true ->
    nsum N (fun k => dst4 N f k ^ 2) = INR N / 2 * nsum N (fun j => f j ^ 2).
Proof.
  intros N f He.
  rewrite (nsum_ext N _ (fun k => nsum N (fun j => dst4 N f k * f j * dst_kernel N j k))).
  2:{ intros k Hk. transitivity (dst4 N f k * dst4 N f k); [ring|]. rewrite (C44_dst4_is_the_sine_transform N f k He Hk) at 2.
      rewrite <- nsum_scal. apply nsum_ext. intros. unfold dst_kernel. ring. }
  rewrite nsum_swap, <- nsum_scal. apply nsum_ext. intros j Hj.
  rewrite (nsum_ext N _ (fun k => f j * (dst4 N f k * dst_kernel N k j))) by (intros; rewrite kernel_sym; ring).
  rewrite nsum_scal. change (nsum N (fun k => dst4 N f k * dst_kernel N k j))
    with (nsum N (fun k => dst4 N f k * sin (PI * (2 * INR k + 1) * (2 * INR j + 1) / (4 * INR N)))).
  rewrite <- (C44_dst4_is_the_sine_transform N (dst4 N f) j He Hj), C44_dst4_involution by assumption. ring.
Qed.
Print Assumptions C44_parseval.
(** Odd lengths (the docstring warns): the last value is dropped, so that the
    transform cannot be undone. *)
Theorem C97_odd_length_refuted :
  (forall N f, Nat.odd N = true -> dst4 N f (N - 1) = 0) /\
  exists (N : nat) (f : nat -> R) (k : nat), Nat.odd N = true /\ (k < N)%nat /\
    dst4 N (dst4 N f) k <> INR N / 2 * f k.
Proof.
  assert (H : forall N f, Nat.odd N = true -> dst4 N f (N - 1) = 0).
  { intros N f Ho. apply Nat.odd_spec in Ho. destruct Ho as [M ->]. unfold dst4.
    replace (2 * M + 1 - 1)%nat with (M * 2)%nat by lia. rewrite Nat.div_mul by lia.
    assert (E : ((2 * M + 1) / 2 = M)%nat) by (symmetry; apply Nat.div_unique with 1%nat; lia).
    rewrite E, Nat.ltb_irrefl. reflexivity. }
  split; [exact H|]. exists 3%nat, (fun _ => 1), 2%nat. split; [reflexivity|]. split; [lia|].
  pose proof (H 3%nat (dst4 3 (fun _ => 1)) eq_refl) as E. cbn [Nat.sub] in E. rewrite E. cbn [INR]. lra.
Qed.
Print Assumptions C97_odd_length_refuted.

(** Forward and backward transforms as the solver uses them are inverse to
    each other, for every even length and positive radii. *)
Theorem C44_forward_then_backward :
  forall (N : nat) (r : nat -> R) (f : arr3) (a b j : nat), good_grid N r -> (j < N)%nat ->
    let k := k_grid N r in
    three_d_four N r k (three_d_four N k r f) a b j / (2 * PI) ^ 3 = f a b j.
Proof.
  intros N r f a b j G Hj k. unfold k, three_d_four. rewrite backward_model by assumption.
  rewrite (backward_ext N r _ (forward N r (fun i => f a b i)) j).
  - now apply backward_forward.
  - intros i Hi. now apply forward_model.
Qed.
Print Assumptions C44_forward_then_backward.
Theorem C44_backward_then_forward :
  forall (N : nat) (r : nat -> R) (F : arr3) (a b m : nat), good_grid N r -> (m < N)%nat ->
    let k := k_grid N r in
    three_d_four N k r (fun a b j => three_d_four N r k F a b j / (2 * PI) ^ 3) a b m = F a b m.
Proof.
  intros N r F a b m G Hm k. unfold k, three_d_four. rewrite forward_model by assumption.
  rewrite (forward_ext N r _ (backward N r (fun i => F a b i)) m).
  - now apply forward_backward.
  - intros i Hi. now apply backward_model.
Qed.
Print Assumptions C44_backward_then_forward.
Example C44_grid_ex : good_grid 4 (fun j => (INR j + 1) / 10).
Proof.
  split; [reflexivity|]. split; [lia|]. split; [|cbn [INR]; lra].
  intros j _. pose proof (pos_INR j). lra.
Qed.

(** ** C45: labels of the transform *)
(** The transform samples sin(k r) at half-integer multiples of both steps. *)
Theorem C45_transform_points :
  forall (N : nat) (dr : R) (f : nat -> R) (m : nat), Nat.even N = true -> (m < N)%nat -> dr <> 0 ->
    let r := fun j => (INR j + 1 / 2) * dr in
    let k := fun m => (INR m + 1 / 2) * (PI / (INR N * dr)) in
    dst4 N f m = nsum N (fun j => f j * sin (k m * r j)).
Proof.
  intros N dr f m He Hm Hd r k. rewrite C44_dst4_is_the_sine_transform by assumption.
  apply nsum_ext. intros j Hj. f_equal. f_equal. unfold k, r.
  assert (0 < INR N) by (apply lt_0_INR; lia). field. split; lra.
Qed.
Print Assumptions C45_transform_points.
(** With the radii of that transform, the k labels of the solver exceed the
    true wave numbers by more than half a step, for every length and step... *)
Theorem C45_k_labels_refuted :
  forall (N : nat) (dr : R), (1 < N)%nat -> 0 < dr ->
    let r := fun j => (INR j + 1 / 2) * dr in
    forall m, k_grid N r m - (INR m + 1 / 2) * (PI / (INR N * dr))
              = (PI / (INR N * dr)) * (1 / 2 + 1 / (2 * INR N - 1)) /\
      k_grid N r m <> (INR m + 1 / 2) * (PI / (INR N * dr)).
Proof.
  intros N dr HN Hd r m. assert (H1 : 1 < INR N) by (apply (lt_INR 1); lia).
  assert (E : k_grid N r m - (INR m + 1 / 2) * (PI / (INR N * dr))
              = (PI / (INR N * dr)) * (1 / 2 + 1 / (2 * INR N - 1))).
  { unfold k_grid, k_step, r. rewrite minus_INR by lia. cbn [INR]. field. repeat split; lra. }
  split; [exact E|]. intros Heq. rewrite Heq in E. pose proof PI_RGT_0.
  assert (0 < PI / (INR N * dr)) by (apply Rdiv_lt_0_compat; [|apply Rmult_lt_0_compat]; lra).
  assert (0 < 1 / (2 * INR N - 1)) by (apply Rdiv_lt_0_compat; lra).
  assert (0 < (PI / (INR N * dr)) * (1 / 2 + 1 / (2 * INR N - 1))) by (apply Rmult_lt_0_compat; lra). lra.
Qed.
Print Assumptions C45_k_labels_refuted.
(** ... and no uniform grid, wherever it starts, gets both labels right. *)
Theorem C45_no_grid_is_right_refuted :
  forall (N : nat) (r_min r_max : R), (1 < N)%nat -> 0 < r_min < r_max ->
    let r := linspace r_min r_max N in
    let dr := r 1%nat - r 0%nat in
    ~ ((forall j, (j < N)%nat -> r j = (INR j + 1 / 2) * dr) /\
       (forall m, (m < N)%nat -> k_grid N r m = (INR m + 1 / 2) * (PI / (INR N * dr)))).
Proof.
  intros N r_min r_max HN Hr r dr [H1 H2].
  assert (Hd : 0 < dr).
  { unfold dr, r, linspace. cbn [INR]. assert (0 < (r_max - r_min) / INR (N - 1)); [|lra].
    apply Rdiv_lt_0_compat; [lra|]. apply lt_0_INR. lia. }
  apply (proj2 (C45_k_labels_refuted N dr HN Hd 0)). rewrite <- (H2 0%nat ltac:(lia)).
  unfold k_grid, k_step. rewrite (H1 (N - 1)%nat) by lia. fold dr.
  f_equal. f_equal. cbn [INR]. f_equal. f_equal. ring.
Qed.
Print Assumptions C45_no_grid_is_right_refuted.
Example C45_ex : let r := linspace 1 4 4 in r 0%nat = 1 /\ r 3%nat = 4 /\ k_grid 4 r 0 = PI / 4.
Proof. cbv zeta. unfold linspace, k_grid, k_step. cbn [INR Nat.sub linspace]. unfold linspace. cbn [INR Nat.sub]. repeat split; field. Qed.
(** What the labels do satisfy: positive, increasing in equal steps that match
    the radial step. *)
Theorem C45_k_grid_partial :
  forall (N : nat) (r : nat -> R), good_grid N r ->
    k_step N r * (r 1%nat - r 0%nat) * INR N = PI /\
    forall m, 0 < k_grid N r m /\ k_grid N r (S m) - k_grid N r m = k_step N r.
Proof.
  intros N r G. split.
  - unfold k_step. pose proof (grid_N N r G). destruct G as (_ & _ & _ & Hd). field. split; lra.
  - intros m. split; [now apply k_grid_pos|]. unfold k_grid. rewrite S_INR. ring.
Qed.
Print Assumptions C45_k_grid_partial.

(** ** C46: Ornstein-Zernike relation and the iteration *)
(** Any number of species, symmetric direct correlations. *)
Theorem C46_ornstein_zernike :
  forall solve (N_max M : nat) (n : nat -> R) (c H : nat -> nat -> R),
    (1 <= M)%nat -> good_solver M solve -> sym2 M c ->
    ozr solve N_max M n c = Some H ->
    OZ M n c H /\ sym2 M H.
Proof. intros solve N_max M n c H HM Hs Hc E. destruct (ozr_ok solve N_max M n c H HM Hs Hc E) as (A & B & _). now split. Qed.
Print Assumptions C46_ornstein_zernike.
(** Up to four species a result exists exactly when 1 - c n is regular. *)
Theorem C46_ornstein_zernike_defined :
  forall solve (N_max M : nat) (n : nat -> R) (c : nat -> nat -> R),
    (1 <= M <= 4)%nat -> (M <= N_max)%nat ->
    (ozr solve N_max M n c <> None <-> det M (fun i j => delta i j - c i j * n j) <> 0).
Proof.
  intros solve N_max M n c HM Hm. split.
  - intros H. destruct (ozr solve N_max M n c) as [h|] eqn:E; [|congruence].
    apply (ozr_rows solve N_max M n c h HM Hm E).
  - intros H. destruct (ozr_total solve N_max M n c HM Hm H) as [h ->]. discriminate.
Qed.
Print Assumptions C46_ornstein_zernike_defined.
Definition ex_c : nat -> nat -> R := fun i j => if Nat.eqb i j then 1 / 4 else 1 / 8.
Example C46_oz_ex : sym2 2 ex_c /\ det 2 (fun i j => delta i j - ex_c i j * 1) <> 0.
Proof.
  split.
  - intros a b _ _. unfold ex_c. now rewrite Nat.eqb_sym.
  - cbn. unfold minor, delta, ex_c. cbn. lra.
Qed.
(** Without symmetry the hand-written branches solve for the rows instead of the
    columns, and the relation fails. *)
Theorem C97_asymmetric_refuted :
  exists (n : nat -> R) (c H : nat -> nat -> R),
    forall solve, ozr solve 4 2 n c = Some H /\ ~ OZ 2 n c H.
Proof.
  exists (fun _ => 1), (fun i j => if Nat.eqb i 0 && Nat.eqb j 1 then 1 else 0).
  eexists. intros solve. split.
  - unfold ozr, cramer_solve_matrix. cbn [Nat.ltb Nat.leb Nat.eqb orb]. cbn [sequence cramer_solve Nat.ltb Nat.leb].
    unfold cramer2, divo. cbn [nsum delta Nat.eqb andb]. unfold delta. cbn [Nat.eqb].
    match goal with |- context [Req_EM_T ?x 0] => destruct (Req_EM_T x 0) as [Hx|_]; [exfalso; lra|] end.
    cbn [all_some app]. reflexivity.
  - intros Hoz. specialize (Hoz 0%nat 0%nat ltac:(lia) ltac:(lia)). cbn in Hoz. unfold entry in Hoz. cbn in Hoz. lra.
Qed.
Print Assumptions C97_asymmetric_refuted.

Section Iteration.
Variable K : consts.
Variable solve : nat -> (nat -> nat -> R) -> (nat -> R) -> option (list R).

(** Each step satisfies the relation at every wave number, keeps the species
    symmetric and obeys the closure. *)
Theorem C46_step :
  forall (M N N_max : nat) (r n : nat -> R) (mix : R) (v_s v_l_k : arr3) (s s' : hnc_state),
    (1 <= M)%nat -> good_solver M solve -> good_grid N r ->
    sym3 M N v_s -> sym3 M N v_l_k -> sym_state M N s ->
    step (ozr solve N_max M n) N r mix v_s v_l_k s = Some s' ->
    sym_state M N s' /\
    exists c_k h_k : arr3,
      (forall a b m, (a < M)%nat -> (b < M)%nat -> (m < N)%nat ->
        c_k a b m = forward N r (fun j => exp (log_g s a b j) - 1 - Ns s a b j) m - v_l_k a b m) /\
      (forall a b m, (a < M)%nat -> (b < M)%nat -> (m < N)%nat ->
        h_k a b m = c_k a b m + nsum M (fun t => c_k a t m * n t * h_k t b m)) /\
      (forall a b j, (a < M)%nat -> (b < M)%nat -> (j < N)%nat ->
        Ns s' a b j = (1 - mix) * backward N r (fun m => h_k a b m - (c_k a b m + v_l_k a b m)) j + mix * Ns s a b j) /\
      (forall a b j, log_g s' a b j = Ns s' a b j - v_s a b j).
Proof.
  intros M N N_max r n mix v_s v_l_k s s' HM Hs G Sv Sl Ss E.
  destruct (step_meets M N r (ozr solve N_max M n) (OZ M n) mix v_s v_l_k s s' G) as [H1 (c & h & H2)]; try assumption.
  { intros c h Hc Eh. destruct (ozr_ok solve N_max M n c h HM Hs Hc Eh) as (A & B & _). now split. }
  split; [exact H1|]. exists c, h. split; [apply H2|]. split; [|split; apply H2].
  intros a b m Ha Hb Hm. exact (ss_h _ _ _ _ _ _ _ _ _ _ _ H2 m Hm a b Ha Hb).
Qed.

(** A fixed point of the step solves the hypernetted-chain equations: closure
    and Ornstein-Zernike relation for the same g. *)
Theorem C46_fixed_point :
  forall (M N N_max : nat) (r n : nat -> R) (mix : R) (v_s v_l_k : arr3) (s s' : hnc_state),
    (1 <= M)%nat -> good_solver M solve -> good_grid N r -> mix <> 1 ->
    sym3 M N v_s -> sym3 M N v_l_k -> sym_state M N s ->
    (forall a b j, log_g s a b j = Ns s a b j - v_s a b j) ->
    step (ozr solve N_max M n) N r mix v_s v_l_k s = Some s' ->
    (forall a b j, (a < M)%nat -> (b < M)%nat -> (j < N)%nat -> Ns s' a b j = Ns s a b j) ->
    let g := fun a b j => exp (log_g s a b j) in
    let h := fun a b j => g a b j - 1 in
    let c_s := fun a b j => h a b j - Ns s a b j in
    let h_k := fun a b m => forward N r (h a b) m in
    let c_k := fun a b m => forward N r (c_s a b) m - v_l_k a b m in
    (forall m, (m < N)%nat -> OZ M n (fun a b => c_k a b m) (fun a b => h_k a b m)) /\
    (forall a b j, g a b j = exp (- v_s a b j + h a b j - c_s a b j)).
Proof.
  intros M N N_max r n mix v_s v_l_k s s' HM Hs G Hmix Sv Sl Ss Hcl E Hfix g h c_s h_k c_k.
  destruct (C46_step M N N_max r n mix v_s v_l_k s s' HM Hs G Sv Sl Ss E) as (_ & ck & hk & Hc & Hoz & HN & _).
  assert (Hck : forall a b m, (a < M)%nat -> (b < M)%nat -> (m < N)%nat -> ck a b m = c_k a b m).
  { intros a b m Ha Hb Hm. rewrite Hc by assumption. reflexivity. }
  assert (Hhk : forall a b m, (a < M)%nat -> (b < M)%nat -> (m < N)%nat -> hk a b m = h_k a b m).
  { intros a b m Ha Hb Hm.
    assert (HNs : forall j, (j < N)%nat -> Ns s a b j = backward N r (fun m => hk a b m - (ck a b m + v_l_k a b m)) j).
    { intros j Hj. pose proof (HN a b j Ha Hb Hj) as H1. rewrite Hfix in H1 by assumption.
      apply (Rmult_eq_reg_l (1 - mix)); [|lra]. lra. }
    pose proof (forward_backward N r G (fun m => hk a b m - (ck a b m + v_l_k a b m)) m Hm) as Hfb. cbv beta in Hfb.
    rewrite <- (forward_ext N r _ _ m HNs) in Hfb.
    unfold h_k. rewrite (forward_ext N r _ (fun j => c_s a b j + Ns s a b j) m) by (intros; unfold c_s; ring).
    rewrite forward_plus. rewrite Hfb, Hck by assumption. unfold c_k. ring. }
  split.
  - intros m Hm a b Ha Hb. rewrite <- Hck, <- Hhk by assumption. rewrite (Hoz a b m Ha Hb Hm). f_equal.
    apply nsum_ext. intros t Ht. now rewrite Hck, Hhk.
  - intros a b j. unfold c_s, h. unfold g at 1. f_equal. rewrite Hcl. ring.
Qed.

(** What the solver returns, for every list of temperature multipliers: positive
    and symmetric pair distributions, made by one exact step at the target
    temperature from a state that differs by at most 1e-6 in the square - or
    after the full 2000 iterations. *)
Theorem C46_result :
  forall (fuel M N N_max : nat) (V_s V_l_k : arr3) (r n : nat -> R) (T : nat -> nat -> R) (mix : R)
    (tmult : list R) (g : arr3) (iterations : nat),
    (1 <= M)%nat -> good_solver M solve -> good_grid N r ->
    sym3 M N V_s -> sym3 M N V_l_k -> (forall a b, T a b = T b a) ->
    pair_distribution_function_HNC K solve fuel M N V_s V_l_k r T n mix tmult N_max = Some (g, iterations) ->
    let v := fun a b j => V_s a b j / (kB K * T a b) in
    let w := fun a b m => V_l_k a b m / (kB K * T a b) in
    (forall a b j, 0 < g a b j) /\ sym3 M N g /\
    exists (N_new N_prev c_k h_k : arr3),
      (forall a b j, g a b j = exp (N_new a b j - v a b j)) /\
      (forall a b m, (a < M)%nat -> (b < M)%nat -> (m < N)%nat ->
        c_k a b m = forward N r (fun j => exp (N_prev a b j - v a b j) - 1 - N_prev a b j) m - w a b m) /\
      (forall m, (m < N)%nat -> OZ M n (fun a b => c_k a b m) (fun a b => h_k a b m)) /\
      (forall a b j, (a < M)%nat -> (b < M)%nat -> (j < N)%nat ->
        N_new a b j = (1 - mix) * backward N r (fun m => h_k a b m - (c_k a b m + w a b m)) j + mix * N_prev a b j) /\
      ((2000 <= iterations)%nat \/
       nsum M (fun a => nsum M (fun b => nsum N (fun j => (N_new a b j - N_prev a b j) ^ 2))) <= 1 / 1000000).
Proof.
  intros fuel M N N_max V_s V_l_k r n T mix tmult g iterations HM Hs G Sv Sl ST E v w.
  unfold pair_distribution_function_HNC in E.
  destruct (cycles _ _ _ _ _ _ _ _ tmult) as [[t it]|] eqn:Ec; [|discriminate].
  assert (Eg : g = fun a b j => exp (log_g t a b j)) by congruence.
  assert (Ei : it = iterations) by congruence. clear E. subst it.
  assert (Ebeta : forall mult a b, beta K T mult a b = beta K T mult b a) by (intros; unfold beta; now rewrite ST).
  destruct (cycles_reached (fun _ => ozr solve N_max M n) (fun _ => OZ M n) M N r mix
     (fun mult a b j => beta K T mult a b * V_s a b j) (fun mult a b m => beta K T mult a b * V_l_k a b m) G HM) with (4 := Ec)
     as [[[Hsym Hcl] (s & c & h & [Hss Hsc] & SS)] Hstop].
  { intros _ c h Hc Eh. destruct (ozr_ok solve N_max M n c h HM Hs Hc Eh) as (A & B & _). now split. }
  { intros mult a b j Ha Hb Hj. now rewrite Ebeta, Sv. }
  { intros mult a b j Ha Hb Hj. now rewrite Ebeta, Sl. }
  assert (Ev : forall a b x, beta K T 1 a b * x = x / (kB K * T a b)) by (intros; unfold beta; rewrite Rmult_1_l; unfold Rdiv; ring).
  split; [intros; rewrite Eg; apply exp_pos|]. split.
  { intros a b j Ha Hb Hj. rewrite Eg. f_equal. now apply (proj1 Hsym). }
  exists (Ns t), (Ns s), c, h. split; [|split; [|split; [|split]]].
  - intros. rewrite Eg, Hcl. f_equal. f_equal. unfold v. apply Ev.
  - intros a b m Ha Hb Hm. rewrite (ss_c _ _ _ _ _ _ _ _ _ _ _ SS a b m Ha Hb Hm). unfold w. rewrite Ev. f_equal.
    apply forward_ext. intros j Hj. rewrite Hsc, Ev. reflexivity.
  - exact (ss_h _ _ _ _ _ _ _ _ _ _ _ SS).
  - intros a b j Ha Hb Hj. rewrite (ss_N _ _ _ _ _ _ _ _ _ _ _ SS a b j Ha Hb Hj). f_equal. f_equal.
    apply backward_ext. intros m Hm. unfold w. now rewrite Ev.
  - unfold condition in Hstop. apply andb_false_iff in Hstop as [H|H].
    + left. apply Nat.ltb_ge in H. apply (Nat.le_trans _ (n_iter t)); [exact H|]. clear - Ec.
      unfold cycles in Ec.
      assert (HL : forall l s it t it', later_cycles (fun _ => ozr solve N_max M n) fuel M N r mix
        (fun mult a b j => beta K T mult a b * V_s a b j) (fun mult a b m => beta K T mult a b * V_l_k a b m) l s it = Some (t, it') ->
        (n_iter s <= it)%nat -> (n_iter t <= it')%nat).
      { induction l as [|mult l IH]; intros s' it t' it' E H; cbn [later_cycles] in E.
        - replace t' with s' by congruence. replace it' with it by congruence. exact H.
        - destruct (next_cycle _ _ _ _ _ _ _ _ mult s') as [u| |]; try discriminate. apply (IH _ _ _ _ E). lia. }
      destruct (tmult ++ [1]) as [|mult rest]; [discriminate|].
      destruct (first_cycle _ _ _ _ _ _ _ _ mult) as [u| |]; try discriminate. now apply (HL _ _ _ _ _ Ec).
    + right. rewrite (ss_old _ _ _ _ _ _ _ _ _ _ _ SS) in H. unfold total in H.
      destruct (Rlt_dec _ _) as [|Hn]; [discriminate|]. apply Rnot_lt_le in Hn. exact Hn.
Qed.

(** The loops end: 2001 rounds are always enough, and the count is bounded. *)
Theorem C46_terminates :
  forall (M N N_max : nat) (V_s V_l_k : arr3) (r n : nat -> R) (T : nat -> nat -> R) (mix : R) (tmult : list R),
    (forall f1 f2, (2000 < f1)%nat -> (2000 < f2)%nat ->
      pair_distribution_function_HNC K solve f1 M N V_s V_l_k r T n mix tmult N_max
      = pair_distribution_function_HNC K solve f2 M N V_s V_l_k r T n mix tmult N_max) /\
    (forall fuel g it, pair_distribution_function_HNC K solve fuel M N V_s V_l_k r T n mix tmult N_max = Some (g, it) ->
      (it <= 2000 + 2005 * length tmult)%nat) /\
    (forall oz v w fuel s, (2000 < fuel)%nat -> while_loop oz M N r mix v w fuel s <> OutOfFuel).
Proof.
  intros M N N_max V_s V_l_k r n T mix tmult. split; [|split].
  - intros f1 f2 H1 H2. unfold pair_distribution_function_HNC. now rewrite (cycles_fuel _ _ _ _ _ _ _ f1 f2).
  - intros fuel g it E. unfold pair_distribution_function_HNC in E.
    destruct (cycles _ _ _ _ _ _ _ _ tmult) as [[t i]|] eqn:Ec; [|discriminate].
    apply cycles_count in Ec. replace it with i by congruence. exact Ec.
  - intros oz v w fuel s Hf. now apply loop_fuel0.
Qed.

(** Without interaction the solver stops at once with g = 1, whatever the
    temperatures; five further steps are spent on each multiplier. *)
Theorem C46_ideal_gas :
  forall (fuel M N N_max : nat) (V_s V_l_k : arr3) (r n : nat -> R) (T : nat -> nat -> R) (mix : R) (tmult : list R),
    (1 <= M <= 4)%nat -> (M <= N_max)%nat -> good_grid N r -> (2 <= fuel)%nat ->
    (forall a b j, (a < M)%nat -> (b < M)%nat -> (j < N)%nat -> V_s a b j = 0) ->
    (forall a b m, (a < M)%nat -> (b < M)%nat -> (m < N)%nat -> V_l_k a b m = 0) ->
    exists g, pair_distribution_function_HNC K solve fuel M N V_s V_l_k r T n mix tmult N_max = Some (g, (1 + 5 * length tmult)%nat) /\
      forall a b j, (a < M)%nat -> (b < M)%nat -> (j < N)%nat -> g a b j = 1.
Proof.
  intros fuel M N N_max V_s V_l_k r n T mix tmult HM Hm G Hf Vs Vl.
  destruct (ideal_cycles (fun _ => ozr solve N_max M n) M N r mix
     (fun mult a b j => beta K T mult a b * V_s a b j) (fun mult a b m => beta K T mult a b * V_l_k a b m) G
     (proj1 HM) (fun _ c Hc => ozr_ideal solve N_max M n c HM Hm Hc)) with (fuel := fuel) (tmult := tmult) as (s & E & F & _).
  - intros mult a b j Ha Hb Hj. rewrite Vs by assumption. ring.
  - intros mult a b j Ha Hb Hj. rewrite Vl by assumption. ring.
  - exact Hf.
  - exists (fun a b j => exp (log_g s a b j)). split.
    + unfold pair_distribution_function_HNC. now rewrite E.
    + intros a b j Ha Hb Hj. destruct (F a b j Ha Hb Hj) as [-> _]. apply exp_0.
Qed.
End Iteration.
Print Assumptions C46_step.
Print Assumptions C46_fixed_point.
Print Assumptions C46_result.
Print Assumptions C46_terminates.
Print Assumptions C46_ideal_gas.
(** the hypotheses can be met: a solver, symmetric potentials, a grid *)
Example C46_ex : good_solver 7 (fun _ _ _ => None) /\
  sym3 2 4 (fun a b j => (INR a + 1) * (INR b + 1) / (INR j + 1)).
Proof. split; [intros A b x E; discriminate|]. intros a b j _ _ _. f_equal. ring. Qed.

(** ** C93: structure factors *)
Theorem C93_structure_factor_at_a_fixed_point :
  forall (M N : nat) (r n : nat -> R) (g c_k : arr3) (m : nat),
    good_grid N r -> pos_below M n -> (0 < m < N)%nat ->
    sym3 M N g -> (forall m, sym2 M (fun a b => c_k a b m)) ->
    (** total correlation function and c_k obey the Ornstein-Zernike relation *)
    OZ M n (fun a b => c_k a b m) (fun a b => forward N r (fun j => g a b j - 1) m) ->
    forall a b, (a < M)%nat -> (b < M)%nat ->
      nsum M (fun s => S_ii_HNC N (k_grid N r) g n r a s m * (delta s b - sqrt (n s * n b) * c_k s b m)) = delta a b.
Proof.
  intros M N r n g c_k m G Pn Hm Sg Sc Hoz a b Ha Hb.
  rewrite <- (structure_inverse M n (fun a b => c_k a b m) (fun a b => forward N r (fun j => g a b j - 1) m) Pn (Sc m)) with (4 := Hb) (3 := Ha).
  - apply nsum_ext. intros s Hs. f_equal. unfold S_ii_HNC. destruct (Nat.eqb_spec m 0); [lia|].
    f_equal. f_equal. unfold three_d_four. apply forward_model; [exact G|lia].
  - intros p q Hp Hq. apply forward_ext. intros j Hj. now rewrite Sg.
  - exact Hoz.
Qed.
Print Assumptions C93_structure_factor_at_a_fixed_point.
(** one component: S = 1 / (1 - n c) *)
Theorem C93_one_component :
  forall (N : nat) (r n : nat -> R) (g c_k : arr3) (m : nat),
    good_grid N r -> 0 < n 0%nat -> (0 < m < N)%nat ->
    OZ 1 n (fun a b => c_k a b m) (fun a b => forward N r (fun j => g a b j - 1) m) ->
    n 0%nat * c_k 0%nat 0%nat m <> 1 /\
    S_ii_HNC N (k_grid N r) g n r 0%nat 0%nat m = 1 / (1 - n 0%nat * c_k 0%nat 0%nat m).
Proof.
  intros N r n g c_k m G Pn Hm Hoz.
  assert (E : S_ii_HNC N (k_grid N r) g n r 0%nat 0%nat m * (1 - n 0%nat * c_k 0%nat 0%nat m) = 1).
  { pose proof (Hoz 0%nat 0%nat ltac:(lia) ltac:(lia)) as H. cbn [nsum] in H.
    unfold S_ii_HNC. destruct (Nat.eqb_spec m 0); [lia|]. unfold three_d_four. rewrite forward_model by (assumption || lia).
    rewrite sqrt_square by lra. unfold delta. cbn [Nat.eqb].
    set (h := forward N r (fun j => g 0%nat 0%nat j - 1) m) in *. set (c := c_k 0%nat 0%nat m) in *.
    set (dens := n 0%nat) in *. clearbody h c dens. clear - H.
    replace ((1 + h * dens) * (1 - dens * c)) with (1 + dens * (h - c - c * dens * h)) by ring. rewrite H at 1. ring. }
  assert (Hne : 1 - n 0%nat * c_k 0%nat 0%nat m <> 0) by (intros H0; rewrite H0 in E; lra).
  split; [lra|]. apply (Rmult_eq_reg_r (1 - n 0%nat * c_k 0%nat 0%nat m)); [|exact Hne]. rewrite E. field. exact Hne.
Qed.
Print Assumptions C93_one_component.
Example C93_ex : OZ 1 (fun _ => 1) (fun _ _ => 1 / 2) (fun _ _ => 1).
Proof. intros a b Ha Hb. cbn. lra. Qed.
(** symmetric in the species; the first entry repeats the second; g = 1 gives
    the unit matrix *)
Theorem C93_structure_factor :
  forall (M N : nat) (r n : nat -> R) (g : arr3), good_grid N r ->
    let S := S_ii_HNC N (k_grid N r) g n r in
    (sym3 M N g -> sym3 M N S) /\
    (forall a b, S a b 0%nat = S a b 1%nat) /\
    (forall a b m, (1 <= m < N)%nat ->
      S a b m = delta a b + sqrt (n a * n b) * forward N r (fun j => g a b j - 1) m) /\
    ((forall a b j, (a < M)%nat -> (b < M)%nat -> (j < N)%nat -> g a b j = 1) ->
      forall a b m, (a < M)%nat -> (b < M)%nat -> (m < N)%nat -> S a b m = delta a b).
Proof.
  intros M N r n g G S.
  assert (HN2 : (2 <= N)%nat).
  { destruct G as (He & HN & _). apply Nat.even_spec in He. destruct He as [p ->]. lia. }
  assert (H3 : forall a b m, (1 <= m < N)%nat -> S a b m = delta a b + sqrt (n a * n b) * forward N r (fun j => g a b j - 1) m).
  { intros a b m Hm. unfold S, S_ii_HNC. destruct (Nat.eqb_spec m 0); [lia|]. unfold three_d_four.
    rewrite forward_model by (assumption || lia). ring. }
  assert (H2 : forall a b, S a b 0%nat = S a b 1%nat) by (intros; reflexivity).
  split; [|split; [exact H2|split; [exact H3|]]].
  - intros Sg a b m Ha Hb Hm. assert (H : forall m, (1 <= m < N)%nat -> S a b m = S b a m).
    { intros p Hp. rewrite !H3 by assumption. rewrite (delta_sym a b), (Rmult_comm (n a)). f_equal. f_equal.
      apply forward_ext. intros j Hj. now rewrite Sg. }
    destruct m as [|m]; [rewrite !H2|]; apply H; lia.
  - intros Hg a b m Ha Hb Hm. assert (H : forall m, (1 <= m < N)%nat -> S a b m = delta a b).
    { intros p Hp. rewrite H3 by assumption. rewrite (forward_ext N r _ (fun _ => 0)); [rewrite forward_0; ring|].
      intros j Hj. rewrite Hg by assumption. ring. }
    destruct m as [|m]; [rewrite H2|]; apply H; lia.
Qed.
Print Assumptions C93_structure_factor.

(** ** C94: the multi-temperature relation *)
Theorem C94_relation :
  forall solve (N_max M : nat) (n m : nat -> R) (T c H : nat -> nat -> R),
    (1 <= M)%nat -> good_solver (M * M) solve -> pos_below M m -> pos_below2 M T ->
    svt_ozr solve N_max M n m T c = Some H ->
    forall a b, (a < M)%nat -> (b < M)%nat ->
      H a b = c a b + nsum M (fun s => n s *
        (m b / (m a + m b) * (T a s / T a b) * c a s * H s b
         + m a / (m a + m b) * (T b s / T a b) * H a s * c s b)).
Proof. intros. now apply (svt_spec solve N_max M n m T c H). Qed.
Print Assumptions C94_relation.
Theorem C94_symmetric :
  forall solve (N_max M : nat) (n m : nat -> R) (T c H : nat -> nat -> R),
    (1 <= M)%nat -> good_solver (M * M) solve -> pos_below M m -> pos_below2 M T ->
    sym2 M T -> sym2 M c -> svt_ozr solve N_max M n m T c = Some H -> sym2 M H.
Proof.
  intros solve N_max M n m T c H HM Hs Pm PT ST Sc E. destruct (svt_spec solve N_max M n m T c H HM Hs Pm PT E) as [H1 H2].
  exact (svt_symmetric M n m T c H Pm PT ST Sc H2 H1).
Qed.
Print Assumptions C94_symmetric.
(** One temperature: the same correlations as the one-temperature solver, for
    all masses. *)
Theorem C94_one_temperature :
  forall solve solve' (N_max N_max' M : nat) (n m : nat -> R) (T0 : R) (c H H' : nat -> nat -> R),
    (1 <= M)%nat -> good_solver (M * M) solve -> good_solver M solve' -> pos_below M m -> 0 < T0 -> sym2 M c ->
    svt_ozr solve N_max M n m (fun _ _ => T0) c = Some H ->
    ozr solve' N_max' M n c = Some H' ->
    forall a b, (a < M)%nat -> (b < M)%nat -> H a b = H' a b.
Proof.
  intros solve solve' N_max N_max' M n m T0 c H H' HM Hs Hs' Pm HT Sc E E'.
  assert (PT : pos_below2 M (fun _ _ => T0)) by (intros ? ? _ _; exact HT).
  destruct (svt_spec solve N_max M n m _ c H HM Hs Pm PT E) as [H1 H2].
  destruct (ozr_ok solve' N_max' M n c H' HM Hs' Sc E') as (H3 & H4 & H5).
  apply (svt_unique M n m (fun _ _ => T0) c H H' Pm PT H2 H1).
  apply oz_is_svt; try assumption. lra.
Qed.
Print Assumptions C94_one_temperature.
(** The solver's result, and its iteration count. *)
Theorem C94_result :
  forall K solve (fuel M N N_max : nat) (V_s V_l_k : arr3) (r n m : nat -> R) (T : nat -> nat -> R) (mix : R)
    (g : arr3) (niter : nat),
    (1 <= M)%nat -> good_solver (M * M) solve -> good_grid N r -> pos_below M m -> pos_below2 M T ->
    sym3 M N V_s -> sym3 M N V_l_k -> (forall a b, T a b = T b a) ->
    pair_distribution_function_SVT_HNC K solve fuel M N V_s V_l_k r T n m mix [] N_max = Some (g, niter) ->
    let v := fun a b j => V_s a b j / (kB K * T a b) in
    let w := fun a b k => V_l_k a b k / (kB K * T a b) in
    (forall a b j, 0 < g a b j) /\ sym3 M N g /\ (niter <= 2000)%nat /\
    exists (N_new N_prev c_k h_k : arr3),
      (forall a b j, g a b j = exp (N_new a b j - v a b j)) /\
      (forall a b k, (a < M)%nat -> (b < M)%nat -> (k < N)%nat ->
        c_k a b k = forward N r (fun j => exp (N_prev a b j - v a b j) - 1 - N_prev a b j) k - w a b k) /\
      (forall k, (k < N)%nat -> SVT M n m T (fun a b => c_k a b k) (fun a b => h_k a b k)) /\
      (forall a b j, (a < M)%nat -> (b < M)%nat -> (j < N)%nat ->
        N_new a b j = (1 - mix) * backward N r (fun k => h_k a b k - (c_k a b k + w a b k)) j + mix * N_prev a b j) /\
      (niter = 2000%nat \/
       nsum M (fun a => nsum M (fun b => nsum N (fun j => (N_new a b j - N_prev a b j) ^ 2))) <= 1 / 1000000).
Proof.
  intros K solve fuel M N N_max V_s V_l_k r n m T mix g niter HM Hs G Pm PT Sv Sl ST E v w.
  unfold pair_distribution_function_SVT_HNC, cycles in E. cbn [app] in E.
  destruct (first_cycle _ _ _ _ _ _ _ _ 1) as [t| |] eqn:E1; try discriminate. cbn [later_cycles] in E.
  assert (Eg : g = fun a b j => exp (log_g t a b j)) by congruence.
  assert (Ei : niter = n_iter t) by congruence. clear E.
  assert (Ebeta : forall mult a b, beta K T mult a b = beta K T mult b a) by (intros; unfold beta; now rewrite ST).
  (* the solver at multiplier 1 *)
  set (oz1 := svt_ozr solve N_max M n m (fun a b => 1 * T a b)).
  assert (E1' : first_cycle (fun _ => oz1) fuel M N r mix (fun mult a b j => beta K T mult a b * V_s a b j)
      (fun mult a b k => beta K T mult a b * V_l_k a b k) 1 = Finished t) by exact E1.
  assert (PT1 : pos_below2 M (fun a b => 1 * T a b)) by (intros a b Ha Hb; rewrite Rmult_1_l; now apply PT).
  destruct (first_reached (fun _ => oz1) (fun _ => SVT M n m T) M N r mix
     (fun mult a b j => beta K T mult a b * V_s a b j) (fun mult a b k => beta K T mult a b * V_l_k a b k) G HM) with (4 := E1')
     as [[Hsym Hcl] (s & c & h & [Hss Hsc] & SS)].
  { intros _ c h Hc Eh. destruct (svt_spec solve N_max M n m _ c h HM Hs Pm PT1 Eh) as [H1 H2]. split.
    - intros a b Ha Hb. rewrite (H1 a b Ha Hb). f_equal. apply nsum_ext. intros s Hs'. now rewrite !Rmult_1_l.
    - apply (svt_symmetric M n m (fun a b => 1 * T a b) c h Pm PT1); try assumption.
      intros a b _ _. now rewrite ST. }
  { intros mult a b j Ha Hb Hj. now rewrite Ebeta, Sv. }
  { intros mult a b j Ha Hb Hj. now rewrite Ebeta, Sl. }
  assert (Ev : forall a b x, beta K T 1 a b * x = x / (kB K * T a b)) by (intros; unfold beta; rewrite Rmult_1_l; unfold Rdiv; ring).
  pose proof (first_count _ _ _ _ _ _ _ _ _ _ E1') as Hcount.
  unfold first_cycle in E1'. apply loop_stop in E1'.
  split; [intros; rewrite Eg; apply exp_pos|]. split.
  { intros a b j Ha Hb Hj. rewrite Eg. f_equal. now apply (proj1 Hsym). }
  split; [lia|].
  exists (Ns t), (Ns s), c, h. split; [|split; [|split; [|split]]].
  - intros. rewrite Eg, Hcl. f_equal. f_equal. unfold v. apply Ev.
  - intros a b k Ha Hb Hm. rewrite (ss_c _ _ _ _ _ _ _ _ _ _ _ SS a b k Ha Hb Hm). unfold w. rewrite Ev. f_equal.
    apply forward_ext. intros j Hj. rewrite Hsc, Ev. reflexivity.
  - exact (ss_h _ _ _ _ _ _ _ _ _ _ _ SS).
  - intros a b j Ha Hb Hj. rewrite (ss_N _ _ _ _ _ _ _ _ _ _ _ SS a b j Ha Hb Hj). f_equal. f_equal.
    apply backward_ext. intros k Hk. unfold w. now rewrite Ev.
  - unfold condition in E1'. apply andb_false_iff in E1' as [H|H].
    + left. apply Nat.ltb_ge in H. lia.
    + right. rewrite (ss_old _ _ _ _ _ _ _ _ _ _ _ SS) in H. unfold total in H.
      destruct (Rlt_dec _ _) as [|Hn]; [discriminate|]. apply Rnot_lt_le in Hn. exact Hn.
Qed.
Print Assumptions C94_result.
Example C94_ex : pos_below 2 (fun i => INR i + 1) /\ pos_below2 2 (mass_weighted_T (fun i => INR i + 1) (fun i => 2 * INR i + 1)).
Proof.
  assert (H : forall i, 0 < INR i + 1) by (intros i; pose proof (pos_INR i); lra).
  split; [intros i _; apply H|]. intros i j _ _. unfold mass_weighted_T.
  pose proof (H i). pose proof (H j). pose proof (pos_INR i). pose proof (pos_INR j).
  apply Rdiv_lt_0_compat; [|lra]. assert (0 < (INR i + 1) * (2 * INR j + 1)) by (apply Rmult_lt_0_compat; lra).
  assert (0 < (INR j + 1) * (2 * INR i + 1)) by (apply Rmult_lt_0_compat; lra). lra.
Qed.
(** The iterations reported with temperature multipliers are those of the last
    cycle only: the one-temperature solver counts all of them. *)
Theorem C94_iteration_count_refuted :
  exists (V : arr3) (r : nat -> R) (tmult : list R), exists g niter g' iterations,
    pair_distribution_function_SVT_HNC unit_consts (fun _ _ _ => None) 2001 1 2 V V r (fun _ _ => 1) (fun _ => 1) (fun _ => 1) 0 tmult 4 = Some (g, niter) /\
    pair_distribution_function_HNC unit_consts (fun _ _ _ => None) 2001 1 2 V V r (fun _ _ => 1) (fun _ => 1) 0 tmult 4 = Some (g', iterations) /\
    niter <> iterations.
Proof.
  assert (G : good_grid 2 (fun j => INR j + 1)).
  { split; [reflexivity|]. split; [lia|]. split; [|cbn [INR]; lra]. intros j _. pose proof (pos_INR j). lra. }
  set (V := fun _ _ _ : nat => 0).
  destruct (C46_ideal_gas unit_consts (fun _ _ _ => None) 2001 1 2 4 V V (fun j => INR j + 1) (fun _ => 1) (fun _ _ => 1) 0 [2])
    as (g' & E' & _); try (intros; reflexivity); try lia; [exact G|].
  destruct (ideal_cycles (fun mult => svt_ozr (fun _ _ _ => None) 4 1 (fun _ => 1) (fun _ => 1) (fun a b => mult * 1)) 1 2
     (fun j => INR j + 1) 0 (fun mult a b j => beta unit_consts (fun _ _ => 1) mult a b * V a b j)
     (fun mult a b m => beta unit_consts (fun _ _ => 1) mult a b * V a b m) G) with (fuel := 2001%nat) (tmult := [2]) as (s & E & _ & I); try lia.
  - intros mult c Hc. pose proof (Hc 0%nat 0%nat ltac:(lia) ltac:(lia)) as H0.
    unfold svt_ozr. cbn [Nat.mul Nat.add cramer_solve Nat.ltb Nat.leb]. unfold cramer1, divo, svt_matrix. cbn [Nat.div Nat.modulo fst snd Nat.divmod Nat.sub].
    rewrite H0. unfold delta. cbn [Nat.eqb].
    match goal with |- context [Req_EM_T ?x 0] => destruct (Req_EM_T x 0) as [Hx|_]; [exfalso; lra|] end.
    cbn [all_some]. eexists. split; [reflexivity|]. intros a b Ha Hb. replace a with 0%nat by lia. replace b with 0%nat by lia.
    cbn. unfold Rdiv. ring.
  - intros mult a b j _ _ _. unfold V. ring.
  - intros mult a b j _ _ _. unfold V. ring.
  - exists V, (fun j => INR j + 1), [2]. eexists _, _, g', _. split; [|split; [exact E'|]].
    + unfold pair_distribution_function_SVT_HNC. rewrite E, I. reflexivity.
    + cbn. lia.
Qed.
Print Assumptions C94_iteration_count_refuted.

(** ** C95: pair temperatures *)
Theorem C95_mass_weighted :
  forall (M : nat) (m T : nat -> R), pos_below M m ->
    forall a b, (a < M)%nat -> (b < M)%nat ->
      mass_weighted_T m T a b = mass_weighted_T m T b a /\
      Rmin (T a) (T b) <= mass_weighted_T m T a b <= Rmax (T a) (T b) /\
      mass_weighted_T m T a a = T a /\
      (** the reduced-mass form: T_ab / m_ab = T_a / m_a + T_b / m_b *)
      mass_weighted_T m T a b / m_ab m a b = T a / m a + T b / m b.
Proof.
  intros M m T Pm a b Ha Hb. pose proof (Pm a Ha). pose proof (Pm b Hb). unfold mass_weighted_T, m_ab.
  split; [|split; [|split]].
  - rewrite (Rplus_comm (m a) (m b)). f_equal. ring.
  - set (lo := Rmin (T a) (T b)). set (hi := Rmax (T a) (T b)).
    assert (lo <= T a <= hi) by (split; [apply Rmin_l|apply Rmax_l]).
    assert (lo <= T b <= hi) by (split; [apply Rmin_r|apply Rmax_r]).
    assert (m a * lo <= m a * T b <= m a * hi) by (split; apply Rmult_le_compat_l; lra).
    assert (m b * lo <= m b * T a <= m b * hi) by (split; apply Rmult_le_compat_l; lra).
    split; apply (Rmult_le_reg_r (m a + m b)); try lra; unfold Rdiv; rewrite (Rmult_assoc (_ + _)), Rinv_l by lra; lra.
  - field. lra.
  - field. repeat split; lra.
Qed.
Print Assumptions C95_mass_weighted.
Theorem C95_geometric :
  forall (M : nat) (T : nat -> R), pos_below M T ->
    forall a b, (a < M)%nat -> (b < M)%nat ->
      geometric_mean_T T a b = geometric_mean_T T b a /\
      geometric_mean_T T a b ^ 2 = T a * T b /\ 0 < geometric_mean_T T a b /\
      Rmin (T a) (T b) <= geometric_mean_T T a b <= Rmax (T a) (T b) /\
      geometric_mean_T T a b <= (T a + T b) / 2.
Proof.
  intros M T PT a b Ha Hb. pose proof (PT a Ha) as H1. pose proof (PT b Hb) as H2. unfold geometric_mean_T.
  assert (H3 : 0 < T b * T a) by (apply Rmult_lt_0_compat; lra).
  set (g := sqrt (T b * T a)). assert (Hg : 0 < g) by (apply sqrt_lt_R0; lra).
  assert (Hgg : g * g = T b * T a) by (apply sqrt_sqrt; lra).
  split; [unfold g; f_equal; ring|]. split; [cbn; rewrite Rmult_1_r, Hgg; ring|]. split; [exact Hg|].
  split; [split|].
  - unfold Rmin. destruct (Rle_dec (T a) (T b)); nra.
  - unfold Rmax. destruct (Rle_dec (T a) (T b)); nra.
  - clearbody g. assert (0 <= (T a - T b) ^ 2) by apply pow2_ge_0. apply Rnot_lt_le. intros Hl. assert ((T a + T b) / 2 * ((T a + T b) / 2) < g * g) by (apply Rmult_le_0_lt_compat; lra). nra.
Qed.
Print Assumptions C95_geometric.
Example C95_ex : mass_weighted_T (fun i => INR i + 1) (fun i => 3 * INR i + 1) 0 1 = 2.
Proof. unfold mass_weighted_T. cbn. field. Qed.

(** ** C96: the Ogata quadrature *)
Theorem C96_dpsi_is_the_derivative : forall t : R, is_derive psi t (dpsi t).
Proof.
  intros t.
  assert (Hs : forall x, is_derive sinh x (cosh x)) by (intros x; apply is_derive_Reals, derivable_pt_lim_sinh).
  assert (Hc : forall x, is_derive cosh x (sinh x)) by (intros x; apply is_derive_Reals, derivable_pt_lim_cosh).
  assert (Hpos : forall x, 0 < cosh x) by (intros x; unfold cosh; pose proof (exp_pos x); pose proof (exp_pos (-x)); lra).
  set (u := PI * sinh t / 2).
  assert (Hu : is_derive (fun t => PI * sinh t / 2) t (PI * cosh t / 2)).
  { apply (is_derive_ext (fun t => PI / 2 * sinh t)); [intros x; change (PI / 2 * sinh x = PI * sinh x / 2); field|].
    replace (PI * cosh t / 2) with (PI / 2 * cosh t) by field. apply is_derive_scal. apply Hs. }
  assert (Ht : is_derive tanh u (1 / cosh u ^ 2)).
  { unfold tanh. pose proof (Hpos u). replace (1 / cosh u ^ 2) with ((cosh u * cosh u - sinh u * sinh u) / cosh u ^ 2).
    - apply is_derive_div; [apply Hs|apply Hc|lra].
    - f_equal. pose proof (cosh_sinh_sqr := True). unfold cosh, sinh. pose proof (exp_plus u (-u)) as Hp.
      rewrite Rplus_opp_r, exp_0 in Hp. nra. }
  assert (H2 : cosh (PI * sinh t) = 2 * cosh u ^ 2 - 1 /\ sinh (PI * sinh t) = 2 * sinh u * cosh u).
  { replace (PI * sinh t) with (u + u) by (unfold u; field).
    assert (Hp : exp u * exp (- u) = 1) by (rewrite <- exp_plus, Rplus_opp_r; apply exp_0).
    unfold cosh, sinh. replace (- (u + u)) with (- u + - u) by ring. rewrite !exp_plus.
    set (p := exp u) in *. set (q := exp (- u)) in *. clearbody p q. split; nra. }
  destruct H2 as [Hc2 Hs2]. pose proof (Hpos u) as Hcu.
  replace (dpsi t) with (1 * tanh u + t * (PI * cosh t / 2 * (1 / cosh u ^ 2))).
  - apply (is_derive_ext (fun t => t * tanh (PI * sinh t / 2))); [reflexivity|].
    apply (is_derive_mult (fun t => t) (fun t => tanh (PI * sinh t / 2)) t 1 (PI * cosh t / 2 * (1 / cosh u ^ 2))).
    + exact (is_derive_id (K := R_AbsRing) t).
    + apply (is_derive_comp tanh (fun t => PI * sinh t / 2)); [exact Ht|exact Hu].
    + intros; apply Rmult_comm.
  - unfold dpsi. rewrite Hc2, Hs2. unfold tanh. field. nra.
Qed.
Print Assumptions C96_dpsi_is_the_derivative.
(** the half-integer Bessel functions obey the recurrences that define them *)
Theorem C96_bessel :
  forall x, 0 < x ->
    is_derive bessel_0_5 x (1 / 2 / x * bessel_0_5 x - bessel_3_2 x) /\
    is_derive bessel_0_5 x (bessel_neg0_5 x - 1 / 2 / x * bessel_0_5 x) /\
    bessel_2ndkind_0_5 x = - bessel_neg0_5 x /\
    bessel_0_5 x ^ 2 + bessel_neg0_5 x ^ 2 = 2 / (PI * x).
Proof.
  intros x Hx. pose proof PI_RGT_0 as HP.
  assert (Hq : 0 < 2 / (PI * x)) by (apply Rdiv_lt_0_compat; [lra|apply Rmult_lt_0_compat; lra]).
  assert (Hd : is_derive (fun x => sqrt (2 / (PI * x))) x (- / (2 * x) * sqrt (2 / (PI * x)))).
  { evar_last.
    - apply (is_derive_comp sqrt (fun x => 2 / (PI * x))).
      + apply is_derive_Reals, derivable_pt_lim_sqrt, Hq.
      + instantiate (1 := - (2 / (PI * x ^ 2))). auto_derive; [nra|]. field. nra.
    - unfold scal. cbn. unfold mult. cbn. assert (0 < sqrt (2 / (PI * x))) by now apply sqrt_lt_R0.
      apply (Rmult_eq_reg_r (sqrt (2 / (PI * x)))); [|lra].
      rewrite (Rmult_assoc (- / (2 * x))), sqrt_sqrt by lra. field. repeat split; nra. }
  assert (HJ : is_derive bessel_0_5 x (- / (2 * x) * sqrt (2 / (PI * x)) * sin x + sqrt (2 / (PI * x)) * cos x)).
  { apply (is_derive_mult (fun x => sqrt (2 / (PI * x))) sin x); [exact Hd|apply is_derive_Reals, derivable_pt_lim_sin|].
    intros; apply Rmult_comm. }
  split; [|split; [|split]].
  - evar_last; [exact HJ|]. unfold bessel_0_5, bessel_3_2. field. lra.
  - evar_last; [exact HJ|]. unfold bessel_0_5, bessel_neg0_5. field. lra.
  - unfold bessel_2ndkind_0_5. replace (0.5 * PI) with (PI / 2) by lra. rewrite cos_PI2, sin_PI2. field.
  - unfold bessel_0_5, bessel_neg0_5. rewrite !Rpow_mult_distr. rewrite <- Rmult_plus_distr_l.
    replace (sin x ^ 2 + cos x ^ 2) with 1 by (pose proof (sin2_cos2 x) as H; unfold Rsqr in H; lra).
    rewrite <- Rsqr_pow2, Rsqr_sqrt by lra. ring.
Qed.
Print Assumptions C96_bessel.
(** all weights are one, and the nodes are positive *)
Theorem C96_weights :
  forall i, (1 <= i)%nat -> ogata_weight i = 1 /\ forall h, 0 < h -> 0 < ogata_node h i.
Proof.
  intros i Hi. assert (Hr : 0 < INR i) by (apply lt_0_INR; lia). pose proof PI_RGT_0 as HP.
  assert (Hx : 0 < PI * INR i) by now apply Rmult_lt_0_compat. split.
  - unfold ogata_weight. destruct (C96_bessel (PI * INR i) Hx) as (_ & _ & H & _). rewrite H.
    unfold bessel_neg0_5, bessel_3_2. rewrite (Rmult_comm PI (INR i)), sin_INR_PI.
    assert (Hcos : cos (INR i * PI) <> 0).
    { intros Hc. pose proof (sin2_cos2 (INR i * PI)) as Hs. rewrite sin_INR_PI, Hc in Hs. unfold Rsqr in Hs. lra. }
    assert (0 < sqrt (2 / (PI * (INR i * PI)))).
    { apply sqrt_lt_R0. apply Rdiv_lt_0_compat; [lra|]. apply Rmult_lt_0_compat; lra. }
    field. repeat split; lra.
  - intros h Hh. unfold ogata_node, psi. assert (Ht : 0 < h * INR i) by now apply Rmult_lt_0_compat.
    apply Rdiv_lt_0_compat; [|exact Hh]. apply Rmult_lt_0_compat; [exact HP|].
    assert (Hs : forall x, 0 < x -> 0 < sinh x).
    { intros x H. unfold sinh. pose proof (exp_increasing (- x) x ltac:(lra)). lra. }
    assert (Hc : forall x, 0 < cosh x) by (intros x; unfold cosh; pose proof (exp_pos x); pose proof (exp_pos (-x)); lra).
    apply Rmult_lt_0_compat; [exact Ht|]. unfold tanh. apply Rdiv_lt_0_compat; [|apply Hc].
    apply Hs. apply Rdiv_lt_0_compat; [|lra]. apply Rmult_lt_0_compat; [exact HP|]. now apply Hs.
Qed.
Print Assumptions C96_weights.
Example C96_ex : psi 0 = 0 /\ dpsi 0 = 0.
Proof.
  unfold psi, dpsi. split; [ring|]. rewrite sinh_0, Rmult_0_r, sinh_0. unfold Rdiv. ring.
Qed.
