(** Facts about sums, the sine transform and the Ornstein-Zernike solvers. *)
From Coq Require Import Reals Lra Psatz List Lia Arith Bool.
From Coquelicot Require Import Coquelicot.
Import ListNotations.
From Verif Require Import M_Const M_Helpers L_Helpers M_HNC.
Open Scope R_scope.

(** ** Finite sums *)
Lemma nsum_ext n f g : (forall i, (i < n)%nat -> f i = g i) -> nsum n f = nsum n g.
Proof. induction n as [|n IH]; intros H; cbn; [reflexivity|]. rewrite IH, H by (intros; auto). reflexivity. Qed.
Lemma nsum_0 n f : (forall i, (i < n)%nat -> f i = 0) -> nsum n f = 0.
Proof. induction n as [|n IH]; intros H; cbn; [reflexivity|]. rewrite IH, H by auto. lra. Qed.
Lemma nsum_plus n f g : nsum n (fun i => f i + g i) = nsum n f + nsum n g.
Proof. induction n as [|n IH]; cbn; [lra|]. rewrite IH. ring. Qed.
Lemma nsum_minus n f g : nsum n (fun i => f i - g i) = nsum n f - nsum n g.
Proof. induction n as [|n IH]; cbn; [lra|]. rewrite IH. ring. Qed.
Lemma nsum_scal n x f : nsum n (fun i => x * f i) = x * nsum n f.
Proof. induction n as [|n IH]; cbn; [ring|]. rewrite IH. ring. Qed.
Lemma nsum_scal_r n x f : nsum n (fun i => f i * x) = nsum n f * x.
Proof. induction n as [|n IH]; cbn; [ring|]. rewrite IH. ring. Qed.
Lemma nsum_swap n m f : nsum n (fun i => nsum m (fun j => f i j)) = nsum m (fun j => nsum n (fun i => f i j)).
Proof.
  induction n as [|n IH]; cbn; [symmetry; now apply nsum_0|]. rewrite IH. now rewrite <- nsum_plus.
Qed.
Lemma nsum_single n f i : (i < n)%nat -> (forall j, (j < n)%nat -> j <> i -> f j = 0) -> nsum n f = f i.
Proof.
  induction n as [|n IH]; intros Hi H; [lia|]. cbn. destruct (Nat.eq_dec i n) as [->|Hn].
  - rewrite nsum_0; [lra|]. intros j Hj. apply H; lia.
  - rewrite IH by (try lia; intros; apply H; lia). rewrite (H n) by lia. lra.
Qed.
Lemma nsum_sumn n f : nsum n f = sumn n f.
Proof. induction n as [|n IH]; cbn; [reflexivity|]. now rewrite IH. Qed.
Lemma nsum_nonneg n f : (forall i, (i < n)%nat -> 0 <= f i) -> 0 <= nsum n f.
Proof. induction n as [|n IH]; intros H; cbn; [lra|]. pose proof (H n ltac:(lia)). pose proof (IH ltac:(auto)). lra. Qed.
Lemma nsum_const n x : nsum n (fun _ => x) = INR n * x.
Proof. induction n as [|n IH]; cbn [nsum]; [cbn; ring|]. rewrite IH, S_INR. ring. Qed.
Lemma nsum_shift n f : nsum (S n) f = f O + nsum n (fun i => f (S i)).
Proof. induction n as [|n IH]; [cbn; ring|]. cbn [nsum] in *. rewrite IH. ring. Qed.
Lemma nsum_rev n f : nsum n f = nsum n (fun i => f (n - 1 - i)%nat).
Proof.
  induction n as [|n IH]; [reflexivity|]. rewrite (nsum_shift n (fun i => f (S n - 1 - i)%nat)).
  cbn [nsum]. rewrite IH. replace (S n - 1 - 0)%nat with n by lia.
  rewrite Rplus_comm. f_equal. apply nsum_ext. intros i Hi. f_equal. lia.
Qed.
Lemma nsum_pairs M f : nsum (2 * M) f = nsum M (fun j => f (2 * j)%nat + f (2 * j + 1)%nat).
Proof.
  induction M as [|M IH]; [reflexivity|]. replace (2 * S M)%nat with (S (S (2 * M))) by lia.
  cbn [nsum]. rewrite IH. replace (2 * M + 1)%nat with (S (2 * M)) by lia. ring.
Qed.
(** indices covered from both ends *)
Lemma nsum_ends M f : nsum (2 * M) f = nsum M (fun j => f (2 * j)%nat + f (2 * M - 1 - 2 * j)%nat).
Proof.
  rewrite nsum_pairs, !nsum_plus. f_equal. rewrite nsum_rev. apply nsum_ext. intros j Hj. f_equal. lia.
Qed.

(** ** The sine transform *)
Definition dst_kernel (N j k : nat) : R := sin (PI * (2 * INR j + 1) * (2 * INR k + 1) / (4 * INR N)).

Lemma csum_fst n f : fst (csum n f) = nsum n (fun i => fst (f i)).
Proof. induction n as [|n IH]; cbn; [reflexivity|]. now rewrite IH. Qed.
Lemma csum_snd n f : snd (csum n f) = nsum n (fun i => snd (f i)).
Proof. induction n as [|n IH]; cbn; [reflexivity|]. now rewrite IH. Qed.
Lemma cis_plus s t : Cmult (cis s) (cis t) = cis (s + t).
Proof. unfold cis, Cmult. cbn. rewrite cos_plus, sin_plus. f_equal; ring. Qed.
Lemma csum_mult_r n f z : Cmult (csum n f) z = csum n (fun i => Cmult (f i) z).
Proof.
  induction n as [|n IH]; cbn; [apply Cmult_0_l|]. rewrite Cmult_plus_distr_r, IH. reflexivity.
Qed.
Lemma csum_ext n f g : (forall i, (i < n)%nat -> f i = g i) -> csum n f = csum n g.
Proof. induction n as [|n IH]; intros H; cbn; [reflexivity|]. rewrite IH, H by auto. reflexivity. Qed.

Section Kernel.
Variable M : nat.
Hypothesis HM : (0 < M)%nat.
Let N := (2 * M)%nat.
Lemma N_pos : 0 < INR N.
Proof. apply lt_0_INR. unfold N. lia. Qed.
(** the combined phase *)
Lemma phase i j :
  - PI * (INR j + 1 / 8) / INR N + - (2 * PI * INR j * INR i / INR M) + - PI * (INR i + 1 / 8) / INR N
  = - (PI * (4 * INR i + 1) * (4 * INR j + 1) / (4 * INR N)).
Proof.
  assert (H : 0 < INR M) by (apply lt_0_INR; lia).
  unfold N. rewrite mult_INR. cbn [INR]. field. lra.
Qed.
Lemma dst4_Y (f : nat -> R) i :
  Cmult (fft M (fun j => Cmult (f (N - 1 - 2 * j)%nat, f (N - 1 - (N - 1 - 2 * j))%nat)
                            (cis (- PI * (INR j + 1 / 8) / INR N))) i)
        (cis (- PI * (INR i + 1 / 8) / INR N))
  = csum M (fun j => Cmult (f (N - 1 - 2 * j)%nat, f (2 * j)%nat)
        (cis (- (PI * (4 * INR i + 1) * (4 * INR j + 1) / (4 * INR N))))).
Proof.
  unfold fft. rewrite csum_mult_r. apply csum_ext. intros j Hj.
  replace (N - 1 - (N - 1 - 2 * j))%nat with (2 * j)%nat by (unfold N; lia).
  rewrite <- !Cmult_assoc, !cis_plus. f_equal. rewrite <- (phase i j). f_equal. ring.
Qed.
Lemma sin_shift_even n x : sin (PI / 2 * (4 * INR n + 1) - x) = cos x.
Proof.
  replace (PI / 2 * (4 * INR n + 1) - x) with ((PI / 2 - x) + 2 * INR n * PI) by field.
  rewrite sin_period. now rewrite sin_shift.
Qed.
Lemma cos_shift_even n x : cos (PI / 2 * (4 * INR n + 1) - x) = sin x.
Proof.
  replace (PI / 2 * (4 * INR n + 1) - x) with ((PI / 2 - x) + 2 * INR n * PI) by field.
  rewrite cos_period. now rewrite cos_shift.
Qed.
Lemma sin_shift_odd n x : sin (PI / 2 * (4 * INR n + 3) - x) = - cos x.
Proof.
  replace (PI / 2 * (4 * INR n + 3) - x) with ((PI / 2 - x + PI) + 2 * INR n * PI) by field.
  rewrite sin_period, neg_sin, sin_shift. reflexivity.
Qed.
Lemma INR_rev j : (j < M)%nat -> INR (N - 1 - 2 * j) = INR N - 1 - 2 * INR j.
Proof. intros H. unfold N in *. rewrite !minus_INR by lia. rewrite !mult_INR. cbn [INR]. ring. Qed.

(** closed form of the fast algorithm *)
Lemma dst4_spec (f : nat -> R) (k : nat) : (k < N)%nat ->
  dst4 N f k = nsum N (fun j => f j * dst_kernel N j k).
Proof.
  intros Hk. pose proof N_pos as HN.
  unfold dst4. assert (E : Nat.div N 2 = M).
  { unfold N. rewrite Nat.mul_comm. apply Nat.div_mul. lia. }
  rewrite E. cbv zeta.
  assert (Hi : (k / 2 < M)%nat).
  { apply Nat.div_lt_upper_bound; [lia|]. exact Hk. }
  apply Nat.ltb_lt in Hi. rewrite Hi. apply Nat.ltb_lt in Hi.
  change (nsum N) with (nsum (2 * M)). rewrite nsum_ends. change (2 * M)%nat with N.
  destruct (Nat.even k) eqn:Ek.
  - apply Nat.even_spec in Ek. destruct Ek as [i ->]. rewrite (Nat.mul_comm 2 i), Nat.div_mul in * by lia.
    rewrite dst4_Y, csum_fst. apply nsum_ext. intros j Hj. unfold cis, Cmult; cbn [fst snd].
    rewrite cos_neg, sin_neg. unfold dst_kernel.
    rewrite INR_rev by assumption. rewrite !mult_INR. cbn [INR].
    set (ph := PI * (4 * INR i + 1) * (4 * INR j + 1) / (4 * INR N)).
    replace (PI * (2 * ((1 + 1) * INR j) + 1) * (2 * (INR i * (1 + 1)) + 1) / (4 * INR N)) with ph
      by (unfold ph; field; lra).
    replace (PI * (2 * (INR N - 1 - 2 * INR j) + 1) * (2 * (INR i * (1 + 1)) + 1) / (4 * INR N))
      with (PI / 2 * (4 * INR i + 1) - ph) by (unfold ph; field; lra).
    rewrite sin_shift_even. ring.
  - assert (Ok : Nat.odd k = true) by (unfold Nat.odd; now rewrite Ek).
    apply Nat.odd_spec in Ok. destruct Ok as [i ->].
    assert (Ei : ((2 * i + 1) / 2 = i)%nat).
    { symmetry. apply Nat.div_unique with 1%nat; lia. }
    rewrite Ei in *.
    rewrite dst4_Y, csum_snd. match goal with |- - ?x * -1 = _ => replace (- x * -1) with x by ring end.
    apply nsum_ext. intros j Hj. unfold cis, Cmult; cbn [fst snd].
    rewrite cos_neg, sin_neg. unfold dst_kernel. rewrite INR_rev by assumption.
    set (ph := PI * (2 * INR (2 * i + 1) + 1) * (4 * INR j + 1) / (4 * INR N)).
    assert (Ec : PI * (4 * INR (M - 1 - i) + 1) * (4 * INR j + 1) / (4 * INR N)
                 = PI / 2 * (4 * INR j + 1) - ph).
    { unfold ph. rewrite !minus_INR, plus_INR, mult_INR by lia.
      assert (HMN : INR M = INR N / 2) by (unfold N; rewrite mult_INR; cbn [INR]; field).
      rewrite HMN. cbn [INR]. field. lra. }
    rewrite Ec, sin_shift_even, cos_shift_even.
    rewrite (mult_INR 2 j).
    replace (PI * (2 * (INR 2 * INR j) + 1) * (2 * INR (2 * i + 1) + 1) / (4 * INR N)) with ph
      by (unfold ph; cbn [INR]; field; lra).
    replace (PI * (2 * (INR N - 1 - 2 * INR j) + 1) * (2 * INR (2 * i + 1) + 1) / (4 * INR N))
      with (PI / 2 * (4 * INR i + 3) - ph)
      by (unfold ph; rewrite plus_INR, mult_INR; cbn [INR]; field; lra).
    rewrite sin_shift_odd. ring.
Qed.
End Kernel.

(** ** Orthogonality of the kernel *)
Lemma dirichlet N a : 2 * sin a * nsum N (fun k => cos ((2 * INR k + 1) * a)) = sin (2 * INR N * a).
Proof.
  induction N as [|N IH].
  - cbn. replace (2 * 0 * a) with 0 by ring. rewrite sin_0. ring.
  - cbn [nsum]. rewrite Rmult_plus_distr_l, IH, S_INR.
    replace (2 * (INR N + 1) * a) with ((2 * INR N + 1) * a + a) by ring.
    replace (2 * INR N * a) with ((2 * INR N + 1) * a - a) by ring.
    rewrite sin_plus, sin_minus. ring.
Qed.
Lemma sin_INR_PI d : sin (INR d * PI) = 0.
Proof.
  induction d as [|d IH]; [cbn; rewrite Rmult_0_l; apply sin_0|].
  rewrite S_INR. replace ((INR d + 1) * PI) with (INR d * PI + PI) by ring. rewrite neg_sin, IH. ring.
Qed.
Lemma cos_sum_0 N d : (0 < d < 2 * N)%nat ->
  nsum N (fun k => cos ((2 * INR k + 1) * (INR d * PI / (2 * INR N)))) = 0.
Proof.
  intros Hd. assert (HN : 0 < INR N) by (apply lt_0_INR; lia).
  set (a := INR d * PI / (2 * INR N)).
  pose proof (dirichlet N a) as H.
  replace (2 * INR N * a) with (INR d * PI) in H by (unfold a; field; lra).
  rewrite sin_INR_PI in H. apply Rmult_integral in H. destruct H as [H|H]; [|exact H].
  exfalso. assert (0 < sin a); [|lra].
  assert (H1 : 0 < INR d) by (apply lt_0_INR; lia).
  assert (H2 : INR d < 2 * INR N).
  { replace (2 * INR N) with (INR (2 * N)) by (rewrite mult_INR; cbn; ring). apply lt_INR. lia. }
  pose proof PI_RGT_0 as HPI. unfold a. apply sin_gt_0.
  - apply Rdiv_lt_0_compat; [now apply Rmult_lt_0_compat|lra].
  - apply (Rmult_lt_reg_r (2 * INR N)); [lra|].
    replace (INR d * PI / (2 * INR N) * (2 * INR N)) with (INR d * PI) by (field; lra).
    rewrite (Rmult_comm PI). now apply Rmult_lt_compat_r.
Qed.
Lemma kernel_product N j l k : (0 < N)%nat -> (l <= j)%nat ->
  dst_kernel N j k * dst_kernel N l k
  = / 2 * (cos ((2 * INR k + 1) * (INR (j - l) * PI / (2 * INR N)))
           - cos ((2 * INR k + 1) * (INR (j + l + 1) * PI / (2 * INR N)))).
Proof.
  intros HN Hl. assert (HN' : 0 < INR N) by (apply lt_0_INR; lia). unfold dst_kernel.
  rewrite minus_INR by lia. rewrite !plus_INR. cbn [INR].
  set (A := PI * (2 * INR j + 1) * (2 * INR k + 1) / (4 * INR N)).
  set (B := PI * (2 * INR l + 1) * (2 * INR k + 1) / (4 * INR N)).
  replace ((2 * INR k + 1) * ((INR j - INR l) * PI / (2 * INR N))) with (A - B) by (unfold A, B; field; lra).
  replace ((2 * INR k + 1) * ((INR j + INR l + 1) * PI / (2 * INR N))) with (A + B) by (unfold A, B; field; lra).
  rewrite cos_plus, cos_minus. field.
Qed.
Lemma kernel_orth_le N j l : (j < N)%nat -> (l <= j)%nat ->
  nsum N (fun k => dst_kernel N j k * dst_kernel N l k) = (if Nat.eqb j l then INR N / 2 else 0).
Proof.
  intros Hj Hl. rewrite (nsum_ext _ _ _ (fun k _ => kernel_product N j l k ltac:(lia) Hl)).
  rewrite nsum_scal, nsum_minus, (cos_sum_0 N (j + l + 1)) by lia.
  destruct (Nat.eqb_spec j l) as [->|Hne].
  - rewrite Nat.sub_diag. rewrite (nsum_ext N _ (fun _ => 1)).
    + rewrite nsum_const. field.
    + intros k _. cbn [INR]. replace ((2 * INR k + 1) * (0 * PI / (2 * INR N))) with 0.
      * apply cos_0.
      * assert (0 < INR N) by (apply lt_0_INR; lia). field. lra.
  - rewrite cos_sum_0 by lia. lra.
Qed.
Lemma kernel_orth N j l : (j < N)%nat -> (l < N)%nat ->
  nsum N (fun k => dst_kernel N j k * dst_kernel N l k) = (if Nat.eqb j l then INR N / 2 else 0).
Proof.
  intros Hj Hl. destruct (Nat.le_ge_cases l j) as [H|H]; [now apply kernel_orth_le|].
  rewrite Nat.eqb_sym, <- (kernel_orth_le N l j) by assumption.
  apply nsum_ext. intros; ring.
Qed.
Lemma kernel_sym N j k : dst_kernel N j k = dst_kernel N k j.
Proof. unfold dst_kernel. f_equal. unfold Rdiv. ring. Qed.
(** the matrix of sines squares to N/2 *)
Lemma kernel_involution N f l : (l < N)%nat ->
  nsum N (fun k => nsum N (fun j => f j * dst_kernel N j k) * dst_kernel N k l) = INR N / 2 * f l.
Proof.
  intros Hl. rewrite (nsum_ext N _ (fun k => nsum N (fun j => f j * (dst_kernel N j k * dst_kernel N l k)))).
  2:{ intros k Hk. rewrite <- nsum_scal_r. apply nsum_ext. intros j Hj. rewrite (kernel_sym N k l). ring. }
  rewrite nsum_swap. rewrite (nsum_ext N _ (fun j => f j * (if Nat.eqb j l then INR N / 2 else 0))).
  2:{ intros j Hj. rewrite nsum_scal, kernel_orth by assumption. reflexivity. }
  rewrite (nsum_single N _ l Hl).
  - rewrite Nat.eqb_refl. ring.
  - intros j Hj Hne. apply Nat.eqb_neq in Hne. rewrite Hne. ring.
Qed.

Lemma dst4_ext N f g k : (forall j, (j < N)%nat -> f j = g j) -> Nat.even N = true -> (k < N)%nat ->
  dst4 N f k = dst4 N g k.
Proof.
  intros H He Hk. apply Nat.even_spec in He. destruct He as [M ->]. rewrite !dst4_spec by lia.
  apply nsum_ext. intros j Hj. now rewrite H.
Qed.

(** ** Matrices *)
Section Matrices.
Variable M : nat.
Definition mv (A : nat -> nat -> R) (v : nat -> R) (i : nat) : R := nsum M (fun j => A i j * v j).
(** no non-trivial solution of the homogeneous system *)
Definition regular (A : nat -> nat -> R) : Prop :=
  forall v, (forall i, (i < M)%nat -> mv A v i = 0) -> forall i, (i < M)%nat -> v i = 0.

(** multicomponent Ornstein-Zernike relation with densities [n] *)
Definition OZ (n : nat -> R) (c h : nat -> nat -> R) : Prop :=
  forall a b, (a < M)%nat -> (b < M)%nat ->
    h a b = c a b + nsum M (fun s => c a s * n s * h s b).
Definition sym2 (c : nat -> nat -> R) : Prop := forall a b, (a < M)%nat -> (b < M)%nat -> c a b = c b a.
(** the matrix 1 - c n *)
Definition oz_matrix (n : nat -> R) (c : nat -> nat -> R) (i j : nat) : R := delta i j - c i j * n j.

Lemma delta_sum i f : (i < M)%nat -> nsum M (fun j => delta i j * f j) = f i.
Proof.
  intros Hi. rewrite (nsum_single M _ i Hi).
  - unfold delta. rewrite Nat.eqb_refl. ring.
  - intros j Hj Hne. unfold delta. assert (E : Nat.eqb i j = false) by (apply Nat.eqb_neq; auto). rewrite E. ring.
Qed.
Lemma oz_mv n c v i : (i < M)%nat -> mv (oz_matrix n c) v i = v i - nsum M (fun s => c i s * n s * v s).
Proof.
  intros Hi. unfold mv, oz_matrix. rewrite <- (delta_sum i v Hi), <- nsum_minus.
  apply nsum_ext. intros; ring.
Qed.

(** A solution of the relation is symmetric when c is. *)
Lemma oz_symmetric n c h : sym2 c -> regular (oz_matrix n c) -> OZ n c h -> sym2 h.
Proof.
  intros Hc Hreg Hoz.
  (* W = (1 - c n) h^T - c *)
  set (W := fun a b => h b a - c a b - nsum M (fun s => c a s * n s * h b s)).
  assert (HW : forall a b, (a < M)%nat -> (b < M)%nat -> W a b = 0).
  { intros a b Ha Hb. refine (Hreg (fun j => W a j) _ b Hb). intros i Hi. rewrite oz_mv by assumption.
    (* W a i - sum_s c_is n_s W a s *)
    unfold W.
    rewrite (nsum_ext M (fun s => c i s * n s * (h s a - c a s - nsum M (fun t => c a t * n t * h s t)))
               (fun s => c i s * n s * h s a - c i s * n s * c a s
                         - nsum M (fun t => c a t * n t * (c i s * n s * h s t)))).
    2:{ intros s Hs. rewrite !Rmult_minus_distr_l. f_equal. rewrite <- nsum_scal. apply nsum_ext. intros; ring. }
    rewrite !nsum_minus. rewrite nsum_swap.
    rewrite (nsum_ext M (fun t => nsum M (fun s => c a t * n t * (c i s * n s * h s t)))
               (fun t => c a t * n t * (h i t - c i t))).
    2:{ intros t Ht. rewrite nsum_scal, (Hoz i t Hi Ht). ring. }
    rewrite (Hoz i a Hi Ha). rewrite (Hc a i Ha Hi).
    rewrite (nsum_ext M (fun t => c a t * n t * (h i t - c i t))
               (fun t => c a t * n t * h i t - c i t * n t * c a t)) by (intros; ring).
    rewrite nsum_minus. ring. }
  intros a b Ha Hb.
  (* h^T - h solves the homogeneous system column by column *)
  assert (E : h b a - h a b = 0); [|lra].
  refine (Hreg (fun i => h b i - h i b) _ a Ha). intros i Hi. rewrite oz_mv by assumption.
  pose proof (HW i b Hi Hb) as H1. unfold W in H1. pose proof (Hoz i b Hi Hb) as H2.
  rewrite (nsum_ext M _ (fun s => c i s * n s * h b s - c i s * n s * h s b)) by (intros; ring).
  rewrite nsum_minus. lra.
Qed.
(** ... and unique *)
Lemma oz_unique n c h h' : regular (oz_matrix n c) -> OZ n c h -> OZ n c h' ->
  forall a b, (a < M)%nat -> (b < M)%nat -> h a b = h' a b.
Proof.
  intros Hreg H1 H2 a b Ha Hb. assert (E : h a b - h' a b = 0); [|lra].
  refine (Hreg (fun i => h i b - h' i b) _ a Ha). intros i Hi. rewrite oz_mv by assumption.
  rewrite (nsum_ext M _ (fun s => c i s * n s * h s b - c i s * n s * h' s b)) by (intros; ring).
  rewrite nsum_minus. rewrite (H1 i b Hi Hb), (H2 i b Hi Hb) at 1. ring.
Qed.
End Matrices.

(** ** cramer_solve with a matrix on the right *)
Lemma nth_tab M (v : nat -> R) i : (i < M)%nat -> nth i (map v (seq 0 M)) 0 = v i.
Proof.
  intros H. rewrite (nth_indep _ 0 (v O)) by (rewrite map_length, seq_length; exact H).
  rewrite map_nth, seq_nth by exact H. reflexivity.
Qed.
Lemma regular_det M A : (1 <= M <= 4)%nat -> det M A <> 0 -> regular M A.
Proof.
  intros HM Hd v Hv i Hi.
  assert (S1 : solves M A (fun _ => 0) (map v (seq 0 M))).
  { split; [now rewrite map_length, seq_length|]. intros k Hk. rewrite <- nsum_sumn.
    transitivity (mv M A v k); [|exact (Hv k Hk)]. unfold mv. apply nsum_ext. intros j Hj. now rewrite nth_tab. }
  assert (S2 : solves M A (fun _ => 0) (repeat 0 M)).
  { split; [apply repeat_length|]. intros k Hk. rewrite <- nsum_sumn. apply nsum_0. intros j Hj.
    rewrite nth_repeat. ring. }
  pose proof (cramer_unique (fun _ _ _ => None) M M A _ _ HM (le_n _) Hd S1) as E1.
  pose proof (cramer_unique (fun _ _ _ => None) M M A _ _ HM (le_n _) Hd S2) as E2.
  rewrite E1 in E2. injection E2 as E. rewrite <- (nth_tab M v i Hi), E. apply nth_repeat.
Qed.
Lemma sequence_some n f : (forall i, (i < n)%nat -> exists x, f i = Some x) ->
  exists X, sequence n f = Some X /\ length X = n /\ forall i, (i < n)%nat -> f i = Some (nth i X []).
Proof.
  induction n as [|n IH]; intros H; [exists []; split; [reflexivity|split; [reflexivity|lia]]|].
  destruct IH as (X & E & Hl & HX); [intros; apply H; lia|].
  destruct (H n ltac:(lia)) as [x Hx]. exists (X ++ [x]). cbn [sequence]. rewrite E, Hx.
  split; [reflexivity|]. split; [rewrite app_length; cbn; lia|]. intros i Hi.
  destruct (Nat.eq_dec i n) as [->|Hn].
  - rewrite app_nth2 by lia. rewrite Hl, Nat.sub_diag. exact Hx.
  - rewrite app_nth1 by lia. apply HX. lia.
Qed.
Lemma sequence_spec n f X : sequence n f = Some X ->
  length X = n /\ forall i, (i < n)%nat -> f i = Some (nth i X []).
Proof.
  revert X. induction n as [|n IH]; intros X E; cbn in E.
  - injection E as <-. split; [reflexivity|lia].
  - destruct (sequence n f) as [Y|] eqn:EY; [|discriminate]. destruct (f n) as [x|] eqn:Ex; [|discriminate].
    injection E as <-. destruct (IH Y eq_refl) as [Hl HY].
    split; [rewrite app_length; cbn; lia|]. intros i Hi. destruct (Nat.eq_dec i n) as [->|Hn].
    + rewrite app_nth2 by lia. rewrite Hl, Nat.sub_diag. exact Ex.
    + rewrite app_nth1 by lia. apply HY. lia.
Qed.
Lemma ozr_A M n c i j : (j < M)%nat ->
  delta i j - nsum M (fun s => c i s * (delta s j * n j)) = oz_matrix n c i j.
Proof.
  intros Hj. unfold oz_matrix. f_equal. rewrite (nsum_single M _ j Hj).
  - unfold delta. rewrite Nat.eqb_refl. ring.
  - intros s Hs Hne. unfold delta. apply Nat.eqb_neq in Hne. rewrite Hne. ring.
Qed.
Lemma det_ext n A B : (forall i j, (i < n)%nat -> (j < n)%nat -> A i j = B i j) -> det n A = det n B.
Proof.
  revert A B. induction n as [|n IH]; intros A B H; [reflexivity|].
  change (det (S n) A) with (sumn (S n) (fun j => (-1) ^ j * A O j * det n (minor A j))).
  change (det (S n) B) with (sumn (S n) (fun j => (-1) ^ j * B O j * det n (minor B j))).
  rewrite <- !nsum_sumn. apply nsum_ext. intros j Hj. rewrite H by lia. f_equal.
  apply IH. intros r c Hr Hc. unfold minor. apply H; [lia|]. destruct (Nat.ltb c j); lia.
Qed.

(** Small systems: the rows of the result solve with the rows on the right. *)
Lemma ozr_rows solve N_max M n c H : (1 <= M <= 4)%nat -> (M <= N_max)%nat ->
  ozr solve N_max M n c = Some H ->
  det M (oz_matrix n c) <> 0 /\
  forall i j, (i < M)%nat -> (j < M)%nat -> mv M (oz_matrix n c) (fun k => H i k) j = c i j.
Proof.
  intros HM Hm. unfold ozr, cramer_solve_matrix.
  destruct (Nat.ltb_spec N_max M); [lia|]. destruct (Nat.eqb_spec M 0); [lia|].
  destruct (Nat.ltb_spec 4 M); [lia|]. cbn [orb].
  set (A := fun i j => delta i j - nsum M (fun s => c i s * (delta s j * n j))).
  assert (HA : forall i j, (i < M)%nat -> (j < M)%nat -> A i j = oz_matrix n c i j).
  { intros i j _ Hj. now apply ozr_A. }
  destruct (sequence _ _) as [X|] eqn:E; [|discriminate]. intros EH. assert (EH' : H = (fun i j => entry X i j)) by congruence.
  subst H. clear EH. destruct (sequence_spec _ _ _ E) as [Hl HX].
  assert (Hd : det M A <> 0).
  { intros Hd. pose proof (HX O ltac:(lia)) as E0. rewrite cramer_singular in E0 by assumption. discriminate. }
  split; [rewrite <- (det_ext M A) by assumption; exact Hd|]. intros i j Hi Hj.
  pose proof (HX i Hi) as Ei. destruct (cramer_all solve N_max M A (fun j => c i j) HM Hm Hd) as (x & Ex & _ & Hs).
  assert (Exi : x = nth i X []) by congruence. subst x.
  rewrite <- (Hs j Hj). rewrite <- nsum_sumn. unfold mv. apply nsum_ext. intros k Hk.
  rewrite HA by assumption. reflexivity.
Qed.
Lemma ozr_total solve N_max M n c : (1 <= M <= 4)%nat -> (M <= N_max)%nat -> det M (oz_matrix n c) <> 0 ->
  exists H, ozr solve N_max M n c = Some H.
Proof.
  intros HM Hm Hd. unfold ozr, cramer_solve_matrix.
  destruct (Nat.ltb_spec N_max M); [lia|]. destruct (Nat.eqb_spec M 0); [lia|].
  destruct (Nat.ltb_spec 4 M); [lia|]. cbn [orb].
  set (A := fun i j => delta i j - nsum M (fun s => c i s * (delta s j * n j))).
  assert (Hd' : det M A <> 0).
  { rewrite (det_ext M A (oz_matrix n c)); [exact Hd|]. intros i j _ Hj. now apply ozr_A. }
  destruct (sequence_some M (fun i => cramer_solve solve N_max M A (fun j => c i j))) as (X & E & _).
  { intros i Hi. destruct (cramer_all solve N_max M A (fun j => c i j) HM Hm Hd') as (x & Ex & _). now exists x. }
  rewrite E. eauto.
Qed.
(** Symmetric c: the Ornstein-Zernike relation, whatever the branch. *)
Lemma ozr_small solve N_max M n c H : (1 <= M <= 4)%nat -> (M <= N_max)%nat -> sym2 M c ->
  ozr solve N_max M n c = Some H -> OZ M n c H /\ sym2 M H /\ regular M (oz_matrix n c).
Proof.
  intros HM Hm Hc E. destruct (ozr_rows solve N_max M n c H HM Hm E) as [Hd Hrow].
  pose proof (regular_det M _ HM Hd) as Hreg.
  assert (HT : OZ M n c (fun a b => H b a)).
  { intros a b Ha Hb. pose proof (Hrow b a Hb Ha) as Hr. rewrite oz_mv in Hr by assumption.
    rewrite (Hc a b Ha Hb). lra. }
  pose proof (oz_symmetric M n c _ Hc Hreg HT) as HS.
  split; [|split; [|exact Hreg]].
  - intros a b Ha Hb. rewrite (HS b a Hb Ha). rewrite (HT a b Ha Hb). f_equal. apply nsum_ext. intros s Hs.
    now rewrite (HS s b Hs Hb).
  - intros a b Ha Hb. now rewrite (HS a b Ha Hb).
Qed.
