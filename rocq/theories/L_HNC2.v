(** Facts about the three-dimensional transforms and the iteration. *)
From Coq Require Import Reals Lra Psatz List Lia Arith Bool.
From Coquelicot Require Import Coquelicot.
Import ListNotations.
From Verif Require Import M_Const M_Helpers L_Helpers M_HNC L_HNC.
Open Scope R_scope.

(** ** The radial transforms *)
(** A radial grid: positive radii, first step positive, an even number of points. *)
Definition good_grid (N : nat) (r : nat -> R) : Prop :=
  Nat.even N = true /\ (0 < N)%nat /\ (forall j, (j < N)%nat -> 0 < r j) /\ r 0%nat < r 1%nat.
Section Grid.
Variable N : nat.
Variable r : nat -> R.
Hypothesis G : good_grid N r.
Lemma grid_N : 0 < INR N.
Proof. destruct G as (_ & H & _). now apply lt_0_INR. Qed.
Lemma k_step_pos : 0 < k_step N r.
Proof.
  destruct G as (_ & HN & _ & Hd). unfold k_step. pose proof grid_N. pose proof PI_RGT_0.
  apply Rdiv_lt_0_compat; [assumption|]. apply Rmult_lt_0_compat; lra.
Qed.
Lemma k_grid_pos m : 0 < k_grid N r m.
Proof.
  destruct G as (_ & HN & Hr & Hd). unfold k_grid. pose proof k_step_pos. pose proof PI_RGT_0.
  pose proof (Hr (N - 1)%nat ltac:(lia)). pose proof (pos_INR m).
  assert (0 < PI / r (N - 1)%nat) by now apply Rdiv_lt_0_compat.
  assert (0 <= INR m * k_step N r) by (apply Rmult_le_pos; lra). lra.
Qed.
Lemma k_grid_step : k_grid N r 1 - k_grid N r 0 = k_step N r.
Proof. unfold k_grid. cbn [INR]. ring. Qed.

(** what the forward and backward transforms compute *)
Definition forward (f : nat -> R) (m : nat) : R :=
  4 * PI * (r 1%nat - r 0%nat) / k_grid N r m * nsum N (fun j => r j * f j * dst_kernel N j m).
Definition backward (F : nat -> R) (j : nat) : R :=
  4 * PI * k_step N r / r j * nsum N (fun m => k_grid N r m * F m * dst_kernel N m j) / (2 * PI) ^ 3.

Lemma forward_model f m : (m < N)%nat -> fourier_transform_sine N (k_grid N r) r f m = forward f m.
Proof.
  intros Hm. destruct G as (He & HN & _). apply Nat.even_spec in He. destruct He as [M EM].
  unfold fourier_transform_sine, forward. rewrite EM, dst4_spec by lia. unfold Rdiv. ring.
Qed.
Lemma backward_model F j : (j < N)%nat -> fourier_transform_sine N r (k_grid N r) F j / (2 * PI) ^ 3 = backward F j.
Proof.
  intros Hm. unfold backward. rewrite <- k_grid_step. destruct G as (He & HN & _).
  apply Nat.even_spec in He. destruct He as [M EM].
  unfold fourier_transform_sine. rewrite EM, dst4_spec by lia. unfold Rdiv. ring.
Qed.
Lemma forward_ext f g m : (forall j, (j < N)%nat -> f j = g j) -> forward f m = forward g m.
Proof. intros H. unfold forward. f_equal. apply nsum_ext. intros. now rewrite H. Qed.
Lemma backward_ext f g m : (forall j, (j < N)%nat -> f j = g j) -> backward f m = backward g m.
Proof. intros H. unfold backward. f_equal. f_equal. apply nsum_ext. intros. now rewrite H. Qed.
Lemma forward_plus f g m : forward (fun j => f j + g j) m = forward f m + forward g m.
Proof.
  unfold forward. rewrite <- Rmult_plus_distr_l, <- nsum_plus. f_equal. apply nsum_ext. intros; ring.
Qed.
Lemma forward_scal x f m : forward (fun j => x * f j) m = x * forward f m.
Proof.
  unfold forward. rewrite (nsum_ext N _ (fun j => x * (r j * f j * dst_kernel N j m))) by (intros; ring).
  rewrite nsum_scal. ring.
Qed.
Lemma backward_forward f j : (j < N)%nat -> backward (forward f) j = f j.
Proof.
  intros Hj. unfold backward, forward. pose proof G as (_ & HN & Hr & Hd).
  rewrite (nsum_ext N _ (fun m => 4 * PI * (r 1%nat - r 0%nat) *
     (nsum N (fun i => r i * f i * dst_kernel N i m) * dst_kernel N m j))).
  2:{ intros m Hm. pose proof (k_grid_pos m). field. lra. }
  rewrite nsum_scal, (kernel_involution N (fun i => r i * f i) j Hj).
  pose proof grid_N. pose proof PI_RGT_0. pose proof (Hr j Hj). unfold k_step. field. repeat split; lra.
Qed.
Lemma forward_backward F m : (m < N)%nat -> forward (backward F) m = F m.
Proof.
  intros Hm. unfold backward, forward. pose proof G as (_ & HN & Hr & Hd).
  pose proof PI_RGT_0 as HPI.
  rewrite (nsum_ext N _ (fun j => 4 * PI * k_step N r / (2 * PI) ^ 3 *
     (nsum N (fun i => k_grid N r i * F i * dst_kernel N i j) * dst_kernel N j m))).
  2:{ intros j Hj. pose proof (Hr j Hj). field. repeat split; lra. }
  rewrite nsum_scal, (kernel_involution N (fun i => k_grid N r i * F i) m Hm).
  pose proof grid_N. pose proof (k_grid_pos m). unfold k_step. field. repeat split; lra.
Qed.
Lemma backward_0 j : backward (fun _ => 0) j = 0.
Proof. unfold backward. rewrite nsum_0 by (intros; ring). unfold Rdiv. ring. Qed.
Lemma forward_0 j : forward (fun _ => 0) j = 0.
Proof. unfold forward. rewrite nsum_0 by (intros; ring). unfold Rdiv. ring. Qed.
End Grid.

(** ** Solvers *)
(** jnp.linalg.solve in exact arithmetic: a result only for a regular matrix *)
Definition good_solver (M : nat) (solve : nat -> (nat -> nat -> R) -> (nat -> R) -> option (list R)) : Prop :=
  forall A b x, solve M A b = Some x -> regular M A /\ solves M A b x.
Lemma regular_ext M A B : (forall i j, (i < M)%nat -> (j < M)%nat -> A i j = B i j) -> regular M A -> regular M B.
Proof.
  intros H R v Hv. apply R. intros i Hi. rewrite <- (Hv i Hi). unfold mv. apply nsum_ext. intros j Hj. now rewrite H.
Qed.
Lemma ozr_ok solve N_max M n c H : (1 <= M)%nat -> good_solver M solve -> sym2 M c ->
  ozr solve N_max M n c = Some H -> OZ M n c H /\ sym2 M H /\ regular M (oz_matrix n c).
Proof.
  intros HM Hs Hc E.
  destruct (Nat.ltb N_max M || Nat.eqb M 0 || Nat.ltb 4 M) eqn:Eb.
  2:{ apply orb_false_elim in Eb as [Eb E4]. apply orb_false_elim in Eb as [E1 _].
      apply Nat.ltb_ge in E1, E4. apply (ozr_small solve N_max M n c H); try assumption. lia. }
  unfold ozr, cramer_solve_matrix in E. rewrite Eb in E.
  set (A := fun i j => delta i j - nsum M (fun s => c i s * (delta s j * n j))) in E.
  destruct (sequence M _) as [X|] eqn:EX; [|discriminate].
  assert (EH : H = fun i j => entry X j i) by congruence. clear E.
  destruct (sequence_spec _ _ _ EX) as [Hl HX].
  assert (HA : forall i j, (i < M)%nat -> (j < M)%nat -> A i j = oz_matrix n c i j).
  { intros i j _ Hj. now apply ozr_A. }
  assert (Hreg : regular M (oz_matrix n c)).
  { pose proof (HX O ltac:(lia)) as E0. destruct (Hs _ _ _ E0) as [R _]. exact (regular_ext M A _ HA R). }
  assert (Hoz : OZ M n c H).
  { intros a b Ha Hb. destruct (Hs _ _ _ (HX b Hb)) as [_ [_ Hsol]]. specialize (Hsol a Ha).
    rewrite <- nsum_sumn in Hsol.
    rewrite (nsum_ext M _ (fun j => oz_matrix n c a j * H j b)) in Hsol.
    2:{ intros j Hj. rewrite HA, EH by assumption. reflexivity. }
    change (mv M (oz_matrix n c) (fun j => H j b) a = c a b) in Hsol. rewrite oz_mv in Hsol by assumption. lra. }
  split; [exact Hoz|]. split; [|exact Hreg]. exact (oz_symmetric M n c H Hc Hreg Hoz).
Qed.

Lemma oz_all_spec oz c N L : oz_all oz c N = Some L ->
  length L = N /\ forall m, (m < N)%nat -> oz (fun a b => c a b m) = Some (fun a b => plane L a b m).
Proof.
  revert L. induction N as [|N IH]; intros L E; cbn in E.
  - injection E as <-. split; [reflexivity|lia].
  - destruct (oz_all oz c N) as [L0|] eqn:E0; [|discriminate].
    destruct (oz (fun a b => c a b N)) as [h|] eqn:Eh; [|discriminate]. injection E as <-.
    destruct (IH L0 eq_refl) as [Hl H]. split; [rewrite app_length; cbn; lia|]. intros m Hm.
    unfold plane. destruct (Nat.eq_dec m N) as [->|Hn].
    + rewrite app_nth2 by lia. rewrite Hl, Nat.sub_diag. exact Eh.
    + rewrite app_nth1 by lia. apply H. lia.
Qed.

(** ** Symmetry in the two species *)
Definition sym3 (M N : nat) (f : arr3) : Prop :=
  forall a b j, (a < M)%nat -> (b < M)%nat -> (j < N)%nat -> f a b j = f b a j.
Definition sym_state (M N : nat) (s : hnc_state) : Prop := sym3 M N (log_g s) /\ sym3 M N (Ns s).

(** What one step does, in terms of the transforms and the relation. *)
Record step_spec (M N : nat) (r : nat -> R) (oz_rel : (nat -> nat -> R) -> (nat -> nat -> R) -> Prop) (mix : R)
    (v_s v_l_k : arr3) (s s' : hnc_state) (c_k h_k : arr3) : Prop := {
  ss_c : forall a b m, (a < M)%nat -> (b < M)%nat -> (m < N)%nat ->
    c_k a b m = forward N r (fun j => exp (log_g s a b j) - 1 - Ns s a b j) m - v_l_k a b m;
  ss_h : forall m, (m < N)%nat -> oz_rel (fun a b => c_k a b m) (fun a b => h_k a b m);
  ss_N : forall a b j, (a < M)%nat -> (b < M)%nat -> (j < N)%nat ->
    Ns s' a b j = (1 - mix) * backward N r (fun m => h_k a b m - (c_k a b m + v_l_k a b m)) j + mix * Ns s a b j;
  ss_g : forall a b j, log_g s' a b j = Ns s' a b j - v_s a b j;
  ss_old : Ns_old s' = Ns s
}.
Lemma step_meets M N r oz (oz_rel : (nat -> nat -> R) -> (nat -> nat -> R) -> Prop) mix v_s v_l_k s s' :
  good_grid N r ->
  (forall c h, sym2 M c -> oz c = Some h -> oz_rel c h /\ sym2 M h) ->
  sym3 M N v_s -> sym3 M N v_l_k -> sym_state M N s ->
  step oz N r mix v_s v_l_k s = Some s' ->
  sym_state M N s' /\ exists c_k h_k, step_spec M N r oz_rel mix v_s v_l_k s s' c_k h_k.
Proof.
  intros G Hoz Sv Sl [Sg SN] E. unfold step in E.
  set (cs_k := three_d_four N (k_grid N r) r (fun a b j => exp (log_g s a b j) - 1 - Ns s a b j)) in E.
  set (c_k := fun a b m => cs_k a b m - v_l_k a b m) in E.
  destruct (oz_all oz c_k N) as [L|] eqn:EL; [|discriminate].
  assert (Es : s' = mkHS
    (fun a b j => ((1 - mix) * (three_d_four N r (k_grid N r) (fun a b m => plane L a b m - cs_k a b m) a b j / (2 * PI) ^ 3)
                   + mix * Ns s a b j) - v_s a b j)
    (fun a b j => (1 - mix) * (three_d_four N r (k_grid N r) (fun a b m => plane L a b m - cs_k a b m) a b j / (2 * PI) ^ 3)
                   + mix * Ns s a b j) (Ns s) (S (n_iter s))) by congruence.
  clear E. destruct (oz_all_spec _ _ _ _ EL) as [_ HL].
  assert (Hcs : forall a b m, (m < N)%nat -> cs_k a b m = forward N r (fun j => exp (log_g s a b j) - 1 - Ns s a b j) m).
  { intros a b m Hm. unfold cs_k, three_d_four. now apply forward_model. }
  assert (Ssym : forall a b m, (a < M)%nat -> (b < M)%nat -> (m < N)%nat -> cs_k a b m = cs_k b a m).
  { intros a b m Ha Hb Hm. rewrite !Hcs by assumption. apply forward_ext; try assumption. intros j Hj. now rewrite Sg, SN. }
  assert (Sc : forall m, (m < N)%nat -> sym2 M (fun a b => c_k a b m)).
  { intros m Hm a b Ha Hb. unfold c_k. now rewrite Ssym, Sl. }
  assert (Hh : forall m, (m < N)%nat -> oz_rel (fun a b => c_k a b m) (fun a b => plane L a b m) /\ sym2 M (fun a b => plane L a b m)).
  { intros m Hm. apply Hoz; [now apply Sc|]. now apply HL. }
  assert (HN : forall a b j, (a < M)%nat -> (b < M)%nat -> (j < N)%nat -> Ns s' a b j =
     (1 - mix) * backward N r (fun m => plane L a b m - (c_k a b m + v_l_k a b m)) j + mix * Ns s a b j).
  { intros a b j Ha Hb Hj. rewrite Es. cbn [Ns]. f_equal. f_equal. unfold three_d_four.
    rewrite backward_model by assumption. apply backward_ext. intros m Hm. unfold c_k. ring. }
  split.
  - assert (SN' : sym3 M N (Ns s')).
    { intros a b j Ha Hb Hj. rewrite !HN by assumption. rewrite SN by assumption. f_equal. f_equal.
      apply backward_ext. intros m Hm. destruct (Hh m Hm) as [_ Hp]. rewrite (Hp a b Ha Hb).
      rewrite (Sc m Hm a b Ha Hb), (Sl a b m) by assumption. reflexivity. }
    split; [|exact SN']. intros a b j Ha Hb Hj.
    assert (Eg : forall a b j, log_g s' a b j = Ns s' a b j - v_s a b j) by (intros; rewrite Es; reflexivity).
    rewrite !Eg, SN', Sv by assumption. reflexivity.
  - exists c_k, (plane L). split.
    + intros a b m Ha Hb Hm. unfold c_k. now rewrite Hcs.
    + intros m Hm. apply (Hh m Hm).
    + exact HN.
    + intros. rewrite Es. reflexivity.
    + rewrite Es. reflexivity.
Qed.

(** ** The loop *)
Section Loop.
Variable oz : (nat -> nat -> R) -> option (nat -> nat -> R).
Variable M N : nat.
Variable r : nat -> R.
Variable mix : R.
Variable v_s v_l_k : arr3.
Notation step := (step oz N r mix v_s v_l_k).
Notation while_loop := (while_loop oz M N r mix v_s v_l_k).
Notation condition := (condition M N).

Lemma step_iter s s' : step s = Some s' -> n_iter s' = S (n_iter s).
Proof. unfold M_HNC.step. destruct (oz_all _ _ _); [|discriminate]. intros E. injection E as <-. reflexivity. Qed.
Lemma loop_fuel fuel s : (2000 < fuel + n_iter s)%nat -> while_loop fuel s <> OutOfFuel \/ fuel = O.
Proof.
  revert s. induction fuel as [|f IH]; intros s Hf; [now right|]. left. cbn [M_HNC.while_loop].
  destruct (condition s) eqn:Ec; [|discriminate].
  destruct (step s) as [s'|] eqn:Es; [|discriminate].
  pose proof (step_iter _ _ Es) as Hi. destruct (IH s') as [H| ->]; [lia|exact H|].
  exfalso. unfold M_HNC.condition in Ec. apply andb_prop in Ec as [Ec _]. apply Nat.ltb_lt in Ec. lia.
Qed.
Lemma loop_fuel0 fuel : (2000 < fuel)%nat -> forall s, while_loop fuel s <> OutOfFuel.
Proof.
  intros Hf s. destruct (loop_fuel fuel s) as [H|H]; [lia|exact H|lia].
Qed.
(** an invariant of the step holds when the loop stops *)
Lemma loop_inv (P : hnc_state -> Prop) : (forall s s', P s -> step s = Some s' -> P s') ->
  forall fuel s t, P s -> while_loop fuel s = Finished t -> P t.
Proof.
  intros HP fuel. induction fuel as [|f IH]; intros s t Hs E; cbn [M_HNC.while_loop] in E; [discriminate|].
  destruct (condition s); [|injection E as <-; exact Hs].
  destruct (step s) as [s'|] eqn:Es; [|discriminate]. apply (IH s' t); [|exact E]. now apply (HP s).
Qed.
Lemma loop_stop fuel : forall s t, while_loop fuel s = Finished t -> condition t = false.
Proof.
  induction fuel as [|f IH]; intros s t E; cbn [M_HNC.while_loop] in E; [discriminate|].
  destruct (condition s) eqn:Ec; [|injection E as <-; exact Ec].
  destruct (step s); [|discriminate]. now apply (IH _ _ E).
Qed.
Lemma loop_count fuel : forall s t, (n_iter s <= 2000)%nat -> while_loop fuel s = Finished t -> (n_iter t <= 2000)%nat.
Proof.
  induction fuel as [|f IH]; intros s t Hs E; cbn [M_HNC.while_loop] in E; [discriminate|].
  destruct (condition s) eqn:Ec; [|injection E as <-; exact Hs].
  destruct (step s) as [s'|] eqn:Es; [|discriminate]. apply (IH s' t); [|exact E].
  rewrite (step_iter _ _ Es). unfold M_HNC.condition in Ec. apply andb_prop in Ec as [Ec _].
  apply Nat.ltb_lt in Ec. lia.
Qed.
Lemma steps_inv (P : hnc_state -> Prop) : (forall s s', P s -> step s = Some s' -> P s') ->
  forall n s t, P s -> steps oz N r mix v_s v_l_k n s = Some t -> P t.
Proof.
  intros HP n. induction n as [|n IH]; intros s t Hs E; cbn in E; [now injection E as <-|].
  destruct (step s) as [s'|] eqn:Es; [|discriminate]. apply (IH s' t); [|exact E]. now apply (HP s).
Qed.
End Loop.

Section Cycles.
Variable oz : R -> (nat -> nat -> R) -> option (nat -> nat -> R).
Variable oz_rel : R -> (nat -> nat -> R) -> (nat -> nat -> R) -> Prop.
Variable M N : nat.
Variable r : nat -> R.
Variable mix : R.
Variable v_s v_l_k : R -> arr3.
Hypothesis G : good_grid N r.
Hypothesis HM : (1 <= M)%nat.
Hypothesis Hoz : forall mult c h, sym2 M c -> oz mult c = Some h -> oz_rel mult c h /\ sym2 M h.
Hypothesis Sv : forall mult, sym3 M N (v_s mult).
Hypothesis Sl : forall mult, sym3 M N (v_l_k mult).

(** the closure, kept by every step *)
Definition closed (mult : R) (s : hnc_state) : Prop :=
  sym_state M N s /\ forall a b j, log_g s a b j = Ns s a b j - v_s mult a b j.
(** the state was produced by a step from such a state *)
Definition reached (mult : R) (t : hnc_state) : Prop :=
  closed mult t /\ exists s c_k h_k, closed mult s /\ step_spec M N r (oz_rel mult) mix (v_s mult) (v_l_k mult) s t c_k h_k.
Notation step_at mult := (step (oz mult) N r mix (v_s mult) (v_l_k mult)).
Lemma step_sym mult s s' : sym_state M N s -> step_at mult s = Some s' -> closed mult s'.
Proof.
  intros Hs E. destruct (step_meets M N r (oz mult) (oz_rel mult) mix _ _ s s' G (Hoz mult) (Sv mult) (Sl mult) Hs E) as [S1 (c & h & SS)].
  split; [exact S1|apply SS].
Qed.
Lemma step_reached mult s s' : closed mult s -> step_at mult s = Some s' -> reached mult s'.
Proof.
  intros Hs E. split; [apply (step_sym mult s); [apply Hs|exact E]|].
  destruct (step_meets M N r (oz mult) (oz_rel mult) mix _ _ s s' G (Hoz mult) (Sv mult) (Sl mult) (proj1 Hs) E) as [S1 (c & h & SS)].
  exists s, c, h. split; assumption.
Qed.
Lemma total_nonneg f : (forall a b j, 0 <= f a b j) -> 0 <= total M N f.
Proof. intros H. unfold total. apply nsum_nonneg. intros. apply nsum_nonneg. intros. apply nsum_nonneg. intros. apply H. Qed.
Lemma init_condition v : condition M N (init v) = true.
Proof.
  unfold condition, init. cbn [Ns Ns_old n_iter]. apply andb_true_intro. split; [reflexivity|].
  destruct (Rlt_dec _ _) as [|n]; [reflexivity|]. exfalso. apply n. unfold total.
  rewrite (nsum_ext M _ (fun _ => INR M * INR N)).
  2:{ intros a _. rewrite (nsum_ext M _ (fun _ => INR N)); [now rewrite nsum_const|].
      intros b _. rewrite (nsum_ext N _ (fun _ => 1)); [rewrite nsum_const; ring|]. intros; ring. }
  rewrite nsum_const. pose proof (grid_N N r G) as HN. destruct G as (_ & HN1 & _).
  assert (1 <= INR M) by (apply (le_INR 1); lia). assert (1 <= INR N) by (apply (le_INR 1); lia).
  assert (1 <= INR M * INR N) by nra. nra.
Qed.
Lemma first_reached fuel mult t : first_cycle oz fuel M N r mix v_s v_l_k mult = Finished t -> reached mult t.
Proof.
  unfold first_cycle. intros E. destruct fuel as [|f]; cbn [while_loop] in E; [discriminate|].
  rewrite init_condition in E. destruct (step_at mult (init (v_s mult))) as [s1|] eqn:E1; [|discriminate].
  apply (loop_inv (oz mult) M N r mix (v_s mult) (v_l_k mult) (reached mult)) with (fuel := f) (s := s1); [| |exact E].
  - intros s s' [Hs _] Es. now apply (step_reached mult s).
  - apply (step_reached mult (init (v_s mult))); [|exact E1]. split.
    + split; cbn [init log_g Ns]; intros a b j Ha Hb Hj; [now rewrite Sv|reflexivity].
    + intros. cbn [init log_g Ns]. ring.
Qed.
Lemma steps_S n mult s t : steps (oz mult) N r mix (v_s mult) (v_l_k mult) (S n) s = Some t ->
  exists s1, step_at mult s = Some s1 /\ steps (oz mult) N r mix (v_s mult) (v_l_k mult) n s1 = Some t.
Proof. cbn. destruct (step_at mult s) as [s1|]; [|discriminate]. eauto. Qed.
Lemma next_reached fuel mult s t : sym_state M N s ->
  next_cycle oz fuel M N r mix v_s v_l_k mult s = Finished t -> reached mult t.
Proof.
  unfold next_cycle. intros Hs E. destruct (steps _ _ _ _ _ _ 5 s) as [s5|] eqn:E5; [|discriminate].
  apply steps_S in E5 as (s1 & E1 & E5). apply steps_S in E5 as (s2 & E2 & E5).
  pose proof (step_sym mult s s1 Hs E1) as C1. pose proof (step_reached mult s1 s2 C1 E2) as R2.
  assert (R5 : reached mult s5).
  { apply (steps_inv (oz mult) N r mix (v_s mult) (v_l_k mult) (reached mult)) with (n := 3%nat) (s := s2); [|exact R2|exact E5].
    intros u u' [Hu _] Eu. now apply (step_reached mult u). }
  apply (loop_inv (oz mult) M N r mix (v_s mult) (v_l_k mult) (reached mult)) with (3 := E).
  - intros u u' [Hu _] Eu. now apply (step_reached mult u).
  - destruct R5 as [[[Ha Hb] Hc] (p & c & h & Hp & SS)]. split; [split; [split|]; assumption|].
    exists p, c, h. split; [exact Hp|]. destruct SS. split; assumption.
Qed.
Lemma later_reached fuel rest : forall s it t it', sym_state M N s ->
  later_cycles oz fuel M N r mix v_s v_l_k (rest ++ [1]) s it = Some (t, it') ->
  reached 1 t /\ condition M N t = false.
Proof.
  induction rest as [|mult rest IH]; intros s it t it' Hs E; cbn [app later_cycles] in E.
  - destruct (next_cycle _ _ _ _ _ _ _ _ 1 s) as [u| |] eqn:En; try discriminate.
    assert (u = t) by congruence. subst u. split; [now apply (next_reached fuel 1 s)|].
    unfold next_cycle in En. destruct (steps _ _ _ _ _ _ _ _); [|discriminate]. now apply loop_stop in En.
  - destruct (next_cycle _ _ _ _ _ _ _ _ mult s) as [u| |] eqn:En; try discriminate.
    refine (IH u _ t it' _ E). apply (next_reached fuel mult s u Hs En).
Qed.
Lemma cycles_reached fuel tmult t it : cycles oz fuel M N r mix v_s v_l_k tmult = Some (t, it) ->
  reached 1 t /\ condition M N t = false.
Proof.
  unfold cycles. intros E. destruct tmult as [|mult rest]; cbn [app] in E.
  - destruct (first_cycle _ _ _ _ _ _ _ _ 1) as [u| |] eqn:E1; try discriminate.
    cbn [later_cycles] in E. assert (u = t) by congruence. subst u.
    split; [now apply (first_reached fuel)|]. unfold first_cycle in E1. now apply loop_stop in E1.
  - destruct (first_cycle _ _ _ _ _ _ _ _ mult) as [u| |] eqn:E1; try discriminate.
    apply (later_reached fuel rest u (n_iter u) t it); [|exact E]. apply (first_reached fuel mult u E1).
Qed.
End Cycles.

(** counting and fuel *)
Section Count.
Variable oz : R -> (nat -> nat -> R) -> option (nat -> nat -> R).
Variable M N : nat.
Variable r : nat -> R.
Variable mix : R.
Variable v_s v_l_k : R -> arr3.
Lemma first_count fuel mult t : first_cycle oz fuel M N r mix v_s v_l_k mult = Finished t -> (n_iter t <= 2000)%nat.
Proof. unfold first_cycle. apply loop_count. cbn. lia. Qed.
Lemma next_count fuel mult s t : next_cycle oz fuel M N r mix v_s v_l_k mult s = Finished t -> (n_iter t <= 2000)%nat.
Proof. unfold next_cycle. destruct (steps _ _ _ _ _ _ _ _); [|discriminate]. apply loop_count. cbn. lia. Qed.
Lemma later_count fuel mults : forall s it t it',
  later_cycles oz fuel M N r mix v_s v_l_k mults s it = Some (t, it') -> (it' <= it + 2005 * length mults)%nat.
Proof.
  induction mults as [|mult rest IH]; intros s it t it' E; cbn [later_cycles] in E.
  - assert (it = it') by congruence. cbn. lia.
  - destruct (next_cycle _ _ _ _ _ _ _ _ mult s) as [u| |] eqn:En; try discriminate.
    apply next_count in En. apply IH in E. cbn [length]. lia.
Qed.
Lemma cycles_count fuel tmult t it : cycles oz fuel M N r mix v_s v_l_k tmult = Some (t, it) ->
  (it <= 2000 + 2005 * length tmult)%nat.
Proof.
  unfold cycles. intros E. destruct tmult as [|mult rest]; cbn [app] in E.
  - destruct (first_cycle _ _ _ _ _ _ _ _ 1) as [u| |] eqn:E1; try discriminate.
    apply later_count in E. apply first_count in E1. cbn in *. lia.
  - destruct (first_cycle _ _ _ _ _ _ _ _ mult) as [u| |] eqn:E1; try discriminate.
    apply later_count in E. apply first_count in E1. rewrite app_length in E. cbn [length] in *. lia.
Qed.
(** more fuel changes nothing once the loop has ended *)
Lemma loop_mono oz' v w f1 : forall f2 s, (f1 <= f2)%nat ->
  while_loop oz' M N r mix v w f1 s <> OutOfFuel -> while_loop oz' M N r mix v w f2 s = while_loop oz' M N r mix v w f1 s.
Proof.
  induction f1 as [|f1 IH]; intros f2 s Hf H; [cbn in H; congruence|]. destruct f2 as [|f2]; [lia|].
  cbn [while_loop] in *. destruct (condition M N s); [|reflexivity].
  destruct (step _ _ _ _ _ _ s); [|reflexivity]. apply IH; [lia|exact H].
Qed.
Lemma cycles_fuel f1 f2 tmult : (2000 < f1)%nat -> (2000 < f2)%nat ->
  cycles oz f1 M N r mix v_s v_l_k tmult = cycles oz f2 M N r mix v_s v_l_k tmult.
Proof.
  intros H1 H2.
  assert (HL : forall oz' v w s, while_loop oz' M N r mix v w f1 s = while_loop oz' M N r mix v w f2 s).
  { intros oz' v w s. destruct (Nat.le_ge_cases f1 f2) as [H|H].
    - symmetry. apply loop_mono; [exact H|]. now apply loop_fuel0.
    - apply loop_mono; [exact H|]. now apply loop_fuel0. }
  assert (HN : forall mult s, next_cycle oz f1 M N r mix v_s v_l_k mult s = next_cycle oz f2 M N r mix v_s v_l_k mult s).
  { intros. unfold next_cycle. destruct (steps _ _ _ _ _ _ _ _); [apply HL|reflexivity]. }
  assert (Hlater : forall l s it, later_cycles oz f1 M N r mix v_s v_l_k l s it = later_cycles oz f2 M N r mix v_s v_l_k l s it).
  { induction l as [|mult rest IH]; intros s it; cbn [later_cycles]; [reflexivity|]. rewrite HN.
    destruct (next_cycle _ _ _ _ _ _ _ _ _ _); [apply IH|reflexivity|reflexivity]. }
  unfold cycles. destruct (tmult ++ [1]) as [|mult rest]; [reflexivity|].
  unfold first_cycle. rewrite HL. destruct (while_loop _ _ _ _ _ _ _ f2 _); [apply Hlater|reflexivity|reflexivity].
Qed.
End Count.
