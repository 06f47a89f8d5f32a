(** The two-temperature relation, the ideal gas, and the structure factor. *)
From Coq Require Import Reals Lra Psatz List Lia Arith Bool.
From Coquelicot Require Import Coquelicot.
Import ListNotations.
From Verif Require Import M_Const M_Helpers L_Helpers M_HNC L_HNC L_HNC2.
Open Scope R_scope.

(** Multi-temperature relation, with the weights written out. *)
Definition SVT (M : nat) (n m : nat -> R) (T : nat -> nat -> R) (c h : nat -> nat -> R) : Prop :=
  forall a b, (a < M)%nat -> (b < M)%nat ->
    h a b = c a b + nsum M (fun s => n s *
      (m b / (m a + m b) * (T a s / T a b) * c a s * h s b
       + m a / (m a + m b) * (T b s / T a b) * h a s * c s b)).

Lemma nsum_app p q f : nsum (p + q) f = nsum p f + nsum q (fun i => f (p + i)%nat).
Proof.
  induction q as [|q IH]; [rewrite Nat.add_0_r; cbn; ring|]. rewrite Nat.add_succ_r. cbn [nsum]. rewrite IH. ring.
Qed.
Lemma nsum_prod P M f : nsum (P * M) f = nsum P (fun a => nsum M (fun b => f (a * M + b)%nat)).
Proof.
  induction P as [|P IH]; [reflexivity|]. rewrite Nat.mul_succ_l, nsum_app, IH. reflexivity.
Qed.
Lemma pair_div M a b : (b < M)%nat -> Nat.div (a * M + b) M = a.
Proof. intros H. rewrite Nat.add_comm, Nat.div_add, Nat.div_small by lia. reflexivity. Qed.
Lemma pair_mod M a b : (b < M)%nat -> Nat.modulo (a * M + b) M = b.
Proof. intros H. rewrite Nat.add_comm, Nat.mod_add, Nat.mod_small by lia. reflexivity. Qed.
Lemma pair_lt M a b : (a < M)%nat -> (b < M)%nat -> (a * M + b < M * M)%nat.
Proof. intros. nia. Qed.
Lemma delta_pair M a b s t : (b < M)%nat -> (t < M)%nat ->
  delta (a * M + b) (s * M + t) = delta a s * delta b t.
Proof.
  intros Hb Ht. unfold delta. destruct (Nat.eqb_spec (a * M + b) (s * M + t)) as [E|E].
  - assert (a = s) by (rewrite <- (pair_div M a b Hb), E; now apply pair_div).
    assert (b = t) by (rewrite <- (pair_mod M a b Hb), E; now apply pair_mod).
    subst. rewrite !Nat.eqb_refl. ring.
  - destruct (Nat.eqb_spec a s) as [->|]; [|ring]. destruct (Nat.eqb_spec b t) as [->|]; [congruence|ring].
Qed.
Lemma delta_sym i j : delta i j = delta j i.
Proof. unfold delta. now rewrite Nat.eqb_sym. Qed.

(** row (a, b) of the big system *)
Lemma svt_row M n m T c (x : nat -> R) a b : (a < M)%nat -> (b < M)%nat ->
  mv (M * M) (svt_matrix M n m T c) x (a * M + b) =
  x (a * M + b)%nat
  - nsum M (fun s => coeff_1 n m T a b s * c a s * x (s * M + b)%nat
                     + coeff_2 n m T a b s * c s b * x (a * M + s)%nat).
Proof.
  intros Ha Hb. unfold mv. rewrite nsum_prod.
  rewrite (nsum_ext M _ (fun s => delta a s * x (s * M + b)%nat
     - coeff_1 n m T a b s * c a s * x (s * M + b)%nat
     - delta a s * nsum M (fun t => coeff_2 n m T a b t * c t b * x (a * M + t)%nat))).
  2:{ intros s Hs.
      rewrite (nsum_ext M _ (fun t => delta a s * (delta b t * x (s * M + t)%nat)
         - coeff_1 n m T a b s * c a s * (delta b t * x (s * M + t)%nat)
         - delta a s * (coeff_2 n m T a b t * c t b * x (a * M + t)%nat))).
      2:{ intros t Ht. unfold svt_matrix. rewrite !pair_div, !pair_mod, delta_pair by assumption.
          destruct (Nat.eq_dec a s) as [->|Hne].
          - ring.
          - assert (E : delta a s = 0) by (unfold delta; apply Nat.eqb_neq in Hne; now rewrite Hne).
            rewrite E. ring. }
      rewrite !nsum_minus, !nsum_scal, (delta_sum M b (fun t => x (s * M + t)%nat)) by assumption. ring. }
  rewrite !nsum_minus.
  rewrite (delta_sum M a (fun s => x (s * M + b)%nat)) by assumption.
  rewrite (delta_sum M a (fun _ => nsum M (fun t => coeff_2 n m T a b t * c t b * x (a * M + t)%nat))) by assumption.
  rewrite nsum_plus. ring.
Qed.
Definition pos_below (M : nat) (f : nat -> R) : Prop := forall i, (i < M)%nat -> 0 < f i.
Definition pos_below2 (M : nat) (f : nat -> nat -> R) : Prop := forall i j, (i < M)%nat -> (j < M)%nat -> 0 < f i j.
(** cramer_solve returns a solution of a regular system *)
Lemma cramer_solve_good solve N_max N A b x : (1 <= N)%nat -> good_solver N solve ->
  cramer_solve solve N_max N A b = Some x -> regular N A /\ solves N A b x.
Proof.
  intros HN Hs E. destruct (Nat.le_gt_cases N N_max) as [Hm|Hm].
  2:{ unfold cramer_solve in E. apply Nat.ltb_lt in Hm. rewrite Hm in E. now apply Hs. }
  destruct (Nat.le_gt_cases N 4) as [H4|H4].
  - assert (Hd : det N A <> 0) by (intros Hd; rewrite cramer_singular in E by (auto; lia); discriminate).
    split; [apply regular_det; [lia|exact Hd]|].
    destruct (cramer_all solve N_max N A b ltac:(lia) Hm Hd) as (y & Ey & Hy). congruence.
  - apply Hs. rewrite <- E. unfold cramer_solve. destruct (Nat.ltb N_max N); [reflexivity|].
    destruct N as [|[|[|[|[|N]]]]]; try lia. reflexivity.
Qed.
Lemma svt_spec solve N_max M n m T c H : (1 <= M)%nat -> good_solver (M * M) solve ->
  pos_below M m -> pos_below2 M T ->
  svt_ozr solve N_max M n m T c = Some H ->
  SVT M n m T c H /\ regular (M * M) (svt_matrix M n m T c).
Proof.
  intros HM Hs Pm PT E. unfold svt_ozr in E.
  destruct (cramer_solve _ _ _ _ _) as [x|] eqn:Ex; [|discriminate].
  assert (EH : H = fun a b => nth (a * M + b) x 0) by congruence. clear E.
  destruct (cramer_solve_good solve N_max (M * M) _ _ x ltac:(nia) Hs Ex) as [Hreg [_ Hx]].
  split; [|exact Hreg]. intros a b Ha Hb.
  pose proof (Hx (a * M + b)%nat (pair_lt M a b Ha Hb)) as Hr. rewrite <- nsum_sumn in Hr.
  change (mv (M * M) (svt_matrix M n m T c) (fun i => nth i x 0) (a * M + b)
          = c (Nat.div (a * M + b) M) (Nat.modulo (a * M + b) M)) in Hr.
  rewrite svt_row, pair_div, pair_mod in Hr by assumption.
  rewrite EH. rewrite <- Hr at 1.
  assert (ES : forall s, (s < M)%nat ->
    n s * (m b / (m a + m b) * (T a s / T a b) * c a s * nth (s * M + b) x 0
         + m a / (m a + m b) * (T b s / T a b) * nth (a * M + s) x 0 * c s b)
    = coeff_1 n m T a b s * c a s * nth (s * M + b) x 0 + coeff_2 n m T a b s * c s b * nth (a * M + s) x 0).
  { intros s Hs'. unfold coeff_1, coeff_2, m_ab. pose proof (Pm a Ha). pose proof (Pm b Hb). pose proof (PT a b Ha Hb).
    field. repeat split; lra. }
  rewrite (nsum_ext M _ _ ES). ring.
Qed.
Lemma svt_unique M n m T c h h' : pos_below M m -> pos_below2 M T ->
  regular (M * M) (svt_matrix M n m T c) -> SVT M n m T c h -> SVT M n m T c h' ->
  forall a b, (a < M)%nat -> (b < M)%nat -> h a b = h' a b.
Proof.
  intros Pm PT Hreg H1 H2 a b Ha Hb. assert (HM : (M <> 0)%nat) by lia.
  set (x := fun i => h (Nat.div i M) (Nat.modulo i M) - h' (Nat.div i M) (Nat.modulo i M)).
  assert (Ex : x (a * M + b)%nat = 0).
  { apply (Hreg x); [|now apply pair_lt]. intros i Hi.
    assert (Hai : (i / M < M)%nat) by (apply Nat.div_lt_upper_bound; lia).
    assert (Hbi : (i mod M < M)%nat) by (apply Nat.mod_upper_bound; lia).
    assert (Ei : i = (i / M * M + i mod M)%nat) by (rewrite Nat.mul_comm; apply Nat.div_mod; lia).
    rewrite Ei. rewrite svt_row by assumption. set (p := (i / M)%nat) in *. set (q := (i mod M)%nat) in *.
    unfold x. rewrite pair_div, pair_mod by assumption. rewrite (H1 p q Hai Hbi), (H2 p q Hai Hbi).
    match goal with |- ?u + ?v - (?u + ?w) - ?z = 0 => assert (Hz : v - w = z); [|lra] end.
    rewrite <- nsum_minus. apply nsum_ext. intros s Hs. rewrite !pair_div, !pair_mod by assumption.
    unfold coeff_1, coeff_2, m_ab. pose proof (Pm p Hai). pose proof (Pm q Hbi). pose proof (PT p q Hai Hbi).
    field. repeat split; lra. }
  unfold x in Ex. rewrite pair_div, pair_mod in Ex by assumption. lra.
Qed.
Lemma svt_symmetric M n m T c h : pos_below M m -> pos_below2 M T -> sym2 M T -> sym2 M c ->
  regular (M * M) (svt_matrix M n m T c) -> SVT M n m T c h -> sym2 M h.
Proof.
  intros Pm PT ST Sc Hreg H a b Ha Hb.
  refine (svt_unique M n m T c h (fun a b => h b a) Pm PT Hreg H _ a b Ha Hb).
  intros p q Hp Hq. rewrite (H q p Hq Hp). rewrite (Sc q p Hq Hp). f_equal. apply nsum_ext. intros s Hs.
  rewrite (ST q p Hq Hp), (Sc q s Hq Hs), (Sc s p Hs Hp). rewrite (Rplus_comm (m q) (m p)). ring.
Qed.
(** one temperature: the usual relation *)
Lemma oz_is_svt M n m T0 c h : pos_below M m -> T0 <> 0 -> regular M (oz_matrix n c) -> sym2 M c ->
  OZ M n c h -> SVT M n m (fun _ _ => T0) c h.
Proof.
  intros Pm HT Hreg Sc H a b Ha Hb. pose proof (oz_symmetric M n c h Sc Hreg H) as Sh.
  pose proof (Pm a Ha). pose proof (Pm b Hb).
  assert (E1 : nsum M (fun s => c a s * n s * h s b) = h a b - c a b) by (rewrite (H a b Ha Hb); ring).
  assert (E2 : nsum M (fun s => h a s * n s * c s b) = h a b - c a b).
  { rewrite (Sh a b Ha Hb), (Sc a b Ha Hb), (H b a Hb Ha) at 1.
    rewrite (nsum_ext M (fun s => h a s * n s * c s b) (fun s => c b s * n s * h s a)); [ring|].
    intros s Hs. rewrite (Sh a s Ha Hs), (Sc s b Hs Hb). ring. }
  rewrite (nsum_ext M _ (fun s => m b / (m a + m b) * (c a s * n s * h s b) + m a / (m a + m b) * (h a s * n s * c s b))).
  2:{ intros s _. field. split; lra. }
  rewrite nsum_plus, !nsum_scal, E1, E2. field. lra.
Qed.

(** ** Ideal gas *)
Lemma det_delta M : (1 <= M <= 4)%nat -> det M delta = 1.
Proof. intros H. destruct M as [|[|[|[|[|M]]]]]; try lia; cbn; unfold minor, delta; cbn; ring. Qed.
Lemma oz_zero M n h : OZ M n (fun _ _ => 0) h -> forall a b, (a < M)%nat -> (b < M)%nat -> h a b = 0.
Proof. intros H a b Ha Hb. rewrite (H a b Ha Hb), nsum_0; [lra|]. intros; ring. Qed.
Lemma OZ_ext M n c c' h : (forall a b, (a < M)%nat -> (b < M)%nat -> c a b = c' a b) -> OZ M n c h -> OZ M n c' h.
Proof.
  intros E H a b Ha Hb. rewrite (H a b Ha Hb), E by assumption. f_equal. apply nsum_ext. intros s Hs. now rewrite E.
Qed.
Lemma oz_all_total oz c N : (forall m, (m < N)%nat -> exists h, oz (fun a b => c a b m) = Some h) ->
  exists L, oz_all oz c N = Some L.
Proof.
  induction N as [|N IH]; intros H; [now exists []|]. cbn [oz_all].
  destruct IH as [L ->]; [intros; apply H; lia|]. destruct (H N ltac:(lia)) as [h ->]. eauto.
Qed.

(** no correlation at all, as far as the arrays reach *)
Definition flat (M N : nat) (s : hnc_state) : Prop :=
  forall a b j, (a < M)%nat -> (b < M)%nat -> (j < N)%nat -> log_g s a b j = 0 /\ Ns s a b j = 0.
Definition zero3 (M N : nat) (f : arr3) : Prop :=
  forall a b j, (a < M)%nat -> (b < M)%nat -> (j < N)%nat -> f a b j = 0.
Definition zero2 (M : nat) (f : nat -> nat -> R) : Prop :=
  forall a b, (a < M)%nat -> (b < M)%nat -> f a b = 0.
Lemma ideal_step oz M N r mix v w s : good_grid N r ->
  (forall c, zero2 M c -> exists h, oz c = Some h /\ zero2 M h) ->
  zero3 M N v -> zero3 M N w -> flat M N s ->
  exists s', step oz N r mix v w s = Some s' /\ flat M N s' /\ n_iter s' = S (n_iter s) /\ Ns_old s' = Ns s.
Proof.
  intros G Hoz Hv Hw Hs.
  set (cs_k := three_d_four N (k_grid N r) r (fun a b j => exp (log_g s a b j) - 1 - Ns s a b j)).
  assert (Hcs : zero3 M N cs_k).
  { intros a b m Ha Hb Hm. unfold cs_k, three_d_four. rewrite forward_model by assumption.
    rewrite (forward_ext N r _ (fun _ => 0)); [apply forward_0|]. intros j Hj.
    destruct (Hs a b j Ha Hb Hj) as [-> ->]. rewrite exp_0. ring. }
  set (c_k := fun a b m => cs_k a b m - w a b m).
  assert (Hc : forall m, (m < N)%nat -> zero2 M (fun a b => c_k a b m)).
  { intros m Hm a b Ha Hb. unfold c_k. rewrite Hcs, Hw by assumption. ring. }
  destruct (oz_all_total oz c_k N) as [L EL].
  { intros m Hm. destruct (Hoz _ (Hc m Hm)) as (h & E & _). eauto. }
  assert (HL : zero3 M N (plane L)).
  { intros a b m Ha Hb Hm. destruct (oz_all_spec _ _ _ _ EL) as [_ Hsp].
    destruct (Hoz _ (Hc m Hm)) as (h & E & Hh). rewrite (Hsp m Hm) in E.
    assert (Eh : h = fun a b => plane L a b m) by congruence. specialize (Hh a b Ha Hb). now rewrite Eh in Hh. }
  unfold step. fold cs_k c_k. rewrite EL. eexists. split; [reflexivity|].
  split; [|split; reflexivity].
  assert (HB : forall a b j, (a < M)%nat -> (b < M)%nat -> (j < N)%nat ->
     three_d_four N r (k_grid N r) (fun a b m => plane L a b m - cs_k a b m) a b j / (2 * PI) ^ 3 = 0).
  { intros a b j Ha Hb Hj. unfold three_d_four. rewrite backward_model by assumption.
    rewrite (backward_ext N r _ (fun _ => 0)); [apply backward_0|]. intros m Hm. rewrite HL, Hcs by assumption. ring. }
  intros a b j Ha Hb Hj. cbn [log_g Ns]. rewrite HB, Hv by assumption. destruct (Hs a b j Ha Hb Hj) as [_ ->]. split; ring.
Qed.
Lemma ideal_stop M N s : zero3 M N (Ns s) -> zero3 M N (Ns_old s) -> condition M N s = false.
Proof.
  intros H1 H2. unfold condition. apply andb_false_intro2. destruct (Rlt_dec _ _) as [Hl|]; [|reflexivity]. exfalso.
  unfold total in Hl. rewrite nsum_0 in Hl; [lra|]. intros a Ha. apply nsum_0. intros b Hb. apply nsum_0. intros j Hj.
  rewrite H1, H2 by assumption. ring.
Qed.
Lemma flat_Ns M N s : flat M N s -> zero3 M N (Ns s).
Proof. intros H a b j Ha Hb Hj. now apply H. Qed.
Lemma init_flat M N v : zero3 M N v -> flat M N (init v).
Proof. intros H a b j Ha Hb Hj. cbn. rewrite H by assumption. split; ring. Qed.
Section Ideal.
Variable oz : R -> (nat -> nat -> R) -> option (nat -> nat -> R).
Variable M N : nat.
Variable r : nat -> R.
Variable mix : R.
Variable v w : R -> arr3.
Hypothesis G : good_grid N r.
Hypothesis HM : (1 <= M)%nat.
Hypothesis Hoz : forall mult c, zero2 M c -> exists h, oz mult c = Some h /\ zero2 M h.
Hypothesis Hv : forall mult, zero3 M N (v mult).
Hypothesis Hw : forall mult, zero3 M N (w mult).
Lemma ideal_first fuel mult : (2 <= fuel)%nat ->
  exists s, first_cycle oz fuel M N r mix v w mult = Finished s /\ flat M N s /\ n_iter s = 1%nat /\ zero3 M N (Ns_old s).
Proof.
  intros Hf. destruct (ideal_step (oz mult) M N r mix (v mult) (w mult) (init (v mult)) G (Hoz mult) (Hv mult) (Hw mult)) as (s1 & E & F & I & O).
  { now apply init_flat. }
  assert (HO : zero3 M N (Ns_old s1)) by (rewrite O; intros a b j _ _ _; reflexivity).
  exists s1. split; [|split; [exact F|split; [exact I|exact HO]]].
  unfold first_cycle. destruct fuel as [|[|f]]; try lia. cbn [while_loop].
  rewrite (init_condition M N r G HM), E. rewrite ideal_stop; [reflexivity|now apply flat_Ns|exact HO].
Qed.
Lemma ideal_steps mult n : forall s, flat M N s -> zero3 M N (Ns_old s) ->
  exists s', steps (oz mult) N r mix (v mult) (w mult) n s = Some s' /\ flat M N s' /\ zero3 M N (Ns_old s').
Proof.
  induction n as [|n IH]; intros s F O; [now exists s|].
  destruct (ideal_step (oz mult) M N r mix (v mult) (w mult) s G (Hoz mult) (Hv mult) (Hw mult) F) as (s1 & E & F1 & _ & O1).
  cbn [steps]. rewrite E. apply IH; [exact F1|]. rewrite O1. now apply flat_Ns.
Qed.
Lemma ideal_next fuel mult s : (1 <= fuel)%nat -> flat M N s -> zero3 M N (Ns_old s) ->
  exists s', next_cycle oz fuel M N r mix v w mult s = Finished s' /\ flat M N s' /\ n_iter s' = 0%nat /\ zero3 M N (Ns_old s').
Proof.
  intros Hf F O. destruct (ideal_steps mult 5 s F O) as (s5 & E & F5 & O5).
  unfold next_cycle. rewrite E. destruct fuel as [|f]; [lia|]. cbn [while_loop].
  rewrite ideal_stop; [|now apply flat_Ns|exact O5]. eexists. split; [reflexivity|]. split; [exact F5|]. split; [reflexivity|exact O5].
Qed.
Lemma ideal_later fuel mults : (1 <= fuel)%nat -> forall s it, flat M N s -> zero3 M N (Ns_old s) ->
  exists s', later_cycles oz fuel M N r mix v w mults s it = Some (s', it + 5 * length mults)%nat /\ flat M N s'
    /\ (mults <> [] -> n_iter s' = 0%nat) /\ (mults = [] -> s' = s).
Proof.
  intros Hf. induction mults as [|mult mults IH]; intros s it F O; cbn [later_cycles length].
  - exists s. rewrite Nat.mul_0_r, Nat.add_0_r. split; [reflexivity|]. split; [exact F|]. split; [intros H; congruence|reflexivity].
  - destruct (ideal_next fuel mult s Hf F O) as (s1 & E & F1 & I1 & O1). rewrite E, I1.
    destruct (IH s1 (it + 5 + 0)%nat F1 O1) as (s' & E' & F' & I' & J'). exists s'. split; [|split; [exact F'|]].
    + rewrite E'. f_equal. f_equal. lia.
    + split; [|congruence]. intros _. destruct mults as [|q mults]; [rewrite (J' eq_refl); exact I1|apply I'; congruence].
Qed.
Lemma ideal_cycles fuel tmult : (2 <= fuel)%nat ->
  exists s, cycles oz fuel M N r mix v w tmult = Some (s, 1 + 5 * length tmult)%nat /\ flat M N s
    /\ n_iter s = match tmult with [] => 1%nat | _ => 0%nat end.
Proof.
  intros Hf. unfold cycles. destruct tmult as [|mult rest]; cbn [app].
  - destruct (ideal_first fuel 1 Hf) as (s & E & F & I & O). rewrite E. cbn [later_cycles]. exists s. rewrite I. split; [reflexivity|]. now split.
  - destruct (ideal_first fuel mult Hf) as (s & E & F & I & O). rewrite E, I.
    destruct (ideal_later fuel (rest ++ [1]) ltac:(lia) s 1%nat F O) as (s' & E' & F' & I' & _). exists s'.
    split; [|split; [exact F'|apply I'; destruct rest; discriminate]].
    rewrite E'. f_equal. f_equal. rewrite app_length. cbn [length]. lia.
Qed.
End Ideal.
Lemma ozr_ideal solve N_max M n c : (1 <= M <= 4)%nat -> (M <= N_max)%nat -> zero2 M c ->
  exists h, ozr solve N_max M n c = Some h /\ zero2 M h.
Proof.
  intros HM Hm Hc. destruct (ozr_total solve N_max M n c HM Hm) as [h E].
  { rewrite (det_ext M _ delta).
    - rewrite det_delta by assumption. lra.
    - intros i j Hi Hj. unfold oz_matrix. rewrite Hc by assumption. ring. }
  exists h. split; [exact E|].
  assert (Sc : sym2 M c) by (intros a b Ha Hb; now rewrite !Hc).
  destruct (ozr_small solve N_max M n c h HM Hm Sc E) as (Hoz & _).
  intros a b Ha Hb. apply (oz_zero M n h); try assumption. apply (OZ_ext M n c); assumption.
Qed.

(** ** Structure factors *)
(** the matrix with S = (1 - sqrt(n) c sqrt(n))^-1 *)
Lemma structure_inverse M n c h : pos_below M n -> sym2 M c -> sym2 M h -> OZ M n c h ->
  forall a b, (a < M)%nat -> (b < M)%nat ->
  nsum M (fun s => (delta a s + h a s * sqrt (n a * n s)) * (delta s b - sqrt (n s * n b) * c s b)) = delta a b.
Proof.
  intros Pn Sc Sh H a b Ha Hb.
  rewrite (nsum_ext M _ (fun s => delta a s * (delta s b - sqrt (n s * n b) * c s b)
     + sqrt (n a * n b) * (delta b s * h a s) - sqrt (n a * n b) * (c b s * n s * h s a))).
  2:{ intros s Hs. rewrite (delta_sym s b), (Sh a s Ha Hs), (Sc s b Hs Hb).
      pose proof (Pn a Ha). pose proof (Pn b Hb). pose proof (Pn s Hs).
      rewrite !sqrt_mult by lra. replace (c b s * n s * h s a) with (c b s * (sqrt (n s) * sqrt (n s)) * h s a) by (rewrite sqrt_sqrt by lra; ring).
      destruct (Nat.eq_dec b s) as [->|Hne]; [ring|].
      assert (E : delta b s = 0) by (unfold delta; apply Nat.eqb_neq in Hne; now rewrite Hne). rewrite E. ring. }
  rewrite nsum_minus, nsum_plus, !nsum_scal.
  rewrite (delta_sum M a (fun s => delta s b - sqrt (n s * n b) * c s b)) by assumption.
  rewrite (delta_sum M b (fun s => h a s)) by assumption.
  assert (E : nsum M (fun s => c b s * n s * h s a) = h b a - c b a) by (rewrite (H b a Hb Ha); ring).
  rewrite E, (Sh b a Hb Ha), (Sc b a Hb Ha). ring.
Qed.
