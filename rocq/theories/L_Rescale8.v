(** The hypernetted chain in another system of units. *)
From Coq Require Import Reals Lra Psatz List Lia Arith Bool.
From Coquelicot Require Import Coquelicot.
Import ListNotations.
From Verif Require Import M_Const M_Helpers L_Helpers M_HNC L_HNC L_HNC2 L_HNC3.
Open Scope R_scope.

(** arrays in units [f] of the old *)
Definition sc2 (M : nat) (f : R) (c c' : nat -> nat -> R) : Prop := forall a b, (a < M)%nat -> (b < M)%nat -> c' a b = c a b * f.
Definition sc3 (M N : nat) (f : R) (c c' : arr3) : Prop := forall a b j, (a < M)%nat -> (b < M)%nat -> (j < N)%nat -> c' a b j = c a b j * f.
Section Sc.
  Variables (M N : nat) (l : R).
  Hypothesis Hl : 0 < l.
  Definition rl (r : nat -> R) (j : nat) : R := r j * l.
  Lemma rl_grid r : good_grid N r -> good_grid N (rl r).
  Proof. intros (H1 & H2 & H3 & H4). split; [exact H1|]. split; [exact H2|]. unfold rl. split; [intros j Hj; apply Rmult_lt_0_compat; [now apply H3|exact Hl]|]. now apply Rmult_lt_compat_r. Qed.
  Lemma step_rl r : good_grid N r -> k_step N (rl r) = k_step N r * / l.
  Proof. intros G. pose proof (grid_N N r G). destruct G as (_ & _ & _ & Hd). unfold k_step, rl. field. repeat split; try lra. rewrite <- Rmult_minus_distr_r. apply Rmult_integral_contrapositive_currified; lra. Qed.
  Lemma kgrid_rl r m : good_grid N r -> k_grid N (rl r) m = k_grid N r m * / l.
  Proof. intros G. unfold k_grid. rewrite step_rl by exact G. destruct G as (_ & HN & Hr & _). pose proof (Hr (N - 1)%nat ltac:(lia)). unfold rl. field. lra. Qed.
  Lemma forward_rl r f m : good_grid N r -> forward N (rl r) f m = forward N r f m * l ^ 3.
  Proof.
    intros G. pose proof (k_grid_pos N r G m) as Hk. unfold forward. rewrite kgrid_rl by exact G. unfold rl at 1 2.
    rewrite (nsum_ext N (fun j => rl r j * f j * dst_kernel N j m) (fun j => l * (r j * f j * dst_kernel N j m))) by (intros; unfold rl; ring). rewrite nsum_scal. field. lra.
  Qed.
  Lemma backward_rl r F j : good_grid N r -> (j < N)%nat -> backward N (rl r) (fun m => F m * l ^ 3) j = backward N r F j.
  Proof.
    intros G Hj. pose proof PI_RGT_0. unfold backward. rewrite step_rl by exact G.
    rewrite (nsum_ext N _ (fun m => l ^ 2 * (k_grid N r m * F m * dst_kernel N m j))) by (intros; rewrite kgrid_rl by exact G; field; lra). rewrite nsum_scal.
    destruct G as (_ & _ & Hr & _). pose proof (Hr j Hj). unfold rl. field. repeat split; lra.
  Qed.
  Lemma sc_sym2 f c c' : sc2 M f c c' -> sym2 M c -> sym2 M c'.
  Proof. intros H S a b Ha Hb. rewrite !H by assumption. now rewrite S. Qed.
  Lemma OZ_sc n n' c c' h : (forall a, n' a = n a / l ^ 3) -> sc2 M (l ^ 3) c c' -> OZ M n c h -> OZ M n' c' (fun a b => h a b * l ^ 3).
  Proof.
    intros Hn Hc H a b Ha Hb. cbv beta. rewrite (H a b Ha Hb), Hc by assumption. rewrite Rmult_plus_distr_r. f_equal. rewrite Rmult_comm, <- nsum_scal. apply nsum_ext. intros s Hs. rewrite Hn, Hc by assumption. field. lra.
  Qed.
  Lemma SVT_sc n n' m m' T T' c c' h x y : 0 < x -> 0 < y -> pos_below M m -> pos_below2 M T -> (forall a, n' a = n a / l ^ 3) -> (forall a, m' a = m a * x) -> (forall a b, T' a b = T a b * y) -> sc2 M (l ^ 3) c c' ->
    SVT M n m T c h -> SVT M n' m' T' c' (fun a b => h a b * l ^ 3).
  Proof.
    intros Hx Hy Pm PT Hn Hm HT Hc H a b Ha Hb. cbv beta. rewrite (H a b Ha Hb), Hc by assumption. rewrite Rmult_plus_distr_r. f_equal. rewrite Rmult_comm, <- nsum_scal. apply nsum_ext. intros s Hs. rewrite Hn, !Hm, !HT, !Hc by assumption.
    pose proof (Pm a Ha). pose proof (Pm b Hb). pose proof (PT a b Ha Hb). pose proof (Rmult_lt_0_compat _ _ H0 Hx). pose proof (Rmult_lt_0_compat _ _ H1 Hx). field. repeat split; try lra.
  Qed.
  Section Iter.
    Variables (r : nat -> R) (mix : R) (oz oz' : R -> (nat -> nat -> R) -> option (nat -> nat -> R)) (v w v' w' : R -> arr3).
    Hypothesis G : good_grid N r.
    Variable ok : R -> Prop.
    Hypothesis So : forall mult c h, ok mult -> sym2 M c -> oz mult c = Some h -> sym2 M h.
    Hypothesis So' : forall mult c h, ok mult -> sym2 M c -> oz' mult c = Some h -> sym2 M h.
    Hypothesis Ho : forall mult c c' h h', ok mult -> sym2 M c -> sc2 M (l ^ 3) c c' -> oz mult c = Some h -> oz' mult c' = Some h' -> sc2 M (l ^ 3) h h'.
    Hypothesis Sv : forall mult, sym3 M N (v mult).
    Hypothesis Sw : forall mult, sym3 M N (w mult).
    Hypothesis Rv : forall mult, sc3 M N 1 (v mult) (v' mult).
    Hypothesis Rw : forall mult, sc3 M N (l ^ 3) (w mult) (w' mult).
    Lemma ren_sym3 x f f' : sc3 M N x f f' -> sym3 M N f -> sym3 M N f'.
    Proof. intros H S a b j Ha Hb Hj. rewrite !H by assumption. now rewrite S. Qed.
    Definition rs (s s' : hnc_state) : Prop :=
      sym_state M N s /\ sc3 M N 1 (log_g s) (log_g s') /\ sc3 M N 1 (Ns s) (Ns s') /\ sc3 M N 1 (Ns_old s) (Ns_old s') /\ n_iter s = n_iter s'.
    Lemma rs_step mult s s' t t' : ok mult -> rs s s' -> step (oz mult) N r mix (v mult) (w mult) s = Some t -> step (oz' mult) N (rl r) mix (v' mult) (w' mult) s' = Some t' -> rs t t'.
    Proof.
      intros Hok ([Sg SN] & Hg & HN & Ho_ & Hit) E E'.
      assert (X : forall c h, sym2 M c -> oz mult c = Some h -> oz mult c = Some h /\ sym2 M h) by (intros; split; [assumption|eapply So; eassumption]).
      assert (X' : forall c h, sym2 M c -> oz' mult c = Some h -> oz' mult c = Some h /\ sym2 M h) by (intros; split; [assumption|eapply So'; eassumption]).
      destruct (step_meets M N r (oz mult) (fun c h => oz mult c = Some h) mix _ _ s t G X (Sv mult) (Sw mult) (conj Sg SN) E) as [St (c & h & [C1 C2 C3 C4 C5])].
      destruct (step_meets M N (rl r) (oz' mult) (fun c h => oz' mult c = Some h) mix _ _ s' t' (rl_grid r G) X' (ren_sym3 _ _ _ (Rv mult) (Sv mult)) (ren_sym3 _ _ _ (Rw mult) (Sw mult))
        (conj (ren_sym3 _ _ _ Hg Sg) (ren_sym3 _ _ _ HN SN)) E') as [St' (c' & h' & [D1 D2 D3 D4 D5])].
      assert (Rc : forall m, (m < N)%nat -> sc2 M (l ^ 3) (fun a b => c a b m) (fun a b => c' a b m)).
      { intros m Hm a b Ha Hb. rewrite D1, C1, Rw by assumption. rewrite forward_rl by exact G. rewrite Rmult_minus_distr_r. f_equal. f_equal. apply forward_ext; try assumption. intros j Hj. now rewrite Hg, HN, !Rmult_1_r. }
      assert (Sc : forall m, (m < N)%nat -> sym2 M (fun a b => c a b m)).
      { intros m Hm a b Ha Hb. rewrite !C1 by assumption. rewrite (Sw mult a b m) by assumption. f_equal. apply forward_ext; try assumption. intros j Hj. now rewrite Sg, SN. }
      assert (Rh : forall m, (m < N)%nat -> sc2 M (l ^ 3) (fun a b => h a b m) (fun a b => h' a b m)).
      { intros m Hm. exact (Ho mult _ _ _ _ Hok (Sc m Hm) (Rc m Hm) (C2 m Hm) (D2 m Hm)). }
      assert (RN : sc3 M N 1 (Ns t) (Ns t')).
      { intros a b j Ha Hb Hj. rewrite D3, C3, HN by assumption. rewrite !Rmult_1_r. f_equal. f_equal. rewrite <- (backward_rl r (fun m => h a b m - (c a b m + w mult a b m)) j G Hj). apply backward_ext. intros m Hm.
        rewrite (Rh m Hm a b Ha Hb), (Rc m Hm a b Ha Hb), Rw by assumption. ring. }
      split; [exact St|]. split; [intros a b j Ha Hb Hj; rewrite C4, D4, RN, Rv by assumption; ring|]. split; [exact RN|]. split; [rewrite C5, D5; exact HN|].
      rewrite (step_iter _ _ _ _ _ _ _ _ E), (step_iter _ _ _ _ _ _ _ _ E'). now f_equal.
    Qed.
    Lemma rs_condition s s' : rs s s' -> condition M N s = condition M N s'.
    Proof.
      intros (_ & _ & HN & Ho_ & Hit). unfold condition. rewrite Hit. replace (total M N (fun a b j => (Ns s' a b j - Ns_old s' a b j) ^ 2)) with (total M N (fun a b j => (Ns s a b j - Ns_old s a b j) ^ 2)); [reflexivity|]. unfold total.
      apply nsum_ext. intros a Ha. apply nsum_ext. intros b Hb. apply nsum_ext. intros j Hj. now rewrite HN, Ho_, !Rmult_1_r by assumption.
    Qed.
    Lemma rs_loop mult f : ok mult -> forall f' s s' t t', rs s s' -> while_loop (oz mult) M N r mix (v mult) (w mult) f s = Finished t ->
      while_loop (oz' mult) M N (rl r) mix (v' mult) (w' mult) f' s' = Finished t' -> rs t t'.
    Proof.
      intros Hok. induction f as [|f IH]; intros f' s s' t t' H E E'; cbn [while_loop] in E; [discriminate|]. destruct f' as [|f']; cbn [while_loop] in E'; [discriminate|].
      rewrite (rs_condition s s' H) in E. destruct (condition M N s').
      - destruct (step (oz mult) N r mix (v mult) (w mult) s) as [q|] eqn:Q; [|discriminate]. destruct (step (oz' mult) N (rl r) mix (v' mult) (w' mult) s') as [q'|] eqn:Q'; [|discriminate].
        exact (IH f' q q' t t' (rs_step mult s s' q q' Hok H Q Q') E E').
      - injection E as <-. injection E' as <-. exact H.
    Qed.
    Lemma rs_steps mult n : ok mult -> forall s s' t t', rs s s' -> steps (oz mult) N r mix (v mult) (w mult) n s = Some t -> steps (oz' mult) N (rl r) mix (v' mult) (w' mult) n s' = Some t' -> rs t t'.
    Proof.
      intros Hok. induction n as [|n IH]; intros s s' t t' H E E'; cbn [steps] in E, E'; [injection E as <-; injection E' as <-; exact H|].
      destruct (step (oz mult) N r mix (v mult) (w mult) s) as [q|] eqn:Q; [|discriminate]. destruct (step (oz' mult) N (rl r) mix (v' mult) (w' mult) s') as [q'|] eqn:Q'; [|discriminate].
      exact (IH q q' t t' (rs_step mult s s' q q' Hok H Q Q') E E').
    Qed.
    Lemma rs_init mult : rs (init (v mult)) (init (v' mult)).
    Proof.
      split; [split; [intros a b j Ha Hb Hj; cbn; now rewrite (Sv mult a b j)|intros ? ? ? _ _ _; reflexivity]|]. split; [intros a b j Ha Hb Hj; cbn; rewrite (Rv mult a b j) by assumption; ring|]. repeat split; intros ? ? ? _ _ _; cbn; ring.
    Qed.
    Lemma rs_later f f' mults : (forall x, In x mults -> ok x) -> forall s s' i t t' k k', rs s s' -> later_cycles oz f M N r mix v w mults s i = Some (t, k) -> later_cycles oz' f' M N (rl r) mix v' w' mults s' i = Some (t', k') -> rs t t' /\ k = k'.
    Proof.
      induction mults as [|mult mults IH]; intros Hm s s' i t t' k k' H E E'; cbn [later_cycles] in E, E'.
      - injection E as <- <-. injection E' as <- <-. split; [exact H|reflexivity].
      - destruct (next_cycle oz f M N r mix v w mult s) as [q| |] eqn:Q; try discriminate. destruct (next_cycle oz' f' M N (rl r) mix v' w' mult s') as [q'| |] eqn:Q'; try discriminate.
        assert (Hq : rs q q').
        { unfold next_cycle in Q, Q'. destruct (steps (oz mult) N r mix (v mult) (w mult) 5 s) as [z|] eqn:Z; [|discriminate]. destruct (steps (oz' mult) N (rl r) mix (v' mult) (w' mult) 5 s') as [z'|] eqn:Z'; [|discriminate].
          destruct (rs_steps mult 5 (Hm mult (or_introl eq_refl)) s s' z z' H Z Z') as (Z1 & Z2 & Z3 & Z4 & Z5).
          refine (rs_loop mult f (Hm mult (or_introl eq_refl)) f' _ _ q q' _ Q Q'). split; [exact Z1|]. cbn [log_g Ns Ns_old n_iter]. auto. }
        destruct Hq as (Q1 & Q2 & Q3 & Q4 & Q5). rewrite <- Q5 in E'. refine (IH (fun x Hx => Hm x (or_intror Hx)) q q' _ t t' k k' _ E E'). split; [exact Q1|]. auto.
    Qed.
    Lemma rs_cycles f f' tmult t t' k k' : (forall x, In x tmult -> ok x) -> ok 1 -> cycles oz f M N r mix v w tmult = Some (t, k) -> cycles oz' f' M N (rl r) mix v' w' tmult = Some (t', k') -> rs t t' /\ k = k'.
    Proof.
      intros Ht H1. assert (Hm : forall x, In x (tmult ++ [1]) -> ok x) by (intros x Hx; apply in_app_or in Hx; destruct Hx as [Hx|[<-|[]]]; [now apply Ht|exact H1]). clear Ht H1.
      unfold cycles. destruct (tmult ++ [1]) as [|mult rest]; [discriminate|].
      destruct (first_cycle oz f M N r mix v w mult) as [q| |] eqn:Q; try discriminate. destruct (first_cycle oz' f' M N (rl r) mix v' w' mult) as [q'| |] eqn:Q'; try discriminate.
      pose proof (rs_loop mult f (Hm mult (or_introl eq_refl)) f' _ _ q q' (rs_init mult) Q Q') as H. intros E E'. assert (Hk : n_iter q = n_iter q') by apply H. rewrite <- Hk in E'. exact (rs_later f f' rest (fun x Hx => Hm x (or_intror Hx)) q q' _ t t' k k' H E E').
    Qed.
  End Iter.
End Sc.
