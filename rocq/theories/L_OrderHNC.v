(** The order of the species in the hypernetted-chain solvers. *)
From Coq Require Import Reals Lra Psatz List Lia Arith Bool Permutation.
From Coquelicot Require Import Coquelicot.
Import ListNotations.
From Verif Require Import M_Const M_Helpers L_Helpers M_HNC L_HNC L_HNC2 L_HNC3.
Open Scope R_scope.

(** a renumbering of the first [M] numbers *)
Definition renumbers (M : nat) (p : nat -> nat) : Prop :=
  (forall a, (a < M)%nat -> (p a < M)%nat) /\ (forall a b, (a < M)%nat -> (b < M)%nat -> p a = p b -> a = b).
(** the same quantities, renumbered *)
Definition ren1 (M : nat) (p : nat -> nat) (f f' : nat -> R) : Prop := forall a, (a < M)%nat -> f' a = f (p a).
Definition ren2 (M : nat) (p : nat -> nat) (f f' : nat -> nat -> R) : Prop := forall a b, (a < M)%nat -> (b < M)%nat -> f' a b = f (p a) (p b).
Definition ren3 (M N : nat) (p : nat -> nat) (f f' : arr3) : Prop := forall a b j, (a < M)%nat -> (b < M)%nat -> (j < N)%nat -> f' a b j = f (p a) (p b) j.

Lemma nsum_fold n f : nsum n f = fold_right Rplus 0 (map f (seq 0 n)).
Proof.
  induction n as [|n IH]; [reflexivity|]. rewrite seq_S, map_app. cbn [nsum map Nat.add]. rewrite IH, fold_right_app. cbn [fold_right].
  generalize (map f (seq 0 n)). intros l. induction l; cbn [fold_right]; [ring|]. rewrite <- IHl. ring.
Qed.
Lemma nsum_ren M p f : renumbers M p -> nsum M (fun a => f (p a)) = nsum M f.
Proof.
  intros [Hp Hi]. rewrite !nsum_fold. rewrite <- (map_map p f).
  assert (HP : Permutation (map p (seq 0 M)) (seq 0 M)).
  { apply NoDup_Permutation_bis.
    - assert (G : forall l, NoDup l -> (forall a, In a l -> (a < M)%nat) -> NoDup (map p l)).
      { induction l as [|a l IH]; intros ND HB; cbn; [constructor|]. inversion ND as [|? ? Hn ND']; subst. constructor; [|apply IH; [assumption|intros; apply HB; now right]].
        intros H. apply in_map_iff in H. destruct H as (b & E & Hb). apply Hi in E; [subst; contradiction|apply HB; now right|apply HB; now left]. }
      apply G; [apply seq_NoDup|]. intros a Ha. apply in_seq in Ha. lia.
    - rewrite map_length. lia.
    - intros y Hy. apply in_map_iff in Hy. destruct Hy as (a & <- & Ha). apply in_seq in Ha. apply in_seq. split; [lia|]. apply Hp. lia. }
  apply (Permutation_map f) in HP. induction HP; cbn [fold_right]; lra.
Qed.

Section Ren.
  Variables (M : nat) (p : nat -> nat).
  Hypothesis Hp : renumbers M p.
  Lemma ren_sym2 c c' : ren2 M p c c' -> sym2 M c -> sym2 M c'.
  Proof. intros H S a b Ha Hb. rewrite !H by assumption. apply S; now apply Hp. Qed.
  Lemma OZ_ren n n' c c' h : ren1 M p n n' -> ren2 M p c c' -> OZ M n c h -> OZ M n' c' (fun a b => h (p a) (p b)).
  Proof.
    intros Hn Hc H a b Ha Hb. cbv beta. rewrite (H (p a) (p b)) by now apply Hp. rewrite Hc by assumption. f_equal.
    rewrite <- (nsum_ren M p _ Hp). apply nsum_ext. intros s Hs. now rewrite Hn, Hc by assumption.
  Qed.
  Lemma SVT_ren n n' m m' T T' c c' h : ren1 M p n n' -> ren1 M p m m' -> ren2 M p T T' -> ren2 M p c c' -> SVT M n m T c h -> SVT M n' m' T' c' (fun a b => h (p a) (p b)).
  Proof.
    intros Hn Hm HT Hc H a b Ha Hb. cbv beta. rewrite (H (p a) (p b)) by now apply Hp. rewrite Hc by assumption. f_equal.
    rewrite <- (nsum_ren M p _ Hp). apply nsum_ext. intros s Hs. now rewrite Hn, !Hm, !HT, !Hc by assumption.
  Qed.
  Lemma total_ren N f f' : ren3 M N p f f' -> total M N f' = total M N f.
  Proof.
    intros H. unfold total. rewrite <- (nsum_ren M p (fun a => nsum M (fun b => nsum N (fun j => f a b j))) Hp). apply nsum_ext. intros a Ha.
    rewrite <- (nsum_ren M p (fun b => nsum N (fun j => f (p a) b j)) Hp). apply nsum_ext. intros b Hb. apply nsum_ext. intros j Hj. now apply H.
  Qed.

  Section Iter.
    Variables (N : nat) (r : nat -> R) (mix : R) (oz oz' : R -> (nat -> nat -> R) -> option (nat -> nat -> R)) (v w v' w' : R -> arr3).
    Hypothesis G : good_grid N r.
    Variable ok : R -> Prop.
    Hypothesis So : forall mult c h, ok mult -> sym2 M c -> oz mult c = Some h -> sym2 M h.
    Hypothesis So' : forall mult c h, ok mult -> sym2 M c -> oz' mult c = Some h -> sym2 M h.
    Hypothesis Ho : forall mult c c' h h', ok mult -> sym2 M c -> ren2 M p c c' -> oz mult c = Some h -> oz' mult c' = Some h' -> ren2 M p h h'.
    Hypothesis Sv : forall mult, sym3 M N (v mult).
    Hypothesis Sw : forall mult, sym3 M N (w mult).
    Hypothesis Rv : forall mult, ren3 M N p (v mult) (v' mult).
    Hypothesis Rw : forall mult, ren3 M N p (w mult) (w' mult).
    Lemma ren_sym3 f f' : ren3 M N p f f' -> sym3 M N f -> sym3 M N f'.
    Proof. intros H S a b j Ha Hb Hj. rewrite !H by assumption. apply S; try assumption; now apply Hp. Qed.
    Definition rs (s s' : hnc_state) : Prop :=
      sym_state M N s /\ ren3 M N p (log_g s) (log_g s') /\ ren3 M N p (Ns s) (Ns s') /\ ren3 M N p (Ns_old s) (Ns_old s') /\ n_iter s = n_iter s'.
    Lemma rs_step mult s s' t t' : ok mult -> rs s s' -> step (oz mult) N r mix (v mult) (w mult) s = Some t -> step (oz' mult) N r mix (v' mult) (w' mult) s' = Some t' -> rs t t'.
    Proof.
      intros Hok ([Sg SN] & Hg & HN & Ho_ & Hit) E E'.
      assert (X : forall c h, sym2 M c -> oz mult c = Some h -> oz mult c = Some h /\ sym2 M h) by (intros; split; [assumption|eapply So; eassumption]).
      assert (X' : forall c h, sym2 M c -> oz' mult c = Some h -> oz' mult c = Some h /\ sym2 M h) by (intros; split; [assumption|eapply So'; eassumption]).
      destruct (step_meets M N r (oz mult) (fun c h => oz mult c = Some h) mix _ _ s t G X (Sv mult) (Sw mult) (conj Sg SN) E) as [St (c & h & [C1 C2 C3 C4 C5])].
      destruct (step_meets M N r (oz' mult) (fun c h => oz' mult c = Some h) mix _ _ s' t' G X' (ren_sym3 _ _ (Rv mult) (Sv mult)) (ren_sym3 _ _ (Rw mult) (Sw mult))
        (conj (ren_sym3 _ _ Hg Sg) (ren_sym3 _ _ HN SN)) E') as [St' (c' & h' & [D1 D2 D3 D4 D5])].
      assert (Rc : forall m, (m < N)%nat -> ren2 M p (fun a b => c a b m) (fun a b => c' a b m)).
      { intros m Hm a b Ha Hb. rewrite D1, C1, Rw by (assumption || now apply Hp). f_equal. apply forward_ext; try assumption. intros j Hj. now rewrite Hg, HN. }
      assert (Sc : forall m, (m < N)%nat -> sym2 M (fun a b => c a b m)).
      { intros m Hm a b Ha Hb. rewrite !C1 by assumption. rewrite (Sw mult a b m) by assumption. f_equal. apply forward_ext; try assumption. intros j Hj. now rewrite Sg, SN. }
      assert (Rh : forall m, (m < N)%nat -> ren2 M p (fun a b => h a b m) (fun a b => h' a b m)).
      { intros m Hm. exact (Ho mult _ _ _ _ Hok (Sc m Hm) (Rc m Hm) (C2 m Hm) (D2 m Hm)). }
      assert (RN : ren3 M N p (Ns t) (Ns t')).
      { intros a b j Ha Hb Hj. rewrite D3, C3, HN by (assumption || now apply Hp). f_equal. f_equal. apply backward_ext; try assumption. intros m Hm.
        rewrite (Rh m Hm a b Ha Hb), (Rc m Hm a b Ha Hb), Rw by assumption. reflexivity. }
      split; [exact St|]. split; [intros a b j Ha Hb Hj; rewrite C4, D4, RN, Rv by assumption; reflexivity|]. split; [exact RN|]. split; [rewrite C5, D5; exact HN|].
      rewrite (step_iter _ _ _ _ _ _ _ _ E), (step_iter _ _ _ _ _ _ _ _ E'). now f_equal.
    Qed.
    Lemma rs_condition s s' : rs s s' -> condition M N s = condition M N s'.
    Proof.
      intros (_ & _ & HN & Ho_ & Hit). unfold condition. rewrite Hit, <- (total_ren N (fun a b j => (Ns s a b j - Ns_old s a b j) ^ 2) (fun a b j => (Ns s' a b j - Ns_old s' a b j) ^ 2)); [reflexivity|].
      intros a b j Ha Hb Hj. now rewrite HN, Ho_ by assumption.
    Qed.
    Lemma rs_loop mult f : ok mult -> forall f' s s' t t', rs s s' -> while_loop (oz mult) M N r mix (v mult) (w mult) f s = Finished t ->
      while_loop (oz' mult) M N r mix (v' mult) (w' mult) f' s' = Finished t' -> rs t t'.
    Proof.
      intros Hok. induction f as [|f IH]; intros f' s s' t t' H E E'; cbn [while_loop] in E; [discriminate|]. destruct f' as [|f']; cbn [while_loop] in E'; [discriminate|].
      rewrite (rs_condition s s' H) in E. destruct (condition M N s').
      - destruct (step (oz mult) N r mix (v mult) (w mult) s) as [q|] eqn:Q; [|discriminate]. destruct (step (oz' mult) N r mix (v' mult) (w' mult) s') as [q'|] eqn:Q'; [|discriminate].
        exact (IH f' q q' t t' (rs_step mult s s' q q' Hok H Q Q') E E').
      - injection E as <-. injection E' as <-. exact H.
    Qed.
    Lemma rs_steps mult n : ok mult -> forall s s' t t', rs s s' -> steps (oz mult) N r mix (v mult) (w mult) n s = Some t -> steps (oz' mult) N r mix (v' mult) (w' mult) n s' = Some t' -> rs t t'.
    Proof.
      intros Hok. induction n as [|n IH]; intros s s' t t' H E E'; cbn [steps] in E, E'; [injection E as <-; injection E' as <-; exact H|].
      destruct (step (oz mult) N r mix (v mult) (w mult) s) as [q|] eqn:Q; [|discriminate]. destruct (step (oz' mult) N r mix (v' mult) (w' mult) s') as [q'|] eqn:Q'; [|discriminate].
      exact (IH q q' t t' (rs_step mult s s' q q' Hok H Q Q') E E').
    Qed.
    Lemma rs_init mult : rs (init (v mult)) (init (v' mult)).
    Proof.
      split; [split; [intros a b j Ha Hb Hj; cbn; now rewrite (Sv mult a b j)|intros ? ? ? _ _ _; reflexivity]|]. split; [intros a b j Ha Hb Hj; cbn; now rewrite (Rv mult a b j)|]. repeat split; intros ? ? ? _ _ _; reflexivity.
    Qed.
    Lemma rs_later f f' mults : (forall x, In x mults -> ok x) -> forall s s' i t t' k k', rs s s' -> later_cycles oz f M N r mix v w mults s i = Some (t, k) -> later_cycles oz' f' M N r mix v' w' mults s' i = Some (t', k') -> rs t t' /\ k = k'.
    Proof.
      induction mults as [|mult mults IH]; intros Hm s s' i t t' k k' H E E'; cbn [later_cycles] in E, E'.
      - injection E as <- <-. injection E' as <- <-. split; [exact H|reflexivity].
      - destruct (next_cycle oz f M N r mix v w mult s) as [q| |] eqn:Q; try discriminate. destruct (next_cycle oz' f' M N r mix v' w' mult s') as [q'| |] eqn:Q'; try discriminate.
        assert (Hq : rs q q').
        { unfold next_cycle in Q, Q'. destruct (steps (oz mult) N r mix (v mult) (w mult) 5 s) as [z|] eqn:Z; [|discriminate]. destruct (steps (oz' mult) N r mix (v' mult) (w' mult) 5 s') as [z'|] eqn:Z'; [|discriminate].
          destruct (rs_steps mult 5 (Hm mult (or_introl eq_refl)) s s' z z' H Z Z') as (Z1 & Z2 & Z3 & Z4 & Z5).
          refine (rs_loop mult f (Hm mult (or_introl eq_refl)) f' _ _ q q' _ Q Q'). split; [exact Z1|]. cbn [log_g Ns Ns_old n_iter]. auto. }
        destruct Hq as (Q1 & Q2 & Q3 & Q4 & Q5). rewrite <- Q5 in E'. refine (IH (fun x Hx => Hm x (or_intror Hx)) q q' _ t t' k k' _ E E'). split; [exact Q1|]. auto.
    Qed.
    Lemma rs_cycles f f' tmult t t' k k' : (forall x, In x tmult -> ok x) -> ok 1 -> cycles oz f M N r mix v w tmult = Some (t, k) -> cycles oz' f' M N r mix v' w' tmult = Some (t', k') -> rs t t' /\ k = k'.
    Proof.
      intros Ht H1. assert (Hm : forall x, In x (tmult ++ [1]) -> ok x) by (intros x Hx; apply in_app_or in Hx; destruct Hx as [Hx|[<-|[]]]; [now apply Ht|exact H1]). clear Ht H1.
      unfold cycles. destruct (tmult ++ [1]) as [|mult rest]; [discriminate|].
      destruct (first_cycle oz f M N r mix v w mult) as [q| |] eqn:Q; try discriminate. destruct (first_cycle oz' f' M N r mix v' w' mult) as [q'| |] eqn:Q'; try discriminate.
      pose proof (rs_loop mult f (Hm mult (or_introl eq_refl)) f' _ _ q q' (rs_init mult) Q Q') as H. intros E E'. assert (Hk : n_iter q = n_iter q') by apply H. rewrite <- Hk in E'. exact (rs_later f f' rest (fun x Hx => Hm x (or_intror Hx)) q q' _ t t' k k' H E E').
    Qed.
  End Iter.
End Ren.
