(** A species listed in two entries, in the hypernetted-chain solver. *)
From Coq Require Import Reals Lra Psatz List Lia Arith Bool.
From Coquelicot Require Import Coquelicot.
Import ListNotations.
From Verif Require Import M_Const M_Helpers L_Helpers M_HNC L_HNC L_HNC2 L_HNC3.
Open Scope R_scope.

(** [M'] entries for [M] species: entry [a] is of species [q a], and the densities of
    the entries of a species add up to its density *)
Record entries (M M' : nat) (q : nat -> nat) (n n' : nat -> R) : Prop := {
  en_lt : forall a, (a < M')%nat -> (q a < M)%nat;
  en_n : forall s, (s < M)%nat -> nsum M' (fun a => if Nat.eqb (q a) s then n' a else 0) = n s;
  en_onto : forall s, (s < M)%nat -> exists a, (a < M')%nat /\ q a = s }.
Definition en2 (M' : nat) (q : nat -> nat) (f f' : nat -> nat -> R) : Prop := forall a b, (a < M')%nat -> (b < M')%nat -> f' a b = f (q a) (q b).
Definition en3 (M' N : nat) (q : nat -> nat) (f f' : arr3) : Prop := forall a b j, (a < M')%nat -> (b < M')%nat -> (j < N)%nat -> f' a b j = f (q a) (q b) j.

Section En.
  Variables (M M' : nat) (q : nat -> nat) (n n' : nat -> R).
  Hypothesis Hq : entries M M' q n n'.
  Lemma en_sum (f : nat -> R) : nsum M' (fun a => n' a * f (q a)) = nsum M (fun s => n s * f s).
  Proof.
    rewrite (nsum_ext M' (fun a => n' a * f (q a)) (fun a => nsum M (fun s => (if Nat.eqb (q a) s then n' a else 0) * f s))).
    - rewrite nsum_swap. apply nsum_ext. intros s Hs. rewrite <- (en_n _ _ _ _ _ Hq s Hs). rewrite Rmult_comm, <- nsum_scal. apply nsum_ext. intros; ring.
    - intros a Ha. rewrite (nsum_ext M _ (fun s => delta (q a) s * (n' a * f s))) by (intros s _; unfold delta; destruct (Nat.eqb (q a) s); ring).
      rewrite (delta_sum M (q a) (fun s => n' a * f s)) by (now apply (en_lt _ _ _ _ _ Hq)). reflexivity.
  Qed.
  Lemma en_sym2 c c' : en2 M' q c c' -> sym2 M c -> sym2 M' c'.
  Proof. intros H S a b Ha Hb. rewrite !H by assumption. apply S; now apply (en_lt _ _ _ _ _ Hq). Qed.
  Lemma OZ_en c c' h : en2 M' q c c' -> OZ M n c h -> OZ M' n' c' (fun a b => h (q a) (q b)).
  Proof.
    intros Hc H a b Ha Hb. cbv beta. rewrite (H (q a) (q b)) by now apply (en_lt _ _ _ _ _ Hq). rewrite Hc by assumption. f_equal.
    rewrite (nsum_ext M _ (fun s => n s * (c (q a) s * h s (q b)))) by (intros; ring). rewrite <- (en_sum (fun s => c (q a) s * h s (q b))). apply nsum_ext. intros s Hs. rewrite Hc by assumption. ring.
  Qed.
  Lemma SVT_en (m m' : nat -> R) T T' c c' h : (forall a, (a < M')%nat -> m' a = m (q a)) -> en2 M' q T T' -> en2 M' q c c' -> SVT M n m T c h -> SVT M' n' m' T' c' (fun a b => h (q a) (q b)).
  Proof.
    intros Hm HT Hc H a b Ha Hb. cbv beta. rewrite (H (q a) (q b)) by now apply (en_lt _ _ _ _ _ Hq). rewrite Hc by assumption. f_equal.
    rewrite <- (en_sum (fun s => m (q b) / (m (q a) + m (q b)) * (T (q a) s / T (q a) (q b)) * c (q a) s * h s (q b) + m (q a) / (m (q a) + m (q b)) * (T (q b) s / T (q a) (q b)) * h (q a) s * c s (q b))).
    apply nsum_ext. intros s Hs. now rewrite !Hm, !HT, !Hc by assumption.
  Qed.
  Section Iter.
    Variables (N : nat) (r : nat -> R) (mix : R) (oz oz' : R -> (nat -> nat -> R) -> option (nat -> nat -> R)) (v w v' w' : R -> arr3).
    Hypothesis G : good_grid N r.
    Variable ok : R -> Prop.
    Hypothesis So : forall mult c h, ok mult -> sym2 M c -> oz mult c = Some h -> sym2 M h.
    Hypothesis So' : forall mult c h, ok mult -> sym2 M' c -> oz' mult c = Some h -> sym2 M' h.
    Hypothesis Ho : forall mult c c' h h', ok mult -> sym2 M c -> en2 M' q c c' -> oz mult c = Some h -> oz' mult c' = Some h' -> en2 M' q h h'.
    Hypothesis Sv : forall mult, sym3 M N (v mult).
    Hypothesis Sw : forall mult, sym3 M N (w mult).
    Hypothesis Rv : forall mult, en3 M' N q (v mult) (v' mult).
    Hypothesis Rw : forall mult, en3 M' N q (w mult) (w' mult).
    Lemma ren_sym3 f f' : en3 M' N q f f' -> sym3 M N f -> sym3 M' N f'.
    Proof. intros H S a b j Ha Hb Hj. rewrite !H by assumption. apply S; try assumption; now apply (en_lt _ _ _ _ _ Hq). Qed.
    Definition rs (s s' : hnc_state) : Prop :=
      sym_state M N s /\ en3 M' N q (log_g s) (log_g s') /\ en3 M' N q (Ns s) (Ns s') /\ en3 M' N q (Ns_old s) (Ns_old s') /\ n_iter s = n_iter s'.
    Lemma rs_step mult s s' t t' : ok mult -> rs s s' -> step (oz mult) N r mix (v mult) (w mult) s = Some t -> step (oz' mult) N r mix (v' mult) (w' mult) s' = Some t' -> rs t t'.
    Proof.
      intros Hok ([Sg SN] & Hg & HN & Ho_ & Hit) E E'.
      assert (X : forall c h, sym2 M c -> oz mult c = Some h -> oz mult c = Some h /\ sym2 M h) by (intros; split; [assumption|eapply So; eassumption]).
      assert (X' : forall c h, sym2 M' c -> oz' mult c = Some h -> oz' mult c = Some h /\ sym2 M' h) by (intros; split; [assumption|eapply So'; eassumption]).
      destruct (step_meets M N r (oz mult) (fun c h => oz mult c = Some h) mix _ _ s t G X (Sv mult) (Sw mult) (conj Sg SN) E) as [St (c & h & [C1 C2 C3 C4 C5])].
      destruct (step_meets M' N r (oz' mult) (fun c h => oz' mult c = Some h) mix _ _ s' t' G X' (ren_sym3 _ _ (Rv mult) (Sv mult)) (ren_sym3 _ _ (Rw mult) (Sw mult))
        (conj (ren_sym3 _ _ Hg Sg) (ren_sym3 _ _ HN SN)) E') as [St' (c' & h' & [D1 D2 D3 D4 D5])].
      assert (Rc : forall m, (m < N)%nat -> en2 M' q (fun a b => c a b m) (fun a b => c' a b m)).
      { intros m Hm a b Ha Hb. rewrite D1, C1, Rw by (assumption || now apply (en_lt _ _ _ _ _ Hq)). f_equal. apply forward_ext; try assumption. intros j Hj. now rewrite Hg, HN. }
      assert (Sc : forall m, (m < N)%nat -> sym2 M (fun a b => c a b m)).
      { intros m Hm a b Ha Hb. rewrite !C1 by assumption. rewrite (Sw mult a b m) by assumption. f_equal. apply forward_ext; try assumption. intros j Hj. now rewrite Sg, SN. }
      assert (Rh : forall m, (m < N)%nat -> en2 M' q (fun a b => h a b m) (fun a b => h' a b m)).
      { intros m Hm. exact (Ho mult _ _ _ _ Hok (Sc m Hm) (Rc m Hm) (C2 m Hm) (D2 m Hm)). }
      assert (RN : en3 M' N q (Ns t) (Ns t')).
      { intros a b j Ha Hb Hj. rewrite D3, C3, HN by (assumption || now apply (en_lt _ _ _ _ _ Hq)). f_equal. f_equal. apply backward_ext; try assumption. intros m Hm.
        rewrite (Rh m Hm a b Ha Hb), (Rc m Hm a b Ha Hb), Rw by assumption. reflexivity. }
      split; [exact St|]. split; [intros a b j Ha Hb Hj; rewrite C4, D4, RN, Rv by assumption; reflexivity|]. split; [exact RN|]. split; [rewrite C5, D5; exact HN|].
      rewrite (step_iter _ _ _ _ _ _ _ _ E), (step_iter _ _ _ _ _ _ _ _ E'). now f_equal.
    Qed.
    Lemma rs_steps mult nst : ok mult -> forall s s' t t', rs s s' -> steps (oz mult) N r mix (v mult) (w mult) nst s = Some t -> steps (oz' mult) N r mix (v' mult) (w' mult) nst s' = Some t' -> rs t t'.
    Proof.
      intros Hok. induction nst as [|nst IH]; intros s s' t t' H E E'; cbn [steps] in E, E'; [injection E as <-; injection E' as <-; exact H|].
      destruct (step (oz mult) N r mix (v mult) (w mult) s) as [z|] eqn:Q; [|discriminate]. destruct (step (oz' mult) N r mix (v' mult) (w' mult) s') as [z'|] eqn:Q'; [|discriminate].
      exact (IH z z' t t' (rs_step mult s s' z z' Hok H Q Q') E E').
    Qed.
    Lemma rs_init mult : rs (init (v mult)) (init (v' mult)).
    Proof.
      split; [split; [intros a b j Ha Hb Hj; cbn; now rewrite (Sv mult a b j)|intros ? ? ? _ _ _; reflexivity]|]. split; [intros a b j Ha Hb Hj; cbn; now rewrite (Rv mult a b j)|]. repeat split; intros ? ? ? _ _ _; reflexivity.
    Qed.
  End Iter.
End En.
