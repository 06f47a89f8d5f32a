(** An ion species listed as two entries. *)
From Coq Require Import Reals List Lra Lia Bool Arith.
From Verif Require Import M_Const M_PlasmaState M_Interp M_IPD L_PlasmaState L_PlasmaPhysics L_IonFeature L_Order.
From Verif Require M_Potentials.
Import ListNotations.
Open Scope R_scope.

Definition with_density (x : ionr) (rho : R) : ionr := (mkSp (sp_el (fst x)) (sp_Z (fst x)) rho (sp_T (fst x)), snd x).
(** ions that differ in their density only *)
Definition alike (x y : ionr) : Prop := sp_el (fst x) = sp_el (fst y) /\ sp_Z (fst x) = sp_Z (fst y) /\ sp_T (fst x) = sp_T (fst y) /\ snd x = snd y.
Definition alike_at (L L' : list ionr) (i j : nat) : Prop := exists x y, nth_error L i = Some x /\ nth_error L' j = Some y /\ alike x y.

Section Split.
  Variables (Te : R) (A B : list ionr) (x : ionr) (t : R).
  Local Notation L := (A ++ x :: B).
  Local Notation L' := (A ++ with_density x (t * sp_rho (fst x)) :: with_density x ((1 - t) * sp_rho (fst x)) :: B).
  Lemma sum_app_ l m : sum (l ++ m) = sum l + sum m.
  Proof. unfold sum. induction l; cbn [app fold_right]; [ring|rewrite IHl; ring]. Qed.
  Lemma split_sum (F : ionr -> R) : (forall r s, F (with_density x r) + F (with_density x s) = F (with_density x (r + s))) -> sum (map F L) = sum (map F L').
  Proof.
    intros H. rewrite !map_app, !sum_app_. f_equal. cbn [map]. unfold sum. cbn [fold_right]. rewrite <- Rplus_assoc, H. f_equal. f_equal.
    replace (t * sp_rho (fst x) + (1 - t) * sp_rho (fst x)) with (sp_rho (fst x)) by ring. destruct x as [[? ? ? ?] ?]. reflexivity.
  Qed.
  Lemma nd_add r s : nd' (with_density x r) + nd' (with_density x s) = nd' (with_density x (r + s)).
  Proof. unfold nd', sp_n, sp_m, with_density. cbn. unfold Rdiv. ring. Qed.
  Lemma split_n : sum (map nd' L) = sum (map nd' L'). Proof. apply split_sum. apply nd_add. Qed.
  Lemma split_ne : ne_s L = ne_s L'.
  Proof. unfold ne_s. apply split_sum. intros r s. cbn [with_density fst sp_Z]. rewrite <- nd_add. ring. Qed.
  Lemma at_alike (f : ionr -> R) i j : (forall x y, alike x y -> f x = f y) -> alike_at L L' i j -> at_ (map f L) i = at_ (map f L') j.
  Proof.
    intros Hf (y & z & H & H' & HA). unfold at_. rewrite (nth_error_nth (map f L) i 0 (x := f y)) by (now apply map_nth_error). rewrite (nth_error_nth (map f L') j 0 (x := f z)) by (now apply map_nth_error). now apply Hf.
  Qed.
  Lemma al_T : forall x y : ionr, alike x y -> sp_T (fst x) = sp_T (fst y). Proof. now intros ? ? (_ & _ & H & _). Qed.
  Lemma al_Z : forall x y : ionr, alike x y -> sp_Z (fst x) = sp_Z (fst y). Proof. now intros ? ? (_ & H & _). Qed.
  Lemma al_m : forall x y : ionr, alike x y -> el_mass (sp_el (fst x)) = el_mass (sp_el (fst y)). Proof. intros ? ? (H & _). now rewrite H. Qed.
  Lemma al_rc : forall x y : ionr, alike x y -> rc_of x = rc_of y. Proof. intros y z (H & _ & _ & H'). unfold rc_of. now rewrite H, H'. Qed.

  Variables (u : consts) (isle : R -> R -> R) (pint : R -> R -> R -> R).
  (** the models that do not look at the density of one entry *)
  Definition densities_summed (m : ipd_model) : Prop :=
    match m with DebyeHueckelIPD _ | StewartPyattIPD _ | IonSphereIPD _ | PauliBlockingIPD => True | _ => False end.
  Lemma single_split m pop Zi i j : densities_summed m -> alike_at L L' i j -> single u isle pint m (pl Te L) pop Zi i = single u isle pint m (pl Te L') pop Zi j.
  Proof.
    intros Hm S. pose proof split_ne as En. pose proof split_n as Sn.
    assert (K : forall g : ionr -> R, (forall r, g (with_density x r) = g x) -> sum (map (fun x => g x * nd' x) L) = sum (map (fun x => g x * nd' x) L')).
    { intros g Hg. apply split_sum. intros r s. rewrite !Hg, <- nd_add. ring. }
    destruct m as [v|arb|arb|arb cr|C|C arb| |l]; try contradiction; cbn [single pl p_Z p_ne p_ni p_Te p_Ti p_ZA].
    - unfold ipd_debye_hueckel, kappa_D, kappa_i_sq. rewrite !map2_map; cbv beta. rewrite (at_alike _ i j al_T S), En, (K (fun x => sp_Z (fst x) ^ 2 * e_ch u ^ 2)) by reflexivity. reflexivity.
    - unfold ipd_stewart_pyatt. cbv zeta. rewrite !map_map. unfold kappa_D, kappa_i_sq. rewrite !map2_map; cbv beta. rewrite (at_alike _ i j al_T S), En, Sn, (K (fun x => clip6 (sp_Z (fst x)) ^ 2 * e_ch u ^ 2)) by reflexivity. reflexivity.
    - unfold ipd_ion_sphere. cbv zeta. rewrite (at_alike _ i j al_Z S), En. reflexivity.
    - unfold ipd_pauli_blocking. rewrite En. reflexivity.
  Qed.

  (** ions, and the electrons listed after them *)
  Definition alikeE (a a' : nat) : Prop := alike_at L L' a a' \/ exists d, a = (length L + d)%nat /\ a' = (length L' + d)%nat.
  Lemma alike_lt i j : alike_at L L' i j -> (i < length L)%nat /\ (j < length L')%nat.
  Proof. intros (y & z & H & H' & _). split; [apply nth_error_Some; now rewrite H|apply nth_error_Some; now rewrite H']. Qed.
  Lemma extra_alike md (f : ionr -> R) p q a a' : (forall x y, alike x y -> f x = f y) -> alikeE a a' -> at_ (M_Potentials.extra md (map f L) p q) a = at_ (M_Potentials.extra md (map f L') p q) a'.
  Proof.
    intros Hf [S|(d & -> & ->)].
    - destruct (alike_lt a a' S). pose proof (at_alike f a a' Hf S) as E. unfold at_ in *. destruct md; cbn [M_Potentials.extra]; [exact E|rewrite !app_nth1 by (rewrite map_length; lia); exact E|rewrite !app_nth1 by (rewrite map_length; lia); exact E].
    - unfold at_. destruct md; cbn [M_Potentials.extra]; [rewrite !nth_overflow by (rewrite map_length; lia); reflexivity| |]; rewrite !app_nth2 by (rewrite map_length; lia); rewrite !map_length; f_equal; lia.
  Qed.
  Section Pot.
    Variables (md : M_Potentials.mode) (len len' : nat -> nat -> R) (a b a' b' : nat).
    Hypotheses (Ha : alikeE a a') (Hb : alikeE b b') (Hlen : len a b = len' a' b').
    Local Notation E := (env_st Te len L).
    Local Notation E' := (env_st Te len' L').
    Lemma q2_split : M_Potentials.q2 u md E a b = M_Potentials.q2 u md E' a' b'.
    Proof. unfold M_Potentials.q2, M_Potentials.charges. cbn [env_st M_Potentials.e_s state state_of Z_free]. rewrite (extra_alike md _ _ _ a a' al_Z Ha), (extra_alike md _ _ _ b b' al_Z Hb). reflexivity. Qed.
    Lemma pm_split c c' : alikeE c c' -> at_ (M_Potentials.pmasses u md E) c = at_ (M_Potentials.pmasses u md E') c'.
    Proof. intros H. unfold M_Potentials.pmasses, atomic_masses. cbn [env_st M_Potentials.e_s state state_of ions]. rewrite !map_map. apply extra_alike; [exact al_m|exact H]. Qed.
    Lemma tm_split c c' : alikeE c c' -> at_ (M_Potentials.temps md E) c = at_ (M_Potentials.temps md E') c'.
    Proof. intros H. unfold M_Potentials.temps. cbn [env_st M_Potentials.e_s state state_of T_i T_e]. apply extra_alike; [exact al_T|exact H]. Qed.
    Lemma mu_split : M_Potentials.mu u md E a b = M_Potentials.mu u md E' a' b'.
    Proof. unfold M_Potentials.mu. now rewrite (pm_split a a' Ha), (pm_split b b' Hb). Qed.
    Lemma Tab_split : M_Potentials.T_ab u md E a b = M_Potentials.T_ab u md E' a' b'.
    Proof. unfold M_Potentials.T_ab. now rewrite (pm_split a a' Ha), (pm_split b b' Hb), (tm_split a a' Ha), (tm_split b b' Hb). Qed.
    Lemma lam_split : M_Potentials.lambda_ab u md E a b = M_Potentials.lambda_ab u md E' a' b'.
    Proof. unfold M_Potentials.lambda_ab. now rewrite mu_split, Tab_split. Qed.
    Lemma kap_split : M_Potentials.kappa E a b = M_Potentials.kappa E' a' b'.
    Proof. unfold M_Potentials.kappa. cbn [env_st M_Potentials.e_len]. now rewrite Hlen. Qed.
    Lemma lt_split c c' : alikeE c c' -> Nat.ltb c (length L) = Nat.ltb c' (length L').
    Proof. intros [S|(d & -> & ->)]; [destruct (alike_lt c c' S) as [H1 H2]; apply Nat.ltb_lt in H1, H2; congruence|]. transitivity false; [apply Nat.ltb_ge; lia|symmetry; apply Nat.ltb_ge; lia]. Qed.
    Lemma rcut_split : M_Potentials.r_cut E a b = M_Potentials.r_cut E' a' b'.
    Proof.
      unfold M_Potentials.r_cut. rewrite !nion_st, (lt_split a a' Ha), (lt_split b b' Hb). cbn [env_st M_Potentials.e_rc].
      assert (X : forall c c', alikeE c c' -> at_ (map rc_of L) c = at_ (map rc_of L') c') by (intros c c' H; exact (extra_alike M_Potentials.Off rc_of 0 0 c c' al_rc H)).
      rewrite (X a a' Ha), (X b b' Hb). reflexivity.
    Qed.
    Lemma eqb_split : (Nat.ltb a (length L) && Nat.ltb b (length L))%bool = false -> Nat.eqb a b = Nat.eqb a' b'.
    Proof.
      intros H. apply andb_false_iff in H. destruct Ha as [Sa|(d & H1 & H2)], Hb as [Sb|(d' & H3 & H4)].
      - destruct (alike_lt _ _ Sa), (alike_lt _ _ Sb). destruct H as [H|H]; apply Nat.ltb_ge in H; lia.
      - destruct (alike_lt _ _ Sa). transitivity false; [apply Nat.eqb_neq; lia|symmetry; apply Nat.eqb_neq; lia].
      - destruct (alike_lt _ _ Sb). transitivity false; [apply Nat.eqb_neq; lia|symmetry; apply Nat.eqb_neq; lia].
      - destruct (Nat.eqb_spec a b), (Nat.eqb_spec a' b'); try reflexivity; lia.
    Qed.
    Lemma full_r_split c : (forall f g, c <> M_Potentials.Pauli f g) -> M_Potentials.full_r u md E a b c = M_Potentials.full_r u md E' a' b' c.
    Proof.
      assert (CS : M_Potentials.coulomb_r u md E a b = M_Potentials.coulomb_r u md E' a' b') by (unfold M_Potentials.coulomb_r; now rewrite q2_split).
      intros Hc. destruct c; cbn [M_Potentials.full_r]; rewrite ?CS, ?kap_split, ?lam_split, ?Tab_split, ?rcut_split, ?q2_split; try reflexivity.
      - rewrite !nion_st, (lt_split a a' Ha), (lt_split b b' Hb). pose proof eqb_split as Q. rewrite (lt_split a a' Ha), (lt_split b b' Hb) in Q. destruct (_ && _)%bool; [reflexivity|]. now rewrite Q.
      - destruct md; try reflexivity. rewrite !nion_st, (lt_split a a' Ha), (lt_split b b' Hb). pose proof eqb_split as Q. rewrite (lt_split a a' Ha), (lt_split b b' Hb) in Q. destruct (_ && _)%bool; [reflexivity|]. now rewrite Q.
      - exfalso. now apply (Hc f g).
    Qed.
  End Pot.
End Split.
