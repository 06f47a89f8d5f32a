(** The order in which the ions of a plasma are listed. *)
From Coq Require Import Reals List Lra Lia Bool Arith Permutation.
From Verif Require Import M_Const M_PlasmaState M_Interp M_IPD L_PlasmaState L_PlasmaPhysics L_IonFeature.
From Verif Require M_Potentials.
Import ListNotations.
Open Scope R_scope.

(** an ion with the core radius set by the user (negative: none) *)
Notation ionr := (spec * R)%type.
Definition state (Te : R) (L : list ionr) : pstate := state_of fst Te (map snd L) L.
(** the same ion in two listings *)
Definition same (L L' : list ionr) (i j : nat) : Prop := exists x, nth_error L i = Some x /\ nth_error L' j = Some x.
(** two arrays give every ion the same entry; an array of one entry is broadcast *)
Definition follows {A} (L L' : list ionr) (l l' : list A) : Prop :=
  (exists v, l = [v] /\ l' = [v]) \/
  (length l = length L /\ length l' = length L' /\ forall i j, same L L' i j -> nth_error l i = nth_error l' j).

Section Order.
  Variables (Te : R) (L L' : list ionr).
  Hypothesis HP : Permutation L L'.
  Lemma sp_f (f : ionr -> R) : sum (map f L) = sum (map f L').
  Proof. apply sum_perm. now apply Permutation_map. Qed.
  Lemma len_eq : length L = length L'. Proof. now apply Permutation_length. Qed.
  Lemma follows_map {A} (f : ionr -> A) : follows L L' (map f L) (map f L').
  Proof. right. rewrite !map_length. split; [reflexivity|]. split; [reflexivity|]. intros i j (x & H & H'). erewrite !map_nth_error by eassumption. reflexivity. Qed.
  Lemma at_same (f : ionr -> R) i j : same L L' i j -> at_ (map f L) i = at_ (map f L') j.
  Proof.
    intros (x & H & H'). unfold at_. erewrite !nth_error_nth; [reflexivity| |]; erewrite map_nth_error by eassumption; reflexivity.
  Qed.
  Lemma same_lt i j : same L L' i j -> (i < length L)%nat /\ (j < length L')%nat.
  Proof. intros (x & H & H'). split; [apply nth_error_Some; now rewrite H|apply nth_error_Some; now rewrite H']. Qed.
  Lemma map2_map {A} (g : R -> R -> R) (f h : A -> R) l : map2 g (map f l) (map h l) = map (fun x => g (f x) (h x)) l.
  Proof. induction l; cbn; [reflexivity|]. now rewrite IHl. Qed.
  Lemma map2_len (g : R -> R -> R) l m : length l = length m -> length (map2 g l m) = length l.
  Proof. revert m. induction l; intros [|b m]; cbn; intros H; try reflexivity; try discriminate. f_equal. apply IHl. now injection H. Qed.
  Lemma map2_nth (g : R -> R -> R) l m i x y : nth_error l i = Some x -> nth_error m i = Some y -> nth_error (map2 g l m) i = Some (g x y).
  Proof. revert m i. induction l; intros [|b m] [|i]; cbn; try discriminate; intros H1 H2; [congruence|]. now apply IHl. Qed.
  Lemma nth_some {A} (l : list A) i : (i < length l)%nat -> exists x, nth_error l i = Some x.
  Proof. intros H. destruct (nth_error l i) eqn:E; [eauto|]. apply nth_error_None in E. lia. Qed.
  Lemma len1 {A} (l : list A) : length l = 1%nat -> exists v, l = [v].
  Proof. destruct l as [|v [|? ?]]; cbn; try discriminate. eauto. Qed.
  (** elementwise operations *)
  Lemma follows_ew g a a' b b' : follows L L' a a' -> follows L L' b b' -> exists c c', ew g a b = Some c /\ ew g a' b' = Some c' /\ follows L L' c c'.
  Proof.
    pose proof len_eq as HL.
    intros [(v & -> & ->)|(A1 & A2 & A3)] [(x & -> & ->)|(B1 & B2 & B3)].
    - exists [g v x], [g v x]. split; [reflexivity|]. split; [reflexivity|]. left. eauto.
    - assert (E : forall l : list R, ew g [v] l = Some (map (fun x => g v x) l)).
      { intros l. unfold ew. cbn [length]. destruct (Nat.eqb_spec 1 (length l)) as [e|e]; [|reflexivity]. destruct (len1 l (eq_sym e)) as [y ->]. reflexivity. }
      rewrite !E. eexists. eexists. split; [reflexivity|]. split; [reflexivity|]. right. rewrite !map_length. split; [assumption|]. split; [assumption|]. intros i j S. rewrite !nth_error_map. now rewrite (B3 i j S).
    - assert (E : forall l : list R, ew g l [x] = Some (map (fun v => g v x) l)).
      { intros l. unfold ew. cbn [length]. destruct (Nat.eqb_spec (length l) 1) as [e|e]; [destruct (len1 l e) as [y ->]; reflexivity|]. destruct l as [|? [|? ?]]; try reflexivity. }
      rewrite !E. eexists. eexists. split; [reflexivity|]. split; [reflexivity|]. right. rewrite !map_length. split; [assumption|]. split; [assumption|]. intros i j S. rewrite !nth_error_map. now rewrite (A3 i j S).
    - assert (E : forall l m : list R, length l = length m -> ew g l m = Some (map2 g l m)) by (intros l m H; unfold ew; now rewrite H, Nat.eqb_refl).
      rewrite !E by congruence. eexists. eexists. split; [reflexivity|]. split; [reflexivity|]. right. rewrite !map2_len by congruence. split; [assumption|]. split; [assumption|]. intros i j S.
      destruct (same_lt i j S) as [Hi Hj]. destruct (nth_some a i ltac:(lia)) as [x Hx]. destruct (nth_some b i ltac:(lia)) as [y Hy].
      rewrite (map2_nth g a b i x y Hx Hy). pose proof (A3 i j S) as Ea. pose proof (B3 i j S) as Eb. rewrite Hx in Ea. rewrite Hy in Eb. symmetry. apply map2_nth; congruence.
  Qed.

  Definition nd' (x : ionr) : R := sp_n (fst x).
  Lemma ni_st M : n_i (state Te M) = Some (map nd' M). Proof. unfold state. now rewrite ni_of. Qed.
  Definition ne_s (M : list ionr) : R := sum (map (fun x => nd' x * sp_Z (fst x)) M).
  Lemma ne_st M : n_e (state Te M) = Some (ne_s M). Proof. unfold state. now rewrite L_IonFeature.ne_of. Qed.
  Lemma ne_s_eq : ne_s L = ne_s L'. Proof. apply (sp_f). Qed.

  (** depressions *)
  Variables (u : consts) (isle : R -> R -> R) (pint : R -> R -> R -> R).
  Definition pl (M : list ionr) : plasma := mkPl (map (fun x => sp_Z (fst x)) M) (ne_s M) (map nd' M) Te (map (fun x => sp_T (fst x)) M) (map (fun x => el_Z (sp_el (fst x))) M).
  Lemma plasma_st M : plasma_of (state Te M) = Some (pl M).
  Proof. unfold plasma_of. rewrite ne_st, ni_st. cbn [obind]. unfold pl, state, state_of. cbn [Z_free T_e T_i ions]. now rewrite map_map. Qed.
  Lemma single_same m pop Zi i j : same L L' i j -> (forall v, m <> ConstantIPD v) -> single u isle pint m (pl L) pop Zi i = single u isle pint m (pl L') pop Zi j.
  Proof.
    intros S Hm. pose proof ne_s_eq as En. assert (Sn : sum (map nd' L) = sum (map nd' L')) by apply (sp_f).
    destruct m as [v|arb|arb|arb cr|C|C arb| |l]; cbn [single pl p_Z p_ne p_ni p_Te p_Ti p_ZA].
    - exfalso. now apply (Hm v).
    - unfold ipd_debye_hueckel, kappa_D, kappa_i_sq. rewrite !map2_map; cbv beta. 
    rewrite (at_same _ i j S), En.
    rewrite (sp_f (fun x => sp_Z (fst x) ^ 2 * e_ch u ^ 2 * nd' x)). reflexivity.
    - unfold ipd_stewart_pyatt. cbv zeta. rewrite !map_map. unfold kappa_D, kappa_i_sq. rewrite !map2_map; cbv beta. rewrite (at_same _ i j S), En, Sn, (sp_f (fun x => clip6 (sp_Z (fst x)) ^ 2 * e_ch u ^ 2 * nd' x)). reflexivity.
    - unfold ipd_preston. cbv zeta. rewrite !map_map. unfold kappa_D, kappa_i_sq. rewrite (at_same _ i j S), En, Sn. destruct pop as [p|]; rewrite ?map_map, !(map2_map (A := spec * R)); cbv beta.
      + set (c := mean (map2 Rmult (map INR (seq 0 (length p))) p)). rewrite (sp_f (fun x => c ^ 2 * e_ch u ^ 2 * nd' x)). reflexivity.
      + rewrite (sp_f (fun x => (ne_s L' / nd' x) ^ 2 * e_ch u ^ 2 * nd' x)). reflexivity.
    - unfold ipd_ion_sphere. cbv zeta. rewrite (at_same _ i j S), En. reflexivity.
    - unfold ipd_ecker_kroell, ek_kappa_i_sq. cbv zeta. rewrite !map_map, !map2_map, !(at_same _ i j S), En, Sn; cbv beta. set (nc := n_crit _ _ _).
      rewrite (sp_f (fun x => sp_Z (fst x) ^ 2 * e_ch u ^ 2 * nd' x / (1 * eps0 u * kB u * sp_T (fst x)))).
      rewrite (sp_f (fun x => sp_Z (fst x) ^ 2 * e_ch u ^ 2 * (nc / (ne_s L' + sum (map nd' L')) * nd' x) / (1 * eps0 u * kB u * sp_T (fst x)))). reflexivity.
    - unfold ipd_pauli_blocking. rewrite En. reflexivity.
    - reflexivity.
  Qed.
  (** constants are one number for all ions *)
  Fixpoint uniform (m : ipd_model) : Prop :=
    match m with ConstantIPD v => exists x, v = [x] | IPDSum l => (fix all l := match l with [] => True | m :: l => uniform m /\ all l end) l | _ => True end.
  Lemma seq_nth_error (f : nat -> R) n i : (i < n)%nat -> nth_error (map f (seq 0 n)) i = Some (f i).
  Proof. intros H. rewrite nth_error_map. replace (nth_error (seq 0 n) i) with (Some i); [reflexivity|]. symmetry. rewrite (nth_error_nth' _ 0%nat) by now rewrite seq_length. now rewrite seq_nth. Qed.
  Lemma evaluate_follows : forall m, uniform m -> exists l l', evaluate u isle pint m (pl L) = Some l /\ evaluate u isle pint m (pl L') = Some l' /\ follows L L' l l'.
  Proof.
    assert (B : forall m, (forall v, m <> ConstantIPD v) -> follows L L'
      (map (fun j => single u isle pint m (pl L) None (at_ (p_Z (pl L)) j) j) (seq 0 (length (p_Z (pl L))))) (map (fun j => single u isle pint m (pl L') None (at_ (p_Z (pl L')) j) j) (seq 0 (length (p_Z (pl L')))))).
    { intros m Hm. assert (X : forall M, length (p_Z (pl M)) = length M) by (intros M; apply map_length). rewrite !X. right. rewrite !map_length, !seq_length. split; [reflexivity|]. split; [reflexivity|]. intros i j S. destruct (same_lt i j S).
      rewrite !seq_nth_error by assumption. f_equal. cbn [pl p_Z]. rewrite (at_same _ i j S). now apply single_same. }
    fix IH 1. intros m Hm. destruct m as [v|arb|arb|arb cr|C|C arb| |l]; cbn [evaluate]; try (eexists; eexists; split; [reflexivity|]; split; [reflexivity|]; apply B; discriminate).
    - destruct Hm as [x ->]. exists [x], [x]. split; [reflexivity|]. split; [reflexivity|]. left. eauto.
    - assert (G : forall a a', follows L L' a a' -> exists c c',
        fold_left (fun out m => obind out (fun o => obind (evaluate u isle pint m (pl L)) (fun x => ew Rplus o x))) l (Some a) = Some c /\
        fold_left (fun out m => obind out (fun o => obind (evaluate u isle pint m (pl L')) (fun x => ew Rplus o x))) l (Some a') = Some c' /\ follows L L' c c').
      { cbn [uniform] in Hm. induction l as [|m l IHl]; intros a a' Ha; cbn [fold_left].
        - exists a, a'. auto.
        - destruct Hm as [H1 H2]. destruct (IH m H1) as (x & x' & Ex & Ex' & Fx). destruct (follows_ew Rplus a a' x x' Ha Fx) as (c & c' & Ec & Ec' & Fc). cbn [obind]. rewrite Ex, Ex'. cbn [obind]. rewrite Ec, Ec'. now apply IHl. }
      apply G. left. exists 0. auto.
  Qed.

  (** pair potentials: the ions first, the electrons after them *)
  Definition rc_of (x : ionr) : R := if Rgt_dec (snd x) 0 then snd x else el_radius (sp_el (fst x)).
  Lemma rc_st M : ion_core_radius (state Te M) = Some (map rc_of M).
  Proof. unfold ion_core_radius, lookup_radius, state, state_of. cbn [over_radius ions]. rewrite map_map, ew_map. reflexivity. Qed.
  Definition env_st (len : nat -> nat -> R) (M : list ionr) : M_Potentials.env := M_Potentials.mkEnv (state Te M) (map nd' M) (ne_s M) (map rc_of M) len.
  Lemma env_of_st len M : M_Potentials.env_of (state Te M) len = Some (env_st len M).
  Proof. unfold M_Potentials.env_of. rewrite ni_st, ne_st, rc_st. reflexivity. Qed.
  Definition sameE (a a' : nat) : Prop := same L L' a a' \/ (length L <= a /\ a = a')%nat.
  Lemma extra_same md (f : ionr -> R) x y a a' : sameE a a' -> at_ (M_Potentials.extra md (map f L) x y) a = at_ (M_Potentials.extra md (map f L') x y) a'.
  Proof.
    pose proof len_eq as HL. intros [S|[H <-]].
    - destruct (same_lt a a' S). pose proof (at_same f a a' S) as E. unfold at_ in *. destruct md; cbn [M_Potentials.extra]; [exact E|rewrite !app_nth1 by (rewrite map_length; lia); exact E|rewrite !app_nth1 by (rewrite map_length; lia); exact E].
    - unfold at_. destruct md; cbn [M_Potentials.extra]; [rewrite !nth_overflow by (rewrite map_length; lia); reflexivity| |]; rewrite !app_nth2 by (rewrite map_length; lia); rewrite !map_length, HL; reflexivity.
  Qed.
  Section Pot.
    Variables (md : M_Potentials.mode) (len len' : nat -> nat -> R) (a b a' b' : nat).
    Hypotheses (Ha : sameE a a') (Hb : sameE b b') (Hlen : len a b = len' a' b').
    Local Notation E := (env_st len L).
    Local Notation E' := (env_st len' L').
    Lemma q2_same : M_Potentials.q2 u md E a b = M_Potentials.q2 u md E' a' b'.
    Proof. unfold M_Potentials.q2, M_Potentials.charges. cbn [env_st M_Potentials.e_s state state_of Z_free]. rewrite (extra_same md _ _ _ a a' Ha), (extra_same md _ _ _ b b' Hb). reflexivity. Qed.
    Lemma den_same c c' : sameE c c' -> at_ (M_Potentials.densities md E) c = at_ (M_Potentials.densities md E') c'.
    Proof. intros H. unfold M_Potentials.densities. cbn [env_st M_Potentials.e_ni M_Potentials.e_ne]. rewrite ne_s_eq. now apply extra_same. Qed.
    Lemma alpha_same : M_Potentials.alpha md E a b = M_Potentials.alpha md E' a' b'.
    Proof. unfold M_Potentials.alpha. rewrite (den_same a a' Ha), (den_same b b' Hb). reflexivity. Qed.
    Lemma pm_same c c' : sameE c c' -> at_ (M_Potentials.pmasses u md E) c = at_ (M_Potentials.pmasses u md E') c'.
    Proof. intros H. unfold M_Potentials.pmasses, atomic_masses. cbn [env_st M_Potentials.e_s state state_of ions]. rewrite !map_map. now apply extra_same. Qed.
    Lemma tm_same c c' : sameE c c' -> at_ (M_Potentials.temps md E) c = at_ (M_Potentials.temps md E') c'.
    Proof. intros H. unfold M_Potentials.temps. cbn [env_st M_Potentials.e_s state state_of T_i T_e]. now apply extra_same. Qed.
    Lemma mu_same : M_Potentials.mu u md E a b = M_Potentials.mu u md E' a' b'.
    Proof. unfold M_Potentials.mu. now rewrite (pm_same a a' Ha), (pm_same b b' Hb). Qed.
    Lemma Tab_same : M_Potentials.T_ab u md E a b = M_Potentials.T_ab u md E' a' b'.
    Proof. unfold M_Potentials.T_ab. now rewrite (pm_same a a' Ha), (pm_same b b' Hb), (tm_same a a' Ha), (tm_same b b' Hb). Qed.
    Lemma lam_same : M_Potentials.lambda_ab u md E a b = M_Potentials.lambda_ab u md E' a' b'.
    Proof. unfold M_Potentials.lambda_ab. now rewrite mu_same, Tab_same. Qed.
    Lemma kap_same : M_Potentials.kappa E a b = M_Potentials.kappa E' a' b'.
    Proof. unfold M_Potentials.kappa. cbn [env_st M_Potentials.e_len]. now rewrite Hlen. Qed.
    Lemma nion_st l M : M_Potentials.n_ions (env_st l M) = length M.
    Proof. unfold M_Potentials.n_ions. cbn. apply map_length. Qed.
    Lemma lt_same c c' : sameE c c' -> Nat.ltb c (length L) = Nat.ltb c' (length L').
    Proof. pose proof len_eq as HL. intros [S|[H <-]]; [destruct (same_lt c c' S) as [H1 H2]; apply Nat.ltb_lt in H1, H2; congruence|now rewrite HL]. Qed.
    Lemma rcut_same : M_Potentials.r_cut E a b = M_Potentials.r_cut E' a' b'.
    Proof.
      unfold M_Potentials.r_cut. rewrite !nion_st, (lt_same a a' Ha), (lt_same b b' Hb). cbn [env_st M_Potentials.e_rc].
      assert (X : forall c c', sameE c c' -> at_ (map rc_of L) c = at_ (map rc_of L') c') by (intros c c' H; exact (extra_same M_Potentials.Off rc_of 0 0 c c' H)).
      rewrite (X a a' Ha), (X b b' Hb). reflexivity.
    Qed.
    Lemma eqb_same : (Nat.ltb a (length L) && Nat.ltb b (length L))%bool = false -> Nat.eqb a b = Nat.eqb a' b'.
    Proof.
      pose proof len_eq as HL. intros H. apply andb_false_iff in H. destruct Ha as [Sa|[H1 H2]], Hb as [Sb|[H3 H4]].
      - destruct (same_lt _ _ Sa), (same_lt _ _ Sb). destruct H as [H|H]; apply Nat.ltb_ge in H; lia.
      - destruct (same_lt _ _ Sa). transitivity false; [apply Nat.eqb_neq; lia|symmetry; apply Nat.eqb_neq; lia].
      - destruct (same_lt _ _ Sb). transitivity false; [apply Nat.eqb_neq; lia|symmetry; apply Nat.eqb_neq; lia].
      - now subst.
    Qed.
    Lemma coul_same : M_Potentials.coulomb_r u md E a b = M_Potentials.coulomb_r u md E' a' b'.
    Proof. unfold M_Potentials.coulomb_r. now rewrite q2_same. Qed.
    Lemma coulk_same : M_Potentials.coulomb_kk u md E a b = M_Potentials.coulomb_kk u md E' a' b'.
    Proof. unfold M_Potentials.coulomb_kk. now rewrite q2_same. Qed.
    Lemma full_r_same c : (forall f g, c <> M_Potentials.Pauli f g) -> M_Potentials.full_r u md E a b c = M_Potentials.full_r u md E' a' b' c.
    Proof.
      intros Hc. destruct c; cbn [M_Potentials.full_r]; rewrite ?coul_same, ?kap_same, ?lam_same, ?Tab_same, ?rcut_same, ?q2_same; try reflexivity.
      - rewrite !nion_st, (lt_same a a' Ha), (lt_same b b' Hb). pose proof eqb_same as Q. rewrite (lt_same a a' Ha), (lt_same b b' Hb) in Q. destruct (_ && _)%bool; [reflexivity|]. now rewrite Q.
      - destruct md; try reflexivity. rewrite !nion_st, (lt_same a a' Ha), (lt_same b b' Hb). pose proof eqb_same as Q. rewrite (lt_same a a' Ha), (lt_same b b' Hb) in Q. destruct (_ && _)%bool; [reflexivity|]. now rewrite Q.
      - exfalso. now apply (Hc f g).
    Qed.
    Lemma long_r_same c : (forall f g, c <> M_Potentials.Pauli f g) -> M_Potentials.long_r u md E a b c = M_Potentials.long_r u md E' a' b' c.
    Proof.
      intros Hc. pose proof (full_r_same c Hc) as H. unfold M_Potentials.long_r, M_Potentials.base_long. rewrite alpha_same, coul_same, kap_same. destruct c; rewrite ?H; reflexivity.
    Qed.
    Lemma short_r_same c : (forall f g, c <> M_Potentials.Pauli f g) -> M_Potentials.short_r u md E a b c = M_Potentials.short_r u md E' a' b' c.
    Proof.
      intros Hc. pose proof (full_r_same c Hc) as H. pose proof (long_r_same c Hc) as H2. unfold M_Potentials.short_r, M_Potentials.base_short. rewrite alpha_same, Tab_same. destruct c; rewrite ?H, ?H2; reflexivity.
    Qed.
    Lemma long_k_same tr c : (forall f g, c <> M_Potentials.Pauli f g) -> M_Potentials.long_k u tr md E a b c = M_Potentials.long_k u tr md E' a' b' c.
    Proof.
      intros Hc. pose proof (long_r_same c Hc) as H. unfold M_Potentials.long_k, M_Potentials.coulomb_long_k. rewrite alpha_same, q2_same, kap_same, coulk_same, rcut_same. destruct c; rewrite ?H; reflexivity.
    Qed.
    Lemma full_k_same tr tg c : (forall f g, c <> M_Potentials.Pauli f g) -> M_Potentials.full_k u tr tg md E a b c = M_Potentials.full_k u tr tg md E' a' b' c.
    Proof.
      intros Hc. pose proof (full_r_same c Hc) as H1. pose proof (long_k_same tr c Hc) as H2. pose proof (short_r_same c Hc) as H3.
      assert (H4 : M_Potentials.short_k u tr md E a b c = M_Potentials.short_k u tr md E' a' b' c) by (unfold M_Potentials.short_k; destruct c; rewrite ?H3; reflexivity).
      unfold M_Potentials.full_k. rewrite coulk_same, coul_same, q2_same, kap_same, lam_same, rcut_same. destruct c; rewrite ?H1, ?H2, ?H4; try reflexivity. exfalso. now apply (Hc f g).
    Qed.
  End Pot.
End Order.
