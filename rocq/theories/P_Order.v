(** C142: the order in which the ions of a plasma are listed does not matter. *)
From Coq Require Import Reals List Lra Lia Bool Arith Permutation.
From Coquelicot Require Import Complex.
From Verif Require Import M_Const M_PlasmaState M_Interp M_IPD L_PlasmaState L_PlasmaPhysics L_IonFeature L_Order.
From Verif Require M_Potentials M_Screening M_BoundFree M_StaticSF.
Import ListNotations.
Open Scope R_scope.

(** what the state says about the plasma as a whole, and about each ion.  [state Te L] is
    the state with the ions [L]: element, free charge, mass density, temperature and core
    radius set by hand.  [follows L L' l l']: the arrays give each ion the same entry. *)
Theorem C142_state : forall (Te : R) (L L' : list (spec * R)), Permutation L L' ->
  n_e (state Te L) = n_e (state Te L') /\ mean_Z_A (state Te L) = mean_Z_A (state Te L') /\
  (exists n n', n_i (state Te L) = Some n /\ n_i (state Te L') = Some n' /\ follows L L' n n') /\
  (exists z z', Z_core (state Te L) = Some z /\ Z_core (state Te L') = Some z' /\ follows L L' z z') /\
  (exists r r', ion_core_radius (state Te L) = Some r /\ ion_core_radius (state Te L') = Some r' /\ follows L L' r r') /\
  (sum (map nd' L) <> 0 -> exists x x', number_fraction (state Te L) = Some x /\ number_fraction (state Te L') = Some x' /\ follows L L' x x') /\
  (forall A A', average (state Te L) = Some A -> average (state Te L') = Some A' ->
     ions A = ions A' /\ Z_free A = Z_free A' /\ mass_density A = mass_density A' /\ T_e A = T_e A' /\ T_i A = T_i A').
Proof.
  intros Te L L' HP. assert (Sn : sum (map nd' L) = sum (map nd' L')) by now apply sp_f.
  assert (NF : forall M, number_fraction (state Te M) = if Req_EM_T (sum (map nd' M)) 0 then None else Some (map (fun x => nd' x / sum (map nd' M)) M)).
  { intros M. unfold number_fraction. rewrite ni_st. cbn [obind]. unfold div_scalar. destruct (Req_EM_T _ 0); [reflexivity|]. now rewrite map_map. }
  assert (ZA : forall M, Z_A (state Te M) = map (fun x => el_Z (sp_el (fst x))) M) by (intros M; unfold Z_A, state, state_of; cbn [ions]; now rewrite map_map).
  split; [rewrite !ne_st; now rewrite (ne_s_eq L L' HP)|].
  split. { unfold mean_Z_A. rewrite !NF, Sn. destruct (Req_EM_T _ 0); [reflexivity|]. cbn [obind]. rewrite !ZA, !ew_map. cbn [obind]. f_equal. now apply sp_f. }
  split. { rewrite !ni_st. eexists. eexists. split; [reflexivity|]. split; [reflexivity|]. now apply follows_map. }
  split. { unfold state. rewrite !zcore_of. eexists. eexists. split; [reflexivity|]. split; [reflexivity|]. now apply follows_map. }
  split. { rewrite !rc_st. eexists. eexists. split; [reflexivity|]. split; [reflexivity|]. now apply follows_map. }
  split. { intros HN. rewrite !NF, <- Sn. destruct (Req_EM_T _ 0); [contradiction|]. eexists. eexists. split; [reflexivity|]. split; [reflexivity|]. now apply follows_map. }
  intros A A'. unfold average. rewrite !NF, Sn. destruct (Req_EM_T _ 0); [discriminate|]. cbn [obind]. rewrite !ZA. unfold atomic_masses, state, state_of. cbn [ions Z_free mass_density T_i T_e over_radius]. rewrite !map_map, !ew_map. cbn [obind].
  intros H H'. injection H as <-. injection H' as <-. cbn [ions Z_free mass_density T_i T_e].
  repeat (rewrite (sp_f L L' HP)). repeat split.
Qed.
Print Assumptions C142_state.

(** depressions: every model, and sums of models; a constant is one number for all ions *)
Theorem C142_depressions : forall (u : consts) (isle : R -> R -> R) (pint : R -> R -> R -> R) (Te : R) (L L' : list (spec * R)) (m : ipd_model),
  Permutation L L' -> uniform m ->
  exists P P' l l', plasma_of (state Te L) = Some P /\ plasma_of (state Te L') = Some P' /\
    evaluate u isle pint m P = Some l /\ evaluate u isle pint m P' = Some l' /\ follows L L' l l' /\
    (forall pop Zi i j, same L L' i j -> (forall v, m <> ConstantIPD v) -> single u isle pint m P pop Zi i = single u isle pint m P' pop Zi j).
Proof.
  intros u isle pint Te L L' m HP Hm. destruct (evaluate_follows Te L L' HP u isle pint m Hm) as (l & l' & E & E' & F).
  exists (pl Te L), (pl Te L'), l, l'. rewrite !plasma_st. do 5 (split; [auto|]). intros. now apply single_same.
Qed.
Print Assumptions C142_depressions.

(** pair potentials in real and in Fourier space; indices after the ions are electrons *)
Theorem C142_potentials : forall (u : consts) (tr tg : (R -> R) -> R -> R) (Te : R) (L L' : list (spec * R)) (len len' : nat -> nat -> R) (md : M_Potentials.mode) (a b a' b' : nat) (c : M_Potentials.cls),
  Permutation L L' -> sameE L L' a a' -> sameE L L' b b' -> len a b = len' a' b' -> (forall f g, c <> M_Potentials.Pauli f g) ->
  exists E E', M_Potentials.env_of (state Te L) len = Some E /\ M_Potentials.env_of (state Te L') len' = Some E' /\
    M_Potentials.full_r u md E a b c = M_Potentials.full_r u md E' a' b' c /\ M_Potentials.long_r u md E a b c = M_Potentials.long_r u md E' a' b' c /\
    M_Potentials.short_r u md E a b c = M_Potentials.short_r u md E' a' b' c /\
    M_Potentials.long_k u tr md E a b c = M_Potentials.long_k u tr md E' a' b' c /\ M_Potentials.full_k u tr tg md E a b c = M_Potentials.full_k u tr tg md E' a' b' c.
Proof.
  intros u tr tg Te L L' len len' md a b a' b' c HP Ha Hb Hl Hc. exists (env_st Te len L), (env_st Te len' L'). rewrite !env_of_st.
  do 2 (split; [reflexivity|]). split; [now apply full_r_same|]. split; [now apply long_r_same|]. split; [now apply short_r_same|]. split; [now apply long_k_same|]. now apply full_k_same.
Qed.
Print Assumptions C142_potentials.

(** bound-free spectra *)
Theorem C142_bound_free : forall u edge ions ions' mZ r_k E0 E k, Permutation ions ions' ->
  M_BoundFree.SchumacherImpulse u edge ions mZ r_k E0 E k = M_BoundFree.SchumacherImpulse u edge ions' mZ r_k E0 E k /\
  M_BoundFree.SchumacherImpulseColdEdges u edge ions mZ r_k E0 E k = M_BoundFree.SchumacherImpulseColdEdges u edge ions' mZ r_k E0 E k.
Proof.
  intros u edge I I' mZ r_k E0 E k HP. unfold M_BoundFree.SchumacherImpulse, M_BoundFree.SchumacherImpulseColdEdges.
  split; f_equal; induction HP as [|[s x] l l' _ IH|[s x] [t y] l|l1 l2 l3 _ IH1 _ IH2]; cbn [fold_right]; try congruence; try ring; now rewrite IH.
Qed.
Print Assumptions C142_bound_free.

Lemma nth_map2 {A B C} (g : A -> B -> C) l m i : nth_error (map2 g l m) i = match nth_error l i, nth_error m i with Some x, Some y => Some (g x y) | _, _ => None end.
Proof. revert m i. induction l as [|a l IH]; intros [|b m] [|i]; cbn; try reflexivity; [now destruct (nth_error l i)|apply IH]. Qed.
Lemma map2_length {A B C} (g : A -> B -> C) l m : length l = length m -> length (map2 g l m) = length l.
Proof. revert m. induction l; intros [|b m]; cbn; intros H; try reflexivity; try discriminate. f_equal. apply IHl. now injection H. Qed.
(** arrays with one entry per ion *)
Definition aligned {A} (L L' : list (spec * R)) (l l' : list A) : Prop :=
  length l = length L /\ length l' = length L' /\ forall i j, same L L' i j -> nth_error l i = nth_error l' j.
Lemma aligned_map {A} L L' (f : spec * R -> A) : aligned L L' (map f L) (map f L').
Proof. split; [apply map_length|]. split; [apply map_length|]. intros i j (x & H & H'). erewrite !map_nth_error by eassumption. reflexivity. Qed.
Lemma aligned_mapl {A B} L L' (g : A -> B) l l' : aligned L L' l l' -> aligned L L' (map g l) (map g l').
Proof. intros (H1 & H2 & H3). split; [now rewrite map_length|]. split; [now rewrite map_length|]. intros i j S. rewrite !nth_error_map. now rewrite (H3 i j S). Qed.
Lemma aligned_map2 {A B C} L L' (g : A -> B -> C) l l' m m' : aligned L L' l l' -> aligned L L' m m' -> aligned L L' (map2 g l m) (map2 g l' m').
Proof.
  intros (H1 & H2 & H3) (K1 & K2 & K3). split; [now rewrite map2_length by congruence|]. split; [now rewrite map2_length by congruence|].
  intros i j S. rewrite !nth_map2. now rewrite (H3 i j S), (K3 i j S).
Qed.

(** screening charges: one entry per ion.  [Z L] are the free charges; the row of the
    electrons in the potential is that of the code *)
Theorem C142_screening : forall u (Te : R) (L L' : list (spec * R)) (tr tg : (R -> R) -> R -> R) (len len' : nat -> nat -> R) (c : M_Potentials.cls) length_ lfc k quad F1 F2 F3 F4 xi (TD : spec * R -> R),
  Permutation L L' -> (forall i j, sameE L L' i j -> len (length L) i = len' (length L') j) -> (forall f g, c <> M_Potentials.Pauli f g) ->
  let Z := map (fun x => sp_Z (fst x)) in let m := map (fun x : spec * R => el_mass (sp_el (fst x))) in let n := map nd' in let T := map (fun x => sp_T (fst x)) in
  let V := M_Screening.Vei u k (Z L) tr tg (env_st Te len L) c in let V' := M_Screening.Vei u k (Z L') tr tg (env_st Te len' L') c in
  aligned L L' V V' /\
  aligned L L' (M_Screening.DebyeHueckelScreening length_ k (Z L)) (M_Screening.DebyeHueckelScreening length_ k (Z L')) /\
  aligned L L' (M_Screening.LinearResponseScreeningGericke2010 u length_ lfc k (Z L) V) (M_Screening.LinearResponseScreeningGericke2010 u length_ lfc k (Z L') V') /\
  aligned L L' (M_Screening.FiniteWavelengthScreening u lfc k (ne_s L) Te (Z L) F1 F2 F3 F4 V) (M_Screening.FiniteWavelengthScreening u lfc k (ne_s L') Te (Z L') F1 F2 F3 F4 V') /\
  aligned L L' (M_Screening.LinearResponseScreening (Z L) xi V) (M_Screening.LinearResponseScreening (Z L') xi V') /\
  aligned L L' (M_Screening.GregoriCHSScreening u lfc k (ne_s L) Te (Z L) (n L) (T L) (map TD L)) (M_Screening.GregoriCHSScreening u lfc k (ne_s L') Te (Z L') (n L') (T L') (map TD L')) /\
  aligned L L' (M_Screening.Gregori2004Screening u k (ne_s L) Te (Z L) quad (m L)) (M_Screening.Gregori2004Screening u k (ne_s L') Te (Z L') quad (m L')).
Proof.
  intros u Te L L' tr tg len len' c length_ lfc k quad F1 F2 F3 F4 xi TD HP Hlen Hc Z m n T V V'. pose proof (len_eq L L' HP) as HL. pose proof (ne_s_eq L L' HP) as En.
  assert (AZ : aligned L L' (Z L) (Z L')) by apply aligned_map.
  assert (AV : aligned L L' V V').
  { unfold V, V', M_Screening.Vei, Z. rewrite !map_length. split; [now rewrite map_length, seq_length|]. split; [now rewrite map_length, seq_length|]. intros i j S. destruct (same_lt L L' i j S) as [Hi Hj].
    rewrite !nth_error_map. rewrite !(nth_error_nth' _ 0%nat) by (rewrite seq_length; assumption). rewrite !seq_nth by assumption. cbn [option_map Nat.add]. f_equal.
    rewrite (full_k_same Te L L' HP u M_Potentials.SpinAveraged len len' (length L) i (length L') j); [reflexivity|right; split; [lia|exact HL]|now left|apply Hlen; now left|exact Hc]. }
  assert (AU : forall q q', aligned L L' q q' -> aligned L L' (M_Screening.unscreen (Z L) q) (M_Screening.unscreen (Z L') q')) by (intros q q' H; unfold M_Screening.unscreen; now apply aligned_map2).
  split; [exact AV|]. split.
  { unfold M_Screening.DebyeHueckelScreening. apply AU. destruct (obind _ _); [unfold M_StaticSF.q_DebyeHueckel; do 2 apply aligned_mapl; exact AZ|now apply aligned_mapl]. }
  split. { unfold M_Screening.LinearResponseScreeningGericke2010. replace (sum (Z L')) with (sum (Z L)) by (now apply sp_f). destruct (Req_EM_T _ 0); now apply aligned_mapl. }
  split. { unfold M_Screening.FiniteWavelengthScreening. rewrite En. apply AU. now apply aligned_mapl. }
  split. { unfold M_Screening.LinearResponseScreening. apply AU. now apply aligned_mapl. }
  split. { unfold M_Screening.GregoriCHSScreening. cbv zeta. rewrite En. unfold n, Z, T. rewrite !map_map, !map2_map. rewrite (sp_f L L' HP nd'), (sp_f L L' HP (fun x => nd' x * sp_Z (fst x))), (sp_f L L' HP (fun x => nd' x ^ 2)), (sp_f L L' HP (fun x => nd' x * M_StaticSF.T_i_eff_Greg (sp_T (fst x)) (TD x))).
    apply AU. apply aligned_map. }
  unfold M_Screening.Gregori2004Screening. rewrite En. apply AU. apply aligned_map2; [apply aligned_map|exact AZ].
Qed.
Print Assumptions C142_screening.

(** ** Examples *)
Definition carbon : spec * R := (mkSp (mkEl 6 12 1) 4 24 2, -1).
Definition hydrogen : spec * R := (mkSp (mkEl 1 1 2) 1 3 5, 7).
Example C142_ex_perm : Permutation [carbon; hydrogen] [hydrogen; carbon] /\ same [carbon; hydrogen] [hydrogen; carbon] 0 1 /\ sameE [carbon; hydrogen] [hydrogen; carbon] 2 2 /\ ~ same [carbon; hydrogen] [hydrogen; carbon] 0 0.
Proof.
  split; [apply perm_swap|]. split; [exists carbon; split; reflexivity|]. split; [right; cbn; lia|]. intros (x & H & H'). cbn in H, H'. rewrite <- H' in H. injection H as E. lra.
Qed.
Example C142_state_ex : n_e (state 3 [carbon; hydrogen]) = Some 11 /\ n_e (state 3 [hydrogen; carbon]) = Some 11.
Proof. split; [|rewrite <- (proj1 (C142_state 3 _ _ (proj1 C142_ex_perm)))]; cbn; f_equal; field. Qed.
Example C142_depressions_ex : uniform (IPDSum [StewartPyattIPD false; ConstantIPD [1]; IPDSum [IonSphereIPD None; PauliBlockingIPD]]).
Proof. cbn. repeat split. now exists 1. Qed.
(** a constant with one value per ion has to be relisted with the ions *)
Example C142_depressions_ex2 : follows [carbon; hydrogen] [hydrogen; carbon] [1; 2] [2; 1] /\ ~ follows [carbon; hydrogen] [hydrogen; carbon] [1; 2] [1; 2].
Proof.
  split.
  - right. split; [reflexivity|]. split; [reflexivity|]. intros [|[|i]] [|[|j]] (x & H & H'); cbn in *; try reflexivity; try (destruct i; discriminate); try (destruct j; discriminate);
    exfalso; rewrite <- H' in H; injection H as E; lra.
  - intros [(v & H & _)|(_ & _ & H)]; [discriminate|]. specialize (H 0%nat 1%nat (proj1 (proj2 C142_ex_perm))). cbn in H. injection H as H. lra.
Qed.
Example C142_potentials_ex : exists E E', M_Potentials.env_of (state 3 [carbon; hydrogen]) (fun _ _ => 1) = Some E /\ M_Potentials.env_of (state 3 [hydrogen; carbon]) (fun _ _ => 1) = Some E' /\
  M_Potentials.full_r unit_consts M_Potentials.SpinAveraged E 0 2 M_Potentials.Kelbg = M_Potentials.full_r unit_consts M_Potentials.SpinAveraged E' 1 2 M_Potentials.Kelbg.
Proof.
  destruct C142_ex_perm as (P & S & SE & _).
  destruct (C142_potentials unit_consts (fun f => f) (fun f => f) 3 _ _ (fun _ _ => 1) (fun _ _ => 1) M_Potentials.SpinAveraged 0 2 1 2 M_Potentials.Kelbg P (or_introl S) SE eq_refl ltac:(discriminate)) as (E & E' & H & H' & H2 & _).
  exists E, E'. auto.
Qed.
Example C142_screening_ex : forall i j, sameE [carbon; hydrogen] [hydrogen; carbon] i j -> (fun _ _ : nat => 2) (length [carbon; hydrogen]) i = (fun _ _ : nat => 2) (length [hydrogen; carbon]) j.
Proof. reflexivity. Qed.
Example C142_bound_free_ex : let a := (M_BoundFree.mkIon 6 4 (fun _ _ => 1) 0 (fun _ => Some 1), 1 / 2) in let b := (M_BoundFree.mkIon 1 1 (fun _ _ => 1) 0 (fun _ => Some 1), 1 / 2) in
  M_BoundFree.SchumacherImpulse unit_consts (fun _ _ _ => 1) [a; b] (7 / 2) 1 9 8 1 = M_BoundFree.SchumacherImpulse unit_consts (fun _ _ _ => 1) [b; a] (7 / 2) 1 9 8 1.
Proof. intros a b. apply C142_bound_free. apply perm_swap. Qed.
