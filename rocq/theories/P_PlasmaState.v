(** Properties C05-C09 and C14: plasma parameters. *)
From Coq Require Import List Bool Arith Reals ZArith Lra Lia.
From Verif Require Import M_PlasmaState L_PlasmaState.
Import ListNotations.
Open Scope R_scope.

(** A carbon-hydrogen-like state used in the examples. *)
Definition exC := mkEl 6 12 70.
Definition exH := mkEl 1 1 53.
Definition exState := mkPS [exC; exH] [5/2; 1] [24; 3] 10 [10; 12] [-1; -1].
Lemma exState_wf : wf exState /\ masses_pos exState /\ nions exState = 2%nat /\
  (forall r, In r (mass_density exState) -> 0 < r).
Proof.
  split; [repeat split|]. split.
  - intros e [<-|[<-|[]]]; cbn; lra.
  - split; [reflexivity|]. intros r [<-|[<-|[]]]; lra.
Qed.

(** [init] establishes well-formedness, and refuses anything else. *)
Theorem C05_init_wellformed :
  forall els Z rho Te Ti s, init els Z rho Te Ti = Some s ->
    wf s /\ length (over_radius s) = nions s /\
    (Ti = None -> forall t, In t (T_i s) -> t = Te).
Proof.
  intros els Z rho Te Ti s H. unfold init in H.
  destruct (Nat.eqb_spec (length els) (length Z)) as [E1|]; [|discriminate].
  destruct (Nat.eqb_spec (length els) (length rho)) as [E2|]; [|discriminate]. cbn [andb] in H.
  destruct Ti as [Ti|].
  - destruct (Nat.eqb_spec (length els) (length Ti)) as [E3|]; [|discriminate]. injection H as <-.
    unfold wf, nions. cbn. rewrite map_length. repeat split; try congruence.
  - injection H as <-. unfold wf, nions. cbn. rewrite !map_length. repeat split; try congruence.
    intros _ t Ht. apply in_map_iff in Ht as (? & <- & _). reflexivity.
Qed.
Print Assumptions C05_init_wellformed.

(** ** C05 *)
Theorem C05_expansion_conserves :
  forall s, wf s -> masses_pos s ->
  exists s' ni ni' ne,
    expand s = Some s' /\ wf s' /\ nions s' = (2 * nions s)%nat /\
    n_i s = Some ni /\ n_i s' = Some ni' /\ n_e s = Some ne /\ n_e s' = Some ne /\ T_e s' = T_e s /\
    (forall z, In z (Z_free s') -> exists m : Z, z = IZR m) /\
    (forall i d dn, (i < nions s)%nat ->
       nth (2 * i) (ions s') d = nth i (ions s) d /\ nth (2 * i + 1) (ions s') d = nth i (ions s) d /\
       nth (2 * i) (T_i s') dn = nth i (T_i s) dn /\ nth (2 * i + 1) (T_i s') dn = nth i (T_i s) dn /\
       nth (2 * i) (mass_density s') dn + nth (2 * i + 1) (mass_density s') dn = nth i (mass_density s) dn /\
       nth (2 * i) ni' dn + nth (2 * i + 1) ni' dn = nth i ni dn /\
       nth (2 * i) ni' dn * nth (2 * i) (Z_free s') dn + nth (2 * i + 1) ni' dn * nth (2 * i + 1) (Z_free s') dn
         = nth i ni dn * nth i (Z_free s) dn /\
       nth (2 * i) (Z_free s') dn <= nth i (Z_free s) dn <= nth (2 * i + 1) (Z_free s') dn /\
       nth (2 * i + 1) (Z_free s') dn - nth (2 * i) (Z_free s') dn <= 1).
Proof. exact expand_ok. Qed.
Print Assumptions C05_expansion_conserves.

(** Signs and ranges survive: non-negative densities, charge bounds. *)
Theorem C05_expansion_keeps_bounds :
  forall s s', wf s -> expand s = Some s' ->
  ((forall r, In r (mass_density s) -> 0 <= r) -> forall r, In r (mass_density s') -> 0 <= r) /\
  (forall m : Z, (forall z, In z (Z_free s) -> IZR m <= z) -> forall z, In z (Z_free s') -> IZR m <= z) /\
  (forall m : Z, (forall z, In z (Z_free s) -> z <= IZR m) -> forall z, In z (Z_free s') -> z <= IZR m).
Proof. exact expand_bounds. Qed.
Print Assumptions C05_expansion_keeps_bounds.

(** No daughter has a negative number of bound electrons. *)
Theorem C05_expansion_keeps_bound_electrons :
  forall s s', wf s -> expand s = Some s' ->
  (forall e, In e (ions s) -> exists m : Z, el_Z e = IZR m) ->
  (forall c, Z_core s = Some c -> forall x, In x c -> 0 <= x) ->
  forall c, Z_core s' = Some c -> forall x, In x c -> 0 <= x.
Proof. exact expand_core. Qed.
Print Assumptions C05_expansion_keeps_bound_electrons.
Example C05_ex : wf exState /\ masses_pos exState /\
  (forall e, In e (ions exState) -> exists m : Z, el_Z e = IZR m) /\
  (forall c, Z_core exState = Some c -> forall x, In x c -> 0 <= x).
Proof.
  destruct exState_wf as (H1 & H2 & _). repeat split; try assumption; try apply H1.
  - intros e [<-|[<-|[]]]; [exists 6%Z|exists 1%Z]; reflexivity.
  - intros c E. cbn in E. injection E as <-. intros x [<-|[<-|[]]]; lra.
Qed.

(** ** C06 *)
Theorem C06_one_species_partial :
  forall s s' r, wf s -> nions s = 1%nat -> length (over_radius s) = 1%nat ->
    expand s = Some s' -> ion_core_radius s = Some [r] -> ion_core_radius s' = Some [r; r].
Proof. exact expand_radius_one. Qed.
Print Assumptions C06_one_species_partial.
Example C06_ex : ion_core_radius (mkPS [exC] [5/2] [24] 10 [10] [-1]) = Some [70].
Proof. cbn. destruct (Rgt_dec (-1) 0); [lra|reflexivity]. Qed.

(** The radius is the value set by the user where that is positive, and the
    tabulated one elsewhere. *)
Theorem C06_user_value_wins :
  forall s, length (over_radius s) = nions s ->
  exists r, ion_core_radius s = Some r /\ length r = nions s /\
    forall i e o, nth_error (ions s) i = Some e -> nth_error (over_radius s) i = Some o ->
      (0 < o -> nth_error r i = Some o) /\ (o <= 0 -> nth_error r i = Some (el_radius e)).
Proof. exact radius_lookup. Qed.
Print Assumptions C06_user_value_wins.
Example C06_user_ex : ion_core_radius (mkPS [exC; exH] [1; 1] [1; 1] 10 [10; 10] [-1; 33]) = Some [70; 33].
Proof.
  cbn. destruct (Rgt_dec (-1) 0); [lra|]. destruct (Rgt_dec 33 0); [reflexivity|lra].
Qed.

(** With two or more species the radius of the expanded state always raises
    (array shapes n and 2n). *)
Theorem C06_refuted :
  (forall s s', wf s -> (2 <= nions s)%nat -> length (over_radius s) = nions s ->
     expand s = Some s' -> ion_core_radius s' = None) /\
  exists s s', wf s /\ masses_pos s /\ (2 <= nions s)%nat /\ length (over_radius s) = nions s /\
     expand s = Some s' /\ ion_core_radius s <> None /\ ion_core_radius s' = None.
Proof.
  split; [exact expand_radius_fails|].
  destruct exState_wf as (H1 & H2 & H3 & _).
  destruct (expand_ok exState H1 H2) as (s' & _ & _ & _ & E & _).
  exists exState, s'. repeat split; try assumption; try apply H1.
  - rewrite H3. lia.
  - cbn. discriminate.
  - apply (expand_radius_fails exState); auto; rewrite H3; lia.
Qed.
Print Assumptions C06_refuted.

(** ** C07 *)
Theorem C07_number_fractions_are_a_distribution :
  forall s, wf s -> masses_pos s -> (1 <= nions s)%nat -> (forall r, In r (mass_density s) -> 0 < r) ->
  exists x mz ni ne,
    number_fraction s = Some x /\ mean_Z_A s = Some mz /\ n_i s = Some ni /\ n_e s = Some ne /\
    length x = nions s /\ (forall y, In y x -> 0 < y <= 1) /\ fold_right Rplus 0 x = 1 /\
    (exists a, In a (ions s) /\ el_Z a <= mz) /\ (exists b, In b (ions s) /\ mz <= el_Z b) /\
    (forall i d, (i < nions s)%nat -> nth i x d * fold_right Rplus 0 ni = nth i ni d) /\
    ((forall z, In z (Z_free s) -> 0 <= z) -> 0 <= ne) /\
    (forall zmax, (forall z, In z (Z_free s) -> z <= zmax) -> ne <= zmax * fold_right Rplus 0 ni).
Proof. exact fractions_ok. Qed.
Print Assumptions C07_number_fractions_are_a_distribution.
Example C07_ex : wf exState /\ masses_pos exState /\ (1 <= nions exState)%nat /\
  (forall r, In r (mass_density exState) -> 0 < r).
Proof. destruct exState_wf as (H1 & H2 & H3 & H4). repeat split; try assumption; try apply H1. rewrite H3. lia. Qed.

(** The charge-weighted sum, written out. *)
Theorem C07_electron_density_is_charge_weighted :
  forall s, wf s -> masses_pos s ->
    n_e s = Some (fold_right Rplus 0
      (map (fun p => let '(rho, e, z) := p in rho / el_mass e * z)
           (combine (combine (mass_density s) (ions s)) (Z_free s)))).
Proof.
  intros s Hwf _. destruct (wf_zip s Hwf) as [l E]. rewrite E, n_e_zip. cbn [ions Z_free mass_density].
  f_equal. unfold sum. f_equal. clear. induction l; cbn; [reflexivity|]. now rewrite IHl.
Qed.
Print Assumptions C07_electron_density_is_charge_weighted.
Example C07_ne_ex : n_e exState = Some (8).
Proof.
  rewrite C07_electron_density_is_charge_weighted by apply exState_wf. cbn. f_equal. lra.
Qed.

(** ** C08 *)
Theorem C08_density_inverts_electron_density :
  forall (ne : R) (Z x : list R) (els : list element),
  length x = length els -> length Z = length els ->
  (forall y, In y x -> 0 <= y) -> fold_right Rplus 0 x = 1 ->
  (forall e, In e els -> 0 < el_mass e) ->
  fold_right Rplus 0 (map (fun p => fst p * snd p) (combine Z x)) <> 0 ->
  ne <> 0 ->
  exists rho, density_from_ne_partial ne Z x els = Some rho /\
    forall Te, exists s, init els Z rho Te None = Some s /\ n_e s = Some ne /\ number_fraction s = Some x.
Proof. exact density_inverts. Qed.
Print Assumptions C08_density_inverts_electron_density.
Example C08_ex : fold_right Rplus 0 [1/2; 1/2] = 1 /\
  fold_right Rplus 0 (map (fun p => fst p * snd p) (combine [4; 1] [1/2; 1/2])) <> 0.
Proof. cbn. lra. Qed.

(** A neutral mixture has no such density: the code divides by zero. *)
Theorem C08_neutral_mixture_has_no_density :
  forall ne x els (Z : list R), (density_from_ne ne (map (fun _ => 0) Z) x els = None).
Proof.
  intros ne x els Z. unfold density_from_ne. destruct (_ && _)%bool; [|reflexivity].
  assert (E : sum (map2 Rmult (map (fun _ => 0) Z) x) = 0).
  { revert x. induction Z as [|z Z IH]; intros [|a x]; cbn; try reflexivity. unfold sum in IH. rewrite IH. ring. }
  rewrite E. destruct (Req_EM_T 0 0); [reflexivity|congruence].
Qed.
Print Assumptions C08_neutral_mixture_has_no_density.

(** ** C09 *)
Theorem C09_mass_and_number_fractions :
  forall (x : list R) (els : list element),
  length x = length els -> (forall y, In y x -> 0 <= y) -> fold_right Rplus 0 x = 1 ->
  (forall e, In e els -> 0 < el_mass e) ->
  exists mf, mass_from_number_fraction x els = Some mf /\
    length mf = length els /\ (forall y, In y mf -> 0 <= y) /\ fold_right Rplus 0 mf = 1 /\
    forall rho Z Te Ti s, rho <> 0 ->
      init els Z (map (fun f => f * rho) mf) Te Ti = Some s -> number_fraction s = Some x.
Proof. exact mass_fractions_ok. Qed.
Print Assumptions C09_mass_and_number_fractions.
Example C09_ex : mass_from_number_fraction [1/3; 2/3] [exC; exH] = Some [6/7; 1/7].
Proof.
  unfold mass_from_number_fraction, div_scalar. cbn. destruct (Req_EM_T _ 0); [lra|].
  f_equal. f_equal; [lra|f_equal; lra].
Qed.
Theorem C09_length_mismatch_is_refused :
  forall x els, length x <> length els -> mass_from_number_fraction x els = None.
Proof.
  intros x els H. unfold mass_from_number_fraction. rewrite map_length.
  destruct (Nat.eqb_spec (length x) (length els)); [contradiction|reflexivity].
Qed.
Print Assumptions C09_length_mismatch_is_refused.

(** ** C14 *)
(** A single species is averaged to itself. *)
Theorem C14_single_species_partial :
  forall s s' ni, wf s -> masses_pos s -> nions s = 1%nat -> (forall r, In r (mass_density s) -> 0 < r) ->
    n_i s = Some ni -> average s = Some s' -> n_i s' = Some ni /\ n_e s' = n_e s /\ T_e s' = T_e s.
Proof.
  intros s s' ni Hwf Hm H1 Hr Hni Hav.
  destruct (average_density s s' ni Hwf Hm ltac:(lia) Hr Hni Hav) as (n' & E & H & _).
  specialize (H H1). subst ni. split; [assumption|].
  destruct (n_e s) as [ne|] eqn:Ene.
  - destruct (average_charge s s' [n'] ne Hwf Hm ltac:(lia) Hr Hni Ene Hav) as (n2 & ne' & E2 & E3 & E4 & E5).
    split; [|assumption]. rewrite E3. f_equal. rewrite E in E2. injection E2 as <-.
    cbn in E4. assert (Hn : 0 < n').
    { destruct (wf_zip s Hwf) as [l El]. destruct (dens_pos s Hwf Hm ltac:(lia) Hr l El) as [_ Hp].
      rewrite El, n_i_zip in Hni. injection Hni as Hl. destruct l as [|a [|? ?]]; try discriminate.
      cbn in Hl. injection Hl as <-. apply Hp. now left. }
    apply (Rmult_eq_reg_r n'); lra.
  - destruct (wf_zip s Hwf) as [l El]. rewrite El, n_e_zip in Ene. discriminate.
Qed.
Print Assumptions C14_single_species_partial.
Example C14_single_ex : exists s', average (mkPS [exC] [5/2] [24] 10 [10] [-1]) = Some s'.
Proof.
  unfold average, number_fraction, div_scalar. cbn. destruct (Req_EM_T _ 0); [lra|]. cbn. eauto.
Qed.

(** The charge per ion is right for every mixture. *)
Theorem C14_charge_per_ion_partial :
  forall s s' ni ne, wf s -> masses_pos s -> (1 <= nions s)%nat -> (forall r, In r (mass_density s) -> 0 < r) ->
  n_i s = Some ni -> n_e s = Some ne -> average s = Some s' ->
  exists n' ne', n_i s' = Some [n'] /\ n_e s' = Some ne' /\ ne' * fold_right Rplus 0 ni = ne * n' /\ T_e s' = T_e s.
Proof. exact average_charge. Qed.
Print Assumptions C14_charge_per_ion_partial.

(** For every genuine mixture the average state is too thin: the code averages
    the partial mass densities with the number fractions instead of adding
    them. *)
Theorem C14_refuted :
  (forall s s' ni, wf s -> masses_pos s -> (2 <= nions s)%nat -> (forall r, In r (mass_density s) -> 0 < r) ->
     n_i s = Some ni -> average s = Some s' ->
     exists n', n_i s' = Some [n'] /\ n' < fold_right Rplus 0 ni) /\
  exists s s' ni, wf s /\ masses_pos s /\ (2 <= nions s)%nat /\ (forall r, In r (mass_density s) -> 0 < r) /\
     n_i s = Some ni /\ average s = Some s'.
Proof.
  split.
  - intros s s' ni Hwf Hm H2 Hr Hni Hav.
    destruct (average_density s s' ni Hwf Hm ltac:(lia) Hr Hni Hav) as (n' & E & _ & H). eauto.
  - destruct exState_wf as (H1 & H2 & H3 & H4). destruct (wf_zip exState H1) as [l E].
    exists exState. destruct (dens_pos exState H1 H2 ltac:(rewrite H3; lia) H4 l E) as [Hne Hp].
    eexists _, _. repeat split; try assumption; try apply H1.
    + rewrite H3. lia.
    + unfold average, number_fraction, div_scalar. cbn. destruct (Req_EM_T _ 0); [lra|]. cbn. reflexivity.
Qed.
Print Assumptions C14_refuted.
