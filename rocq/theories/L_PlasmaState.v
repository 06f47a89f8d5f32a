From Coq Require Import List Bool Arith Reals ZArith Lra Lia Psatz.
From Verif Require Import M_PlasmaState.
Import ListNotations.
Open Scope R_scope.

(** Equal lengths, as established by [init]. *)
Definition wf (s : pstate) : Prop :=
  length (Z_free s) = length (ions s) /\ length (mass_density s) = length (ions s) /\
  length (T_i s) = length (ions s).
Definition masses_pos (s : pstate) : Prop := forall e, In e (ions s) -> 0 < el_mass e.

(** A well-formed state as a list of species. *)
Record spec := mkSp { sp_el : element; sp_Z : R; sp_rho : R; sp_T : R }.

Lemma zip_exists els : forall Z rho T,
  length Z = length els -> length rho = length els -> length T = length els ->
  exists l, els = map sp_el l /\ Z = map sp_Z l /\ rho = map sp_rho l /\ T = map sp_T l.
Proof.
  induction els as [|e els IH]; intros Z rho T HZ Hr HT.
  - destruct Z, rho, T; try discriminate. now exists [].
  - destruct Z as [|z Z], rho as [|r rho], T as [|t T]; try discriminate.
    destruct (IH Z rho T) as (l & -> & -> & -> & ->); try (cbn in *; lia).
    exists (mkSp e z r t :: l). auto.
Qed.

Lemma wf_zip s : wf s -> exists l, s = mkPS (map sp_el l) (map sp_Z l) (map sp_rho l) (T_e s) (map sp_T l) (over_radius s).
Proof.
  intros (H1 & H2 & H3). destruct (zip_exists _ _ _ _ H1 H2 H3) as (l & E1 & E2 & E3 & E4).
  exists l. destruct s. cbn in *. congruence.
Qed.

Lemma map2_map {A B C D} (f : B -> C -> D) (g : A -> B) (h : A -> C) l :
  map2 f (map g l) (map h l) = map (fun x => f (g x) (h x)) l.
Proof. induction l; cbn; congruence. Qed.
Lemma ew_map {A} f (g h : A -> R) l : ew f (map g l) (map h l) = Some (map (fun x => f (g x) (h x)) l).
Proof. unfold ew. rewrite !map_length, Nat.eqb_refl, map2_map. reflexivity. Qed.
Lemma ew_eqlen f l m : length l = length m -> ew f l m = Some (map2 f l m).
Proof. intros H. unfold ew. now rewrite H, Nat.eqb_refl. Qed.

Definition pair2 {A B} (f g : A -> B) (l : list A) : list B := flat_map (fun x => [f x; g x]) l.
Lemma rep2_map {A B} (g : A -> B) l : rep2 (map g l) = pair2 g g l.
Proof. unfold rep2, pair2. induction l; cbn; congruence. Qed.
Lemma alternate_pair2 {A} f g (h : A -> R) l : alternate f g (pair2 h h l) = pair2 (fun x => f (h x)) (fun x => g (h x)) l.
Proof. induction l; cbn; [reflexivity|]. unfold pair2 in IHl. now rewrite IHl. Qed.
Lemma pair2_length {A B} (f g : A -> B) l : length (pair2 f g l) = (2 * length l)%nat.
Proof. induction l; cbn; [reflexivity|]. unfold pair2 in IHl. rewrite IHl. lia. Qed.
Lemma map2_pair2 {A B C D} (F : B -> C -> D) (f g : A -> B) (f' g' : A -> C) l :
  map2 F (pair2 f g l) (pair2 f' g' l) = pair2 (fun x => F (f x) (f' x)) (fun x => F (g x) (g' x)) l.
Proof. induction l; cbn; [reflexivity|]. unfold pair2 in IHl. now rewrite IHl. Qed.
Lemma map_pair2 {A B C} (F : B -> C) (f g : A -> B) l :
  map F (pair2 f g l) = pair2 (fun x => F (f x)) (fun x => F (g x)) l.
Proof. induction l; cbn; [reflexivity|]. unfold pair2 in IHl. now rewrite IHl. Qed.
Lemma ew_pair2 {A} F (f g f' g' : A -> R) l :
  ew F (pair2 f g l) (pair2 f' g' l) = Some (pair2 (fun x => F (f x) (f' x)) (fun x => F (g x) (g' x)) l).
Proof. rewrite ew_eqlen by now rewrite !pair2_length. now rewrite map2_pair2. Qed.
Lemma nth_pair2 {A B} (f g : A -> B) l d i : (i < length l)%nat ->
  nth (2 * i) (pair2 f g l) d = nth i (map f l) d /\ nth (2 * i + 1) (pair2 f g l) d = nth i (map g l) d.
Proof.
  revert i. induction l as [|a l IH]; intros i Hi; cbn in Hi; [lia|].
  destruct i as [|i]; [split; reflexivity|].
  replace (2 * S i)%nat with (S (S (2 * i))) by lia.
  replace (S (S (2 * i)) + 1)%nat with (S (S (2 * i + 1))) by lia.
  cbn [pair2 flat_map app nth map]. apply IH. lia.
Qed.

Lemma sum_map_ext {A} (f g : A -> R) l : (forall x, In x l -> f x = g x) -> sum (map f l) = sum (map g l).
Proof. intros H. f_equal. now apply map_ext_in. Qed.
Lemma sum_pair2 {A} (f g : A -> R) l : sum (pair2 f g l) = sum (map (fun x => f x + g x) l).
Proof. induction l; cbn; [reflexivity|]. unfold pair2, sum in *. rewrite IHl. ring. Qed.
Lemma sum_map_scal {A} c (f : A -> R) l : sum (map (fun x => c * f x) l) = c * sum (map f l).
Proof. induction l; cbn; [ring|]. unfold sum in *. rewrite IHl. ring. Qed.
Lemma sum_map_div {A} c (f : A -> R) l : sum (map (fun x => f x / c) l) = sum (map f l) / c.
Proof. induction l; cbn; [unfold Rdiv; ring|]. unfold sum in *. rewrite IHl. unfold Rdiv. ring. Qed.
Lemma sum_nonneg l : (forall x, In x l -> 0 <= x) -> 0 <= sum l.
Proof. induction l; cbn; intros H; [lra|]. unfold sum in *. specialize (IHl (fun x h => H x (or_intror h))). pose proof (H a (or_introl eq_refl)). lra. Qed.
Lemma sum_pos l : l <> [] -> (forall x, In x l -> 0 < x) -> 0 < sum l.
Proof.
  destruct l as [|a l]; [congruence|]. intros _ H. cbn.
  assert (0 <= sum l) by (apply sum_nonneg; intros x Hx; left; apply H; now right).
  pose proof (H a (or_introl eq_refl)). unfold sum in *. lra.
Qed.
Lemma sum_map_le {A} (f g : A -> R) l : (forall x, In x l -> f x <= g x) -> sum (map f l) <= sum (map g l).
Proof. induction l; cbn; intros H; [lra|]. unfold sum in *. specialize (IHl (fun x h => H x (or_intror h))). pose proof (H a (or_introl eq_refl)). lra. Qed.

(** ** floor and ceil *)
Lemma rfloor_spec x : rfloor x <= x < rfloor x + 1.
Proof. unfold rfloor. pose proof (base_Int_part x). lra. Qed.
Lemma rceil_spec x : rceil x - 1 < x <= rceil x.
Proof. unfold rceil. pose proof (rfloor_spec (- x)). lra. Qed.
Lemma rfloor_int x : exists z : Z, rfloor x = IZR z.
Proof. unfold rfloor. eauto. Qed.
Lemma rceil_int x : exists z : Z, rceil x = IZR z.
Proof. unfold rceil, rfloor. exists (- Int_part (- x))%Z. now rewrite opp_IZR. Qed.
Lemma IZR_lt1 a b : IZR a < IZR b + 1 -> (a <= b)%Z.
Proof. intros H. rewrite <- plus_IZR in H. apply lt_IZR in H. lia. Qed.
(** ceil z = floor z when z is an integer, floor z + 1 otherwise *)
Lemma rceil_rfloor x : (rceil x = rfloor x /\ x = rfloor x) \/ rceil x = rfloor x + 1.
Proof.
  destruct (rfloor_int x) as [f Ef], (rceil_int x) as [c Ec].
  pose proof (rfloor_spec x) as Hf. pose proof (rceil_spec x) as Hc. rewrite Ef, Ec in *.
  assert (H1 : (f <= c)%Z) by (apply le_IZR; lra).
  assert (H2 : (c <= f + 1)%Z) by (apply IZR_lt1; rewrite plus_IZR; lra).
  assert (H : (c = f \/ c = f + 1)%Z) by lia. destruct H as [->| ->].
  - left. split; lra.
  - right. now rewrite plus_IZR.
Qed.
(** the mean of floor and ceil with the code's weights is the charge *)
Lemma mix_charge z : (1 - (z - rfloor z)) * rfloor z + (z - rfloor z) * rceil z = z.
Proof. destruct (rceil_rfloor z) as [[-> E]| ->]; [|ring]. transitivity (rfloor z); [ring|lra]. Qed.
Lemma rfloor_ge z m : IZR m <= z -> IZR m <= rfloor z.
Proof. intros H. destruct (rfloor_int z) as [f E]. pose proof (rfloor_spec z). rewrite E in *. apply IZR_le. apply IZR_lt1. lra. Qed.
Lemma rceil_le z m : z <= IZR m -> rceil z <= IZR m.
Proof. intros H. destruct (rceil_int z) as [c E]. pose proof (rceil_spec z). rewrite E in *. apply IZR_le. apply IZR_lt1. lra. Qed.

(** ** State quantities of a zipped state *)
Section Zip.
  Variables (l : list spec) (Te : R) (ov : list R).
  Let s := mkPS (map sp_el l) (map sp_Z l) (map sp_rho l) Te (map sp_T l) ov.
  Definition sp_m (x : spec) := el_mass (sp_el x).
  Definition sp_n (x : spec) := sp_rho x / sp_m x.
  Lemma n_i_zip : n_i s = Some (map sp_n l).
  Proof. unfold n_i, atomic_masses, s. cbn. rewrite map_map, ew_map. reflexivity. Qed.
  Lemma n_e_zip : n_e s = Some (sum (map (fun x => sp_n x * sp_Z x) l)).
  Proof. unfold n_e. rewrite n_i_zip. cbn [obind]. unfold s. cbn [Z_free]. rewrite ew_map. reflexivity. Qed.
  Lemma nf_zip : sum (map sp_n l) <> 0 ->
    number_fraction s = Some (map (fun x => sp_n x / sum (map sp_n l)) l).
  Proof.
    intros H. unfold number_fraction. rewrite n_i_zip. cbn [obind]. unfold div_scalar.
    destruct (Req_EM_T _ 0); [contradiction|]. now rewrite map_map.
  Qed.
  Lemma mean_Z_zip : sum (map sp_n l) <> 0 ->
    mean_Z_A s = Some (sum (map (fun x => el_Z (sp_el x) * (sp_n x / sum (map sp_n l))) l)).
  Proof.
    intros H. unfold mean_Z_A. rewrite nf_zip by assumption. cbn [obind].
    unfold Z_A, s. cbn [ions]. rewrite map_map, ew_map. reflexivity.
  Qed.
  Lemma expand_zip :
    expand s = Some (mkPS (pair2 sp_el sp_el l)
      (pair2 (fun x => rfloor (sp_Z x)) (fun x => rceil (sp_Z x)) l)
      (pair2 (fun x => (1 - (sp_Z x - rfloor (sp_Z x))) * sp_rho x) (fun x => (sp_Z x - rfloor (sp_Z x)) * sp_rho x) l)
      Te (pair2 sp_T sp_T l) ov).
  Proof.
    unfold expand, s. cbn [ions Z_free mass_density T_e T_i over_radius]. rewrite !rep2_map, !alternate_pair2, ew_pair2. reflexivity.
  Qed.
End Zip.

Lemma pair2_zip {A} (f g : spec -> A) l d i : (i < length l)%nat ->
  nth (2 * i) (pair2 f g l) d = nth i (map f l) d /\ nth (2 * i + 1) (pair2 f g l) d = nth i (map g l) d.
Proof. apply nth_pair2. Qed.

Lemma nth_map_in {A} (f : A -> R) l i d x0 : (i < length l)%nat -> nth i (map f l) d = f (nth i l x0).
Proof. intros H. rewrite (nth_indep _ d (f x0)) by now rewrite map_length. apply map_nth. Qed.

Lemma In_pair2 {A B} (f g : A -> B) l y : In y (pair2 f g l) -> exists x, In x l /\ (y = f x \/ y = g x).
Proof.
  unfold pair2. intros H. apply in_flat_map in H as (x & Hx & [<-|[<-|[]]]); eauto.
Qed.

Lemma expand_ok s : wf s -> masses_pos s ->
  exists s' ni ni' ne,
    expand s = Some s' /\ wf s' /\ nions s' = (2 * nions s)%nat /\
    n_i s = Some ni /\ n_i s' = Some ni' /\ n_e s = Some ne /\ n_e s' = Some ne /\ T_e s' = T_e s /\
    (forall z, In z (Z_free s') -> exists m : Z, z = IZR m) /\
    (forall i d dn, (i < nions s)%nat ->
       nth (2 * i) (ions s') d = nth i (ions s) d /\ nth (2 * i + 1) (ions s') d = nth i (ions s) d /\
       nth (2 * i) (T_i s') dn = nth i (T_i s) dn /\ nth (2 * i + 1) (T_i s') dn = nth i (T_i s) dn /\
       nth (2 * i) (mass_density s') dn + nth (2 * i + 1) (mass_density s') dn = nth i (mass_density s) dn /\
       nth (2 * i) ni' dn + nth (2 * i + 1) ni' dn = nth i ni dn /\
       nth (2 * i) ni' dn * nth (2 * i) (Z_free s') dn + nth (2 * i + 1) ni' dn * nth (2 * i + 1) (Z_free s') dn
         = nth i ni dn * nth i (Z_free s) dn /\
       nth (2 * i) (Z_free s') dn <= nth i (Z_free s) dn <= nth (2 * i + 1) (Z_free s') dn /\
       nth (2 * i + 1) (Z_free s') dn - nth (2 * i) (Z_free s') dn <= 1).
Proof.
  intros Hwf Hm. destruct (wf_zip s Hwf) as [l E].
  assert (Hm' : forall x, In x l -> 0 < sp_m x).
  { intros x Hx. apply Hm. rewrite E. cbn. now apply in_map. }
  rewrite E. clear Hwf Hm E. generalize (T_e s) (over_radius s). clear s. intros Te ov.
  rewrite expand_zip, n_i_zip, n_e_zip.
  eexists _, _, _, _. split; [reflexivity|].
  assert (HN : n_i (mkPS (pair2 sp_el sp_el l)
      (pair2 (fun x => rfloor (sp_Z x)) (fun x => rceil (sp_Z x)) l)
      (pair2 (fun x => (1 - (sp_Z x - rfloor (sp_Z x))) * sp_rho x) (fun x => (sp_Z x - rfloor (sp_Z x)) * sp_rho x) l)
      Te (pair2 sp_T sp_T l) ov) =
     Some (pair2 (fun x => (1 - (sp_Z x - rfloor (sp_Z x))) * sp_rho x / sp_m x) (fun x => (sp_Z x - rfloor (sp_Z x)) * sp_rho x / sp_m x) l)).
  { unfold n_i, atomic_masses. cbn. rewrite map_pair2, ew_pair2. reflexivity. }
  split; [unfold wf; cbn; now rewrite !pair2_length|].
  split; [unfold nions; cbn [ions]; now rewrite pair2_length, map_length|].
  split; [reflexivity|]. split; [exact HN|]. split; [reflexivity|]. split.
  { unfold n_e. rewrite HN. cbn [obind Z_free]. rewrite ew_pair2. cbn [obind]. f_equal.
    rewrite sum_pair2. apply sum_map_ext. intros x Hx. unfold sp_n.
    transitivity (sp_rho x / sp_m x * ((1 - (sp_Z x - rfloor (sp_Z x))) * rfloor (sp_Z x) + (sp_Z x - rfloor (sp_Z x)) * rceil (sp_Z x))).
    - unfold Rdiv. ring.
    - now rewrite mix_charge. }
  split; [reflexivity|]. split.
  { cbn. intros z Hz. apply In_pair2 in Hz as (x & _ & [->| ->]); [apply rfloor_int|apply rceil_int]. }
  unfold nions. cbn. intros i d dn Hi. rewrite map_length in Hi.
  replace (i + (i + 0))%nat with (2 * i)%nat by lia.
  destruct (nth_pair2 sp_el sp_el l d i Hi) as [-> ->].
  destruct (nth_pair2 sp_T sp_T l dn i Hi) as [-> ->].
  repeat match goal with |- context[pair2 ?f ?g l] =>
    let H1 := fresh in let H2 := fresh in destruct (nth_pair2 f g l dn i Hi) as [H1 H2]; rewrite H1, H2; clear H1 H2 end.
  assert (Hx0 : exists x0 : spec, In x0 l) by (destruct l; [cbn in Hi; lia|eexists; now left]).
  destruct Hx0 as [x0 _].
  rewrite !(nth_map_in _ l i dn x0 Hi). set (x := nth i l x0).
  split; [reflexivity|]. split; [reflexivity|]. split; [reflexivity|]. split; [reflexivity|].
  split; [ring|]. split; [unfold sp_n, Rdiv; ring|]. split.
  { transitivity (sp_rho x / sp_m x * ((1 - (sp_Z x - rfloor (sp_Z x))) * rfloor (sp_Z x) + (sp_Z x - rfloor (sp_Z x)) * rceil (sp_Z x))).
    - unfold Rdiv. ring.
    - rewrite mix_charge. reflexivity. }
  split.
  - pose proof (rfloor_spec (sp_Z x)). pose proof (rceil_spec (sp_Z x)). lra.
  - destruct (rceil_rfloor (sp_Z x)) as [[-> _]| ->]; lra.
Qed.

Lemma expand_bounds s s' : wf s -> expand s = Some s' ->
  ((forall r, In r (mass_density s) -> 0 <= r) -> forall r, In r (mass_density s') -> 0 <= r) /\
  (forall m : Z, (forall z, In z (Z_free s) -> IZR m <= z) -> forall z, In z (Z_free s') -> IZR m <= z) /\
  (forall m : Z, (forall z, In z (Z_free s) -> z <= IZR m) -> forall z, In z (Z_free s') -> z <= IZR m).
Proof.
  intros Hwf HE. destruct (wf_zip s Hwf) as [l E]. rewrite E in HE |- *.
  rewrite expand_zip in HE. injection HE as <-. cbn. split; [|split].
  - intros H r Hr. apply In_pair2 in Hr as (x & Hx & [->| ->]).
    + pose proof (rfloor_spec (sp_Z x)). apply Rmult_le_pos; [lra|]. apply H. now apply in_map.
    + pose proof (rfloor_spec (sp_Z x)). apply Rmult_le_pos; [lra|]. apply H. now apply in_map.
  - intros m H z Hz. apply In_pair2 in Hz as (x & Hx & [->| ->]).
    + apply rfloor_ge. apply H. now apply in_map.
    + pose proof (rceil_spec (sp_Z x)). assert (IZR m <= sp_Z x) by (apply H; now apply in_map). lra.
  - intros m H z Hz. apply In_pair2 in Hz as (x & Hx & [->| ->]).
    + pose proof (rfloor_spec (sp_Z x)). assert (sp_Z x <= IZR m) by (apply H; now apply in_map). lra.
    + apply rceil_le. apply H. now apply in_map.
Qed.

(** The daughters keep a non-negative number of bound electrons. *)
Lemma expand_core s s' : wf s -> expand s = Some s' ->
  (forall e, In e (ions s) -> exists m : Z, el_Z e = IZR m) ->
  (forall c, Z_core s = Some c -> forall x, In x c -> 0 <= x) ->
  forall c, Z_core s' = Some c -> forall x, In x c -> 0 <= x.
Proof.
  intros Hwf HE Hint Hc. destruct (wf_zip s Hwf) as [l E]. rewrite E in HE, Hint, Hc.
  rewrite expand_zip in HE. injection HE as <-.
  unfold Z_core, Z_A in Hc |- *. cbn in *. rewrite map_map, ew_map in Hc. specialize (Hc _ eq_refl).
  rewrite map_pair2, ew_pair2. intros c Ec x Hx. injection Ec as <-.
  apply In_pair2 in Hx as (y & Hy & [->| ->]).
  - specialize (Hc (el_Z (sp_el y) - sp_Z y)). pose proof (rfloor_spec (sp_Z y)).
    assert (0 <= el_Z (sp_el y) - sp_Z y) by (apply Hc; apply in_map_iff; now exists y). lra.
  - destruct (Hint (sp_el y)) as [m Em]; [now apply in_map|]. rewrite Em.
    assert (rceil (sp_Z y) <= IZR m); [|lra]. apply rceil_le. rewrite <- Em.
    assert (0 <= el_Z (sp_el y) - sp_Z y) by (apply Hc; apply in_map_iff; now exists y). lra.
Qed.

(** ** C06 *)
Lemma expand_radius_fails s s' : wf s -> (2 <= nions s)%nat -> length (over_radius s) = nions s ->
  expand s = Some s' -> ion_core_radius s' = None.
Proof.
  intros Hwf H2 Ho HE. destruct (wf_zip s Hwf) as [l E].
  assert (Hl : nions s = length l) by (rewrite E; unfold nions; cbn; now rewrite map_length).
  rewrite E in HE. rewrite expand_zip in HE. injection HE as <-.
  unfold ion_core_radius, lookup_radius. cbn [over_radius ions]. unfold ew. rewrite map_pair2, pair2_length.
  destruct (Nat.eqb_spec (length (over_radius s)) (2 * length l)); [lia|].
  destruct (over_radius s) as [|a [|b t]]; cbn in Ho; try lia.
  destruct l as [|x [|y t']]; cbn in Hl; try lia. reflexivity.
Qed.
Lemma expand_radius_one s s' r : wf s -> nions s = 1%nat -> length (over_radius s) = 1%nat ->
  expand s = Some s' -> ion_core_radius s = Some [r] -> ion_core_radius s' = Some [r; r].
Proof.
  intros Hwf H1 Ho HE. destruct (wf_zip s Hwf) as [l E].
  assert (Hl : nions s = length l) by (rewrite E; unfold nions; cbn; now rewrite map_length).
  rewrite E in HE |- *. rewrite expand_zip in HE. injection HE as <-.
  destruct l as [|x [|? ?]]; cbn in Hl; try lia.
  unfold ion_core_radius, lookup_radius. cbn [over_radius ions].
  destruct (over_radius s) as [|a [|b t]]; cbn in Ho; try lia. cbn.
  destruct (Rgt_dec a 0); intros H; injection H as <-; reflexivity.
Qed.

(** ** C07 *)
Lemma dens_pos s : wf s -> masses_pos s -> (1 <= nions s)%nat -> (forall r, In r (mass_density s) -> 0 < r) ->
  forall l, s = mkPS (map sp_el l) (map sp_Z l) (map sp_rho l) (T_e s) (map sp_T l) (over_radius s) ->
  l <> [] /\ (forall x, In x l -> 0 < sp_n x).
Proof.
  intros Hwf Hm Hn Hr l E. split.
  - intros ->. rewrite E in Hn. cbn in Hn. lia.
  - intros x Hx. unfold sp_n. apply Rdiv_lt_0_compat.
    + apply Hr. rewrite E. cbn. now apply in_map.
    + apply Hm. rewrite E. cbn. now apply in_map.
Qed.

Lemma sum_ge0_bounds l (w z : spec -> R) : (forall x, In x l -> 0 <= w x) -> sum (map w l) = 1 -> l <> [] ->
  (exists x, In x l /\ z x <= sum (map (fun x => z x * w x) l)) /\
  (exists x, In x l /\ sum (map (fun x => z x * w x) l) <= z x).
Proof.
  intros Hw H1 Hne.
  assert (Hmin : exists x, In x l /\ forall y, In y l -> z x <= z y).
  { clear Hw H1. induction l as [|a l IH]; [congruence|]. destruct l as [|b l].
    - exists a. split; [now left|]. intros y [<-|[]]. lra.
    - destruct IH as (x & Hx & Hmin); [discriminate|]. destruct (Rle_dec (z a) (z x)).
      + exists a. split; [now left|]. intros y [<-|Hy]; [lra|]. specialize (Hmin y Hy). lra.
      + exists x. split; [now right|]. intros y [<-|Hy]; [lra|]. now apply Hmin. }
  assert (Hmax : exists x, In x l /\ forall y, In y l -> z y <= z x).
  { clear Hw H1 Hmin. induction l as [|a l IH]; [congruence|]. destruct l as [|b l].
    - exists a. split; [now left|]. intros y [<-|[]]. lra.
    - destruct IH as (x & Hx & Hmax); [discriminate|]. destruct (Rle_dec (z x) (z a)).
      + exists a. split; [now left|]. intros y [<-|Hy]; [lra|]. specialize (Hmax y Hy). lra.
      + exists x. split; [now right|]. intros y [<-|Hy]; [lra|]. now apply Hmax. }
  split.
  - destruct Hmin as (x & Hx & Hmin). exists x. split; [assumption|].
    replace (z x) with (sum (map (fun y => z x * w y) l)) by (rewrite sum_map_scal, H1; ring).
    apply sum_map_le. intros y Hy. apply Rmult_le_compat_r; auto.
  - destruct Hmax as (x & Hx & Hmax). exists x. split; [assumption|].
    replace (z x) with (sum (map (fun y => z x * w y) l)) by (rewrite sum_map_scal, H1; ring).
    apply sum_map_le. intros y Hy. apply Rmult_le_compat_r; auto.
Qed.

Lemma fractions_ok s : wf s -> masses_pos s -> (1 <= nions s)%nat -> (forall r, In r (mass_density s) -> 0 < r) ->
  exists x mz ni ne,
    number_fraction s = Some x /\ mean_Z_A s = Some mz /\ n_i s = Some ni /\ n_e s = Some ne /\
    length x = nions s /\ (forall y, In y x -> 0 < y <= 1) /\ fold_right Rplus 0 x = 1 /\
    (exists a, In a (ions s) /\ el_Z a <= mz) /\ (exists b, In b (ions s) /\ mz <= el_Z b) /\
    (forall i d, (i < nions s)%nat -> nth i x d * fold_right Rplus 0 ni = nth i ni d) /\
    ((forall z, In z (Z_free s) -> 0 <= z) -> 0 <= ne) /\
    (forall zmax, (forall z, In z (Z_free s) -> z <= zmax) -> ne <= zmax * fold_right Rplus 0 ni).
Proof.
  intros Hwf Hm Hn Hr. destruct (wf_zip s Hwf) as [l E].
  destruct (dens_pos s Hwf Hm Hn Hr l E) as [Hne Hpos].
  assert (HS : 0 < sum (map sp_n l)).
  { apply sum_pos; [destruct l; [congruence|discriminate]|]. intros y Hy. apply in_map_iff in Hy as (x & <- & Hx). auto. }
  rewrite E. clear E Hwf Hm Hn Hr. rewrite nf_zip, mean_Z_zip, n_i_zip, n_e_zip by lra.
  assert (H1 : sum (map (fun x => sp_n x / sum (map sp_n l)) l) = 1).
  { rewrite (sum_map_div (sum (map sp_n l)) sp_n). field. lra. }
  assert (Hw : forall x, In x l -> 0 < sp_n x / sum (map sp_n l)).
  { intros x Hx. apply Rdiv_lt_0_compat; auto. }
  destruct (sum_ge0_bounds l (fun x => sp_n x / sum (map sp_n l)) (fun x => el_Z (sp_el x))) as [[a [Ha Ha']] [b [Hb Hb']]]; auto.
  { intros x Hx. left. auto. }
  eexists _, _, _, _. do 4 (split; [reflexivity|]). cbn [ions Z_free]. unfold nions. cbn [ions].
  rewrite !map_length.
  split; [reflexivity|]. split.
  { intros y Hy. apply in_map_iff in Hy as (x & <- & Hx). split; [auto|].
    rewrite <- H1. clear H1 a b Ha Ha' Hb Hb'.
    assert (G : forall (w : spec -> R) l, (forall x, In x l -> 0 < w x) -> In x l -> w x <= sum (map w l)).
    { clear. intros w l. induction l as [|c l IH]; intros Hw Hx; [easy|]. cbn.
      assert (0 <= sum (map w l)).
      { apply sum_nonneg. intros y Hy. apply in_map_iff in Hy as (z & <- & Hz). left. apply Hw. now right. }
      destruct Hx as [->|Hx].
      - unfold sum in *. lra.
      - specialize (IH (fun x h => Hw x (or_intror h)) Hx). pose proof (Hw c (or_introl eq_refl)). unfold sum in *. lra. }
    apply (G (fun x => sp_n x / sum (map sp_n l))); auto. }
  split; [exact H1|].
  split; [exists (sp_el a); split; [now apply in_map|exact Ha']|].
  split; [exists (sp_el b); split; [now apply in_map|exact Hb']|].
  split.
  { intros i d Hi. fold (sum (map sp_n l)). destruct l as [|x0 l0] eqn:El; [congruence|]. rewrite <- El in *. 
    rewrite !(nth_map_in _ l i d x0 Hi). field. lra. }
  split.
  - intros HZ. apply sum_nonneg. intros y Hy. apply in_map_iff in Hy as (x & <- & Hx).
    apply Rmult_le_pos; [left; auto|]. apply HZ. now apply in_map.
  - intros zmax HZ. fold (sum (map sp_n l)). rewrite <- sum_map_scal. apply sum_map_le. intros x Hx.
    rewrite Rmult_comm. apply Rmult_le_compat_r; [left; auto|]. apply HZ. now apply in_map.
Qed.

(** ** C08 / C09 *)
Record mixrow := mkRow { r_el : element; r_x : R; r_Z : R }.
Lemma row_zip els : forall x Z, length x = length els -> length Z = length els ->
  exists l, els = map r_el l /\ x = map r_x l /\ Z = map r_Z l.
Proof.
  induction els as [|e els IH]; intros x Z Hx HZ.
  - destruct x, Z; try discriminate. now exists [].
  - destruct x as [|a x], Z as [|z Z]; try discriminate.
    destruct (IH x Z) as (l & -> & -> & ->); try (cbn in *; lia). exists (mkRow e a z :: l). auto.
Qed.
Definition r_m (r : mixrow) := el_mass (r_el r).

Lemma sum_xm_pos l : (forall r, In r l -> 0 <= r_x r) -> sum (map r_x l) = 1 -> (forall r, In r l -> 0 < r_m r) ->
  0 < sum (map (fun r => r_x r * r_m r) l).
Proof.
  intros Hx H1 Hm.
  assert (G : forall l, (forall r, In r l -> 0 <= r_x r) -> (forall r, In r l -> 0 < r_m r) ->
     0 < sum (map r_x l) -> 0 < sum (map (fun r => r_x r * r_m r) l)).
  { clear. induction l as [|a l IH]; cbn; intros Hx Hm H; [lra|].
    assert (Hl : 0 <= sum (map (fun r => r_x r * r_m r) l)).
    { apply sum_nonneg. intros y Hy. apply in_map_iff in Hy as (r & <- & Hr).
      apply Rmult_le_pos; [apply Hx; now right|left; apply Hm; now right]. }
    pose proof (Hx a (or_introl eq_refl)) as Ha. pose proof (Hm a (or_introl eq_refl)) as Hma.
    unfold sum in *. destruct Ha as [Ha|Ha].
    - assert (0 < r_x a * r_m a) by now apply Rmult_lt_0_compat. lra.
    - rewrite <- Ha in *. assert (0 < fold_right Rplus 0 (map (fun r => r_x r * r_m r) l)).
      { apply IH; auto; lra. } lra. }
  apply G; auto. lra.
Qed.

Lemma mass_frac_zip l : sum (map (fun r => r_x r * r_m r) l) <> 0 ->
  mass_from_number_fraction (map r_x l) (map r_el l) =
    Some (map (fun r => r_x r * r_m r / sum (map (fun r => r_x r * r_m r) l)) l).
Proof.
  intros H. unfold mass_from_number_fraction. rewrite !map_length, Nat.eqb_refl, map_map, map2_map.
  unfold div_scalar. fold r_m. change (fun x => r_x x * el_mass (r_el x)) with (fun r => r_x r * r_m r).
  destruct (Req_EM_T _ 0); [contradiction|]. now rewrite map_map.
Qed.

Lemma mass_fractions_ok (x : list R) (els : list element) :
  length x = length els -> (forall y, In y x -> 0 <= y) -> fold_right Rplus 0 x = 1 ->
  (forall e, In e els -> 0 < el_mass e) ->
  exists mf, mass_from_number_fraction x els = Some mf /\
    length mf = length els /\ (forall y, In y mf -> 0 <= y) /\ fold_right Rplus 0 mf = 1 /\
    forall rho Z Te Ti s, rho <> 0 ->
      init els Z (map (fun f => f * rho) mf) Te Ti = Some s -> number_fraction s = Some x.
Proof.
  intros Hl Hx H1 Hm.
  destruct (row_zip els x (map (fun _ => 0) els)) as (l & -> & -> & _); [assumption|now rewrite map_length|].
  assert (Hx' : forall r, In r l -> 0 <= r_x r) by (intros; apply Hx; now apply in_map).
  assert (Hm' : forall r, In r l -> 0 < r_m r) by (intros; apply Hm; now apply in_map).
  pose proof (sum_xm_pos l Hx' H1 Hm') as HP. set (M := sum (map (fun r => r_x r * r_m r) l)) in *.
  rewrite mass_frac_zip by (fold M; lra). fold M. eexists. split; [reflexivity|].
  split; [now rewrite !map_length|]. split.
  { intros y Hy. apply in_map_iff in Hy as (r & <- & Hr). apply Rmult_le_pos; [apply Rmult_le_pos; [auto|left; auto]|].
    left. now apply Rinv_0_lt_compat. }
  split.
  { fold (sum (map (fun r => r_x r * r_m r / M) l)). rewrite (sum_map_div M (fun r => r_x r * r_m r)). fold M. field. lra. }
  intros rho Z Te Ti s Hrho Hi.
  assert (Hs : ions s = map r_el l /\ mass_density s = map (fun r => r_x r * r_m r / M * rho) l).
  { unfold init in Hi. rewrite map_map in Hi. destruct (_ && _)%bool; [|discriminate].
    destruct Ti as [Ti|]; [destruct (Nat.eqb _ _); [|discriminate]|]; injection Hi as <-; auto. }
  destruct Hs as [E1 E2]. unfold number_fraction, n_i, atomic_masses. rewrite E1, E2, map_map, ew_map. cbn [obind].
  assert (E : map (fun r => r_x r * r_m r / M * rho / el_mass (r_el r)) l = map (fun r => (rho / M) * r_x r) l).
  { apply map_ext_in. intros r Hr. pose proof (Hm' r Hr). unfold r_m in *. field. split; lra. }
  rewrite E. unfold div_scalar. rewrite sum_map_scal.
  change (sum (map r_x l)) with (fold_right Rplus 0 (map r_x l)). rewrite H1, Rmult_1_r.
  assert (HrM : rho / M <> 0) by (unfold Rdiv; apply Rmult_integral_contrapositive_currified; [assumption|apply Rinv_neq_0_compat; lra]).
  destruct (Req_EM_T (rho / M) 0); [contradiction|]. rewrite map_map. f_equal. apply map_ext_in. intros r Hr.
  field. split; lra.
Qed.

Lemma density_inverts (ne : R) (Z x : list R) (els : list element) :
  length x = length els -> length Z = length els ->
  (forall y, In y x -> 0 <= y) -> fold_right Rplus 0 x = 1 ->
  (forall e, In e els -> 0 < el_mass e) ->
  fold_right Rplus 0 (map (fun p => fst p * snd p) (combine Z x)) <> 0 ->
  ne <> 0 ->
  exists rho, density_from_ne_partial ne Z x els = Some rho /\
    forall Te, exists s, init els Z rho Te None = Some s /\ n_e s = Some ne /\ number_fraction s = Some x.
Proof.
  intros Hlx HlZ Hx H1 Hm HZ Hne.
  assert (HZ' : sum (map2 Rmult Z x) <> 0).
  { intros E. apply HZ. transitivity (sum (map2 Rmult Z x)); [|exact E]. unfold sum. f_equal. clear. revert x. induction Z as [|z Z IH]; intros [|a x]; cbn; try reflexivity.
    rewrite IH. reflexivity. }
  destruct (mass_fractions_ok x els Hlx Hx H1 Hm) as (mf & Emf & Hlmf & Hmf0 & Hmf1 & Hfrac).
  unfold density_from_ne_partial, density_from_ne.
  rewrite Hlx, HlZ, Nat.eqb_refl. cbn [andb].
  destruct (Req_EM_T (sum (map2 Rmult Z x)) 0); [contradiction|]. cbn [obind]. rewrite Emf. cbn [obind].
  set (rho0 := ne * sum (map2 Rmult (map el_mass els) x) / sum (map2 Rmult Z x)).
  eexists. split; [reflexivity|]. intros Te.
  unfold init. rewrite map_length, Hlmf, HlZ, Nat.eqb_refl. cbn [andb]. eexists. split; [reflexivity|].
  destruct (row_zip els x Z) as (l & -> & -> & ->); [assumption|assumption|].
  assert (Hx' : forall r, In r l -> 0 <= r_x r) by (intros; apply Hx; now apply in_map).
  assert (Hm' : forall r, In r l -> 0 < r_m r) by (intros; apply Hm; now apply in_map).
  pose proof (sum_xm_pos l Hx' H1 Hm') as HP. set (M := sum (map (fun r => r_x r * r_m r) l)) in *.
  rewrite mass_frac_zip in Emf by (fold M; lra). fold M in Emf. injection Emf as <-.
  assert (Hrho0 : rho0 = ne * M / sum (map (fun r => r_Z r * r_x r) l)).
  { unfold rho0. rewrite map_map, !map2_map. unfold M. f_equal. f_equal. apply sum_map_ext. intros r _. unfold r_m. ring. }
  rewrite map2_map in HZ'. set (D := sum (map (fun r => r_Z r * r_x r) l)) in *.
  assert (Hrho : rho0 <> 0).
  { rewrite Hrho0. unfold Rdiv. apply Rmult_integral_contrapositive_currified.
    - apply Rmult_integral_contrapositive_currified; lra.
    - now apply Rinv_neq_0_compat. }
  split.
  - unfold n_e, n_i, atomic_masses. cbn [mass_density ions Z_free]. rewrite !map_map, ew_map. cbn [obind]. rewrite ew_map. cbn [obind].
    f_equal. transitivity (sum (map (fun r => (ne / D) * (r_Z r * r_x r)) l)).
    + apply sum_map_ext. intros r Hr. pose proof (Hm' r Hr) as Hmr. rewrite Hrho0. fold (r_m r).
      unfold r_m in *. field. repeat split; try assumption; lra.
    + rewrite sum_map_scal. fold D. field. assumption.
  - apply (Hfrac rho0 (map r_Z l) Te None); [exact Hrho|]. unfold init. rewrite !map_length, Nat.eqb_refl. cbn [andb]. reflexivity.
Qed.

(** ** C14 *)
Lemma average_zip l Te ov : sum (map sp_n l) <> 0 ->
  let N := sum (map sp_n l) in
  average (mkPS (map sp_el l) (map sp_Z l) (map sp_rho l) Te (map sp_T l) ov) =
  Some (mkPS [mkEl (sum (map (fun y => el_Z (sp_el y) * (sp_n y / N)) l)) (sum (map (fun y => sp_m y * (sp_n y / N)) l)) 0]
    [sum (map (fun y => sp_Z y * (sp_n y / N)) l)] [sum (map (fun y => sp_rho y * (sp_n y / N)) l)] Te
    [sum (map (fun y => sp_T y * (sp_n y / N)) l)] ov).
Proof.
  intros H N. unfold average. rewrite nf_zip by assumption. fold N. cbn [obind].
  unfold Z_A, atomic_masses. cbn [ions Z_free mass_density T_i T_e over_radius]. rewrite !map_map, !ew_map. reflexivity.
Qed.

(** densities as number density times mass *)
Lemma rho_nm x : 0 < sp_m x -> sp_rho x = sp_n x * sp_m x.
Proof. intros H. unfold sp_n. field. lra. Qed.

Lemma average_density s s' ni : wf s -> masses_pos s -> (1 <= nions s)%nat -> (forall r, In r (mass_density s) -> 0 < r) ->
  n_i s = Some ni -> average s = Some s' ->
  exists n' , n_i s' = Some [n'] /\
    (nions s = 1%nat -> ni = [n']) /\
    ((2 <= nions s)%nat -> n' < fold_right Rplus 0 ni).
Proof.
  intros Hwf Hm Hn Hr Hni Hav. destruct (wf_zip s Hwf) as [l E].
  destruct (dens_pos s Hwf Hm Hn Hr l E) as [Hne Hpos].
  assert (Hmp : forall x, In x l -> 0 < sp_m x).
  { intros x Hx. apply Hm. rewrite E. cbn. now apply in_map. }
  assert (Hlen : nions s = length l) by (rewrite E; unfold nions; cbn; apply map_length).
  rewrite E in Hni, Hav. rewrite n_i_zip in Hni. injection Hni as <-.
  assert (HS : 0 < sum (map sp_n l)).
  { apply sum_pos; [destruct l; [congruence|discriminate]|]. intros y Hy. apply in_map_iff in Hy as (x & <- & Hx). auto. }
  rewrite average_zip in Hav by lra. injection Hav as <-.
  unfold n_i, atomic_masses. cbn [mass_density ions map]. unfold ew. cbn [length Nat.eqb map2].
  eexists. split; [reflexivity|]. rewrite Hlen. cbn [el_mass].
  set (N := sum (map sp_n l)) in *.
  assert (EM : sum (map (fun y => sp_m y * (sp_n y / N)) l) = sum (map sp_rho l) / N).
  { rewrite <- (sum_map_div N sp_rho). apply sum_map_ext. intros x Hx. rewrite (rho_nm x) by auto. unfold Rdiv. ring. }
  assert (ER : sum (map (fun y => sp_rho y * (sp_n y / N)) l) = sum (map (fun y => sp_rho y * sp_n y) l) / N).
  { rewrite <- (sum_map_div N (fun y => sp_rho y * sp_n y)). apply sum_map_ext. intros x Hx. unfold Rdiv. ring. }
  assert (Hrp : forall x, In x l -> 0 < sp_rho x).
  { intros x Hx. rewrite (rho_nm x) by auto. apply Rmult_lt_0_compat; auto. }
  assert (HR : 0 < sum (map sp_rho l)).
  { apply sum_pos; [destruct l; [congruence|discriminate]|]. intros y Hy. apply in_map_iff in Hy as (x & <- & Hx). auto. }
  rewrite EM, ER. replace (sum (map (fun y => sp_rho y * sp_n y) l) / N / (sum (map sp_rho l) / N))
    with (sum (map (fun y => sp_rho y * sp_n y) l) / sum (map sp_rho l)) by (field; split; lra).
  split.
  - intros H1. destruct l as [|x [|y l']]; cbn in H1; try lia. cbn. f_equal. field.
    specialize (Hrp x (or_introl eq_refl)). lra.
  - intros H2. fold (sum (map sp_n l)). fold N.
    apply (Rmult_lt_reg_r (sum (map sp_rho l))); [assumption|].
    replace (sum (map (fun y => sp_rho y * sp_n y) l) / sum (map sp_rho l) * sum (map sp_rho l))
      with (sum (map (fun y => sp_rho y * sp_n y) l)) by (field; lra).
    rewrite <- sum_map_scal.
    assert (Hlt : forall x, In x l -> sp_n x < N).
    { intros x Hx. unfold N. clear - Hpos Hx H2.
      assert (G : forall l, (forall y, In y l -> 0 < sp_n y) -> In x l -> sp_n x <= sum (map sp_n l) /\ ((2 <= length l)%nat -> sp_n x < sum (map sp_n l))).
      { clear. induction l as [|a l IH]; intros Hp Hx; [easy|]. cbn.
        assert (H0 : 0 <= sum (map sp_n l)).
        { apply sum_nonneg. intros y Hy. apply in_map_iff in Hy as (z & <- & Hz). left. apply Hp. now right. }
        pose proof (Hp a (or_introl eq_refl)) as Ha. destruct Hx as [->|Hx].
        - split; [unfold sum in *; lra|]. intros H2. assert (0 < sum (map sp_n l)).
          { apply sum_pos; [destruct l; cbn in *; [lia|discriminate]|]. intros y Hy. apply in_map_iff in Hy as (z & <- & Hz). apply Hp. now right. }
          unfold sum in *. lra.
        - destruct (IH (fun y h => Hp y (or_intror h)) Hx) as [H1 _]. unfold sum in *. split; intros; lra. }
      now apply G. }
    clearbody N. clear - Hlt Hrp Hne. induction l as [|a l IH]; [congruence|]. cbn.
    assert (Ha : sp_rho a * sp_n a < N * sp_rho a).
    { rewrite (Rmult_comm N). apply Rmult_lt_compat_l; [apply Hrp|apply Hlt]; now left. }
    assert (Hl : sum (map (fun y => sp_rho y * sp_n y) l) <= sum (map (fun y => N * sp_rho y) l)).
    { apply sum_map_le. intros y Hy. rewrite (Rmult_comm N). apply Rmult_le_compat_l; left; [apply Hrp|apply Hlt]; now right. }
    unfold sum in *. lra.
Qed.

(** The electron density is off by the same factor: charge per ion is kept. *)
Lemma average_charge s s' ni ne : wf s -> masses_pos s -> (1 <= nions s)%nat -> (forall r, In r (mass_density s) -> 0 < r) ->
  n_i s = Some ni -> n_e s = Some ne -> average s = Some s' ->
  exists n' ne', n_i s' = Some [n'] /\ n_e s' = Some ne' /\ ne' * fold_right Rplus 0 ni = ne * n' /\ T_e s' = T_e s.
Proof.
  intros Hwf Hm Hn Hr Hni Hnee Hav. destruct (wf_zip s Hwf) as [l E].
  destruct (dens_pos s Hwf Hm Hn Hr l E) as [Hne Hpos].
  rewrite E in Hni, Hav, Hnee. rewrite n_i_zip in Hni. injection Hni as <-. rewrite n_e_zip in Hnee. injection Hnee as <-.
  assert (HS : 0 < sum (map sp_n l)).
  { apply sum_pos; [destruct l; [congruence|discriminate]|]. intros y Hy. apply in_map_iff in Hy as (x & <- & Hx). auto. }
  rewrite average_zip in Hav by lra. injection Hav as <-.
  unfold n_e, n_i, atomic_masses. cbn [mass_density ions map Z_free T_e]. unfold ew. cbn [length Nat.eqb map2 obind].
  eexists _, _. split; [reflexivity|]. split; [reflexivity|]. split; [|reflexivity].
  fold (sum (map sp_n l)). set (N := sum (map sp_n l)) in *. cbn [sum fold_right].
  assert (EZ : sum (map (fun y => sp_Z y * (sp_n y / N)) l) = sum (map (fun x => sp_n x * sp_Z x) l) / N).
  { rewrite <- (sum_map_div N (fun x => sp_n x * sp_Z x)). apply sum_map_ext. intros x Hx. unfold Rdiv. ring. }
  rewrite EZ. match goal with |- (?a * _ + 0) * _ = _ => set (q := a) end.
  field. lra.
Qed.

Lemma radius_lookup s : length (over_radius s) = nions s ->
  exists r, ion_core_radius s = Some r /\ length r = nions s /\
    forall i e o, nth_error (ions s) i = Some e -> nth_error (over_radius s) i = Some o ->
      (0 < o -> nth_error r i = Some o) /\ (o <= 0 -> nth_error r i = Some (el_radius e)).
Proof.
  unfold ion_core_radius, lookup_radius, nions, ew. rewrite map_length. intros H. rewrite H, Nat.eqb_refl.
  eexists; split; [reflexivity|]. revert H. generalize (over_radius s). generalize (ions s).
  induction l as [|a l IH]; intros [|b m] H; cbn in H; try discriminate; cbn [map map2 length].
  - split; [reflexivity|]. intros [|i] e o He; discriminate.
  - destruct (IH m ltac:(congruence)) as [HL HI]. split; [congruence|]. intros [|i] e o He Ho; cbn in *.
    + injection He as ->. injection Ho as ->. destruct (Rgt_dec o 0); split; intros; try reflexivity; lra.
    + now apply HI.
Qed.
