From Coq Require Import Reals List Bool Arith Lra Lia Psatz Permutation.
From Verif Require Import M_Const M_PlasmaState L_PlasmaState M_PlasmaPhysics L_PlasmaPhysics M_StaticSF L_StaticSF M_Interp M_Elements
  M_Setup L_Setup M_IonFeature L_IonFeature.
Import ListNotations.
Open Scope R_scope.

(** An ion species with everything the ion feature uses: element, charge, mass
    density and temperature; form factor per orbital; screening charge; Debye
    temperature. *)
Record ion := mkIon { i_sp : spec; i_ff : nat -> R; i_q : R; i_TD : R }.
Definition ion0 : ion := mkIon (mkSp (mkEl 0 0 0) 0 0 0) (fun _ => 0) 0 0.
Definition plasma (Te : R) (L : list ion) : pstate := state_of i_sp Te (map (fun _ => -1) L) L.
(** the Rayleigh weight the code computes for a structure-factor model *)
Definition rayleigh_of (SM : pstate -> option (nat -> nat -> R)) (Te : R) (L : list ion) : option R :=
  obind (SM (plasma Te L)) (fun M =>
  Rayleigh_weight (fun o a => i_ff (nth a L ion0) o) (map i_q L) M (plasma Te L)).

(** total scattering length of a species: form factor plus screening charge *)
Definition amp (x : ion) : R :=
  nsum 10 (fun o => i_ff x o * nth o (electron_distribution_ionized_state (el_Z (sp_el (i_sp x)) - sp_Z (i_sp x))) 0) + i_q x.

Section R.
  Variable u : consts.
  Notation Nt := (Ntot i_sp).
  Notation av := (avg i_sp).
  Notation num := (nd i_sp).
  Definition Zbar (L : list ion) : R := av (fun x => sp_Z (i_sp x)) L.

  Lemma rayleigh_weight_mix Te L Zf S M : good i_sp L ->
    mixture (map num L) (map (fun x => sp_Z (i_sp x)) L) Zf S = Some M ->
    Rayleigh_weight (fun o a => i_ff (nth a L ion0) o) (map i_q L) M (plasma Te L)
    = Some (av (fun x => amp x ^ 2) L + (S - 1) / Zf ^ 2 * (av (fun x => amp x * sp_Z (i_sp x)) L) ^ 2).
  Proof.
    intros G HM. pose proof (Ntot_pos i_sp L G) as HN. unfold Rayleigh_weight, plasma.
    rewrite zcore_of, nf_of by lra. cbn [obind]. f_equal. rewrite nions_of.
    rewrite <- (Rayleigh_mixture i_sp L ion0 Zf S M amp G HM). unfold Rayleigh.
    apply nsum_ext. intros b Hb. apply nsum_ext. intros a Ha.
    assert (E : forall c, (c < length L)%nat ->
      form_factor (fun o a0 => i_ff (nth a0 L ion0) o) (map (fun x => el_Z (sp_el (i_sp x)) - sp_Z (i_sp x)) L) c + at_ (map i_q L) c = amp (nth c L ion0)).
    { intros c Hc. unfold form_factor, amp. rewrite (at_map _ L ion0) by assumption. f_equal.
      apply nsum_ext. intros o _. unfold population. now rewrite (at_map _ L ion0) by assumption. }
    rewrite !E by assumption. now rewrite !(at_map _ L ion0) by assumption.
  Qed.

  Definition ne_of (L : list ion) : R := sum (map (fun x => num x * sp_Z (i_sp x)) L).
  Definition weight (L : list ion) (Zf S : R) : R :=
    av (fun x => amp x ^ 2) L + (S - 1) / Zf ^ 2 * (av (fun x => amp x * sp_Z (i_sp x)) L) ^ 2.

  Lemma Zbar_ne L : good i_sp L -> ne_of L = Nt L * Zbar L.
  Proof.
    intros G. pose proof (Ntot_pos i_sp L G). unfold Zbar. rewrite <- avg_weighted by assumption. unfold ne_of. field. lra.
  Qed.

  (** the four models in closed form *)
  Lemma with_mixture Te L Zf S : good i_sp L -> Zf <> 0 ->
    obind (mixture (map num L) (map (fun x => sp_Z (i_sp x)) L) Zf S) (fun M =>
      Rayleigh_weight (fun o a => i_ff (nth a L ion0) o) (map i_q L) M (plasma Te L)) = Some (weight L Zf S).
  Proof.
    intros G HZ. destruct (mixture_some i_sp L Zf S G HZ) as [M HM]. rewrite HM. cbn [obind]. now apply rayleigh_weight_mix.
  Qed.
  Lemma obind_assoc {X Y W} (x : option X) (f : X -> option Y) (g : Y -> option W) : obind (obind x f) g = obind x (fun a => obind (f a) g).
  Proof. now destruct x. Qed.

  Lemma Arkhipov_closed Te k L : good i_sp L -> Zbar L <> 0 ->
    rayleigh_of (fun s => Arkhipov_S u s k) Te L =
    Some (weight L (Zbar L) (S_ii_AD u k Te Te (ne_of L) (av (fun x => sp_m (i_sp x)) L) (Zbar L))).
  Proof.
    intros G HZ. pose proof (Ntot_pos i_sp L G) as HN. unfold rayleigh_of, Arkhipov_S.
    assert (E : plasma Te L = state_of i_sp Te (map (fun _ => -1) L) L) by reflexivity. rewrite E.
    rewrite ni_of, L_IonFeature.ne_of. cbn [obind]. rewrite masses_of.
    unfold state_of at 1. cbn [Z_free]. rewrite !weighted_of by lra. cbn [obind]. rewrite !avg_weighted by assumption.
    rewrite <- E. fold (Zbar L). fold (ne_of L).
    change (Z_free (plasma Te L)) with (map (fun x => sp_Z (i_sp x)) L). change (T_e (plasma Te L)) with Te. now apply with_mixture.
  Qed.
  Lemma Gregori2003_closed Te k L : good i_sp L -> Zbar L <> 0 ->
    rayleigh_of (fun s => Gregori2003_S u s k) Te L =
    obind (T_cf_Greg u Te (ne_of L)) (fun T => Some (weight L (Zbar L) (S_ii_AD u k T T (ne_of L) (av (fun x => sp_m (i_sp x)) L) (Zbar L)))).
  Proof.
    intros G HZ. pose proof (Ntot_pos i_sp L G) as HN. unfold rayleigh_of, Gregori2003_S.
    assert (E : plasma Te L = state_of i_sp Te (map (fun _ => -1) L) L) by reflexivity. rewrite E.
    rewrite ni_of, L_IonFeature.ne_of. cbn [obind]. rewrite masses_of.
    unfold state_of at 1. cbn [Z_free]. rewrite !weighted_of by lra. cbn [obind]. rewrite !avg_weighted by assumption.
    rewrite <- E. fold (Zbar L). fold (ne_of L). change (T_e (plasma Te L)) with Te.
    rewrite obind_assoc. destruct (T_cf_Greg u Te (ne_of L)) as [T|]; [|reflexivity]. cbn [obind].
    change (Z_free (plasma Te L)) with (map (fun x => sp_Z (i_sp x)) L). now apply with_mixture.
  Qed.
  Lemma Gregori2006_closed Te k L : good i_sp L -> Zbar L <> 0 ->
    rayleigh_of (fun s => Gregori2006_S u (map i_TD L) s k) Te L =
    obind (T_cf_Greg u Te (ne_of L)) (fun T => Some (weight L (Zbar L)
      (S_ii_AD u k T (av (fun x => T_i_eff_Greg (sp_T (i_sp x)) (i_TD x)) L) (ne_of L) (av (fun x => sp_m (i_sp x)) L) (Zbar L)))).
  Proof.
    intros G HZ. pose proof (Ntot_pos i_sp L G) as HN. unfold rayleigh_of, Gregori2006_S.
    assert (E : plasma Te L = state_of i_sp Te (map (fun _ => -1) L) L) by reflexivity. rewrite E.
    rewrite ni_of, L_IonFeature.ne_of. cbn [obind]. rewrite masses_of.
    unfold state_of at 1. cbn [Z_free]. rewrite !weighted_of by lra. cbn [obind]. rewrite !avg_weighted by assumption.
    rewrite <- E. fold (Zbar L). fold (ne_of L). change (T_e (plasma Te L)) with Te.
    rewrite obind_assoc. destruct (T_cf_Greg u Te (ne_of L)) as [T|]; [|reflexivity]. cbn [obind].
    change (T_i (plasma Te L)) with (map (fun x => sp_T (i_sp x)) L). rewrite ew_map. cbn [obind]. rewrite weighted_of by lra. cbn [obind].
    rewrite avg_weighted by assumption.
    change (Z_free (plasma Te L)) with (map (fun x => sp_Z (i_sp x)) L). now apply with_mixture.
  Qed.
  Lemma CHS_density_closed Te L : good i_sp L ->
    CHS_density (plasma Te L) = Some (1 / Nt L * sum (map (fun x => num x ^ 2) L)).
  Proof.
    intros G. pose proof (Ntot_pos i_sp L G) as HN. unfold CHS_density, plasma. rewrite ni_of. cbn [obind].
    fold (Nt L). rewrite qdiv_some by lra. cbn [obind]. now rewrite map_map.
  Qed.
  Lemma CHS_closed Te lfc k L : good i_sp L -> Zbar L <> 0 ->
    rayleigh_of (fun s => CHS_S u (map i_TD L) lfc s k) Te L =
    obind (T_cf_Greg u Te (ne_of L)) (fun T => obind (S_ii_CHS u k T (av (fun x => T_i_eff_Greg (sp_T (i_sp x)) (i_TD x)) L) (ne_of L) (Zbar L)
        (1 / Nt L * sum (map (fun x => num x ^ 2) L)) lfc) (fun S => Some (weight L (Zbar L) S))).
  Proof.
    intros G HZ. pose proof (Ntot_pos i_sp L G) as HN. unfold rayleigh_of, CHS_S. rewrite CHS_density_closed by assumption.
    assert (E : plasma Te L = state_of i_sp Te (map (fun _ => -1) L) L) by reflexivity. rewrite E.
    rewrite ni_of, L_IonFeature.ne_of. cbn [obind].
    unfold state_of at 1. cbn [Z_free]. rewrite !weighted_of by lra. cbn [obind]. rewrite !avg_weighted by assumption.
    rewrite <- E. fold (Zbar L). fold (ne_of L). change (T_e (plasma Te L)) with Te.
    rewrite obind_assoc. destruct (T_cf_Greg u Te (ne_of L)) as [T|]; [|reflexivity]. cbn [obind].
    change (T_i (plasma Te L)) with (map (fun x => sp_T (i_sp x)) L). rewrite ew_map. cbn [obind]. rewrite weighted_of by lra. cbn [obind].
    rewrite avg_weighted by assumption. rewrite obind_assoc. destruct (S_ii_CHS _ _ _ _ _ _ _ _) as [S|]; [|reflexivity]. cbn [obind].
    change (Z_free (plasma Te L)) with (map (fun x => sp_Z (i_sp x)) L). now apply with_mixture.
  Qed.

  (** ** Same averages, same Rayleigh weight *)
  Definition intensive (f : ion -> R) : Prop := forall x y,
    sp_el (i_sp x) = sp_el (i_sp y) -> sp_Z (i_sp x) = sp_Z (i_sp y) -> sp_T (i_sp x) = sp_T (i_sp y) ->
    i_ff x = i_ff y -> i_q x = i_q y -> i_TD x = i_TD y -> f x = f y.
  Definition alike (L L' : list ion) : Prop := forall f, intensive f -> sum (map (fun x => num x * f x) L) = sum (map (fun x => num x * f x) L').
  Lemma alike_N L L' : alike L L' -> Nt L = Nt L'.
  Proof.
    intros H. specialize (H (fun _ => 1) ltac:(intros x y; reflexivity)). unfold Ntot.
    rewrite (sum_map_ext num (fun x => num x * 1) L), (sum_map_ext num (fun x => num x * 1) L') by (intros; lra). exact H.
  Qed.
  Lemma alike_av L L' f : good i_sp L -> good i_sp L' -> alike L L' -> intensive f -> av f L = av f L'.
  Proof. intros G G' H Hf. rewrite <- !avg_weighted by assumption. now rewrite (alike_N L L' H), (H f Hf). Qed.
  Lemma amp_intensive : intensive amp.
  Proof. intros x y H1 H2 H3 H4 H5 H6. unfold amp. now rewrite H1, H2, H4, H5. Qed.
  Lemma alike_weight L L' Zf S : good i_sp L -> good i_sp L' -> alike L L' -> weight L Zf S = weight L' Zf S.
  Proof.
    intros G G' H. unfold weight. pose proof amp_intensive as Hi.
    rewrite (alike_av L L' (fun x => amp x ^ 2) G G' H), (alike_av L L' (fun x => amp x * sp_Z (i_sp x)) G G' H); [reflexivity| |].
    - intros x y H1 H2 H3 H4 H5 H6. now rewrite (Hi x y), H2.
    - intros x y H1 H2 H3 H4 H5 H6. now rewrite (Hi x y).
  Qed.
  Lemma alike_all L L' : good i_sp L -> good i_sp L' -> alike L L' ->
    Zbar L = Zbar L' /\ ne_of L = ne_of L' /\ av (fun x => sp_m (i_sp x)) L = av (fun x => sp_m (i_sp x)) L' /\
    av (fun x => T_i_eff_Greg (sp_T (i_sp x)) (i_TD x)) L = av (fun x => T_i_eff_Greg (sp_T (i_sp x)) (i_TD x)) L'.
  Proof.
    intros G G' H. repeat split.
    - apply alike_av; try assumption. intros x y; intros. assumption.
    - unfold ne_of. apply (H (fun x => sp_Z (i_sp x))). intros x y; intros. assumption.
    - apply alike_av; try assumption. intros x y H1; intros. unfold sp_m. now rewrite H1.
    - apply alike_av; try assumption. intros x y H1 H2 H3 H4 H5 H6. now rewrite H3, H6.
  Qed.
  Lemma alike_perm L L' : Permutation L L' -> alike L L'.
  Proof. intros H f _. apply sum_perm. now apply Permutation_map. Qed.
  Lemma good_perm L L' : Permutation L L' -> good i_sp L -> good i_sp L'.
  Proof.
    intros H [G N]. split.
    - rewrite Forall_forall in *. intros x Hx. apply G. eapply Permutation_in; [symmetry; exact H|assumption].
    - intros ->. apply N. now apply Permutation_nil, Permutation_sym.
  Qed.

  (** a species in two halves *)
  Definition with_rho (x : ion) (r : R) : ion :=
    mkIon (mkSp (sp_el (i_sp x)) (sp_Z (i_sp x)) r (sp_T (i_sp x))) (i_ff x) (i_q x) (i_TD x).
  Lemma alike_split x L t : sp_m (i_sp x) <> 0 ->
    alike (x :: L) (with_rho x (t * sp_rho (i_sp x)) :: with_rho x ((1 - t) * sp_rho (i_sp x)) :: L).
  Proof.
    intros Hm f Hf. cbn [map sum fold_right]. 
    assert (E : forall r, f (with_rho x r) = f x) by (intros r; apply Hf; reflexivity). rewrite !E.
    unfold nd, sp_n, sp_m in *. cbn. fold (sum (map (fun x0 => sp_rho (i_sp x0) / el_mass (sp_el (i_sp x0)) * f x0) L)).
    set (r := sum _). field. assumption.
  Qed.
  Lemma good_split x L t : 0 < t < 1 -> good i_sp (x :: L) ->
    good i_sp (with_rho x (t * sp_rho (i_sp x)) :: with_rho x ((1 - t) * sp_rho (i_sp x)) :: L).
  Proof.
    intros Ht [G _]. inversion G as [|? ? [H1 H2] H3]; subst. split; [|discriminate].
    constructor; [|constructor; [|assumption]]; cbn; (split; [exact H1|apply Rmult_lt_0_compat; lra]).
  Qed.
End R.
