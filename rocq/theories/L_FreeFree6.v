(** Instances for the examples: a quadrature rule and a plasma in which the fit of
    Dandrea is defined at every energy. *)
From Coq Require Import Reals List Arith Lra Lia Psatz FunctionalExtensionality.
From Coquelicot Require Import Complex.
From Verif Require Import M_Const M_PlasmaState M_PlasmaPhysics L_PlasmaPhysics M_Interp L_Interp M_Instrument L_Instrument
  M_FreeFree L_FreeFree L_FreeFree2 L_FreeFree3 L_FreeFree4 L_FreeFree5.
Import ListNotations.
Open Scope R_scope.

(** the midpoint rule *)
Definition midpoint (lo : R) (hi : option R) (f : R -> option R) : option R :=
  match hi with
  | Some b => option_map (fun y => (b - lo) * y) (f ((lo + b) / 2))
  | None => f (lo + 1)
  end.
Lemma midpoint_reflects : quad_reflects midpoint.
Proof.
  intros x f Hf. cbn. replace ((0 + - x) / 2) with (- ((0 + x) / 2)) by lra. rewrite Hf.
  destruct (f _); cbn; [|reflexivity]. f_equal. ring.
Qed.
Lemma midpoint_scales : quad_scales midpoint.
Proof.
  intros lo hi c f. destruct hi as [b|]; cbn; [|reflexivity]. destruct (f _); cbn; [|reflexivity]. f_equal. ring.
Qed.
Lemma midpoint_inside : quad_inside midpoint.
Proof.
  split; intros; cbn; [rewrite (H0 ((lo + hi) / 2)) by lra; reflexivity|apply H; lra].
Qed.

Definition n1 : R := 1 / (3 * PI ^ 2).
Definition Fbig (_ : R) : R := 1000000.
Definition Fzero (_ : R) : R := 0.
Lemma n1_pos : 0 < n1.
Proof. unfold n1. apply Rdiv_lt_0_compat; [lra|]. pose proof PI_RGT_0. nra. Qed.
Lemma theta1 : 1 / 2 * kB unit_consts / fermi_energy unit_consts n1 = 1.
Proof.
  pose proof PI_RGT_0. unfold fermi_energy, n1. cbn [hbar m_e kB unit_consts].
  replace (3 * PI ^ 2 * (1 / (3 * PI ^ 2))) with 1 by (field; nra).
  unfold Rpower. rewrite ln_1, Rmult_0_r, exp_0. field.
Qed.
Lemma Rpower_1_l x : Rpower 1 x = 1.
Proof. unfold Rpower. rewrite ln_1, Rmult_0_r. apply exp_0. Qed.
Lemma qdiv_pos a b : 0 < a -> 0 < b -> exists q, 0 < q /\ qdiv a b = Some q.
Proof. intros Ha Hb. exists (a / b). split; [now apply Rdiv_lt_0_compat|]. apply qdiv_some. lra. Qed.
Lemma div_gt c a b : 0 < b -> c * b < a -> c < a / b.
Proof. intros Hb H. apply (Rmult_lt_reg_r b); [exact Hb|]. unfold Rdiv. rewrite Rmult_assoc, Rinv_l by lra. lra. Qed.
Lemma dandrea_a_1 : exists a2 a4 a6 a8, dandrea_a 1 = Some (a2, a4, a6, a8) /\ 0 < a2 /\ 1 / 100 < a4 /\ 0 < a6 /\ 0 < a8.
Proof.
  unfold dandrea_a. rewrite Rpower_1_l, !pow1, !Rmult_1_r.
  rewrite !qdiv_some by lra. cbn [obind]. do 4 eexists. split; [reflexivity|].
  repeat split; try (apply Rdiv_lt_0_compat; lra). apply div_gt; lra.
Qed.
Lemma PI_bounds : 3 < PI <= 4 /\ 1 < sqrt PI <= 2 /\ 1 < sqrt 2 < 2.
Proof.
  pose proof PI2_3_2. pose proof PI_4. assert (3 < PI <= 4) by lra. split; [assumption|]. split.
  - split; [rewrite <- sqrt_1; apply sqrt_lt_1; lra|]. rewrite <- (sqrt_square 2) by lra. apply sqrt_le_1; lra.
  - split; [rewrite <- sqrt_1; apply sqrt_lt_1; lra|]. rewrite <- (sqrt_square 2) at 2 by lra. apply sqrt_lt_1; lra.
Qed.
Lemma dandrea_J_1 : exists J, dandrea_J 1 = Some J /\ 0 < J.
Proof.
  destruct PI_bounds as (HP & HsP & Hs2). unfold dandrea_J. rewrite Rpower_1_l, !pow1, !Rmult_1_r.
  assert (Ht : 3 * sqrt 2 * -3202700 / (4 * sqrt PI) < 0).
  { apply Ropp_lt_cancel. rewrite Ropp_0. replace (- (3 * sqrt 2 * -3202700 / (4 * sqrt PI))) with (3 * sqrt 2 * 3202700 / (4 * sqrt PI)) by (field; lra).
    apply Rdiv_lt_0_compat; lra. }
  set (t := 3 * sqrt 2 * -3202700 / (4 * sqrt PI)) in *. clearbody t.
  assert (0 < PI ^ 2 <= 16) by nra.
  set (d := 1 + (32488 / 10 - PI ^ 2 / 6) - 45356 / 10 - 462400 + (t + 3 * -3202700 / 4)).
  assert (d < 0) by (unfold d; lra). clearbody d. rewrite qdiv_some by lra. eexists. split; [reflexivity|].
  set (a := 1 + 32488 / 10 - 69147 / 100 - 3202700). assert (a < 0) by (unfold a; lra). clearbody a.
  replace (a / d) with (- a / - d) by (field; lra). apply Rdiv_lt_0_compat; lra.
Qed.
Lemma dandrea_K_1 : exists K, dandrea_K 1 = Some K /\ - 2 < K.
Proof.
  destruct PI_bounds as (HP & HsP & Hs2). unfold dandrea_K. rewrite Rpower_1_l, !pow1, !Rmult_1_r.
  assert (Ht : 7 * sqrt 2 * - (23375 / 10) / (8 * sqrt PI) < 0).
  { apply Ropp_lt_cancel. rewrite Ropp_0. replace (- (7 * sqrt 2 * - (23375 / 10) / (8 * sqrt PI))) with (7 * sqrt 2 * (23375 / 10) / (8 * sqrt PI)) by (field; lra).
    apply Rdiv_lt_0_compat; lra. }
  set (t := 7 * sqrt 2 * - (23375 / 10) / (8 * sqrt PI)) in *. clearbody t.
  assert (0 < PI ^ 2 <= 16) by nra.
  set (d := 1 + (- (48780 / 10000) - 3 * PI ^ 2 / 4) + 34831 / 100 + 15173 / 10 - t - 3 * - (23375 / 10) / 8).
  assert (1000 < d) by (unfold d; lra). clearbody d. rewrite qdiv_some by lra. eexists. split; [reflexivity|].
  apply div_gt; lra.
Qed.
Lemma phi_defined x eta : exists y, phi_Dandrea Fbig Fzero Fzero x 1 eta = Some y.
Proof.
  destruct PI_bounds as (HP & HsP & Hs2).
  unfold phi_Dandrea, Fbig, Fzero.
  destruct dandrea_a_1 as (a2 & a4 & a6 & a8 & -> & H2 & H4 & H6 & H8). cbn [obind].
  destruct dandrea_J_1 as (J & -> & HJ). destruct dandrea_K_1 as (K & -> & HK). cbn [obind].
  rewrite !Rpower_1_l, sqrt_1, !Rmult_1_r. rewrite !qdiv_some by lra. cbn [obind].
  rewrite !Rmult_0_l, !Rmult_0_r, !Rmult_0_l, !Rminus_0_r.
  set (qJ := 2 * J / _). assert (0 < qJ) by (apply Rdiv_lt_0_compat; lra). clearbody qJ.
  set (qK := 2 * K / _).
  assert (HqK : - (1 / 100) < qK).
  { apply div_gt; lra. }
  clearbody qK. assert (Hb4 : 0 < (a2 + qJ) ^ 2 - a2 * (a2 + qJ) + a4 + qK) by nra.
  set (b4 := _ + a4 + qK) in *. clearbody b4. set (I := 3 / 2 * (1000000 * sqrt PI)) in *.
  assert (0 < I) by (unfold I; lra). clearbody I.
  assert (E2 : forall n, x ^ (2 * n) = (x ^ 2) ^ n) by (intros; apply pow_mult).
  pose proof (pow2_ge_0 x) as Hx. assert (P : forall n, 0 <= (x ^ 2) ^ n) by (intros; now apply pow_le).
  eexists. rewrite qdiv_some; [reflexivity|].
  change (x ^ 4) with (x ^ (2 * 2)). change (x ^ 6) with (x ^ (2 * 3)). change (x ^ 8) with (x ^ (2 * 4)).
  change (x ^ 10) with (x ^ (2 * 5)). rewrite !E2.
  pose proof (Rmult_le_pos (a2 + qJ) _ ltac:(lra) Hx). pose proof (Rmult_le_pos b4 _ ltac:(lra) (P 2%nat)).
  pose proof (Rmult_le_pos (I * a4) _ ltac:(apply Rmult_le_pos; lra) (P 3%nat)).
  pose proof (Rmult_le_pos (I * a6) _ ltac:(apply Rmult_le_pos; lra) (P 4%nat)).
  pose proof (Rmult_le_pos (I * a8) _ ltac:(apply Rmult_le_pos; lra) (P 5%nat)). lra.
Qed.
Lemma xi0_defined k E inv : exists y, xi0_Dandrea unit_consts Fbig Fzero Fzero inv k E (1 / 2) n1 = Some y.
Proof.
  unfold xi0_Dandrea, real_Dandrea. rewrite theta1. 
  destruct (phi_defined (E / (4 * fermi_energy unit_consts n1) / (k / (2 * fermi_wavenumber n1)) + k / (2 * fermi_wavenumber n1))
    (inv (2 / 3 * Rpower 1 (- (3 / 2)) / (sqrt PI / 2)))) as [p ->].
  destruct (phi_defined (E / (4 * fermi_energy unit_consts n1) / (k / (2 * fermi_wavenumber n1)) - k / (2 * fermi_wavenumber n1))
    (inv (2 / 3 * Rpower 1 (- (3 / 2)) / (sqrt PI / 2)))) as [m ->].
  eexists. reflexivity.
Qed.

(** ** linearity of the Kramers-Kronig transform *)
Definition lin (a b : R) (l m : list R) : list R := map (fun p => a * fst p + b * snd p) (combine l m).
Lemma map2_lin a b l m : map2 (fun x y => a * x + b * y) l m = lin a b l m.
Proof. revert m. induction l as [|x l IH]; intros [|y m]; cbn; try reflexivity. f_equal. apply IH. Qed.
Lemma lin_map {A} a b (f g : A -> R) G : map (fun q => a * f q + b * g q) G = lin a b (map f G) (map g G).
Proof. induction G as [|x G IH]; cbn; [reflexivity|]. f_equal. exact IH. Qed.
Lemma kkt_masked_lin a b keep E Es Is Js : length Is = length Es -> length Js = length Es ->
  kkt_masked keep E Es (lin a b Is Js) = lin a b (kkt_masked keep E Es Is) (kkt_masked keep E Es Js).
Proof.
  revert Is Js. induction Es as [|e Es IH]; intros [|i Is] [|j Js] HI HJ; cbn in *; try easy.
  f_equal; [|apply IH; lia]. destruct (keep e); unfold Rdiv; ring.
Qed.
Lemma kkt_masked_length keep E Es Is : length Is = length Es -> length (kkt_masked keep E Es Is) = length Es.
Proof. intros H. unfold kkt_masked. now rewrite map2_len. Qed.
Lemma kkt_lin a b E Es Is Js eps : length Is = length Es -> length Js = length Es ->
  KKT_single_point E Es (lin a b Is Js) eps = a * KKT_single_point E Es Is eps + b * KKT_single_point E Es Js eps.
Proof.
  intros HI HJ. unfold KKT_single_point. rewrite !kkt_masked_lin by assumption. unfold lin.
  rewrite !trapz_linear by (now rewrite kkt_masked_length). ring.
Qed.
Lemma KKT_linear Es Is Js eps points a b : length Is = length Es -> length Js = length Es ->
  forall i, (i < length Es)%nat ->
  at_ (KramersKronigTransform Es (map2 (fun x y => a * x + b * y) Is Js) eps points) i =
  a * at_ (KramersKronigTransform Es Is eps points) i + b * at_ (KramersKronigTransform Es Js eps points) i.
Proof.
  intros HI HJ i Hi. unfold KramersKronigTransform. set (G := linspace _ _ points). clearbody G. rewrite map2_lin.
  rewrite !at_map by assumption.
  assert (H1 : map (interp None None Es (lin a b Is Js)) G = lin a b (map (interp None None Es Is) G) (map (interp None None Es Js) G)).
  { rewrite <- lin_map. apply map_ext. intros q. unfold lin. apply interp_linear. congruence. }
  rewrite H1. set (A := map (interp None None Es Is) G). set (B := map (interp None None Es Js) G).
  assert (H2 : map (fun E => KKT_single_point E G (lin a b A B) eps * (-1 / PI)) G =
    lin a b (map (fun E => KKT_single_point E G A eps * (-1 / PI)) G) (map (fun E => KKT_single_point E G B eps * (-1 / PI)) G)).
  { rewrite <- lin_map. apply map_ext. intros q. rewrite kkt_lin by (apply map_length). ring. }
  rewrite H2. unfold lin. apply interp_linear. now rewrite !map_length.
Qed.
