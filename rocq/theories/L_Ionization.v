(** Lemmas on the ionisation solver. *)
From Coq Require Import Reals List Bool Arith ZArith Lra Lia Psatz.
From Coquelicot Require Import Coquelicot.
From Verif Require Import M_Const M_PlasmaState M_Interp M_Helpers L_Helpers M_PlasmaPhysics M_Ionization L_IPD.
Import ListNotations.
Open Scope R_scope.

(** *** Sums *)
Lemma sum_cons x l : sum (x :: l) = x + sum l.
Proof. reflexivity. Qed.
Lemma sum_map_scal {A} (f : A -> R) c l : sum (map (fun x => c * f x) l) = c * sum (map f l).
Proof. induction l as [|x l IH]; cbn [map]; rewrite ?sum_cons; [unfold sum; cbn; ring|rewrite IH; ring]. Qed.
Lemma sum_map_div {A} (f : A -> R) c l : sum (map (fun x => f x / c) l) = sum (map f l) / c.
Proof. induction l as [|x l IH]; cbn [map]; rewrite ?sum_cons; [unfold sum; cbn; unfold Rdiv; ring|rewrite IH; unfold Rdiv; ring]. Qed.
Lemma sum_pos_exp l : l <> [] -> 0 < sum (map exp l).
Proof.
  destruct l as [|x l]; [congruence|]. intros _. clear -x. cbn [map]. rewrite sum_cons. assert (0 <= sum (map exp l)).
  { apply sum_nonneg. intros y Hy. apply in_map_iff in Hy. destruct Hy as (z & <- & _). left. apply exp_pos. }
  pose proof (exp_pos x). lra.
Qed.

(** *** softmax *)
Lemma softmax_eq l : softmax l = map (fun x => exp x / sum (map exp l)) l.
Proof.
  unfold softmax. set (m := match l with [] => 0 | x :: l => fold_right Rmax x l end). clearbody m. destruct l as [|x0 l0]; [reflexivity|]. set (l := x0 :: l0).
  assert (E : sum (map (fun y => exp (y - m)) l) = exp (- m) * sum (map exp l)).
  { rewrite <- sum_map_scal. f_equal. apply map_ext. intros y. unfold Rminus. rewrite exp_plus. ring. }
  rewrite E. pose proof (sum_pos_exp l ltac:(discriminate)) as P. pose proof (exp_pos (- m)) as Q. apply map_ext. intros y.
  unfold Rminus. rewrite exp_plus. field. lra.
Qed.
Lemma softmax_len l : length (softmax l) = length l.
Proof. rewrite softmax_eq. apply map_length. Qed.
Lemma softmax_sum l : l <> [] -> sum (softmax l) = 1.
Proof. intros H. rewrite softmax_eq, sum_map_div. pose proof (sum_pos_exp l H). field. lra. Qed.
Lemma softmax_pos l w : In w (softmax l) -> 0 < w.
Proof.
  rewrite softmax_eq. intros H. apply in_map_iff in H. destruct H as (x & <- & Hx). apply Rdiv_lt_0_compat; [apply exp_pos|apply sum_pos_exp]. intros ->. destruct Hx.
Qed.
Lemma softmax_nth l k : (k < length l)%nat -> at_ (softmax l) k = exp (at_ l k) / sum (map exp l).
Proof.
  intros H. rewrite softmax_eq. unfold at_. rewrite (nth_indep _ 0 (exp 0 / sum (map exp l))) by (rewrite map_length; exact H).
  now rewrite (map_nth (fun x => exp x / sum (map exp l))).
Qed.

(** *** Mean charge *)
Definition wsum (i : nat) (l : list R) : R := sum (map2 Rmult (map INR (seq i (length l))) l).
Lemma wsum_cons i x l : wsum i (x :: l) = INR i * x + wsum (S i) l.
Proof. reflexivity. Qed.
Lemma wsum_scale i c l : wsum i (map (fun x => x / c) l) = wsum i l / c.
Proof. revert i. induction l as [|x l IH]; intros i; cbn [map]; [unfold wsum, sum; cbn; unfold Rdiv; ring|]. rewrite !wsum_cons, IH. unfold Rdiv. ring. Qed.
Lemma wsum_bounds i l : (forall x, In x l -> 0 <= x) -> INR i * sum l <= wsum i l <= (INR i + INR (length l) - 1) * sum l.
Proof.
  revert i. induction l as [|x l IH]; intros i H; [unfold wsum, sum; cbn; lra|]. rewrite wsum_cons, sum_cons.
  destruct (IH (S i) (fun y Hy => H y (or_intror Hy))) as [A B]. pose proof (H x (or_introl eq_refl)) as Hx.
  assert (Hl : 0 <= sum l) by (apply sum_nonneg; intros y Hy; apply H; now right). rewrite S_INR in *. cbn [length]. rewrite S_INR. pose proof (pos_INR (length l)). split; nra.
Qed.
Lemma zbar_eq log_P : zbar log_P = wsum 0 (map exp (map clip500 log_P)) / sum (map exp (map clip500 log_P)).
Proof.
  unfold zbar, weights. rewrite softmax_eq. rewrite <- wsum_scale. unfold wsum. rewrite !map_length.
  rewrite (map_map exp). reflexivity.
Qed.
Lemma zbar_bounds log_P : log_P <> [] -> 0 <= zbar log_P <= INR (length log_P) - 1.
Proof.
  intros H. rewrite zbar_eq. set (e := map exp (map clip500 log_P)).
  assert (P : 0 < sum e) by (apply sum_pos_exp; destruct log_P; [congruence|discriminate]).
  destruct (wsum_bounds 0 e) as [A B].
  { intros x Hx. apply in_map_iff in Hx. destruct Hx as (y & <- & _). left. apply exp_pos. }
  replace (length e) with (length log_P) in B by (unfold e; now rewrite !map_length). cbn [INR] in *. split.
  - apply Rmult_le_pos; [lra|left; now apply Rinv_0_lt_compat].
  - apply (Rmult_le_reg_r (sum e)); [exact P|]. unfold Rdiv. rewrite Rmult_assoc, Rinv_l by lra. lra.
Qed.
Lemma zbar_strict log_P : (1 < length log_P)%nat -> 0 < zbar log_P < INR (length log_P) - 1.
Proof.
  intros H. rewrite zbar_eq. destruct log_P as [|p [|q l]]; cbn in H; try lia. cbn [map]. rewrite !wsum_cons, !sum_cons.
  set (e := map exp (map clip500 l)). pose proof (exp_pos (clip500 p)) as H0. pose proof (exp_pos (clip500 q)) as H1.
  assert (He : forall x, In x e -> 0 <= x) by (intros x Hx; apply in_map_iff in Hx; destruct Hx as (y & <- & _); left; apply exp_pos).
  destruct (wsum_bounds 2 e He) as [A B]. pose proof (sum_nonneg e He) as Hs.
  replace (length e) with (length l) in B by (unfold e; now rewrite !map_length). cbn [length]. rewrite !S_INR in *. cbn [INR] in *. pose proof (pos_INR (length l)).
  assert (D : 0 < exp (clip500 p) + (exp (clip500 q) + sum e)) by lra. split.
  - apply Rdiv_lt_0_compat; nra.
  - apply (Rmult_lt_reg_r (exp (clip500 p) + (exp (clip500 q) + sum e))); [exact D|]. unfold Rdiv. rewrite Rmult_assoc, Rinv_l by lra. nra.
Qed.

(** *** Chebyshev's sum inequality *)
Fixpoint cheb_sorted (l : list (R * R * R)) : Prop :=
  match l with
  | [] => True
  | (w, f, g) :: l => 0 <= w /\ (forall w' f' g', In (w', f', g') l -> f <= f' /\ g <= g') /\ cheb_sorted l
  end.
Definition s_w (l : list (R * R * R)) := sum (map (fun '(w, _, _) => w) l).
Definition s_f (l : list (R * R * R)) := sum (map (fun '(w, f, _) => w * f) l).
Definition s_g (l : list (R * R * R)) := sum (map (fun '(w, _, g) => w * g) l).
Definition s_fg (l : list (R * R * R)) := sum (map (fun '(w, f, g) => w * f * g) l).
Lemma cheb_w l : cheb_sorted l -> forall w f g, In (w, f, g) l -> 0 <= w.
Proof. induction l as [|[[w f] g] l IH]; cbn; [tauto|]. intros (H & _ & S) w' f' g' [[= <- <- <-]|I]; [exact H|]. eapply IH; eauto. Qed.
Lemma chebyshev l : cheb_sorted l -> s_f l * s_g l <= s_fg l * s_w l.
Proof.
  induction l as [|[[w f] g] l IH]; intros H.
  - unfold s_f, s_g, s_fg, s_w, sum. cbn. lra.
  - destruct H as (Hw & Hle & Hs). specialize (IH Hs).
    assert (K : 0 <= s_fg l + f * g * s_w l - f * s_g l - g * s_f l).
    { replace (s_fg l + f * g * s_w l - f * s_g l - g * s_f l) with (sum (map (fun '(w', f', g') => w' * ((f' - f) * (g' - g))) l)).
      - apply sum_nonneg. intros x Hx. apply in_map_iff in Hx. destruct Hx as ([[w' f'] g'] & <- & Hi). destruct (Hle _ _ _ Hi). pose proof (cheb_w l Hs _ _ _ Hi).
        apply Rmult_le_pos; [assumption|]. apply Rmult_le_pos; lra.
      - clear. unfold s_fg, s_w, s_g, s_f. induction l as [|[[w' f'] g'] l IH]; [unfold sum; cbn; ring|]. cbn [map]. rewrite !sum_cons, IH. ring. }
    unfold s_f, s_g, s_fg, s_w in *. cbn [map]. rewrite !sum_cons. set (Sf := sum (map (fun '(w, f, _) => w * f) l)) in *. set (Sg := sum (map (fun '(w, _, g) => w * g) l)) in *.
    set (Sfg := sum (map (fun '(w, f, g) => w * f * g) l)) in *. set (Sw := sum (map (fun '(w, _, _) => w) l)) in *.
    assert (0 <= w * (Sfg + f * g * Sw - f * Sg - g * Sf)) by now apply Rmult_le_pos. nra.
Qed.

(** differences that do not decrease along the lists *)
Fixpoint mono_diff (d : R) (c c' : list R) : Prop :=
  match c, c' with
  | [], [] => True
  | x :: c, x' :: c' => d <= x' - x /\ mono_diff (x' - x) c c'
  | _, _ => False
  end.
Lemma mono_diff_weaken d d' c c' : d' <= d -> mono_diff d c c' -> mono_diff d' c c'.
Proof. destruct c, c'; cbn; try tauto. intros H [A B]. split; [lra|exact B]. Qed.
Fixpoint triples (i : nat) (c c' : list R) : list (R * R * R) :=
  match c, c' with x :: c, x' :: c' => (exp x, INR i, exp (x' - x)) :: triples (S i) c c' | _, _ => [] end.
Lemma triples_in d i c c' w f g : mono_diff d c c' -> In (w, f, g) (triples i c c') -> INR i <= f /\ exp d <= g /\ 0 <= w.
Proof.
  revert d i c'. induction c as [|x c IH]; intros d i [|x' c'] M Hin; cbn in M, Hin; try tauto. destruct M as [A B].
  assert (E : exp d <= exp (x' - x)) by (destruct A as [A|E]; [left; now apply exp_increasing|rewrite E; apply Rle_refl]).
  destruct Hin as [[= <- <- <-]|Hin]; [split; [lra|]; split; [exact E|left; apply exp_pos]|].
  destruct (IH _ _ _ B Hin) as (P & Q & S). rewrite S_INR in P. repeat split; [lra|lra|exact S].
Qed.
Lemma triples_sorted d i c c' : mono_diff d c c' -> cheb_sorted (triples i c c').
Proof.
  revert d i c'. induction c as [|x c IH]; intros d i [|x' c'] M; cbn in M; try tauto; cbn; try tauto. destruct M as [A B].
  split; [left; apply exp_pos|]. split; [|now apply IH with (x' - x)]. intros w f g Hin. destruct (triples_in _ _ _ _ _ _ _ B Hin) as (P & Q & _).
  rewrite S_INR in P. split; lra.
Qed.
Lemma triples_sums d i c c' : mono_diff d c c' ->
  s_w (triples i c c') = sum (map exp c) /\ s_f (triples i c c') = wsum i (map exp c) /\
  s_g (triples i c c') = sum (map exp c') /\ s_fg (triples i c c') = wsum i (map exp c').
Proof.
  revert d i c'. induction c as [|x c IH]; intros d i [|x' c'] M; cbn in M; try contradiction; try (repeat split; reflexivity). destruct M as [A B].
  destruct (IH _ (S i) _ B) as (E1 & E2 & E3 & E4). unfold s_w, s_f, s_g, s_fg in *. cbn [triples map]. rewrite !wsum_cons, !sum_cons, E1, E2, E3, E4.
  assert (X : exp x * exp (x' - x) = exp x') by (rewrite <- exp_plus; f_equal; ring).
  repeat split; try ring.
  - rewrite X. reflexivity.
  - replace (exp x * INR i * exp (x' - x)) with (INR i * (exp x * exp (x' - x))) by ring. rewrite X. reflexivity.
Qed.
Lemma zbar_mono d P P' : P <> [] -> mono_diff d (map clip500 P) (map clip500 P') -> zbar P <= zbar P'.
Proof.
  intros HP M. rewrite !zbar_eq. destruct (triples_sums _ 0 _ _ M) as (E1 & E2 & E3 & E4).
  pose proof (chebyshev _ (triples_sorted _ 0 _ _ M)) as C. rewrite E1, E2, E3, E4 in C.
  assert (N : map clip500 P <> []) by (destruct P; [congruence|discriminate]).
  assert (N' : map clip500 P' <> []) by (destruct P, P'; cbn in M; try tauto; try congruence; discriminate).
  pose proof (sum_pos_exp _ N) as S1. pose proof (sum_pos_exp _ N') as S2.
  apply (Rmult_le_reg_r (sum (map exp (map clip500 P)) * sum (map exp (map clip500 P')))); [now apply Rmult_lt_0_compat|].
  field_simplify; lra.
Qed.

(** *** Partition products *)
Lemma cumsum_len a l : length (cumsum a l) = S (length l).
Proof. revert a. induction l as [|x l IH]; intros a; cbn; [reflexivity|]. now rewrite IH. Qed.
Lemma map2_length {A B C} (f : A -> B -> C) l m : length l = length m -> length (map2 f l m) = length l.
Proof. revert m. induction l as [|a l IH]; intros [|b m] H; cbn in *; try lia. now rewrite IH by lia. Qed.
Lemma lpp_len lc mask x : length lc = length mask -> length (log_partition_products lc mask x) = S (length mask).
Proof.
  intros H. unfold log_partition_products. rewrite map2_length; rewrite app_length; cbn; [lia|]. rewrite cumsum_len, map2_length; lia.
Qed.
(** with another start of the sums *)
Definition lpp_from (a : option R) (lc : list (option R)) (mask : list bool) (x : R) : list (option R) :=
  map2 (fun (m : bool) p => if m then p else None) (mask ++ [true])
    (cumsum a (map2 (fun lc (m : bool) => if m then obind lc (fun l => Some (l - x)) else Some 0) lc mask)).
Lemma lpp_eq lc mask x : log_partition_products lc mask x = lpp_from (Some 0) lc mask x.
Proof. reflexivity. Qed.
Lemma lpp_cons a lc0 lc m mask x : lpp_from a (lc0 :: lc) (m :: mask) x =
  (if m then a else None) :: lpp_from (obind a (fun a => obind (if m then obind lc0 (fun l => Some (l - x)) else Some 0) (fun b => Some (a + b)))) lc mask x.
Proof. reflexivity. Qed.
Lemma lpp_nil a x : lpp_from a [] [] x = [a].
Proof. reflexivity. Qed.

(** no clipping: every entry is [-inf] or between -500 and 500 *)
Definition unclipped (P : list (option R)) : Prop := forall p, In (Some p) P -> -500 <= p <= 500.
Lemma clip500_id p : -500 <= p <= 500 -> clip500 (Some p) = p.
Proof. intros H. unfold clip500, clip. rewrite (Rmax_left p) by lra. now rewrite Rmin_left. Qed.
Lemma clip500_bounds p : -500 <= clip500 p <= 500.
Proof. unfold clip500, clip. destruct p as [x|]; [|lra]. split; [apply Rmin_glb; [apply Rmax_r|lra]|apply Rmin_r]. Qed.

(** bound states above pressure-ionised ones only *)
Fixpoint upward (mask : list bool) : Prop :=
  match mask with [] => True | true :: m => List.Forall (eq true) m | false :: m => upward m end.
(** [lc - x] does not exceed [lc' - x'] in any bound state *)
Fixpoint dominated (lc lc' : list (option R)) (mask : list bool) (x x' : R) : Prop :=
  match lc, lc', mask with
  | [], [], [] => True
  | a :: lc, a' :: lc', m :: mask => (m = true -> exists l l', a = Some l /\ a' = Some l' /\ l - x <= l' - x') /\ dominated lc lc' mask x x'
  | _, _, _ => False
  end.
Lemma lpp_mono_up a a' lc lc' mask x x' : List.Forall (eq true) mask -> dominated lc lc' mask x x' ->
  unclipped (lpp_from (Some a) lc mask x) -> unclipped (lpp_from (Some a') lc' mask x') ->
  mono_diff (a' - a) (map clip500 (lpp_from (Some a) lc mask x)) (map clip500 (lpp_from (Some a') lc' mask x')).
Proof.
  intros Hm. revert a a' lc lc'. induction Hm as [|m mask Hm1 Hm IH]; intros a a' [|l lc] [|l' lc'] D U U'; cbn in D; try tauto.
  - rewrite !lpp_nil in *. cbn [map]. rewrite !clip500_id; [cbn; split; [lra|exact I]|apply U'; now left|apply U; now left].
  - subst m. destruct D as [D1 D2]. destruct (D1 eq_refl) as (b & b' & -> & -> & Hb). rewrite !lpp_cons in *. cbn [obind] in *. cbn [map].
    rewrite (clip500_id a) by (apply U; now left). rewrite (clip500_id a') by (apply U'; now left). cbn [mono_diff]. split; [lra|].
    apply mono_diff_weaken with (a' + (b' - x') - (a + (b - x))); [lra|]. apply IH; [exact D2| |].
    + intros p Hp. apply U. now right.
    + intros p Hp. apply U'. now right.
Qed.
Lemma lpp_mono lc lc' mask x x' : upward mask -> dominated lc lc' mask x x' ->
  unclipped (log_partition_products lc mask x) -> unclipped (log_partition_products lc' mask x') ->
  zbar (log_partition_products lc mask x) <= zbar (log_partition_products lc' mask x').
Proof.
  intros Hup D U U'. rewrite !lpp_eq in *.
  assert (M : mono_diff 0 (map clip500 (lpp_from (Some 0) lc mask x)) (map clip500 (lpp_from (Some 0) lc' mask x'))).
  { revert lc lc' D U U'. induction mask as [|[|] mask IH]; intros [|l lc] [|l' lc'] D U U'; cbn in D; try tauto.
    - rewrite !lpp_nil. cbn [map]. cbn. split; [lra|exact I].
    - replace 0 with (0 - 0) at 1 by ring. apply lpp_mono_up; try assumption. constructor; [reflexivity|exact Hup].
    - rewrite !lpp_cons in *. cbn [obind] in *. rewrite Rplus_0_l in *. cbn [map mono_diff]. split; [cbn; lra|]. cbn [clip500].
      replace (-500 - -500) with 0 by ring. apply IH; [exact Hup|apply D| |].
      + intros p Hp. apply U. now right.
      + intros p Hp. apply U'. now right. }
  eapply zbar_mono; [|exact M]. destruct mask, lc; discriminate.
Qed.

(** *** The lowest bound state is the reference *)
Lemma lpp_reference lc mask x : length lc = length mask -> exists k, (k <= length mask)%nat /\
  nth k (log_partition_products lc mask x) None = Some 0 /\ forall i, (i < k)%nat -> nth i mask true = false.
Proof.
  intros H. rewrite lpp_eq. revert lc H. induction mask as [|[|] mask IH]; intros [|l lc] H; cbn in H; try lia.
  - exists 0%nat. rewrite lpp_nil. repeat split; [lia|]. intros; lia.
  - exists 0%nat. rewrite lpp_cons. repeat split; [lia|]. intros; lia.
  - destruct (IH lc ltac:(lia)) as (k & Hk & E & F). exists (S k). rewrite lpp_cons. cbn [obind]. rewrite Rplus_0_l. cbn [nth].
    split; [cbn; lia|]. split; [exact E|]. intros [|i] Hi; [reflexivity|]. apply F. lia.
Qed.
Lemma lpp_masked lc mask x k : length lc = length mask -> (k < length mask)%nat -> nth k mask true = false -> nth k (log_partition_products lc mask x) None = None.
Proof.
  rewrite lpp_eq. generalize (Some 0). revert lc k. induction mask as [|m mask IH]; intros [|l lc] k a H Hk E; cbn in H, Hk; try lia. rewrite lpp_cons.
  destruct k; cbn [nth] in *; [now subst m|]. apply IH; [lia|lia|exact E].
Qed.
(** consecutive bound states *)
Lemma lpp_step lc mask x k p c : length lc = length mask -> (k < length mask)%nat -> nth k mask true = true -> nth (S k) mask true = true ->
  nth k lc None = Some c -> nth k (log_partition_products lc mask x) None = Some p ->
  nth (S k) (log_partition_products lc mask x) None = Some (p + (c - x)).
Proof.
  rewrite lpp_eq. generalize (Some 0). revert lc k. induction mask as [|m mask IH]; intros [|l lc] k a H Hk E1 E2 Ec Ep; cbn in H, Hk; try lia.
  rewrite lpp_cons in *. destruct k.
  - cbn [nth] in *. subst m l. subst a. cbn [obind]. destruct mask as [|m mask], lc as [|l lc]; cbn in H; try lia; [now rewrite lpp_nil|].
    rewrite lpp_cons. cbn in E2. now subst m.
  - cbn [nth] in *. apply IH; try assumption; lia.
Qed.

(** *** Continuity in the electron density *)
Lemma cont_abs (f : R -> R) x : continuous f x -> continuous (fun t => Rabs (f t)) x.
Proof. intros Hf. apply (continuous_comp f Rabs); [exact Hf|apply continuous_Rabs]. Qed.
Lemma cont_rmax (f : R -> R) c x : continuous f x -> continuous (fun t => Rmax (f t) c) x.
Proof.
  intros Hf. apply (continuous_ext (fun t => (f t + c + Rabs (f t + - c)) / 2)).
  - intros t. unfold Rmax. destruct (Rle_dec (f t) c); [rewrite Rabs_left1 by lra|rewrite Rabs_right by lra]; lra.
  - apply cont_mult; [|apply continuous_const]. apply cont_plus; [apply cont_plus; [exact Hf|apply continuous_const]|].
    apply cont_abs, cont_plus; [exact Hf|apply continuous_const].
Qed.
Lemma cont_rmin (f : R -> R) c x : continuous f x -> continuous (fun t => Rmin (f t) c) x.
Proof.
  intros Hf. apply (continuous_ext (fun t => - Rmax (- f t) (- c))).
  - intros t. unfold Rmin, Rmax. destruct (Rle_dec (f t) c), (Rle_dec (- f t) (- c)); lra.
  - apply cont_opp. apply (cont_rmax (fun t => - f t)). now apply cont_opp.
Qed.
Definition copt (a : R -> option R) (y : R) : Prop := (forall x, a x = None) \/ exists f, continuous f y /\ forall x, a x = Some (f x).
Lemma copt_clip a y : copt a y -> continuous (fun x => clip500 (a x)) y.
Proof.
  intros [H|(f & Cf & H)].
  - apply (continuous_ext (fun _ => -500)); [intros x; now rewrite H|apply continuous_const].
  - apply (continuous_ext (fun x => Rmin (Rmax (f x) (-500)) 500)); [intros x; now rewrite H|]. now apply (cont_rmin (fun x => Rmax (f x) (-500))), cont_rmax.
Qed.
Lemma lpp_cont a lc mask y : copt a y -> length lc = length mask ->
  continuous (fun x => sum (map exp (map clip500 (lpp_from (a x) lc mask x)))) y /\
  forall i, continuous (fun x => wsum i (map exp (map clip500 (lpp_from (a x) lc mask x)))) y.
Proof.
  revert a lc. induction mask as [|m mask IH]; intros a [|l lc] Ha HL; cbn in HL; try lia.
  - split; [|intros i].
    + apply (continuous_ext (fun x => exp (clip500 (a x)) + 0)); [reflexivity|]. apply cont_plus; [|apply continuous_const]. now apply continuous_exp_comp, copt_clip.
    + apply (continuous_ext (fun x => INR i * exp (clip500 (a x)) + 0)); [reflexivity|]. apply cont_plus; [|apply continuous_const].
      apply cont_mult; [apply continuous_const|]. now apply continuous_exp_comp, copt_clip.
  - set (a' := fun x => obind (a x) (fun a => obind (if m then obind l (fun l => Some (l - x)) else Some 0) (fun b => Some (a + b)))).
    assert (Ha' : copt a' y).
    { destruct Ha as [H|(f & Cf & H)]; [left; intros x; unfold a'; now rewrite H|]. destruct m.
      - destruct l as [l|]; [|left; intros x; unfold a'; now rewrite H]. right. exists (fun x => f x + (l + - x)). split; [|intros x; unfold a'; now rewrite H].
        apply cont_plus; [exact Cf|]. apply cont_plus; [apply continuous_const|]. apply (cont_opp (fun x => x)), continuous_id.
      - right. exists (fun x => f x + 0). split; [|intros x; unfold a'; now rewrite H]. apply cont_plus; [exact Cf|apply continuous_const]. }
    assert (Hh : copt (fun x => if m then a x else None) y) by (destruct m; [exact Ha|now left]).
    destruct (IH a' lc Ha' ltac:(lia)) as [I1 I2]. split; [|intros i].
    + apply (continuous_ext (fun x => exp (clip500 (if m then a x else None)) + sum (map exp (map clip500 (lpp_from (a' x) lc mask x))))); [intros x; reflexivity|].
      apply cont_plus; [|exact I1]. now apply continuous_exp_comp, copt_clip.
    + apply (continuous_ext (fun x => INR i * exp (clip500 (if m then a x else None)) + wsum (S i) (map exp (map clip500 (lpp_from (a' x) lc mask x))))); [intros x; reflexivity|].
      apply cont_plus; [|apply I2]. apply cont_mult; [apply continuous_const|]. now apply continuous_exp_comp, copt_clip.
Qed.
Lemma zbar_cont lc mask y : length lc = length mask -> continuous (fun x => zbar (log_partition_products lc mask x)) y.
Proof.
  intros H. apply (continuous_ext (fun x => wsum 0 (map exp (map clip500 (lpp_from (Some 0) lc mask x))) / sum (map exp (map clip500 (lpp_from (Some 0) lc mask x))))).
  { intros x. now rewrite zbar_eq. }
  destruct (lpp_cont (fun _ => Some 0) lc mask y) as [A B]; [right; exists (fun _ => 0); split; [apply continuous_const|reflexivity]|exact H|].
  apply cont_div; [apply B|exact A|]. apply Rgt_not_eq, sum_pos_exp. destruct mask, lc; discriminate.
Qed.
Definition wf (bt : balance_term) : Prop := length (bt_coeff bt) = length (bt_mask bt).
Lemma residual_cont Ns bts y : List.Forall wf bts -> continuous (residual Ns bts) y.
Proof.
  intros H. unfold residual. apply (continuous_ext (fun x => exp x + - total_charge Ns bts x)); [intros x; unfold Rminus; reflexivity|].
  apply cont_plus; [apply continuous_exp|]. apply cont_opp. unfold total_charge. revert Ns. induction H as [|bt bts Hb H IH]; intros [|N Ns]; cbn [map2]; try apply continuous_const.
  apply (continuous_ext (fun x => N * zbar (log_partition_products (map log0 (bt_coeff bt)) (bt_mask bt) x) +
    sum (map2 (fun N bt => N * zbar (log_partition_products (map log0 (bt_coeff bt)) (bt_mask bt) x)) Ns bts))); [reflexivity|].
  apply cont_plus; [|apply IH]. apply cont_mult; [apply continuous_const|]. apply zbar_cont. rewrite map_length. exact Hb.
Qed.
