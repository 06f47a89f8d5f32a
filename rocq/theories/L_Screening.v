(** Lemmas for the screening models. *)
From Coq Require Import Reals List Lra Lia Psatz.
From Coquelicot Require Import Coquelicot.
From Verif Require Import M_Const M_PlasmaState M_PlasmaPhysics L_PlasmaPhysics M_Interp M_StaticSF M_FreeFree M_Potentials M_Screening L_LFC.
Import ListNotations.
Open Scope R_scope.

Lemma nth_map2 {A B D} (f : A -> B -> D) : forall l m i a b, nth_error l i = Some a -> nth_error m i = Some b ->
  nth_error (map2 f l m) i = Some (f a b).
Proof.
  induction l as [|x l IH]; intros m i a b Ha Hb; destruct i; cbn in Ha; try discriminate; destruct m as [|y m]; cbn in Hb; try discriminate.
  - injection Ha as <-. injection Hb as <-. reflexivity.
  - cbn. now apply IH.
Qed.
Lemma nth_unscreen Z q i z x : nth_error Z i = Some z -> nth_error q i = Some x ->
  nth_error (unscreen Z q) i = Some (if Req_EM_T z 0 then Some 0 else x).
Proof. intros. unfold unscreen. now apply (nth_map2 (fun z x => if Req_EM_T z 0 then Some 0 else x)). Qed.
Lemma nth_seq_ n i : (i < n)%nat -> nth_error (seq 0 n) i = Some i.
Proof. intros H. rewrite (nth_error_nth' (seq 0 n) 0%nat) by (now rewrite seq_length). now rewrite seq_nth. Qed.

(** ** Debye and Hueckel *)
Lemma nth_DH l k Z i z : 0 < l -> nth_error Z i = Some z ->
  nth_error (DebyeHueckelScreening (Some l) k Z) i = Some (Some (z / (1 + (k * l) ^ 2))).
Proof.
  intros Hl Hz. unfold DebyeHueckelScreening. cbn [obind]. rewrite qdiv_some by lra.
  rewrite (nth_unscreen Z _ i z (Some (z / (1 + (k * l) ^ 2))) Hz).
  - destruct (Req_EM_T z 0) as [->|_]; [|reflexivity]. do 2 f_equal. unfold Rdiv. ring.
  - unfold q_DebyeHueckel. rewrite map_map. rewrite (map_nth_error _ i Z Hz). do 2 f_equal.
    assert (0 <= (k * l) ^ 2) by apply pow2_ge_0. assert (0 < l ^ 2) by (apply pow_lt; lra). assert (0 <= k ^ 2) by apply pow2_ge_0.
    assert (0 < k ^ 2 * l ^ 2 + 1) by nra. field. repeat split; try lra; nra.
Qed.

(** ** The Coulomb potential of the electrons *)
Lemma nth_Vei u k Z tr tg E i z : Z_free (e_s E) = Z -> nth_error Z i = Some z ->
  nth_error (Vei u k Z tr tg E Coulomb) i = Some (Some (- (z * e_ch u ^ 2) / eps0 u / k ^ 2)).
Proof.
  intros HZ Hz. unfold Vei. assert (i < length Z)%nat as Hi by (apply nth_error_Some; rewrite Hz; discriminate).
  rewrite (map_nth_error _ i (seq 0 (length Z)) (nth_seq_ _ _ Hi)). cbn [full_k obind]. do 2 f_equal.
  unfold coulomb_kk, q2, charges, extra. rewrite HZ. unfold at_. rewrite app_nth2 by lia. rewrite Nat.sub_diag. rewrite app_nth1 by exact Hi.
  rewrite (nth_error_nth Z i 0 Hz). cbn [nth]. f_equal. f_equal. ring.
Qed.
Lemma susceptibility_eq u k kap lfc : 0 < k -> 0 < kap -> 0 < (k / kap) ^ 2 + (1 - lfc) ->
  free_electron_susceptibility_RPA u k kap lfc = k ^ 2 * eps0 u / e_ch u ^ 2 / ((k / kap) ^ 2 + (1 - lfc)).
Proof.
  intros Hk Hkap H. cpos u. unfold free_electron_susceptibility_RPA, coulomb_k.
  assert (0 < kap ^ 2) as Hk2 by (apply pow_lt; lra). assert (0 < k ^ 2) by (apply pow_lt; lra).
  assert ((k / kap) ^ 2 * kap ^ 2 = k ^ 2) as E by (field; lra).
  assert (0 < k ^ 2 + (1 - lfc) * kap ^ 2) as P by nra. field. repeat split; try lra; nra.
Qed.
Lemma nth_Gericke u l lfc k Z tr tg E i z : 0 < l -> 0 < k -> Z_free (e_s E) = Z -> sum Z <> 0 -> 0 < (k * l) ^ 2 + (1 - lfc) -> nth_error Z i = Some z ->
  nth_error (LinearResponseScreeningGericke2010 u (Some l) lfc k Z (Vei u k Z tr tg E Coulomb)) i = Some (Some (- (z / ((1 - lfc) + (k * l) ^ 2)))).
Proof.
  intros Hl Hk HZ Hs Hd Hz. unfold LinearResponseScreeningGericke2010. destruct (Req_EM_T (sum Z) 0) as [?|_]; [contradiction|].
  rewrite (map_nth_error _ i _ (nth_Vei u k Z tr tg E i z HZ Hz)). cbn [obind]. rewrite qdiv_some by lra. cbn [obind]. do 2 f_equal.
  assert (0 < 1 / l) by (apply Rdiv_lt_0_compat; lra).
  rewrite susceptibility_eq; [|lra|lra|replace (k / (1 / l)) with (k * l) by (field; lra); exact Hd].
  replace (k / (1 / l)) with (k * l) by (field; lra). cpos u. field. repeat split; nra.
Qed.

(** ** The fit of Dandrea at zero energy *)
Section Dandrea.
  Variables (F_m12 F_32 F_52 inv_F12 : R -> R).
  Lemma phi_odd x th eta : phi_Dandrea F_m12 F_32 F_52 (- x) th eta = obind (phi_Dandrea F_m12 F_32 F_52 x th eta) (fun p => Some (- p)).
  Proof.
    unfold phi_Dandrea. destruct (dandrea_a th) as [[[[a2 a4] a6] a8]|]; [|reflexivity]. cbn [obind]. destruct (dandrea_J th) as [J|]; [|reflexivity]. cbn [obind].
    destruct (dandrea_K th) as [K|]; [|reflexivity]. cbn [obind]. destruct (qdiv (2 * J) _) as [qJ|]; [|reflexivity]. cbn [obind]. destruct (qdiv (2 * K) _) as [qK|]; [|reflexivity]. cbn [obind].
    replace ((- x) ^ 2) with (x ^ 2) by ring. replace ((- x) ^ 4) with (x ^ 4) by ring. replace ((- x) ^ 6) with (x ^ 6) by ring. replace ((- x) ^ 8) with (x ^ 8) by ring. replace ((- x) ^ 10) with (x ^ 10) by ring.
    match goal with |- obind ?q _ = obind (obind ?q' _) _ => change q' with q; destruct q as [p|] end; [|reflexivity]. cbn [obind]. f_equal. ring.
  Qed.
  (** the static susceptibility is real *)
  Lemma static_real u k T n c : 0 < k -> xi0_Dandrea u F_m12 F_32 F_52 inv_F12 k 0 T n = Some c -> snd c = 0.
  Proof.
    intros Hk. unfold xi0_Dandrea. destruct (real_Dandrea _ _ _ _ _ _ _ _) as [re|]; [|discriminate]. cbn [obind]. intros E. injection E as <-.
    cbn [snd Cmult RtoC fst]. unfold imag_Dandrea. set (Q := k / (2 * fermi_wavenumber n)).
    replace (0 / (4 * fermi_energy u n) / Q) with 0 by (unfold Rdiv; ring). replace ((0 - Q) ^ 2) with (Q ^ 2) by ring. replace ((0 + Q) ^ 2) with (Q ^ 2) by ring.
    set (e := exp _). assert (0 < e) by apply exp_pos. replace ((1 + e) / (1 + e)) with 1 by (field; lra). rewrite ln_1. ring.
  Qed.
  Lemma finite_eq u lfc k n T v : q_FiniteWLChapman2015 u lfc k n T F_m12 F_32 F_52 inv_F12 v
    = obind (RPA_DandreaFit_susceptibility u lfc k n T F_m12 F_32 F_52 inv_F12 0) (fun xi => Some (Cmult xi (RtoC v))).
  Proof.
    unfold q_FiniteWLChapman2015, RPA_DandreaFit_susceptibility. destruct (xi0_Dandrea _ _ _ _ _ _ _ _ _) as [x|]; [|reflexivity]. cbn [obind].
    unfold xi_lfc, cdiv. destruct (Ceq_dec _ _) as [?|Hn]; [reflexivity|]. cbn [obind]. f_equal. unfold Cdiv. ring.
  Qed.
  Lemma finite_real u lfc k n T v x : 0 < k -> lfc <= 1 -> xi0_Dandrea u F_m12 F_32 F_52 inv_F12 k 0 T n = Some (- x, 0) -> 0 < x ->
    q_FiniteWLChapman2015 u lfc k n T F_m12 F_32 F_52 inv_F12 v = Some (RtoC (- x * v / (1 + coulomb_k u (-1) (-1) k * (1 - lfc) * x))).
  Proof.
    intros Hk Hl E Hx. unfold q_FiniteWLChapman2015. rewrite E. cbn [obind]. cpos u.
    assert (0 < coulomb_k u (-1) (-1) k) as HV. { unfold coulomb_k. replace (-1 * -1 * e_ch u ^ 2) with (e_ch u ^ 2) by ring. assert (0 < k ^ 2) by (apply pow_lt; lra). assert (0 < e_ch u ^ 2) by (apply pow_lt; lra). assert (0 < 1 / eps0 u) by (apply Rdiv_lt_0_compat; lra). apply Rdiv_lt_0_compat; [apply Rmult_lt_0_compat; lra|lra]. }
    set (V := coulomb_k u (-1) (-1) k) in *. set (d := 1 + V * (1 - lfc) * x).
    assert (0 < d) as Hd. { unfold d. assert (0 <= V * (1 - lfc) * x) by (apply Rmult_le_pos; [apply Rmult_le_pos; lra|lra]). lra. }
    assert (Cminus (RtoC 1) (Cmult (Cmult (RtoC V) (Cminus (RtoC 1) (RtoC lfc))) (- x, 0)) = RtoC d) as ->.
    { unfold RtoC, Cmult, Cminus, Cplus, Copp. cbn [fst snd]. unfold d. f_equal; ring. }
    unfold cdiv. destruct (Ceq_dec (RtoC d) (RtoC 0)) as [HE|_]; [apply RtoC_inj in HE; lra|]. f_equal.
    change ((- x, 0)) with (RtoC (- x)). rewrite <- RtoC_mult. rewrite <- RtoC_div by lra. reflexivity.
  Qed.
End Dandrea.

(** ** Lengths *)
Lemma length_some u n T : 0 < n -> 0 < T -> exists l, debye_length u [n] [1] T = Some l /\ 0 < l /\ l ^ 2 * (n * e_ch u ^ 2) = eps0 u * kB u * T.
Proof.
  intros Hn HT. cpos u. unfold debye_length. cbn [map2 sum fold_right]. assert (0 < e_ch u ^ 2) by (apply pow_lt; lra).
  set (d := n * (1 * e_ch u) ^ 2 + 0). assert (d = n * e_ch u ^ 2) as Ed by (unfold d; ring). assert (0 < d) as Hd by (rewrite Ed; apply Rmult_lt_0_compat; lra).
  set (m := eps0 u * kB u * T). assert (0 < m) by (unfold m; repeat apply Rmult_lt_0_compat; lra).
  rewrite qdiv_some by lra. assert (0 < m / d) by (apply Rdiv_lt_0_compat; lra). rewrite sqrto_some by lra.
  exists (sqrt (m / d)). split; [reflexivity|]. split; [apply sqrt_lt_R0; lra|]. rewrite pow2_sqrt by lra. rewrite <- Ed. field. lra.
Qed.
Lemma interp4 u n T : 0 < n -> 0 < T -> let T' := temperature_interpolation u n T 4 in
  T' ^ 4 = T ^ 4 + fermi_temperature u n ^ 4 /\ T < T' /\ fermi_temperature u n < T' /\ T' < T + fermi_temperature u n.
Proof.
  intros Hn HT T'. assert (0 < fermi_temperature u n) as HF.
  { unfold fermi_temperature, fermi_energy. cpos u. apply Rdiv_lt_0_compat; [|lra]. apply Rmult_lt_0_compat; [|apply exp_pos]. apply Rdiv_lt_0_compat; [apply pow_lt|]; lra. }
  set (F := fermi_temperature u n) in *. assert (0 < T') as HT' by (unfold T', temperature_interpolation, Rpower; apply exp_pos).
  assert (T' ^ 4 = T ^ 4 + F ^ 4) as E.
  { unfold T', temperature_interpolation. fold F. replace 4 with (INR 4) by (cbn; ring). rewrite (Rpower_pow 4 T), (Rpower_pow 4 F) by assumption.
    rewrite <- Rpower_pow by (unfold Rpower; apply exp_pos). rewrite Rpower_mult. replace (1 / INR 4 * INR 4) with 1 by (cbn; field).
    apply Rpower_1. assert (0 < T ^ 4) by (apply pow_lt; lra). assert (0 < F ^ 4) by (apply pow_lt; lra). lra. }
  split; [exact E|]. assert (0 < T ^ 4) by (apply pow_lt; lra). assert (0 < F ^ 4) by (apply pow_lt; lra).
  assert (forall a b, 0 < a -> 0 < b -> a ^ 4 < b ^ 4 -> a < b) as Inv.
  { intros a b Ha Hb Hab. apply Rnot_le_lt. intros L. assert (b ^ 4 <= a ^ 4) by (apply pow_incr; lra). lra. }
  repeat split; apply Inv; try lra.
  rewrite E. replace ((T + F) ^ 4) with (T ^ 4 + F ^ 4 + (4 * T ^ 3 * F + 6 * T ^ 2 * F ^ 2 + 4 * T * F ^ 3)) by ring.
  assert (0 < T ^ 3) by (apply pow_lt; lra). assert (0 < T ^ 2) by (apply pow_lt; lra). assert (0 < F ^ 2) by (apply pow_lt; lra). assert (0 < F ^ 3) by (apply pow_lt; lra).
  assert (0 < T ^ 3 * F) by (apply Rmult_lt_0_compat; lra). assert (0 < T ^ 2 * F ^ 2) by (apply Rmult_lt_0_compat; lra). assert (0 < T * F ^ 3) by (apply Rmult_lt_0_compat; lra). lra.
Qed.

(** ** Charged hard spheres at short waves *)
Lemma trig3 a b c s t : Rabs s <= 1 -> Rabs t <= 1 -> Rabs (a * s - b * t + c) <= Rabs a + Rabs b + Rabs c.
Proof.
  intros Hs Ht. eapply Rle_trans; [apply Rabs_triang|]. apply Rplus_le_compat_r. unfold Rminus. eapply Rle_trans; [apply Rabs_triang|]. rewrite Rabs_Ropp.
  rewrite (Rabs_mult a s), (Rabs_mult b t). pose proof (Rabs_pos a). pose proof (Rabs_pos b). pose proof (Rabs_pos s). pose proof (Rabs_pos t). nra.
Qed.
Lemma abs_sin x : Rabs (sin x) <= 1.
Proof. apply Rabs_le. pose proof (SIN_bound x). lra. Qed.
Lemma abs_cos x : Rabs (cos x) <= 1.
Proof. apply Rabs_le. pose proof (COS_bound x). lra. Qed.
Lemma C_ii_short u Ti Z ni sig : 0 < sig -> exists M, forall k, 1 <= k * sig -> Rabs (C_ii_CHS u k Ti Z ni sig) <= M / (k * sig) ^ 2.
Proof.
  intros Hs. unfold C_ii_CHS.
  set (eta := G07eta ni sig). set (gam := G07gamma u Z Ti sig). set (chi := G07chi u ni Z Ti sig). set (h0 := G07h0 u ni Z Ti sig). set (h1 := G07h1 u ni Z Ti sig). cbv zeta.
  set (h2 := - (1 + eta - eta ^ 2 / 5) / (12 * eta) - _). set (y0 := - (((1 + 2 * eta) ^ 2) / (1 - eta) ^ 4) + _ - _ - _). set (y1 := 6 * eta * h1 ^ 2). set (y2 := chi ^ 2 / 6). set (y3 := eta / 2 * _). set (y4 := eta * chi ^ 2 / 60).
  exists (24 * Rabs eta * (2 * Rabs y0 + 7 * Rabs y1 + 16 * Rabs y2 + 89 * Rabs y3 + 3000 * Rabs y4 + Rabs gam)).
  intros k Hq. set (q := k * sig) in *. set (S := sin q). set (C := cos q). pose proof (abs_sin q : Rabs S <= 1) as HS. pose proof (abs_cos q : Rabs C <= 1) as HC.
  assert (1 <= q ^ 2) as Q2 by nra. assert (q <= q ^ 2) as Q1 by nra. assert (q ^ 2 <= q ^ 3) as Q3 by (replace (q ^ 3) with (q ^ 2 * q) by ring; nra). assert (q ^ 3 <= q ^ 4) as Q4 by (replace (q ^ 4) with (q ^ 3 * q) by ring; nra).
  assert (q ^ 4 <= q ^ 5) as Q5 by (replace (q ^ 5) with (q ^ 4 * q) by ring; nra). assert (q ^ 5 <= q ^ 6) as Q6 by (replace (q ^ 6) with (q ^ 5 * q) by ring; nra).
  assert (0 < q ^ 6) as P6 by lra.
  assert (Rabs (q ^ 3 * (S - q * C)) <= 2 * q ^ 4) as B0.
  { replace (q ^ 3 * (S - q * C)) with (q ^ 3 * S - q ^ 4 * C + 0) by ring. eapply Rle_trans; [apply trig3; assumption|]. rewrite Rabs_R0, !Rabs_pos_eq; lra. }
  assert (Rabs (q ^ 2 * (2 * q * S - (q ^ 2 - 2) * C - 2)) <= 7 * q ^ 4) as B1.
  { replace (q ^ 2 * (2 * q * S - (q ^ 2 - 2) * C - 2)) with (2 * q ^ 3 * S - (q ^ 4 - 2 * q ^ 2) * C + (- (2 * q ^ 2))) by ring. eapply Rle_trans; [apply trig3; assumption|].
    rewrite Rabs_Ropp, (Rabs_pos_eq (2 * q ^ 3)), (Rabs_pos_eq (2 * q ^ 2)) by lra. assert (Rabs (q ^ 4 - 2 * q ^ 2) <= 3 * q ^ 4) by (apply Rabs_le; lra). lra. }
  assert (Rabs (q * ((3 * q ^ 2 - 6) * S - (q ^ 2 - 6) * q * C)) <= 16 * q ^ 4) as B2.
  { replace (q * ((3 * q ^ 2 - 6) * S - (q ^ 2 - 6) * q * C)) with ((3 * q ^ 3 - 6 * q) * S - (q ^ 4 - 6 * q ^ 2) * C + 0) by ring. eapply Rle_trans; [apply trig3; assumption|].
    rewrite Rabs_R0. assert (Rabs (3 * q ^ 3 - 6 * q) <= 9 * q ^ 4) by (apply Rabs_le; lra). assert (Rabs (q ^ 4 - 6 * q ^ 2) <= 7 * q ^ 4) by (apply Rabs_le; lra). lra. }
  assert (Rabs ((4 * q ^ 2 - 24) * q * S - (q ^ 4 - 12 * q ^ 2 + 24) * C + 24) <= 89 * q ^ 4) as B3.
  { eapply Rle_trans; [apply trig3; assumption|]. assert (Rabs ((4 * q ^ 2 - 24) * q) <= 28 * q ^ 4) by (replace ((4 * q ^ 2 - 24) * q) with (4 * q ^ 3 - 24 * q) by ring; apply Rabs_le; lra).
    assert (Rabs (q ^ 4 - 12 * q ^ 2 + 24) <= 37 * q ^ 4) by (apply Rabs_le; lra). rewrite (Rabs_pos_eq 24) by lra. lra. }
  assert (Rabs ((6 * (q ^ 4 - 20 * q ^ 2 + 120) * q * S - (q ^ 6 - 30 * q ^ 4 + 360 * q ^ 2 - 720) * C - 720) / q ^ 2) <= 3000 * q ^ 4) as B4.
  { unfold Rdiv. rewrite Rabs_mult, (Rabs_pos_eq (/ q ^ 2)) by (left; apply Rinv_0_lt_compat; lra). apply div_le; [lra|]. replace (3000 * q ^ 4 * q ^ 2) with (3000 * q ^ 6) by ring.
    replace (6 * (q ^ 4 - 20 * q ^ 2 + 120) * q * S - (q ^ 6 - 30 * q ^ 4 + 360 * q ^ 2 - 720) * C - 720) with ((6 * q ^ 5 - 120 * q ^ 3 + 720 * q) * S - (q ^ 6 - 30 * q ^ 4 + 360 * q ^ 2 - 720) * C + (- 720)) by ring.
    eapply Rle_trans; [apply trig3; assumption|]. assert (Rabs (6 * q ^ 5 - 120 * q ^ 3 + 720 * q) <= 846 * q ^ 6) by (apply Rabs_le; lra). assert (Rabs (q ^ 6 - 30 * q ^ 4 + 360 * q ^ 2 - 720) <= 1111 * q ^ 6) by (apply Rabs_le; lra).
    assert (Rabs (-720) = 720) as R7 by (rewrite Rabs_left; lra). rewrite R7. lra. }
  assert (Rabs (q ^ 4 * C) <= q ^ 4) as B5. { rewrite Rabs_mult, (Rabs_pos_eq (q ^ 4)) by lra. nra. }
  set (t0 := q ^ 3 * (S - q * C)) in *. set (t1 := q ^ 2 * (2 * q * S - (q ^ 2 - 2) * C - 2)) in *. set (t2 := q * ((3 * q ^ 2 - 6) * S - (q ^ 2 - 6) * q * C)) in *.
  set (t3 := (4 * q ^ 2 - 24) * q * S - (q ^ 4 - 12 * q ^ 2 + 24) * C + 24) in *. set (t4 := (6 * (q ^ 4 - 20 * q ^ 2 + 120) * q * S - (q ^ 6 - 30 * q ^ 4 + 360 * q ^ 2 - 720) * C - 720) / q ^ 2) in *. set (t5 := q ^ 4 * C) in *.
  match goal with |- Rabs ?X <= _ => replace X with ((24 * eta / q ^ 6) * (y0 * t0 + y1 * t1 + y2 * t2 + y3 * t3 + y4 * t4 - gam * t5)) end.
  2:{ f_equal. unfold t0, t1, t2, t4, t5, Rdiv. ring. }
  assert (Rabs (y0 * t0 + y1 * t1 + y2 * t2 + y3 * t3 + y4 * t4 - gam * t5) <= (2 * Rabs y0 + 7 * Rabs y1 + 16 * Rabs y2 + 89 * Rabs y3 + 3000 * Rabs y4 + Rabs gam) * q ^ 4) as BB.
  { unfold Rminus. repeat (eapply Rle_trans; [apply Rabs_triang|]; rewrite ?Rabs_Ropp). 
    assert (forall y t c, Rabs t <= c * q ^ 4 -> Rabs (y * t) <= Rabs y * c * q ^ 4) as P. { intros y t c H. rewrite (Rabs_mult y t), Rmult_assoc. apply Rmult_le_compat_l; [apply Rabs_pos|exact H]. }
    pose proof (P y0 t0 _ B0). pose proof (P y1 t1 _ B1). pose proof (P y2 t2 _ B2). pose proof (P y3 t3 _ B3). pose proof (P y4 t4 _ B4). pose proof (P gam t5 1 ltac:(lra)).
    pose proof (Rabs_triang (y0 * t0 + y1 * t1 + y2 * t2 + y3 * t3) (y4 * t4)). pose proof (Rabs_triang (y0 * t0 + y1 * t1 + y2 * t2) (y3 * t3)). pose proof (Rabs_triang (y0 * t0 + y1 * t1) (y2 * t2)). pose proof (Rabs_triang (y0 * t0) (y1 * t1)). lra. }
  rewrite (Rabs_mult (24 * eta / q ^ 6)). unfold Rdiv at 1. rewrite (Rabs_mult (24 * eta)), (Rabs_mult 24), (Rabs_pos_eq 24) by lra. rewrite (Rabs_pos_eq (/ q ^ 6)) by (left; apply Rinv_0_lt_compat; lra).
  set (M := 2 * Rabs y0 + 7 * Rabs y1 + 16 * Rabs y2 + 89 * Rabs y3 + 3000 * Rabs y4 + Rabs gam) in *.
  replace (24 * Rabs eta * M / q ^ 2) with (24 * Rabs eta * / q ^ 6 * (M * q ^ 4)) by (field; lra).
  apply Rmult_le_compat_l; [|exact BB]. apply Rmult_le_pos; [pose proof (Rabs_pos eta); lra|left; apply Rinv_0_lt_compat; lra].
Qed.
Lemma S_ii_short u Te Ti ne Z ni lfc sig : 0 < sig -> exists k0, 0 < k0 /\ forall k, k0 <= k -> S_ii_CHS_sig u k Te Ti ne Z ni lfc sig <> 0.
Proof.
  intros Hs. destruct (C_ii_short u Ti Z ni sig Hs) as [M HM]. pose proof PI_RGT_0. pose proof (Rabs_pos M).
  set (r := PI + 1 + 2 * Rabs M). exists (r / sig). split; [apply Rdiv_lt_0_compat; unfold r; lra|]. intros k Hk.
  assert (r <= k * sig) as Hr. { apply Rmult_le_reg_r with (/ sig); [now apply Rinv_0_lt_compat|]. rewrite Rmult_assoc, Rinv_r, Rmult_1_r by lra. exact Hk. }
  unfold r in Hr. specialize (HM k ltac:(lra)). unfold S_ii_CHS_sig. cbv zeta. destruct (Rlt_dec k (PI / sig)) as [L|_].
  { exfalso. assert (PI / sig <= r / sig) by (apply Rdiv_le_compat_r; unfold r; lra). lra. }
  assert (M / (k * sig) ^ 2 <= 1 / 2) as HH. { pose proof (RRle_abs M). apply div_le; [apply pow_lt; lra|]. nra. }
  apply Rabs_le_between in HM. set (c := C_ii_CHS u k Ti Z ni sig) in *. replace (1 + 0 * (1 / (1 - c))) with 1 by ring.
  apply Rgt_not_eq. apply Rdiv_lt_0_compat; [|lra]. apply Rdiv_lt_0_compat; lra.
Qed.


(** ** Long waves of the fit *)
Lemma poly5 b2 b4 b6 b8 b10 x : 0 <= x <= 1 ->
  Rabs (b2 * x ^ 2 + b4 * x ^ 4 + b6 * x ^ 6 + b8 * x ^ 8 + b10 * x ^ 10) <= (Rabs b2 + Rabs b4 + Rabs b6 + Rabs b8 + Rabs b10) * x ^ 2.
Proof.
  intros Hx. assert (forall n, x ^ (2 + n) <= x ^ 2) as P. { intros n. rewrite pow_add. assert (0 <= x ^ 2) by apply pow2_ge_0. assert (x ^ n <= 1) by (rewrite <- (pow1 n); apply pow_incr; lra). nra. }
  assert (forall n, 0 <= x ^ n) as N by (intros n; apply pow_le; lra).
  assert (forall b n, Rabs (b * x ^ (2 + n)) <= Rabs b * x ^ 2) as B. { intros b n. rewrite Rabs_mult, (Rabs_pos_eq (x ^ (2 + n))) by apply N. apply Rmult_le_compat_l; [apply Rabs_pos|apply P]. }
  pose proof (B b2 0%nat) as B0. pose proof (B b4 2%nat) as B1. pose proof (B b6 4%nat) as B2. pose proof (B b8 6%nat) as B3. pose proof (B b10 8%nat) as B4. cbn [Nat.add] in *.
  pose proof (Rabs_triang (b2 * x ^ 2 + b4 * x ^ 4 + b6 * x ^ 6 + b8 * x ^ 8) (b10 * x ^ 10)). pose proof (Rabs_triang (b2 * x ^ 2 + b4 * x ^ 4 + b6 * x ^ 6) (b8 * x ^ 8)).
  pose proof (Rabs_triang (b2 * x ^ 2 + b4 * x ^ 4) (b6 * x ^ 6)). pose proof (Rabs_triang (b2 * x ^ 2) (b4 * x ^ 4)). lra.
Qed.
Lemma phi_small F_m12 F_32 F_52 th eta a J K : 0 < th -> dandrea_a th = Some a -> dandrea_J th = Some J -> dandrea_K th = Some K -> F_m12 eta <> 0 ->
  exists X M, 0 < X /\ forall x, 0 < x <= X -> exists p, phi_Dandrea F_m12 F_32 F_52 x th eta = Some p /\
    Rabs (p / x - sqrt th * (F_m12 eta * sqrt PI)) <= M * x ^ 2.
Proof.
  intros Hth Ea EJ EK HF. destruct a as [[[a2 a4] a6] a8]. unfold phi_Dandrea. rewrite Ea, EJ, EK. cbn [obind].
  set (I := F_m12 eta * sqrt PI). assert (0 < sqrt PI) by (apply sqrt_lt_R0; apply PI_RGT_0). assert (0 < sqrt th) by (now apply sqrt_lt_R0).
  assert (I <> 0) as HI by (unfold I; apply Rmult_integral_contrapositive_currified; lra).
  assert (3 * sqrt th * I <> 0) as H1 by (apply Rmult_integral_contrapositive_currified; [nra|assumption]). assert (15 * sqrt th * I <> 0) as H2 by (apply Rmult_integral_contrapositive_currified; [nra|assumption]).
  rewrite (qdiv_some _ _ H1), (qdiv_some _ _ H2). cbn [obind].
  set (b2 := a2 + _). set (b4 := b2 ^ 2 - a2 * b2 + a4 + _). set (b10 := 3 / 2 * sqrt th * I * a8). set (b8 := 3 / 2 * sqrt th * I * a6 - _). set (b6 := 3 / 2 * sqrt th * I * a4 - _ - _).
  set (A := Rabs a2 + Rabs a4 + Rabs a6 + Rabs a8 + Rabs 0). set (B := Rabs b2 + Rabs b4 + Rabs b6 + Rabs b8 + Rabs b10).
  assert (0 <= A) by (unfold A; pose proof (Rabs_pos a2); pose proof (Rabs_pos a4); pose proof (Rabs_pos a6); pose proof (Rabs_pos a8); pose proof (Rabs_pos 0); lra).
  assert (0 <= B) by (unfold B; pose proof (Rabs_pos b2); pose proof (Rabs_pos b4); pose proof (Rabs_pos b6); pose proof (Rabs_pos b8); pose proof (Rabs_pos b10); lra).
  assert (0 < / (2 * (1 + B))) as Hi by (apply Rinv_0_lt_compat; lra). assert (/ (2 * (1 + B)) <= 1 / 2) as Hi2 by (unfold Rdiv; rewrite Rmult_1_l; apply Rinv_le_contravar; lra).
  exists (/ (2 * (1 + B))), (Rabs (sqrt th * I) * (2 * (A + B))). split; [exact Hi|]. intros x Hx.
  pose proof (poly5 a2 a4 a6 a8 0 x ltac:(lra)) as PA. fold A in PA. replace (a2 * x ^ 2 + a4 * x ^ 4 + a6 * x ^ 6 + a8 * x ^ 8 + 0 * x ^ 10) with (a2 * x ^ 2 + a4 * x ^ 4 + a6 * x ^ 6 + a8 * x ^ 8) in PA by ring.
  pose proof (poly5 b2 b4 b6 b8 b10 x ltac:(lra)) as PB. fold B in PB.
  set (na := a2 * x ^ 2 + a4 * x ^ 4 + a6 * x ^ 6 + a8 * x ^ 8) in *. set (nb := b2 * x ^ 2 + b4 * x ^ 4 + b6 * x ^ 6 + b8 * x ^ 8 + b10 * x ^ 10) in *.
  replace (1 + a2 * x ^ 2 + a4 * x ^ 4 + a6 * x ^ 6 + a8 * x ^ 8) with (1 + na) by (unfold na; ring).
  replace (1 + b2 * x ^ 2 + b4 * x ^ 4 + b6 * x ^ 6 + b8 * x ^ 8 + b10 * x ^ 10) with (1 + nb) by (unfold nb; ring).
  assert (B * x ^ 2 <= 1 / 2) as HB. { apply Rle_trans with (B * / (2 * (1 + B))); [apply Rmult_le_compat_l; [lra|]; nra|]. apply div_le; lra. }
  pose proof PB as PB'. apply Rabs_le_between in PB'. assert (1 / 2 <= 1 + nb) as Hd by lra. rewrite qdiv_some by lra. cbn [obind]. eexists; split; [reflexivity|].
  replace (sqrt th * I * x * ((1 + na) / (1 + nb)) / x - sqrt th * I) with (sqrt th * I * ((na - nb) * / (1 + nb))) by (field; lra).
  rewrite (Rabs_mult (sqrt th * I)), Rmult_assoc. apply Rmult_le_compat_l; [apply Rabs_pos|].
  rewrite (Rabs_mult (na - nb)), (Rabs_pos_eq (/ (1 + nb))) by (left; apply Rinv_0_lt_compat; lra).
  assert (Rabs (na - nb) <= (A + B) * x ^ 2) as HD. { unfold Rminus. eapply Rle_trans; [apply Rabs_triang|]. rewrite Rabs_Ropp. lra. }
  assert (/ (1 + nb) <= 2) by (replace 2 with (/ (1 / 2)) by field; apply Rinv_le_contravar; lra).
  assert (0 < / (1 + nb)) by (apply Rinv_0_lt_compat; lra). pose proof (Rabs_pos (na - nb)). nra.
Qed.
(** with the wave number of Thomas and Fermi at finite temperature *)
Lemma static_long F_m12 F_32 F_52 inv_F12 u T n : 0 < n -> 0 < T ->
  let th := T * kB u / fermi_energy u n in let eta := inv_F12 ((2 / 3 * Rpower th (- (3 / 2))) / (sqrt PI / 2)) in
  forall a J K, dandrea_a th = Some a -> dandrea_J th = Some J -> dandrea_K th = Some K -> F_m12 eta <> 0 ->
  exists X M, 0 < X /\ forall k, 0 < k <= X -> exists x, xi0_Dandrea u F_m12 F_32 F_52 inv_F12 k 0 T n = Some (- x, 0) /\
    Rabs (x * e_ch u ^ 2 / eps0 u - 2 * fermi_wavenumber n / (PI * a_0 u) * (sqrt th * (F_m12 eta * sqrt PI))) <= M * k ^ 2.
Proof.
  intros Hn HT th eta a J K Ea EJ EK HF. cpos u. assert (0 < fermi_wavenumber n) as HkF by apply exp_pos. set (kf := fermi_wavenumber n) in *.
  assert (0 < fermi_energy u n) as HEf. { unfold fermi_energy. apply Rmult_lt_0_compat; [|apply exp_pos]. apply Rdiv_lt_0_compat; [apply pow_lt|]; lra. }
  assert (0 < th) as Hth by (unfold th; apply Rdiv_lt_0_compat; [apply Rmult_lt_0_compat; lra|lra]).
  destruct (phi_small F_m12 F_32 F_52 th eta a J K Hth Ea EJ EK HF) as (X & M & HX & L).
  set (s := sqrt th * (F_m12 eta * sqrt PI)) in *. set (c := 2 * kf / (PI * a_0 u)). assert (0 < c) as Hc by (unfold c; apply Rdiv_lt_0_compat; [lra|apply Rmult_lt_0_compat; lra]).
  exists (X * (2 * kf)), (c * M / (2 * kf) ^ 2). split; [apply Rmult_lt_0_compat; lra|]. intros k Hk.
  set (Q := k / (2 * kf)). assert (0 < Q <= X) as HQ. { unfold Q. split; [apply Rdiv_lt_0_compat; lra|apply div_le; lra]. }
  destruct (L Q HQ) as (p & Ep & Bp).
  pose proof (static_real F_m12 F_32 F_52 inv_F12 u k T n) as SR.
  assert (exists re, real_Dandrea F_m12 F_32 F_52 th Q (wiegner_seitz_radius n / a_0 u) (0 / (4 * fermi_energy u n)) eta (Rpower (4 / (9 * PI)) (1 / 3)) = Some re /\
    re = - (c * (p / Q) / k ^ 2)) as (re & Er & Ere).
  { unfold real_Dandrea. replace (0 / (4 * fermi_energy u n) / Q) with 0 by (unfold Rdiv; ring). rewrite Rplus_0_l. replace (0 - Q) with (- Q) by ring. rewrite phi_odd, Ep. cbn [obind]. eexists; split; [reflexivity|].
    pose proof (kF_rs u n Hn) as E. fold kf in E. set (w := wiegner_seitz_radius n) in *. assert (0 < w) by (unfold w, wiegner_seitz_radius, Rpower; apply exp_pos).
    replace (4 / (9 * PI)) with (/ (9 * PI / 4)) by (field; lra).
    assert (Rpower (/ (9 * PI / 4)) (1 / 3) = / Rpower (9 * PI / 4) (1 / 3)) as ->. { unfold Rpower. rewrite ln_Rinv by (apply Rdiv_lt_0_compat; lra). rewrite Ropp_mult_distr_r_reverse, exp_Ropp. reflexivity. }
    rewrite <- E. unfold c, Q. field. repeat split; lra. }
  unfold xi0_Dandrea in *. fold kf in SR. fold kf. fold Q in SR. fold Q. fold th in SR. fold th. fold eta in SR. fold eta. rewrite Er in SR. rewrite Er. cbn [obind] in *.
  specialize (SR _ ltac:(lra) eq_refl). set (z := Cmult _ _) in *. assert (fst z = 1 / coulomb_k u (-1) (-1) k * re) as Ez by (unfold z, Cmult, RtoC; cbn [fst snd]; ring).
  exists (- fst z). split; [rewrite Ropp_involutive; rewrite <- SR; f_equal; now destruct z|].
  assert (- fst z * e_ch u ^ 2 / eps0 u = c * (p / Q)) as ->. { rewrite Ez, Ere. unfold coulomb_k. field. repeat split; lra. }
  replace (c * (p / Q) - c * s) with (c * (p / Q - s)) by ring. rewrite (Rabs_mult c), (Rabs_pos_eq c) by lra.
  replace (c * M / (2 * kf) ^ 2 * k ^ 2) with (c * (M * Q ^ 2)) by (unfold Q; field; lra). apply Rmult_le_compat_l; [lra|exact Bp].
Qed.
