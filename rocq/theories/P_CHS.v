(** Charged hard spheres in the mean spherical approximation (C139). *)
From Coq Require Import Reals List Lra Lia Psatz ZArith Znumtheory Bool.
From Coquelicot Require Import Coquelicot.
From Verif Require Import M_Const M_PlasmaState M_PlasmaPhysics L_PlasmaPhysics M_Helpers L_Helpers M_StaticSF.
Open Scope R_scope.

(** ** Moments of the sphere *)
Lemma ft_prim (A f : R -> R) b : 0 <= b -> (forall r, is_derive A r (f r)) -> (forall r, continuous f r) -> is_RInt f 0 b (A b - A 0).
Proof. intros Hb HA Hf. apply (is_RInt_derive A f); intros; [apply HA|apply Hf]. Qed.
Lemma ft1 k b : k <> 0 -> 0 <= b -> is_RInt (fun r => r * sin (k * r) / k) 0 b ((sin (k * b) - k * b * cos (k * b)) / k ^ 3 - (sin (k * 0) - k * 0 * cos (k * 0)) / k ^ 3).
Proof. intros Hk Hb. apply (ft_prim (fun r => (sin (k * r) - k * r * cos (k * r)) / k ^ 3)); [assumption| |]; intros r; [|apply (ex_derive_continuous (V := R_NormedModule))]; auto_derive; trivial. field. assumption. Qed.
Lemma ft2 k b : k <> 0 -> 0 <= b -> is_RInt (fun r => r ^ 2 * sin (k * r) / k) 0 b ((2 * (k * b) * sin (k * b) - ((k * b) ^ 2 - 2) * cos (k * b)) / k ^ 4 - (2 * (k * 0) * sin (k * 0) - ((k * 0) ^ 2 - 2) * cos (k * 0)) / k ^ 4).
Proof. intros Hk Hb. apply (ft_prim (fun r => (2 * (k * r) * sin (k * r) - ((k * r) ^ 2 - 2) * cos (k * r)) / k ^ 4)); [assumption| |]; intros r; [|apply (ex_derive_continuous (V := R_NormedModule))]; auto_derive; trivial. field. assumption. Qed.
Lemma ft3 k b : k <> 0 -> 0 <= b -> is_RInt (fun r => r ^ 3 * sin (k * r) / k) 0 b (((3 * (k * b) ^ 2 - 6) * sin (k * b) - ((k * b) ^ 2 - 6) * (k * b) * cos (k * b)) / k ^ 5 - ((3 * (k * 0) ^ 2 - 6) * sin (k * 0) - ((k * 0) ^ 2 - 6) * (k * 0) * cos (k * 0)) / k ^ 5).
Proof. intros Hk Hb. apply (ft_prim (fun r => ((3 * (k * r) ^ 2 - 6) * sin (k * r) - ((k * r) ^ 2 - 6) * (k * r) * cos (k * r)) / k ^ 5)); [assumption| |]; intros r; [|apply (ex_derive_continuous (V := R_NormedModule))]; auto_derive; trivial. field. assumption. Qed.
Lemma ft4 k b : k <> 0 -> 0 <= b -> is_RInt (fun r => r ^ 4 * sin (k * r) / k) 0 b
  (((4 * (k * b) ^ 2 - 24) * (k * b) * sin (k * b) - ((k * b) ^ 4 - 12 * (k * b) ^ 2 + 24) * cos (k * b)) / k ^ 6 - ((4 * (k * 0) ^ 2 - 24) * (k * 0) * sin (k * 0) - ((k * 0) ^ 4 - 12 * (k * 0) ^ 2 + 24) * cos (k * 0)) / k ^ 6).
Proof. intros Hk Hb. apply (ft_prim (fun r => ((4 * (k * r) ^ 2 - 24) * (k * r) * sin (k * r) - ((k * r) ^ 4 - 12 * (k * r) ^ 2 + 24) * cos (k * r)) / k ^ 6)); [assumption| |]; intros r; [|apply (ex_derive_continuous (V := R_NormedModule))]; auto_derive; trivial. field. assumption. Qed.
Lemma ft6 k b : k <> 0 -> 0 <= b -> is_RInt (fun r => r ^ 6 * sin (k * r) / k) 0 b
  ((6 * ((k * b) ^ 4 - 20 * (k * b) ^ 2 + 120) * (k * b) * sin (k * b) - ((k * b) ^ 6 - 30 * (k * b) ^ 4 + 360 * (k * b) ^ 2 - 720) * cos (k * b)) / k ^ 8 - (6 * ((k * 0) ^ 4 - 20 * (k * 0) ^ 2 + 120) * (k * 0) * sin (k * 0) - ((k * 0) ^ 6 - 30 * (k * 0) ^ 4 + 360 * (k * 0) ^ 2 - 720) * cos (k * 0)) / k ^ 8).
Proof. intros Hk Hb. apply (ft_prim (fun r => (6 * ((k * r) ^ 4 - 20 * (k * r) ^ 2 + 120) * (k * r) * sin (k * r) - ((k * r) ^ 6 - 30 * (k * r) ^ 4 + 360 * (k * r) ^ 2 - 720) * cos (k * r)) / k ^ 8)); [assumption| |]; intros r; [|apply (ex_derive_continuous (V := R_NormedModule))]; auto_derive; trivial. field. assumption. Qed.

Definition cpoly (c0 c1 c2 c3 c5 x : R) : R := c0 + c1 * x + c2 * x ^ 2 + c3 * x ^ 3 + c5 * x ^ 5.
Lemma ft_poly c0 c1 c2 c3 c5 k s : k <> 0 -> 0 < s ->
  let q := k * s in
  is_RInt (fun r => cpoly c0 c1 c2 c3 c5 (r / s) * (r * sin (k * r) / k)) 0 s
   (s ^ 3 / q ^ 6 * (c0 * q ^ 3 * (sin q - q * cos q) + c1 * q ^ 2 * (2 * q * sin q - (q ^ 2 - 2) * cos q - 2)
      + c2 * q * ((3 * q ^ 2 - 6) * sin q - (q ^ 2 - 6) * q * cos q) + c3 * ((4 * q ^ 2 - 24) * q * sin q - (q ^ 4 - 12 * q ^ 2 + 24) * cos q + 24)
      + c5 * (6 * (q ^ 4 - 20 * q ^ 2 + 120) * q * sin q - (q ^ 6 - 30 * q ^ 4 + 360 * q ^ 2 - 720) * cos q - 720) / q ^ 2)).
Proof.
  intros Hk Hs q. assert (Hs' : 0 <= s) by lra. assert (Hq : q <> 0) by (apply Rmult_integral_contrapositive; split; lra).
  pose proof (is_RInt_scal _ _ _ c0 _ (ft1 k s Hk Hs')) as H1. pose proof (is_RInt_scal _ _ _ (c1 / s) _ (ft2 k s Hk Hs')) as H2.
  pose proof (is_RInt_scal _ _ _ (c2 / s ^ 2) _ (ft3 k s Hk Hs')) as H3. pose proof (is_RInt_scal _ _ _ (c3 / s ^ 3) _ (ft4 k s Hk Hs')) as H4.
  pose proof (is_RInt_scal _ _ _ (c5 / s ^ 5) _ (ft6 k s Hk Hs')) as H6.
  pose proof (is_RInt_plus _ _ _ _ _ _ H1 (is_RInt_plus _ _ _ _ _ _ H2 (is_RInt_plus _ _ _ _ _ _ H3 (is_RInt_plus _ _ _ _ _ _ H4 H6)))) as H.
  clear H1 H2 H3 H4 H6. unfold plus, scal in H; cbn in H. unfold mult in H; cbn in H.
  match type of H with is_RInt _ _ _ ?v => match goal with |- is_RInt _ _ _ ?w => replace w with v end end.
  - apply (is_RInt_ext (V := R_NormedModule)) with (2 := H). intros r _. unfold cpoly. change (@eq R) with (@eq R_NormedModule). cbn. field. split; assumption || lra.
  - rewrite !Rmult_0_r, sin_0, cos_0. fold q. assert (Ek : k = q / s) by (unfold q; field; lra). rewrite Ek. set (S := sin q). set (C := cos q). field. split; lra.
Qed.

Section CHS.
  Variable u : consts.
  (** the length at which two ions repel by k_B T *)
  Definition landau (Z T : R) : R := Z ^ 2 * e_ch u ^ 2 / (4 * PI * eps0 u * kB u * T).
  Definition y0c (ni Z T s : R) : R := let eta := G07eta ni s in let h0 := G07h0 u ni Z T s in let chi := G07chi u ni Z T s in
    - (((1 + 2 * eta) ^ 2) / (1 - eta) ^ 4) + (h0 ^ 2 / (4 * (1 - eta) ^ 2)) - (((1 + eta) * h0 * chi) / (12 * eta)) - (((5 + eta ^ 2) * chi ^ 2) / (60 * eta)).
  Definition y3c (ni Z T s : R) : R := let eta := G07eta ni s in let h0 := G07h0 u ni Z T s in let chi := G07chi u ni Z T s in
    eta / 2 * (y0c ni Z T s + chi ^ 2 * (- (1 + eta - eta ^ 2 / 5) / (12 * eta) - (((1 - eta) * h0) / (12 * eta * chi)))).

  Lemma landau_pos Z T : Z <> 0 -> 0 < T -> 0 < landau Z T.
  Proof. intros HZ HT. cpos u. pose proof PI_RGT_0. assert (0 < Z ^ 2) by (apply pow2_gt_0; assumption). assert (0 < e_ch u ^ 2) by (apply pow_lt; assumption).
    unfold landau. apply Rdiv_lt_0_compat; pos. Qed.
  Lemma gamma_landau Z T s : T <> 0 -> s <> 0 -> G07gamma u Z T s = landau Z T / s.
  Proof. intros HT Hs. cpos u. pose proof PI_RGT_0. unfold G07gamma, landau. field. repeat split; lra. Qed.
  Lemma eta_pos ni s : 0 < ni -> 0 < s -> 0 < G07eta ni s.
  Proof. intros. pose proof PI_RGT_0. unfold G07eta. assert (0 < s ^ 3) by (apply pow_lt; lra). apply Rmult_lt_0_compat; [lra|]. apply Rmult_lt_0_compat; lra. Qed.
  Lemma chi_sq ni Z T s : 0 < ni -> Z <> 0 -> 0 < T -> 0 < s -> G07chi u ni Z T s ^ 2 = 24 * G07eta ni s * (landau Z T / s) /\ 0 < G07chi u ni Z T s.
  Proof.
    intros Hn HZ HT Hs. pose proof (landau_pos Z T HZ HT). pose proof (eta_pos ni s Hn Hs). unfold G07chi.
    assert (0 < landau Z T / s) by (apply Rdiv_lt_0_compat; lra). rewrite gamma_landau by lra.
    assert (0 < 24 * G07eta ni s * (landau Z T / s)) by (apply Rmult_lt_0_compat; lra).
    split; [rewrite pow2_sqrt; lra|apply sqrt_lt_R0; assumption].
  Qed.
  (** the quadratic that h0 solves *)
  Lemma h0_quadratic ni Z T s : 0 < ni -> 0 < s -> 0 <= G07chi u ni Z T s -> G07eta ni s < 1 ->
    G07h0 u ni Z T s ^ 2 = 2 * ((1 + 2 * G07eta ni s) / (1 - G07eta ni s)) * G07h0 u ni Z T s + 2 * (1 - G07eta ni s) * G07chi u ni Z T s.
  Proof.
    intros Hn Hs Hc He. pose proof (eta_pos ni s Hn Hs) as Hp. unfold G07h0. set (e := G07eta ni s) in *. set (x := G07chi u ni Z T s) in *.
    assert (Hw : 0 <= 1 + 2 * (1 - e) ^ 3 * x / (1 + 2 * e) ^ 2).
    { assert (0 <= (1 - e) ^ 3) by (apply pow_le; lra). assert (0 < (1 + 2 * e) ^ 2) by (apply pow_lt; lra).
      assert (0 <= 2 * (1 - e) ^ 3 * x) by (apply Rmult_le_pos; lra). assert (0 <= 2 * (1 - e) ^ 3 * x / (1 + 2 * e) ^ 2) by (apply Rcomplements.Rdiv_le_0_compat; assumption). lra. }
    pose proof (pow2_sqrt _ Hw) as Hq. set (w := sqrt _) in *.
    transitivity (((1 + 2 * e) / (1 - e)) ^ 2 * (1 - 2 * w + w ^ 2)); [ring|]. rewrite Hq. field. split; lra.
  Qed.
  Lemma contact ni Z T s : 0 < ni -> Z <> 0 -> 0 < T -> 0 < s -> G07eta ni s < 1 ->
    cpoly (y0c ni Z T s) (6 * G07eta ni s * G07h1 u ni Z T s ^ 2) (G07chi u ni Z T s ^ 2 / 6) (y3c ni Z T s) (G07eta ni s * G07chi u ni Z T s ^ 2 / 60) 1
    = - (landau Z T / s) + G07h1 u ni Z T s.
  Proof.
    intros Hn HZ HT Hs He. destruct (chi_sq ni Z T s Hn HZ HT Hs) as [Hc Hcp]. pose proof (eta_pos ni s Hn Hs) as Hp.
    pose proof (h0_quadratic ni Z T s Hn Hs (Rlt_le _ _ Hcp) He) as Hh.
    assert (Hg : landau Z T / s = G07chi u ni Z T s ^ 2 / (24 * G07eta ni s)) by (rewrite Hc; field; lra). rewrite Hg. clear Hg Hc.
    unfold cpoly, y3c, y0c, G07h1. set (e := G07eta ni s) in *. set (x := G07chi u ni Z T s) in *. set (h := G07h0 u ni Z T s) in *.
    assert (Hx : x = (h ^ 2 - 2 * ((1 + 2 * e) / (1 - e)) * h) / (2 * (1 - e))) by (rewrite Hh; field; lra).
    clearbody x h e. assert (Hx0 : h ^ 2 - 2 * ((1 + 2 * e) / (1 - e)) * h <> 0) by (intro E0; rewrite E0 in Hx; unfold Rdiv in Hx; rewrite Rmult_0_l in Hx; lra).
    rewrite Hx. field. repeat split; try lra. intro E0. apply Hx0. apply (Rmult_eq_reg_r (1 - e)); [|lra]. rewrite Rmult_0_l. rewrite <- E0. field. lra.
  Qed.
  Lemma C_ii_transform k Ti Z ni s : 0 < k -> 0 < Ti -> 0 < s ->
    let I := (s ^ 3 / (k * s) ^ 6 * (y0c ni Z Ti s * (k * s) ^ 3 * (sin (k * s) - (k * s) * cos (k * s))
      + (6 * G07eta ni s * G07h1 u ni Z Ti s ^ 2) * (k * s) ^ 2 * (2 * (k * s) * sin (k * s) - ((k * s) ^ 2 - 2) * cos (k * s) - 2)
      + (G07chi u ni Z Ti s ^ 2 / 6) * (k * s) * ((3 * (k * s) ^ 2 - 6) * sin (k * s) - ((k * s) ^ 2 - 6) * (k * s) * cos (k * s))
      + y3c ni Z Ti s * ((4 * (k * s) ^ 2 - 24) * (k * s) * sin (k * s) - ((k * s) ^ 4 - 12 * (k * s) ^ 2 + 24) * cos (k * s) + 24)
      + (G07eta ni s * G07chi u ni Z Ti s ^ 2 / 60) * (6 * ((k * s) ^ 4 - 20 * (k * s) ^ 2 + 120) * (k * s) * sin (k * s) - ((k * s) ^ 6 - 30 * (k * s) ^ 4 + 360 * (k * s) ^ 2 - 720) * cos (k * s) - 720) / (k * s) ^ 2)) in
    C_ii_CHS u k Ti Z ni s = 4 * PI * ni * (I - landau Z Ti * cos (k * s) / k ^ 2).
  Proof.
    intros Hk HT Hs I. unfold C_ii_CHS. fold (y0c ni Z Ti s). fold (y3c ni Z Ti s). rewrite (gamma_landau Z Ti s) by lra. unfold I. clear I.
    set (P := _ + _ + _ + _ + _ / _). set (L := landau Z Ti).
    replace (24 * G07eta ni s) with (4 * PI * ni * s ^ 3) by (unfold G07eta; field).
    set (C := cos (k * s)). clearbody P L C. field. split; lra.
  Qed.
End CHS.

(** The direct correlation function behind the structure factor is that of the
    mean spherical approximation: the Coulomb potential outside the sphere, a
    polynomial inside, and the two meet at contact up to h1. *)
Theorem C139_mean_spherical (u : consts) (Ti Z ni s : R) :
  0 < Ti -> Z <> 0 -> 0 < ni -> 0 < s -> PI / 6 * (ni * s ^ 3) < 1 ->
  let l := Z ^ 2 * e_ch u ^ 2 / (4 * PI * eps0 u * kB u * Ti) in
  exists c0 c1 c2 c3 c5,
    let c r := c0 + c1 * (r / s) + c2 * (r / s) ^ 2 + c3 * (r / s) ^ 3 + c5 * (r / s) ^ 5 in
    c1 = PI * (ni * s ^ 3) * G07h1 u ni Z Ti s ^ 2 /\
    c s = - (l / s) + G07h1 u ni Z Ti s /\
    forall k, 0 < k -> exists I,
      is_RInt (fun r => c r * (r * sin (k * r) / k)) 0 s I /\
      C_ii_CHS u k Ti Z ni s = 4 * PI * ni * (I - l * cos (k * s) / k ^ 2).
Proof.
  intros HT HZ Hn Hs He l. change (G07eta ni s < 1) in He. change l with (landau u Z Ti).
  exists (y0c u ni Z Ti s), (6 * G07eta ni s * G07h1 u ni Z Ti s ^ 2), (G07chi u ni Z Ti s ^ 2 / 6), (y3c u ni Z Ti s), (G07eta ni s * G07chi u ni Z Ti s ^ 2 / 60).
  intros c. split; [unfold G07eta; field|split].
  - rewrite <- (contact u ni Z Ti s Hn HZ HT Hs He). unfold c, cpoly. replace (s / s) with 1 by (field; lra). reflexivity.
  - intros k Hk. eexists. split; [|apply (C_ii_transform u k Ti Z ni s Hk HT Hs)]. apply (ft_poly _ _ _ _ _ k s); lra.
Qed.

(** ** Factorisation *)
Definition bq (m q1 q2 q3 x : R) : R := m + q1 * (x - 1) + q2 * (x - 1) ^ 2 / 2 + q3 * (x - 1) ^ 3 / 6.
Definition bq' (q1 q2 q3 x : R) : R := q1 + q2 * (x - 1) + q3 * (x - 1) ^ 2 / 2.
Definition bq'' (q2 q3 x : R) : R := q2 + q3 * (x - 1).
Lemma bq_cos m q1 q2 q3 q : q <> 0 -> is_RInt (fun x => bq m q1 q2 q3 x * cos (q * x)) 0 1
  ((m * sin q / q + q1 * cos q / q ^ 2 - q2 * sin q / q ^ 3 - q3 * cos q / q ^ 4) - (bq' q1 q2 q3 0 / q ^ 2 - q3 / q ^ 4)).
Proof.
  intros Hq. set (F := fun x => bq m q1 q2 q3 x * sin (q * x) / q + bq' q1 q2 q3 x * cos (q * x) / q ^ 2 - bq'' q2 q3 x * sin (q * x) / q ^ 3 - q3 * cos (q * x) / q ^ 4).
  match goal with |- is_RInt _ _ _ ?w => replace w with (F 1 - F 0) end.
  - apply (ft_prim F); [lra| |]; intros r; [|apply (ex_derive_continuous (V := R_NormedModule))]; unfold F, bq, bq', bq''; auto_derive; trivial. field. assumption.
  - unfold F, bq, bq', bq''. rewrite Rmult_0_r, Rmult_1_r, sin_0, cos_0. field. assumption.
Qed.
Lemma bq_sin m q1 q2 q3 q : q <> 0 -> is_RInt (fun x => bq m q1 q2 q3 x * sin (q * x)) 0 1
  ((- m * cos q / q + q1 * sin q / q ^ 2 + q2 * cos q / q ^ 3 - q3 * sin q / q ^ 4) - (- bq m q1 q2 q3 0 / q + bq'' q2 q3 0 / q ^ 3)).
Proof.
  intros Hq. set (F := fun x => - bq m q1 q2 q3 x * cos (q * x) / q + bq' q1 q2 q3 x * sin (q * x) / q ^ 2 + bq'' q2 q3 x * cos (q * x) / q ^ 3 - q3 * sin (q * x) / q ^ 4).
  match goal with |- is_RInt _ _ _ ?w => replace w with (F 1 - F 0) end.
  - apply (ft_prim F); [lra| |]; intros r; [|apply (ex_derive_continuous (V := R_NormedModule))]; unfold F, bq, bq', bq''; auto_derive; trivial. field. assumption.
  - unfold F, bq, bq', bq''. rewrite Rmult_0_r, Rmult_1_r, sin_0, cos_0. field. assumption.
Qed.

(** the identity, with [x] for chi and [h] for h0 *)
Lemma baxter_alg (e h x q S C : R) : 0 < e -> e < 1 -> 0 < x -> q <> 0 -> S ^ 2 + C ^ 2 = 1 ->
  h ^ 2 = 2 * ((1 + 2 * e) / (1 - e)) * h + 2 * (1 - e) * x ->
  let h1 := h ^ 2 / (24 * e) - (1 + e / 2) / ((1 - e) ^ 2) in
  let h2 := - (1 + e - e ^ 2 / 5) / (12 * e) - (((1 - e) * h) / (12 * e * x)) in
  let y0 := - (((1 + 2 * e) ^ 2) / (1 - e) ^ 4) + (h ^ 2 / (4 * (1 - e) ^ 2)) - (((1 + e) * h * x) / (12 * e)) - (((5 + e ^ 2) * x ^ 2) / (60 * e)) in
  let y1 := 6 * e * h1 ^ 2 in let y2 := x ^ 2 / 6 in let y3 := e / 2 * (y0 + x ^ 2 * h2) in let y4 := e * x ^ 2 / 60 in
  let q1 := - 12 * e * h1 in
  let q2 := 12 * e * (1 + 2 * e) / (1 - e) ^ 2 - 6 * e * h / (1 - e) + 6 * e * x in
  let q3 := 12 * e * x in
  let Ic := (- x * S / q + q1 * C / q ^ 2 - q2 * S / q ^ 3 - q3 * C / q ^ 4) - (bq' q1 q2 q3 0 / q ^ 2 - q3 / q ^ 4) in
  let Is := (- (- x) * C / q + q1 * S / q ^ 2 + q2 * C / q ^ 3 - q3 * S / q ^ 4) - (- bq (- x) q1 q2 q3 0 / q + bq'' q2 q3 0 / q ^ 3) in
  1 - (24 * e / q ^ 6) * (y0 * q ^ 3 * (S - q * C) + y1 * q ^ 2 * (2 * q * S - (q ^ 2 - 2) * C - 2) + y2 * q * ((3 * q ^ 2 - 6) * S - (q ^ 2 - 6) * q * C)
     + y3 * ((4 * q ^ 2 - 24) * q * S - (q ^ 4 - 12 * q ^ 2 + 24) * C + 24)
     + y4 * (6 * (q ^ 4 - 20 * q ^ 2 + 120) * q * S - (q ^ 6 - 30 * q ^ 4 + 360 * q ^ 2 - 720) * C - 720) / q ^ 2 - (x ^ 2 / (24 * e)) * q ^ 4 * C)
  = (1 - Ic - x * S / q) ^ 2 + (Is - x * C / q) ^ 2.
Proof.
  intros He He1 Hx0 Hq HSC Hh h1 h2 y0 y1 y2 y3 y4 q1 q2 q3 Ic Is.
  assert (Hx : x = (h ^ 2 - 2 * ((1 + 2 * e) / (1 - e)) * h) / (2 * (1 - e))) by (rewrite Hh; field; lra).
  assert (Hd : (1 - e) * h - 2 * (1 + 2 * e) <> 0 /\ h <> 0).
  { split; intro E0; [|rewrite E0 in Hh; assert (0 < (1 - e) * x) by (apply Rmult_lt_0_compat; lra); lra].
    assert (E1 : h ^ 2 - 2 * ((1 + 2 * e) / (1 - e)) * h = 0); [|rewrite E1 in Hx; unfold Rdiv in Hx; rewrite Rmult_0_l in Hx; lra].
    transitivity (h / (1 - e) * ((1 - e) * h - 2 * (1 + 2 * e))); [field; lra|rewrite E0; ring]. }
  destruct Hd as [Hd Hh0].
  assert (Hd2 : h ^ 2 * (1 - e) - 2 * (1 + 2 * e) * h <> 0) by (replace (h ^ 2 * (1 - e) - 2 * (1 + 2 * e) * h) with (h * ((1 - e) * h - 2 * (1 + 2 * e))) by ring; apply Rmult_integral_contrapositive; split; assumption).
  set (A := - (6 * e / (1 - e)) + h). set (A1 := q1 - q2 + q3 / 2). set (A2 := q2 - q3).
  set (R0 := 1 + A1 / q ^ 2 - q3 / q ^ 4). set (I0 := - A / q + A2 / q ^ 3). set (R1 := - q1 / q ^ 2 + q3 / q ^ 4). set (I1 := - q2 / q ^ 3).
  assert (EA : - x - q1 + q2 / 2 - q3 / 6 = A) by (unfold A, q1, q2, q3, h1; rewrite Hx; field; lra).
  assert (ER : 1 - Ic - x * S / q = R0 + R1 * C - I1 * S) by (unfold Ic, R0, R1, I1, A1, bq'; field; assumption).
  assert (EI : Is - x * C / q = - (I0 + R1 * S + I1 * C)).
  { transitivity (((- x - q1 + q2 / 2 - q3 / 6) / q - A2 / q ^ 3) + (- (R1 * S + I1 * C))); [|rewrite EA; unfold I0; field; assumption].
    unfold Is, A2, R1, I1, bq, bq''. field. assumption. }
  rewrite ER, EI.
  transitivity ((R0 ^ 2 + I0 ^ 2 + (R1 ^ 2 + I1 ^ 2) * (S ^ 2 + C ^ 2)) + 2 * (R0 * R1 + I0 * I1) * C + 2 * (I0 * R1 - R0 * I1) * S); [|ring].
  rewrite HSC.
  assert (N : R0 ^ 2 + I0 ^ 2 + (R1 ^ 2 + I1 ^ 2) * 1 = 1 - (24 * e / q ^ 6) * (- 2 * y1 * q ^ 2 + 24 * y3 - 720 * y4 / q ^ 2)).
  { unfold R0, I0, R1, I1, A, A1, A2, y3, y4, y1, y0, h2, q1, q2, q3, h1. rewrite Hx. field. repeat split; assumption || lra. }
  assert (NC : 2 * (R0 * R1 + I0 * I1) = - (24 * e / q ^ 6) * (- y0 * q ^ 4 - y1 * q ^ 2 * (q ^ 2 - 2) - y2 * q ^ 2 * (q ^ 2 - 6) - y3 * (q ^ 4 - 12 * q ^ 2 + 24)
      - y4 * (q ^ 6 - 30 * q ^ 4 + 360 * q ^ 2 - 720) / q ^ 2 - (x ^ 2 / (24 * e)) * q ^ 4)).
  { unfold R0, I0, R1, I1, A, A1, A2, y3, y4, y1, y0, y2, h2, q1, q2, q3, h1. rewrite Hx. field. repeat split; assumption || lra. }
  assert (NS : 2 * (I0 * R1 - R0 * I1) = - (24 * e / q ^ 6) * (y0 * q ^ 3 + 2 * y1 * q ^ 3 + y2 * q * (3 * q ^ 2 - 6) + y3 * (4 * q ^ 2 - 24) * q + y4 * (6 * (q ^ 4 - 20 * q ^ 2 + 120) * q) / q ^ 2)).
  { unfold R0, I0, R1, I1, A, A1, A2, y3, y4, y1, y0, y2, h2, q1, q2, q3, h1. rewrite Hx. field. repeat split; assumption || lra. }
  rewrite N, NC, NS. clear. set (g := 24 * e / q ^ 6). set (w := x ^ 2 / (24 * e)). unfold Rdiv. ring.
Qed.

(** The structure factor of the unscreened ions is the inverse of a squared
    modulus, that of the transform of a cubic inside the sphere and a constant
    outside; so it cannot be negative. *)
Theorem C139_factorised (u : consts) (Ti Z ni s : R) :
  0 < Ti -> Z <> 0 -> 0 < ni -> 0 < s -> PI / 6 * (ni * s ^ 3) < 1 ->
  let kap := sqrt (ni * Z ^ 2 * e_ch u ^ 2 / (eps0 u * kB u * Ti)) in
  exists b1 b2 b3,
    let p x := - (kap * s) + b1 * (x - 1) + b2 * (x - 1) ^ 2 + b3 * (x - 1) ^ 3 in
    b1 = - (2 * PI * (ni * s ^ 3) * G07h1 u ni Z Ti s) /\
    forall k, 0 < k -> exists Ic Is,
      is_RInt (fun x => p x * cos (k * s * x)) 0 1 Ic /\
      is_RInt (fun x => p x * sin (k * s * x)) 0 1 Is /\
      1 - C_ii_CHS u k Ti Z ni s = (1 - Ic - kap * sin (k * s) / k) ^ 2 + (Is - kap * cos (k * s) / k) ^ 2.
Proof.
  intros HT HZ Hn Hs He kap. change (G07eta ni s < 1) in He. pose proof (eta_pos ni s Hn Hs) as Hp.
  destruct (chi_sq u ni Z Ti s Hn HZ HT Hs) as [Hc Hcp]. pose proof (h0_quadratic u ni Z Ti s Hn Hs (Rlt_le _ _ Hcp) He) as Hh.
  assert (Ek : kap * s = G07chi u ni Z Ti s).
  { cpos u. pose proof PI_RGT_0. assert (0 < Z ^ 2) by (apply pow2_gt_0; assumption). assert (0 < e_ch u ^ 2) by (apply pow_lt; assumption).
    assert (0 < ni * Z ^ 2 * e_ch u ^ 2 / (eps0 u * kB u * Ti)) as Hk by (apply Rdiv_lt_0_compat; pos).
    apply Rsqr_inj; [apply Rmult_le_pos; [apply sqrt_pos|lra]|lra|]. rewrite !Rsqr_pow2, Hc, Rpow_mult_distr. unfold kap. rewrite pow2_sqrt by lra.
    unfold landau, G07eta. field. repeat split; lra. }
  set (e := G07eta ni s) in *. set (x := G07chi u ni Z Ti s) in *. set (h := G07h0 u ni Z Ti s) in *.
  set (q1 := - 12 * e * G07h1 u ni Z Ti s). set (q2 := 12 * e * (1 + 2 * e) / (1 - e) ^ 2 - 6 * e * h / (1 - e) + 6 * e * x). set (q3 := 12 * e * x).
  exists q1, (q2 / 2), (q3 / 6). intros p. split; [unfold q1, e, G07eta; field|]. intros k Hk.
  assert (Hq : k * s <> 0) by (apply Rmult_integral_contrapositive; split; lra).
  assert (Ep : forall y, p y = bq (- x) q1 q2 q3 y) by (intros y; unfold p, bq; rewrite Ek; field).
  eexists. eexists. split; [apply (is_RInt_ext (V := R_NormedModule) (fun y => bq (- x) q1 q2 q3 y * cos (k * s * y))); [intros y _; now rewrite Ep|apply (bq_cos (- x) q1 q2 q3 (k * s) Hq)]|].
  split; [apply (is_RInt_ext (V := R_NormedModule) (fun y => bq (- x) q1 q2 q3 y * sin (k * s * y))); [intros y _; now rewrite Ep|apply (bq_sin (- x) q1 q2 q3 (k * s) Hq)]|].
  assert (HSC : sin (k * s) ^ 2 + cos (k * s) ^ 2 = 1) by (pose proof (sin2_cos2 (k * s)) as E; unfold Rsqr in E; lra).
  pose proof (baxter_alg e h x (k * s) (sin (k * s)) (cos (k * s)) Hp He Hcp Hq HSC Hh) as B. cbv zeta in B.
  replace (kap * sin (k * s) / k) with (x * sin (k * s) / (k * s)) by (rewrite <- Ek; field; lra).
  replace (kap * cos (k * s) / k) with (x * cos (k * s) / (k * s)) by (rewrite <- Ek; field; lra).
  eapply eq_trans; [|exact B]. unfold C_ii_CHS. rewrite gamma_landau by lra.
  replace (landau u Z Ti / s) with (x ^ 2 / (24 * e)) by (rewrite Hc; field; lra). reflexivity.
Qed.

Theorem C139_positive (u : consts) (k Ti Z ni s : R) : 0 < k -> 0 < Ti -> Z <> 0 -> 0 < ni -> 0 < s -> PI / 6 * (ni * s ^ 3) < 1 ->
  C_ii_CHS u k Ti Z ni s <= 1 /\ 0 <= 1 / (1 - C_ii_CHS u k Ti Z ni s).
Proof.
  intros Hk HT HZ Hn Hs He. destruct (C139_factorised u Ti Z ni s HT HZ Hn Hs He) as (b1 & b2 & b3 & _ & F).
  destruct (F k Hk) as (Ic & Is & _ & _ & E). pose proof (pow2_ge_0 (1 - Ic - sqrt (ni * Z ^ 2 * e_ch u ^ 2 / (eps0 u * kB u * Ti)) * sin (k * s) / k)).
  pose proof (pow2_ge_0 (Is - sqrt (ni * Z ^ 2 * e_ch u ^ 2 / (eps0 u * kB u * Ti)) * cos (k * s) / k)).
  split; [lra|]. destruct (Req_dec (1 - C_ii_CHS u k Ti Z ni s) 0) as [E0|N0]; [rewrite E0; unfold Rdiv; rewrite Rinv_0; lra|].
  apply Rlt_le, Rdiv_lt_0_compat; lra.
Qed.

(** ** Long and short waves *)
Lemma cpoly_bound c0 c1 c2 c3 c5 x : 0 <= x <= 1 -> Rabs (cpoly c0 c1 c2 c3 c5 x) <= Rabs c0 + Rabs c1 + Rabs c2 + Rabs c3 + Rabs c5.
Proof.
  intros Hx. unfold cpoly.
  assert (P : forall n, Rabs (x ^ n) <= 1) by (intros n; rewrite Rabs_pos_eq by (apply pow_le; lra); rewrite <- (pow1 n); apply pow_incr; lra).
  assert (Q : forall c n, Rabs (c * x ^ n) <= Rabs c) by (intros c n; rewrite Rabs_mult; rewrite <- (Rmult_1_r (Rabs c)) at 2; apply Rmult_le_compat_l; [apply Rabs_pos|apply P]).
  pose proof (Q c1 1%nat) as Q1. rewrite pow_1 in Q1. pose proof (Q c2 2%nat). pose proof (Q c3 3%nat). pose proof (Q c5 5%nat).
  pose proof (Rabs_triang (c0 + c1 * x + c2 * x ^ 2 + c3 * x ^ 3) (c5 * x ^ 5)). pose proof (Rabs_triang (c0 + c1 * x + c2 * x ^ 2) (c3 * x ^ 3)).
  pose proof (Rabs_triang (c0 + c1 * x) (c2 * x ^ 2)). pose proof (Rabs_triang c0 (c1 * x)). lra.
Qed.
Lemma abs_sin_le x : 0 <= x -> Rabs (sin x) <= x.
Proof.
  intros Hx. destruct (Rle_dec 1 x) as [H1|H1]; [pose proof (SIN_bound x); apply Rabs_le; lra|].
  destruct (Req_dec x 0) as [->|Hn]; [rewrite sin_0, Rabs_R0; lra|]. pose proof (sin_lt_x x ltac:(lra)). pose proof PI_RGT_0. pose proof PI2_1 as HPI.
  assert (0 <= sin x) by (apply sin_ge_0; lra). rewrite Rabs_pos_eq; lra.
Qed.
Lemma transform_bound (c : R -> R) B k s I : 0 < k -> 0 < s -> (forall r, 0 <= r <= s -> Rabs (c r) <= B) ->
  is_RInt (fun r => c r * (r * sin (k * r) / k)) 0 s I -> Rabs I <= B * s ^ 3 /\ Rabs I <= B * s ^ 2 / k.
Proof.
  intros Hk Hs Hc HI. assert (HB : 0 <= B) by (eapply Rle_trans; [apply Rabs_pos|apply (Hc 0); lra]).
  assert (Hb : forall r w, 0 <= r <= s -> Rabs (sin (k * r)) <= w * k -> Rabs (c r * (r * sin (k * r) / k)) <= B * (s * w)).
  { intros r w Hr Hw. rewrite Rabs_mult. apply Rmult_le_compat; [apply Rabs_pos|apply Rabs_pos|apply Hc; lra|]. unfold Rdiv. rewrite !Rabs_mult, Rmult_assoc.
    apply Rmult_le_compat; [apply Rabs_pos| |rewrite Rabs_pos_eq; lra|]. { apply Rmult_le_pos; apply Rabs_pos. }
    rewrite (Rabs_pos_eq (/ k)) by (apply Rlt_le, Rinv_0_lt_compat; lra). apply (Rmult_le_reg_r k); [lra|]. rewrite Rmult_assoc, Rinv_l, Rmult_1_r by lra. exact Hw. }
  split.
  - replace (B * s ^ 3) with ((s - 0) * (B * (s * s))) by ring. refine (norm_RInt_le_const _ _ _ _ _ (Rlt_le _ _ Hs) _ HI). intros r Hr.
    apply (Hb r s Hr). eapply Rle_trans; [apply abs_sin_le; apply Rmult_le_pos; lra|]. rewrite Rmult_comm. apply Rmult_le_compat_r; lra.
  - replace (B * s ^ 2 / k) with ((s - 0) * (B * (s * / k))) by (field; lra). refine (norm_RInt_le_const _ _ _ _ _ (Rlt_le _ _ Hs) _ HI). intros r Hr.
    apply (Hb r (/ k) Hr). rewrite Rinv_l by lra. pose proof (SIN_bound (k * r)). apply Rabs_le. lra.
Qed.
Lemma C_ii_split (u : consts) (Ti Z ni s : R) : 0 < Ti -> Z <> 0 -> 0 < ni -> 0 < s -> PI / 6 * (ni * s ^ 3) < 1 ->
  exists B (J : R -> R), 0 <= B /\ (forall k, 0 < k -> Rabs (J k) <= B /\ Rabs (J k) <= B / (k * s)) /\
    forall k, 0 < k -> C_ii_CHS u k Ti Z ni s = J k - ni * Z ^ 2 * e_ch u ^ 2 / (eps0 u * kB u * Ti) * cos (k * s) / k ^ 2.
Proof.
  intros HT HZ Hn Hs He. pose proof PI_RGT_0 as HPI. cpos u.
  set (B := Rabs (y0c u ni Z Ti s) + Rabs (6 * G07eta ni s * G07h1 u ni Z Ti s ^ 2) + Rabs (G07chi u ni Z Ti s ^ 2 / 6) + Rabs (y3c u ni Z Ti s) + Rabs (G07eta ni s * G07chi u ni Z Ti s ^ 2 / 60)).
  assert (HB : 0 <= B) by (unfold B; repeat apply Rplus_le_le_0_compat; apply Rabs_pos).
  assert (Hs3 : 0 < s ^ 3) by (apply pow_lt; lra).
  assert (Hq : 0 <= 4 * PI * ni) by (apply Rmult_le_pos; lra).
  eexists (4 * PI * ni * (B * s ^ 3)), (fun k => 4 * PI * ni * _). split; [apply Rmult_le_pos; [assumption|apply Rmult_le_pos; lra]|]. split.
  2:{ intros k Hk. rewrite (C_ii_transform u k Ti Z ni s Hk HT Hs). rewrite Rmult_minus_distr_l. f_equal. unfold landau. field. repeat split; lra. }
  intros k Hk. cbv beta.
  match goal with |- Rabs (_ * ?I) <= _ /\ _ => assert (HI : Rabs I <= B * s ^ 3 /\ Rabs I <= B * s ^ 2 / k) end.
  { apply (transform_bound (fun r => cpoly (y0c u ni Z Ti s) (6 * G07eta ni s * G07h1 u ni Z Ti s ^ 2) (G07chi u ni Z Ti s ^ 2 / 6) (y3c u ni Z Ti s) (G07eta ni s * G07chi u ni Z Ti s ^ 2 / 60) (r / s))); try assumption.
    - intros r Hr. apply cpoly_bound. split; [apply Rcomplements.Rdiv_le_0_compat; lra|apply (Rmult_le_reg_r s); [lra|unfold Rdiv; rewrite Rmult_assoc, Rinv_l; lra]].
    - apply (ft_poly _ _ _ _ _ k s); lra. }
  destruct HI as [HI1 HI2]. rewrite Rabs_mult, (Rabs_pos_eq _ Hq). split; [apply Rmult_le_compat_l; assumption|].
  replace (4 * PI * ni * (B * s ^ 3) / (k * s)) with (4 * PI * ni * (B * s ^ 2 / k)) by (field; lra). apply Rmult_le_compat_l; assumption.
Qed.

(** Perfect screening: the unscreened structure factor vanishes as the square of
    the wave number over that of the Debye length of the ions. *)
Theorem C139_perfect_screening (u : consts) (Ti Z ni s : R) :
  0 < Ti -> Z <> 0 -> 0 < ni -> 0 < s -> PI / 6 * (ni * s ^ 3) < 1 ->
  let kap2 := ni * Z ^ 2 * e_ch u ^ 2 / (eps0 u * kB u * Ti) in
  exists k0 M, 0 < k0 /\ forall k, 0 < k < k0 -> Rabs (kap2 / k ^ 2 * (1 / (1 - C_ii_CHS u k Ti Z ni s)) - 1) <= M * k ^ 2.
Proof.
  intros HT HZ Hn Hs He kap2. destruct (C_ii_split u Ti Z ni s HT HZ Hn Hs He) as (B & J & HB & HJ & HC). fold kap2 in HC.
  assert (Hk2 : 0 < kap2). { cpos u. assert (0 < Z ^ 2) by (apply pow2_gt_0; assumption). assert (0 < e_ch u ^ 2) by (apply pow_lt; assumption). unfold kap2. apply Rdiv_lt_0_compat; pos. }
  set (M0 := 1 + B + kap2 * s ^ 2 / 2). assert (HM0 : 1 <= M0) by (unfold M0; assert (0 <= s ^ 2) by apply pow2_ge_0; assert (0 <= kap2 * s ^ 2) by (apply Rmult_le_pos; lra); lra).
  exists (sqrt (kap2 / (2 * M0))), (2 * M0 / kap2). assert (HX : 0 < kap2 / (2 * M0)) by (apply Rdiv_lt_0_compat; lra). split; [apply sqrt_lt_R0; assumption|].
  intros k [Hk Hk0]. destruct (HJ k Hk) as [HJ1 _]. rewrite (HC k Hk).
  assert (Hkk : k ^ 2 <= kap2 / (2 * M0)) by (rewrite <- (pow2_sqrt (kap2 / (2 * M0))) by lra; apply pow_incr; lra).
  assert (HMk : M0 * k ^ 2 <= kap2 / 2). { apply Rle_trans with (M0 * (kap2 / (2 * M0))); [apply Rmult_le_compat_l; lra|]. right. field. lra. }
  assert (Hcos : Rabs (cos (k * s) - 1) <= k ^ 2 * s ^ 2 / 2).
  { replace (k * s) with (2 * (k * s / 2)) by field. rewrite cos_2a_sin. pose proof (abs_sin_le (k * s / 2) ltac:(apply Rcomplements.Rdiv_le_0_compat; [apply Rmult_le_pos; lra|lra])) as Hq.
    replace (1 - 2 * sin (k * s / 2) * sin (k * s / 2) - 1) with (- (2 * sin (k * s / 2) ^ 2)) by ring. rewrite Rabs_Ropp, Rabs_mult, (Rabs_pos_eq 2), <- RPow_abs by lra.
    pose proof (pow_incr _ _ 2 (conj (Rabs_pos _) Hq)). nra. }
  assert (Hk2p : 0 < k ^ 2) by (apply pow_lt; lra).
  set (N := k ^ 2 - k ^ 2 * J k + kap2 * (cos (k * s) - 1)).
  assert (HN : Rabs N <= M0 * k ^ 2).
  { unfold N, M0. eapply Rle_trans; [apply Rabs_triang|]. eapply Rle_trans; [apply Rplus_le_compat_r; unfold Rminus; apply Rabs_triang|].
    rewrite Rabs_Ropp, !Rabs_mult, (Rabs_pos_eq (k ^ 2)), (Rabs_pos_eq kap2) by lra.
    assert (k ^ 2 * Rabs (J k) <= k ^ 2 * B) by (apply Rmult_le_compat_l; lra). assert (kap2 * Rabs (cos (k * s) - 1) <= kap2 * (k ^ 2 * s ^ 2 / 2)) by (apply Rmult_le_compat_l; lra). lra. }
  assert (HD : kap2 / 2 <= kap2 + N) by (apply Rabs_def2_le in HN || pose proof (Rabs_le_between N (M0 * k ^ 2)) as [HN' _]; [idtac..]; try specialize (HN' HN); lra).
  replace (kap2 / k ^ 2 * (1 / (1 - (J k - kap2 * cos (k * s) / k ^ 2))) - 1) with (- N / (kap2 + N)).
  - unfold Rdiv. rewrite Rabs_mult, Rabs_Ropp, (Rabs_pos_eq (/ (kap2 + N))) by (apply Rlt_le, Rinv_0_lt_compat; lra).
    apply Rle_trans with (M0 * k ^ 2 * / (kap2 / 2)); [|right; field; lra].
    apply Rmult_le_compat; [apply Rabs_pos|apply Rlt_le, Rinv_0_lt_compat; lra|assumption|apply Rinv_le_contravar; lra].
  - assert (kap2 + N <> 0) by lra. unfold N in *. field. split; [lra|]. intro E. apply H. rewrite <- E. ring.
Qed.

(** Short waves see single ions. *)
Theorem C139_short_waves (u : consts) (Te Ti ne Z ni lfc s : R) :
  0 < Ti -> Z <> 0 -> 0 < ni -> 0 < s -> PI / 6 * (ni * s ^ 3) < 1 ->
  exists K M, forall k, K <= k -> Rabs (S_ii_CHS_sig u k Te Ti ne Z ni lfc s - 1) <= M / k.
Proof.
  intros HT HZ Hn Hs He. destruct (C_ii_split u Ti Z ni s HT HZ Hn Hs He) as (B & J & HB & HJ & HC). set (kap2 := ni * Z ^ 2 * e_ch u ^ 2 / (eps0 u * kB u * Ti)) in *.
  assert (Hk2 : 0 < kap2). { cpos u. assert (0 < Z ^ 2) by (apply pow2_gt_0; assumption). assert (0 < e_ch u ^ 2) by (apply pow_lt; assumption). unfold kap2. apply Rdiv_lt_0_compat; pos. }
  pose proof PI_RGT_0 as HPI. pose proof PI2_1 as HPI1.
  set (M0 := B / s + kap2 * s). assert (HBs : 0 <= B / s) by (apply Rcomplements.Rdiv_le_0_compat; lra). assert (HKs : 0 < kap2 * s) by (apply Rmult_lt_0_compat; lra). assert (HM0 : 0 < M0) by (unfold M0; lra).
  exists (Rmax (PI / s) (2 * M0)), (2 * M0). intros k Hk. pose proof (Rmax_l (PI / s) (2 * M0)) as K1. pose proof (Rmax_r (PI / s) (2 * M0)) as K2.
  assert (Hks : PI / s <= k) by lra. assert (0 < PI / s) by (apply Rdiv_lt_0_compat; lra). assert (Hkp : 0 < k) by lra.
  destruct (HJ k Hkp) as [_ HJ2]. unfold S_ii_CHS_sig. destruct (Rlt_dec k (PI / s)) as [?|_]; [lra|]. rewrite Rmult_0_l, Rplus_0_r, Rdiv_1. rewrite (HC k Hkp).
  set (c := J k - kap2 * cos (k * s) / k ^ 2).
  assert (Hc : Rabs c <= M0 / k).
  { unfold c, Rminus. eapply Rle_trans; [apply Rabs_triang|]. rewrite Rabs_Ropp.
    assert (Hik : / k <= s). { apply (Rmult_le_reg_r k); [lra|]. rewrite Rinv_l by lra. apply (Rmult_le_compat_l s) in Hks; [|lra]. replace (s * (PI / s)) with PI in Hks by (field; lra). lra. }
    assert (Hip : 0 < / k) by (apply Rinv_0_lt_compat; lra).
    assert (Rabs (kap2 * cos (k * s) / k ^ 2) <= kap2 * s / k).
    { unfold Rdiv. rewrite !Rabs_mult, (Rabs_pos_eq kap2), (Rabs_pos_eq (/ k ^ 2)) by (try lra; apply Rlt_le, Rinv_0_lt_compat, pow_lt; lra).
      replace (/ k ^ 2) with (/ k * / k) by (field; lra). rewrite <- !Rmult_assoc. apply Rmult_le_compat_r; [lra|].
      apply Rle_trans with (kap2 * 1 * / k); [apply Rmult_le_compat_r; [lra|]; apply Rmult_le_compat_l; [lra|]; pose proof (COS_bound (k * s)); apply Rabs_le; lra|]. rewrite Rmult_1_r. apply Rmult_le_compat_l; lra. }
    unfold M0. replace ((B / s + kap2 * s) / k) with (B / (k * s) + kap2 * s / k) by (field; lra). lra. }
  assert (M0 / k <= 1 / 2). { apply (Rmult_le_reg_r k); [lra|]. replace (M0 / k * k) with M0 by (field; lra). lra. }
  assert (Hc2 : c <= 1 / 2) by (pose proof (Rle_abs c); lra).
  replace (1 / (1 - c) - 1) with (c / (1 - c)) by (field; lra). unfold Rdiv at 1. rewrite Rabs_mult, (Rabs_pos_eq (/ (1 - c))) by (apply Rlt_le, Rinv_0_lt_compat; lra).
  replace (2 * M0 / k) with (M0 / k * / (1 / 2)) by (field; lra). apply Rmult_le_compat; [apply Rabs_pos|apply Rlt_le, Rinv_0_lt_compat; lra|assumption|apply Rinv_le_contravar; lra].
Qed.

Lemma sin_below x : 0 <= x -> x - x ^ 3 / 6 <= sin x.
Proof.
  intros Hx. destruct (Rle_dec x 4) as [H4|H4].
  - destruct (pre_sin_bound x 0 Hx H4) as [A _]. unfold sin_approx, sin_term in A. cbn in A. lra.
  - pose proof (SIN_bound x). assert (0 < x * ((x - 4) * (x + 4))) by (apply Rmult_lt_0_compat; [lra|apply Rmult_lt_0_compat; lra]). nra.
Qed.
Lemma sin_near x : 0 <= x -> Rabs (sin x - x) <= x ^ 3 / 6.
Proof.
  intros Hx. pose proof (sin_below x Hx). assert (sin x <= x) by (destruct (Req_dec x 0) as [->|?]; [rewrite sin_0; lra|left; apply sin_lt_x; lra]).
  assert (0 <= x ^ 3) by (apply pow_le; lra). apply Rabs_le. lra.
Qed.
Lemma small_limit (E : R -> R) M : (forall k, 0 < k -> Rabs (E k) <= M * k ^ 2) -> filterlim E (at_right 0) (locally 0).
Proof.
  intros HE P [eps HP]. pose proof (cond_pos eps) as He. assert (HM : 0 <= M) by (pose proof (HE 1 ltac:(lra)); pose proof (Rabs_pos (E 1)); lra).
  assert (Hd : 0 < Rmin 1 (eps / (M + 1))) by (apply Rmin_pos; [lra|apply Rdiv_lt_0_compat; lra]). exists (mkposreal _ Hd). intros k Hb Hk.
  apply HP. change (Rabs (E k - 0) < eps). change (Rabs (k - 0) < Rmin 1 (eps / (M + 1))) in Hb. rewrite Rminus_0_r in *. rewrite Rabs_pos_eq in Hb by lra.
  pose proof (Rmin_l 1 (eps / (M + 1))). pose proof (Rmin_r 1 (eps / (M + 1))). assert (k ^ 2 <= k) by nra.
  assert (Hx : (M + 1) * k < eps). { apply Rlt_le_trans with ((M + 1) * (eps / (M + 1))); [apply Rmult_lt_compat_l; lra|right; field; lra]. }
  eapply Rle_lt_trans; [apply HE; assumption|]. nra.
Qed.
Lemma cont_plus_small (H E : R -> R) M : continuous H 0 -> (forall k, 0 < k -> Rabs (E k) <= M * k ^ 2) -> filterlim (fun k => H k + E k) (at_right 0) (locally (H 0)).
Proof.
  intros HH HE. rewrite <- (Rplus_0_r (H 0)). refine (filterlim_comp_2 H E Rplus _ (small_limit E M HE) _).
  - intros P HP. apply filter_le_within. apply HH. exact HP.
  - apply (filterlim_plus (V := R_NormedModule)).
Qed.
Lemma screened_inverse u k Te Ti Z ni lfc s : 0 < k -> k < PI / s -> 0 < s -> 0 < Te -> 0 < Ti -> 0 < Z -> 0 < ni -> 0 <= lfc < 1 ->
  let kap2 := ni * Z ^ 2 * e_ch u ^ 2 / (eps0 u * kB u * Ti) in
  let kape2 := Z * ni * e_ch u ^ 2 / (eps0 u * kB u * Te) in
  1 - C_ii_CHS u k Ti Z ni s <> 0 ->
  / S_ii_CHS_sig u k Te Ti (Z * ni) Z ni lfc s = 1 - C_ii_CHS u k Ti Z ni s - cos (k * s / 2) ^ 2 * (kape2 / (k ^ 2 + kape2 * (1 - lfc))) * (kap2 / k ^ 2) /\ 0 < kap2 /\ 0 < kape2.
Proof.
  intros Hk Hks Hs HTe HTi HZ Hn Hl kap2 kape2 HC. cpos u. assert (0 < Z ^ 2) by (apply pow_lt; assumption). assert (0 < e_ch u ^ 2) by (apply pow_lt; assumption).
  assert (Hk2 : 0 < kap2) by (unfold kap2; apply Rdiv_lt_0_compat; pos). assert (Hke : 0 < kape2) by (unfold kape2; apply Rdiv_lt_0_compat; pos). split; [|split; assumption].
  unfold S_ii_CHS_sig. destruct (Rlt_dec k (PI / s)) as [_|?]; [|lra]. unfold q_sc, S_ee0, k_D_AD.
  assert (E1 : sqrt (1 * (Z * ni) * e_ch u ^ 2 / (eps0 u * kB u * Te)) ^ 2 = kape2) by (rewrite Rmult_1_l; apply pow2_sqrt; exact (Rlt_le _ _ Hke)).
  assert (E2 : sqrt (Z * (Z * ni) * e_ch u ^ 2 / (eps0 u * kB u * Ti)) ^ 2 = kap2) by (replace (Z * (Z * ni) * e_ch u ^ 2 / (eps0 u * kB u * Ti)) with kap2 by (unfold kap2; field; lra); apply pow2_sqrt; lra).
  set (r1 := sqrt (1 * _ * _ / _)) in *. set (r2 := sqrt (Z * _ * _ / _)) in *. set (c := C_ii_CHS u k Ti Z ni s) in *. set (w := cos (k * s / 2)).
  assert (0 < k ^ 2) by (apply pow_lt; lra). assert (0 < kape2 * (1 - lfc)) by (apply Rmult_lt_0_compat; lra).
  unfold Rdiv at 1. rewrite Rinv_mult, Rinv_inv. replace (/ (1 / (1 - c))) with (1 - c) by (field; assumption).
  replace ((r1 / k) ^ 2) with (r1 ^ 2 / k ^ 2) by (field; lra). replace ((r2 / k) ^ 2) with (r2 ^ 2 / k ^ 2) by (field; lra). rewrite E1, E2. field. repeat split; lra.
Qed.
Lemma screening_nonzero u Ti Z ni s : 0 < Ti -> Z <> 0 -> 0 < ni -> 0 < s -> PI / 6 * (ni * s ^ 3) < 1 -> exists k1, 0 < k1 /\ forall k, 0 < k < k1 -> 1 - C_ii_CHS u k Ti Z ni s <> 0.
Proof.
  intros HT HZ Hn Hs He. destruct (C139_perfect_screening u Ti Z ni s HT HZ Hn Hs He) as (k0 & M & Hk0 & HM).
  assert (HMp : 0 <= M). { pose proof (HM (k0 / 2) ltac:(lra)) as H0. pose proof (Rabs_pos (ni * Z ^ 2 * e_ch u ^ 2 / (eps0 u * kB u * Ti) / (k0 / 2) ^ 2 * (1 / (1 - C_ii_CHS u (k0 / 2) Ti Z ni s)) - 1)). assert (0 < (k0 / 2) ^ 2) by (apply pow_lt; lra).
    destruct (Rle_dec 0 M); [assumption|]. exfalso. assert (M * (k0 / 2) ^ 2 < 0) by nra. lra. }
  exists (Rmin k0 (Rmin 1 (/ (M + 1)))). assert (0 < / (M + 1)) by (apply Rinv_0_lt_compat; lra). split; [apply Rmin_pos; [assumption|apply Rmin_pos; lra]|].
  intros k [Hk Hk1] E. pose proof (Rmin_l k0 (Rmin 1 (/ (M + 1)))). pose proof (Rmin_r k0 (Rmin 1 (/ (M + 1)))). pose proof (Rmin_l 1 (/ (M + 1))). pose proof (Rmin_r 1 (/ (M + 1))).
  pose proof (HM k ltac:(lra)) as H4. rewrite E in H4. unfold Rdiv in H4. rewrite Rinv_0 in H4. rewrite !Rmult_0_r, Rminus_0_l, Rabs_Ropp, Rabs_R1 in H4.
  assert (k ^ 2 <= k) by nra. assert ((M + 1) * k < 1) by (replace 1 with ((M + 1) * / (M + 1)) at 2 by (field; lra); apply Rmult_lt_compat_l; lra). nra.
Qed.

(** Without a local field correction long waves are screened: the structure
    factor has the limit of the compressibility. *)
Theorem C139_long_waves (u : consts) (Te Ti Z ni s : R) :
  0 < Te -> 0 < Ti -> 0 < Z -> 0 < ni -> 0 < s -> PI / 6 * (ni * s ^ 3) < 1 ->
  let l := Z ^ 2 * e_ch u ^ 2 / (4 * PI * eps0 u * kB u * Ti) in
  exists c0 c1 c2 c3 c5 J,
    let c r := c0 + c1 * (r / s) + c2 * (r / s) ^ 2 + c3 * (r / s) ^ 3 + c5 * (r / s) ^ 5 in
    (forall k, 0 < k -> exists I, is_RInt (fun r => c r * (r * sin (k * r) / k)) 0 s I /\
        C_ii_CHS u k Ti Z ni s = 4 * PI * ni * (I - l * cos (k * s) / k ^ 2)) /\
    is_RInt (fun r => c r * r ^ 2) 0 s J /\
    filterlim (fun k => / S_ii_CHS_sig u k Te Ti (Z * ni) Z ni 0 s) (at_right 0)
      (locally (1 + Z * Te / Ti - 4 * PI * ni * J - PI * ni * l * s ^ 2)).
Proof.
  intros HTe HT HZ Hn Hs He l. assert (HZ0 : Z <> 0) by lra.
  destruct (C139_mean_spherical u Ti Z ni s HT HZ0 Hn Hs He) as (c0 & c1 & c2 & c3 & c5 & HCC). cbv zeta in HCC. destruct HCC as (_ & _ & HI). fold l in HI.
  set (c := fun r => c0 + c1 * (r / s) + c2 * (r / s) ^ 2 + c3 * (r / s) ^ 3 + c5 * (r / s) ^ 5) in *.
  assert (HJ : exists J, is_RInt (fun r => c r * r ^ 2) 0 s J).
  { apply (ex_RInt_continuous (V := R_CompleteNormedModule)). intros r _. apply (ex_derive_continuous (V := R_NormedModule)). unfold c. auto_derive. trivial. }
  destruct HJ as [J HJ]. exists c0, c1, c2, c3, c5, J. fold c. intros c'. change c' with c. split; [exact HI|]. split; [exact HJ|].
  set (B := Rabs c0 + Rabs c1 + Rabs c2 + Rabs c3 + Rabs c5).
  assert (HB : forall r, 0 <= r <= s -> Rabs (c r) <= B).
  { intros r Hr. apply (cpoly_bound c0 c1 c2 c3 c5 (r / s)). split; [apply Rcomplements.Rdiv_le_0_compat; lra|apply (Rmult_le_reg_r s); [lra|unfold Rdiv; rewrite Rmult_assoc, Rinv_l; lra]]. }
  assert (HB0 : 0 <= B) by (eapply Rle_trans; [apply Rabs_pos|apply (HB 0); lra]).
  set (If := fun k => RInt (fun r => c r * (r * sin (k * r) / k)) 0 s).
  assert (HIk : forall k, 0 < k -> Rabs (If k - J) <= B * s ^ 5 / 6 * k ^ 2 /\ C_ii_CHS u k Ti Z ni s = 4 * PI * ni * (If k - l * cos (k * s) / k ^ 2)).
  { intros k Hk. destruct (HI k Hk) as (I & HI1 & HI2). assert (EI : If k = I) by (apply is_RInt_unique; exact HI1). rewrite EI. split; [|exact HI2].
    pose proof (is_RInt_minus _ _ _ _ _ _ HI1 HJ) as HM. replace (B * s ^ 5 / 6 * k ^ 2) with ((s - 0) * (B * (s ^ 4 * k ^ 2 / 6))) by field.
    refine (norm_RInt_le_const _ _ _ _ _ (Rlt_le _ _ Hs) _ HM). intros r Hr. change (Rabs (c r * (r * sin (k * r) / k) - c r * r ^ 2) <= B * (s ^ 4 * k ^ 2 / 6)).
    replace (c r * (r * sin (k * r) / k) - c r * r ^ 2) with (c r * (r / k * (sin (k * r) - k * r))) by (field; lra). rewrite Rabs_mult.
    apply Rmult_le_compat; [apply Rabs_pos|apply Rabs_pos|apply HB; lra|]. rewrite Rabs_mult. assert (0 <= r / k) by (apply Rcomplements.Rdiv_le_0_compat; lra). rewrite (Rabs_pos_eq (r / k)) by assumption.
    eapply Rle_trans; [apply Rmult_le_compat_l; [assumption|apply sin_near; apply Rmult_le_pos; lra]|].
    replace (r / k * ((k * r) ^ 3 / 6)) with (r ^ 4 * k ^ 2 / 6) by (field; lra). assert (r ^ 4 <= s ^ 4) by (apply pow_incr; lra). assert (0 <= k ^ 2) by apply pow2_ge_0. apply Rmult_le_compat_r; [lra|]. apply Rmult_le_compat_r; assumption. }
  clear HI HJ HB. set (kap2 := ni * Z ^ 2 * e_ch u ^ 2 / (eps0 u * kB u * Ti)). set (kape2 := Z * ni * e_ch u ^ 2 / (eps0 u * kB u * Te)).
  pose proof PI_RGT_0 as HPI. assert (Hpos : 0 < kap2 /\ 0 < kape2 /\ kap2 / kape2 = Z * Te / Ti /\ 4 * PI * ni * l = kap2).
  { cpos u. assert (0 < Z ^ 2) by (apply pow_lt; assumption). assert (0 < e_ch u ^ 2) by (apply pow_lt; assumption). unfold kap2, kape2, l.
    repeat split; [apply Rdiv_lt_0_compat; pos|apply Rdiv_lt_0_compat; pos|field; repeat split; lra|field; repeat split; lra]. }
  destruct Hpos as (Hk2 & Hke & Er & El).
  destruct (screening_nonzero u Ti Z ni s HT HZ0 Hn Hs He) as (k1 & Hk1 & HN).
  set (H := fun k => 1 - 4 * PI * ni * J + kap2 / (k ^ 2 + kape2) - kap2 * s ^ 2 / 4 * (2 - kape2 / (k ^ 2 + kape2))).
  set (E := fun k => - (4 * PI * ni) * (If k - J) - kap2 * ((sin (k * s / 2) / k) ^ 2 - s ^ 2 / 4) * (2 - kape2 / (k ^ 2 + kape2))).
  replace (1 + Z * Te / Ti - 4 * PI * ni * J - PI * ni * l * s ^ 2) with (H 0) by (unfold H; rewrite <- Er; replace (PI * ni * l * s ^ 2) with (4 * PI * ni * l * (s ^ 2 / 4)) by field; rewrite El; field; lra).
  apply (filterlim_ext_loc (fun k => H k + E k)).
  { assert (Hd : 0 < Rmin k1 (PI / s)) by (apply Rmin_pos; [lra|apply Rdiv_lt_0_compat; lra]). exists (mkposreal _ Hd). intros k Hb Hk. change (Rabs (k - 0) < Rmin k1 (PI / s)) in Hb. rewrite Rminus_0_r, Rabs_pos_eq in Hb by lra.
    pose proof (Rmin_l k1 (PI / s)). pose proof (Rmin_r k1 (PI / s)). destruct (HIk k Hk) as [_ EC].
    destruct (screened_inverse u k Te Ti Z ni 0 s) as [EQ _]; try assumption; try lra; [apply HN; lra|]. rewrite EQ. fold kap2 kape2. rewrite EC.
    unfold H, E. replace (cos (k * s)) with (1 - 2 * sin (k * s / 2) ^ 2) by (replace (k * s) with (2 * (k * s / 2)) at 2 by field; rewrite cos_2a_sin; ring).
    replace (cos (k * s / 2) ^ 2) with (1 - sin (k * s / 2) ^ 2) by (pose proof (sin2_cos2 (k * s / 2)) as SC; unfold Rsqr in SC; lra). rewrite <- El.
    assert (0 < k ^ 2) by (apply pow_lt; lra). field. split; lra. }
  apply (cont_plus_small H E (4 * PI * ni * (B * s ^ 5 / 6) + kap2 * (s ^ 4 / 48) * 2)).
  { unfold H. apply (ex_derive_continuous (V := R_NormedModule)). auto_derive. repeat split; lra. }
  intros k Hk. destruct (HIk k Hk) as [HE1 _]. unfold E. eapply Rle_trans; [unfold Rminus at 1; apply Rabs_triang|]. rewrite Rabs_Ropp, Rmult_plus_distr_r.
  assert (0 <= 4 * PI * ni) by (apply Rmult_le_pos; lra). apply Rplus_le_compat.
  - rewrite Rabs_mult, Rabs_Ropp, Rabs_pos_eq by assumption. rewrite (Rmult_assoc (4 * PI * ni)). apply Rmult_le_compat_l; assumption.
  - rewrite !Rabs_mult, (Rabs_pos_eq kap2) by lra. assert (Hkk : 0 < k ^ 2) by (apply pow_lt; lra).
    assert (H2 : Rabs (2 - kape2 / (k ^ 2 + kape2)) <= 2).
    { assert (0 <= kape2 / (k ^ 2 + kape2) <= 1) by (split; [apply Rcomplements.Rdiv_le_0_compat; lra|apply (Rmult_le_reg_r (k ^ 2 + kape2)); [lra|unfold Rdiv; rewrite Rmult_assoc, Rinv_l; lra]]). apply Rabs_le. lra. }
    assert (H3 : Rabs ((sin (k * s / 2) / k) ^ 2 - s ^ 2 / 4) <= s ^ 4 / 48 * k ^ 2).
    { set (y := k * s / 2). assert (Hy : 0 <= y) by (unfold y; apply Rcomplements.Rdiv_le_0_compat; [apply Rmult_le_pos; lra|lra]).
      replace ((sin y / k) ^ 2 - s ^ 2 / 4) with (((sin y - y) * (sin y + y)) / k ^ 2) by (unfold y; field; lra).
      unfold Rdiv at 1. rewrite !Rabs_mult, (Rabs_pos_eq (/ k ^ 2)) by (apply Rlt_le, Rinv_0_lt_compat; lra).
      replace (s ^ 4 / 48 * k ^ 2) with (y ^ 3 / 6 * (2 * y) * / k ^ 2) by (unfold y; field; lra). apply Rmult_le_compat_r; [apply Rlt_le, Rinv_0_lt_compat; lra|].
      apply Rmult_le_compat; [apply Rabs_pos|apply Rabs_pos|apply sin_near; assumption|]. eapply Rle_trans; [apply Rabs_triang|]. pose proof (abs_sin_le y Hy). rewrite (Rabs_pos_eq y) by assumption. lra. }
    apply Rle_trans with (kap2 * (s ^ 4 / 48 * k ^ 2) * 2); [|right; ring]. apply Rmult_le_compat; [apply Rmult_le_pos; [lra|apply Rabs_pos]|apply Rabs_pos| |assumption]. apply Rmult_le_compat_l; lra.
Qed.

(** The electrons screen up to the first zero of the form factor of the sphere,
    and no further. *)
Theorem C139_truncation (u : consts) (k Te Ti Z ni lfc s : R) :
  0 < k -> 0 < Te -> 0 < Ti -> 0 < Z -> 0 < ni -> 0 < s -> 0 <= lfc < 1 -> C_ii_CHS u k Ti Z ni s < 1 ->
  (k * s < PI -> / S_ii_CHS_sig u k Te Ti (Z * ni) Z ni lfc s < 1 - C_ii_CHS u k Ti Z ni s) /\
  (PI <= k * s -> / S_ii_CHS_sig u k Te Ti (Z * ni) Z ni lfc s = 1 - C_ii_CHS u k Ti Z ni s).
Proof.
  intros Hk HTe HT HZ Hn Hs Hl HC. assert (E : PI / s * s = PI) by (field; lra). split; intros Hks.
  - assert (k < PI / s) by (apply (Rmult_lt_reg_r s); lra).
    destruct (screened_inverse u k Te Ti Z ni lfc s) as (EQ & Hk2 & Hke); try assumption; try lra. rewrite EQ.
    assert (0 < cos (k * s / 2)) by (assert (0 < k * s) by (apply Rmult_lt_0_compat; lra); apply cos_gt_0; lra).
    assert (0 < k ^ 2) by (apply pow_lt; lra).
    match goal with |- _ - ?a * ?b * ?c < _ => assert (0 < a * b * c); [|lra] end.
    apply Rmult_lt_0_compat; [apply Rmult_lt_0_compat; [apply pow_lt; lra|]|apply Rdiv_lt_0_compat; assumption].
    apply Rdiv_lt_0_compat; [assumption|]. match goal with |- 0 < _ + ?w => assert (0 < w) by (apply Rmult_lt_0_compat; lra); lra end.
  - assert (PI / s <= k) by (apply (Rmult_le_reg_r s); lra). unfold S_ii_CHS_sig. destruct (Rlt_dec k (PI / s)) as [?|_]; [lra|]. rewrite Rmult_0_l, Rplus_0_r, Rdiv_1.
    field. lra.
Qed.

(** With a constant local field correction between 0 and 1 the screened
    structure factor of long waves is negative, though no structure factor can be. *)
Theorem C139_negative_refuted (u : consts) (Te Ti Z ni lfc s : R) :
  0 < Te -> 0 < Ti -> 0 < Z -> 0 < ni -> 0 < s -> PI / 6 * (ni * s ^ 3) < 1 -> 0 < lfc < 1 ->
  exists k0, 0 < k0 /\ forall k, 0 < k < k0 -> S_ii_CHS_sig u k Te Ti (Z * ni) Z ni lfc s < 0.
Proof.
  intros HTe HT HZ Hn Hs He Hl. assert (HZ0 : Z <> 0) by lra. destruct (C_ii_split u Ti Z ni s HT HZ0 Hn Hs He) as (B & J & HB & HJ & HC).
  set (kap2 := ni * Z ^ 2 * e_ch u ^ 2 / (eps0 u * kB u * Ti)) in *. set (kape2 := Z * ni * e_ch u ^ 2 / (eps0 u * kB u * Te)).
  destruct (screening_nonzero u Ti Z ni s HT HZ0 Hn Hs He) as (k1 & Hk1 & HN). pose proof PI_RGT_0 as HPI.
  assert (Hps : 0 < PI / s) by (apply Rdiv_lt_0_compat; lra).
  assert (Hpos : 0 < kap2 /\ 0 < kape2). { set (kk := Rmin k1 (PI / s) / 2). pose proof (Rmin_l k1 (PI / s)). pose proof (Rmin_r k1 (PI / s)). assert (0 < Rmin k1 (PI / s)) by (apply Rmin_pos; assumption).
    destruct (screened_inverse u kk Te Ti Z ni lfc s) as [_ [? ?]]; unfold kk in *; try assumption; try lra; [apply HN; lra|]. split; assumption. }
  destruct Hpos as [Hk2 Hke].
  set (H := fun k => k ^ 2 + kap2 * cos (k * s) - cos (k * s / 2) ^ 2 * (kape2 / (k ^ 2 + kape2 * (1 - lfc))) * kap2).
  assert (Hle : 0 < kape2 * (1 - lfc)) by (apply Rmult_lt_0_compat; lra).
  assert (HH : filterlim (fun k => H k + (- (k ^ 2 * J k))) (at_right 0) (locally (H 0))).
  { apply (cont_plus_small H _ B).
    - unfold H. apply (ex_derive_continuous (V := R_NormedModule)). auto_derive. repeat split; lra.
    - intros k Hk. destruct (HJ k Hk) as [HJ1 _]. assert (0 <= k ^ 2) by apply pow2_ge_0. rewrite Rabs_Ropp, Rabs_mult, Rabs_pos_eq by assumption. rewrite Rmult_comm. apply Rmult_le_compat_r; assumption. }
  assert (H0 : H 0 < 0).
  { unfold H. replace (0 * s) with 0 by ring. replace (0 / 2) with 0 by field. rewrite cos_0. replace (0 ^ 2 + kap2 * 1 - 1 ^ 2 * (kape2 / (0 ^ 2 + kape2 * (1 - lfc))) * kap2) with (- (kap2 * lfc / (1 - lfc))) by (field; lra).
    assert (0 < kap2 * lfc / (1 - lfc)) by (apply Rdiv_lt_0_compat; [apply Rmult_lt_0_compat; lra|lra]). lra. }
  destruct (HH (fun y => y < 0)) as [d Hd]. { apply (open_lt 0). exact H0. }
  pose proof (cond_pos d) as Hdp. exists (Rmin d (Rmin k1 (PI / s))). split; [apply Rmin_pos; [assumption|apply Rmin_pos; assumption]|].
  intros k [Hk Hkm]. pose proof (Rmin_l d (Rmin k1 (PI / s))). pose proof (Rmin_r d (Rmin k1 (PI / s))). pose proof (Rmin_l k1 (PI / s)). pose proof (Rmin_r k1 (PI / s)).
  assert (Hneg : H k + - (k ^ 2 * J k) < 0). { apply (Hd k); [|assumption]. change (Rabs (k - 0) < d). rewrite Rminus_0_r, Rabs_pos_eq; lra. }
  destruct (screened_inverse u k Te Ti Z ni lfc s) as [EQ _]; try assumption; try lra; [apply HN; lra|]. fold kap2 kape2 in EQ. rewrite (HC k Hk) in EQ.
  assert (0 < k ^ 2) by (apply pow_lt; lra).
  assert (HI : / S_ii_CHS_sig u k Te Ti (Z * ni) Z ni lfc s < 0).
  { rewrite EQ. apply (Rmult_lt_reg_l (k ^ 2)); [assumption|]. rewrite Rmult_0_r. eapply Rle_lt_trans; [|exact Hneg]. right. unfold H. field. split; lra. }
  rewrite <- (Rinv_inv (S_ii_CHS_sig u k Te Ti (Z * ni) Z ni lfc s)). apply Rinv_lt_0_compat. exact HI.
Qed.

(** ** The diameter *)
Lemma not_pole (m : Z) (i : nat) : / 1000 + 2099 / 1000 * (IZR m / 2 ^ i) <> 2.
Proof.
  intros E. assert (H2 : (2 ^ i : R) <> 0) by (apply pow_nonzero; lra).
  assert (E1 : 2099 * IZR m = 1999 * 2 ^ i). { apply (f_equal (fun t => t * 1000 * 2 ^ i)) in E. replace ((/ 1000 + 2099 / 1000 * (IZR m / 2 ^ i)) * 1000 * 2 ^ i) with (2 ^ i + 2099 * IZR m) in E by (field; assumption). lra. }
  rewrite pow_IZR, <- !mult_IZR in E1. apply eq_IZR in E1.
  assert (HR : rel_prime 2099 (2 ^ Z.of_nat i)). { apply Zpow_facts.rel_prime_Zpower_r; [lia|]. apply bezout_rel_prime. apply (Bezout_intro 2099 2 1 1 (-1049)). reflexivity. }
  assert (HD : (2099 | 2 ^ Z.of_nat i * 1999)%Z) by (exists m; lia). apply (Gauss _ _ _ HD) in HR. apply Z.divide_pos_le in HR; lia.
Qed.

Lemma Rsqr_pow2' x : x ^ 2 = x * x. Proof. ring. Qed.
Section Diameter.
  Variable u : consts.
  Variables (ni Z T : R).
  Hypotheses (Hn : 0 < ni) (HZ : 0 < Z) (HT : 0 < T).
  Definition wsr : R := Rpower (3 / (4 * PI * ni)) (1 / 3).
  Lemma wsr_pos : 0 < wsr. Proof. apply exp_pos. Qed.
  Lemma wsr_cube : wsr ^ 3 = 3 / (4 * PI * ni).
  Proof. pose proof PI_RGT_0. assert (0 < 3 / (4 * PI * ni)) by (apply Rdiv_lt_0_compat; [lra|apply Rmult_lt_0_compat; lra]).
    unfold wsr. rewrite <- Rpower_pow by apply exp_pos. rewrite Rpower_mult. replace (1 / 3 * INR 3) with 1 by (cbn; field). now apply Rpower_1. Qed.
  Lemma eta_tau t : G07eta ni (wsr * t) = t ^ 3 / 8.
  Proof. pose proof PI_RGT_0. unfold G07eta. rewrite Rpow_mult_distr, wsr_cube. field. lra. Qed.
  Lemma eta_wsr s : G07eta ni s = (s / wsr) ^ 3 / 8.
  Proof. pose proof wsr_pos. rewrite <- eta_tau. f_equal. field. lra. Qed.

  (** h1 without its pole *)
  Definition g1 (s : R) : R := let e := G07eta ni s in let x := G07chi u ni Z T s in
    ((1 + 2 * e) * (1 - sqrt (1 + (2 * (1 - e) ^ 3 * x) / ((1 + 2 * e) ^ 2)))) ^ 2 - 24 * e * (1 + e / 2).
  Lemma g1_h1 s : 0 < s -> G07eta ni s <> 1 -> g1 s = 24 * G07eta ni s * (1 - G07eta ni s) ^ 2 * G07h1 u ni Z T s.
  Proof. intros Hs He. pose proof (eta_pos ni s Hn Hs). unfold g1, G07h1, G07h0. set (w := sqrt _). field. split; lra. Qed.
  Lemma g1_sign s : 0 < s -> G07eta ni s <> 1 -> sign (g1 s) = sign (G07h1 u ni Z T s).
  Proof. intros Hs He. rewrite (g1_h1 s Hs He). pose proof (eta_pos ni s Hn Hs). assert (0 < (1 - G07eta ni s) ^ 2) by (apply pow2_gt_0; lra).
    set (f := 24 * G07eta ni s * (1 - G07eta ni s) ^ 2). assert (0 < f) by (unfold f; apply Rmult_lt_0_compat; lra).
    destruct (sign_cases (G07h1 u ni Z T s)) as [[A ->]|[[A ->]|[A ->]]]; destruct (sign_cases (f * G07h1 u ni Z T s)) as [[B ->]|[[B ->]|[B ->]]]; try reflexivity; exfalso; nra. Qed.
  Lemma g1_neg s : 0 < s -> 1 <= G07eta ni s -> g1 s < 0.
  Proof.
    intros Hs He. unfold g1. set (e := G07eta ni s) in *. assert (HX : 0 <= G07chi u ni Z T s) by apply sqrt_pos. set (x := G07chi u ni Z T s) in *.
    assert (Hw : 0 <= sqrt (1 + 2 * (1 - e) ^ 3 * x / (1 + 2 * e) ^ 2) <= 1).
    { split; [apply sqrt_pos|]. apply Rle_trans with (sqrt 1); [|rewrite sqrt_1; lra]. apply sqrt_le_1_alt. assert (0 < / (1 + 2 * e) ^ 2) by (apply Rinv_0_lt_compat, pow_lt; lra).
      assert (0 <= (e - 1) ^ 3) by (apply pow_le; lra). assert (0 <= (e - 1) ^ 3 * x * / (1 + 2 * e) ^ 2) by (apply Rmult_le_pos; [apply Rmult_le_pos; lra|lra]).
      unfold Rdiv. replace (2 * (1 - e) ^ 3 * x * / (1 + 2 * e) ^ 2) with (- (2 * ((e - 1) ^ 3 * x * / (1 + 2 * e) ^ 2))) by ring. lra. }
    set (w := sqrt _) in *. assert (((1 + 2 * e) * (1 - w)) ^ 2 <= (1 + 2 * e) ^ 2) by (apply pow_incr; split; [apply Rmult_le_pos; lra|rewrite <- (Rmult_1_r (1 + 2 * e)) at 2; apply Rmult_le_compat_l; lra]). nra.
  Qed.
  Lemma h1_neg s : 0 < s -> 1 < G07eta ni s -> G07h1 u ni Z T s < 0.
  Proof. intros Hs He. pose proof (g1_neg s Hs ltac:(lra)) as G. rewrite g1_h1 in G by lra. assert (0 < (1 - G07eta ni s) ^ 2) by (apply pow2_gt_0; lra).
    assert (0 < 24 * G07eta ni s * (1 - G07eta ni s) ^ 2) by (apply Rmult_lt_0_compat; lra). nra. Qed.
  Lemma g1_cont s : 0 < s -> continuity_pt g1 s.
  Proof.
    intros Hs. apply continuity_pt_filterlim. change (continuous g1 s).
    pose proof (landau_pos u Z T ltac:(lra) HT) as Hl. set (c := PI / 6 * ni). assert (Hc : 0 < c) by (unfold c; pose proof PI_RGT_0; apply Rmult_lt_0_compat; lra).
    assert (Hs2 : 0 < s ^ 2) by (apply pow_lt; lra). assert (Hcs : 0 < c * s ^ 3) by (apply Rmult_lt_0_compat; [lra|apply pow_lt; lra]).
    assert (HA : 0 < 24 * c * landau u Z T) by (apply Rmult_lt_0_compat; lra).
    set (phi := fun r => 1 + 2 * (1 - c * r ^ 3) ^ 3 * sqrt (24 * c * landau u Z T * r ^ 2) / (1 + 2 * (c * r ^ 3)) ^ 2).
    apply (continuous_ext_loc _ (fun r => ((1 + 2 * (c * r ^ 3)) * (1 - sqrt (phi r))) ^ 2 - 24 * (c * r ^ 3) * (1 + (c * r ^ 3) / 2))).
    { exists (mkposreal s Hs). intros r Hr. change (Rabs (r - s) < s) in Hr. apply Rabs_def2 in Hr. assert (0 < r) by lra. unfold g1, phi, G07chi. rewrite gamma_landau by lra.
      assert (E : G07eta ni r = c * r ^ 3) by (unfold G07eta, c; ring). rewrite E. replace (24 * (c * r ^ 3) * (landau u Z T / r)) with (24 * c * landau u Z T * r ^ 2) by (field; lra). reflexivity. }
    assert (Cphi : continuous (fun r => sqrt (phi r)) s).
    { apply (continuous_comp phi sqrt); [|apply continuous_sqrt]. apply (ex_derive_continuous (V := R_NormedModule)). unfold phi. auto_derive.
      split; [pose proof (Rmult_lt_0_compat _ _ HA Hs2); lra|]. split; [|trivial]. apply Rgt_not_eq. pose proof (pow_lt (1 + 2 * (c * s ^ 3)) 2 ltac:(lra)). lra. }
    assert (C1 : continuous (fun r => 1 + 2 * (c * r ^ 3)) s) by (apply (ex_derive_continuous (V := R_NormedModule)); auto_derive; trivial).
    assert (C2 : continuous (fun r => 24 * (c * r ^ 3) * (1 + (c * r ^ 3) / 2)) s) by (apply (ex_derive_continuous (V := R_NormedModule)); auto_derive; trivial).
    assert (C3 : continuous (fun r => (1 + 2 * (c * r ^ 3)) * (1 - sqrt (phi r))) s).
    { apply (continuous_mult (K := R_AbsRing)); [exact C1|]. apply (continuous_minus (V := R_NormedModule)); [apply continuous_const|exact Cphi]. }
    apply (continuous_minus (V := R_NormedModule)); [|exact C2].
    apply (continuous_ext (fun r => (1 + 2 * (c * r ^ 3)) * (1 - sqrt (phi r)) * ((1 + 2 * (c * r ^ 3)) * (1 - sqrt (phi r))))); [intros r; symmetry; apply (Rsqr_pow2' _)|]. apply (continuous_mult (K := R_AbsRing)); exact C3.
  Qed.
End Diameter.

Lemma h0_size u ni Z T s : 0 < ni -> Z <> 0 -> 0 < T -> 0 < s -> G07eta ni s < 1 ->
  G07h0 u ni Z T s <= 0 /\ - G07h0 u ni Z T s <= G07chi u ni Z T s.
Proof.
  intros Hn HZ HT Hs He. pose proof (eta_pos ni s Hn Hs) as Hp. destruct (chi_sq u ni Z T s Hn HZ HT Hs) as [_ Hc].
  pose proof (h0_quadratic u ni Z T s Hn Hs (Rlt_le _ _ Hc) He) as Hq.
  assert (H0 : G07h0 u ni Z T s <= 0).
  { unfold G07h0. set (e := G07eta ni s) in *. set (x := G07chi u ni Z T s) in *.
    assert (Ha : 0 < (1 + 2 * e) / (1 - e)) by (apply Rdiv_lt_0_compat; lra).
    assert (Hw : 1 <= sqrt (1 + 2 * (1 - e) ^ 3 * x / (1 + 2 * e) ^ 2)).
    { rewrite <- sqrt_1 at 1. apply sqrt_le_1_alt. assert (0 <= (1 - e) ^ 3) by (apply pow_le; lra). assert (0 < (1 + 2 * e) ^ 2) by (apply pow_lt; lra).
      assert (0 <= 2 * (1 - e) ^ 3 * x) by (apply Rmult_le_pos; lra). assert (0 <= 2 * (1 - e) ^ 3 * x / (1 + 2 * e) ^ 2) by (apply Rcomplements.Rdiv_le_0_compat; assumption). lra. }
    set (w := sqrt _) in *. nra. }
  split; [assumption|]. set (e := G07eta ni s) in *. set (x := G07chi u ni Z T s) in *. set (h := G07h0 u ni Z T s) in *.
  assert (Ha : 1 <= (1 + 2 * e) / (1 - e)). { apply (Rmult_le_reg_r (1 - e)); [lra|]. unfold Rdiv. rewrite Rmult_assoc, Rinv_l; lra. }
  set (a := (1 + 2 * e) / (1 - e)) in *. destruct (Rle_dec (- h) x) as [?|N]; [assumption|exfalso].
  assert (0 < - h - x) by lra. assert (x * 1 <= - h * a) by (apply Rmult_le_compat; lra).
  assert (0 <= e * x) by (apply Rmult_le_pos; lra). assert (0 < h ^ 2) by (apply pow2_gt_0; lra). nra.
Qed.

(** where the equation of the diameter has no solution *)
Lemma weak_h1 u ni Z T s : 0 < ni -> 0 < Z -> 0 < T -> landau u Z T <= wsr ni / 2000 -> wsr ni / 1000 <= s <= 21 / 10 * wsr ni -> G07eta ni s <> 1 -> G07h1 u ni Z T s <= - (1 / 2).
Proof.
  intros Hn HZ HT Hl Hs He. pose proof (wsr_pos ni) as Hw. assert (Hsp : 0 < s) by lra. assert (HZ0 : Z <> 0) by lra. pose proof (eta_pos ni s Hn Hsp) as Hp.
  destruct (Rlt_dec (G07eta ni s) 1) as [H1|H1].
  - destruct (h0_size u ni Z T s Hn HZ0 HT Hsp H1) as [A B]. destruct (chi_sq u ni Z T s Hn HZ0 HT Hsp) as [C D].
    assert (E1 : G07h0 u ni Z T s ^ 2 <= 24 * G07eta ni s * (landau u Z T / s)) by (rewrite <- C; nra).
    assert (E2 : landau u Z T / s <= 1 / 2). { apply (Rmult_le_reg_r s); [lra|]. unfold Rdiv at 1. rewrite Rmult_assoc, Rinv_l by lra. lra. }
    unfold G07h1. set (e := G07eta ni s) in *. assert (E3 : G07h0 u ni Z T s ^ 2 / (24 * e) <= 1 / 2).
    { apply (Rmult_le_reg_r (24 * e)); [lra|]. unfold Rdiv at 1. rewrite Rmult_assoc, Rinv_l by lra. assert (24 * e * (landau u Z T / s) <= 24 * e * (1 / 2)) by (apply Rmult_le_compat_l; lra). lra. }
    assert (E4 : 1 <= (1 + e / 2) / (1 - e) ^ 2). { assert (0 < (1 - e) ^ 2) by (apply pow_lt; lra). apply (Rmult_le_reg_r ((1 - e) ^ 2)); [assumption|]. unfold Rdiv at 1. rewrite Rmult_assoc, Rinv_l by lra. nra. }
    lra.
  - assert (He1 : 1 < G07eta ni s) by lra. assert (He2 : G07eta ni s <= 116 / 100).
    { rewrite (eta_wsr ni Hn s). assert (0 <= s / wsr ni <= 21 / 10). { split; [apply Rcomplements.Rdiv_le_0_compat; lra|]. apply (Rmult_le_reg_r (wsr ni)); [lra|]. unfold Rdiv at 1. rewrite Rmult_assoc, Rinv_l by lra. lra. }
      pose proof (pow_incr _ _ 3 H). lra. }
    pose proof (g1_h1 u ni Z T Hn s Hsp He) as G.
    assert (Gn : g1 u ni Z T s <= - 27).
    { unfold g1. set (e := G07eta ni s) in *. assert (HX : 0 <= G07chi u ni Z T s) by apply sqrt_pos. set (x := G07chi u ni Z T s) in *.
      assert (Hww : 0 <= sqrt (1 + 2 * (1 - e) ^ 3 * x / (1 + 2 * e) ^ 2) <= 1).
      { split; [apply sqrt_pos|]. apply Rle_trans with (sqrt 1); [|rewrite sqrt_1; lra]. apply sqrt_le_1_alt. assert (0 < / (1 + 2 * e) ^ 2) by (apply Rinv_0_lt_compat, pow_lt; lra).
        assert (0 <= (e - 1) ^ 3) by (apply pow_le; lra). assert (0 <= (e - 1) ^ 3 * x * / (1 + 2 * e) ^ 2) by (apply Rmult_le_pos; [apply Rmult_le_pos; lra|lra]).
        unfold Rdiv. replace (2 * (1 - e) ^ 3 * x * / (1 + 2 * e) ^ 2) with (- (2 * ((e - 1) ^ 3 * x * / (1 + 2 * e) ^ 2))) by ring. lra. }
      set (w := sqrt _) in *. assert (((1 + 2 * e) * (1 - w)) ^ 2 <= (1 + 2 * e) ^ 2) by (apply pow_incr; split; [apply Rmult_le_pos; lra|rewrite <- (Rmult_1_r (1 + 2 * e)) at 2; apply Rmult_le_compat_l; lra]). nra. }
    set (e := G07eta ni s) in *. set (h := G07h1 u ni Z T s) in *. destruct (Rle_dec h (- (1 / 2))) as [?|N]; [assumption|exfalso].
    assert (0 < (1 - e) ^ 2) by (apply pow2_gt_0; lra). assert ((1 - e) ^ 2 <= 1) by nra. assert (0 < 24 * e * (1 - e) ^ 2 <= 28) by nra. nra.
Qed.

(** where it has one *)
Lemma strong_h1 u ni Z T : 0 < ni -> 0 < Z -> 0 < T -> wsr ni / 500 <= landau u Z T <= 100000 * wsr ni -> 0 < G07h1 u ni Z T (wsr ni / 1000).
Proof.
  intros Hn HZ HT Hl. pose proof (wsr_pos ni) as Hw. assert (Hsp : 0 < wsr ni / 1000) by lra. assert (HZ0 : Z <> 0) by lra.
  assert (He : G07eta ni (wsr ni / 1000) = / 8000000000). { rewrite (eta_wsr ni Hn). replace (wsr ni / 1000 / wsr ni) with (/ 1000) by (field; lra). field. }
  assert (H1 : G07eta ni (wsr ni / 1000) < 1) by (rewrite He; lra).
  destruct (h0_size u ni Z T _ Hn HZ0 HT Hsp H1) as [A B]. destruct (chi_sq u ni Z T _ Hn HZ0 HT Hsp) as [C D].
  pose proof (h0_quadratic u ni Z T _ Hn Hsp (Rlt_le _ _ D) H1) as Q. unfold G07h1. rewrite He in *.
  replace (landau u Z T / (wsr ni / 1000)) with (1000 * (landau u Z T / wsr ni)) in C by (field; lra).
  assert (HG : / 500 <= landau u Z T / wsr ni <= 100000). { split; apply (Rmult_le_reg_r (wsr ni)); try lra; unfold Rdiv; rewrite Rmult_assoc, Rinv_l by lra; lra. }
  set (x := G07chi u ni Z T (wsr ni / 1000)) in *. set (h := G07h0 u ni Z T (wsr ni / 1000)) in *. set (G := landau u Z T / wsr ni) in *.
  assert (Hx1 : x <= 55 / 100). { destruct (Rle_dec x (55 / 100)) as [?|N]; [assumption|exfalso]. assert ((55 / 100) ^ 2 < x ^ 2) by nra. lra. }
  set (a := (1 + 2 * / 8000000000) / (1 - / 8000000000)) in *. assert (Ha : 1 <= a <= 1001 / 1000) by (unfold a; lra).
  assert (Hd : 76 / 100 * x <= - h). { destruct (Rle_dec (76 / 100 * x) (- h)) as [?|N]; [assumption|exfalso]. assert (- h * (- h + 2 * a) = 2 * (1 - / 8000000000) * x) by (ring_simplify; ring_simplify in Q; lra).
    assert (- h * (- h + 2 * a) <= 76 / 100 * x * (255 / 100 + 2 / 1000)) by (apply Rmult_le_compat; lra). lra. }
  assert (h ^ 2 >= (76 / 100) ^ 2 * x ^ 2) by nra.
  assert (h ^ 2 / (24 * / 8000000000) >= (76 / 100) ^ 2 * (1000 * / 500)) by lra. lra.
Qed.

Lemma bis_stop func tol max_iter min_iter fuel a b p n i : bisection_loop func tol max_iter min_iter fuel a b = Some (p, n, i) ->
  Rabs (func n) <= tol \/ Rabs (p - n) <= tol \/ (max_iter <= i)%nat.
Proof.
  intros E. destruct (while_inv (fun _ => True) (bis_cond func tol max_iter min_iter) (bis_body func)) with (3 := E) as [_ H2]; [trivial|trivial|].
  cbn in H2. apply orb_false_elim in H2 as [H2 _]. apply andb_false_elim in H2 as [H2|H2].
  - apply andb_false_elim in H2 as [H2|H2]; [apply Nat.ltb_ge in H2; auto|]. unfold rgtb in H2. destruct (Rgt_dec _ _); [discriminate|]. left. lra.
  - unfold rgtb in H2. destruct (Rgt_dec _ _); [discriminate|]. right; left. lra.
Qed.
Definition dyadic (D : R) (i : nat) (t : R) : Prop := exists m : Z, t = D * (/ 1000 + 2099 / 1000 * (IZR m / 2 ^ i)).
Lemma dyadic_up D i t : dyadic D i t -> dyadic D (S i) t.
Proof. intros [m ->]. exists (2 * m)%Z. rewrite mult_IZR. cbn [pow]. field. apply pow_nonzero. lra. Qed.
Lemma dyadic_mid D i t t' : dyadic D i t -> dyadic D i t' -> dyadic D (S i) ((t + t') / 2).
Proof. intros [m ->] [n ->]. exists (m + n)%Z. rewrite plus_IZR. cbn [pow]. field. apply pow_nonzero. lra. Qed.
Lemma bis_dyadic func tol max_iter min_iter fuel D p n i : bisection_loop func tol max_iter min_iter fuel (/ 1000 * D) (21 / 10 * D) = Some (p, n, i) -> dyadic D i p /\ dyadic D i n.
Proof.
  intros E. set (Inv := fun s : R * R * nat => let '(p, n, i) := s in dyadic D i p /\ dyadic D i n).
  destruct (while_inv Inv (bis_cond func tol max_iter min_iter) (bis_body func)) with (3 := E) as [H1 _].
  - intros [[p' n'] i'] [A B] _. unfold Inv, bis_body. split; [|now apply dyadic_mid]. destruct (reqb _ _); apply dyadic_up; assumption.
  - split; [exists 0%Z; cbn; field|exists 1%Z; cbn; field].
  - exact H1.
Qed.
Lemma angstrom_pos : 0 < angstrom.
Proof. unfold angstrom. apply Rinv_0_lt_compat, pow_lt. lra. Qed.
Lemma dyadic_not_pole ni i t : 0 < ni -> dyadic (wsr ni / angstrom) i t -> G07eta ni (t * angstrom) <> 1.
Proof.
  intros Hn [m ->]. pose proof angstrom_pos. set (tau := / 1000 + 2099 / 1000 * (IZR m / 2 ^ i)). replace (wsr ni / angstrom * tau * angstrom) with (wsr ni * tau) by (field; lra).
  rewrite (eta_tau ni Hn). intros E. apply (not_pole m i). fold tau. assert (tau ^ 3 = 8) by lra. assert ((tau - 2) * (tau ^ 2 + 2 * tau + 4) = 0) by (ring_simplify; lra).
  apply Rmult_integral in H1 as [?|?]; [lra|]. exfalso. pose proof (pow2_ge_0 (tau + 1)). lra.
Qed.
Lemma sigma_dist ni Z : 0 < ni -> 0 < Z -> Rpower (3 / (4 * PI) * Z / (Z * ni)) (1 / 3) = wsr ni.
Proof. intros. pose proof PI_RGT_0. unfold wsr. f_equal. field. repeat split; lra. Qed.

(** The diameter that is used makes the spheres touch as they should: a zero of
    the contact value h1, at a packing fraction below one. *)
Theorem C139_diameter (u : consts) (Ti Z ni : R) : 0 < Ti -> 0 < Z -> 0 < ni ->
  let a := Rpower (3 / (4 * PI * ni)) (1 / 3) in
  let l := Z ^ 2 * e_ch u ^ 2 / (4 * PI * eps0 u * kB u * Ti) in
  a / 500 <= l <= 100000 * a ->
  exists sig r, sigma_CHS u Ti (Z * ni) Z ni = Some sig /\
    a / 1000 <= sig <= 21 / 10 * a /\ a / 1000 <= r < 2 * a /\ PI / 6 * (ni * r ^ 3) < 1 /\ G07h1 u ni Z Ti r = 0 /\
    (Rabs (G07h1 u ni Z Ti sig) <= / 10 ^ 15 \/ Rabs (sig - r) <= / 10 ^ 25 \/ Rabs (sig - r) <= 21 / 10 * a / 2 ^ (100 * 100)).
Proof.
  intros HT HZ Hn a l Hl. change a with (wsr ni) in *. change l with (landau u Z Ti) in *. clear a l. pose proof (wsr_pos ni) as Hw. pose proof angstrom_pos as Ha.
  unfold sigma_CHS. rewrite (sigma_dist ni Z Hn HZ). unfold bisection. fold chs_iter. generalize chs_iter as N. intros N.
  set (f := fun s => G07h1 u ni Z Ti (s * angstrom)). set (g := fun s => g1 u ni Z Ti (s * angstrom)). set (D := wsr ni / angstrom).
  assert (HD : 0 < D) by (apply Rdiv_lt_0_compat; assumption).
  assert (ED : D * angstrom = wsr ni) by (unfold D; field; lra).
  destruct (bis_terminates f (/ 10 ^ 15) N 0 (/ 1000 * D) (21 / 10 * D) (S N)) as [[[p x] i] E]; [rewrite Nat.max_0_r; apply Nat.lt_succ_diag_r|]. rewrite E.
  assert (F0 : 0 < f (/ 1000 * D)). { unfold f. replace (/ 1000 * D * angstrom) with (wsr ni / 1000) by (rewrite <- ED; field). now apply strong_h1. }
  assert (F1 : f (21 / 10 * D) < 0). { unfold f. replace (21 / 10 * D * angstrom) with (wsr ni * (21 / 10)) by (rewrite <- ED; field). apply h1_neg; try assumption; [apply Rmult_lt_0_compat; lra|]. rewrite (eta_tau ni Hn). lra. }
  assert (HS : sign (f (/ 1000 * D)) <> sign (f (21 / 10 * D))) by (destruct (sign_cases (f (/ 1000 * D))) as [[? ->]|[[? ->]|[? ->]]]; destruct (sign_cases (f (21 / 10 * D))) as [[? ->]|[[? ->]|[? ->]]]; lra).
  destruct (bis_post f (/ 10 ^ 15) N 0 _ _ _ p x i HS E) as [(I1 & I2 & I3 & I4) Stop].
  destruct (bis_dyadic _ _ _ _ _ _ _ _ _ E) as [Dp Dx]. rewrite Rmin_left, Rmax_right in I3, I4 by lra.
  assert (Gs : forall t, 0 < t -> dyadic D i t -> sign (g t) = sign (f t)). { intros t Ht Hd. apply g1_sign; try assumption; [apply Rmult_lt_0_compat; lra|]. now apply (dyadic_not_pole ni i). }
  assert (BI : BInv g (/ 1000 * D) (21 / 10 * D) (p, x, i)).
  { split; [rewrite (Gs p), (Gs x) by (assumption || lra); exact I1|]. split; [exact I2|]. rewrite Rmin_left, Rmax_right by lra. split; assumption. }
  destruct (bis_root g _ _ p x i BI) as (r & Hr & Er & Hxr).
  { rewrite Rmin_left, Rmax_right by lra. intros y Hy. unfold g. apply (continuity_pt_comp (fun s => s * angstrom) (g1 u ni Z Ti)).
    - apply continuity_pt_mult; [apply derivable_continuous_pt, derivable_pt_id|apply continuity_pt_const; intros ? ?; reflexivity].
    - apply g1_cont; try assumption. apply Rmult_lt_0_compat; lra. }
  rewrite Rmin_left, Rmax_right in Hr by lra. rewrite <- I2 in Hxr.
  assert (Hrp : 0 < r * angstrom) by (apply Rmult_lt_0_compat; lra).
  assert (He1 : G07eta ni (r * angstrom) < 1). { destruct (Rlt_dec (G07eta ni (r * angstrom)) 1) as [?|N1]; [assumption|exfalso]. pose proof (g1_neg u ni Z Ti (r * angstrom) Hrp ltac:(lra)). unfold g in Er. lra. }
  assert (HM : forall c t, c * D <= t -> c * wsr ni <= t * angstrom) by (intros c t Ht; rewrite <- ED, <- Rmult_assoc; apply Rmult_le_compat_r; lra).
  assert (HM2 : forall c t, t <= c * D -> t * angstrom <= c * wsr ni) by (intros c t Ht; rewrite <- ED, <- Rmult_assoc; apply Rmult_le_compat_r; lra).
  exists (x * angstrom), (r * angstrom). split; [reflexivity|].
  destruct I4 as [X1 X2]. apply HM in X1. apply HM2 in X2. destruct Hr as [R1 R2]. apply HM in R1. apply HM2 in R2.
  split; [lra|]. split; [split; [lra|]|].
  { rewrite (eta_wsr ni Hn) in He1. apply Rnot_le_lt. intros Hge. assert (2 <= r * angstrom / wsr ni). { apply (Rmult_le_reg_r (wsr ni)); [lra|]. unfold Rdiv. rewrite Rmult_assoc, Rinv_l by lra. lra. }
    assert (2 ^ 3 <= (r * angstrom / wsr ni) ^ 3) by (apply pow_incr; lra). lra. }
  split; [exact He1|]. split.
  { unfold g in Er. rewrite (g1_h1 u ni Z Ti Hn) in Er by (assumption || lra). apply Rmult_integral in Er as [Er|Er]; [|exact Er]. exfalso. pose proof (eta_pos ni _ Hn Hrp). assert (0 < (1 - G07eta ni (r * angstrom)) ^ 2) by (apply pow_lt; lra).
    assert (0 < 24 * G07eta ni (r * angstrom) * (1 - G07eta ni (r * angstrom)) ^ 2) by (apply Rmult_lt_0_compat; lra). lra. }
  assert (EX : Rabs (x * angstrom - r * angstrom) = Rabs (x - r) * angstrom) by (rewrite <- Rmult_minus_distr_r, Rabs_mult, (Rabs_pos_eq angstrom); lra). rewrite EX.
  destruct Stop as [S1|[S1|S1]]; [left; exact S1|right; left|right; right].
  - replace (/ 10 ^ 25) with (/ 10 ^ 15 * angstrom) by (unfold angstrom; field). apply Rmult_le_compat_r; lra.
  - apply Rle_trans with (21 / 10 * D / 2 ^ i * angstrom).
    + apply Rmult_le_compat_r; [lra|]. eapply Rle_trans; [exact Hxr|]. rewrite I2. apply Rmult_le_compat_r; [apply Rlt_le, Rinv_0_lt_compat, pow_lt; lra|]. rewrite Rabs_pos_eq; lra.
    + replace (21 / 10 * D / 2 ^ i * angstrom) with (21 / 10 * wsr ni * / 2 ^ i) by (rewrite <- ED; field; apply pow_nonzero; lra). unfold Rdiv at 2. apply Rmult_le_compat_l; [lra|]. apply Rinv_le_contravar; [apply pow_lt; lra|]. apply Rle_pow; [lra|exact S1].
Qed.

(** Ions that hardly repel have no such diameter, and are given a thousandth of
    their distance. *)
Theorem C139_weak_coupling_refuted (u : consts) (Ti Z ni : R) : 0 < Ti -> 0 < Z -> 0 < ni ->
  let a := Rpower (3 / (4 * PI * ni)) (1 / 3) in
  let l := Z ^ 2 * e_ch u ^ 2 / (4 * PI * eps0 u * kB u * Ti) in
  l <= a / 2000 ->
  (forall s, a / 1000 <= s <= 21 / 10 * a -> PI / 6 * (ni * s ^ 3) <> 1 -> G07h1 u ni Z Ti s <> 0) /\
  exists sig, sigma_CHS u Ti (Z * ni) Z ni = Some sig /\ G07h1 u ni Z Ti sig <= - (1 / 2) /\
    (a / 1000 <= sig <= a / 1000 + / 10 ^ 25 \/ a / 1000 <= sig <= a / 1000 + 21 / 10 * a / 2 ^ (100 * 100)).
Proof.
  intros HT HZ Hn a l Hl. change a with (wsr ni) in *. change l with (landau u Z Ti) in *. clear a l. pose proof (wsr_pos ni) as Hw. pose proof angstrom_pos as Ha.
  split. { intros s Hs He E. pose proof (weak_h1 u ni Z Ti s Hn HZ HT Hl Hs He). lra. }
  unfold sigma_CHS. rewrite (sigma_dist ni Z Hn HZ). unfold bisection. fold chs_iter. generalize chs_iter as N. intros N.
  set (f := fun s => G07h1 u ni Z Ti (s * angstrom)). set (D := wsr ni / angstrom).
  assert (HD : 0 < D) by (apply Rdiv_lt_0_compat; assumption). assert (ED : D * angstrom = wsr ni) by (unfold D; field; lra).
  destruct (bis_terminates f (/ 10 ^ 15) N 0 (/ 1000 * D) (21 / 10 * D) (S N)) as [[[p x] i] E]; [rewrite Nat.max_0_r; apply Nat.lt_succ_diag_r|]. rewrite E.
  assert (FN : forall j, f (D * (/ 1000 + 2099 / 1000 * (1 / 2 ^ j))) <= - (1 / 2) /\ wsr ni / 1000 <= D * (/ 1000 + 2099 / 1000 * (1 / 2 ^ j)) * angstrom).
  { intros j. assert (0 < 1 / 2 ^ j <= 1) as [J1 J2]. { assert (1 <= 2 ^ j) by (apply pow_R1_Rle; lra). split; [apply Rdiv_lt_0_compat; lra|]. apply (Rmult_le_reg_r (2 ^ j)); [lra|]. unfold Rdiv. rewrite Rmult_assoc, Rinv_l by lra. lra. }
    assert (ET : D * (/ 1000 + 2099 / 1000 * (1 / 2 ^ j)) * angstrom = wsr ni * (/ 1000 + 2099 / 1000 * (1 / 2 ^ j))) by (rewrite <- ED; ring).
    assert (LO : wsr ni / 1000 <= wsr ni * (/ 1000 + 2099 / 1000 * (1 / 2 ^ j))) by (assert (0 < wsr ni * (1 / 2 ^ j)) by (apply Rmult_lt_0_compat; lra); lra).
    split; [|rewrite ET; exact LO]. unfold f. apply weak_h1; try assumption; [|apply (dyadic_not_pole ni j); [assumption|exists 1%Z; reflexivity]].
    rewrite ET. split; [exact LO|]. rewrite (Rmult_comm (21 / 10)). apply Rmult_le_compat_l; lra. }
  set (Inv := fun s : R * R * nat => let '(p, n, j) := s in p = / 1000 * D /\ n = D * (/ 1000 + 2099 / 1000 * (1 / 2 ^ j))).
  destruct (while_inv Inv (bis_cond f (/ 10 ^ 15) N 0) (bis_body f)) with (3 := E) as [[I1 I2] _].
  { intros [[p' n'] j] [A B] _. unfold Inv, bis_body. assert (Ec : (p' + n') / 2 = D * (/ 1000 + 2099 / 1000 * (1 / 2 ^ S j))) by (rewrite A, B; cbn [pow]; field; apply pow_nonzero; lra).
    split; [|exact Ec]. rewrite Ec, B. destruct (FN j) as [Fj _]. destruct (FN (S j)) as [Fs _]. unfold reqb. destruct (Req_EM_T _ _) as [_|NE]; [exact A|exfalso]. apply NE.
    destruct (sign_cases (f (D * (/ 1000 + 2099 / 1000 * (1 / 2 ^ S j))))) as [[? ->]|[[? ->]|[? ->]]]; try (exfalso; lra). destruct (sign_cases (f (D * (/ 1000 + 2099 / 1000 * (1 / 2 ^ j))))) as [[? ->]|[[? ->]|[? ->]]]; try (exfalso; lra). reflexivity. }
  { unfold Inv. cbn [pow]. split; [reflexivity|field]. }
  destruct (FN i) as [Fi Xi]. rewrite <- I2 in Fi, Xi.
  exists (x * angstrom). split; [reflexivity|]. split; [exact Fi|].
  assert (EX : x * angstrom = wsr ni / 1000 + 2099 / 1000 * wsr ni * / 2 ^ i) by (rewrite I2, <- ED; field; apply pow_nonzero; lra).
  assert (EP : Rabs (p - x) = 2099 / 1000 * D * / 2 ^ i). { assert (0 < / 2 ^ i) by (apply Rinv_0_lt_compat, pow_lt; lra). rewrite I1, I2. replace (/ 1000 * D - D * (/ 1000 + 2099 / 1000 * (1 / 2 ^ i))) with (- (2099 / 1000 * D * / 2 ^ i)) by (field; apply pow_nonzero; lra). rewrite Rabs_Ropp, Rabs_pos_eq; [reflexivity|]. apply Rmult_le_pos; lra. }
  destruct (bis_stop _ _ _ _ _ _ _ _ _ _ E) as [S1|[S1|S1]].
  - exfalso. rewrite Rabs_left in S1 by lra. lra.
  - left. split; [exact Xi|]. rewrite EX. apply Rplus_le_compat_l. replace (/ 10 ^ 25) with (/ 10 ^ 15 * angstrom) by (unfold angstrom; field). replace (2099 / 1000 * wsr ni * / 2 ^ i) with (Rabs (p - x) * angstrom) by (rewrite EP, <- ED; ring). apply Rmult_le_compat_r; lra.
  - right. split; [exact Xi|]. rewrite EX. apply Rplus_le_compat_l. unfold Rdiv. apply Rmult_le_compat; [lra|apply Rlt_le, Rinv_0_lt_compat, pow_lt; lra|lra|]. apply Rinv_le_contravar; [apply pow_lt; lra|]. apply Rle_pow; [lra|exact S1].
Qed.

Print Assumptions C139_mean_spherical.
Print Assumptions C139_factorised.
Print Assumptions C139_positive.
Print Assumptions C139_perfect_screening.
Print Assumptions C139_short_waves.
Print Assumptions C139_long_waves.
Print Assumptions C139_truncation.
Print Assumptions C139_negative_refuted.
Print Assumptions C139_diameter.
Print Assumptions C139_weak_coupling_refuted.

Lemma ex_dist : Rpower (3 / (4 * PI * (3 / (4 * PI)))) (1 / 3) = 1.
Proof. pose proof PI_RGT_0. replace (3 / (4 * PI * (3 / (4 * PI)))) with 1 by (field; lra). apply Rpower_1_base || (unfold Rpower; rewrite ln_1, Rmult_0_r; apply exp_0). Qed.
(** A packing of one half, and the two couplings. *)
Example C139_ex : PI / 6 * (3 / PI * 1 ^ 3) < 1 /\
  (let a := Rpower (3 / (4 * PI * (3 / (4 * PI)))) (1 / 3) in let l := 1 ^ 2 * e_ch unit_consts ^ 2 / (4 * PI * eps0 unit_consts * kB unit_consts * 1) in a / 500 <= l <= 100000 * a) /\
  (let a := Rpower (3 / (4 * PI * (3 / (4 * PI)))) (1 / 3) in let l := 1 ^ 2 * e_ch unit_consts ^ 2 / (4 * PI * eps0 unit_consts * kB unit_consts * 1000) in l <= a / 2000).
Proof.
  pose proof PI_RGT_0. pose proof PI_4. split; [replace (PI / 6 * (3 / PI * 1 ^ 3)) with (/ 2) by (field; lra); lra|]. rewrite ex_dist. cbn.
  assert (A : 1 <= 1 * (1 * 1) * (1 * (1 * 1)) / (4 * PI * 1 * 1 * 1) * 16 <= 16).
  { assert (PI > 1) by (pose proof PI2_1; lra). split; apply (Rmult_le_reg_r PI); try lra; field_simplify; lra. }
  assert (E : 1 * (1 * 1) * (1 * (1 * 1)) / (4 * PI * 1 * 1 * 1000) = 1 * (1 * 1) * (1 * (1 * 1)) / (4 * PI * 1 * 1 * 1) / 1000) by (field; lra).
  split; [lra|]. rewrite E.
  assert (B : 1 * (1 * 1) * (1 * (1 * 1)) / (4 * PI * 1 * 1 * 1) <= 1 / 4). { assert (PI > 1) by (pose proof PI2_1; lra). apply (Rmult_le_reg_r PI); [lra|]. field_simplify; lra. }
  lra.
Qed.
