(** The ionisation potential depression: its limits, its branches and the charge
    states (C50, C51, C82-C86). *)
From Coq Require Import Reals List Bool Arith ZArith Lra Lia Psatz.
From Coquelicot Require Import Coquelicot.
From Verif Require Import M_Const M_PlasmaState M_Interp M_IPD L_IPD.
Import ListNotations.
Open Scope R_scope.
Ltac fa := repeat (apply List.Forall_cons || apply List.Forall_nil).

(** *** C50 *)
Theorem C50_debye_partial : forall u isle arb Zi ne ni Te Ti Zbar j,
  / 1000000 <= Zi -> 0 < ne -> (forall n, In n ni -> 0 < n) -> 0 < Te -> 0 < at_ Ti j ->
  List.Forall (fun z => / 1000000 <= z) Zbar -> (arb = true -> 0 < isle ne Te) ->
  ipd_debye_hueckel u isle arb Zi ne ni Te Ti Zbar j <= ipd_stewart_pyatt u isle arb Zi ne ni Te Ti Zbar j < 0.
Proof.
  intros u isle arb Zi ne ni Te Ti Zbar j HZi Hne Hni HTe HTi HZ Hi.
  rewrite sp_form, dh_form, map_clip6, clip6_id by assumption.
  pose proof (kappa_D_pos u isle arb ne ni Te Ti Zbar j Hne HTe Hni HTi Hi) as Hk.
  set (k := kappa_D _ _ _ _ _ _ _ _ _) in *. clearbody k. pose proof (Qc_pos u) as HQ.
  assert (HR : 0 < Rsp ni) by apply rp_pos. set (r := Rsp ni) in *. clearbody r.
  assert (Hs : 0 < 1 / k / r) by (apply Rdiv_lt_0_compat; [apply Rdiv_lt_0_compat; lra|lra]).
  destruct (gsp_bounds _ Hs) as (G1 & _ & G2 & _). set (g := gsp (1 / k / r)) in *. clearbody g.
  assert (HA : 0 < (Zi + 1) * Qc u) by (apply Rmult_lt_0_compat; lra).
  assert (B : 0 < 3 / 2 * g / r <= k).
  { split; [apply Rdiv_lt_0_compat; lra|]. replace (3 / 2 * g / r) with (3 / 2 * g * (1 / k / r) * k) by (field; lra).
    assert (3 / 2 * g * (1 / k / r) * k <= 1 * k) by (apply Rmult_le_compat_r; lra). lra. }
  split; [apply Ropp_le_contravar, Rmult_le_compat_l; lra|]. apply Ropp_lt_gt_0_contravar, Rmult_lt_0_compat; lra.
Qed.
Print Assumptions C50_debye_partial.

Theorem C50_ion_sphere_partial : forall u isle arb Zi n Te T zb,
  / 1000000 <= zb -> 0 < n -> 0 < Te -> 0 < T -> (arb = true -> 0 < isle (zb * n) Te) ->
  ipd_ion_sphere u None Zi (zb * n) [zb] 0 <= ipd_stewart_pyatt u isle arb Zi (zb * n) [n] Te [T] [zb] 0 < 0.
Proof.
  intros u isle arb Zi n Te T zb HZ Hn HTe HT Hi.
  assert (Hne : 0 < zb * n) by (apply Rmult_lt_0_compat; lra).
  rewrite sp_form, is_form. change (at_ [zb] 0) with zb. rewrite (clip6_id zb HZ), map_clip6 by (fa; exact HZ).
  assert (Hk : 0 < kappa_D u isle arb (zb * n) [n] Te [T] [zb] 0).
  { apply kappa_D_pos; try assumption. intros x [<-|[]]. exact Hn. }
  set (k := kappa_D _ _ _ _ _ _ _ _ _) in *. clearbody k. pose proof (Qc_pos u) as HQ. pose proof (clip6_pos Zi) as HZc. pose proof PI_RGT_0.
  assert (E : Rpower (3 * zb / (4 * PI * (zb * n))) (1 / 3) = Rsp [n]).
  { unfold Rsp. f_equal. unfold sum. cbn. field. lra. }
  rewrite E. assert (HR : 0 < Rsp [n]) by apply rp_pos. set (r := Rsp [n]) in *. clearbody r.
  assert (Hs : 0 < 1 / k / r) by (apply Rdiv_lt_0_compat; [apply Rdiv_lt_0_compat; lra|lra]).
  destruct (gsp_bounds _ Hs) as (G1 & G2 & _). set (g := gsp (1 / k / r)) in *. clearbody g.
  assert (HA : 0 < (clip6 Zi + 1) * Qc u) by (apply Rmult_lt_0_compat; lra).
  assert (Hir : 0 < / r) by now apply Rinv_0_lt_compat.
  split.
  - apply Ropp_le_contravar, Rmult_le_compat_l; [lra|]. unfold Rdiv at 1 3. apply Rmult_le_compat_r; lra.
  - apply Ropp_lt_gt_0_contravar, Rmult_lt_0_compat; [lra|]. apply Rdiv_lt_0_compat; lra.
Qed.
Print Assumptions C50_ion_sphere_partial.
Example C50_ion_sphere_ex : ipd_ion_sphere unit_consts None 2 (3 * 5) [3] 0 <= ipd_stewart_pyatt unit_consts (fun _ _ => 0) false 2 (3 * 5) [5] 7 [7] [3] 0 < 0.
Proof. apply C50_ion_sphere_partial; try lra. Qed.
Example C50_debye_ex : ipd_debye_hueckel unit_consts (fun ne _ => ne) true 2 3 [1; 2] 7 [7; 8] [1; 1] 1
  <= ipd_stewart_pyatt unit_consts (fun ne _ => ne) true 2 3 [1; 2] 7 [7; 8] [1; 1] 1 < 0.
Proof. apply C50_debye_partial; try (cbn; lra). - intros n [<-|[<-|[]]]; lra. - fa; lra. Qed.

(** In a mixture the ion sphere is that of one species, the Stewart-Pyatt radius
    that of all ions *)
Theorem C50_mixture_refuted : exists u isle Zi ne ni Te Ti Zbar,
  ne = sum (map2 Rmult Zbar ni) /\ 0 < Te /\ List.Forall (fun n => 0 < n) ni /\
  ipd_stewart_pyatt u isle false Zi ne ni Te Ti Zbar 0 < ipd_ion_sphere u None Zi ne Zbar 0.
Proof.
  exists unit_consts, (fun _ _ => 0), 1, 1, [1; 7], (/ 64), [/ 64; / 64], [1; 0].
  split; [unfold sum; cbn; lra|]. split; [lra|]. split; [fa; lra|].
  rewrite sp_form, is_form. change (at_ [1; 0] 0) with 1. rewrite !clip6_id by lra. pose proof PI_RGT_0 as HP. pose proof PI_4 as HP4.
  set (k := kappa_D _ _ _ _ _ _ _ _ _). assert (Hk : 8 <= k).
  { assert (S8 : sqrt 64 = 8) by (replace 64 with (8 * 8) by lra; apply sqrt_square; lra). unfold k, kappa_D. rewrite <- S8. apply sqrt_le_1_alt.
    assert (0 <= kappa_i_sq unit_consts (map clip6 [1; 0]) [1; 7] [/ 64; / 64] 0).
    { apply kappa_i_nonneg; [intros n [<-|[<-|[]]]; lra|cbn; lra]. }
    replace (kappa_e_sq unit_consts (fun _ _ => 0) false 1 (/ 64)) with 64 by (unfold kappa_e_sq; cbn; field). lra. }
  clearbody k.
  assert (HR : 0 < Rsp [1; 7]) by apply rp_pos.
  assert (HR3 : Rsp [1; 7] ^ 3 = 3 / (32 * PI)).
  { unfold Rsp. replace (sum [1; 7]) with 8 by (unfold sum; cbn; ring). rewrite rp_cube; [field; lra|]. apply Rdiv_lt_0_compat; lra. }
  assert (HR2 : Rpower (3 * 1 / (4 * PI * 1)) (1 / 3) = 2 * Rsp [1; 7]).
  { set (b := Rpower (3 * 1 / (4 * PI * 1)) (1 / 3)). assert (Hb : 0 < b) by apply rp_pos.
    assert (Hb3 : b ^ 3 = (2 * Rsp [1; 7]) ^ 3).
    { unfold b. rewrite rp_cube by (apply Rdiv_lt_0_compat; lra). replace ((2 * Rsp [1; 7]) ^ 3) with (8 * Rsp [1; 7] ^ 3) by ring. rewrite HR3. field. lra. }
    apply Rle_antisym; apply cube_le; lra. }
  rewrite HR2. set (r := Rsp [1; 7]) in *. clearbody r.
  assert (Hr4 : / 4 < r).
  { apply sq_lt; [lra|lra|]. rewrite HR3. replace ((/ 4) ^ 3) with (/ 64) by field.
    apply (Rmult_lt_reg_r (64 * (32 * PI))); [lra|].
    replace (/ 64 * (64 * (32 * PI))) with (32 * PI) by field. replace (3 / (32 * PI) * (64 * (32 * PI))) with 192 by (field; lra). lra. }
  assert (Hkr : 2 < k * r) by nra.
  assert (Hs : 0 < 1 / k / r) by (apply Rdiv_lt_0_compat; [apply Rdiv_lt_0_compat; lra|lra]).
  destruct (gsp_bounds _ Hs) as (_ & _ & _ & G & _).
  assert (Hs2 : 1 / k / r < / 2).
  { replace (1 / k / r) with (/ (k * r)) by (field; lra). apply Rinv_lt_contravar; [lra|exact Hkr]. }
  set (s := 1 / k / r) in *. set (g := gsp s) in *. assert (Hg : / 2 < g) by nra. clearbody g.
  apply Ropp_lt_gt_contravar. apply Rmult_lt_compat_l; [pose proof (Qc_pos unit_consts); apply Rmult_lt_0_compat; lra|].
  assert (0 < / r) by now apply Rinv_0_lt_compat.
  replace (3 / 2 / (2 * r)) with (3 / 2 * / 2 * / r) by (field; lra). unfold Rdiv at 2. apply Rmult_lt_compat_r; lra.
Qed.
Print Assumptions C50_mixture_refuted.

(** ... and for a neutral atom the charge is clipped in the one, not in the other *)
Theorem C50_zero_charge_refuted : exists u isle ne ni Te Ti Zbar,
  ne = sum (map2 Rmult Zbar ni) /\ 0 < Te /\ List.Forall (fun n => 0 < n) ni /\
  ipd_stewart_pyatt u isle false 0 ne ni Te Ti Zbar 0 < ipd_debye_hueckel u isle false 0 ne ni Te Ti Zbar 0 < 0.
Proof.
  exists unit_consts, (fun _ _ => 0), 1, [1], 20402, [20402], [1].
  split; [unfold sum; cbn; lra|]. split; [lra|]. split; [fa; lra|].
  rewrite sp_form, dh_form. rewrite map_clip6 by (fa; lra). pose proof PI_RGT_0 as HP. pose proof PI2_3_2 as HP2.
  replace (clip6 0) with (/ 1000000) by (unfold clip6; rewrite Rmax_right; lra).
  assert (Hk : kappa_D unit_consts (fun _ _ => 0) false 1 [1] 20402 [20402] [1] 0 = / 101).
  { unfold kappa_D, kappa_i_sq, kappa_e_sq, sum. cbn. rewrite <- (sqrt_square (/ 101)) by lra. f_equal. field. }
  rewrite Hk. assert (HR : 0 < Rsp [1]) by apply rp_pos.
  assert (HR3 : Rsp [1] ^ 3 = 3 / (4 * PI)).
  { unfold Rsp. replace (sum [1]) with 1 by (unfold sum; cbn; ring). rewrite rp_cube; [field; lra|]. apply Rdiv_lt_0_compat; lra. }
  set (r := Rsp [1]) in *. clearbody r.
  assert (Hr1 : r < 1).
  { apply sq_lt; [lra|lra|]. rewrite HR3. apply (Rmult_lt_reg_r (4 * PI)); [lra|]. replace (3 / (4 * PI) * (4 * PI)) with 3 by (field; lra). lra. }
  set (s := 1 / / 101 / r). assert (Hs : 101 < s).
  { unfold s. replace (1 / / 101 / r) with (101 * / r) by (field; lra). assert (1 < / r) by (rewrite <- Rinv_1; apply Rinv_lt_contravar; lra). lra. }
  destruct (gsp_bounds s ltac:(lra)) as (_ & _ & _ & _ & G).
  assert (Hs3 : 1000000 < s ^ 3) by (cbn; nra).
  assert (G2 : 1 / (1 + / 1000000) < 1 / (1 + / s ^ 3)).
  { assert (0 < / s ^ 3 < / 1000000) by (split; [apply Rinv_0_lt_compat; lra|apply Rinv_lt_contravar; lra]).
    unfold Rdiv. rewrite !Rmult_1_l. apply Rinv_lt_contravar; [nra|lra]. }
  pose proof (Qc_pos unit_consts) as HQ. assert (Er : / r = s / 101) by (unfold s; field; lra).
  set (g := gsp s) in *. clearbody g s. split.
  - apply Ropp_lt_gt_contravar. replace ((0 + 1) * Qc unit_consts * / 101) with (Qc unit_consts * / 101) by ring.
    replace ((/ 1000000 + 1) * Qc unit_consts * (3 / 2 * g / r)) with (Qc unit_consts * ((/ 1000000 + 1) * (3 / 2 * g * s) * / 101)).
    + apply Rmult_lt_compat_l; [exact HQ|].
      assert ((/ 1000000 + 1) * (1 / (1 + / 1000000)) = 1) by field.
      assert ((/ 1000000 + 1) * (1 / (1 + / 1000000)) < (/ 1000000 + 1) * (3 / 2 * g * s)) by (apply Rmult_lt_compat_l; lra). lra.
    + unfold Rdiv at 2. rewrite Er. field.
  - lra.
Qed.
Print Assumptions C50_zero_charge_refuted.

(** *** C51 *)
(** One species: continuous along every path of states, also through the critical
    density, for the classical screening length and for any other continuous one *)
Theorem C51_partial : forall u isle arb Zi Zmax (ne n Te T Zb : R -> R) t,
  Zmax <> 0 -> (forall x, 0 < ne x /\ 0 < n x /\ 0 < Te x /\ 0 < T x) ->
  continuous ne t -> continuous n t -> continuous Te t -> continuous T t -> continuous Zb t ->
  (arb = true -> forall f g, continuous f t -> continuous g t -> continuous (fun x => isle (f x) (g x)) t) ->
  continuous (fun x => ipd_ecker_kroell u isle arb None Zi (ne x) [n x] (Te x) [T x] [Zmax] [Zb x] 0) t.
Proof.
  intros u isle arb Zi Zmax ne n Te T Zb t HZ Hp Cne Cn CTe CT CZ Ci.
  pose proof (eps0_pos u) as He. pose proof (kB_pos u) as HkB. pose proof (e_pos u) as Hch. pose proof PI_RGT_0 as HP.
  assert (Hc : forall x, 0 < n_crit u (Te x) Zmax) by (intros x; apply n_crit_pos; [apply Hp|exact HZ]).
  assert (Cc : continuous (fun x => n_crit u (Te x) Zmax) t).
  { unfold n_crit. apply cont_mult; [apply continuous_const|]. apply cont_pow. apply cont_mult; [|apply continuous_const].
    apply cont_mult; [apply continuous_const|exact CTe]. }
  set (nc := fun x => n_crit u (Te x) Zmax) in *.
  set (K := fun (a b : R -> R) x => Zb x ^ 2 * e_ch u ^ 2 * a x / (1 * eps0 u * kB u * T x) + kappa_e_sq u isle arb (b x) (Te x)).
  assert (K0 : forall a b x, 0 < a x -> 0 < b x -> 0 <= K a b x).
  { intros a b x Ha Hb. unfold K. destruct (Hp x) as (_ & _ & HTe & HT).
    assert (A : 0 <= Zb x ^ 2 * e_ch u ^ 2 * a x / (1 * eps0 u * kB u * T x)).
    { pose proof (pow2_ge_0 (Zb x)). pose proof (pow2_ge_0 (e_ch u)). apply Rmult_le_pos; [apply Rmult_le_pos; [now apply Rmult_le_pos|lra]|].
      left. apply Rinv_0_lt_compat. rewrite Rmult_1_l. apply Rmult_lt_0_compat; [now apply Rmult_lt_0_compat|exact HT]. }
    assert (B : 0 <= kappa_e_sq u isle arb (b x) (Te x)).
    { unfold kappa_e_sq. destruct arb; [apply pow2_ge_0|]. apply Rmult_le_pos; [apply Rmult_le_pos; [apply pow2_ge_0|lra]|].
      left. apply Rinv_0_lt_compat. rewrite Rmult_1_l. apply Rmult_lt_0_compat; [now apply Rmult_lt_0_compat|exact HTe]. }
    lra. }
  assert (KC : forall a b, continuous a t -> continuous b t -> 0 < a t -> 0 < b t -> continuous (fun x => sqrt (K a b x)) t).
  { intros a b Ca Cb Ha Hb. apply cont_sqrt; [|now apply K0]. unfold K. destruct (Hp t) as (_ & _ & HTe & HT). apply cont_plus.
    - apply cont_div; [apply cont_mult; [apply cont_mult; [now apply cont_pow|apply continuous_const]|exact Ca]| |].
      + apply cont_mult; [apply continuous_const|exact CT].
      + assert (0 < 1 * eps0 u * kB u * T t); [|lra]. rewrite Rmult_1_l. apply Rmult_lt_0_compat; [now apply Rmult_lt_0_compat|exact HT].
    - unfold kappa_e_sq. destruct arb; [apply cont_pow; now apply Ci|].
      apply cont_div; [apply cont_mult; [apply continuous_const|exact Cb]| |].
      + apply cont_mult; [apply continuous_const|exact CTe].
      + assert (0 < 1 * eps0 u * kB u * Te t); [|lra]. rewrite Rmult_1_l. apply Rmult_lt_0_compat; [now apply Rmult_lt_0_compat|exact HTe]. }
  set (rat := fun x => nc x / (ne x + n x)).
  assert (Hrat : forall x, 0 < rat x) by (intros x; destruct (Hp x) as (? & ? & _); apply Rdiv_lt_0_compat; [apply Hc|lra]).
  assert (Crat : continuous rat t).
  { destruct (Hp t) as (? & ? & _). apply cont_div; [exact Cc|now apply cont_plus|lra]. }
  set (rad := fun (d : R -> R) x => Rpower (3 / (4 * PI * d x)) (1 / 3)).
  assert (Crad : forall d, continuous d t -> 0 < d t -> continuous (rad d) t).
  { intros d Cd Hd. unfold rad. apply cont_rpower.
    - apply cont_div; [apply continuous_const|apply cont_mult; [apply continuous_const|exact Cd]|]. assert (0 < 4 * PI * d t) by (apply Rmult_lt_0_compat; lra). lra.
    - apply Rdiv_lt_0_compat; [lra|]. apply Rmult_lt_0_compat; lra. }
  set (f := fun x => - ((Zi + 1) * Qc u * sqrt (K n ne x))).
  set (g := fun x => - ((Zi + 1) * Qc u * (sqrt (K (fun x => rat x * n x) (fun x => rat x * ne x) x) * rad nc x / rad (fun x => ne x + n x) x))).
  set (h := fun x => n x + ne x + - nc x).
  assert (Pne : 0 < ne t) by apply Hp. assert (Pn : 0 < n t) by apply Hp.
  apply (continuous_ext (fun x => if Rle_dec (h x) 0 then f x else g x)).
  - intros x. rewrite ek_form. change (at_ [Zmax] 0) with Zmax. change (at_ [n x] 0) with (n x). fold (nc x).
    assert (ES : forall a, ek_kappa_i_sq u [Zb x] [a] [T x] = Zb x ^ 2 * e_ch u ^ 2 * a / (1 * eps0 u * kB u * T x)).
    { intros a. unfold ek_kappa_i_sq, sum. cbn. ring. }
    replace (sum [n x]) with (n x) by (unfold sum; cbn; ring). cbn [map]. rewrite !ES. fold (rat x).
    unfold h. destruct (Rle_dec (n x + ne x + - nc x) 0), (Rle_dec (n x + ne x) (nc x)); try (exfalso; lra); reflexivity.
  - apply cont_glue.
    + unfold f. apply cont_opp, cont_mult; [apply continuous_const|now apply KC].
    + unfold g. apply cont_opp, cont_mult; [apply continuous_const|]. apply cont_div.
      * apply cont_mult; [|apply Crad; [exact Cc|apply Hc]]. apply KC; [now apply cont_mult|now apply cont_mult| |]; (apply Rmult_lt_0_compat; [apply Hrat|assumption]).
      * apply Crad; [now apply cont_plus|lra].
      * apply Rgt_not_eq, rp_pos.
    + unfold h. apply cont_plus; [now apply cont_plus|now apply cont_opp].
    + intros E. unfold f, g. assert (En : nc t = ne t + n t) by (unfold h in E; lra).
      assert (Er : rat t = 1) by (unfold rat; rewrite En; field; lra).
      assert (EK : K (fun x => rat x * n x) (fun x => rat x * ne x) t = K n ne t) by (unfold K; rewrite Er, !Rmult_1_l; reflexivity).
      rewrite EK. unfold rad. rewrite En. pose proof (rp_pos (3 / (4 * PI * (ne t + n t))) (1 / 3)) as HR. set (r := Rpower _ _) in *. clearbody r.
      set (q := sqrt _). clearbody q. field. lra.
Qed.
Print Assumptions C51_partial.

(** ... in closed form: the Debye-Hueckel shift, reduced above the critical density *)
Theorem C51_closed_form : forall u isle Zi ne n Te T Zmax Zb, 0 < ne -> 0 < n -> 0 < Te -> 0 < T -> Zmax <> 0 ->
  ipd_ecker_kroell u isle false None Zi ne [n] Te [T] [Zmax] [Zb] 0 =
  ipd_debye_hueckel u isle false Zi ne [n] Te [T] [Zb] 0 *
  Rmin 1 (Rpower (3 / (4 * PI) * (4 * PI * eps0 u * kB u * Te / (Zmax * e_ch u) ^ 2) ^ 3 / (n + ne)) (1 / 6)).
Proof.
  intros u isle Zi ne n Te T Zmax Zb H1 H2 H3 H4 H5. rewrite ek_one by assumption. do 4 f_equal. unfold n_crit. f_equal. f_equal.
  pose proof (e_pos u). field. lra.
Qed.
Print Assumptions C51_closed_form.
Example C51_ex : 3 / (4 * PI) * (4 * PI * eps0 unit_consts * kB unit_consts * 1 / (1 * e_ch unit_consts) ^ 2) ^ 3 = 48 * PI ^ 2
  /\ continuous (fun x => ipd_ecker_kroell unit_consts (fun _ _ => 0) false None 1 (x ^ 2 + 1) [1] 1 [1] [1] [x] 0) (sqrt (48 * PI ^ 2 - 2)).
Proof.
  split; [cbn; pose proof PI_RGT_0; field; lra|].
  apply (C51_partial unit_consts (fun _ _ => 0) false 1 1 (fun x => x ^ 2 + 1) (fun _ => 1) (fun _ => 1) (fun _ => 1) (fun x => x)); try lra; try apply continuous_const.
  - intros x. pose proof (pow2_ge_0 x). lra.
  - apply cont_plus; [apply cont_pow, continuous_id|apply continuous_const].
  - apply continuous_id.
Qed.

(** A second species does not enter the density compared with the critical one *)
Theorem C51_mixture_refuted : exists u isle Zi ni Te Ti Zmax Zbar ne0,
  0 < ne0 /\ 0 < Te /\ List.Forall (fun n => 0 < n) ni /\ List.Forall (fun T => 0 < T) Ti /\
  ~ continuous (fun ne => ipd_ecker_kroell u isle false None Zi ne ni Te Ti Zmax Zbar 0) ne0.
Proof.
  pose proof PI_RGT_0 as HP. pose proof PI2_3_2 as HP2. set (nc := 48 * PI ^ 2). assert (Hnc : 100 < nc) by (unfold nc; nra).
  exists unit_consts, (fun _ _ => 0), 1, [1; 1], 1, [1; 1], [1; 1], [1; 1], (nc - 1).
  split; [lra|]. split; [lra|]. split; [fa; lra|]. split; [fa; lra|]. intros C.
  assert (Enc : n_crit unit_consts 1 1 = nc) by (unfold n_crit, nc; cbn; field; lra).
  set (F := fun ne => ipd_ecker_kroell unit_consts (fun _ _ => 0) false None 1 ne [1; 1] 1 [1; 1] [1; 1] [1; 1] 0) in C.
  set (Q := Qc unit_consts). assert (HQ : 0 < Q) by apply Qc_pos.
  set (rad := fun d => Rpower (3 / (4 * PI * d)) (1 / 3)).
  set (g := fun ne => - ((1 + 1) * Q * (sqrt (nc / (ne + 2) * (2 + ne)) * rad nc / rad (ne + 1)))).
  set (f := fun ne => - ((1 + 1) * Q * sqrt (2 + ne))).
  assert (EF : forall ne, 0 < ne -> F ne = if Rle_dec (1 + ne) nc then f ne else g ne).
  { intros ne Hne. unfold F. rewrite ek_form. change (at_ [1; 1] 0) with 1. rewrite Enc. fold Q.
    replace (sum [1; 1]) with 2 by (unfold sum; cbn; ring). rewrite ek_kappa_scale, kappa_e_scale, <- Rmult_plus_distr_l.
    replace (ek_kappa_i_sq unit_consts [1; 1] [1; 1] [1; 1]) with 2 by (unfold ek_kappa_i_sq, sum; cbn; field).
    replace (kappa_e_sq unit_consts (fun _ _ => 0) false ne 1) with ne by (unfold kappa_e_sq; cbn; field).
    unfold f, g, rad. destruct (Rle_dec (1 + ne) nc); reflexivity. }
  assert (Cg : continuous g (nc - 1)).
  { unfold g. apply cont_opp, cont_mult; [apply continuous_const|]. apply cont_div.
    - apply cont_mult; [|apply continuous_const]. apply cont_sqrt.
      + apply cont_mult; [|apply cont_plus; [apply continuous_const|apply continuous_id]].
        apply cont_div; [apply continuous_const|apply cont_plus; [apply continuous_id|apply continuous_const]|lra].
      + replace (nc / (nc - 1 + 2) * (2 + (nc - 1))) with nc by (field; lra). lra.
    - unfold rad. apply cont_rpower.
      + apply cont_div; [apply continuous_const| |].
        * apply cont_mult; [apply continuous_const|]. apply cont_plus; [apply continuous_id|apply continuous_const].
        * replace (nc - 1 + 1) with nc by ring. assert (0 < 4 * PI * nc) by (apply Rmult_lt_0_compat; lra). lra.
      + replace (nc - 1 + 1) with nc by ring. apply Rdiv_lt_0_compat; [lra|]. apply Rmult_lt_0_compat; lra.
    - apply Rgt_not_eq, rp_pos. }
  pose proof (glue_cont f g F (nc - 1) C Cg) as G.
  assert (E : f (nc - 1) = g (nc - 1)).
  { apply G.
    - rewrite EF by lra. destruct (Rle_dec (1 + (nc - 1)) nc); [reflexivity|lra].
    - intros t Ht. rewrite EF by lra. destruct (Rle_dec (1 + t) nc); [lra|reflexivity]. }
  unfold f, g in E. replace (nc - 1 + 1) with nc in E by ring. replace (nc / (nc - 1 + 2) * (2 + (nc - 1))) with nc in E by (field; lra).
  assert (HR : 0 < rad nc) by apply rp_pos. replace (sqrt nc * rad nc / rad nc) with (sqrt nc) in E by (field; lra).
  replace (2 + (nc - 1)) with (nc + 1) in E by ring.
  assert (sqrt nc < sqrt (nc + 1)) by (apply sqrt_lt_1; lra). assert (sqrt nc = sqrt (nc + 1)); [|lra].
  apply (Rmult_eq_reg_l ((1 + 1) * Q)); lra.
Qed.
Print Assumptions C51_mixture_refuted.

(** *** C82: below the critical density, Ecker-Kroell is Debye-Hueckel *)
Theorem C82_partial : forall u isle arb C Zi ne ni Te Ti T Zmax Zbar j,
  length Ti = length ni -> length Zbar = length ni -> List.Forall (eq T) Ti -> (j < length Ti)%nat ->
  at_ ni j + ne <= 3 / (4 * PI) * (4 * PI * eps0 u * kB u * Te / (at_ Zmax j * e_ch u) ^ 2) ^ 3 -> at_ Zmax j <> 0 ->
  ipd_ecker_kroell u isle arb C Zi ne ni Te Ti Zmax Zbar j = ipd_debye_hueckel u isle arb Zi ne ni Te Ti Zbar j.
Proof.
  intros u isle arb C Zi ne ni Te Ti T Zmax Zbar j L1 L2 HT Hj Hc HZ. rewrite ek_form, dh_form. unfold kappa_D.
  rewrite <- (ek_kappa_common u Zbar ni Ti T j) by assumption.
  replace (3 / (4 * PI) * (4 * PI * eps0 u * kB u * Te / (at_ Zmax j * e_ch u) ^ 2) ^ 3) with (n_crit u Te (at_ Zmax j)) in Hc.
  - destruct (Rle_dec _ _); [reflexivity|contradiction].
  - unfold n_crit. f_equal. f_equal. pose proof (e_pos u). field. lra.
Qed.
Print Assumptions C82_partial.
Example C82_ex : ipd_ecker_kroell unit_consts (fun _ _ => 0) false None 1 2 [1; 3] 1 [1; 1] [1; 1] [1; 1] 1
  = ipd_debye_hueckel unit_consts (fun _ _ => 0) false 1 2 [1; 3] 1 [1; 1] [1; 1] 1.
Proof.
  apply (C82_partial _ _ _ _ _ _ _ _ _ 1); try reflexivity; try (cbn; lra); try (cbn; lia); [fa; reflexivity|].
  pose proof PI_RGT_0. pose proof PI2_3_2. cbn. replace (3 / (4 * PI) * (4 * PI * 1 * 1 * 1 / (1 * 1 * (1 * 1 * 1)) * (4 * PI * 1 * 1 * 1 / (1 * 1 * (1 * 1 * 1)) * (4 * PI * 1 * 1 * 1 / (1 * 1 * (1 * 1 * 1)) * 1)))) with (48 * PI ^ 2) by (field; lra). nra.
Qed.
(** With two ion temperatures the sums differ: each ion is screened with its own
    temperature in the one, all with that of the ion in question in the other *)
Theorem C82_two_temperatures_refuted : exists u isle Zi ne ni Te Ti Zmax Zbar,
  0 < ne /\ 0 < Te /\ List.Forall (fun n => 0 < n) ni /\ List.Forall (fun T => 0 < T) Ti /\
  at_ ni 0 + ne <= n_crit u Te (at_ Zmax 0) /\
  ipd_ecker_kroell u isle false None Zi ne ni Te Ti Zmax Zbar 0 <> ipd_debye_hueckel u isle false Zi ne ni Te Ti Zbar 0.
Proof.
  exists unit_consts, (fun _ _ => 0), 1, 2, [1; 1], 1, [1; / 2], [1; 1], [1; 1].
  pose proof PI_RGT_0. pose proof PI2_3_2.
  assert (Enc : n_crit unit_consts 1 1 = 48 * PI ^ 2) by (unfold n_crit; cbn; field; lra).
  assert (Hc : at_ [1; 1] 0 + 2 <= n_crit unit_consts 1 (at_ [1; 1] 0)) by (change (at_ [1; 1] 0) with 1; rewrite Enc; nra).
  split; [lra|]. split; [lra|]. split; [fa; lra|]. split; [fa; lra|]. split; [exact Hc|].
  rewrite ek_form, dh_form. destruct (Rle_dec _ _); [|contradiction].
  replace (ek_kappa_i_sq unit_consts [1; 1] [1; 1] [1; / 2]) with 3 by (unfold ek_kappa_i_sq, sum; cbn; field).
  unfold kappa_D. replace (kappa_i_sq unit_consts [1; 1] [1; 1] [1; / 2] 0) with 2 by (unfold kappa_i_sq, sum; cbn; field).
  replace (kappa_e_sq unit_consts (fun _ _ => 0) false 2 1) with 2 by (unfold kappa_e_sq; cbn; field).
  pose proof (Qc_pos unit_consts). assert (sqrt (2 + 2) < sqrt (3 + 2)) by (apply sqrt_lt_1; lra). intros E.
  assert (sqrt (3 + 2) = sqrt (2 + 2)); [|lra]. apply (Rmult_eq_reg_l ((1 + 1) * Qc unit_consts)); lra.
Qed.
Print Assumptions C82_two_temperatures_refuted.

(** *** C83: within an element, a higher charge state has the deeper depression *)
Lemma per_state_nth P f j : (j < length (p_ZA P))%nat -> nth j (per_state P f) [] = map (f j) (charges (at_ (p_ZA P) j)).
Proof.
  intros H. unfold per_state. rewrite (nth_indep _ [] (map (f 0%nat) (charges (at_ (p_ZA P) 0)))) by (rewrite map_length, seq_length; exact H).
  rewrite (map_nth (fun j => map (f j) (charges (at_ (p_ZA P) j))) (seq 0 (length (p_ZA P))) 0%nat j). now rewrite seq_nth.
Qed.
Lemma charge_nth f Z a : (a < length (charges Z))%nat -> at_ (map f (charges Z)) a = f (INR a).
Proof.
  intros H. unfold at_. rewrite (nth_indep _ 0 (f 0)) by (rewrite map_length; exact H). rewrite (map_nth f). f_equal.
  unfold charges in *. rewrite map_length, seq_length in H. rewrite (nth_indep _ 0 (INR 0)) by (rewrite map_length, seq_length; exact H).
  rewrite (map_nth INR). now rewrite seq_nth.
Qed.
Lemma clip6_INR_lt a b : (a < b)%nat -> clip6 (INR a) < clip6 (INR b).
Proof.
  intros H. assert (1 <= INR b) by (change 1 with (INR 1); apply le_INR; lia). rewrite (clip6_id (INR b)) by lra. apply lt_INR in H.
  unfold clip6. apply Rmax_lub_lt; lra.
Qed.

Lemma mean_pos l : (forall x, In x l -> 0 <= x) -> (exists x, In x l /\ 0 < x) -> 0 < mean l.
Proof.
  intros H (x & Hx & Px). unfold mean. apply Rdiv_lt_0_compat.
  - clear - H Hx Px. unfold sum. induction l as [|y l IH]; [destruct Hx|]. cbn. destruct Hx as [->|Hx].
    + assert (0 <= fold_right Rplus 0 l) by (apply (sum_nonneg l); intros z Hz; apply H; now right). lra.
    + pose proof (H y (or_introl eq_refl)). pose proof (IH (fun z Hz => H z (or_intror Hz)) Hx). lra.
  - apply lt_0_INR. destruct l; [destruct Hx|cbn; lia].
Qed.
Lemma in_map2_nth {A B D} (f : A -> B -> D) l m i a b : (i < length l)%nat -> (i < length m)%nat -> In (f (nth i l a) (nth i m b)) (map2 f l m).
Proof.
  revert m i. induction l as [|x l IH]; intros [|y m] i H1 H2; cbn in *; try lia. destruct i; [now left|]. right. apply IH; lia.
Qed.
(** moments of a population with something ionised in it *)
Lemma moment_pos f p : (forall z, 0 <= f z) -> (forall z, (0 < z)%nat -> 0 < f z) -> (forall x, In x p -> 0 <= x) -> (exists z, (0 < z < length p)%nat /\ 0 < at_ p z) ->
  0 < mean (map2 Rmult (map f (seq 0 (length p))) p).
Proof.
  intros Hf Hf1 Hp (z & Hz & Pz). apply mean_pos.
  - intros x Hx. apply in_map2 in Hx. destruct Hx as (a & b & Ha & Hb & ->). apply in_map_iff in Ha. destruct Ha as (k & <- & _). apply Rmult_le_pos; auto.
  - exists (f z * at_ p z). split; [|apply Rmult_lt_0_compat; [apply Hf1; lia|exact Pz]].
    pose proof (in_map2_nth Rmult (map f (seq 0 (length p))) p z (f 0%nat) 0) as I. rewrite map_length, seq_length in I. specialize (I ltac:(lia) ltac:(lia)).
    rewrite (map_nth f), seq_nth in I by lia. exact I.
Qed.

Definition deepening (m : ipd_model) : Prop :=
  match m with DebyeHueckelIPD _ | StewartPyattIPD _ | IonSphereIPD None | StewartPyattPrestonIPD _ _ => True
  | IonSphereIPD (Some c) => 0 < c | _ => False end.
Definition arb_of (m : ipd_model) : bool := match m with DebyeHueckelIPD a | StewartPyattIPD a | StewartPyattPrestonIPD a _ => a | _ => false end.

Lemma preston_form u isle arb cc ne ni Te Ti pop j : 0 < at_ Ti j ->
  exists k Zp, (0 < ne -> 0 < Te -> ni <> [] -> (forall n, In n ni -> 0 < n) -> (arb = true -> 0 < isle ne Te) ->
     (forall p, pop = Some p -> (forall x, In x p -> 0 <= x) /\ exists z, (0 < z < length p)%nat /\ 0 < at_ p z) -> 0 < k /\ 0 < Zp) /\
  forall Zi, ipd_preston u isle arb cc Zi ne ni Te Ti pop j =
  - (kB u * at_ Ti j / (2 * (Zp + cc)) * (Rpower (1 + 3 * (Zp + cc) * ((Zi + 1) * Qc u * k) / (kB u * at_ Ti j)) (2 / 3) - 1)).
Proof.
  intros HT. pose proof (kB_pos u) as HkB. pose proof (eps0_pos u) as He. pose proof PI_RGT_0 as HP.
  set (Zb := match pop with None => map (fun n => ne / n) ni | Some p => map (fun _ => mean (map2 Rmult (map INR (seq 0 (length p))) p)) ni end).
  exists (kappa_D u isle arb ne ni Te Ti Zb j),
    (match pop with None => ne / sum ni | Some p => mean (map2 Rmult (map (fun z => INR z ^ 2) (seq 0 (length p))) p) / mean (map2 Rmult (map INR (seq 0 (length p))) p) end).
  split.
  - intros Hne HTe Hni Hn Hi Hpop. split; [now apply kappa_D_pos|]. destruct pop as [p|].
    + destruct (Hpop p eq_refl) as (H1 & H2). apply Rdiv_lt_0_compat; apply moment_pos; try assumption.
      * intros z. apply pow2_ge_0.
      * intros z Hz. apply pow_lt, lt_0_INR, Hz.
      * apply pos_INR.
      * intros z Hz. apply lt_0_INR, Hz.
    + apply Rdiv_lt_0_compat; [exact Hne|]. destruct ni as [|n ni]; [contradiction|]. unfold sum. cbn.
      pose proof (Hn n (or_introl eq_refl)). assert (0 <= fold_right Rplus 0 ni) by (apply (sum_nonneg ni); intros z Hz; left; apply Hn; now right). lra.
  - intros Zi. unfold ipd_preston. cbv zeta. fold Zb. set (k := kappa_D _ _ _ _ _ _ _ _ _). set (Zp := match pop with None => ne / sum ni | Some p => _ end). clearbody k Zp.
    assert (E : 3 * (Zp + cc) * (Zi + 1) * e_ch u ^ 2 / (4 * eps0 u * PI * (1 / k) * kB u * at_ Ti j) = 3 * (Zp + cc) * ((Zi + 1) * Qc u * k) / (kB u * at_ Ti j)).
    { unfold Qc. destruct (Req_dec k 0) as [->|Hk]; [|field; lra]. unfold Rdiv. rewrite !Rinv_0, !Rmult_0_r, !Rmult_0_l, Rinv_0. ring. }
    rewrite E. set (X := Rpower _ _). clearbody X. rewrite Rmult_1_l. unfold Rdiv. ring.
Qed.

Theorem C83_partial : forall u isle pint m P pop st j a b,
  deepening m -> all_element_states u isle pint m P pop = Some st ->
  0 < p_ne P -> 0 < p_Te P -> p_ni P <> [] -> (forall n, In n (p_ni P) -> 0 < n) -> 0 < at_ (p_Ti P) j -> (arb_of m = true -> 0 < isle (p_ne P) (p_Te P)) ->
  (forall p, pop = Some p -> (forall x, In x p -> 0 <= x) /\ exists z, (0 < z < length p)%nat /\ 0 < at_ p z) ->
  (j < length st)%nat -> (a < b < length (nth j st []))%nat ->
  at_ (nth j st []) b < at_ (nth j st []) a < 0.
Proof.
  intros u isle pint m P pop st j a b Hm Hst Hne HTe Hni Hn HT Hi Hpop Hj Hab.
  pose proof (eps0_pos u) as He. pose proof PI_RGT_0 as HP. pose proof (kB_pos u) as HkB. pose proof (Qc_pos u) as HQ.
  assert (E : st = per_state P (fun j Z => single u isle pint m P pop Z j)) by (destruct m; try contradiction; injection Hst as Hst; symmetry; exact Hst).
  clear Hst. assert (Hj' : (j < length (p_ZA P))%nat) by (rewrite E in Hj; unfold per_state in Hj; rewrite map_length, seq_length in Hj; exact Hj).
  assert (Er : nth j st [] = map (fun Z => single u isle pint m P pop Z j) (charges (at_ (p_ZA P) j))) by (rewrite E; now apply per_state_nth).
  rewrite Er in *. rewrite map_length in Hab. rewrite !charge_nth by lia. clear E Er Hj st.
  pose proof (lt_INR a b ltac:(lia)) as Lab. pose proof (pos_INR a) as Ha0.
  pose proof (clip6_INR_lt a b ltac:(lia)) as Lc. pose proof (clip6_pos (INR a)) as Hca.
  assert (K : forall x y c, 0 < x -> x < y -> 0 < c -> - (y * Qc u * c) < - (x * Qc u * c) < 0).
  { intros x y c Hx Hy Hc. assert (0 < Qc u * c) by now apply Rmult_lt_0_compat. rewrite !Rmult_assoc.
    assert (x * (Qc u * c) < y * (Qc u * c)) by (apply Rmult_lt_compat_r; lra). assert (0 < x * (Qc u * c)) by now apply Rmult_lt_0_compat. lra. }
  destruct m as [v|arb|arb|arb cr|C|C arb| |l]; try contradiction; cbn [single].
  - rewrite !dh_form. apply K; [lra|lra|]. now apply kappa_D_pos.
  - rewrite !sp_form. apply K; [lra|lra|]. assert (HR : 0 < Rsp (p_ni P)) by apply rp_pos.
    assert (Hk : 0 < kappa_D u isle arb (p_ne P) (p_ni P) (p_Te P) (p_Ti P) (map clip6 (p_Z P)) j) by now apply kappa_D_pos.
    set (k := kappa_D _ _ _ _ _ _ _ _ _) in *. clearbody k. assert (Hs : 0 < 1 / k / Rsp (p_ni P)) by (apply Rdiv_lt_0_compat; [apply Rdiv_lt_0_compat; lra|lra]).
    destruct (gsp_bounds _ Hs) as (G & _). apply Rdiv_lt_0_compat; lra.
  - destruct (preston_form u isle arb (ccv cr) (p_ne P) (p_ni P) (p_Te P) (p_Ti P) pop j HT) as (k & Zp & HkZ & Ep). rewrite !Ep.
    destruct (HkZ Hne HTe Hni Hn Hi Hpop) as (Hk & HZ). assert (Hcc : 0 < Zp + ccv cr) by (unfold ccv; destruct cr; lra).
    assert (HkT : 0 < kB u * at_ (p_Ti P) j) by now apply Rmult_lt_0_compat.
    assert (Hc : 0 < kB u * at_ (p_Ti P) j / (2 * (Zp + ccv cr))) by (apply Rdiv_lt_0_compat; lra).
    set (L := fun z => 3 * (Zp + ccv cr) * ((z + 1) * Qc u * k) / (kB u * at_ (p_Ti P) j)).
    assert (L0 : forall z, 0 <= z -> 0 < L z).
    { intros z Hz. unfold L. apply Rdiv_lt_0_compat; [|exact HkT]. apply Rmult_lt_0_compat; [lra|]. apply Rmult_lt_0_compat; [apply Rmult_lt_0_compat; lra|exact Hk]. }
    assert (L1 : L (INR a) < L (INR b)).
    { unfold L. apply Rmult_lt_compat_r; [now apply Rinv_0_lt_compat|]. apply Rmult_lt_compat_l; [lra|]. apply Rmult_lt_compat_r; [exact Hk|].
      apply Rmult_lt_compat_r; lra. }
    pose proof (bern _ (L0 _ Ha0)) as (B1 & _). pose proof (L0 _ Ha0) as B2.
    assert (B3 : Rpower (1 + L (INR a)) (2 / 3) < Rpower (1 + L (INR b)) (2 / 3)) by (apply Rlt_Rpower_l; lra).
    fold (L (INR a)) (L (INR b)). set (c := kB u * at_ (p_Ti P) j / (2 * (Zp + ccv cr))) in *. split.
    + apply Ropp_lt_contravar, Rmult_lt_compat_l; lra.
    + apply Ropp_lt_gt_0_contravar, Rmult_lt_0_compat; lra.
  - assert (exists c, 0 < c /\ forall Z, ipd_ion_sphere u C Z (p_ne P) (p_Z P) j = - ((clip6 Z + 1) * Qc u * c)) as (c & Hc & Ec).
    { set (r := Rpower (3 * clip6 (at_ (p_Z P) j) / (4 * PI * p_ne P)) (1 / 3)). assert (Hr : 0 < r) by apply rp_pos.
      exists ((match C with Some c => c | None => 3 / 2 end) / r). split.
      - apply Rdiv_lt_0_compat; [|exact Hr]. destruct C; [exact Hm|lra].
      - intros Z. unfold ipd_ion_sphere. cbv zeta. fold r. clearbody r. unfold Qc. field. lra. }
    rewrite !Ec. apply K; [lra|lra|exact Hc].
Qed.
Print Assumptions C83_partial.

Example C83_ex : exists st, all_element_states unit_consts (fun _ _ => 0) (fun _ _ _ => 0) (StewartPyattPrestonIPD false true) (mkPl [2; 1] 3 [1; 1] 5 [5; 5] [6; 1]) (Some [1/2; 0; 1/2]) = Some st
  /\ length (nth 0 st []) = 6%nat /\ at_ (nth 0 st []) 4 < at_ (nth 0 st []) 3 < 0.
Proof.
  eexists. split; [reflexivity|].
  assert (L : length (nth 0 (per_state (mkPl [2; 1] 3 [1; 1] 5 [5; 5] [6; 1]) (fun j Z => single unit_consts (fun _ _ => 0) (fun _ _ _ => 0) (StewartPyattPrestonIPD false true) (mkPl [2; 1] 3 [1; 1] 5 [5; 5] [6; 1]) (Some [1/2; 0; 1/2]) Z j)) []) = 6%nat).
  { rewrite per_state_nth by (cbn; lia). rewrite map_length. unfold charges. rewrite map_length, seq_length. change (at_ (p_ZA (mkPl [2; 1] 3 [1; 1] 5 [5; 5] [6; 1])) 0) with 6.
    replace (Int_part (Ropp 6)) with (-6)%Z; [reflexivity|]. destruct (base_Int_part (Ropp 6)) as [I1 I2].
    assert (Int_part (Ropp 6) <= -6)%Z by (apply le_IZR; lra). assert (-7 < Int_part (Ropp 6))%Z by (apply lt_IZR; lra). lia. }
  split; [exact L|]. eapply (C83_partial _ _ _ (StewartPyattPrestonIPD false true) _ _ _ 0 3 4); try exact I; try reflexivity; try (cbn; lra); try discriminate.
  - intros n [<-|[<-|[]]]; lra.
  - intros p [= <-]. split; [intros x [<-|[<-|[<-|[]]]]; lra|]. exists 2%nat. cbn. split; [lia|lra].
  - cbn. lia.
  - rewrite L. lia.
Qed.

(** The Ecker-Kroell model raises instead: [n_c[:, None]] of a number *)
Theorem C83_ecker_kroell_refuted : forall u isle pint C arb P pop j,
  (j < length (p_ZA P))%nat -> 0 < at_ (p_ZA P) j -> all_element_states u isle pint (EckerKroellIPD C arb) P pop = None.
Proof.
  intros u isle pint C arb P pop j Hj HZ. cbn. destruct (Nat.eqb_spec (length (p_ZA P)) 0) as [E|_]; [lia|].
  destruct (forallb _ _) eqn:F; [|reflexivity]. exfalso. rewrite forallb_forall in F. specialize (F j ltac:(apply in_seq; lia)). apply Nat.eqb_eq in F.
  unfold charges in F. rewrite map_length, seq_length in F. destruct (base_Int_part (- at_ (p_ZA P) j)) as [I1 I2].
  assert (I3 : IZR (Int_part (- at_ (p_ZA P) j)) < IZR 0) by (cbn; lra). apply lt_IZR in I3. lia.
Qed.
Print Assumptions C83_ecker_kroell_refuted.
(** ... and the Pauli shift is the same for all charge states of an element *)
Theorem C83_pauli_refuted : forall u isle pint P pop st j a b,
  all_element_states u isle pint PauliBlockingIPD P pop = Some st -> (j < length st)%nat -> (a < length (nth j st []))%nat -> (b < length (nth j st []))%nat ->
  at_ (nth j st []) a = at_ (nth j st []) b.
Proof.
  intros u isle pint P pop st j a b [= <-] Hj. unfold per_state in Hj. rewrite map_length, seq_length in Hj. rewrite per_state_nth by exact Hj.
  rewrite map_length. intros Ha Hb. now rewrite !charge_nth.
Qed.
Print Assumptions C83_pauli_refuted.

(** *** C84: the table of all charge states agrees with the depression of the state *)
Lemma ipd_ind (Q : ipd_model -> Prop) :
  (forall m, (forall l, m <> IPDSum l) -> Q m) -> (forall l, List.Forall Q l -> Q (IPDSum l)) -> forall m, Q m.
Proof.
  intros H1 H2. fix IH 1. intros m. destruct m as [v|arb|arb|arb cr|C|C arb| |l]; try (apply H1; discriminate).
  apply H2. induction l as [|a l IHl]; constructor; [apply IH|exact IHl].
Qed.
(** models that can be tabulated: no Ecker-Kroell part, constants for every ion *)
Fixpoint tabulated (n : nat) (m : ipd_model) : Prop :=
  match m with
  | ConstantIPD v => length v = n
  | EckerKroellIPD _ _ => False
  | IPDSum l => l <> [] /\ (fix all l := match l with [] => True | a :: l => tabulated n a /\ all l end) l
  | _ => True
  end.
Lemma tabulated_sum n l : tabulated n (IPDSum l) <-> l <> [] /\ List.Forall (tabulated n) l.
Proof.
  cbn. split; intros [H K]; (split; [exact H|]); clear H.
  - induction l as [|a l IH]; constructor; [apply K|apply IH, K].
  - induction K; [exact I|split; assumption].
Qed.
Lemma map2_nth (f : R -> R -> R) (l m : list R) j : length l = length m -> (j < length l)%nat -> at_ (map2 f l m) j = f (at_ l j) (at_ m j).
Proof. revert m j. induction l as [|a l IH]; intros [|b m] [|j] H1 H2; cbn in *; try lia; [reflexivity|]. unfold at_ in *. cbn. apply IH; lia. Qed.
Lemma map2_len (f : R -> R -> R) (l m : list R) : length l = length m -> length (map2 f l m) = length l.
Proof. revert m. induction l as [|a l IH]; intros [|b m] H; cbn in *; try lia. now rewrite IH by lia. Qed.
Lemma ew_same f l m : length l = length m -> ew f l m = Some (map2 f l m).
Proof. intros H. unfold ew. rewrite H, Nat.eqb_refl. reflexivity. Qed.
Lemma add_states_ok x y : length x = length y -> (forall j, (j < length x)%nat -> length (nth j x []) = length (nth j y [])) ->
  exists z, add_states x y = Some z /\ length z = length x /\ forall j, (j < length x)%nat -> nth j z [] = map2 Rplus (nth j x []) (nth j y []).
Proof.
  revert y. induction x as [|a x IH]; intros [|b y] H K; cbn in *; try lia.
  - exists []. split; [reflexivity|]. split; [reflexivity|]. intros; lia.
  - destruct (IH y ltac:(lia) (fun j Hj => K (S j) ltac:(lia))) as (z & E & L & N). rewrite ew_same by apply (K 0%nat ltac:(lia)). cbn. rewrite E. cbn.
    eexists. split; [reflexivity|]. split; [cbn; lia|]. intros [|j] Hj; [reflexivity|]. cbn. apply N. lia.
Qed.

(** a table [st] of [P]'s shape and a depression [ev] that agree *)
Definition agree (P : plasma) (st : list (list R)) (ev : list R) : Prop :=
  length st = length (p_ZA P) /\ length ev = length (p_ZA P) /\
  forall j, (j < length (p_ZA P))%nat -> length (nth j st []) = length (charges (at_ (p_ZA P) j)) /\
    forall k, (k < length (charges (at_ (p_ZA P) j)))%nat -> at_ (p_Z P) j = INR k -> at_ (nth j st []) k = at_ ev j.
Lemma agree_add P st ev st' ev' : agree P st ev -> agree P st' ev' ->
  exists s e, add_states st st' = Some s /\ ew Rplus ev ev' = Some e /\ agree P s e.
Proof.
  intros (L1 & L2 & A) (L1' & L2' & A').
  destruct (add_states_ok st st' ltac:(lia)) as (s & Es & Ls & Ns).
  { intros j Hj. destruct (A j ltac:(lia)), (A' j ltac:(lia)). lia. }
  exists s, (map2 Rplus ev ev'). split; [exact Es|]. split; [apply ew_same; lia|]. split; [lia|]. split; [rewrite map2_len; lia|].
  intros j Hj. destruct (A j Hj) as [B C], (A' j Hj) as [B' C']. rewrite Ns by lia. split; [rewrite map2_len; lia|].
  intros k Hk E. rewrite !map2_nth by lia. now rewrite (C k Hk E), (C' k Hk E).
Qed.
Lemma agree_zero P st ev : agree P st ev -> exists e, ew Rplus [0] ev = Some e /\ agree P st e.
Proof.
  intros (L1 & L2 & A). assert (exists e, ew Rplus [0] ev = Some e /\ length e = length ev /\ forall j, (j < length ev)%nat -> at_ e j = at_ ev j) as (e & E & L & N).
  { unfold ew. destruct (Nat.eqb_spec (length [0]) (length ev)) as [E|E].
    - destruct ev as [|x [|y ev]]; try discriminate. eexists. split; [reflexivity|]. split; [reflexivity|]. intros [|j] Hj; cbn in *; [ring|lia].
    - eexists. split; [reflexivity|]. split; [now rewrite map_length|]. intros j Hj. unfold at_. rewrite (nth_indep _ 0 (0 + 0)) by (rewrite map_length; exact Hj).
      rewrite (map_nth (fun b => 0 + b)). ring. }
  exists e. split; [exact E|]. split; [exact L1|]. split; [lia|]. intros j Hj. destruct (A j Hj) as [B C]. split; [exact B|].
  intros k Hk Ek. rewrite (C k Hk Ek). symmetry. apply N. lia.
Qed.

Theorem C84_consistent : forall u isle pint m P,
  length (p_Z P) = length (p_ZA P) -> tabulated (length (p_ZA P)) m ->
  exists st ev, all_element_states u isle pint m P None = Some st /\ evaluate u isle pint m P = Some ev /\
    length st = length (p_ZA P) /\ length ev = length (p_ZA P) /\
    forall j k, (j < length ev)%nat -> (k < length (nth j st []))%nat -> at_ (p_Z P) j = INR k -> at_ (nth j st []) k = at_ ev j.
Proof.
  intros u isle pint m P HL Hm.
  enough (exists st ev, all_element_states u isle pint m P None = Some st /\ evaluate u isle pint m P = Some ev /\ agree P st ev) as (st & ev & E1 & E2 & A & B & C).
  { exists st, ev. split; [exact E1|]. split; [exact E2|]. split; [exact A|]. split; [exact B|]. intros j k Hj Hk E. destruct (C j ltac:(lia)) as [L D]. apply D; [lia|exact E]. }
  revert Hm. induction m as [m Hs|l IH] using ipd_ind; intros Hm.
  - assert (G : forall f v, length v = length (p_ZA P) -> (forall j k, (j < length (p_ZA P))%nat -> at_ (p_Z P) j = INR k -> f j (INR k) = at_ v j) ->
      agree P (per_state P f) v).
    { intros f v Lv E. split; [unfold per_state; now rewrite map_length, seq_length|]. split; [exact Lv|]. intros j Hj. rewrite per_state_nth by exact Hj.
      rewrite map_length. split; [reflexivity|]. intros k Hk Ek. rewrite charge_nth by exact Hk. now apply E. }
    assert (GE : forall f, (forall j k, (j < length (p_ZA P))%nat -> at_ (p_Z P) j = INR k -> f j (INR k) = single u isle pint m P None (at_ (p_Z P) j) j) ->
      agree P (per_state P f) (map (fun j => single u isle pint m P None (at_ (p_Z P) j) j) (seq 0 (length (p_Z P))))).
    { intros f E. apply G; [now rewrite map_length, seq_length|]. intros j k Hj Ek. unfold at_ at 1.
      rewrite (nth_indep _ 0 (single u isle pint m P None (at_ (p_Z P) 0%nat) 0%nat)) by (rewrite map_length, seq_length; lia).
      rewrite (map_nth (fun j => single u isle pint m P None (at_ (p_Z P) j) j)), seq_nth by lia. now apply E. }
    destruct m as [v|arb|arb|arb cr|C|C arb| |l]; try contradiction; try (exfalso; eapply Hs; reflexivity);
      (eexists; eexists; split; [reflexivity|]; split; [reflexivity|]);
      try (apply GE; intros j k _ Ek; try rewrite <- Ek; reflexivity).
    apply G; [exact Hm|]. intros; reflexivity.
  - apply tabulated_sum in Hm. destruct Hm as [Hne Hall]. destruct l as [|m l]; [congruence|]. clear Hne.
    inversion IH as [|? ? IHm IHl]; subst. inversion Hall as [|? ? Hm Hl]; subst. clear IH Hall.
    destruct (IHm Hm) as (st & ev & E1 & E2 & A). cbn [all_element_states evaluate fold_left obind]. rewrite E1, E2. cbn [obind].
    destruct (agree_zero P st ev A) as (e & E3 & B). rewrite E3. cbn [obind]. clear E1 E2 E3 A ev IHm Hm m. revert st e B.
    induction l as [|m l IH]; intros st e B; cbn [fold_left obind].
    + exists st, e. auto.
    + inversion IHl as [|? ? I1 I2]; subst. inversion Hl as [|? ? H1 H2]; subst. destruct (I1 H1) as (st' & ev' & E1 & E2 & A). rewrite E1, E2. cbn [obind].
      destruct (agree_add P st e st' ev' B A) as (s & e2 & E3 & E4 & D). rewrite E3, E4. exact (IH I2 H2 s e2 D).
Qed.
Print Assumptions C84_consistent.
Example C84_ex : tabulated 2 (IPDSum [ConstantIPD [1; 2]; PauliBlockingIPD; IPDSum [StewartPyattIPD true]]).
Proof. cbn. repeat split; discriminate. Qed.

(** *** C85: Pauli blocking *)
(** The integral is that of the density of a hydrogen-like ground state in momentum
    space, weighted with the Fermi distribution [f(p) <= f(0)]. *)
Theorem C85_integral : forall u a mu Te p, 0 < a -> 0 < Te -> 0 < p ->
  0 < RInt (pauli_integrand u a mu Te) 0 p < PI / (16 * a ^ 3) * (1 / (exp (- mu / (kB u * Te)) + 1)).
Proof.
  intros u a mu Te p Ha HT Hp. pose proof (kB_pos u) as HkB. pose proof (m_e_pos u) as Hme. assert (HkT : 0 < kB u * Te) by now apply Rmult_lt_0_compat.
  set (f := fun q => 1 / (exp (((1 * hbar u * q) ^ 2 / (2 * m_e u) - mu) / (1 * kB u * Te)) + 1)).
  set (w := fun q => q ^ 2 / (1 + a ^ 2 * q ^ 2) ^ 3).
  assert (Hden : forall q, 0 < 1 + a ^ 2 * q ^ 2).
  { intros q. pose proof (pow2_ge_0 a). pose proof (pow2_ge_0 q). assert (0 <= a ^ 2 * q ^ 2) by now apply Rmult_le_pos. lra. }
  assert (Hf : forall q, 0 < f q) by (intros q; unfold f; apply Rdiv_lt_0_compat; [lra|]; pose proof (exp_pos (((1 * hbar u * q) ^ 2 / (2 * m_e u) - mu) / (1 * kB u * Te))); lra).
  assert (Hf0 : forall q, f q <= 1 / (exp (- mu / (kB u * Te)) + 1)).
  { intros q. unfold f, Rdiv at 1 4. rewrite !Rmult_1_l. apply Rinv_le_contravar; [pose proof (exp_pos (- mu / (kB u * Te))); lra|].
    apply Rplus_le_compat_r. assert (Hm : - mu / (kB u * Te) <= ((hbar u * q) ^ 2 / (2 * m_e u) - mu) / (kB u * Te)).
    { apply Rmult_le_compat_r; [left; now apply Rinv_0_lt_compat|]. assert (0 <= (hbar u * q) ^ 2 / (2 * m_e u)); [|lra].
      apply Rmult_le_pos; [apply pow2_ge_0|left; apply Rinv_0_lt_compat; lra]. }
    destruct Hm as [Hm| ->]; [left; now apply exp_increasing|apply Rle_refl]. }
  set (f0 := 1 / (exp (- mu / (kB u * Te)) + 1)) in *.
  assert (Hw : forall q, 0 < q -> 0 < w q) by (intros q Hq; unfold w; apply Rdiv_lt_0_compat; [now apply pow_lt|apply pow_lt, Hden]).
  assert (Cw : forall q, continuous w q).
  { intros q. unfold w. apply cont_div; [apply cont_pow, continuous_id| |apply Rgt_not_eq, pow_lt, Hden].
    apply cont_pow, cont_plus; [apply continuous_const|]. apply cont_mult; [apply continuous_const|apply cont_pow, continuous_id]. }
  assert (Cf : forall q, continuous f q).
  { intros q. unfold f. apply cont_div; [apply continuous_const| |].
    - apply cont_plus; [|apply continuous_const]. apply continuous_exp_comp. apply cont_mult; [|apply continuous_const].
      apply (continuous_plus (V := R_NormedModule) (fun q => (1 * hbar u * q) ^ 2 / (2 * m_e u)) (fun _ => - mu)); [|apply continuous_const].
      apply cont_mult; [|apply continuous_const]. apply cont_pow, cont_mult; [apply continuous_const|apply continuous_id].
    - pose proof (exp_pos (((1 * hbar u * q) ^ 2 / (2 * m_e u) - mu) / (1 * kB u * Te))). lra. }
  assert (Ci : forall q, continuous (pauli_integrand u a mu Te) q) by (intros q; apply (cont_mult w f); [apply Cw|apply Cf]).
  assert (Ew : is_RInt w 0 p (pauliF a p - pauliF a 0)).
  { apply (is_RInt_derive (pauliF a) w); intros q _; [now apply pauliF_derive|apply Cw]. }
  assert (Z : pauliF a 0 = 0) by (unfold pauliF; rewrite Rmult_0_r, atan_0; field; lra). rewrite Z, Rminus_0_r in Ew.
  split.
  - apply RInt_gt_0; [exact Hp| |intros q _; apply Ci]. intros q [Hq _]. unfold pauli_integrand. apply Rmult_lt_0_compat; [now apply Hw|apply Hf].
  - apply Rle_lt_trans with (pauliF a p * f0).
    + rewrite Rmult_comm. apply (is_RInt_le (pauli_integrand u a mu Te) (fun q => f0 * w q) 0 p); [lra| | |].
      * apply (RInt_correct (V := R_CompleteNormedModule)). apply (ex_RInt_continuous (V := R_CompleteNormedModule)). intros q _. apply Ci.
      * apply (is_RInt_scal (V := R_NormedModule) w 0 p f0 _ Ew).
      * intros q [Hq _]. unfold pauli_integrand. fold (w q) (f q). rewrite Rmult_comm. apply Rmult_le_compat_r; [left; now apply Hw|apply Hf0].
    + assert (0 < f0) by (eapply Rlt_le_trans; [apply (Hf 0)|apply Hf0]). apply Rmult_lt_compat_r; [assumption|]. apply pauliF_bound; lra.
Qed.
Print Assumptions C85_integral.

Lemma pauli_mono u a mu Te x p : 0 <= x <= p -> RInt (pauli_integrand u a mu Te) 0 x <= RInt (pauli_integrand u a mu Te) 0 p.
Proof.
    intros [Hx Hp]. destruct Hp as [Hp|<-]; [|apply Rle_refl].
    assert (Ci : forall q, continuous (pauli_integrand u a mu Te) q).
    { intros q. unfold pauli_integrand. apply cont_mult.
      - apply cont_div; [apply cont_pow, continuous_id| |].
        + apply cont_pow, cont_plus; [apply continuous_const|]. apply cont_mult; [apply continuous_const|apply cont_pow, continuous_id].
        + apply Rgt_not_eq, pow_lt. pose proof (pow2_ge_0 a). pose proof (pow2_ge_0 q). assert (0 <= a ^ 2 * q ^ 2) by now apply Rmult_le_pos. lra.
      - apply cont_div; [apply continuous_const| |].
        + apply cont_plus; [|apply continuous_const]. apply continuous_exp_comp. apply cont_mult; [|apply continuous_const].
          apply (continuous_plus (V := R_NormedModule) (fun q => (1 * hbar u * q) ^ 2 / (2 * m_e u)) (fun _ => - mu)); [|apply continuous_const].
          apply cont_mult; [|apply continuous_const]. apply cont_pow, cont_mult; [apply continuous_const|apply continuous_id].
        + pose proof (exp_pos (((1 * hbar u * q) ^ 2 / (2 * m_e u) - mu) / (1 * kB u * Te))). lra. }
    assert (X : forall y z, ex_RInt (pauli_integrand u a mu Te) y z) by (intros y z; apply (ex_RInt_continuous (V := R_CompleteNormedModule)); intros q _; apply Ci).
    pose proof (RInt_Chasles (V := R_CompleteNormedModule) _ 0 x p (X 0 x) (X x p)) as EC.
    change (RInt (pauli_integrand u a mu Te) 0 x + RInt (pauli_integrand u a mu Te) x p = RInt (pauli_integrand u a mu Te) 0 p) in EC.
    assert (0 < RInt (pauli_integrand u a mu Te) x p); [|lra]. apply RInt_gt_0; [exact Hp| |intros q _; apply Ci].
    intros q [Hq _]. unfold pauli_integrand. apply Rmult_lt_0_compat.
    - apply Rdiv_lt_0_compat; [apply pow_lt; lra|]. apply pow_lt. pose proof (pow2_ge_0 a). pose proof (pow2_ge_0 q). assert (0 <= a ^ 2 * q ^ 2) by now apply Rmult_le_pos. lra.
    - apply Rdiv_lt_0_compat; [lra|]. pose proof (exp_pos (((1 * hbar u * q) ^ 2 / (2 * m_e u) - mu) / (1 * kB u * Te))). lra.
Qed.
(** the integral exists *)
Lemma C85_exists : forall u a mu Te, 0 < a -> 0 < Te -> exists l, is_lim (fun p => RInt (pauli_integrand u a mu Te) 0 p) p_infty (Finite l).
Proof.
  intros u a mu Te Ha HT. set (I := fun p => RInt (pauli_integrand u a mu Te) 0 p).
  destruct (completeness (fun y => exists p, 0 < p /\ y = I p)) as (l & Hub & Hlub).
  - exists (PI / (16 * a ^ 3) * (1 / (exp (- mu / (kB u * Te)) + 1))). intros y (p & Hp & ->). left. now apply C85_integral.
  - exists (I 1), 1. split; [lra|reflexivity].
  - exists l. apply is_lim_spec. intros eps. destruct (Classical_Prop.classic (exists p, 0 < p /\ l - eps < I p)) as [(p & Hp & Hl)|N].
    + exists p. intros q Hq. assert (I p <= I q) by (apply pauli_mono; lra). assert (I q <= l) by (apply Hub; exists q; split; [lra|reflexivity]).
      apply Rabs_lt_between. pose proof (cond_pos eps). split; lra.
    + exfalso. assert (l <= l - eps); [|pose proof (cond_pos eps); lra]. apply Hlub. intros y (p & Hp & ->).
      destruct (Rle_lt_dec (I p) (l - eps)); [assumption|]. exfalso. apply N. exists p. auto.
Qed.

(** ... so with the exact integral the shift is negative and below the attraction
    at the reduced Bohr radius, times the occupation of the ground state *)
Theorem C85_bound : forall u (pint : R -> R -> R -> R) Zi ne Te mu,
  / 1000000 <= Zi -> 0 < Te ->
  is_lim (fun p => RInt (pauli_integrand u (a_0 u / Zi) mu Te) 0 p) p_infty (pint (a_0 u / Zi) ne Te) ->
  - ((Zi + 1) * Zi * e_ch u ^ 2 / (4 * PI * eps0 u * a_0 u) * (1 / (exp (- mu / (kB u * Te)) + 1))) <= ipd_pauli_blocking u pint Zi ne Te < 0.
Proof.
  intros u pint Zi ne Te mu HZ HT HL. pose proof (a_0_pos u) as Ha0. pose proof PI_RGT_0 as HP. pose proof (eps0_pos u) as He. pose proof (e_pos u) as Hch.
  unfold ipd_pauli_blocking. cbv zeta. rewrite clip6_id by exact HZ. set (a := a_0 u / Zi) in *. assert (Ha : 0 < a) by (apply Rdiv_lt_0_compat; lra).
  set (f0 := 1 / (exp (- mu / (kB u * Te)) + 1)). set (I := fun p => RInt (pauli_integrand u a mu Te) 0 p) in HL.
  assert (B : forall p, 0 < p -> 0 < I p < PI / (16 * a ^ 3) * f0) by (intros p Hp; now apply C85_integral).
  assert (Mono : forall p, 1 <= p -> I 1 <= I p) by (intros p Hp; apply pauli_mono; lra).
  assert (U : pint a ne Te <= PI / (16 * a ^ 3) * f0).
  { apply (is_lim_le_loc I (fun _ => PI / (16 * a ^ 3) * f0) p_infty (pint a ne Te) (PI / (16 * a ^ 3) * f0)); [|exact HL|apply is_lim_const].
    exists 0. intros p Hp. left. now apply B. }
  assert (L : I 1 <= pint a ne Te).
  { apply (is_lim_le_loc (fun _ => I 1) I p_infty (I 1) (pint a ne Te)); [|apply is_lim_const|exact HL]. exists 1. intros p Hp. apply Mono. lra. }
  destruct (B 1 Rlt_0_1) as [B1 _].
  set (c := (Zi + 1) * e_ch u ^ 2 / (4 * PI * eps0 u) * (16 * a ^ 2) / PI).
  assert (Hc : 0 < c).
  { assert (0 < e_ch u ^ 2) by now apply pow_lt. assert (0 < a ^ 2) by now apply pow_lt. unfold c. apply Rdiv_lt_0_compat; [|lra]. apply Rmult_lt_0_compat; [|lra].
    apply Rdiv_lt_0_compat; [apply Rmult_lt_0_compat; lra|]. apply Rmult_lt_0_compat; lra. }
  assert (Ec : (Zi + 1) * Zi * e_ch u ^ 2 / (4 * PI * eps0 u * a_0 u) * f0 = c * (PI / (16 * a ^ 3) * f0)).
  { unfold c, a. clearbody f0. field. repeat split; lra. }
  rewrite Ec. split; [apply Ropp_le_contravar, Rmult_le_compat_l; lra|]. apply Ropp_lt_gt_0_contravar, Rmult_lt_0_compat; lra.
Qed.
Print Assumptions C85_bound.
Example C85_ex : exists l, - (3 * 2 / (4 * PI) * (1 / (exp (- (1) / 1) + 1))) <= ipd_pauli_blocking unit_consts (fun _ _ _ => l) 2 1 1 < 0.
Proof.
  destruct (C85_exists unit_consts (1 / 2) 1 1 ltac:(lra) ltac:(lra)) as (l & Hl). exists l.
  pose proof (C85_bound unit_consts (fun _ _ _ => l) 2 1 1 1 ltac:(lra) ltac:(lra) Hl) as B. cbn in B.
  replace (3 * 2 / (4 * PI) * (1 / (exp (- (1) / 1) + 1))) with ((2 + 1) * 2 * (1 * (1 * 1)) / (4 * PI * 1 * 1) * (1 / (exp (- (1) / (1 * 1)) + 1))); [exact B|].
  pose proof PI_RGT_0. replace (1 * 1) with 1 by ring. pose proof (exp_pos (- (1) / 1)). field. lra.
Qed.

(** *** C86: the Preston form *)
Theorem C86_debye_partial : forall u isle arb crowley Zi ne n Te T, 0 <= Zi -> 0 < ne -> 0 < n -> 0 < Te -> 0 < T -> (arb = true -> 0 < isle ne Te) ->
  ipd_debye_hueckel u isle arb Zi ne [n] Te [T] [ne / n] 0 <= ipd_preston u isle arb (ccv crowley) Zi ne [n] Te [T] None 0 < 0.
Proof.
  intros u isle arb crowley Zi ne n Te T HZ Hne Hn HTe HT Hi. pose proof (kB_pos u) as HkB. pose proof (eps0_pos u) as He. pose proof PI_RGT_0 as HP. pose proof (Qc_pos u) as HQ.
  rewrite dh_form. assert (Hk : 0 < kappa_D u isle arb ne [n] Te [T] [ne / n] 0) by (apply kappa_D_pos; try assumption; intros x [<-|[]]; exact Hn).
  unfold ipd_preston. cbv zeta. cbn [map]. change (at_ [T] 0) with T. set (k := kappa_D _ _ _ _ _ _ _ _ _) in *. clearbody k.
  replace (ne / sum [n]) with (ne / n) by (unfold sum; cbn; f_equal; ring).
  assert (Hz : 0 < ne / n) by (apply Rdiv_lt_0_compat; lra). set (z := ne / n + ccv crowley). assert (Hzp : 0 < z) by (unfold z, ccv; destruct crowley; lra). clearbody z.
  assert (HkT : 0 < kB u * T) by now apply Rmult_lt_0_compat.
  set (L := 3 * z * (Zi + 1) * e_ch u ^ 2 / (4 * eps0 u * PI * (1 / k) * kB u * T)).
  assert (EL : L = 3 * z * ((Zi + 1) * Qc u * k) / (kB u * T)) by (unfold L, Qc; field; lra).
  assert (HX : 0 < (Zi + 1) * Qc u * k) by (apply Rmult_lt_0_compat; [apply Rmult_lt_0_compat; lra|lra]).
  assert (HL : 0 < L) by (rewrite EL; apply Rdiv_lt_0_compat; [apply Rmult_lt_0_compat; lra|lra]).
  destruct (bern L HL) as [B1 B2]. set (P := Rpower (1 + L) (2 / 3)) in *. clearbody P.
  replace (- (1 * kB u * T) / (2 * z) * (P - 1)) with (- (kB u * T / (2 * z) * (P - 1))) by (field; lra).
  assert (Hc : 0 < kB u * T / (2 * z)) by (apply Rdiv_lt_0_compat; lra). split.
  - apply Ropp_le_contravar. assert (E : (Zi + 1) * Qc u * k = kB u * T / (2 * z) * (2 / 3 * L)) by (rewrite EL; field; lra). rewrite E. apply Rmult_le_compat_l; lra.
  - apply Ropp_lt_gt_0_contravar, Rmult_lt_0_compat; lra.
Qed.
Print Assumptions C86_debye_partial.
Example C86_ex : ipd_debye_hueckel unit_consts (fun _ _ => 0) false 0 3 [2] 7 [7] [3 / 2] 0
  <= ipd_preston unit_consts (fun _ _ => 0) false (ccv true) 0 3 [2] 7 [7] None 0 < 0.
Proof. apply C86_debye_partial; try lra. Qed.

(** A population that consists of the mean charge only gives another result: the
    charges are averaged over the number of states, not summed *)
Theorem C86_population_refuted : exists u isle Zi ne ni Te Ti p,
  p = [0; 1] /\ ne = 1 /\ ni = [1] /\ 0 < Te /\
  ipd_preston u isle false (ccv true) Zi ne ni Te Ti (Some p) 0 <> ipd_preston u isle false (ccv true) Zi ne ni Te Ti None 0.
Proof.
  exists unit_consts, (fun _ _ => 0), 1, 1, [1], 1, [1], [0; 1]. split; [reflexivity|]. split; [reflexivity|]. split; [reflexivity|]. split; [lra|].
  pose proof PI_RGT_0 as HP.
  unfold ipd_preston. cbv zeta. cbn [map length seq map2]. change (at_ [1] 0) with 1. change (kB unit_consts) with 1. change (e_ch unit_consts) with 1. change (eps0 unit_consts) with 1.
  replace (mean [INR 0 * 0; INR 1 * 1]) with (/ 2) by (unfold mean, sum; cbn; field).
  replace (mean [INR 0 ^ 2 * 0; INR 1 ^ 2 * 1]) with (/ 2) by (unfold mean, sum; cbn; field).
  replace (1 / sum [1]) with 1 by (unfold sum; cbn; field). replace (/ 2 / / 2) with 1 by field. replace (1 / 1) with 1 by field.
  set (k1 := kappa_D unit_consts (fun _ _ => 0) false 1 [1] 1 [1] [/ 2] 0). set (k2 := kappa_D unit_consts (fun _ _ => 0) false 1 [1] 1 [1] [1] 0).
  assert (Hk1 : 0 < k1) by (apply kappa_D_pos; try (cbn; lra); try discriminate; intros x [<-|[]]; lra).
  assert (Hk : k1 < k2).
  { unfold k1, k2, kappa_D. apply sqrt_lt_1; unfold kappa_i_sq, kappa_e_sq, sum; cbn; field_simplify; lra. }
  clearbody k1 k2. set (L := fun k => 3 * (1 + ccv true) * (1 + 1) * 1 ^ 2 / (4 * 1 * PI * (1 / k) * 1 * 1)).
  change (ccv true) with 0 in *.
  assert (EL : forall k, 0 < k -> L k = 6 * k / (4 * PI)) by (intros k Hk'; unfold L; field; lra).
  fold (L k1) (L k2). intros E.
  assert (L1 : 0 < L k1) by (rewrite EL by lra; apply Rdiv_lt_0_compat; lra).
  assert (L12 : L k1 < L k2) by (rewrite !EL by lra; apply Rmult_lt_compat_r; [apply Rinv_0_lt_compat; lra|lra]).
  assert (R12 : Rpower (1 + L k1) (2 / 3) < Rpower (1 + L k2) (2 / 3)) by (apply Rlt_Rpower_l; lra).
  assert (Rpower (1 + L k1) (2 / 3) = Rpower (1 + L k2) (2 / 3)); [|lra].
  apply (Rmult_eq_reg_l (- (1 * 1 * 1) / (2 * (1 + 0)))); lra.
Qed.
Print Assumptions C86_population_refuted.
