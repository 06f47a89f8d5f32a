(** Properties C22-C24: geometry and convolution. *)
From Coq Require Import Reals List Arith Lra Lia.
From Verif Require Import M_Const M_PlasmaPhysics L_PlasmaPhysics M_Setup L_Setup.
Import ListNotations.
Open Scope R_scope.

Definition exSetup : setup := mkSetup (PI / 2) 4 3 (fun m => 3 + INR m) (fun w => if Req_EM_T w 0 then 1 else 0) true 1.

(** ** C22 *)
Theorem C22_energy_resolved_k : forall u s i,
  correct_k_dispersion s = true -> 0 < energy s -> 0 < measured s i ->
  let kin := energy s / (hbar u * c_light u) in
  let kout := measured s i / (hbar u * c_light u) in
  exists r, full_k u s i = Some r /\
    0 <= r /\ r ^ 2 = kin ^ 2 + kout ^ 2 - 2 * kin * kout * cos (angle s) /\
    Rabs (kout - kin) <= r <= kout + kin /\
    (measured s i = energy s -> r = Rabs (k u s)).
Proof. exact full_k_spec. Qed.
Print Assumptions C22_energy_resolved_k.
Theorem C22_elastic_k : forall u s, energy s <> 0 ->
  k u s = 2 * (energy s / (hbar u * c_light u)) * sin (angle s / 2).
Proof. intros u s H. rewrite k_formula by assumption. cpos u. field. split; lra. Qed.
Print Assumptions C22_elastic_k.
Theorem C22_even_in_angle : forall u th E n m inst f i,
  full_k u (mkSetup (- th) E n m inst true f) i = full_k u (mkSetup th E n m inst true f) i.
Proof. intros u th E n m inst f i. exact (full_k_even u (mkSetup th E n m inst true f) i). Qed.
Print Assumptions C22_even_in_angle.
Theorem C22_grows_with_angle : forall u E n m inst c f a b, 0 < E -> 0 <= a -> a < b -> b <= PI ->
  k u (mkSetup a E n m inst c f) < k u (mkSetup b E n m inst c f) /\
  forall i ra rb, 0 < m i ->
    full_k u (mkSetup a E n m inst true f) i = Some ra -> full_k u (mkSetup b E n m inst true f) i = Some rb -> ra < rb.
Proof.
  intros u E n m inst c f a b HE Ha Hab Hb. split; [now apply k_mono|].
  intros i ra rb Hm. now apply full_k_mono.
Qed.
Print Assumptions C22_grows_with_angle.
(** The option turned off: every channel sees the elastic k. *)
Theorem C22_correction_off : forall u s i n_e, correct_k_dispersion s = false ->
  full_k u s i = Some (k u s) /\ dispersion_corrected_k u s n_e i = Some (k u s).
Proof. intros u s i n_e H. unfold full_k, dispersion_corrected_k. now rewrite H. Qed.
Print Assumptions C22_correction_off.
(** In a plasma: the vacuum limit, and nan exactly below the plasma frequency. *)
Theorem C22_plasma_dispersion : forall u s i, 0 < energy s -> 0 < measured s i ->
  dispersion_corrected_k u s 0 i = full_k u s i /\
  (correct_k_dispersion s = true -> forall n_e,
    (exists r, dispersion_corrected_k u s n_e i = Some r) <->
    hbar u * plasma_frequency u n_e <= energy s /\ hbar u * plasma_frequency u n_e <= measured s i).
Proof.
  intros u s i He Hm. split; [now apply dispersion_vacuum|]. intros Hc n_e.
  rewrite dispersion_defined by assumption. pose proof (hbar_pos u) as Hh.
  assert (G : forall a b, a <= b / hbar u <-> hbar u * a <= b).
  { intros a b. split; intros H.
    - apply (Rmult_le_compat_l (hbar u)) in H; [|lra]. replace (hbar u * (b / hbar u)) with b in H by (field; lra). exact H.
    - apply (Rmult_le_reg_l (hbar u)); [lra|]. replace (hbar u * (b / hbar u)) with b by (field; lra). exact H. }
  rewrite !G. reflexivity.
Qed.
Print Assumptions C22_plasma_dispersion.
(** Dispersion shortens the elastic scattering vector by the refractive index. *)
Theorem C22_refraction_shortens_k : forall u s i n_e r, 0 < energy s -> measured s i = energy s ->
  correct_k_dispersion s = true -> 0 <= n_e -> dispersion_corrected_k u s n_e i = Some r ->
  r ^ 2 = (1 - (plasma_frequency u n_e * hbar u / energy s) ^ 2) * k u s ^ 2 /\ 0 <= r <= Rabs (k u s).
Proof. exact refraction. Qed.
Print Assumptions C22_refraction_shortens_k.
Theorem C22_redistribution_factor : forall s i, 0 < energy s -> 0 < measured s i ->
  0 < frc s i /\ (frc_exponent s = 0 -> frc s i = 1) /\ (measured s i = energy s -> frc s i = 1) /\
  (frc_exponent s = 1 -> frc s i = measured s i / energy s) /\
  (frc_exponent s = 2 -> frc s i = (measured s i / energy s) ^ 2).
Proof. exact frc_ok. Qed.
Print Assumptions C22_redistribution_factor.
Example C22_ex : correct_k_dispersion exSetup = true /\ 0 < energy exSetup /\ 0 < measured exSetup 0 /\
  full_k unit_consts exSetup 0 = Some 5.
Proof.
  repeat split; try (cbn; lra). unfold full_k. cbn [correct_k_dispersion energy measured angle exSetup hbar c_light unit_consts].
  rewrite cos_PI2. change (INR 0) with 0. rewrite sqrto_some by lra. f_equal.
  replace (_ - _) with (5 ^ 2) by field. rewrite sqrt_pow2; lra.
Qed.

(** ** C23 *)
(** On an ascending grid the result is the aligned convolution sum, cut to the
    pairs of channels that are less than about half the spectrum apart. *)
Theorem C23_aligned_partial : forall u s E0 h Sfac i,
  (2 <= n_chan s)%nat -> 0 < h -> (forall m, (m < n_chan s)%nat -> measured s m = E0 + INR m * h) ->
  (i < n_chan s)%nat ->
  let c := ((n_chan s - 1) / 2)%nat in
  convolve u s Sfac i =
  nsum (n_chan s) (fun j => if (Nat.leb j (i + c) && Nat.ltb (i + c - j) (n_chan s))%bool
     then Sfac j * instrument s ((measured s i - measured s j) / hbar u) else 0) * (h / hbar u).
Proof. intros u s E0 h Sfac i Hn Hh Hg Hi c. exact (convolve_window u s E0 h Hn Hg Sfac i Hh Hi). Qed.
Print Assumptions C23_aligned_partial.
(** The complete sum, when the instrument function vanishes beyond half the
    width of the spectrum. *)
Theorem C23_narrow_instrument_partial : forall u s E0 h Sfac i,
  (2 <= n_chan s)%nat -> 0 < h -> (forall m, (m < n_chan s)%nat -> measured s m = E0 + INR m * h) ->
  (i < n_chan s)%nat ->
  (forall w, INR (n_chan s) * h / (2 * hbar u) <= Rabs w -> instrument s w = 0) ->
  convolve u s Sfac i = nsum (n_chan s) (fun j => Sfac j * instrument s ((measured s i - measured s j) / hbar u)) * (h / hbar u).
Proof.
  intros u s E0 h Sfac i Hn Hh Hg Hi Hz. apply (convolve_full u s E0 h Hn Hg Sfac i Hh Hi).
  - intros w Hw. apply Hz. lra.
  - intros w ->. apply Hz. rewrite Rabs_Ropp. apply Rle_abs.
Qed.
Print Assumptions C23_narrow_instrument_partial.
(** A delta-like instrument returns the spectrum unchanged. *)
Theorem C23_peak_does_not_move_partial : forall u s E0 h Sfac i,
  (2 <= n_chan s)%nat -> 0 < h -> (forall m, (m < n_chan s)%nat -> measured s m = E0 + INR m * h) ->
  (i < n_chan s)%nat -> instrument s 0 * (h / hbar u) = 1 -> (forall w, w <> 0 -> instrument s w = 0) ->
  convolve u s Sfac i = Sfac i.
Proof. exact convolve_delta. Qed.
Print Assumptions C23_peak_does_not_move_partial.
Theorem C23_linear : forall u s S1 S2 a b i,
  convolve u s (fun j => a * S1 j + b * S2 j) i = a * convolve u s S1 i + b * convolve u s S2 i.
Proof. exact convolve_linear. Qed.
Print Assumptions C23_linear.
(** Refuted for an instrument function as wide as the spectrum, already for
    three channels; and on a descending grid with an even number of channels the
    result is displaced by one channel and has the opposite sign. *)
Theorem C23_refuted :
  (exists u s Sfac i, n_chan s = 3%nat /\ (i < 3)%nat /\ (forall m, measured s m = 1 + INR m * 1) /\
     convolve u s Sfac i <> nsum 3 (fun j => Sfac j * instrument s ((measured s i - measured s j) / hbar u)) * (1 / hbar u)) /\
  (forall u s E0 h q Sfac i, n_chan s = (2 * q)%nat -> (1 <= q)%nat -> h < 0 ->
     (forall m, (m < n_chan s)%nat -> measured s m = E0 + INR m * h) -> (i < n_chan s)%nat ->
     convolve u s Sfac i =
     nsum (n_chan s) (fun j => if (Nat.ltb j (i + q) && Nat.ltb (i + q) (n_chan s + 1 + j))%bool
                      then Sfac j * instrument s ((measured s i - measured s j - h) / hbar u) else 0) * (h / hbar u)).
Proof.
  split; [|exact convolve_desc_even].
  exists unit_consts, (mkSetup 1 1 3 (fun m => 1 + INR m * 1) (fun _ => 1) true 0), (fun _ => 1), O.
  split; [reflexivity|]. split; [lia|]. split; [reflexivity|].
  unfold convolve, conv_same, conv_full. cbn [n_chan instrument measured nsum hbar unit_consts].
  change ((3 - 1) / 2)%nat with 1%nat. cbn. lra.
Qed.
Print Assumptions C23_refuted.
Example C23_ex : (2 <= n_chan exSetup)%nat /\ (forall m, (m < n_chan exSetup)%nat -> measured exSetup m = 3 + INR m * 1) /\
  instrument exSetup 0 * (1 / hbar unit_consts) = 1 /\ (forall w, w <> 0 -> instrument exSetup w = 0) /\
  convolve unit_consts exSetup (fun j => 7 + INR j) 2 = 9.
Proof.
  assert (H0 : instrument exSetup 0 * (1 / hbar unit_consts) = 1).
  { cbn. destruct (Req_EM_T 0 0); [field|contradiction]. }
  assert (H1 : forall w, w <> 0 -> instrument exSetup w = 0).
  { intros w Hw. cbn. destruct (Req_EM_T w 0); [contradiction|reflexivity]. }
  assert (H2 : forall m, (m < n_chan exSetup)%nat -> measured exSetup m = 3 + INR m * 1) by (intros; cbn; ring).
  split; [cbn; lia|]. split; [exact H2|]. split; [exact H0|]. split; [exact H1|].
  rewrite (C23_peak_does_not_move_partial unit_consts exSetup 3 1); auto; try lra; cbn; try lia. lra.
Qed.

(** ** C24 *)
Theorem C24_probe_setup : forall u kk s, kk <> 0 ->
  (sin (angle s / 2) <> 0 ->
    exists s', get_probe_setup u kk s = Some s' /\ k u s' = kk /\
      angle s' = angle s /\ n_chan s' = n_chan s /\ measured s' = measured s /\ instrument s' = instrument s /\
      correct_k_dispersion s' = correct_k_dispersion s /\ frc_exponent s' = frc_exponent s) /\
  (sin (angle s / 2) = 0 -> get_probe_setup u kk s = None).
Proof.
  intros u kk s Hk. split; intros H.
  - destruct (proj1 (probe_defined u kk s) H) as [s' E]. exists s'. split; [assumption|]. now apply probe_k.
  - destruct (get_probe_setup u kk s) as [s'|] eqn:E; [|reflexivity]. exfalso.
    apply (proj2 (probe_defined u kk s)); eauto.
Qed.
Print Assumptions C24_probe_setup.
(** A setup asked for its own k is returned unchanged. *)
Theorem C24_own_k : forall u s, energy s <> 0 -> sin (angle s / 2) <> 0 -> get_probe_setup u (k u s) s = Some s.
Proof. exact probe_own. Qed.
Print Assumptions C24_own_k.
Example C24_ex : sin (angle exSetup / 2) <> 0 /\ energy exSetup <> 0.
Proof. cbn. split; [|lra]. apply Rgt_not_eq, sin_gt_0; pose proof PI_RGT_0; lra. Qed.
