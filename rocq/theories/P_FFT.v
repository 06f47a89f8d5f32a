(** Theorems about the fast Fourier transforms. *)
From Coq Require Import Reals Lra List Lia Arith Bool.
From Coquelicot Require Import Coquelicot.
From Verif Require Import M_HNC L_HNC M_FFT L_FFT.
Import ListNotations.
Open Scope R_scope.

(** ** C118: the sine transform *)
Theorem C118_sine_transform : forall M y k, (0 < M)%nat -> (k < 2 * M)%nat ->
  sinft (2 * M) y k = nsum (2 * M) (fun j => y j * sin (PI * INR j * INR k / INR (2 * M))).
Proof. exact sinft_spec. Qed.
Print Assumptions C118_sine_transform.
Theorem C118_self_inverse : forall M y j, (0 < M)%nat -> (0 < j < 2 * M)%nat ->
  2 / INR (2 * M) * sinft (2 * M) (sinft (2 * M) y) j = y j.
Proof. intros M y j HM Hj. rewrite sinft_inverse by assumption. field. apply not_0_INR. lia. Qed.
Print Assumptions C118_self_inverse.
(** an impulse at the first place gives a sine, sampled at six places *)
Example C118_impulse : forall k, (k < 6)%nat -> sinft 6 (fun j => if Nat.eqb j 1 then 1 else 0) k = sin (PI * INR k / 6).
Proof.
  intros k Hk. rewrite (C118_sine_transform 3) by lia. cbn [nsum Nat.mul Nat.add Nat.eqb]. replace (PI * INR 1 * INR k / INR 6) with (PI * INR k / 6) by (cbn [INR]; field). ring.
Qed.
(** the entry at zero is lost *)
Example C118_zero_lost : sinft 6 (sinft 6 (fun _ => 1)) 0%nat <> INR 6 / 2 * 1.
Proof.
  rewrite (C118_sine_transform 3) by lia. rewrite nsum_0; [cbn [INR]; lra|]. intros i _. replace (PI * INR i * INR 0 / INR (2 * 3)) with 0 by (cbn [INR]; field; cbn; lra). rewrite sin_0. ring.
Qed.

(** ** C119: the complex transform *)
Theorem C119_transform : forall p y sg a, sg = 1 \/ sg = - 1 -> (a < 2 ^ p)%nat ->
  let N := (2 ^ p)%nat in
  let ph := fun r => sg * (2 * PI * INR r * INR a / INR N) in
  four1 N y sg (2 * a)%nat = nsum N (fun r => y (2 * r)%nat * cos (ph r) - y (2 * r + 1)%nat * sin (ph r)) /\
  four1 N y sg (2 * a + 1)%nat = nsum N (fun r => y (2 * r)%nat * sin (ph r) + y (2 * r + 1)%nat * cos (ph r)).
Proof.
  intros p y sg a Hs Ha N ph. pose proof (four1_spec p y sg a Hs Ha) as E. split.
  - apply (f_equal fst) in E. unfold DFT in E. rewrite csum_fst in E. exact E.
  - apply (f_equal snd) in E. unfold DFT in E. rewrite csum_snd in E. exact E.
Qed.
Print Assumptions C119_transform.
Theorem C119_inverse : forall p y sg j, sg = 1 \/ sg = - 1 -> (j < 2 * 2 ^ p)%nat ->
  four1 (2 ^ p) (four1 (2 ^ p) y sg) (- sg) j = INR (2 ^ p) * y j.
Proof.
  intros p y sg j Hs Hj. destruct (parity j) as [a [->| ->]]; pose proof (four1_inverse p y sg a Hs ltac:(lia)) as E.
  - apply (f_equal fst) in E. unfold cx, Cmult, RtoC in E. cbn [fst snd] in E. rewrite E. ring.
  - apply (f_equal snd) in E. unfold cx, Cmult, RtoC in E. cbn [fst snd] in E. rewrite E. ring.
Qed.
Print Assumptions C119_inverse.
(** a complex array of four entries, 1 + 2i, 3, -1, i, at the second frequency *)
Example C119_four : let y := fun i => nth i [1; 2; 3; 0; -1; 0; 0; 1] 0 in four1 4 y 1 4%nat = - 3 /\ four1 4 y 1 5%nat = 1.
Proof.
  intros y. destruct (C119_transform 2 y 1 2 (or_introl eq_refl) ltac:(cbn; lia)) as [A B]. cbn [Nat.pow Nat.mul Nat.add nsum] in A, B. rewrite A, B. unfold y. cbn [nth].
  replace (1 * (2 * PI * INR 0 * INR 2 / INR 4)) with 0 by (cbn [INR]; field). replace (1 * (2 * PI * INR 1 * INR 2 / INR 4)) with PI by (cbn [INR]; field). replace (1 * (2 * PI * INR 2 * INR 2 / INR 4)) with (2 * PI) by (cbn [INR]; field). replace (1 * (2 * PI * INR 3 * INR 2 / INR 4)) with (PI + 2 * INR 1 * PI) by (cbn [INR]; field).
  rewrite cos_period, sin_period, cos_0, sin_0, cos_PI, sin_PI, cos_2PI, sin_2PI. split; ring.
Qed.

(** ** C120: the transform of a real array *)
Theorem C120_forward : forall p y, let n := (2 * 2 ^ p)%nat in
  (forall k, (0 < k < 2 ^ p)%nat ->
     realfft n y true (2 * k)%nat = nsum n (fun j => y j * cos (2 * PI * INR j * INR k / INR n)) /\
     realfft n y true (2 * k + 1)%nat = nsum n (fun j => y j * sin (2 * PI * INR j * INR k / INR n))) /\
  realfft n y true 0%nat = nsum n y /\ realfft n y true 1%nat = nsum n (fun j => (-1) ^ j * y j).
Proof.
  intros p y n. destruct (realfft_forward p y) as [A B]. split; [|exact B]. intros k Hk. pose proof (A k Hk) as E. split.
  - apply (f_equal fst) in E. unfold RF in E. rewrite csum_fst in E. cbn [cx fst] in E. unfold n. rewrite E. apply nsum_ext. intros j _. unfold Cmult, RtoC, cis. cbn [fst snd]. ring.
  - apply (f_equal snd) in E. unfold RF in E. rewrite csum_snd in E. cbn [cx snd] in E. unfold n. rewrite E. apply nsum_ext. intros j _. unfold Cmult, RtoC, cis. cbn [fst snd]. ring.
Qed.
Print Assumptions C120_forward.
Theorem C120_inverse : forall p y j, let n := (2 * 2 ^ p)%nat in (j < n)%nat ->
  2 / INR n * realfft n (realfft n y true) false j = y j.
Proof. intros p y j n Hj. unfold n. rewrite realfft_inverse by exact Hj. field. apply not_0_INR. pose proof (Nat.pow_nonzero 2 p ltac:(lia)). lia. Qed.
Print Assumptions C120_inverse.
(** the transform built on numpy's differs at index one only, where it is zero *)
Theorem C120_numpy : forall p y j, let n := (2 * 2 ^ p)%nat in (j < n)%nat ->
  (j <> 1%nat -> realfft n y true j = realfftnp n y j) /\ realfftnp n y 1%nat = 0.
Proof.
  intros p y j n Hj. destruct (realfft_forward p y) as [A [B _]]. pose proof (realfftnp_spec n y) as E.
  assert (RF n y 0 = RtoC (nsum n y)) as Z.
  { unfold RF. apply injective_projections; rewrite ?csum_fst, ?csum_snd; cbn [RtoC fst snd].
    - apply nsum_ext. intros i _. replace (2 * PI * INR i * INR 0 / INR n) with 0 by (cbn [INR]; unfold Rdiv; ring). rewrite cis_0. unfold Cmult, RtoC. cbn [fst snd]. ring.
    - apply nsum_0. intros i _. replace (2 * PI * INR i * INR 0 / INR n) with 0 by (cbn [INR]; unfold Rdiv; ring). rewrite cis_0. unfold Cmult, RtoC. cbn [fst snd]. ring. }
  pose proof (E O) as E0. rewrite Z in E0. split.
  - intros N1. destruct (parity j) as [k Ek]. destruct (Nat.eq_dec k 0) as [->|Nk].
    + destruct Ek as [->| ->]; [|lia]. unfold n. change (2 * 0)%nat with O. rewrite B. apply (f_equal fst) in E0. symmetry. exact E0.
    + assert (0 < k < 2 ^ p)%nat as Hk by (unfold n in Hj; lia). pose proof (A k Hk) as F. fold n in F. rewrite <- E in F. destruct Ek as [->| ->]; [exact (f_equal fst F)|exact (f_equal snd F)].
  - exact (f_equal snd E0).
Qed.
Print Assumptions C120_numpy.
(** four entries *)
Example C120_four : let y := fun i => nth i [1; 2; 4; 8] 0 in
  realfft 4 y true 0%nat = 15 /\ realfft 4 y true 1%nat = - 5 /\ realfft 4 y true 2%nat = - 3 /\ realfft 4 y true 3%nat = - 6.
Proof.
  intros y. destruct (C120_forward 1 y) as [A [B C]]. destruct (A 1%nat ltac:(cbn; lia)) as [D E]. clear A. cbn [Nat.pow Nat.mul Nat.add nsum] in B, C, D, E. rewrite B, C, D, E. clear B C D E. unfold y. cbn [nth pow].
  replace (2 * PI * INR 0 * INR 1 / INR 4) with 0 by (cbn [INR]; field). replace (2 * PI * INR 1 * INR 1 / INR 4) with (PI / 2) by (cbn [INR]; field). replace (2 * PI * INR 2 * INR 1 / INR 4) with PI by (cbn [INR]; field). replace (2 * PI * INR 3 * INR 1 / INR 4) with (3 * (PI / 2)) by (cbn [INR]; field).
  rewrite cos_0, sin_0, cos_PI2, sin_PI2, cos_PI, sin_PI, cos_3PI2, sin_3PI2. repeat split; ring.
Qed.
