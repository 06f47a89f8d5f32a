(** Model of /repo/src/jaxrts/bound_free.py, /repo/src/jaxrts/free_bound.py, and the
    bound-free, free-bound and edge models of /repo/src/jaxrts/models.py.
    One energy channel at a time; [None] is nan. *)
From Coq Require Import Reals List Arith Factorial.
From Coquelicot Require Import Coquelicot.
From Verif Require M_Elements M_Analysis.
From Verif Require Import M_Const M_PlasmaState M_Interp M_FormFactors M_Setup.
Import ListNotations.
Open Scope R_scope.

(** 1 / y ** m *)
Definition inv (y : R) (m : nat) : R := / y ^ m.
(** bound_free.py:72-76 *)
Definition phi10 (y : R) : R := 1 / (3 * y ^ 3).
(** bound_free.py:79-83 *)
Definition phi20 (y : R) : R := 4 * (1 / (3 * y ^ 3) - 1 / y ^ 4 + 4 / (5 * y ^ 5)).
(** bound_free.py:86-90 *)
Definition phi21 (y : R) : R := 1 / (4 * y ^ 4) - 1 / (5 * y ^ 5).
(** bound_free.py:93-103 *)
Definition phi30 (y : R) : R :=
  3 * inv y 3 - 24 * inv y 4 + (352 / 5) * inv y 5 - (256 / 3) * inv y 6 + (256 / 7) * inv y 7.
(** bound_free.py:106-115 *)
Definition phi31 (y : R) : R := 16 * (4 / 3) * inv y 4 - inv y 5 + (4 / 3) * inv y 6 - (4 / 7) * inv y 7.
(** bound_free.py:118-122 *)
Definition phi32 (y : R) : R := (3 / 5) * inv y 5 - (3 / 5) * inv y 6 + (1 / 7) * inv y 7.
(** bound_free.py:125-137 *)
Definition phi40 (y : R) : R :=
  16 * (3 / 5) * inv y 3 - 5 * inv y 4 + (148 / 5) * inv y 5 - (256 / 3) * inv y 6 + 128 * inv y 7 - 96 * inv y 8 + (256 / 9) * inv y 9.
(** bound_free.py:140-151 *)
Definition phi41 (y : R) : R :=
  4 * (25 / 4) * inv y 4 - 53 * inv y 5 + 176 * inv y 6 - (1968 / 7) * inv y 7 + 216 * inv y 8 - 64 * inv y 9.
(** bound_free.py:154-164 *)
Definition phi42 (y : R) : R :=
  36 * (15 / 7) * inv y 5 - inv y 6 + (13 / 7) * inv y 7 - (3 / 2) * inv y 8 + (4 / 9) * inv y 9.
(** bound_free.py:167-176 *)
Definition phi43 (y : R) : R := (6 / 7) * inv y 6 - (3 / 7) * inv y 7 + (3 / 8) * inv y 8 - (1 / 9) * inv y 9.
(** bound_free.py:179-193 *)
Definition phi50 (y : R) : R :=
  25 / 3 * inv y 3 - 200 * inv y 4 + 1952 * inv y 5 - (29440 / 3) * inv y 6 + (197376 / 7) * inv y 7 - 48 * 128 * inv y 8
  + (434176 / 9) * inv y 9 - (131072 / 5) * inv y 10 + (65536 / 11) * inv y 11.
(** bound_free.py:196-209 *)
Definition phi51 (y : R) : R :=
  100 * inv y 4 - 1424 * inv y 5 + 8384 * inv y 6 - (182848 / 7) * inv y 7 + 46 * 592 * inv y 8 - (143360 / 3) * inv y 9
  + (131072 / 5) * inv y 10 - (65536 / 11) * inv y 11.
(** bound_free.py:212-224 *)
Definition phi52 (y : R) : R :=
  9 * (49 / 5) * inv y 5 - 91 * inv y 6 + (2417 / 7) * inv y 7 - 680 * inv y 8 + (6592 / 9) * inv y 9 - (2048 / 5) * inv y 10
  + (1024 / 11) * inv y 11.
(** _phi{n}{l}_Schum75 by name *)
Definition phi (n l : nat) : option (R -> R) :=
  match n, l with
  | 1%nat, 0%nat => Some phi10
  | 2%nat, 0%nat => Some phi20
  | 2%nat, 1%nat => Some phi21
  | 3%nat, 0%nat => Some phi30
  | 3%nat, 1%nat => Some phi31
  | 3%nat, 2%nat => Some phi32
  | 4%nat, 0%nat => Some phi40
  | 4%nat, 1%nat => Some phi41
  | 4%nat, 2%nat => Some phi42
  | 4%nat, 3%nat => Some phi43
  | 5%nat, 0%nat => Some phi50
  | 5%nat, 1%nat => Some phi51
  | 5%nat, 2%nat => Some phi52
  | _, _ => None
  end.

Section BF.
  Variable u : consts.
  (** the fine-structure constant, ureg.alpha *)
  Definition alpha : R := e_ch u ^ 2 / (4 * PI * eps0 u * hbar u * c_light u).
  (** bound_free.py:18-21 *)
  Definition xi (n : nat) (Zeff omega k : R) : option R :=
    let omega_c := (hbar u * k ^ 2) / (2 * m_e u) in
    obind (qdiv (omega - omega_c) (c_light u * k)) (fun q => qdiv (INR n * q) (Zeff * alpha)).
  (** bound_free.py:24-28 *)
  Definition y_ (n : nat) (Zeff omega k : R) : option R := obind (xi n Zeff omega k) (fun x => Some (1 + x ^ 2)).
  (** bound_free.py:31-36 *)
  Definition J10_BM (omega k Zeff : R) : option R :=
    obind (xi 1 Zeff omega k) (fun x => Some (8 / (3 * PI * Zeff * alpha * (1 + x ^ 2) ^ 3))).
  (** bound_free.py:39-48 *)
  Definition J20_BM (omega k Zeff : R) : option R :=
    obind (xi 2 Zeff omega k) (fun x => Some ((64 / (PI * Zeff * alpha)) *
      ((1 / (3 * (1 + x ^ 2) ^ 3)) - (1 / (1 + x ^ 2) ^ 4) + (4 / (5 * (1 + x ^ 2) ^ 5))))).
  (** bound_free.py:51-58 *)
  Definition J21_BM (omega k Zeff : R) : option R :=
    obind (xi 2 Zeff omega k) (fun x => Some ((64 / (15 * PI * Zeff * alpha)) * ((1 + 5 * x ^ 2) / (1 + x ^ 2) ^ 5))).
  (** bound_free.py:61-69; the result of a division by [Zeff] *)
  Definition pref (n l : nat) (Zeff : R) : R :=
    (2 ^ (4 * l + 3) / PI) * (INR (fact (n - l - 1)) / INR (fact (n + l))) * ((INR n ^ 2 * INR (fact l) ^ 2) / (Zeff * alpha)).
  (** bound_free.py:227-355: _J{n}{l}_Schum75 *)
  Definition J_Schum75 (n l : nat) (omega k Zeff : R) : option R :=
    obind (phi n l) (fun p => obind (y_ n Zeff omega k) (fun y => Some (pref n l Zeff * p y))).
  (** bound_free.py:358-368 *)
  Definition J10_HR (omega k Zeff : R) : option R :=
    obind (xi 1 Zeff omega k) (fun x => obind (J_Schum75 1 0 omega k Zeff) (fun J =>
    Some (J * (Zeff * alpha / (k * a_0 u)) * (3 / 2 * x - 2 * atan x)))).
  (** bound_free.py:371-384 *)
  Definition J20_HR (omega k Zeff : R) : option R :=
    obind (xi 2 Zeff omega k) (fun x => obind (J_Schum75 2 0 omega k Zeff) (fun J =>
    Some (J * (Zeff * alpha / (k * a_0 u)) *
      (5 * x * (1 + 3 * x ^ 4) / (1 - 25 / 10 * x ^ 2 + 25 / 10 * x ^ 4) / 8 - 2 * atan x)))).
  (** bound_free.py:387-400 *)
  Definition J21_HR (omega k Zeff : R) : option R :=
    obind (xi 2 Zeff omega k) (fun x => obind (J_Schum75 2 1 omega k Zeff) (fun J =>
    Some (J * (Zeff * alpha / (k * a_0 u)) * ((1 / 3) * ((10 + 15 * x ^ 2) / (1 + 5 * x ^ 2)) * x - atan x)))).
  (** bound_free.py:403-445; [None] is KeyError or nan *)
  Definition bm_bound_wavefunction (n l : nat) (omega k Zeff : R) (HR : bool) : option R :=
    let add f g := obind f (fun a => if HR then obind g (fun b => Some (a + b)) else Some a) in
    match n, l with
    | 1%nat, 0%nat => add (J10_BM omega k Zeff) (J10_HR omega k Zeff)
    | 2%nat, 0%nat => add (J20_BM omega k Zeff) (J20_HR omega k Zeff)
    | 2%nat, 1%nat => add (J21_BM omega k Zeff) (J21_HR omega k Zeff)
    | _, _ => None
    end.

  Definition orbitals : list (nat * nat) := [(1, 0); (2, 0); (2, 1); (3, 0); (3, 1); (3, 2); (4, 0); (4, 1); (4, 2); (4, 3)]%nat.
  (** row [i] of all_J_BM, bound_free.py:447-478 *)
  Definition all_J_BM (omega k : R) (i : nat) (Zeff : R) : option R :=
    match i with
    | 0%nat => J10_BM omega k Zeff
    | 1%nat => J20_BM omega k Zeff
    | 2%nat => J21_BM omega k Zeff
    | _ => Some 0
    end.
  (** row [i] of all_J_Schum75, bound_free.py:481-498 *)
  Definition all_J_Schum75 (omega k : R) (i : nat) (Zeff : R) : option R :=
    let '(n, l) := nth i orbitals (0, 0)%nat in J_Schum75 n l omega k Zeff.
  (** row [i] of all_J_HR, bound_free.py:501-533 *)
  Definition all_J_HR (omega k : R) (i : nat) (Zeff : R) : option R :=
    match i with
    | 0%nat => J10_HR omega k Zeff
    | 1%nat => J20_HR omega k Zeff
    | 2%nat => J21_HR omega k Zeff
    | _ => Some 0
    end.
  (** bound_free.py:535-549 *)
  Definition J_BM_HR_approx (omega k pop : R) (i : nat) (Zeff : R) : option R :=
    obind (all_J_BM omega k i Zeff) (fun a => obind (all_J_HR omega k i Zeff) (fun b => qdiv (pop * (a + b)) (c_light u * k))).
  (** bound_free.py:552-562 *)
  Definition J_BM_approx (omega k pop : R) (i : nat) (Zeff : R) : option R :=
    obind (all_J_BM omega k i Zeff) (fun a => qdiv (pop * a) (c_light u * k)).
  (** bound_free.py:565-580 *)
  Definition J_impulse_approx (omega k pop : R) (i : nat) (Zeff : R) : option R :=
    obind (all_J_Schum75 omega k i Zeff) (fun a => obind (all_J_HR omega k i Zeff) (fun b => qdiv (pop * (a + b)) (c_light u * k))).
End BF.

(** ** Edges, models.py:5219-5321.  [E0], [E]: probing and measured energy *)
(** jnp.heaviside(x, 0.5) *)
Definition heaviside (x : R) : R := if Rlt_dec x 0 then 0 else if Req_EM_T x 0 then 1 / 2 else 1.
Definition NoEdge (T_e E0 E Eb : R) : R := 1.
Definition NonNegative (T_e E0 E Eb : R) : R := heaviside (E0 - E).
Definition Heaviside (T_e E0 E Eb : R) : R := heaviside (E0 - E - Eb).
Definition Fermi (u : consts) (T_e E0 E Eb : R) : R :=
  let energy_transfer := E0 - E in
  let beta := 1 / (T_e * kB u) in
  1 - 1 / (exp (beta * (energy_transfer - Eb)) + 1).

(** ** SchumacherImpulse, models.py:2659-2776 *)
Fixpoint osum (l : list (option R)) : option R :=
  match l with [] => Some 0 | x :: l => obind x (fun a => obind (osum l) (fun b => Some (a + b))) end.
Section SI.
  Variables (u : consts) (edge : R -> R -> R -> R).   (** the edge model at [E0 E Eb] *)
  (** one ion species: nuclear charge, mean charge, binding energies of the
      orbitals in a charge state, potential depression, form factors at the
      state's mean charge *)
  Record ion := mkIon { Z_A : R; Z_free : R; binding : R -> nat -> R; ipd : R; ff : nat -> option R }.
  Definition population (Zc : R) (i : nat) : R := nth i (M_Elements.electron_distribution_ionized_state Zc) 0.
  (** models.py:2695-2713 *)
  Definition new_r_k (s : ion) (Z_core r_k : R) : option R :=
    if Rlt_dec r_k 0 then
      if Req_EM_T Z_core 0 then Some 1
      else obind (osum (map (fun i => obind (ff s i) (fun f => Some (population Z_core i * f ^ 2))) (seq 0 10)))
             (fun t => Some (1 - t / Z_core))
    else Some r_k.
  (** models.py:2677-2729, [calculate_scattering_for_charge_state]; a vanishing [Z_core]
      makes factor infinite and all populations zero: nan, then 0 *)
  Definition charge_state (s : ion) (r_k E0 E k charge : R) : R :=
    let omega := E0 / hbar u - E / hbar u in
    let E_b i := let e := binding s charge i + ipd s in if Rlt_dec e 0 then 0 else e in
    let Z_core := Z_A s - charge in
    let Zeff i := Z_A s - nth i (pauling_size_screening_constants Z_core) 0 in
    let val :=
      obind (new_r_k s Z_core r_k) (fun r =>
      obind (qdiv r Z_core) (fun factor =>
      obind (osum (map (fun i => obind (J_impulse_approx u omega k (population Z_core i) i (Zeff i))
                                       (fun J => Some (factor * J * edge E0 E (E_b i)))) (seq 0 10)))
        (fun sbe => Some (sbe * Z_core)))) in
    match val with Some v => v | None => 0 end.
  Definition rfloor (x : R) : R := IZR (Int_part x).
  Definition rceil (x : R) : R := - rfloor (- x).
  (** models.py:2731-2772; for any function [f] of the charge state *)
  Definition over_charge (Z_A : R) (f : R -> R) (z : R) : R :=
    if Req_EM_T z (rfloor z) then f z
    else if Rge_dec (rceil z) Z_A then (Z_A - z) * f (rfloor z)
    else let w := z - rfloor z in (1 - w) * f (rfloor z) + w * f (rceil z).
  (** models.py:2664-2674, 2774-2776; [x]: number fractions *)
  Definition SchumacherImpulse (ions : list (ion * R)) (mean_Z_A r_k E0 E k : R) : option R :=
    qdiv (fold_right (fun '(s, x) t => over_charge (Z_A s) (charge_state s r_k E0 E k) (Z_free s) * x + t) 0 ions) mean_Z_A.
  (** SchumacherImpulseColdEdges, models.py:2851-2909: the binding energies do not
      depend on the charge, the mean number of bound electrons is used directly *)
  Definition SchumacherImpulseColdEdges (ions : list (ion * R)) (mean_Z_A r_k E0 E k : R) : option R :=
    qdiv (fold_right (fun '(s, x) t => charge_state s r_k E0 E k (Z_free s) * x + t) 0 ions) mean_Z_A.
End SI.

(** ** Detailed balance *)
Section FB.
  Variable u : consts.
  (** FreeBoundFlippedSetup.__init__, free_bound.py:34-45 (there is no frc_exponent
      attribute; the original's value is kept here, no modelled function reads it) *)
  Definition flip (s : setup) : setup :=
    mkSetup (angle s) (energy s) (n_chan s) (fun i => 2 * energy s - measured s i) (instrument s) (correct_k_dispersion s) (frc_exponent s).
  (** free_bound.py:47-67 *)
  Definition flip_full_k (s : setup) (i : nat) : option R :=
    if correct_k_dispersion s then
      let original := 2 * energy s - measured s i in
      let k_in := energy s / hbar u / c_light u in
      let k_out := original / hbar u / c_light u in
      sqrto ((k_out ^ 2 + k_in ^ 2) - ((2 * k_out * k_in) * cos (angle s)))
    else Some (k u s).
  (** free_bound.py:69-95 *)
  Definition flip_dispersion_corrected_k (s : setup) (n_e : R) (i : nat) : option R :=
    if correct_k_dispersion s then
      let original := 2 * energy s - measured s i in
      let omega_in := energy s / hbar u in
      let omega_out := original / hbar u in
      let omega_pl := M_PlasmaPhysics.plasma_frequency u n_e in
      match sqrto (1 - omega_pl ^ 2 / omega_in ^ 2), sqrto (1 - omega_pl ^ 2 / omega_out ^ 2) with
      | Some f_in, Some f_out =>
          let k_in := omega_in / c_light u * f_in in
          let k_out := omega_out / c_light u * f_out in
          sqrto ((k_out ^ 2 + k_in ^ 2) - (2 * k_out * k_in * cos (angle s)))
      | _, _ => None
      end
    else Some (k u s).
  (** a bound-free model: probing energy, measured energy, wavenumber *)
  Variable bf : R -> R -> R -> option R.
  (** evaluate_raw of the bound-free model with an ordinary and a flipped setup *)
  Definition bf_raw (s : setup) (n_e : R) (i : nat) : option R :=
    obind (dispersion_corrected_k u s n_e i) (bf (energy s) (measured s i)).
  Definition bf_raw_flipped (s : setup) (n_e : R) (i : nat) : option R :=
    obind (flip_dispersion_corrected_k s n_e i) (bf (energy s) (measured s i)).
  (** DetailedBalance.evaluate_raw, models.py:3085-3096 *)
  Definition DetailedBalance (T_e n_e : R) (s : setup) (i : nat) : option R :=
    let shift := measured s i - energy s in
    obind (qdiv (- shift) (T_e * kB u)) (fun x =>
    obind (bf_raw_flipped (flip s) n_e i) (fun f => Some (f * exp x))).
End FB.

(** ** SchumacherImpulseFitRk, models.py:2972-3022 *)
Section Fit.
  Variables (u : consts) (small : R).
  (** ITCF_fsum with raw=True, analysis.py:272-292: the derivative by tau at 0 *)
  Definition ITCF_fsum (S : list R) (E_shift : list R) (E_cut : R) : R :=
    Derive (fun tau => M_Analysis.twoSidedLaplace (hbar u) small S tau E_shift (- E_cut) E_cut) 0.
  (** [ff], [bf], [fb]: raw spectra of the channels, dispersion correction off, r_k = 1 *)
  Definition fit_r_k (k E0 : R) (E : list R) (ff bf fb : list R) : option R :=
    let fsum_theory := - 1 * hbar u ^ 2 * k ^ 2 / (2 * m_e u) in
    let E_cut := M_Analysis.rmax_list (map (fun e => e - E0) E) in
    let shift := M_Analysis.shift_of E0 E in
    let ff_fsum := ITCF_fsum ff shift E_cut in
    let fb_bf_fsum := ITCF_fsum (map2 Rplus fb bf) shift E_cut in
    qdiv (fsum_theory - ff_fsum) fb_bf_fsum.
End Fit.
