(** Model of the ion feature: IonFeatModel.Rayleigh_weight and evaluate, the
    analytic S_ab models, PeakCollection, DebyeWallerSolid and Sum_Sii
    (/repo/src/jaxrts/models.py).  Matrices are functions of two indices below
    the number of ions.  [None]: a shape error or a division by zero. *)
From Coq Require Import Reals List Bool Arith.
From Verif Require Import M_Const M_PlasmaState M_PlasmaPhysics M_StaticSF M_Interp M_Elements M_Setup.
Import ListNotations.
Open Scope R_scope.

Section IonFeat.
  Variable u : consts.

  (** jnp.eye *)
  Definition eye (a b : nat) : R := if Nat.eqb a b then 1 else 0.

  (** the last expression of the four analytic models, models.py:532-536,
      600-604, 665-669 and 730-734 *)
  Definition mixture (n Z : list R) (Zf S : R) : option (nat -> nat -> R) :=
    if Req_EM_T Zf 0 then None else if Req_EM_T (sum n) 0 then None else
    Some (fun a b => eye a b + sqrt (at_ n a * at_ n b) / sum n * (at_ Z a * at_ Z b) / Zf ^ 2 * (S - 1)).

  (** [1 / n * jnpu.sum(plasma_state.n_i * v)], models.py:520-521 *)
  Definition weighted (n v : list R) : option R :=
    obind (ew Rmult n v) (fun l => obind (qdiv 1 (sum n)) (fun i => Some (i * sum l))).

  (** ArkhipovIonFeat.S_ii, models.py:514-536 *)
  Definition Arkhipov_S (s : pstate) (k : R) : option (nat -> nat -> R) :=
    obind (n_i s) (fun n => obind (n_e s) (fun ne =>
    obind (weighted n (Z_free s)) (fun Zf => obind (weighted n (atomic_masses s)) (fun M =>
    mixture n (Z_free s) Zf (S_ii_AD u k (T_e s) (T_e s) ne M Zf))))).

  (** Gregori2003IonFeat.S_ii, models.py:577-604 *)
  Definition Gregori2003_S (s : pstate) (k : R) : option (nat -> nat -> R) :=
    obind (n_i s) (fun n => obind (n_e s) (fun ne =>
    obind (weighted n (Z_free s)) (fun Zf => obind (weighted n (atomic_masses s)) (fun M =>
    obind (T_cf_Greg u (T_e s) ne) (fun T =>
    mixture n (Z_free s) Zf (S_ii_AD u k T T ne M Zf)))))).

  (** BohmStaver.evaluate, models.py:3424-3433 *)
  Definition BohmStaver (s : pstate) : option (list R) :=
    obind (n_e s) (fun ne => ew (fun m Z => T_Debye_Bohm_Staver u (T_e s) ne m Z) (atomic_masses s) (Z_free s)).

  (** Gregori2006IonFeat.S_ii, models.py:645-669; [TD] is the value of the
      'Debye temperature' model *)
  Definition Gregori2006_S (TD : list R) (s : pstate) (k : R) : option (nat -> nat -> R) :=
    obind (n_i s) (fun n => obind (n_e s) (fun ne =>
    obind (weighted n (Z_free s)) (fun Zf => obind (weighted n (atomic_masses s)) (fun M =>
    obind (T_cf_Greg u (T_e s) ne) (fun Te =>
    obind (ew T_i_eff_Greg (T_i s) TD) (fun Til => obind (weighted n Til) (fun Ti =>
    mixture n (Z_free s) Zf (S_ii_AD u k Te Ti ne M Zf)))))))).

  (** CHSIonFeat.S_ii, models.py:707-734; [lfc] is the value of the 'ee-lfc'
      model *)
  Definition CHS_density (s : pstate) : option R :=
    obind (n_i s) (fun n => obind (qdiv 1 (sum n)) (fun i => Some (i * sum (map (fun x => x ^ 2) n)))).
  Definition CHS_S (TD : list R) (lfc : R) (s : pstate) (k : R) : option (nat -> nat -> R) :=
    obind (n_i s) (fun n => obind (n_e s) (fun ne =>
    obind (weighted n (Z_free s)) (fun Zf => obind (CHS_density s) (fun N =>
    obind (T_cf_Greg u (T_e s) ne) (fun Te =>
    obind (ew T_i_eff_Greg (T_i s) TD) (fun Til => obind (weighted n Til) (fun Ti =>
    obind (S_ii_CHS u k Te Ti ne Zf N lfc) (fun S =>
    mixture n (Z_free s) Zf S)))))))).

  (** PeakCollection.S_ii, models.py:1247-1252 *)
  Definition PeakCollection_S (peak : R -> nat -> nat -> R) (k_pos intensity : list R) (k : R) (a b : nat) : R :=
    fold_left (fun out cf => out + peak (k - fst cf) a b * snd cf) (combine k_pos intensity) (0 * peak (10 ^ 10) a b).

  (** DebyeWallerSolid.S_ii, models.py:1326-1343.  A Debye temperature array
      with one entry per ion broadcasts along the second index. *)
  Definition bcast (l : list R) (b : nat) : R := match l with [x] => x | _ => at_ l b end.
  Definition DebyeWaller_S (N_A : R) (TD : list R) (S_plasma b : nat -> nat -> R) (s : pstate) (k : R)
    : option (nat -> nat -> R) :=
    obind (number_fraction s) (fun x =>
    obind (ew Rmult (atomic_masses s) x) (fun mx =>
    obind (ew Rmult (T_i s) x) (fun tx =>
    let DW := debyeWallerFactor u N_A k (sum mx / amu u * / 1000) TD (sum tx) in
    if Nat.eqb (length TD) 1 || Nat.eqb (length TD) (nions s)
    then Some (fun i j => S_plasma i j * ((1 - bcast DW j) + bcast DW j * b i j))
    else None))).

  (** IonFeatModel.Rayleigh_weight, models.py:393-452.  [fi o a] is the form
      factor of orbital [o] of ion [a], [q] the screening charges. *)
  Definition population (Zc : list R) (o a : nat) : R := nth o (electron_distribution_ionized_state (at_ Zc a)) 0.
  Definition form_factor (fi : nat -> nat -> R) (Zc : list R) (a : nat) : R :=
    nsum 10 (fun o => fi o a * population Zc o a).
  Definition Rayleigh (n : nat) (x F : nat -> R) (S : nat -> nat -> R) : R :=
    nsum n (fun b => nsum n (fun a => sqrt (x a * x b) * F a * F b * S a b)).
  Definition Rayleigh_weight (fi : nat -> nat -> R) (q : list R) (S : nat -> nat -> R) (s : pstate) : option R :=
    obind (Z_core s) (fun Zc => obind (number_fraction s) (fun x =>
    Some (Rayleigh (nions s) (at_ x) (fun a => form_factor fi Zc a + at_ q a) S))).
  (** IonFeatModel.evaluate, models.py:454-467: channel [i] *)
  Definition ion_feature (w_R : R) (s : pstate) (st : setup) (i : nat) : option R :=
    obind (mean_Z_A s) (fun mZ =>
    qdiv (w_R * instrument st ((measured st i - energy st) / hbar u) * frc st i) mZ).

  (** Sum_Sii._combine_S_ab, models.py:4949-4965 *)
  Definition Sum_Sii (s : pstate) (S : nat -> nat -> R) : option R :=
    obind (number_fraction s) (fun x =>
    Some (nsum (nions s) (fun a => nsum (nions s) (fun b => sqrt (at_ x a * at_ x b) * S a b)))).
End IonFeat.
