(** Model of the ionisation potential depression: /repo/src/jaxrts/ipd.py and
    the IPD models of /repo/src/jaxrts/models.py:3440-4064.  The functions of
    ipd.py return an array over the ions; here the entry [j] is given.  Energies
    are in SI units (the conversion to eV is erased). *)
From Coq Require Import Reals List Bool Arith ZArith.
From Verif Require Import M_Const M_PlasmaState M_Interp.
Import ListNotations.
Open Scope R_scope.

(** [jnp.clip(x, 1e-6)] *)
Definition clip6 (x : R) : R := Rmax x (/ 1000000).
(** [jnpu.mean] *)
Definition mean (l : list R) : R := sum l / INR (length l).

Section IPD.
  Variable u : consts.
  (** inverse_screening_length_e, ipd.py:25-60 (a fit of a Fermi integral) *)
  Variable isle : R -> R -> R.
  (** the value of [quad] in ipd_pauli_blocking, ipd.py:550-553 *)
  Variable pauli_int : R -> R -> R -> R.

  (** ipd.py:109-119, 232-242 and 324-334 *)
  Definition kappa_i_sq (Zbar ni Ti : list R) (j : nat) : R :=
    sum (map2 (fun z n => z ^ 2 * e_ch u ^ 2 * n) Zbar ni) / (1 * eps0 u * kB u * at_ Ti j).
  Definition kappa_e_sq (arb : bool) (ne Te : R) : R :=
    if arb then isle ne Te ^ 2 else e_ch u ^ 2 * ne / (1 * eps0 u * kB u * Te).
  Definition kappa_D (arb : bool) (ne : R) (ni : list R) (Te : R) (Ti Zbar : list R) (j : nat) : R :=
    sqrt (kappa_i_sq Zbar ni Ti j + kappa_e_sq arb ne Te).

  (** ipd_debye_hueckel, ipd.py:63-126 *)
  Definition ipd_debye_hueckel (arb : bool) (Zi ne : R) (ni : list R) (Te : R) (Ti Zbar : list R) (j : nat) : R :=
    kappa_D arb ne ni Te Ti Zbar j * (- (Zi + 1) * e_ch u ^ 2 / (4 * PI * eps0 u)).

  (** ipd_ion_sphere, ipd.py:129-181 *)
  Definition ipd_ion_sphere (C : option R) (Zi ne : R) (Zbar : list R) (j : nat) : R :=
    let Zi := clip6 Zi in
    let Zb := clip6 (at_ Zbar j) in
    let R_0 := Rpower (3 * Zb / (4 * PI * ne)) (1 / 3) in
    let C := match C with Some c => c | None => 3 / 2 end in
    - (C * (Zi + 1) * 1 * e_ch u ^ 2) / (R_0 * 4 * PI * 1 * eps0 u).

  (** ipd_stewart_pyatt, ipd.py:184-254 *)
  Definition ipd_stewart_pyatt (arb : bool) (Zi ne : R) (ni : list R) (Te : R) (Ti Zbar : list R) (j : nat) : R :=
    let Zi := clip6 Zi in
    let Zbar := map clip6 Zbar in
    let kD := kappa_D arb ne ni Te Ti Zbar j in
    let R_0 := Rpower (3 / (4 * PI * sum ni)) (1 / 3) in
    let s := 1 / kD / R_0 in
    - (3 * (Zi + 1) * e_ch u ^ 2) / (8 * PI * eps0 u * R_0) * (Rpower (1 + s ^ 3) (2 / 3) - s ^ 2).

  (** ipd_stewart_pyatt_preston, ipd.py:257-358; [cc] is 0 with
      crowley_correction and 1 without *)
  Definition ipd_preston (arb : bool) (cc Zi ne : R) (ni : list R) (Te : R) (Ti : list R) (pop : option (list R)) (j : nat) : R :=
    let Zbar := match pop with
      | None => map (fun n => ne / n) ni
      | Some p => map (fun _ => mean (map2 Rmult (map INR (seq 0 (length p))) p)) ni
      end in
    let Zp := match pop with
      | None => ne / sum ni
      | Some p => mean (map2 Rmult (map (fun z => INR z ^ 2) (seq 0 (length p))) p)
                  / mean (map2 Rmult (map INR (seq 0 (length p))) p)
      end in
    let lambda_D := 1 / kappa_D arb ne ni Te Ti Zbar j in
    let L := 3 * (Zp + cc) * (Zi + 1) * e_ch u ^ 2 / (4 * eps0 u * PI * lambda_D * kB u * at_ Ti j) in
    - (1 * kB u * at_ Ti j) / (2 * (Zp + cc)) * (Rpower (1 + L) (2 / 3) - 1).

  (** ipd_ecker_kroell, ipd.py:361-488; [Z_max] an array *)
  Definition n_crit (Te Zmax : R) : R :=
    (3 / (4 * PI)) * ((4 * PI * 1 * eps0 u) * kB u * Te / (Zmax ^ 2 * e_ch u ^ 2)) ^ 3.
  Definition ek_kappa_i_sq (Zbar ni Ti : list R) : R :=
    sum (map2 (fun a T => a / (1 * eps0 u * kB u * T)) (map2 (fun z n => z ^ 2 * e_ch u ^ 2 * n) Zbar ni) Ti).
  Definition ipd_ecker_kroell (arb : bool) (C : option R) (Zi ne : R) (ni : list R) (Te : R) (Ti Zmax Zbar : list R) (j : nat) : R :=
    let n_c := n_crit Te (at_ Zmax j) in
    let ne_crit := n_c / (ne + sum ni) * ne in
    let ni_crit := map (fun n => n_c / (ne + sum ni) * n) ni in
    let kD := sqrt (ek_kappa_i_sq Zbar ni Ti + kappa_e_sq arb ne Te) in
    let kD_crit := sqrt (ek_kappa_i_sq Zbar ni_crit Ti + kappa_e_sq arb ne_crit Te) in
    let lambda_D := 1 / kD in
    let R_EK := Rpower (3 / (4 * PI * (ne + at_ ni j))) (1 / 3) in
    let R_EK_crit := Rpower (3 / (4 * PI * n_c)) (1 / 3) in
    let C := match C with Some c => c | None => kD_crit * R_EK_crit end in
    let c1 := -1 * e_ch u ^ 2 / (4 * PI * eps0 u * lambda_D) * (Zi + 1) in
    let c2 := - C * e_ch u ^ 2 / (4 * PI * eps0 u * R_EK) * (Zi + 1) in
    if Rle_dec (at_ ni j + ne) n_c then c1 else c2.

  (** the integrand of ipd_pauli_blocking, ipd.py:526-548; [a_Z] is the reduced
      Bohr radius, [mu] the chemical potential *)
  Definition pauli_integrand (a_Z mu Te p : R) : R :=
    p ^ 2 / (1 + a_Z ^ 2 * p ^ 2) ^ 3 *
    (1 / (exp (((1 * hbar u * p) ^ 2 / (2 * m_e u) - mu) / (1 * kB u * Te)) + 1)).
  (** ipd_pauli_blocking, ipd.py:491-564 *)
  Definition ipd_pauli_blocking (Zi ne Te : R) : R :=
    let Zi := clip6 Zi in
    let a_Z := a_0 u / Zi in
    - ((Zi + 1) * e_ch u ^ 2 / (4 * PI * eps0 u) * (16 * a_Z ^ 2) / PI * pauli_int a_Z ne Te).

  (** ** The models *)
  Inductive ipd_model :=
    | ConstantIPD (value : list R) | DebyeHueckelIPD (arb : bool) | StewartPyattIPD (arb : bool)
    | StewartPyattPrestonIPD (arb crowley : bool) | IonSphereIPD (C : option R)
    | EckerKroellIPD (C : option R) (arb : bool) | PauliBlockingIPD | IPDSum (l : list ipd_model).

  (** what they read of a state *)
  Record plasma := mkPl { p_Z : list R; p_ne : R; p_ni : list R; p_Te : R; p_Ti : list R; p_ZA : list R }.
  Definition plasma_of (s : pstate) : option plasma :=
    obind (n_e s) (fun ne => obind (n_i s) (fun ni =>
    Some (mkPl (Z_free s) ne ni (T_e s) (T_i s) (map el_Z (ions s))))).

  Definition ccv (crowley : bool) : R := if crowley then 0 else 1.
  (** the IPD of ion [j], were its charge [Zi] *)
  Definition single (m : ipd_model) (P : plasma) (pop : option (list R)) (Zi : R) (j : nat) : R :=
    match m with
    | ConstantIPD v => at_ v j
    | DebyeHueckelIPD arb => ipd_debye_hueckel arb Zi (p_ne P) (p_ni P) (p_Te P) (p_Ti P) (p_Z P) j
    | StewartPyattIPD arb => ipd_stewart_pyatt arb Zi (p_ne P) (p_ni P) (p_Te P) (p_Ti P) (p_Z P) j
    | StewartPyattPrestonIPD arb cr => ipd_preston arb (ccv cr) Zi (p_ne P) (p_ni P) (p_Te P) (p_Ti P) pop j
    | IonSphereIPD C => ipd_ion_sphere C Zi (p_ne P) (p_Z P) j
    | EckerKroellIPD C arb => ipd_ecker_kroell arb C Zi (p_ne P) (p_ni P) (p_Te P) (p_Ti P) (p_ZA P) (p_Z P) j
    | PauliBlockingIPD => ipd_pauli_blocking Zi (p_ne P) (p_Te P)
    | IPDSum _ => 0
    end.

  (** evaluate: models.py:3506-3509 (Constant), 3567-3576 (DebyeHueckel),
      3652-3661 (Preston), 3728-3737 (StewartPyatt), 3809-3816 (IonSphere),
      3898-3911 (EckerKroell), 3975-3982 (Pauli), 4028-4034 (Sum) *)
  Fixpoint evaluate (m : ipd_model) (P : plasma) : option (list R) :=
    match m with
    | ConstantIPD v => Some v
    | IPDSum l => fold_left (fun out m => obind out (fun o => obind (evaluate m P) (fun x => ew Rplus o x))) l (Some [0])
    | _ => Some (map (fun j => single m P None (at_ (p_Z P) j) j) (seq 0 (length (p_Z P))))
    end.

  (** [jnp.arange(element.Z)] *)
  Definition charges (Z : R) : list R := map INR (seq 0 (Z.to_nat (- Int_part (- Z)))).
  (** all_element_states: 3526-3540 (Constant), 3579-3601 (DebyeHueckel),
      3677-3700 (Preston), 3740-3762 (StewartPyatt), 3819-3841 (IonSphere),
      3914-3940 (EckerKroell: [Z_max] is a number, which ipd.py:430 indexes as an
      array), 3985-4005 (Pauli: the charge of the state, not the [Z] of the loop),
      4037-4051 (Sum) *)
  Definition per_state (P : plasma) (f : nat -> R -> R) : list (list R) :=
    map (fun j => map (f j) (charges (at_ (p_ZA P) j))) (seq 0 (length (p_ZA P))).
  Fixpoint add_states (x y : list (list R)) : option (list (list R)) :=
    match x, y with
    | [], _ => Some []
    | _ :: _, [] => None
    | a :: x, b :: y => obind (ew Rplus a b) (fun c => obind (add_states x y) (fun r => Some (c :: r)))
    end.
  Fixpoint all_element_states (m : ipd_model) (P : plasma) (pop : option (list R)) : option (list (list R)) :=
    match m with
    | EckerKroellIPD _ _ => if Nat.eqb (length (p_ZA P)) 0 then Some [] else
        if forallb (fun j => Nat.eqb (length (charges (at_ (p_ZA P) j))) 0) (seq 0 (length (p_ZA P)))
        then Some (per_state P (fun _ _ => 0)) else None
    | PauliBlockingIPD => Some (per_state P (fun j _ => single m P pop (at_ (p_Z P) j) j))
    | IPDSum [] => None
    | IPDSum (m :: l) =>
        fold_left (fun out m => obind out (fun o => obind (all_element_states m P pop) (fun x => add_states o x)))
          l (all_element_states m P pop)
    | _ => Some (per_state P (fun j Z => single m P pop Z j))
    end.
End IPD.
