(** Model of /repo/src/jaxrts/ionization.py: the balance relations, the solver for
    the charge states and the Thomas-Fermi fits.  Densities are in 1/m^3, energies
    in joule (the passage through electron volt is erased). *)
From Coq Require Import Reals List Bool Arith ZArith.
From Verif Require Import M_Const M_PlasmaState M_Interp M_Helpers M_PlasmaPhysics.
Import ListNotations.
Open Scope R_scope.

(** [jnpu.sort] *)
Fixpoint insert_r (x : R) (l : list R) : list R :=
  match l with [] => [x] | y :: l' => if Rle_dec x y then x :: l else y :: insert_r x l' end.
Definition sort_r (l : list R) : list R := fold_right insert_r [] l.
(** [jnp.heaviside(x, 0)] as a mask *)
Definition heaviside (x : R) : bool := if Rlt_dec 0 x then true else false.

(** BalanceTerm, ionization.py:211-228.  A mask entry is 0.0 or 1.0. *)
Record balance_term := mkBT { bt_coeff : list (option R); bt_mask : list bool }.
(** [jnp.log] of a coefficient; [None] is [-inf], the logarithm of zero *)
Definition log0 (c : option R) : option R :=
  match c with Some c => if Req_EM_T c 0 then None else Some (ln c) | None => None end.

Section Balance.
  Variable u : consts.
  (** planck_larkin_partition_sum, ionization.py:40-73 *)
  Definition planck_larkin_partition_sum (g E : list R) (T : R) : R :=
    sum (map2 (fun g E => let ratio := E / (T * kB u) in g * (exp (- ratio) - 1 + ratio) * (if heaviside E then 1 else 0)) g E).
  (** saha_equation, ionization.py:80-111 *)
  Definition saha_equation (gi gj T_e energy_diff : R) : R :=
    gj / gi * 2 / therm_de_broglie_wl u T_e ^ 3 * exp (- energy_diff / (kB u * T_e)).
  (** gen_saha_equation, ionization.py:116-163 *)
  Definition gen_saha_equation (gi gj T_e n_e energy_diff chem_pot : R) : R :=
    gj / gi * n_e * exp (- energy_diff / (1 * kB u * T_e)) * exp (- chem_pot / (1 * kB u * T_e)).
  (** gen_balance_equation, ionization.py:171-207; a vanishing [part_i] gives inf
      or nan, written [None] *)
  Definition gen_balance_equation (part_i part_j T_e n_e chem_pot : R) : option R :=
    match qdiv part_j part_i with Some q => Some (q * n_e * exp (- chem_pot / (1 * kB u * T_e))) | None => None end.

  (** [jnpu.sort(energies) + ipd] *)
  Definition shifted (energies ipd : list R) : option (list R) := ew Rplus (sort_r energies) ipd.
  (** [f(g[:-1], g[1:])] *)
  Fixpoint pairwise {A} (f : R -> R -> A) (g : list R) : list A :=
    match g with a :: ((b :: _) as t) => f a b :: pairwise f t | _ => [] end.
  (** saha_balance_term, ionization.py:233-262 *)
  Definition saha_balance_term (g energies ipd : list R) (T_e : R) : option balance_term :=
    obind (shifted energies ipd) (fun Eb =>
    Some (mkBT (map2 (fun f e => Some (f T_e e)) (pairwise saha_equation g) Eb) (map heaviside Eb))).
  (** gen_saha_balance_term, ionization.py:266-301 *)
  Definition gen_saha_balance_term (g energies ipd : list R) (T_e n_e chem_pot : R) : option balance_term :=
    obind (shifted energies ipd) (fun Eb =>
    Some (mkBT (map2 (fun f e => Some (f e)) (pairwise (fun gi gj e => gen_saha_equation gi gj T_e n_e e chem_pot) g) Eb) (map heaviside Eb))).
  (** bu_balance_term, ionization.py:304-363; [levels] are the tables read by
      read_nist_file, weights and energies for every charge below [Z] *)
  Definition bu_balance_term (levels : list (list R * list R)) (energies ipd : list R) (T_e n_e chem_pot : R) : option balance_term :=
    obind (shifted energies ipd) (fun Ebs =>
    let part_func := map2 (fun ge Eb => planck_larkin_partition_sum (fst ge) (map (fun E => Eb - E) (snd ge)) T_e) levels Ebs ++ [1] in
    Some (mkBT (pairwise (fun pi pj => gen_balance_equation pi pj T_e n_e chem_pot) part_func) (map heaviside (removelast part_func)))).
End Balance.

(** ** The solver *)
(** [jnp.cumsum], started with a zero; [-inf] absorbs *)
Fixpoint cumsum (acc : option R) (l : list (option R)) : list (option R) :=
  acc :: match l with [] => [] | x :: l => cumsum (obind acc (fun a => obind x (fun b => Some (a + b)))) l end.
(** _log_partition_products, ionization.py:369-395 *)
Definition log_partition_products (log_coeffs : list (option R)) (mask : list bool) (log_ne : R) : list (option R) :=
  let clean := map2 (fun lc (m : bool) => if m then obind lc (fun l => Some (l - log_ne)) else Some 0) log_coeffs mask in
  map2 (fun (m : bool) p => if m then p else None) (mask ++ [true]) (cumsum (Some 0) clean).
(** [jnp.clip(log_P, min=-500.0, max=500.0)] *)
Definition clip500 (p : option R) : R := match p with Some x => clip x (-500) 500 | None => -500 end.
(** [jax.nn.softmax] *)
Definition softmax (l : list R) : list R :=
  let m := match l with [] => 0 | x :: l => fold_right Rmax x l end in
  map (fun x => exp (x - m) / sum (map (fun y => exp (y - m)) l)) l.
(** _zbar_and_weights, ionization.py:398-412 *)
Definition weights (log_P : list (option R)) : list R := softmax (map clip500 log_P).
Definition zbar (log_P : list (option R)) : R := sum (map2 Rmult (map INR (seq 0 (length log_P))) (weights log_P)).

(** solve_ionization, ionization.py:415-509.  [Zs] are the nuclear charges. *)
Definition total_charge (Ns : list R) (bts : list balance_term) (log_ne : R) : R :=
  sum (map2 (fun N bt => N * zbar (log_partition_products (map log0 (bt_coeff bt)) (bt_mask bt) log_ne)) Ns bts).
Definition residual (Ns : list R) (bts : list balance_term) (log_ne : R) : R := exp log_ne - total_charge Ns bts log_ne.
Definition max_ne (Zs Ns : list R) : R := sum (map2 Rmult Zs Ns).
Definition solve_ionization (fuel : nat) (Zs Ns : list R) (bts : list balance_term) : option (list R * R * list R) :=
  if Nat.eqb (length Ns) (length bts) && Nat.eqb (length Zs) (length Ns) then
    match bisection (residual Ns bts) (/ 100000000) 1000 1 fuel (ln (/ 100000000)) (ln (max_ne Zs Ns)) with
    | Some (x, _) =>
        let log_P bt := log_partition_products (map log0 (bt_coeff bt)) (bt_mask bt) x in
        Some (concat (map2 (fun bt N => map (fun w => N * w) (weights (log_P bt))) bts Ns), exp x, map (fun bt => zbar (log_P bt)) bts)
    | None => None
    end
  else None.
(** the masks of solve_saha and solve_gen_saha with exclude_non_negative_energies
    switched off, ionization.py:561-565 and 618-622 *)
Definition unmask (bt : balance_term) : balance_term := mkBT (bt_coeff bt) (map (fun _ => true) (bt_mask bt)).
(** calculate_charge_state_distribution, ionization.py:681-706: [sol / jnpu.sum(sol)] *)
Definition fractions (sol : list R) : list R := map (fun n => n / sum sol) sol.

(** ** The wrappers: an element is its nuclear charge, the statistical weights and
    the ionisation energies *)
Definition elem : Type := nat * list R * list R.
Fixpoint seq_opt {A} (l : list (option A)) : option (list A) :=
  match l with [] => Some [] | x :: l => obind x (fun a => obind (seq_opt l) (fun r => Some (a :: r))) end.
Section Wrappers.
  Variables (u : consts) (fuel : nat).
  (** solve_saha, ionization.py:513-569 *)
  Definition no_lowering (els : list elem) : list (list R) := map (fun '(Z, _, _) => repeat 0 Z) els.
  Definition solve_saha (els : list elem) (T_e : R) (Ns : list R) (cl : option (list (list R))) (exclude : bool) : option (list R * R * list R) :=
    let cl := match cl with Some c => c | None => no_lowering els end in
    if Nat.eqb (length els) (length cl) then
      obind (seq_opt (map2 (fun '(_, g, E) ipd => saha_balance_term u g E ipd T_e) els cl)) (fun bts =>
      solve_ionization fuel (map (fun '(Z, _, _) => INR Z) els) Ns (if exclude then bts else map unmask bts))
    else None.
  (** solve_gen_saha, ionization.py:570-622 *)
  Definition solve_gen_saha (els : list elem) (T_e n_e : R) (Ns : list R) (cl : list (list R)) (mu : R) (exclude : bool) : option (list R * R * list R) :=
    if Nat.eqb (length els) (length cl) then
      obind (seq_opt (map2 (fun '(_, g, E) ipd => gen_saha_balance_term u g E ipd T_e n_e mu) els cl)) (fun bts =>
      solve_ionization fuel (map (fun '(Z, _, _) => INR Z) els) Ns (if exclude then bts else map unmask bts))
    else None.
  (** solve_BU, ionization.py:627-677; [levels] holds the level tables of every element *)
  Definition solve_BU (levels : list (list (list R * list R))) (els : list elem) (T_e n_e : R) (Ns : list R) (cl : option (list (list R))) (mu : R)
    : option (list R * R * list R) :=
    let cl := match cl with Some c => c | None => no_lowering els end in
    if Nat.eqb (length els) (length cl) then
      obind (seq_opt (map2 (fun '(lv, (_, _, E)) ipd => bu_balance_term u lv E ipd T_e n_e mu) (combine levels els) cl)) (fun bts =>
      solve_ionization fuel (map (fun '(Z, _, _) => INR Z) els) Ns bts)
    else None.
  (** calculate_mean_free_charge_saha, ionization.py:709-815.  [ipd], [chem_pot] and
      [n_e] are what the attached models and the state say for given charges; the
      first charges are the largest nuclear charge. *)
  Variables (ipd : list R -> option (list R) -> option (list (list R))) (chem_pot n_e : list R -> option R).
  Definition mean_free_charge_saha (els : list elem) (T_e : R) (Ns : list R) (use_ipd use_chem_pot use_distribution exclude : bool)
    : option (list R * list R) :=
    let Zmax := INR (fold_right Nat.max 0%nat (map (fun '(Z, _, _) => Z) els)) in
    let step (s : list R * list R * list R) : option (list R * list R * list R) :=
      let '(Z_free, dist, _) := s in
      obind (if use_chem_pot then chem_pot Z_free else Some 0) (fun mu =>
      obind (if use_ipd then ipd Z_free (if use_distribution then Some dist else None) else Some (no_lowering els)) (fun cl =>
      obind (if use_chem_pot then obind (n_e Z_free) (fun ne => solve_gen_saha els T_e ne Ns cl mu exclude)
             else solve_saha els T_e Ns (Some cl) exclude) (fun '(dist, _, Zm) =>
      Some (Zm, dist, Zm)))) in
    obind (solve_saha els T_e Ns None true) (fun '(dist, _, Zm) =>
    obind (Nat.iter 6 (fun s => obind s step) (Some (map (fun _ => Zmax) els, dist, Zm))) (fun '(_, dist, Zm) =>
    Some (dist, Zm))).
End Wrappers.

(** ** Thomas-Fermi fits *)
Section More.
  Variable u : consts.
  (** _calculate_single_species_ionization_more, ionization.py:893-911; [rho] in
      kg/m^3 and [m_A] in kg, converted as the code does *)
  Definition more (rho T_e m_A Z_A : R) : R :=
    let alpha := 143139 / 10000 in
    let beta := 6624 / 10000 in
    let a1 := 3323 / 1000000 in
    let a2 := 9718 / 10000 in
    let a3 := 926148 / 10000000000 in
    let a4 := 310165 / 100000 in
    let b0 := - (17630 / 10000) in
    let b1 := 143175 / 100000 in
    let b2 := 31546 / 100000 in
    let c1 := - (366667 / 1000000) in
    let c2 := 983333 / 1000000 in
    let Rr := rho / 1000 / (m_A / amu u) / Z_A in
    let T0 := (kB u * T_e / e_ch u) / Rpower Z_A (4 / 3) in
    let Tf := T0 / (1 + T0) in
    let A := a1 * Rpower T0 a2 + a3 * Rpower T0 a4 in
    let B := - exp (b0 + b1 * Tf + b2 * Tf ^ 7) in
    let C := c1 * Tf + c2 in
    let Q1 := A * Rpower Rr B in
    let Q := Rpower (Rpower Rr C + Rpower Q1 C) (1 / C) in
    let x := alpha * Rpower Q beta in
    Z_A * x / (1 + x + sqrt (1 + 2 * x)).
  (** calculate_mean_free_charge_more, ionization.py:957-1021; [ions] are triples of
      partial density, atomic mass and nuclear charge *)
  Definition ion3 : Type := R * R * R.
  Definition more_step (T_e : R) (ions : list ion3) (Zb : list R) : list R :=
    let n_e := sum (map2 (fun '(rho, m, _) z => rho / m * z) ions Zb) in
    map2 (fun '(_, m, ZA) z => more (n_e / z * m) T_e m ZA) ions Zb.
  Definition more_err (a b : list R) : R := fold_right Rmax 0 (map2 (fun x y => Rabs (y - x)) a b).
  Definition more_charge (fuel : nat) (T_e : R) (ions : list ion3) : option (list R) :=
    let Z0 := map (fun '(_, _, ZA) => 5 / 10 * ZA) ions in
    match while_loop fuel
      (fun '(old, new, i) => andb (if Rlt_dec (/ 100000) (more_err old new) then true else false) (Nat.ltb i 100))
      (fun '(old, new, i) => (new, more_step T_e ions new, S i))
      (Z0, more_step T_e ions Z0, O) with
    | Some (_, z, _) => Some z
    | None => None
    end.
End More.
