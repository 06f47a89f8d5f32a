(** Model of the pair potentials of /repo/src/jaxrts/hnc_potentials.py.  A
    potential is evaluated for one pair of species [a], [b]; [None] is a raised
    exception.  Units are erased except where they decide over an exception. *)
From Coq Require Import Reals List Bool Arith ZArith.
From Coquelicot Require Import Coquelicot.
From Verif Require Import M_Const M_PlasmaState M_Interp.
Import ListNotations.
Open Scope R_scope.

Inductive mode := Off | SpinAveraged | SpinSeparated.
Definition mode_eqb (a b : mode) : bool :=
  match a, b with Off, Off | SpinAveraged, SpinAveraged | SpinSeparated, SpinSeparated => true | _, _ => false end.

(** what a potential reads of a PlasmaState; [e_len] is the screening length,
    a scalar or a matrix *)
Record env := mkEnv { e_s : pstate; e_ni : list R; e_ne : R; e_rc : list R; e_len : nat -> nat -> R }.
Definition env_of (s : pstate) (len : nat -> nat -> R) : option env :=
  obind (n_i s) (fun n => obind (n_e s) (fun ne => obind (ion_core_radius s) (fun rc => Some (mkEnv s n ne rc len)))).

(** electrons as additional species, e.g. hnc_potentials.py:428-433 *)
Definition extra (md : mode) (l : list R) (x y : R) : list R :=
  match md with Off => l | SpinAveraged => l ++ [x] | SpinSeparated => l ++ [y; y] end.

(** elementary potentials; [Pauli f g]: PauliClassicalMap, whose [full_r] and
    [full_k] (inverted HNC on numerical grids) are taken as given *)
Inductive cls :=
  | Coulomb | DebyeHueckel | Kelbg | KlimontovichKraeft | Deutsch | EmptyCore
  | Yukawa (sigma : R) | SoftCore (beta : R) | SepExchange | AvgExchange
  | Pauli (f g : mode -> env -> nat -> nat -> option (R -> R)).

(** adding quantities of dimension energy * length^d, which raises on different
    dimensions *)
Definition qadd (x y : Z * (R -> R)) : option (R -> R) :=
  if Z.eqb (fst x) (fst y) then Some (fun r => snd x r + snd y r) else None.
Definition omap2 (f : R -> R -> R) (x y : option (R -> R)) : option (R -> R) :=
  obind x (fun g => obind y (fun h => Some (fun r => f (g r) (h r)))).
Definition erf (x : R) : R := 2 / sqrt PI * RInt (fun t => exp (- t ^ 2)) 0 x.

Section Pot.
  Variable u : consts.
  (** transformPotential on [_transform_r] followed by hnc_interp,
      hnc_potentials.py:400-418 and 1739-1754, and the sine transform on the grid
      belonging to the argument, 1727-1736 *)
  Variables tr tr_grid : (R -> R) -> R -> R.

  Section Pair.
    Variables (md : mode) (E : env) (a b : nat).
    Definition n_ions : nat := length (ions (e_s E)).
    (** q2, hnc_potentials.py:424-435 and construct_q_matrix, 264-266 *)
    Definition charges : list R := extra md (Z_free (e_s E)) (-1) (-1).
    Definition q2 : R := (at_ charges a * e_ch u) * (at_ charges b * e_ch u).
    (** alpha, hnc_potentials.py:437-447 and 255-261 *)
    Definition densities : list R := extra md (e_ni E) (e_ne E) (e_ne E / 2).
    Definition alpha : R := 2 / Rpower (3 / (4 * PI * sqrt (at_ densities a * at_ densities b))) (1 / 3).
    (** mu, hnc_potentials.py:449-466 *)
    Definition pmasses : list R := extra md (atomic_masses (e_s E)) (m_e u) (m_e u).
    Definition mu : R := at_ pmasses a * at_ pmasses b / (at_ pmasses a + at_ pmasses b).
    (** T, hnc_potentials.py:468-495, and mass_weighted_T,
        hypernetted_chain.py:645-659 *)
    Definition temps : list R := extra md (T_i (e_s E)) (T_e (e_s E)) (T_e (e_s E)).
    Definition T_ab : R :=
      (at_ pmasses a * at_ temps b + at_ pmasses b * at_ temps a) / (at_ pmasses a + at_ pmasses b).
    (** r_cut, hnc_potentials.py:497-538 *)
    Definition r_cut : R :=
      if Nat.ltb a n_ions && negb (Nat.ltb b n_ions) then at_ (e_rc E) a
      else if Nat.ltb b n_ions && negb (Nat.ltb a n_ions) then at_ (e_rc E) b else 0.
    (** lambda_ab, hnc_potentials.py:540-545 *)
    Definition lambda_ab : R := hbar u * sqrt (1 / (2 * mu * kB u * T_ab)).
    (** kappa, hnc_potentials.py:849-857 and 1332-1340 *)
    Definition kappa : R := 1 / e_len E a b.

    Definition coulomb_r (r : R) : R := q2 / (4 * PI * eps0 u * r).
    Definition coulomb_kk (k : R) : R := q2 / eps0 u / k ^ 2.

    (** full_r of the classes: 800-808 (Coulomb), 860-874 (DebyeHueckel),
        925-964 (Kelbg), 1104-1134 (KlimontovichKraeft), 1158-1169 (Deutsch),
        1265-1279 (EmptyCore), 1343-1356 (Yukawa), 1439-1459 (SoftCore),
        1668-1688 (SpinSeparatedEEExchange), 1700-1725 (SpinAveragedEEExchange).
        A division by [r_cut] = 0 gives infinity and the exponential of minus
        infinity 0.  SpinAveragedEEExchange with electrons off and one ion
        broadcasts to a 2x2 matrix; here it counts as an exception. *)
    Definition full_r (c : cls) : option (R -> R) :=
      match c with
      | Coulomb => Some coulomb_r
      | DebyeHueckel => Some (fun r => coulomb_r r * exp (- kappa * r))
      | Kelbg => Some (fun r => coulomb_r r *
          (1 - exp (- r ^ 2 / lambda_ab ^ 2) + sqrt PI * r / lambda_ab * (1 - erf (r / lambda_ab))))
      | KlimontovichKraeft => Some (fun r =>
          let beta := 1 / (kB u * T_ab) in
          let xi := q2 * beta / (4 * PI * eps0 u * lambda_ab) in
          let pref := - (kB u * T_ab * xi ^ 2 / 16) in
          let factor := kB u * T_ab * xi ^ 2 in
          let denominator := 16 * Rabs q2 / (4 * PI * eps0 u) in
          pref * / (1 + factor / denominator * r))
      | Deutsch => Some (fun r => coulomb_r r * (1 - exp (- r / (lambda_ab / sqrt PI))))
      | EmptyCore => Some (fun r => (if Rlt_dec 0 (r - r_cut) then 1 else 0) * coulomb_r r)
      | Yukawa sigma => qadd (0%Z, fun r => coulomb_r r * exp (- kappa * r))
                             (3%Z, fun r => kB u * T_ab * sigma ^ 4 / r)
      | SoftCore beta => Some (fun r => coulomb_r r *
          (1 - (if Req_EM_T r_cut 0 then 0 else exp (- Rpower (r / r_cut) beta))))
      | SepExchange => Some (fun r =>
          if Nat.ltb a n_ions && Nat.ltb b n_ions then 0 else
          (-1 * kB u * T_ab) * ln (1 - exp (- (r ^ 2 / lambda_ab ^ 2))) * (if Nat.eqb a b then 1 else 0))
      | AvgExchange => match md with
          | SpinAveraged => Some (fun r =>
              if Nat.ltb a n_ions && Nat.ltb b n_ions then 0 else
              (kB u * T_ab) * ln 2 * exp (-1 / (PI * ln 2) * (r / (lambda_ab / sqrt PI)) ^ 2) * (if Nat.eqb a b then 1 else 0))
          | _ => None
          end
      | Pauli f _ => f md E a b
      end.

    (** the base class, hnc_potentials.py:370-398 *)
    Definition base_short (f : R -> R) (r : R) : R := f r * exp (- alpha * r).
    Definition base_long (f : R -> R) (r : R) : R := f r * (1 - exp (- alpha * r)).

    (** long_r: 971-985 (Kelbg), 1197-1211 (Deutsch), 1292-1293 (EmptyCore),
        1359-1373 (Yukawa), 1462-1463 (SoftCore) *)
    Definition long_r (c : cls) : option (R -> R) :=
      match c with
      | Kelbg | Deutsch => Some (fun r => coulomb_r r * (1 - exp (- alpha * r)))
      | EmptyCore | SoftCore _ => full_r c
      | Yukawa _ => Some (fun r => coulomb_r r * exp (- kappa * r))
      | _ => obind (full_r c) (fun f => Some (base_long f))
      end.
    (** short_r: 967-968 (Kelbg), 1193-1194 (Deutsch), 1296-1300 (EmptyCore),
        1376-1378 (Yukawa), 1466-1467 (SoftCore: [self.q] does not exist) *)
    Definition short_r (c : cls) : option (R -> R) :=
      match c with
      | Kelbg | Deutsch => omap2 Rminus (full_r c) (long_r c)
      | EmptyCore => Some (fun _ => 0)
      | Yukawa sigma => Some (fun r => sigma ^ 4 / r ^ 4 * 1 * kB u * T_ab)
      | SoftCore _ => None
      | _ => obind (full_r c) (fun f => Some (base_short f))
      end.

    (** long_k: 816-830 (Coulomb), 877-892 (DebyeHueckel), 988-1003 (Kelbg),
        1214-1230 (Deutsch), 1303-1304 (EmptyCore), 1381-1384 (Yukawa),
        1503-1504 (SoftCore: [full_k] lacks an argument); base class 410-418 *)
    Definition coulomb_long_k (k : R) : R := q2 / (k ^ 2 * eps0 u) * alpha ^ 2 / (k ^ 2 + alpha ^ 2).
    Definition long_k (c : cls) : option (R -> R) :=
      match c with
      | Coulomb | Kelbg | Deutsch => Some coulomb_long_k
      | DebyeHueckel => Some (fun k => q2 / (k ^ 2 * eps0 u) * k ^ 2 * (alpha ^ 2 + 2 * alpha * kappa)
          / ((k ^ 2 + kappa ^ 2) * (k ^ 2 + (kappa + alpha) ^ 2)))
      | EmptyCore => Some (fun k => coulomb_kk k * cos (k * r_cut))
      | Yukawa _ => Some (fun k => coulomb_kk k / (1 + (kappa / k) ^ 2))
      | SoftCore _ => None
      | _ => obind (long_r c) (fun f => Some (tr f))
      end.
    (** short_k: 1307-1312 (EmptyCore), 1507-1512 (SoftCore); base class 400-408 *)
    Definition short_k (c : cls) : option (R -> R) :=
      match c with
      | EmptyCore => Some (fun _ => 0)
      | SoftCore _ => None
      | _ => obind (short_r c) (fun f => Some (tr f))
      end.
    (** full_k: 811-813 (Coulomb), 895-901 (DebyeHueckel), 1172-1190 (Deutsch),
        1282-1289 (EmptyCore), 1470-1500 (SoftCore), 1554-1611 (Pauli),
        1728-1736 (SpinAveragedEEExchange); base class 420-422 *)
    Definition full_k (c : cls) : option (R -> R) :=
      match c with
      | Coulomb => Some coulomb_kk
      | DebyeHueckel => Some (fun k => coulomb_kk k / (1 + (kappa / k) ^ 2))
      | Deutsch => Some (fun k => q2 / (k ^ 2 * eps0 u) * (1 / lambda_ab) ^ 2
          / (k ^ 2 + (1 / (lambda_ab / sqrt PI)) ^ 2))
      | EmptyCore => Some (fun k => coulomb_kk k * cos (k * r_cut))
      | SoftCore beta => Some (fun k => coulomb_kk k
          - tr (fun r => coulomb_r r * (if Req_EM_T r_cut 0 then 0 else exp (- Rpower (r / r_cut) beta))) k)
      | AvgExchange => obind (full_r c) (fun f => Some (tr_grid f))
      | Pauli _ g => g md E a b
      | _ => omap2 Rplus (short_k c) (long_k c)
      end.
  End Pair.

  (** Sums (PotentialSum, 594-709) and multiples (ScaledPotential, 712-789) *)
  Inductive pot := Prim (c : cls) (md : mode) | PSum (l : list pot) | Scaled (p : pot) (f : R).
  Fixpoint osum (l : list (option (R -> R))) : option (R -> R) :=
    match l with
    | [] => Some (fun _ => 0)
    | x :: l => omap2 Rplus x (osum l)
    end.
  (** any of the six methods *)
  Definition method := mode -> env -> nat -> nat -> cls -> option (R -> R).
  Fixpoint peval (m : method) (E : env) (a b : nat) (p : pot) : option (R -> R) :=
    match p with
    | Prim c md => m md E a b c
    | PSum l => osum (map (peval m E a b) l)
    | Scaled p f => obind (peval m E a b p) (fun g => Some (fun r => g r * f))
    end.
End Pot.
