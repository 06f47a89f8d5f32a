(** Model of /repo/src/jaxrts/free_free.py and of the free-free models of
    /repo/src/jaxrts/models.py.  One energy at a time.  [None] is nan or inf.
    [quad lo hi f] is quadax.quadgk of [f] between [lo] and [hi] ([None] is
    infinity), an arbitrary procedure here; the integrand may be nan.  The Fermi
    integrals of /repo/src/jaxrts/math.py are arbitrary functions. *)
From Coq Require Import Reals List Arith.
From Coquelicot Require Import Complex.
From Verif Require Import M_Const M_PlasmaState M_PlasmaPhysics M_Interp M_Instrument.
Import ListNotations.
Open Scope R_scope.

Notation "'do' x <- a ; b" := (obind a (fun x => b)) (at level 200, x name, a at level 100, b at level 200).

Definition cdiv (a b : C) : option C := if Ceq_dec b (RtoC 0) then None else Some (Cdiv a b).
Definition lno (x : R) : option R := if Rlt_dec 0 x then Some (ln x) else None.
Definition logaddexp0 (x : R) : R := ln (1 + exp x).

(** ee_localfieldcorrections.py:27-40 *)
Definition xi_lfc (xi : C) (v : R) (lfc : C) : option C :=
  cdiv xi (Cminus (RtoC 1) (Cmult (Cmult (RtoC v) (Cminus (RtoC 1) lfc)) xi)).

(** free_free.py:36-43; both trapezoids run over the whole grid *)
Definition kkt_masked (keep : R -> bool) (Edash : R) (Es Is : list R) : list R :=
  map2 (fun E I => if keep E then I / (E - Edash) else 0) Es Is.
Definition KKT_single_point (Edash : R) (Es Is : list R) (eps : R) : R :=
  trapz Es (kkt_masked (fun E => if Rlt_dec E (Edash - eps) then true else false) Edash Es Is)
  + trapz Es (kkt_masked (fun E => if Rgt_dec E (Edash + eps) then true else false) Edash Es Is).
(** the maximum of an array *)
Definition lmax (l : list R) : R := match l with [] => 0 | x :: r => fold_left Rmax r x end.
Definition lmin (l : list R) : R := match l with [] => 0 | x :: r => fold_left Rmin r x end.
(** free_free.py:46-67; [hbar] cancels: the transform of rates is the transform
    of energies divided by hbar *)
Definition KramersKronigTransform (Es Is : list R) (eps : R) (points : nat) : list R :=
  let E_max := lmax (map Rabs Es) in
  let grid := linspace (- E_max) E_max points in
  let I_grid := map (interp None None Es Is) grid in
  let I_KK := map (fun E => KKT_single_point E grid I_grid eps * (-1 / PI)) grid in
  map (interp None None grid I_KK) Es.

Section FF.
  Variable u : consts.
  Variable quad : R -> option R -> (R -> option R) -> option R.
  Variables F_m12 F_32 F_52 inv_F12 : R -> R.

  Notation V k := (coulomb_k u (-1) (-1) k).
  (** the inline Coulomb potential, e.g. free_free.py:313 *)
  Definition v_k (k : R) : R := e_ch u ^ 2 / eps0 u / k ^ 2.

  (** free_free.py:168-222 *)
  Definition S0ee_from_dielectric_func_FDT (k T n_e E : R) (eps : C) : option R :=
    do f <- qdiv (hbar u) (1 - exp (- (E / (kB u * T))));
    do i <- cdiv (RtoC 1) eps;
    Some (- (f * ((eps0 u * k ^ 2) / (PI * e_ch u ^ 2 * n_e)) * snd i)).
  (** free_free.py:225-275 *)
  Definition S0ee_from_susceptibility_FDT (k T n_e E : R) (xi : C) : option R :=
    do f <- qdiv (hbar u / (PI * n_e * V k)) (1 - exp (- (E / (kB u * T))));
    Some (- (f * snd (Cmult xi (RtoC (V k))))).

  (** free_free.py:70-107; the integral of exp(t^2) up to x *)
  Definition W_salpeter (x : R) : option C :=
    do I <- quad 0 (Some x) (fun t => Some (exp (t ^ 2)));
    Some (1 - 2 * x * exp (- x ^ 2) * I, sqrt PI * x * exp (- x ^ 2)).
  (** free_free.py:111-165 *)
  Definition dielectric_function_salpeter (k T n_e E : R) : option C :=
    let omega := E / hbar u in
    let v_t := sqrt (kB u * T / m_e u) in
    let x_e := omega / (sqrt 2 * k * v_t) in
    let kappa := hbar u * k / (2 * sqrt 2 * m_e u * v_t) in
    let w_p_sq := n_e * e_ch u ^ 2 / (m_e u * eps0 u) in
    do W1 <- W_salpeter (x_e + kappa);
    do W2 <- W_salpeter (x_e - kappa);
    do a <- cdiv (Cminus (RtoC 1) W1) (RtoC (x_e + kappa));
    do b <- cdiv (Cminus (RtoC 1) W2) (RtoC (x_e - kappa));
    Some (Cplus (RtoC 1) (Cmult (RtoC (w_p_sq / (k ^ 2 * v_t ^ 2) * (1 / (4 * kappa)))) (Cminus a b))).
  (** free_free.py:278-315 *)
  Definition S0_ee_Salpeter (k T n_e E : R) (lfc : C) : option R :=
    let E := - E in
    do eps <- dielectric_function_salpeter k T n_e E;
    do xi <- xi_lfc (xi0_from_eps_RPA u eps k) (v_k k) lfc;
    S0ee_from_susceptibility_FDT k T n_e E xi.

  (** free_free.py:365-402 *)
  Definition imag_no_damping (k E mu T : R) : R :=
    let kappa := E / hbar u * m_e u / (hbar u * k) in
    let prefactor := (kB u * T * m_e u ^ 2 * e_ch u ^ 2) / (2 * PI * eps0 u * hbar u ^ 4 * k ^ 3) in
    let exponent1 := (mu - kin_energy u (- k / 2 - kappa)) / (kB u * T) in
    let exponent2 := (mu - kin_energy u (k / 2 - kappa)) / (kB u * T) in
    - prefactor * (logaddexp0 exponent1 - logaddexp0 exponent2).
  (** free_free.py:689, 797 *)
  Definition thermal_unit (T : R) : R := sqrt (hbar u ^ 2 / (2 * m_e u) / (kB u * T)).
  (** free_free.py:772-791, 801-817 *)
  Definition integrand_no_damping (unit k kappa mu T Q : R) : option R :=
    let Q := Q / unit in
    do a <- qdiv (Rabs (kappa - k / 2 - Q) * Rabs (kappa + k / 2 + Q))
                 (Rabs (kappa - k / 2 + Q) * Rabs (kappa + k / 2 - Q));
    do l <- lno a;
    Some (Q * fermi_dirac u Q mu T * l * unit).
  (** free_free.py:715-834 *)
  Definition real_no_damping (unsave : bool) (k E mu T : R) : option R :=
    let kappa := E / hbar u * m_e u / (hbar u * k) in
    let prefactor := e_ch u ^ 2 * m_e u / (2 * PI ^ 2 * eps0 u * hbar u ^ 2 * k ^ 3) in
    if unsave then
      let unit := thermal_unit T in
      do I <- quad 0 None (integrand_no_damping unit k kappa mu T);
      Some (1 + prefactor * (I * (1 / unit ^ 2)))
    else
      let unit := 1 / Rabs (Rmin (kappa - k / 2) (- kappa - k / 2)) in
      do I1 <- quad 0 (Some 1) (integrand_no_damping unit k kappa mu T);
      do I2 <- quad 1 None (integrand_no_damping unit k kappa mu T);
      Some (1 + prefactor * ((I1 + I2) * (1 / unit ^ 2))).
  (** free_free.py:1059-1091 *)
  Definition dielectric_function_RPA_no_damping (unsave : bool) (k E mu T : R) : option C :=
    do re <- real_no_damping unsave k E mu T;
    Some (re, imag_no_damping k E mu T).
  (** free_free.py:1162-1202 *)
  Definition S0_ee_RPA_no_damping (unsave : bool) (k T n_e E mu : R) (lfc : C) : option R :=
    let E := - E in
    do eps <- dielectric_function_RPA_no_damping unsave k E mu T;
    do xi <- xi_lfc (xi0_from_eps_RPA u eps k) (V k) lfc;
    S0ee_from_susceptibility_FDT k T n_e E xi.

  (** free_free.py:405-480; complex energy *)
  Definition integrand_imag_RPA (unit k kappa delta mu T Q : R) : option R :=
    let Q := Q / unit in
    do a <- qdiv (kappa - k / 2 - Q) delta;
    do b <- qdiv (kappa + k / 2 + Q) delta;
    do c <- qdiv (kappa - k / 2 + Q) delta;
    do d <- qdiv (kappa + k / 2 - Q) delta;
    Some (Q * fermi_dirac u Q mu T * (atan a + atan b - atan c - atan d) * unit).
  Definition imag_RPA (k : R) (E : C) (mu T : R) : option R :=
    let kappa := fst E / hbar u * m_e u / (hbar u * k) in
    let delta := snd E / hbar u * m_e u / (hbar u * k) in
    let prefactor := - (e_ch u ^ 2 * m_e u) / (2 * PI ^ 2 * eps0 u * hbar u ^ 2 * k ^ 3) in
    let unit := thermal_unit T in
    if Req_EM_T delta 0 then Some (imag_no_damping k (fst E) mu T)
    else do I <- quad 0 None (integrand_imag_RPA unit k kappa delta mu T);
         Some (prefactor * (I * (1 / unit ^ 2))).
  (** free_free.py:640-712 *)
  Definition integrand_real_RPA (unit k kappa delta mu T Q : R) : option R :=
    let Q := Q / unit in
    do a <- qdiv ((delta ^ 2 + (kappa - k / 2 - Q) ^ 2) * (delta ^ 2 + (kappa + k / 2 + Q) ^ 2))
                 ((delta ^ 2 + (kappa - k / 2 + Q) ^ 2) * (delta ^ 2 + (kappa + k / 2 - Q) ^ 2));
    do l <- lno a;
    Some (Q * fermi_dirac u Q mu T * l * unit).
  Definition real_RPA (k : R) (E : C) (mu T : R) : option R :=
    let kappa := fst E / hbar u * m_e u / (hbar u * k) in
    let delta := snd E / hbar u * m_e u / (hbar u * k) in
    let prefactor := e_ch u ^ 2 * m_e u / (4 * PI ^ 2 * eps0 u * hbar u ^ 2 * k ^ 3) in
    let unit := thermal_unit T in
    do I <- quad 0 None (integrand_real_RPA unit k kappa delta mu T);
    Some (1 + prefactor * (I * (1 / unit ^ 2))).
  (** free_free.py:1094-1126 *)
  Definition dielectric_function_RPA (k : R) (E : C) (mu T : R) : option C :=
    do re <- real_RPA k E mu T; do im <- imag_RPA k E mu T; Some (re, im).

  (** free_free.py:483-558 and 560-638.  For [real_red_w = 0] the unit is inf:
      every node becomes 0 and the integrals vanish, or nan without damping. *)
  Definition red_w (k E T : R) : R := E / hbar u / k / (sqrt 2 * sqrt (kB u * T / m_e u)).
  Definition kap_rewrite (k T : R) : R := hbar u * k / 2 / sqrt (2 * m_e u * kB u * T).
  Definition pref_rewrite (k T : R) : R :=
    1 / (2 * sqrt PI * (kB u * T) * kap_rewrite k T
         / Rpower ((m_e u * kB u * T) / (2 * PI * hbar u ^ 2)) (3 / 2)).
  Definition integrand_real_rewrite (unit rr ri kap eta w : R) : option R :=
    let w := w / unit in
    do p1 <- qdiv (w - rr) ((w - rr) ^ 2 + ri ^ 2);
    do p2 <- qdiv (w + rr) ((w + rr) ^ 2 + ri ^ 2);
    Some ((p1 + p2) * (ln (1 + exp (eta - (w + kap) ^ 2)) - ln (1 + exp (eta - (w - kap) ^ 2)))).
  Definition integrand_imag_rewrite (unit rr ri kap eta w : R) : option R :=
    let w := w / unit in
    do p1 <- qdiv 1 ((w - rr) ^ 2 + ri ^ 2);
    do p2 <- qdiv 1 ((w + rr) ^ 2 + ri ^ 2);
    Some ((p1 - p2) * (ri * ln ((1 + exp (eta - (w + kap) ^ 2)) / (1 + exp (eta - (w - kap) ^ 2))))).
  Definition part_rewrite (integrand : R -> R -> R -> R -> R -> R -> option R) (k : R) (E : C) (mu T : R) : option R :=
    let rr := red_w k (fst E) T in
    let ri := red_w k (snd E) T in
    let eta := mu / (kB u * T) in
    if Req_EM_T rr 0 then (if Req_EM_T ri 0 then None else Some 0)
    else
      let unit := 1 / Rabs rr in
      do I1 <- quad 0 (Some 1) (integrand unit rr ri (kap_rewrite k T) eta);
      do I2 <- quad 1 None (integrand unit rr ri (kap_rewrite k T) eta);
      Some (pref_rewrite k T * ((I1 + I2) * (1 / unit) * V k)).
  (** free_free.py:1129-1159 *)
  Definition dielectric_function_RPA_rewrite (k : R) (E : C) (mu T : R) : option C :=
    do re <- part_rewrite integrand_real_rewrite k E mu T;
    do im <- part_rewrite integrand_imag_rewrite k E mu T;
    Some (1 - re, - 1 * im).
  Definition damped (rewrite : bool) := if rewrite then dielectric_function_RPA_rewrite else dielectric_function_RPA.
  (** free_free.py:1205-1251 *)
  Definition S0_ee_RPA (rewrite : bool) (k T n_e E mu : R) (lfc : C) : option R :=
    let E := - E in
    do eps <- damped rewrite k (RtoC E) mu T;
    do xi <- xi_lfc (xi0_from_eps_RPA u eps k) (v_k k) lfc;
    S0ee_from_susceptibility_FDT k T n_e E xi.

  (** free_free.py:837-929; gamma(1/2), gamma(5/2), gamma(7/2) in closed form *)
  Definition dandrea_a (theta : R) : option (R * R * R * R) :=
    do a2 <- qdiv (- (2280 / 10000) + theta)
                  (4222 / 10000 + - (6466 / 10000) * Rpower theta (70572 / 100000) + 58820 / 10000 * theta ^ 2);
    do a4 <- qdiv (1 - 30375 / 10000 * theta + 64646 / 1000 * theta ^ 2)
                  (19608 / 1000 - 96978 / 1000 * theta + 42366 / 100 * theta ^ 2 - 33101 / 100 * theta ^ 3
                   + 20833 / 1000 * (64646 / 1000) * theta ^ 4);
    do a6 <- qdiv (- (1900 / 10000) + theta)
                  (36538 / 100000 - 22575 / 10000 * theta + 22942 / 1000 * theta ^ 2 - 43492 / 1000 * theta ^ 3
                   + 10640 / 100 * theta ^ 4);
    do a8 <- qdiv (91 / 100 - 64453 / 10000 * theta + 122324 / 10000 * theta ^ 2)
                  (1 - 71316 / 10000 * theta + 22725 / 1000 * theta ^ 2 + 58092 / 1000 * theta ^ 3
                   - 43602 / 100 * theta ^ 4 - 82651 / 100 * theta ^ 5 + 49129 / 10 * theta ^ 6);
    Some (a2, a4, a6, a8).
  Definition dandrea_J (theta : R) : option R :=
    qdiv (1 + 32488 / 10 * theta ^ 2 - 69147 / 100 * theta ^ 4 - 3202700 * theta ^ 7)
         (1 + (32488 / 10 - PI ^ 2 / 6) * theta ^ 2 - 45356 / 10 * theta ^ 4 - 462400 * theta ^ 6
          + (3 * sqrt 2 * -3202700 / (4 * sqrt PI) * Rpower theta (15 / 2) + (3 * -3202700 / 4) * theta ^ 9)).
  Definition dandrea_K (theta : R) : option R :=
    qdiv (1 - 48780 / 10000 * theta ^ 2 + 47325 / 100 * theta ^ 4 - 23375 / 10 * theta ^ 7)
         (1 + (- (48780 / 10000) - 3 * PI ^ 2 / 4) * theta ^ 2 + 34831 / 100 * theta ^ 4 + 15173 / 10 * theta ^ 7
          - 7 * sqrt 2 * - (23375 / 10) / (8 * sqrt PI) * Rpower theta (17 / 2) - (3 * - (23375 / 10) / 8) * theta ^ 10).
  Definition phi_Dandrea (x theta eta0 : R) : option R :=
    let I_m := F_m12 eta0 * sqrt PI in
    let I_15 := F_32 eta0 * (3 / 4 * sqrt PI) in
    let I_25 := F_52 eta0 * (15 / 8 * sqrt PI) in
    do a <- dandrea_a theta;
    let '(a2, a4, a6, a8) := a in
    do J <- dandrea_J theta;
    do K <- dandrea_K theta;
    do qJ <- qdiv (2 * J) (3 * sqrt theta * I_m);
    do qK <- qdiv (2 * K) (15 * sqrt theta * I_m);
    let b2 := a2 + qJ in
    let b4 := b2 ^ 2 - a2 * b2 + a4 + qK in
    let b10 := 3 / 2 * sqrt theta * I_m * a8 in
    let b8 := 3 / 2 * sqrt theta * I_m * a6 - 1 / 2 * Rpower theta (5 / 2) * I_15 * b10 in
    let b6 := 3 / 2 * sqrt theta * I_m * a4 - 1 / 2 * Rpower theta (5 / 2) * I_15 * b8
              - 3 / 10 * Rpower theta (7 / 2) * I_25 * b10 in
    do phi_tilde <- qdiv (1 + a2 * x ^ 2 + a4 * x ^ 4 + a6 * x ^ 6 + a8 * x ^ 8)
                         (1 + b2 * x ^ 2 + b4 * x ^ 4 + b6 * x ^ 6 + b8 * x ^ 8 + b10 * x ^ 10);
    Some (sqrt theta * I_m * x * phi_tilde).
  (** free_free.py:932-958 *)
  Definition real_Dandrea (theta Q rs z eta0 alpha : R) : option R :=
    do p <- phi_Dandrea (z / Q + Q) theta eta0;
    do m <- phi_Dandrea (z / Q - Q) theta eta0;
    Some (- alpha * rs / (4 * PI * Q ^ 3) * (p - m)).
  (** free_free.py:961-984 *)
  Definition imag_Dandrea (theta Q rs z eta0 alpha : R) : R :=
    - alpha * rs * theta / (8 * Q ^ 3)
    * ln ((1 + exp (eta0 - 1 / theta * (z / Q - Q) ^ 2)) / (1 + exp (eta0 - 1 / theta * (z / Q + Q) ^ 2))).
  (** free_free.py:987-1012; gamma(3/2) in closed form *)
  Definition xi0_Dandrea (k E T n_e : R) : option C :=
    let Ef := fermi_energy u n_e in
    let kf := fermi_wavenumber n_e in
    let theta := T * kB u / Ef in
    let alpha := Rpower (4 / (9 * PI)) (1 / 3) in
    let rs := wiegner_seitz_radius n_e / a_0 u in
    let Q := k / (2 * kf) in
    let z := E / (4 * Ef) in
    let eta0 := inv_F12 ((2 / 3 * Rpower theta (- (3 / 2))) / (sqrt PI / 2)) in
    do re <- real_Dandrea theta Q rs z eta0 alpha;
    Some (Cmult (RtoC (1 / V k)) (re, imag_Dandrea theta Q rs z eta0 alpha)).
  (** free_free.py:1015-1056 *)
  Definition dielectric_function_Dandrea (k E T n_e : R) : option C :=
    do xi0 <- xi0_Dandrea k E T n_e;
    Some (Cminus (RtoC 1) (Cmult (RtoC (V k)) xi0)).
  (** free_free.py:1765-1779 *)
  Definition S0_ee_RPA_Dandrea (k T n_e E : R) (lfc : C) : option R :=
    let E := - E in
    do xi0 <- xi0_Dandrea k E T n_e;
    do xi <- xi_lfc xi0 (v_k k) lfc;
    S0ee_from_susceptibility_FDT k T n_e E xi.

  (** free_free.py:1254-1280 *)
  Definition inverse_screening_length_exact (T mu : R) : option R :=
    let prefactor := (e_ch u ^ 2 * Rpower (m_e u) (3 / 2)) / (sqrt 2 * PI ^ 2 * eps0 u * hbar u ^ 3) in
    do I <- quad 0 None (fun Ep => do s <- qdiv 1 (sqrt Ep); Some (s * / (exp ((Ep - mu) / (kB u * T)) + 1)));
    sqrto (prefactor * I).
  (** free_free.py:1283-1290 *)
  Definition inverse_screening_length_non_degenerate (n_e T : R) : R :=
    sqrt (n_e * e_ch u ^ 2 / (eps0 u * kB u * T)).
  (** free_free.py:1293-1299 *)
  Definition statically_screened_ie_debye_potential (q kappa Zf : R) : R :=
    - Zf * e_ch u ^ 2 / (eps0 u * (q ^ 2 + kappa ^ 2)).

  (** Born collision frequency, free_free.py:1303-1357, 1412-1464 and the tables of
      1467-1706.  [eps q E] is the dielectric function used: the undamped one
      (unsave=True) or the Dandrea fit. *)
  Section Collision.
    Variable eps : R -> R -> option C.
    Variables S_ii V_eiS : R -> R.
    Variable Zf : R.

    Definition coll_prefactor : R := eps0 u / (6 * PI ^ 2 * Zf * e_ch u ^ 2 * m_e u).
    Definition coll_integrand (E q : R) : option C :=
      do e0 <- eps q 0;
      do e <- eps q E;
      do iw <- qdiv 1 (E / hbar u);
      Some (Cmult (RtoC (q ^ 6 * V_eiS q ^ 2 * S_ii q * iw)) (Cmult (Copp Ci) (Cminus e e0))).
    Definition coll_part (part : C -> R) (E : R) : option R :=
      do I <- quad 0 None (fun q => option_map part (coll_integrand E q));
      Some (I * coll_prefactor).
    (** KKT=False *)
    Definition collision_frequency (E : R) : option C :=
      do re <- coll_part fst E; do im <- coll_part snd E; Some (re, im).

    Fixpoint all_some (l : list (option R)) : option (list R) :=
      match l with
      | [] => Some []
      | x :: r => do a <- x; do b <- all_some r; Some (a :: b)
      end.
    (** free_free.py:1536-1556 and 1657-1677: mirrored tables *)
    Definition mirror (sgn : R) (l : list R) : list R := map (fun x => sgn * x) (rev l) ++ l.
    (** free_free.py:1467-1586, 1589-1706; [eps_kkt] is the width left out by the
        Kramers-Kronig transform, 1 meV *)
    Definition interp_table (kkt : option R) (Es re im : list R) (E : R) : C :=
      let xE := mirror (-1) Es in
      let xre := mirror 1 re in
      let xim := match kkt with
                 | Some eps_kkt => KramersKronigTransform xE xre eps_kkt 1000
                 | None => mirror (-1) im
                 end in
      (interp None None xE xre E, interp None None xE xim E).
    Definition collision_frequency_interp (kkt : option R) (E_min E_max : R) (points : nat) (E : R) : option C :=
      let Es := linspace E_min E_max points in
      do re <- all_some (map (coll_part fst) Es);
      do im <- (match kkt with Some _ => Some [] | None => all_some (map (coll_part snd) Es) end);
      Some (interp_table kkt Es re im E).
    (** free_free.py:1734-1747: the frequencies used for the energies [Es] *)
    Definition resampled (Es : list R) (E : R) : option C :=
      let grid := linspace (10 * lmin Es) (10 * lmax Es) 1000 in
      do re <- all_some (map (coll_part fst) grid);
      do im <- all_some (map (coll_part snd) grid);
      Some (interp None None grid re E, interp None None grid im E).
  End Collision.

  (** Mermin's step.  free_free.py:1755-1762 *)
  Definition mermin_full (w : R) (nu eps p0 : C) : option C :=
    do q <- cdiv nu (RtoC w);
    do r <- cdiv (Cminus eps (RtoC 1)) p0;
    do m <- cdiv (Cmult (Cplus (RtoC 1) (Cmult Ci q)) (Cminus eps (RtoC 1)))
                 (Cplus (RtoC 1) (Cmult (Cmult Ci q) r));
    Some (Cplus (RtoC 1) m).
  (** free_free.py:1865-1868 *)
  Definition mermin_fit (w : R) (nu eps p0 : C) : option C :=
    let pnu := Cminus eps (RtoC 1) in
    do m <- cdiv (Cmult (Cmult (Cplus (RtoC w) (Cmult Ci nu)) p0) pnu)
                 (Cplus (Cmult p0 (RtoC w)) (Cmult (Cmult Ci nu) pnu));
    Some (Cplus (RtoC 1) m).
  (** free_free.py:2035-2038 *)
  Definition mermin_interp (w : R) (nu eps p0 : C) : option C :=
    let pnu := Cminus eps (RtoC 1) in
    do m <- cdiv (Cplus (Cmult (Cmult (RtoC w) p0) pnu) (Cmult (Cmult (Cmult Ci nu) p0) pnu))
                 (Cplus (Cmult p0 (RtoC w)) (Cmult (Cmult Ci nu) pnu));
    Some (Cplus (RtoC 1) m).
  (** free_free.py:1955-1975 *)
  Definition mermin_Fortmann (w : R) (nu xi_dyn xi_stat : C) : option C :=
    do r <- cdiv (Cmult Ci (RtoC w)) nu;
    cdiv (Cmult (Cminus (RtoC 1) r) (Cmult xi_dyn xi_stat)) (Cminus xi_dyn (Cmult r xi_stat)).

  (** the damped dielectric function at E + i hbar nu *)
  Definition damped_at (rewrite : bool) (k E : R) (nu : C) (mu T : R) : option C :=
    damped rewrite k (Cplus (RtoC E) (Cmult Ci (Cmult (RtoC (hbar u)) nu))) mu T.

  (** free_free.py:1809-1868, given the collision frequency *)
  Definition dielectric_function_BMA_fit (rewrite : bool) (nu : R -> option C) (k E mu T n_e : R) : option C :=
    do n <- nu E;
    do e0 <- dielectric_function_Dandrea k 0 T n_e;
    do eps <- damped_at rewrite k E n mu T;
    mermin_fit (E / hbar u) n eps (Cminus e0 (RtoC 1)).
  (** free_free.py:1979-2038 *)
  Definition dielectric_function_BMA_interp (rewrite : bool) (nu : R -> option C) (k E mu T n_e : R) : option C :=
    do n <- nu E;
    do e0 <- dielectric_function_RPA_no_damping true k 0 mu T;
    do eps <- damped_at rewrite k E n mu T;
    mermin_interp (E / hbar u) n eps (Cminus e0 (RtoC 1)).
  (** free_free.py:1710-1762; the collision frequency comes interpolated from 1000
      points between ten times the smallest and ten times the largest energy *)
  Definition dielectric_function_BMA_full (rewrite : bool) (nu : R -> option C) (k E mu T n_e : R) : option C :=
    do n <- nu E;
    do eps <- damped_at rewrite k E n mu T;
    do e0 <- dielectric_function_RPA_no_damping true k 0 mu T;
    mermin_full (E / hbar u) n eps (Cminus e0 (RtoC 1)).
  (** free_free.py:1908-1975 *)
  Definition susceptibility_BMA_Fortmann (rewrite : bool) (nu : R -> option C) (k E mu T n_e : R) (lfc : C) : option C :=
    do n <- nu E;
    do eps <- damped_at rewrite k E n mu T;
    do xi_dyn <- xi_lfc (xi0_from_eps_RPA u eps k) (V k) lfc;
    do xi0_stat <- xi0_Dandrea k 0 T n_e;
    do xi_stat <- xi_lfc xi0_stat (V k) lfc;
    mermin_Fortmann (E / hbar u) n xi_dyn xi_stat.
  (** free_free.py:1871-1904 *)
  Definition dielectric_function_BMA_Fortmann (rewrite : bool) (nu : R -> option C) (k E mu T n_e : R) (lfc : C) : option C :=
    do xi <- susceptibility_BMA_Fortmann rewrite nu k E mu T n_e lfc;
    cdiv (RtoC 1) (Cplus (RtoC 1) (Cmult (RtoC (V k)) xi)).

  (** free_free.py:1782-1806, 2042-2080, 2083-2121: [diel] is one of the above *)
  Definition S0_ee_BMA (diel : (R -> option C) -> R -> R -> R -> R -> R -> option C) (nu : R -> option C)
    (k T mu n_e E : R) (lfc : C) : option R :=
    let E := - E in
    do eps <- diel nu k E mu T n_e;
    do xi <- xi_lfc (xi0_from_eps_RPA u eps k) (v_k k) lfc;
    S0ee_from_susceptibility_FDT k T n_e E xi.
  (** free_free.py:2124-2161 *)
  Definition S0_ee_BMA_Fortmann (rewrite : bool) (nu : R -> option C) (k T mu n_e E : R) (lfc : C) : option R :=
    let E := - E in
    do xi <- susceptibility_BMA_Fortmann rewrite nu k E mu T n_e lfc;
    S0ee_from_susceptibility_FDT k T n_e E xi.

  (** free_free.py:2166-2185.  jnp.max returns nan if an entry is nan; a
      comparison with nan is false. *)
  Definition nanmax (l : list (option R)) : option R :=
    option_map lmax (all_some l).
  Definition guess_E_cutoff_max (See : R -> option R) (E_max : R) (KKT : bool) : R :=
    let E_RPA := linspace 0 (10 * E_max) 500 in
    let S := map See E_RPA in
    let threshold := nanmax (map (option_map (fun s => s * (1 / 10000))) S) in
    let kept := map2 (fun s E => match s, threshold with
                                 | Some a, Some t => if Rgt_dec a t then E else lmax E_RPA
                                 | _, _ => lmax E_RPA
                                 end) S E_RPA in
    let cut := Rabs (lmin kept * (3 / 2)) in
    if KKT then cut else Rmin cut E_max.
  (** free_free.py:2188-2191 *)
  Definition guess_E_cutoff_min (n_e : R) (KKT : bool) : R :=
    let E_pe := plasma_frequency u n_e * hbar u in
    if KKT then 1 / 1000000 * E_pe else E_pe / 2.

  (** models.py:1434-1448, 1512-1526, 1598-1612: scaling of the spectrum with the
      mean ionisation; [See] has length one *)
  Definition scale_spectrum (Z_free x : list R) (mean_Z_A : R) (See : option R) : option R :=
    if Req_EM_T (sum Z_free) 0 then qdiv 0 mean_Z_A
    else do s <- See; qdiv (s * sum (map2 Rmult Z_free x)) mean_Z_A.
  (** models.py:1568-1612 RPA_DandreaFit.evaluate_raw; [k_dc] is the
      dispersion-corrected wavenumber at this energy, [lfc_k] the local field
      correction there, [k], [lfc] those of the setup *)
  Definition RPA_DandreaFit_raw (Z_free x : list R) (mean_Z_A T n_e k_dc k shift : R) (lfc_k lfc : C) : option R :=
    let wpl := plasma_frequency u n_e in
    let at_zero := do a <- S0_ee_RPA_Dandrea k T n_e (- (1 / 1000000) * hbar u * wpl) lfc;
                   do b <- S0_ee_RPA_Dandrea k T n_e (1 / 1000000 * hbar u * wpl) lfc;
                   Some ((a + b) / 2) in
    scale_spectrum Z_free x mean_Z_A
      (if Req_EM_T shift 0 then at_zero else S0_ee_RPA_Dandrea k_dc T n_e shift lfc_k).
  (** models.py:1496-1526 RPA.evaluate_raw *)
  Definition RPA_raw (Z_free x : list R) (mean_Z_A T n_e k_dc mu shift : R) (lfc_k : C) : option R :=
    scale_spectrum Z_free x mean_Z_A (S0_ee_RPA_no_damping false k_dc T n_e shift mu lfc_k).
  (** models.py:1420-1448 QCSalpeterApproximation.evaluate_raw *)
  Definition QCSalpeter_raw (Z_free x : list R) (mean_Z_A T n_e k_dc shift : R) (lfc : C) : option R :=
    scale_spectrum Z_free x mean_Z_A (S0_ee_Salpeter k_dc T n_e shift lfc).
End FF.
