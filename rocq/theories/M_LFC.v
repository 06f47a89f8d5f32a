(** Model of the static local field corrections,
    /repo/src/jaxrts/ee_localfieldcorrections.py and
    ee_localfieldcorrections_dornheim_2021.py.  [None]: nan, infinity or a
    division by zero.  Powers [x ** 0.5], [x ** (3 / 2)] and [x ** 1.25] of
    non-negative numbers are written with square roots, so that they are right
    at zero, too. *)
From Coq Require Import Reals List.
From Verif Require Import M_Const M_PlasmaState M_PlasmaPhysics M_Interp.
Import ListNotations.
Open Scope R_scope.

Section LFC.
  Variable u : consts.
  (** jax.scipy.special.i1 *)
  Variable i1 : R -> R.
  (** quadax.quadts over [0, inf], first component *)
  Variable quad : (R -> R) -> R.
  (** [double], ee_localfieldcorrections_dornheim_2021.py:32-2501, 2470 lines of
      generated code: the second derivative of the free energy *)
  Variable double : R -> R -> R.

  (** eelfc_hubbard, ee_localfieldcorrections.py:43-56 *)
  Definition eelfc_hubbard (k n_e : R) : R := k ^ 2 / (2 * (k ^ 2 + fermi_wavenumber n_e ^ 2)).

  (** ee_localfieldcorrections.py:129 and 175-177 *)
  Definition lfc_rs (n_e : R) : R := interparticle_spacing 1 1 n_e / a_0 u.

  (** ** eelfc_geldartvosko, ee_localfieldcorrections.py:60-115 *)
  (** 66-73 *)
  Definition GV_T_q (n_e : R) : option R :=
    qdiv (fermi_energy u n_e / kB u) (13251 / 10000 - 1779 / 10000 * sqrt (lfc_rs n_e)).
  Definition GV_T_ee (T_e n_e : R) : option R :=
    obind (GV_T_q n_e) (fun T_q => Some (sqrt (T_e ^ 2 + T_q ^ 2))).
  (** 76-81 *)
  Definition GV_gamma_T (G : R) : R :=
    Rpower (12 * PI ^ 2) (1 / 3) *
    (999305 / 10000000 + 187058 / 10000000 / G + 13240 / 10000000 / Rpower G (4 / 3)
     - 479236 / 10000000 / Rpower G (2 / 3)).
  (** 84-87 *)
  Definition GV_H_0 (G : R) : R :=
    let C_sc := 10754 / 10000 in
    C_sc * Rpower G (3 / 2) / Rpower ((C_sc / sqrt 3) ^ 4 + G ^ 4) (1 / 4).
  (** 89-99 *)
  Definition GV_xi (T_ee : R) : R :=
    (m_e u * e_ch u ^ 4) / ((4 * PI * eps0 u) ^ 2 * kB u * T_ee * hbar u ^ 2).
  (** 103-104 *)
  Definition GV_integrand (xi x : R) : R := x * exp (- xi * x ^ 2) / (exp (PI / x) - 1).
  (** 101, 106-113 *)
  Definition GV_g_bin_0 (xi : R) : R := sqrt (2 * PI) * Rpower xi (3 / 2) * quad (GV_integrand xi).
  Definition GV_gT (G xi : R) : R := GV_g_bin_0 xi * exp (GV_H_0 G).
  (** 115; [(1 - 1) ** -1] is infinite *)
  Definition GV_form (k k_F gamma g : R) : option R :=
    if Req_EM_T g 1 then (if Req_EM_T k 0 then None else Some 0)
    else obind (qdiv 1 gamma) (fun i => qdiv (k ^ 2) (i * k_F ^ 2 + / (1 - g) * k ^ 2)).
  Definition eelfc_geldartvosko (k T_e n_e : R) : option R :=
    obind (GV_T_ee T_e n_e) (fun T_ee =>
    if Req_EM_T T_ee 0 then None else
    let G := coupling_param u 1 1 n_e T_ee in
    GV_form k (fermi_wavenumber n_e) (GV_gamma_T G) (GV_gT G (GV_xi T_ee))).

  (** ** Zero temperature *)
  (** Yasuhara's value at contact, 132-133 and 246-247 *)
  Definition g0_ee (rs : R) : option R :=
    let z := 4 * Rpower (4 / (9 * PI)) (1 / 6) * sqrt (rs / PI) in
    obind (qdiv z (i1 z)) (fun q => Some (1 / 8 * q ^ 2)).
  (** 135-137 and 189-191 *)
  Definition rs2dEc_drs (rs : R) : R :=
    (621814 / 10000000 + 61024 / 100000 * sqrt rs) /
    (1 + 981379 / 100000 * sqrt rs + 282224 / 100000 * rs + 736411 / 1000000 * (rs * sqrt rs)).
  (** 138-144 and 192-198 *)
  Definition rs3d2Ec_d2rs (rs : R) : R :=
    (- (823505 / 100000) * (rs * sqrt rs) - 2486 / 1000 * rs ^ 2 - 230573 / 10000 * rs
     - 450109 / 100000 * sqrt rs - 229324 / 1000000) /
    (rs * sqrt rs + 383243 / 100000 * rs + 133265 / 10000 * sqrt rs + 135794 / 100000) ^ 2.
  (** 146-148 and 200-202 *)
  Definition gamma_0 (rs : R) : R :=
    1 / 4 - (PI * Rpower (4 / (9 * PI)) (1 / 3)) / 24 * (rs3d2Ec_d2rs rs - 2 * rs2dEc_drs rs).
  (** the last expression of both functions, 157-164 and 260-268; at [Q = 0] it
      is infinity times zero, at [Q = 2] zero times infinity *)
  Definition zero_T_form (A B C D Q : R) : option R :=
    if Req_EM_T Q 0 then None else if Req_EM_T Q 2 then None else if Req_EM_T Q (-2) then None else
    Some (A * Q ^ 4 + B * Q ^ 2 + C
          + (A * Q ^ 4 + D * Q ^ 2 - C) * ((4 - Q ^ 2) / (4 * Q)) * ln (Rabs ((2 + Q) / (2 - Q)))).
  (** eelfc_utsumiichimaru, 119-164 *)
  Definition UI_coefficients (gamma g0 : R) : R * R * R * R :=
    let A := 29 / 1000 in
    let B := 9 / 16 * gamma - 3 / 64 * (1 - g0) - 16 / 15 * A in
    let C := - (3 / 4) * gamma + 9 / 16 * (1 - g0) - 16 / 5 * A in
    (A, B, C, B + 8 / 3 * A).
  Definition eelfc_utsumiichimaru (k n_e : R) : option R :=
    obind (g0_ee (lfc_rs n_e)) (fun g0 =>
    let '(A, B, C, D) := UI_coefficients (gamma_0 (lfc_rs n_e)) g0 in
    zero_T_form A B C D (k / fermi_wavenumber n_e)).

  (** ** eelfc_farid, 168-268 *)
  (** 179-183 *)
  Definition F_lamb : R := Rpower (4 / (9 * PI)) (1 / 3).
  Definition F_k_F (rs : R) : R := 1 / (F_lamb * rs).
  Definition F_E_F (rs : R) : R := F_k_F rs ^ 2 / 2.
  Definition F_w_p (rs : R) : R := sqrt (3 / rs ^ 3).
  (** 206-219 *)
  Definition F_delta_2 (x : R) : option R :=
    qdiv (- (22963827 / 10 ^ 10) * x + 56991691 / 10 ^ 9 * x ^ 2 - 8533622 / 10 ^ 7 * x ^ 3
          - 87736539 / 10 ^ 7 * x ^ 4 + 7881997 / 10 ^ 7 * x ^ 5 - 12707788 / 10 ^ 9 * x ^ 6)
         (x ^ 4 - 799684540 / 10 ^ 7 - 1405268938 / 10 ^ 7 * x - 352575566 / 10 ^ 7 * x ^ 2
          - 106331769 / 10 ^ 7 * x ^ 3).
  (** 221-242 *)
  Definition F_delta_4 (x d2 : R) : option R :=
    obind (qdiv (230118890 / 10 ^ 7 - 648378723 / 10 ^ 7 * x + 635105927 / 10 ^ 7 * x ^ 2
                 - 139457829 / 10 ^ 7 * x ^ 3 - 126252782 / 10 ^ 7 * x ^ 4 + 138524989 / 10 ^ 7 * x ^ 5
                 - 52740937 / 10 ^ 7 * x ^ 6 + 10156885 / 10 ^ 7 * x ^ 7 - 11039532 / 10 ^ 9 * x ^ 8)
                (x ^ 6 + 95753544 / 10 ^ 7 - 329770151 / 10 ^ 7 * x + 482528870 / 10 ^ 7 * x ^ 2
                 - 387189788 / 10 ^ 7 * x ^ 3 + 205595956 / 10 ^ 7 * x ^ 4 - 63066750 / 10 ^ 7 * x ^ 5))
          (fun q => Some (d2 * q)).
  (** 249-258; [r] is [E_F ** 2 / w_p ** 2] *)
  Definition F_b0A (g0 : R) : R := 2 / 3 * (1 - g0).
  Definition F_b0B (r d4 : R) : R := 48 * r / 35 * d4.
  Definition F_b0C (r d2 : R) : R := - (16 / 25) * r * (2 * d2 + d2 ^ 2).
  Definition F_bm2 (r d2 : R) : R := 4 / 5 * r * d2.
  Definition Farid_coefficients (gamma b0A b0B b0C bm2 : R) : R * R * R * R :=
    let a := 29 / 1000 in
    let b0 := b0A + b0B + b0C in
    let A := 63 / 64 * a + 15 / 4096 * (b0A - 2 * (b0B + b0C) - 16 * bm2) in
    (A, 9 / 16 * gamma + 7 / 16 * bm2 - 3 / 64 * b0 - 16 / 15 * A,
     - (3 / 4) * gamma + 3 / 4 * bm2 + 9 / 16 * b0 - 16 / 5 * A,
     9 / 16 * gamma - 9 / 16 * bm2 - 3 / 64 * b0 + 8 / 5 * A).
  (** the four coefficients that enter: b0A, b0B, b0C and bm2 *)
  Definition Farid_b (rs : R) : option (R * R * R * R) :=
    let x := sqrt rs in
    let r := F_E_F rs ^ 2 / F_w_p rs ^ 2 in
    obind (F_delta_2 x) (fun d2 => obind (F_delta_4 x d2) (fun d4 => obind (g0_ee rs) (fun g0 =>
    Some (F_b0A g0, F_b0B r d4, F_b0C r d2, F_bm2 r d2)))).
  Definition eelfc_farid (k n_e : R) : option R :=
    obind (Farid_b (lfc_rs n_e)) (fun b =>
    let '(b0A, b0B, b0C, bm2) := b in
    let '(A, B, C, D) := Farid_coefficients (gamma_0 (lfc_rs n_e)) b0A b0B b0C bm2 in
    zero_T_form A B C D (k / fermi_wavenumber n_e)).

  (** ** Interpolations, 272-289 and 293-308 *)
  Definition Theta (T_e n_e : R) : R := T_e / (fermi_energy u n_e / kB u).
  Definition weigh (Th : R) (cold hot : option R) : option R :=
    obind cold (fun c => obind hot (fun h => qdiv (c + Th * h) (1 + Th))).
  Definition eelfc_interp_gregori2007 (k T_e n_e : R) : option R :=
    weigh (Theta T_e n_e) (eelfc_utsumiichimaru k n_e) (eelfc_geldartvosko k T_e n_e).
  Definition eelfc_interp_fortmann2010 (k T_e n_e : R) : option R :=
    weigh (Theta T_e n_e) (eelfc_farid k n_e) (eelfc_geldartvosko k T_e n_e).

  (** ** ee_localfieldcorrections_dornheim_2021.py *)
  (** 16-29 *)
  Definition qf (rs : R) : R := Rpower (9 / 4 * PI) (1 / 3) / rs.
  Definition Ef (rs : R) : R := qf rs * qf rs * (5 / 10).
  Definition density (rs : R) : R := 3 / 4 / PI / rs ^ 3.
  Definition inverse_temperature (rs t : R) : R := 1 / (Ef rs * t).
  (** 2506-2510 *)
  Definition Groth_A (rs t : R) : R :=
    - qf rs ^ 2 / (4 * PI) * double (density rs) (inverse_temperature rs t).
  (** 2516-2559 *)
  Definition OnTop (rs t : R) : R :=
    (1 + (18315 / 100000 + 184377 / 10000 * t) / (1 + t * (241339 / 10000) + t * t * t * (186499 / 100000)) * sqrt rs
       + (- (784043 / 10000000) - 24368 / 100000 * sqrt t) / (1 + t * (252577 / 1000000) + t * t * (127043 / 1000000)) * rs) /
    (1 + (102232 / 100000 + 223663 / 100000 * sqrt t + 448937 / 1000000 * t * sqrt t)
         / (1 + t * (445526 / 1000000) + t * t * (408504 / 1000000)) * rs
       + (837741 / 10000000 + 589015 / 10000000 * sqrt t)
         / (1 - t * (598508 / 1000000) + t * t * (513162 / 1000000)) * rs * rs * rs).
  (** 2566-2576 *)
  Definition Activation (x a b : R) : R := 5 / 10 * (tanh (b * (x - a)) + 1).
  Definition x_m (theta : R) : R := 264 / 100 + 31 / 100 * theta + 8 / 100 * theta ^ 2.
  (** 2582-2619 *)
  Definition ABCD : list R := map (fun z => IZR z / 10 ^ 8)
    [66477593; -459280227; 124649624; -127089927; 126706839; -43276080; 209717766; 115424724; -65356955;
     -102062020; 516041218; -23880981; 107356921; -167311761; 58928105; 84696620; 154029035; -71145445;
     -231252076; 583181391; 229489749; 176614589; -9710839; -33180686; 56560236; 110948188; -43213648;
     137421550; -401393906; -165187145; -175381153; -117022854; 76772906; 63867766; 107863273; -35630091]%Z.
  (** 2636-2646: the fit [G_ML_fit] *)
  Definition G_ML (A x alpha beta gamma delta : R) : option R :=
    qdiv (A * x * x * (1 + alpha * x + beta * sqrt x))
         (1 + gamma * x + delta * (x * sqrt (sqrt x)) + A * x ^ 2).
  (** 2625-2667 *)
  Definition G_fit_wrap_extended (x rs theta alpha beta gamma delta : R) : option R :=
    obind (G_ML (Groth_A rs theta) x alpha beta gamma delta) (fun G =>
    let onTop := 5 / 10 * OnTop rs theta in
    let Ginfty := 1 - onTop in
    let A := Activation x (x_m theta) 3 in
    Some (G * (1 - A) + A * Ginfty)).
  (** 2672-2690 *)
  Definition rational (rs a b c : R) : option R := qdiv (a + b * rs) (1 + c * rs).
  Definition f_extended (t a b c : R) : R := a + b * t + c * (t * sqrt t).
  (** 2694-2778; parameter [j] of alpha, beta, gamma, delta takes the entries
      from [9 * j] *)
  Definition fit_parameter (rs theta : R) (j : nat) : option R :=
    let f i := f_extended theta (at_ ABCD (9 * j + 3 * i)) (at_ ABCD (9 * j + 3 * i + 1)) (at_ ABCD (9 * j + 3 * i + 2)) in
    rational rs (f 0%nat) (f 1%nat) (f 2%nat).
  Definition G_analytical (x rs theta : R) : option R :=
    obind (fit_parameter rs theta 0) (fun alpha => obind (fit_parameter rs theta 1) (fun beta =>
    obind (fit_parameter rs theta 2) (fun gamma => obind (fit_parameter rs theta 3) (fun delta =>
    G_fit_wrap_extended x rs theta alpha beta gamma delta)))).
  (** eelfc_dornheim2021, ee_localfieldcorrections.py:312-327 *)
  Definition eelfc_dornheim2021 (k T_e n_e : R) : option R :=
    G_analytical (k / fermi_wavenumber n_e) (wiegner_seitz_radius n_e / a_0 u) (Theta T_e n_e).
End LFC.
