(** Model of /repo/src/jaxrts/static_structure_factors.py.  SI values, exact
    reals.  The numerical quadratures of the Debye-Waller factor and of the pair
    distribution functions are exact (improper) integrals. *)
From Coq Require Import Reals List.
From Coquelicot Require Import Coquelicot.
From Verif Require Import M_Const M_PlasmaState M_PlasmaPhysics M_Helpers.
Import ListNotations.
Open Scope R_scope.

Section SF.
  Variable u : consts.

  (** T_cf_Greg, static_structure_factors.py:24-38; [None]: division by zero *)
  Definition T_cf_Greg (Te ne : R) : option R :=
    let T_f := fermi_energy u ne / kB u in
    let rs := wiegner_seitz_radius ne / a_0 u in
    match qdiv T_f (13251 / 10000 - 1779 / 10000 * sqrt rs) with
    | Some T_q => Some (sqrt (Te ^ 2 + T_q ^ 2))
    | None => None
    end.

  (** T_i_eff_Greg, static_structure_factors.py:41-56 *)
  Definition T_i_eff_Greg (Ti TD : R) : R := sqrt (Ti ^ 2 + 3 / (2 * PI ^ 2) * TD ^ 2).

  (** _lambda_AD, static_structure_factors.py:90-111 *)
  Definition lambda_AD (T m1 m2 : R) : R :=
    let mu := (m1 * m2) / (m1 + m2) in
    hbar u / sqrt (2 * PI * mu * kB u * T).

  (** _k_D_AD, static_structure_factors.py:114-121 *)
  Definition k_D_AD (T ne Z : R) : R := sqrt ((Z * ne * e_ch u ^ 2) / (eps0 u * kB u * T)).

  (** T_Debye_Bohm_Staver, static_structure_factors.py:59-87 *)
  Definition T_Debye_Bohm_Staver (Te ne mi Z : R) : R :=
    let kmax := Rpower (6 * PI ^ 2 * ne / Z) (1 / 3) in
    let k_De := k_D_AD Te ne 1 in
    let omega := sqrt ((Z * e_ch u ^ 2 * ne) / (eps0 u * mi)) in
    let Omega := sqrt (omega ^ 2 / (1 + k_De ^ 2 / kmax ^ 2)) in
    hbar u / kB u * Omega.

  (** _b_AD, static_structure_factors.py:124-126 *)
  Definition b_AD (lam : R) : R := 1 / (lam ^ 2 * PI * ln 2).
  (** _A_AD, static_structure_factors.py:129-143 *)
  Definition A_AD (Te b : R) : R :=
    kB u * Te * ln 2 * Rpower PI (3 / 2) * Rpower b (- (3 / 2)) * eps0 u / e_ch u ^ 2.

  (** _Delta_AD, static_structure_factors.py:146-175 *)
  Definition Delta_AD (k kDe kDi lee lii lei b A : R) : R :=
    k ^ 4
    + (k ^ 2 * kDe ^ 2) / (1 + k ^ 2 * lee ^ 2)
    + (k ^ 2 * kDi ^ 2) / (1 + k ^ 2 * lii ^ 2)
    + kDe ^ 2 * kDi ^ 2
      * (1 / ((1 + k ^ 2 * lee ^ 2) * (1 + k ^ 2 * lii ^ 2)) - 1 / (1 + k ^ 2 * lei ^ 2) ^ 2)
    + A * k ^ 2 * kDe ^ 2 * (k ^ 2 + kDi ^ 2 / (1 + k ^ 2 * lii ^ 2)) * exp (- (k ^ 2) / (4 * b)).

  (** _T_rs_Greg2006, static_structure_factors.py:178-207 *)
  Definition T_rs_Greg2006 (Tr Ts mr ms : R) : R := (ms * Tr + mr * Ts) / (mr + ms).

  Section AD.
    Variables (k Te Ti ne mi Z : R).
    (** the block shared by the three functions below,
        static_structure_factors.py:242-250, 299-307 and 357-365 *)
    Definition T_ei : R := T_rs_Greg2006 Te Ti (m_e u) mi.
    Definition lam_ee : R := lambda_AD Te (m_e u) (m_e u).
    Definition lam_ei : R := lambda_AD T_ei (m_e u) mi.
    Definition lam_ii : R := lambda_AD Ti mi mi.
    Definition b_ : R := b_AD lam_ee.
    Definition A_ : R := A_AD Te b_.
    Definition k_De : R := k_D_AD Te ne 1.
    Definition k_Di : R := k_D_AD Ti ne Z.
    Definition Delta : R := Delta_AD k k_De k_Di lam_ee lam_ii lam_ei b_ A_.

    (** _Phi_ee_AD, static_structure_factors.py:210-261 *)
    Definition Phi_ee_AD : R :=
      let pref := e_ch u ^ 2 / (eps0 u * Delta) in
      let sum1 := k ^ 2 / (1 + k ^ 2 * lam_ee ^ 2) in
      let sum2 := k_Di ^ 2 * (1 / ((1 + k ^ 2 * lam_ee ^ 2) * (1 + k ^ 2 * lam_ii ^ 2))
                              - 1 / (1 + k ^ 2 * lam_ei ^ 2) ^ 2) in
      let sum3 := A_ * (k ^ 2 + k_Di ^ 2 / (1 + k ^ 2 * lam_ii ^ 2)) * k ^ 2 * exp (- (k ^ 2) / (4 * b_)) in
      pref * (sum1 + sum2 + sum3).
    (** _Phi_ii_AD, static_structure_factors.py:264-325 *)
    Definition Phi_ii_AD : R :=
      let pref := Z ^ 2 * e_ch u ^ 2 / (eps0 u * Delta) in
      let sum1 := k ^ 2 / (1 + k ^ 2 * lam_ii ^ 2) in
      let sum2 := k_De ^ 2 * (1 / ((1 + k ^ 2 * lam_ee ^ 2) * (1 + k ^ 2 * lam_ii ^ 2))
                              - 1 / (1 + k ^ 2 * lam_ei ^ 2) ^ 2) in
      let sum3 := (A_ * k ^ 2 * k_De ^ 2) / (1 + k ^ 2 * lam_ii ^ 2) * exp (- (k ^ 2) / (4 * b_)) in
      pref * (sum1 + sum2 + sum3).
    (** _Phi_ei_AD, static_structure_factors.py:328-373 *)
    Definition Phi_ei_AD : R :=
      - Z * e_ch u ^ 2 / (eps0 u * Delta) * k ^ 2 / (1 + k ^ 2 * lam_ei ^ 2).

    (** S_ii_AD, static_structure_factors.py:376-418 *)
    Definition S_ii_AD : R := 1 - (ne / Z) / (kB u * Ti) * Phi_ii_AD.
    (** S_ei_AD, static_structure_factors.py:421-467 *)
    Definition S_ei_AD : R := - (sqrt ((ne / Z) * ne) / (kB u * T_ei)) * Phi_ei_AD.
    (** S_ee_AD, static_structure_factors.py:470-531 *)
    Definition S_ee_AD : R :=
      let S := 1 - ne / (kB u * Te) * Phi_ee_AD in
      let q := sqrt Z * S_ei_AD / S_ii_AD in
      S - (Te / Ti - 1) * Rabs q ^ 2 / Z * S_ii_AD.
  End AD.

  (** debyeWallerFactor, static_structure_factors.py:720-769; the Debye
      temperature is an array, the result one factor per entry.  [N_A] is the
      Avogadro constant, [atomic_mass] is per mole. *)
  Definition dw_phi (y : R) : R := (1 / y) * RInt (fun x => x / (exp x - 1)) 0 y.
  Definition mean (l : list R) : R := sum l / INR (length l).
  Definition debyeWallerFactor (N_A k atomic_mass : R) (debye_temp : list R) (temp : R) : list R :=
    let Q := k / (2 * PI) in
    let th := mean debye_temp in
    map (fun theta =>
      exp (- ((3 * planck u ^ 2 * N_A * Q ^ 2) / (atomic_mass * kB u * theta)
              * (temp / th * dw_phi (th / temp) + 1 / 4)))) debye_temp.

  (** Charged hard spheres, static_structure_factors.py:772-815 *)
  Definition G07eta (ni sig : R) : R := PI / 6 * (ni * sig ^ 3).
  Definition G07gamma (Z T sig : R) : R :=
    (Z ^ 2 * e_ch u ^ 2) / (4 * PI * eps0 u * sig * kB u * T).
  Definition G07chi (ni Z T sig : R) : R := sqrt (24 * G07eta ni sig * G07gamma Z T sig).
  Definition G07h0 (ni Z T sig : R) : R :=
    let eta := G07eta ni sig in
    let chi := G07chi ni Z T sig in
    ((1 + 2 * eta) / (1 - eta)) * (1 - sqrt (1 + (2 * (1 - eta) ^ 3 * chi) / ((1 + 2 * eta) ^ 2))).
  Definition G07h1 (ni Z T sig : R) : R :=
    let eta := G07eta ni sig in
    let h0 := G07h0 ni Z T sig in
    h0 ^ 2 / (24 * eta) - (1 + eta / 2) / ((1 - eta) ^ 2).

  (** The one-component part of S_ii_CHS for a sphere diameter,
      static_structure_factors.py:847-899 *)
  Definition C_ii_CHS (k Ti Z ni sig : R) : R :=
    let eta := G07eta ni sig in
    let gamma := G07gamma Z Ti sig in
    let chi := G07chi ni Z Ti sig in
    let q := k * sig in
    let S := sin q in
    let C := cos q in
    let h0 := G07h0 ni Z Ti sig in
    let h1 := G07h1 ni Z Ti sig in
    let h2 := - (1 + eta - eta ^ 2 / 5) / (12 * eta) - (((1 - eta) * h0) / (12 * eta * chi)) in
    let y0 := - (((1 + 2 * eta) ^ 2) / (1 - eta) ^ 4) + (h0 ^ 2 / (4 * (1 - eta) ^ 2))
              - (((1 + eta) * h0 * chi) / (12 * eta)) - (((5 + eta ^ 2) * chi ^ 2) / (60 * eta)) in
    let y1 := 6 * eta * h1 ^ 2 in
    let y2 := chi ^ 2 / 6 in
    let y3 := eta / 2 * (y0 + chi ^ 2 * h2) in
    let y4 := eta * chi ^ 2 / 60 in
    (24 * eta / q ^ 6) *
    (y0 * q ^ 3 * (S - q * C)
     + y1 * q ^ 2 * (2 * q * S - (q ^ 2 - 2) * C - 2)
     + y2 * q * ((3 * q ^ 2 - 6) * S - (q ^ 2 - 6) * q * C)
     + y3 * ((4 * q ^ 2 - 24) * q * S - (q ^ 4 - 12 * q ^ 2 + 24) * C + 24)
     + y4 * (6 * (q ^ 4 - 20 * q ^ 2 + 120) * q * S
             - (q ^ 6 - 30 * q ^ 4 + 360 * q ^ 2 - 720) * C - 720) / q ^ 2
     - gamma * q ^ 4 * C).
  (** static_structure_factors.py:901-911, 933-934 and 955-956 *)
  Definition S_ee0 (k Te ne lfc : R) : R :=
    let kDe := k_D_AD Te ne 1 in k ^ 2 / (k ^ 2 + kDe ^ 2 * (1 - lfc)).
  Definition q_sc (k Te ne Z lfc : R) : R := Z * (k_D_AD Te ne 1 / k) ^ 2 * S_ee0 k Te ne lfc.
  Definition S_ii_CHS_sig (k Te Ti ne Z ni lfc sig : R) : R :=
    let q := k * sig in
    let S_OCP := 1 / (1 - C_ii_CHS k Ti Z ni sig) in
    let kDi := k_D_AD Ti ne Z in
    let f := - ((cos (q / 2)) ^ 2 * q_sc k Te ne Z lfc / Z * (kDi / k) ^ 2) in
    let f := if Rlt_dec k (PI / sig) then f else 0 in
    S_OCP / (1 + f * S_OCP).
  (** static_structure_factors.py:832-846; lengths in angstrom;
      [max_iter] is the default 1e4 of [bisection], and enough fuel is one more *)
  Definition angstrom : R := / 10 ^ 10.
  Definition chs_iter : nat := (100 * 100)%nat.
  Definition sigma_CHS (Ti ne Z ni : R) : option R :=
    let dist := Rpower (3 / (4 * PI) * Z / ne) (1 / 3) in
    match bisection (fun s => G07h1 ni Z Ti (s * angstrom)) (/ 10 ^ 15) chs_iter 0 (S chs_iter)
            (/ 1000 * (dist / angstrom)) (21 / 10 * (dist / angstrom)) with
    | Some (s, _) => Some (s * angstrom)
    | None => None
    end.
  Definition S_ii_CHS (k Te Ti ne Z ni lfc : R) : option R :=
    match sigma_CHS Ti ne Z ni with
    | Some sig => Some (S_ii_CHS_sig k Te Ti ne Z ni lfc sig)
    | None => None
    end.
  (** static_structure_factors.py:914-936 *)
  Definition S_ei_CHS (k Te Ti ne Z ni lfc : R) : option R :=
    match S_ii_CHS k Te Ti ne Z ni lfc with
    | Some Sii => Some (q_sc k Te ne Z lfc / sqrt Z * Sii)
    | None => None
    end.
  (** static_structure_factors.py:939-957 *)
  Definition S_ee_CHS (k Te Ti ne Z ni lfc : R) : option R :=
    match S_ii_CHS k Te Ti ne Z ni lfc with
    | Some Sii => Some (q_sc k Te ne Z lfc ^ 2 / Z * Sii + S_ee0 k Te ne lfc)
    | None => None
    end.

  (** q_Glenzer2009, ion_feature.py:83-110 *)
  Definition q_Glenzer2009 (Sei Sii Z : R) : R := sqrt Z * Sei / Sii.
  (** q_Gregori2004, ion_feature.py:27-80; [eps] is the value of
      dielectric_function_salpeter at zero energy *)
  Definition q_Gregori2004 (eps k mi ne Te Ti Z : R) : R :=
    let Sei := S_ei_AD k Te Ti ne mi Z in
    let See := S_ee_AD k Te Ti ne mi Z in
    let Sii := S_ii_AD k Te Ti ne mi Z in
    (sqrt Z * Sei) / (See * Sii - Sei ^ 2) / eps.
  (** q_DebyeHueckelChapman2015, ion_feature.py:163-190 *)
  Definition q_DebyeHueckel (k kappa : R) (Z : list R) : list R :=
    map (fun z => z * kappa ^ 2 / (k ^ 2 + kappa ^ 2)) Z.
  (** free_electron_susceptilibily_RPA, ion_feature.py:193-226 *)
  Definition free_electron_susceptibility_RPA (k kappa lfc : R) : R :=
    let xi0 := kappa ^ 2 * eps0 u / e_ch u ^ 2 in
    let V_ee := -1 * coulomb_k u (-1) (-1) k in
    xi0 / (1 - V_ee * (1 - lfc) * xi0).
End SF.
