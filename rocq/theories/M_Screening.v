(** Model of the screening lengths and of the screening models,
    /repo/src/jaxrts/models.py:4067-4544, and q_FiniteWLChapman2015,
    /repo/src/jaxrts/ion_feature.py:113-158.  One scattering vector.  A
    screening charge that is nan or infinite is [None]; one list entry per ion. *)
From Coq Require Import Reals List.
From Coquelicot Require Import Complex.
From Verif Require Import M_Const M_PlasmaState M_PlasmaPhysics M_Interp M_StaticSF M_FreeFree M_Potentials.
Import ListNotations.
Open Scope R_scope.

Section Lengths.
  Variable u : consts.
  (** ipd.inverse_screening_length_e *)
  Variable isle : R -> R -> R.
  (** models.py:4085-4089 *)
  Definition DebyeHueckelScreeningLength (n_e T_e : R) : option R := debye_length u [n_e] [1] T_e.
  (** models.py:4110-4118 *)
  Definition Gericke2010ScreeningLength (n_e T_e : R) : option R :=
    debye_length u [n_e] [1] (temperature_interpolation u n_e T_e 4).
  (** models.py:4135-4143 *)
  Definition ArbitraryDegeneracyScreeningLength (n_e T_e : R) : option R := qdiv 1 (isle n_e T_e).
  (** models.py:4158-4162 *)
  Definition ConstantScreeningLength (value : R) : option R := Some value.
End Lengths.

Section Screening.
  Variable u : consts.
  (** [plasma_state.screening_length], plasmastate.py:412-417 *)
  Variable length_ : option R.
  (** [plasma_state["ee-lfc"].evaluate], a real static correction *)
  Variable lfc : R.
  (** scattering vector, electron density and temperature, free charges *)
  Variables (k n_e T_e : R) (Z : list R).

  (** [jnpu.where(Z_free == 0, 0, q)], models.py:4329, 4398, 4447, 4502, 4543 *)
  Definition unscreen (q : list (option R)) : list (option R) :=
    map2 (fun z x => if Req_EM_T z 0 then Some 0 else x) Z q.

  (** DebyeHueckelScreening, models.py:4431-4448 *)
  Definition DebyeHueckelScreening : list (option R) :=
    unscreen (match obind length_ (qdiv 1) with
              | Some kappa => map Some (q_DebyeHueckel k kappa Z)
              | None => map (fun _ => None) Z
              end).

  (** [Vei[-1, :-1]]: the row of the electrons *)
  Section Vei.
    Variables (tr tr_grid : (R -> R) -> R -> R) (E : env) (c : M_Potentials.cls).
    Definition Vei : list (option R) :=
      map (fun i => obind (full_k u tr tr_grid SpinAveraged E (length Z) i c) (fun f => Some (f k)))
          (seq 0 (length Z)).
  End Vei.

  (** LinearResponseScreeningGericke2010, models.py:4238-4263; [V] is the row *)
  Definition LinearResponseScreeningGericke2010 (V : list (option R)) : list (option R) :=
    if Req_EM_T (sum Z) 0 then map (fun _ => Some 0) Z else
    map (fun v => obind length_ (fun l => obind (qdiv 1 l) (fun kappa => obind v (fun v =>
           Some (free_electron_susceptibility_RPA u k kappa lfc * v))))) V.

  Section Finite.
    (** the Fermi integrals of math.py *)
    Variables F_m12 F_32 F_52 inv_F12 : R -> R.
    (** q_FiniteWLChapman2015, ion_feature.py:113-158 *)
    Definition q_FiniteWLChapman2015 (V_ei : R) : option C :=
      obind (xi0_Dandrea u F_m12 F_32 F_52 inv_F12 k 0 T_e n_e) (fun chi0 =>
      let V_ee := coulomb_k u (-1) (-1) k in
      let eps_ee := Cminus (RtoC 1) (Cmult (Cmult (RtoC V_ee) (Cminus (RtoC 1) (RtoC lfc))) chi0) in
      cdiv (Cmult chi0 (RtoC V_ei)) eps_ee).
    (** FiniteWavelengthScreening, models.py:4381-4399 *)
    Definition FiniteWavelengthScreening (V : list (option R)) : list (option R) :=
      unscreen (map (fun v => obind v (fun v => obind (q_FiniteWLChapman2015 v) (fun q => Some (fst q)))) V).
    (** RPA_DandreaFit.susceptibility, models.py:1611-1626 *)
    Definition RPA_DandreaFit_susceptibility (E : R) : option C :=
      obind (xi0_Dandrea u F_m12 F_32 F_52 inv_F12 k E T_e n_e) (fun xi0 =>
      xi_lfc xi0 (coulomb_k u (-1) (-1) k) (RtoC lfc)).
  End Finite.

  (** LinearResponseScreening, models.py:4485-4503; [xi] is the susceptibility of
      the free-free model at zero energy *)
  Definition LinearResponseScreening (xi : option C) (V : list (option R)) : list (option R) :=
    unscreen (map (fun v => obind v (fun v => obind xi (fun xi => Some (fst (Cmult xi (RtoC v)))))) V).

  (** GregoriCHSScreening, models.py:4291-4330; [T_D] is the Debye temperature *)
  Definition GregoriCHSScreening (n_i T_i T_D : list R) : list (option R) :=
    let n := sum n_i in
    let Z_f := 1 / n * sum (map2 Rmult n_i Z) in
    let N := 1 / n * sum (map (fun x => x ^ 2) n_i) in
    let T_i_eff := 1 / n * sum (map2 Rmult n_i (map2 (T_i_eff_Greg) T_i T_D)) in
    unscreen (map (fun z =>
      obind (T_cf_Greg u T_e n_e) (fun T_e_eff =>
      obind (S_ii_CHS u k T_e_eff T_i_eff n_e Z_f N lfc) (fun S_ii =>
      obind (S_ei_CHS u k T_e_eff T_i_eff n_e Z_f N lfc) (fun S_ei =>
      obind (qdiv 1 S_ii) (fun _ => Some (q_Glenzer2009 S_ei S_ii z)))))) Z).

  (** Gregori2004Screening, models.py:4525-4544: the electron temperature is
      passed for both temperatures *)
  Definition Gregori2004Screening (quad : R -> option R -> (R -> option R) -> option R)
      (masses : list R) : list (option R) :=
    unscreen (map2 (fun m z =>
      obind (dielectric_function_salpeter u quad k T_e n_e 0) (fun eps =>
      if Ceq_dec eps (RtoC 0) then None else
      Some (fst (Cdiv (RtoC (q_Gregori2004 u 1 k m n_e T_e T_e z)) eps)))) masses Z).
End Screening.
