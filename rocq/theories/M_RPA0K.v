(** Model of the zero temperature functions of /repo/src/jaxrts/free_free.py.  [None] is nan. *)
From Coq Require Import Reals List.
From Coquelicot Require Import Complex.
From Verif Require Import M_Const M_PlasmaState M_PlasmaPhysics M_FreeFree.
Open Scope R_scope.

(** free_free.py:318-323 for the argument x + 0j.  The quotient (x+1+0j)/(x-1+0j) has a
    negative zero as imaginary part if |x| < 1, so that the logarithm is taken below
    its cut; at x = 1 and x = -1 the product is 0 times infinity. *)
Definition gFortmann (x : R) : option C :=
  if Req_EM_T x 1 then None else
  if Req_EM_T x (-1) then None else
  let q := (x + 1) / (x - 1) in
  let lg : C := (ln (Rabs q), if Rlt_dec q 0 then - PI else 0) in
  Some (Cplus (RtoC x) (Cmult (RtoC (1 / 2 * (1 - x ^ 2))) lg)).

Section Cold.
  Variable u : consts.
  (** free_free.py:326-346 *)
  Definition noninteracting_susceptibility_0K (k E n_e : R) : option C :=
    let V := coulomb_k u (-1) (-1) k in
    let w := E / hbar u in
    let kf := fermi_wavenumber n_e in
    let z := k / (2 * kf) in
    do U <- qdiv (m_e u * w) (hbar u * k * kf);
    do chi0square <- qdiv 1 (PI * a_0 u * kf);
    do pref <- qdiv (- chi0square) (4 * z ^ 3 * V);
    do a <- gFortmann (U + z);
    do b <- gFortmann (U - z);
    Some (Cmult (RtoC pref) (Cminus a b)).
  (** free_free.py:349-361 *)
  Definition dielectric_function_RPA_0K (k E n_e : R) : option C :=
    do chi0 <- noninteracting_susceptibility_0K k E n_e;
    Some (Cminus (RtoC 1) (Cmult (Vee u k) chi0)).
  (** free_free.py:1365-1409, KKT=False; [quad] as in M_FreeFree *)
  Definition collision_frequency_BA_0K (quad : R -> option R -> (R -> option R) -> option R)
      (S_ii V_eiS : R -> R) (Zf n_e E : R) : option C :=
    collision_frequency u quad (fun q E => dielectric_function_RPA_0K q E n_e) S_ii V_eiS Zf E.
End Cold.
