(** Model of the static ion-ion structure factor handed to the Born collision
    frequencies: the 'BM S_ii' models Sum_Sii and AverageAtom_Sii, the grid
    protocol of the ion feature models and the cached closure built once per
    evaluation (/repo/src/jaxrts/models.py:335-391, 848-895, 1040-1150,
    1784-1827, 4926-5096).

    The solution of the hypernetted chain on its grid is a parameter (its model
    is in M_HNC and M_Pauli); arrays of shape (n, n, m) are lists of lists of
    lists.  [None]: an exception or a division by zero. *)
From Coq Require Import Reals List Bool Arith.
From Verif Require Import M_Const M_PlasmaState M_Interp M_Setup M_IonFeature.
Import ListNotations.
Open Scope R_scope.

(** an array of shape (n, n, m) and its entries [S[a, b]] *)
Definition cube := list (list (list R)).
Definition row2 (S : cube) (a b : nat) : list R := nth b (nth a S []) [].

(** hnc_interp, hypernetted_chain.py:691-695: jnpu.interp over the first two
    axes, at one wavenumber *)
Definition hnc_interp (q : R) (ks : list R) (S : cube) : list (list R) :=
  map (map (fun ys => interp None None ks ys q)) S.

(** the entries of a matrix given as a list of rows *)
Definition entry (S : list (list R)) (a b : nat) : R := nth b (nth a S []) 0.

(** what the closure uses of an IonFeatModel, models.py:335-391:
    check_supports_S_ii_grid (357-363), S_ii_on_grid (369-379; the base class
    raises) and S_ii (382-391). *)
Record ion_model := mkIon {
  supports : bool;
  on_grid : pstate -> option (list R * cube);
  S_ii : pstate -> setup -> option (list (list R))
}.

Section BM.
  Variable u : consts.

  (** OnePotentialHNCIonFeat, models.py:848-895 *)
  Definition OnePotential (hnc : pstate -> list R * cube) : ion_model :=
    mkIon true (fun s => Some (hnc s))
      (fun s st => let '(ks, arr) := hnc s in Some (hnc_interp (k u st) ks arr)).

  (** [S_ab[:-1, :-1]] *)
  Definition drop_electrons {A} (S : list (list A)) : list (list A) := map (@removelast A) (removelast S).
  (** ThreePotentialHNCIonFeat, models.py:1040-1046 and 1130-1138; [hnc] is
      _S_ii_with_electrons_on_grid *)
  Definition ThreePotential (hnc : pstate -> list R * cube) : ion_model :=
    mkIon true (fun s => let '(ks, arr) := hnc s in Some (ks, drop_electrons arr))
      (fun s st => let '(ks, arr) := hnc s in Some (drop_electrons (hnc_interp (k u st) ks arr))).

  (** an ion feature model without a grid: supports_S_ii_grid is False and
      S_ii_on_grid raises, models.py:355-379 *)
  Definition NoGrid (S : pstate -> setup -> option (list (list R))) : ion_model := mkIon false (fun _ => None) S.

  (** what the closure uses of a 'BM S_ii' model; [bm_eval] is its evaluate *)
  Record bm_model := mkBM {
    bm_supports : bool;
    bm_on_grid : pstate -> option (list R * cube);
    bm_eval : pstate -> setup -> option R
  }.

  (** Sum_Sii._combine_S_ab on arrays with a last axis, models.py:4949-4961 and
      its use in S_ii_on_grid, 4963-4970: the result has shape (1, 1, m) *)
  Definition combine_grid (s : pstate) (S : cube) : option cube :=
    obind (number_fraction s) (fun x =>
    let n := nions s in
    Some [[map (fun j => nsum n (fun a => nsum n (fun b => sqrt (at_ x a * at_ x b) * at_ (row2 S a b) j)))
             (seq 0 (length (row2 S 0 0)))]]).

  (** Sum_Sii, models.py:4926-4980; [ion] is the 'ionic scattering' model *)
  Definition BM_Sum (ion : ion_model) : bm_model :=
    mkBM (supports ion)
      (fun s => obind (on_grid ion s) (fun kS => obind (combine_grid s (snd kS)) (fun S => Some (fst kS, S))))
      (fun s st => obind (S_ii ion s st) (fun S => Sum_Sii s (entry S))).

  (** AverageAtom_Sii, models.py:4983-5096; [hnc] solves the chain for the
      averaged state *)
  Definition BM_Average (hnc : pstate -> list R * cube) : bm_model :=
    let grid := fun s => obind (average s) (fun aa => Some (hnc aa)) in
    mkBM true grid
      (fun s st => obind (grid s) (fun kS => Some (entry (hnc_interp (k u st) (fst kS) (snd kS)) 0 0))).

  (** 1 angstrom in metres *)
  Definition angstrom : R := / 10 ^ 10.

  (** _build_cached_S_ii, models.py:1784-1812.  The outer option is the
      exception raised while building, the inner one while calling.  [m_as(1 /
      ureg.angstrom)] multiplies an SI wavenumber by [angstrom]. *)
  Definition build_cached (bm : bm_model) (s : pstate) (st : setup) : option (R -> option R) :=
    if bm_supports bm then
      obind (bm_on_grid bm s) (fun kS =>
      Some (fun q => Some (interp None None (map (fun x => x * angstrom) (fst kS)) (row2 (snd kS) 0 0) (q * angstrom))))
    else Some (fun q => obind (get_probe_setup u q st) (fun st' => bm_eval bm s st')).

  (** _prepare_BM, models.py:1815-1827: the closure, the potential as a function
      of the wavenumber, the mean charge and the chemical potential.  [V] and
      [mu] are the values of the 'BM V_eiS' and 'chemical potential' models. *)
  Definition prepare_BM (bm : bm_model) (V : pstate -> R -> R) (mu : pstate -> option R) (s : pstate) (st : setup)
    : option ((R -> option R) * (R -> R) * R * R) :=
    obind (build_cached bm s st) (fun S =>
    obind (number_fraction s) (fun x =>
    obind (ew Rmult (Z_free s) x) (fun zx =>
    obind (mu s) (fun m => Some (S, V s, sum zx, m))))).

  (** BM_V_eiSModel.evaluate, models.py:5130-5137 *)
  Definition BM_V_evaluate (V : pstate -> R -> R) (s : pstate) (st : setup) : R := V s (k u st).
End BM.
