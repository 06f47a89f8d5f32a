(** C143: densities, depressions, potentials and bound-free spectra do not depend on how the
    entries of one species are listed. *)
From Coq Require Import Reals List Lra Lia Bool Arith.
From Verif Require Import M_Const M_PlasmaState M_Interp M_IPD L_PlasmaState L_PlasmaPhysics L_IonFeature L_Order L_Split.
From Verif Require M_Potentials M_BoundFree.
Import ListNotations.
Open Scope R_scope.

(** The ion [x] is listed in two entries which share its density. *)
Definition once (A B : list (spec * R)) (x : spec * R) : list (spec * R) := A ++ x :: B.
Definition twice (A B : list (spec * R)) (x : spec * R) (t : R) : list (spec * R) :=
  A ++ with_density x (t * sp_rho (fst x)) :: with_density x ((1 - t) * sp_rho (fst x)) :: B.

Theorem C143_state : forall Te A B x t,
  n_e (state Te (once A B x)) = n_e (state Te (twice A B x t)) /\
  mean_Z_A (state Te (once A B x)) = mean_Z_A (state Te (twice A B x t)) /\
  exists n n', n_i (state Te (once A B x)) = Some n /\ n_i (state Te (twice A B x t)) = Some n' /\ sum n = sum n'.
Proof.
  intros Te A B x t. pose proof (split_n A B x t) as Sn. split; [rewrite !ne_st; f_equal; apply split_ne|]. split.
  - assert (NF : forall M, number_fraction (state Te M) = if Req_EM_T (sum (map nd' M)) 0 then None else Some (map (fun x => nd' x / sum (map nd' M)) M)).
    { intros M. unfold number_fraction. rewrite ni_st. cbn [obind]. unfold div_scalar. destruct (Req_EM_T _ 0); [reflexivity|]. now rewrite map_map. }
    assert (ZA : forall M, Z_A (state Te M) = map (fun x => el_Z (sp_el (fst x))) M) by (intros M; unfold Z_A, state, state_of; cbn [ions]; now rewrite map_map).
    unfold mean_Z_A. rewrite !NF. unfold once, twice. rewrite Sn. destruct (Req_EM_T _ 0); [reflexivity|]. cbn [obind]. rewrite !ZA, !ew_map. cbn [obind]. f_equal.
    apply split_sum. intros r s. rewrite <- nd_add. cbn [with_density fst sp_el]. unfold Rdiv. ring.
  - rewrite !ni_st. eexists. eexists. split; [reflexivity|]. split; [reflexivity|]. exact Sn.
Qed.
Print Assumptions C143_state.

(** Debye-Hueckel, Stewart-Pyatt, the ion sphere and Pauli blocking *)
Theorem C143_depressions_partial : forall u isle pint m Te A B x t pop Zi i j, densities_summed m ->
  alike_at (once A B x) (twice A B x t) i j ->
  exists P P', plasma_of (state Te (once A B x)) = Some P /\ plasma_of (state Te (twice A B x t)) = Some P' /\
    single u isle pint m P pop Zi i = single u isle pint m P' pop Zi j.
Proof. intros u isle pint m Te A B x t pop Zi i j Hm H. exists (pl Te (once A B x)), (pl Te (twice A B x t)). rewrite !plasma_st. split; [reflexivity|]. split; [reflexivity|]. now apply single_split. Qed.
Print Assumptions C143_depressions_partial.

Definition neon : spec * R := (mkSp (mkEl 10 1 1) 1 2 1, -1).
Lemma unit_pl : pl 1 (once [] [] neon) = mkPl [1] 2 [2] 1 [1] [10] /\ pl 1 (twice [] [] neon (1 / 2)) = mkPl [1; 1] 2 [1; 1] 1 [1; 1] [10; 10].
Proof.
  unfold pl, once, twice, neon, with_density, ne_s, nd', sp_n, sp_m. cbn -[Rdiv]. split; f_equal; repeat f_equal; lra.
Qed.

(** Preston's form takes [ne / ni] of one entry for the mean charge: the depression deepens *)
Theorem C143_preston_refuted : exists u isle pint Te x P P',
  plasma_of (state Te (once [] [] x)) = Some P /\ plasma_of (state Te (twice [] [] x (1 / 2))) = Some P' /\
  single u isle pint (StewartPyattPrestonIPD false false) P' None 1 0 < single u isle pint (StewartPyattPrestonIPD false false) P None 1 0.
Proof.
  exists unit_consts, (fun _ _ => 0), (fun _ _ _ => 0), 1, neon, (pl 1 (once [] [] neon)), (pl 1 (twice [] [] neon (1 / 2))).
  rewrite !plasma_st. split; [reflexivity|]. split; [reflexivity|]. destruct unit_pl as [-> ->].
  cbn [single p_Z p_ne p_ni p_Te p_Ti p_ZA ccv]. unfold ipd_preston, kappa_D, kappa_i_sq, kappa_e_sq. cbv zeta. cbn [map map2 at_ nth]. unfold sum. cbn [fold_right unit_consts e_ch kB eps0 hbar m_e].
  replace (((2 / 1) ^ 2 * 1 ^ 2 * 1 + ((2 / 1) ^ 2 * 1 ^ 2 * 1 + 0)) / (1 * 1 * 1 * 1) + 1 ^ 2 * 2 / (1 * 1 * 1 * 1)) with 10 by field.
  replace (((2 / 2) ^ 2 * 1 ^ 2 * 2 + 0) / (1 * 1 * 1 * 1) + 1 ^ 2 * 2 / (1 * 1 * 1 * 1)) with 4 by field.
  pose proof PI_RGT_0 as HP. assert (Hs : 0 < sqrt 4 < sqrt 10) by (split; [apply sqrt_lt_R0; lra|apply sqrt_lt_1; lra]).
  assert (X : forall s, 0 < s -> 3 * (2 / (2 + 0) + 1) * (1 + 1) * 1 ^ 2 / (4 * 1 * PI * (1 / s) * 1 * 1) = 3 / PI * s) by (intros; field; lra).
  assert (X2 : forall s, 0 < s -> 3 * (2 / (1 + (1 + 0)) + 1) * (1 + 1) * 1 ^ 2 / (4 * 1 * PI * (1 / s) * 1 * 1) = 3 / PI * s) by (intros; field; lra).
  rewrite X, X2 by lra. assert (H3 : 0 < 3 / PI) by (apply Rdiv_lt_0_compat; lra).
  assert (HR : Rpower (1 + 3 / PI * sqrt 4) (2 / 3) < Rpower (1 + 3 / PI * sqrt 10) (2 / 3)).
  { apply Rlt_Rpower_l; [lra|]. split; [pose proof (Rmult_lt_0_compat _ _ H3 (proj1 Hs)); lra|]. apply Rplus_lt_compat_l. now apply Rmult_lt_compat_l. }
  replace (2 / (1 + (1 + 0))) with (2 / (2 + 0)) by field. lra.
Qed.
Print Assumptions C143_preston_refuted.

(** the radius of Ecker and Kroell holds the density of one entry: the depression shrinks *)
Theorem C143_ecker_kroell_refuted : exists u isle pint Te x P P',
  plasma_of (state Te (once [] [] x)) = Some P /\ plasma_of (state Te (twice [] [] x (1 / 2))) = Some P' /\
  single u isle pint (EckerKroellIPD (Some 1) false) P None 1 0 < single u isle pint (EckerKroellIPD (Some 1) false) P' None 1 0.
Proof.
  exists unit_consts, (fun _ _ => 0), (fun _ _ _ => 0), 1, neon, (pl 1 (once [] [] neon)), (pl 1 (twice [] [] neon (1 / 2))).
  rewrite !plasma_st. split; [reflexivity|]. split; [reflexivity|]. destruct unit_pl as [-> ->].
  cbn [single p_Z p_ne p_ni p_Te p_Ti p_ZA]. unfold ipd_ecker_kroell. cbv zeta. cbn [map map2 at_ nth]. unfold n_crit. cbn [unit_consts e_ch kB eps0 hbar m_e].
  pose proof PI_RGT_0 as HP. pose proof PI_4 as HP4.
  assert (Hn : 3 / (4 * PI) * (4 * PI * 1 * 1 * 1 * 1 / (10 ^ 2 * 1 ^ 2)) ^ 3 < 3).
  { replace (3 / (4 * PI) * (4 * PI * 1 * 1 * 1 * 1 / (10 ^ 2 * 1 ^ 2)) ^ 3) with (48 / 1000000 * (PI * PI)) by (field; lra). assert (PI * PI <= 4 * 4) by (apply Rmult_le_compat; lra). lra. }
  destruct (Rle_dec (2 + 2) _) as [h|_]; [lra|]. destruct (Rle_dec (1 + 2) _) as [h|_]; [lra|].
  assert (H3 : 0 < 3 / (4 * PI * (2 + 2))) by (apply Rdiv_lt_0_compat; lra).
  assert (HR : Rpower (3 / (4 * PI * (2 + 2))) (1 / 3) < Rpower (3 / (4 * PI * (2 + 1))) (1 / 3)).
  { apply Rlt_Rpower_l; [lra|]. split; [exact H3|]. unfold Rdiv. apply Rmult_lt_compat_l; [lra|]. apply Rinv_lt_contravar; [|lra]. apply Rmult_lt_0_compat; lra. }
  assert (HR0 : 0 < Rpower (3 / (4 * PI * (2 + 2))) (1 / 3)) by apply exp_pos.
  set (p := Rpower _ _) in *. set (q := Rpower (3 / (4 * PI * (2 + 1))) _) in *.
  assert (HI : / q < / p) by (apply Rinv_lt_contravar; [apply Rmult_lt_0_compat; lra|exact HR]).
  assert (E1 : forall s, 0 < s -> - (1) * 1 ^ 2 / (4 * PI * 1 * s) * (1 + 1) = - (2 / (4 * PI)) * / s) by (intros; field; lra).
  rewrite !E1 by lra. assert (0 < 2 / (4 * PI)) by (apply Rdiv_lt_0_compat; lra). pose proof (Rmult_lt_compat_l _ _ _ H HI). lra.
Qed.
Print Assumptions C143_ecker_kroell_refuted.

(** pair potentials; the electrons come after the ions *)
Theorem C143_potentials : forall u Te A B x t len len' md a b a' b' c,
  alikeE A B x t a a' -> alikeE A B x t b b' -> len a b = len' a' b' -> (forall f g, c <> M_Potentials.Pauli f g) ->
  exists E E', M_Potentials.env_of (state Te (once A B x)) len = Some E /\ M_Potentials.env_of (state Te (twice A B x t)) len' = Some E' /\
    M_Potentials.full_r u md E a b c = M_Potentials.full_r u md E' a' b' c.
Proof.
  intros u Te A B x t len len' md a b a' b' c Ha Hb Hl Hc. exists (env_st Te len (once A B x)), (env_st Te len' (twice A B x t)). rewrite !env_of_st. split; [reflexivity|]. split; [reflexivity|]. now apply full_r_split.
Qed.
Print Assumptions C143_potentials.

(** bound-free spectra: the number fraction of a species is shared *)
Theorem C143_bound_free : forall u edge A B s x t mZ r_k E0 E k,
  M_BoundFree.SchumacherImpulse u edge (A ++ (s, x) :: B) mZ r_k E0 E k = M_BoundFree.SchumacherImpulse u edge (A ++ (s, t * x) :: (s, (1 - t) * x) :: B) mZ r_k E0 E k /\
  M_BoundFree.SchumacherImpulseColdEdges u edge (A ++ (s, x) :: B) mZ r_k E0 E k = M_BoundFree.SchumacherImpulseColdEdges u edge (A ++ (s, t * x) :: (s, (1 - t) * x) :: B) mZ r_k E0 E k.
Proof.
  intros u edge A B s x t mZ r_k E0 E k. unfold M_BoundFree.SchumacherImpulse, M_BoundFree.SchumacherImpulseColdEdges. rewrite !fold_right_app. cbn [fold_right].
  split; f_equal; f_equal; ring.
Qed.
Print Assumptions C143_bound_free.

(** ** Examples *)
Definition proton : spec * R := (mkSp (mkEl 1 1 1) 1 1 3, -1).
Example C143_state_ex : n_e (state 1 (once [proton] [] neon)) = Some 3 /\ n_e (state 1 (twice [proton] [] neon (1 / 4))) = Some 3.
Proof. split; [|rewrite <- (proj1 (C143_state 1 [proton] [] neon (1 / 4)))]; cbn; f_equal; field. Qed.
Example C143_depressions_ex : densities_summed (StewartPyattIPD true) /\ alike_at (once [proton] [] neon) (twice [proton] [] neon (1 / 4)) 1 2 /\ alike_at (once [proton] [] neon) (twice [proton] [] neon (1 / 4)) 0 0.
Proof. split; [exact I|]. split; (eexists; eexists; split; [reflexivity|]; split; [reflexivity|]; repeat split; reflexivity). Qed.
Example C143_potentials_ex : alikeE [proton] [] neon (1 / 4) 1 2 /\ alikeE [proton] [] neon (1 / 4) 2 3.
Proof. split; [left; exact (proj1 (proj2 C143_depressions_ex))|]. right. exists 0%nat. split; reflexivity. Qed.
Example C143_bound_free_ex : let s := M_BoundFree.mkIon 6 4 (fun _ _ => 1) 0 (fun _ => Some 1) in
  M_BoundFree.SchumacherImpulse unit_consts (fun _ _ _ => 1) ([] ++ (s, 1) :: []) 6 1 9 8 1 = M_BoundFree.SchumacherImpulse unit_consts (fun _ _ _ => 1) ([] ++ (s, 1 / 4 * 1) :: (s, (1 - 1 / 4) * 1) :: []) 6 1 9 8 1.
Proof. intros s. apply C143_bound_free. Qed.
