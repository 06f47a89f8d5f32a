(** Values of the parts of some fits and potentials: C47, C86 and C110. *)
From Coq Require Import Reals List Bool Arith ZArith Lra Lia Psatz.
From Coquelicot Require Import Coquelicot.
From Verif Require Import M_Const M_PlasmaState M_Interp M_LFC L_LFC M_Potentials M_IPD L_IPD P_LFC P_Potentials.
Import ListNotations.
Open Scope R_scope.

(** ** The local field correction of Dornheim *)
(** Each parameter is a rational function of the distance, its coefficients
    functions of the temperature. *)
Theorem C110_parameters : forall rs t j p, fit_parameter rs t j = Some p ->
  let f i := at_ ABCD (9 * j + 3 * i) + at_ ABCD (9 * j + 3 * i + 1) * t + at_ ABCD (9 * j + 3 * i + 2) * (t * sqrt t) in
  p * (1 + f 2%nat * rs) = f 0%nat + f 1%nat * rs.
Proof.
  intros rs t j p E f. change (rational rs (f 0%nat) (f 1%nat) (f 2%nat) = Some p) in E. unfold rational, qdiv in E. clearbody f. destruct (Req_EM_T _ _) as [?|N]; [discriminate|]. injection E as <-.
  field. exact N.
Qed.
Print Assumptions C110_parameters.
(** Half way between the fit and its limit. *)
Theorem C110_midpoint : forall double rs t g, 0 <= rs -> 0 <= t <= 4 ->
  let x := 264 / 100 + 31 / 100 * t + 8 / 100 * t ^ 2 in
  G_analytical double x rs t = Some g ->
  exists al be ga de m, fit_parameter rs t 0 = Some al /\ fit_parameter rs t 1 = Some be /\ fit_parameter rs t 2 = Some ga /\ fit_parameter rs t 3 = Some de /\
    m * (1 + ga * x + de * (x * sqrt (sqrt x)) + Groth_A double rs t * x ^ 2) = Groth_A double rs t * x ^ 2 * (1 + al * x + be * sqrt x) /\
    g = (m + (1 - OnTop rs t / 2)) / 2.
Proof.
  intros double rs t g Hr Ht x E. unfold G_analytical in E.
  destruct (fit_parameter rs t 0) as [al|]; [cbn [obind] in E|discriminate]. destruct (fit_parameter rs t 1) as [be|]; [cbn [obind] in E|discriminate].
  destruct (fit_parameter rs t 2) as [ga|]; [cbn [obind] in E|discriminate]. destruct (fit_parameter rs t 3) as [de|]; [cbn [obind] in E|discriminate].
  unfold G_fit_wrap_extended in E. destruct (G_ML (Groth_A double rs t) x al be ga de) as [m|] eqn:Em; [cbn [obind] in E|discriminate].
  exists al, be, ga, de, m. repeat (split; [reflexivity|]). split.
  - unfold G_ML, qdiv in Em. destruct (Req_EM_T _ _) as [?|N]; [discriminate|]. apply (f_equal (fun o => match o with Some v => v | None => 0 end)) in Em. cbv beta iota in Em. rewrite <- Em. clear Em E. clearbody x. field. exact N.
  - injection E as <-. assert (A : Activation x (x_m t) 3 = 1 / 2). { unfold Activation. replace (3 * (x - x_m t)) with 0 by (unfold x, x_m; field). unfold tanh, sinh, cosh. rewrite Ropp_0, exp_0. field. } rewrite A. field.
Qed.
Print Assumptions C110_midpoint.
Example C110_parameters_ex : exists p, fit_parameter 2 1 0 = Some p.
Proof. apply C110_parameters_defined; [lra|lra|lia]. Qed.

(** ** The electrons as two species *)
Lemma extra_ion md l x y a : (a < length l)%nat -> at_ (extra md l x y) a = at_ l a.
Proof. intros H. unfold extra, at_. destruct md; [reflexivity|now apply app_nth1|now apply app_nth1]. Qed.
Lemma extra_e l x y a : (length l <= a < length l + 2)%nat -> at_ (extra SpinSeparated l x y) a = y /\ at_ (extra SpinAveraged l x y) (length l) = x.
Proof.
  intros H. unfold extra, at_. rewrite !app_nth2 by lia. rewrite Nat.sub_diag. split; [|reflexivity]. destruct (a - length l)%nat as [|[|k]] eqn:E; [reflexivity|reflexivity|lia].
Qed.
(** Splitting the electrons into two spins leaves the forces between all
    species as they were, and changes the split into short and long range by the
    smaller density of the electrons. *)
Theorem C47_spins : forall u E c a b a' b',
  let n := length (ions (e_s E)) in
  length (Z_free (e_s E)) = n -> length (e_ni E) = n -> length (atomic_masses (e_s E)) = n -> length (T_i (e_s E)) = n ->
  (a < n + 2)%nat -> (b < n + 2)%nat -> a' = Nat.min a n -> b' = Nat.min b n -> e_len E a b = e_len E a' b' ->
  match c with SepExchange | AvgExchange | Pauli _ _ => False | _ => True end ->
  full_r u SpinSeparated E a b c = full_r u SpinAveraged E a' b' c.
Proof.
  intros u E c a b a' b' n LZ Ln Lm LT Ha Hb Ea Eb El Hc.
  assert (K : forall l x i, length l = n -> (i < n + 2)%nat -> at_ (extra SpinSeparated l x x) i = at_ (extra SpinAveraged l x x) (Nat.min i n)).
  { intros l x i Hl Hi. destruct (Nat.lt_ge_cases i n) as [H|H].
    - rewrite Nat.min_l by lia. rewrite !extra_ion by lia. reflexivity.
    - rewrite Nat.min_r by lia. rewrite <- Hl. destruct (extra_e l x x i ltac:(lia)) as [-> ->]. reflexivity. }
  assert (Eq : q2 u SpinSeparated E a b = q2 u SpinAveraged E a' b') by (unfold q2, M_Potentials.charges; rewrite !K, Ea, Eb by assumption; reflexivity).
  assert (Em : mu u SpinSeparated E a b = mu u SpinAveraged E a' b') by (unfold mu, pmasses; rewrite !K, Ea, Eb by assumption; reflexivity).
  assert (ET : T_ab u SpinSeparated E a b = T_ab u SpinAveraged E a' b') by (unfold T_ab, pmasses, temps; rewrite !K, Ea, Eb by assumption; reflexivity).
  assert (EL : lambda_ab u SpinSeparated E a b = lambda_ab u SpinAveraged E a' b') by (unfold lambda_ab; now rewrite Em, ET).
  assert (Ek : kappa E a b = kappa E a' b') by (unfold kappa; now rewrite El).
  assert (Lt : forall i, Nat.ltb (Nat.min i n) n = Nat.ltb i n). { intros i. destruct (Nat.ltb_spec i n); [rewrite Nat.min_l by lia; now apply Nat.ltb_lt|rewrite Nat.min_r by lia; apply Nat.ltb_irrefl]. }
  assert (Er : r_cut E a b = r_cut E a' b').
  { unfold r_cut, n_ions. fold n. rewrite Ea, Eb, !Lt. destruct (Nat.ltb_spec a n), (Nat.ltb_spec b n); cbn [andb negb]; try reflexivity; rewrite Nat.min_l by lia; reflexivity. }
  assert (Ec : forall r, coulomb_r u SpinSeparated E a b r = coulomb_r u SpinAveraged E a' b' r) by (intros r; unfold coulomb_r; now rewrite Eq).
  assert (FE : forall f g : R -> R, (forall r, f r = g r) -> Some f = Some g) by (intros f g H; f_equal; apply FunctionalExtensionality.functional_extensionality; exact H).
  destruct c; try contradiction; cbn [full_r]; try (apply FE; intros r; rewrite ?Ec, ?Ek, ?EL, ?ET, ?Eq, ?Er; reflexivity).
  unfold qadd. cbn [fst snd Z.eqb]. reflexivity.
Qed.
Print Assumptions C47_spins.
Theorem C47_spin_range : forall E a b,
  let n := length (e_ni E) in 0 < e_ne E -> (forall i, (i < n)%nat -> 0 < at_ (e_ni E) i) -> (a < n + 2)%nat -> (b < n + 2)%nat ->
  let m := ((if Nat.ltb a n then 0 else 1) + (if Nat.ltb b n then 0 else 1))%nat in
  alpha SpinSeparated E a b ^ 6 = alpha SpinAveraged E (Nat.min a n) (Nat.min b n) ^ 6 / 2 ^ m.
Proof.
  intros E a b n He Hi Ha Hb m.
  assert (K : forall i, (i < n + 2)%nat -> 0 < at_ (densities SpinAveraged E) (Nat.min i n) /\ at_ (densities SpinSeparated E) i = at_ (densities SpinAveraged E) (Nat.min i n) / 2 ^ (if Nat.ltb i n then 0 else 1)).
  { intros i Hl. unfold densities. destruct (Nat.ltb_spec i n) as [H|H].
    - rewrite Nat.min_l by lia. rewrite !extra_ion by (fold n; lia). split; [now apply Hi|cbn; field].
    - rewrite Nat.min_r by lia. destruct (extra_e (e_ni E) (e_ne E) (e_ne E / 2) i ltac:(fold n; lia)) as [-> H2]. fold n in H2. rewrite H2. split; [exact He|cbn; field]. }
  assert (F : forall x, 0 < x -> (2 / Rpower (3 / (4 * PI * sqrt x)) (1 / 3)) ^ 6 = 64 * (4 * PI / 3) ^ 2 * x).
  { intros x Hx. pose proof PI_RGT_0. assert (Hs : 0 < sqrt x) by now apply sqrt_lt_R0.
    assert (Hy : 0 < 3 / (4 * PI * sqrt x)) by (apply Rdiv_lt_0_compat; [lra|apply Rmult_lt_0_compat; lra]).
    assert (R6 : Rpower (3 / (4 * PI * sqrt x)) (1 / 3) ^ 6 = (3 / (4 * PI * sqrt x)) ^ 2). { rewrite <- Rpower_pow by apply exp_pos. rewrite Rpower_mult. replace (1 / 3 * INR 6) with (INR 2) by (cbn; field). now rewrite Rpower_pow. }
    assert (Hr : 0 < Rpower (3 / (4 * PI * sqrt x)) (1 / 3)) by apply exp_pos. set (r := Rpower _ _) in *.
    replace ((2 / r) ^ 6) with (64 / r ^ 6) by (field; lra). rewrite R6. transitivity (64 * (4 * PI / 3) ^ 2 * sqrt x ^ 2); [field; lra|]. rewrite pow2_sqrt by lra. reflexivity. }
  destruct (K a Ha) as [A1 A2]. destruct (K b Hb) as [B1 B2]. unfold alpha. rewrite A2, B2. set (x := at_ (densities SpinAveraged E) (Nat.min a n)) in *. set (y := at_ (densities SpinAveraged E) (Nat.min b n)) in *.
  assert (P : forall i, 0 < (2 ^ i : R)) by (intros; apply pow_lt; lra). assert (0 < x * y) by now apply Rmult_lt_0_compat.
  rewrite (F (x * y)) by assumption.
  replace (x / 2 ^ (if Nat.ltb a n then 0 else 1) * (y / 2 ^ (if Nat.ltb b n then 0 else 1))) with (x * y / 2 ^ m) by (unfold m; rewrite pow_add; field; split; apply Rgt_not_eq, P).
  rewrite F by (apply Rdiv_lt_0_compat; [assumption|apply P]). field. apply Rgt_not_eq, P.
Qed.
Print Assumptions C47_spin_range.

Example C47_spins_ex : full_r unit_consts SpinSeparated ex_env 1 2 Kelbg = full_r unit_consts SpinAveraged ex_env 1 1 Kelbg /\ alpha SpinSeparated ex_env 0 2 ^ 6 = alpha SpinAveraged ex_env 0 1 ^ 6 / 2 ^ 1.
Proof.
  split; [apply C47_spins; try reflexivity; try (cbn; lia); exact I|].
  apply (C47_spin_range ex_env 0 2); cbn; try lra; try lia. intros [|i] Hi; [unfold at_; cbn; lra|lia].
Qed.

(** ** Preston's form *)
(** The equation that the depression of one species solves, with and without
    the correction of Crowley. *)
Theorem C86_equation : forall u isle arb crowley Zi ne n Te T, 0 <= Zi -> 0 < ne -> 0 < n -> 0 < Te -> 0 < T -> (arb = true -> 0 < isle ne Te) ->
  let z := ne / n + (if crowley : bool then 0 else 1) in
  let P := ipd_preston u isle arb (ccv crowley) Zi ne [n] Te [T] None 0 in
  let D := ipd_debye_hueckel u isle arb Zi ne [n] Te [T] [ne / n] 0 in
  (1 - 2 * z * P / (kB u * T)) ^ 3 = (1 - 3 * z * D / (kB u * T)) ^ 2.
Proof.
  intros u isle arb crowley Zi ne n Te T HZ Hne Hn HTe HT Hi z P D. pose proof (kB_pos u) as HkB. pose proof (eps0_pos u) as He. pose proof PI_RGT_0 as HP. pose proof (Qc_pos u) as HQ.
  unfold P, D. clear P D. rewrite dh_form. assert (Hk : 0 < kappa_D u isle arb ne [n] Te [T] [ne / n] 0) by (apply kappa_D_pos; try assumption; intros x [<-|[]]; exact Hn).
  unfold ipd_preston. cbv zeta. cbn [map]. change (at_ [T] 0) with T. set (k := kappa_D _ _ _ _ _ _ _ _ _) in *. clearbody k.
  replace (ne / sum [n]) with (ne / n) by (unfold sum; cbn; f_equal; ring).
  assert (Hz : 0 < ne / n) by (apply Rdiv_lt_0_compat; lra). assert (Ez : ne / n + ccv crowley = z) by reflexivity. rewrite Ez. assert (Hzp : 0 < z) by (unfold z; destruct crowley; lra). clearbody z.
  assert (HkT : 0 < kB u * T) by now apply Rmult_lt_0_compat.
  set (L := 3 * z * (Zi + 1) * e_ch u ^ 2 / (4 * eps0 u * PI * (1 / k) * kB u * T)).
  assert (EL : L = 3 * z * ((Zi + 1) * Qc u * k) / (kB u * T)) by (unfold L, Qc; field; lra).
  assert (HX : 0 < (Zi + 1) * Qc u * k) by (apply Rmult_lt_0_compat; [apply Rmult_lt_0_compat; lra|lra]).
  assert (HL : 0 < L) by (rewrite EL; apply Rdiv_lt_0_compat; [apply Rmult_lt_0_compat; lra|lra]).
  assert (RP : Rpower (1 + L) (2 / 3) ^ 3 = (1 + L) ^ 2). { rewrite <- Rpower_pow by apply exp_pos. rewrite Rpower_mult. replace (2 / 3 * INR 3) with (INR 2) by (cbn; field). apply Rpower_pow. lra. }
  set (Q := Rpower (1 + L) (2 / 3)) in *. replace (1 - 2 * z * (- (1 * kB u * T) / (2 * z) * (Q - 1)) / (kB u * T)) with Q by (field; lra). rewrite RP. f_equal. rewrite EL. field. lra.
Qed.
Print Assumptions C86_equation.
Example C86_equation_ex :
  (1 - 2 * 3 * ipd_preston unit_consts (fun _ _ => 0) false (ccv false) 2 2 [1] 1 [1] None 0 / (1 * 1)) ^ 3 =
  (1 - 3 * 3 * ipd_debye_hueckel unit_consts (fun _ _ => 0) false 2 2 [1] 1 [1] [2 / 1] 0 / (1 * 1)) ^ 2.
Proof.
  pose proof (C86_equation unit_consts (fun _ _ => 0) false false 2 2 1 1 1 ltac:(lra) ltac:(lra) ltac:(lra) ltac:(lra) ltac:(lra) ltac:(discriminate)) as H.
  cbv zeta in H. cbn [kB unit_consts] in H. replace (2 / 1 + (if false then 0 else 1)) with 3 in H by (cbv iota; lra). exact H.
Qed.
