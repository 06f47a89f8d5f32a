(** Model of jaxrts/hypernetted_chain.py: the sine transform, the two
    Ornstein-Zernike solvers, the iteration and the structure factors.

    Arrays over the radial grid are functions [nat -> R] read below their
    length [N]; arrays over two species and the grid are [nat -> nat -> nat -> R]
    read below [M], [M] and [N].  Division by zero inside cramer_solve (inf/nan
    in the code) is [None].  Floats are exact reals. *)
From Coq Require Import Reals Lra List Lia Arith Bool.
From Coquelicot Require Import Coquelicot.
Import ListNotations.
From Verif Require Import M_Const M_Helpers.
Open Scope R_scope.

(** Sums over [0 .. n-1]. *)
Fixpoint nsum (n : nat) (f : nat -> R) : R :=
  match n with O => 0 | S m => nsum m f + f m end.
Fixpoint csum (n : nat) (f : nat -> C) : C :=
  match n with O => RtoC 0 | S m => Cplus (csum m f) (f m) end.

(** exp(1j * t) for real t *)
Definition cis (t : R) : C := (cos t, sin t).

(** jnp.fft.fft of a complex array of length [M]: sum_j y_j exp(-2 pi i j m / M) *)
Definition fft (M : nat) (y : nat -> C) (m : nat) : C :=
  csum M (fun j => Cmult (y j) (cis (- (2 * PI * INR j * INR m / INR M)))).

(** dst4, hypernetted_chain.py:266-313.  [N] is [f.shape[-1]]. *)
Definition dst4 (N : nat) (f : nat -> R) (k : nat) : R :=
  (** M = N // 2 *)
  let M := Nat.div N 2 in
  (** c = f[..., ::-1] *)
  let c := fun i => f (N - 1 - i)%nat in
  (** fac = exp(-1j * pi * (i_arr + 1/8) / N) *)
  let fac := fun i => cis (- PI * (INR i + 1 / 8) / INR N) in
  (** y = (c[2 i] + 1j * c[N - 1 - 2 i]) * fac *)
  let y := fun i => Cmult (c (2 * i)%nat, c (N - 1 - 2 * i)%nat) (fac i) in
  (** Y = fft(y); Y *= fac *)
  let Y := fun i => Cmult (fft M y i) (fac i) in
  let even := fun i => fst (Y i) in
  let odd := fun i => - snd (Y (M - 1 - i)%nat) in
  (** out = zeros; out[2 i] = even; out[2 i + 1] = odd; out[1::2] *= -1 *)
  let i := Nat.div k 2 in
  if Nat.ltb i M then (if Nat.even k then even i else odd i * -1) else 0.

(** fourier_transform_sine, hypernetted_chain.py:95-100; [k] are the labels of
    the result, [r] those of the argument. *)
Definition fourier_transform_sine (N : nat) (k r f : nat -> R) (m : nat) : R :=
  let dr := r 1%nat - r 0%nat in
  dst4 N (fun j => r j * f j) m * (4 * PI) / k m * dr.

(** _3Dfour = _3Dfour_sine, hypernetted_chain.py:316-338: the transform of every
    pair of species. *)
Definition arr3 := nat -> nat -> nat -> R.
Definition three_d_four (N : nat) (k r : nat -> R) (f : arr3) : arr3 :=
  fun a b m => fourier_transform_sine N k r (fun j => f a b j) m.

(** The k grid built inside both solvers, hypernetted_chain.py:364-367 and
    :545-547, and by the ion-feature models, models.py:842-847 and 1034-1038. *)
Definition k_step (N : nat) (r : nat -> R) : R := PI / (INR N * (r 1%nat - r 0%nat)).
Definition k_grid (N : nat) (r : nat -> R) (m : nat) : R :=
  PI / r (N - 1)%nat + INR m * k_step N r.
(** jnp.linspace(r_min, r_max, N), models.py:838-840 *)
Definition linspace (lo hi : R) (N : nat) (j : nat) : R :=
  lo + INR j * ((hi - lo) / INR (N - 1)).

(** all entries below [n] of an option-valued function *)
Fixpoint sequence (n : nat) (f : nat -> option (list R)) : option (list (list R)) :=
  match n with
  | O => Some []
  | S m => match sequence m f, f m with Some l, Some x => Some (l ++ [x]) | _, _ => None end
  end.
Definition entry (X : list (list R)) (i j : nat) : R := nth j (nth i X []) 0.
Definition delta (i j : nat) : R := if Nat.eqb i j then 1 else 0.

Section OZ.
(** jnp.linalg.solve with a vector on the right *)
Variable solve : nat -> (nat -> nat -> R) -> (nat -> R) -> option (list R).
(** cramer_solve_max_size *)
Variable N_max : nat.

(** cramer_solve called with a matrix on the right, as [ozr] does.  In the
    hand-written branches [b[..., i]] is a column of the right-hand side, so that
    row [i] of the result solves [A x = b[i, :]]; jnp.linalg.solve in contrast
    solves for the columns.  helpers.py:478-519, 749-750. *)
Definition cramer_solve_matrix (M : nat) (A B : nat -> nat -> R) : option (nat -> nat -> R) :=
  if Nat.ltb N_max M || Nat.eqb M 0 || Nat.ltb 4 M then
    match sequence M (fun j => solve M A (fun i => B i j)) with
    | Some X => Some (fun i j => entry X j i)
    | None => None
    end
  else
    match sequence M (fun i => cramer_solve solve N_max M A (fun j => B i j)) with
    | Some X => Some (fun i j => entry X i j)
    | None => None
    end.

(** ozr, hypernetted_chain.py:549, 554-564: A = eye - c @ d with d = eye * n *)
Definition ozr (M : nat) (n : nat -> R) (c : nat -> nat -> R) : option (nat -> nat -> R) :=
  let d := fun i j => delta i j * n j in
  let A := fun i j => delta i j - nsum M (fun s => c i s * d s j) in
  cramer_solve_matrix M A c.

(** m_ab, hypernetted_chain.py:369-371 *)
Definition m_ab (m : nat -> R) (a b : nat) : R := m a * m b / (m a + m b).
(** build_coeffs, hypernetted_chain.py:373-403.  [T] is the plane [T[:, :, 0]]. *)
Definition coeff_1 (n m : nat -> R) (T : nat -> nat -> R) (a b s : nat) : R :=
  n s * (m_ab m a b * T a s / (m a * T a b)).
Definition coeff_2 (n m : nat -> R) (T : nat -> nat -> R) (a b s : nat) : R :=
  n s * (m_ab m a b * T b s / (m b * T a b)).

(** svt_ozr_ei, hypernetted_chain.py:416-446: rows and columns of the M^2 x M^2
    matrix are (a, b) = (i / M, i mod M). *)
Definition svt_matrix (M : nat) (n m : nat -> R) (T : nat -> nat -> R) (c : nat -> nat -> R) (i j : nat) : R :=
  let a := Nat.div i M in let b := Nat.modulo i M in
  let s := Nat.div j M in let t := Nat.modulo j M in
  delta i j
  + - (coeff_1 n m T a b s * c a s) * delta b t
  + - (coeff_2 n m T a b t * c t b) * delta a s.
Definition svt_ozr (M : nat) (n m : nat -> R) (T : nat -> nat -> R) (c : nat -> nat -> R)
    : option (nat -> nat -> R) :=
  match cramer_solve solve N_max (M * M) (svt_matrix M n m T c)
          (fun i => c (Nat.div i M) (Nat.modulo i M)) with
  | Some H => Some (fun a b => nth (a * M + b) H 0)
  | None => None
  end.
End OZ.

(** The closed iteration; [oz] is the Ornstein-Zernike solver applied at every
    wave number. *)
Record hnc_state := mkHS { log_g : arr3; Ns : arr3; Ns_old : arr3; n_iter : nat }.

Definition total (M N : nat) (f : arr3) : R :=
  nsum M (fun a => nsum M (fun b => nsum N (fun j => f a b j))).

(** jax.vmap(oz, in_axes=2, out_axes=2)(c_k) *)
Fixpoint oz_all (oz : (nat -> nat -> R) -> option (nat -> nat -> R)) (c : arr3) (N : nat)
    : option (list (nat -> nat -> R)) :=
  match N with
  | O => Some []
  | S m =>
      match oz_all oz c m, oz (fun a b => c a b m) with
      | Some l, Some h => Some (l ++ [h])
      | _, _ => None
      end
  end.
Definition plane (l : list (nat -> nat -> R)) : arr3 :=
  fun a b m => nth m l (fun _ _ => 0) a b.

Section Iteration.
Variable oz : (nat -> nat -> R) -> option (nat -> nat -> R).
Variable M N : nat.
Variable r : nat -> R.
Variable mix : R.
(** beta * V_s and beta * V_l_k at the current temperature multiplier *)
Variable v_s v_l_k : arr3.

(** condition, hypernetted_chain.py:566-573 (and :448-455) *)
Definition condition (s : hnc_state) : bool :=
  let err := total M N (fun a b j => (Ns s a b j - Ns_old s a b j) ^ 2) in
  Nat.ltb (n_iter s) 2000 && (if Rlt_dec (1 / 1000000) err then true else false).

(** step, hypernetted_chain.py:582-604 (and :457-491) *)
Definition step (s : hnc_state) : option hnc_state :=
  let k := k_grid N r in
  let h_r := fun a b j => exp (log_g s a b j) - 1 in
  let cs_r := fun a b j => h_r a b j - Ns s a b j in
  let cs_k := three_d_four N k r cs_r in
  let c_k := fun a b m => cs_k a b m - v_l_k a b m in
  match oz_all oz c_k N with
  | None => None
  | Some H =>
      let h_k := plane H in
      let Ns_k := fun a b m => h_k a b m - cs_k a b m in
      let Ns_r_new_full := fun a b j => three_d_four N r k Ns_k a b j / (2 * PI) ^ 3 in
      let Ns_r_new := fun a b j => (1 - mix) * Ns_r_new_full a b j + mix * Ns s a b j in
      let log_g_r_new := fun a b j => Ns_r_new a b j - v_s a b j in
      Some (mkHS log_g_r_new Ns_r_new (Ns s) (S (n_iter s)))
  end.

(** jax.lax.while_loop(condition, step, init) *)
Inductive outcome := Finished (s : hnc_state) | NotANumber | OutOfFuel.
Fixpoint while_loop (fuel : nat) (s : hnc_state) : outcome :=
  match fuel with
  | O => OutOfFuel
  | S f =>
      if condition s then
        match step s with Some s' => while_loop f s' | None => NotANumber end
      else Finished s
  end.
(** the five extra steps after a change of temperature; their counter is
    discarded, hypernetted_chain.py:615-623 *)
Fixpoint steps (n : nat) (s : hnc_state) : option hnc_state :=
  match n with
  | O => Some s
  | S p => match step s with Some s' => steps p s' | None => None end
  end.
(** the first temperature: zeros for Ns_r, v_s for log_g_r, :609-613 *)
Definition init : hnc_state :=
  mkHS (fun a b j => - v_s a b j) (fun _ _ _ => 0) (fun _ _ _ => 0 - 1) 0.
End Iteration.

Section Solver.
Variable oz : R -> (nat -> nat -> R) -> option (nat -> nat -> R).
Variable fuel M N : nat.
Variable r : nat -> R.
Variable mix : R.
(** v_s and v_l_k at a temperature multiplier *)
Variable v_s v_l_k : R -> arr3.

(** one temperature, hypernetted_chain.py:576-628: the starting state, the
    loop; the second component is the number of iterations spent *)
Definition first_cycle (mult : R) : outcome :=
  while_loop (oz mult) M N r mix (v_s mult) (v_l_k mult) fuel (init (v_s mult)).
Definition next_cycle (mult : R) (s : hnc_state) : outcome :=
  match steps (oz mult) N r mix (v_s mult) (v_l_k mult) 5 s with
  | None => NotANumber
  | Some s' =>
      while_loop (oz mult) M N r mix (v_s mult) (v_l_k mult) fuel
        (mkHS (log_g s') (Ns s') (Ns_old s') 0)
  end.
Fixpoint later_cycles (mults : list R) (s : hnc_state) (iterations : nat) : option (hnc_state * nat) :=
  match mults with
  | [] => Some (s, iterations)
  | mult :: rest =>
      match next_cycle mult s with
      | Finished s' => later_cycles rest s' (iterations + 5 + n_iter s')
      | _ => None
      end
  end.
(** tmult = [*tmult, 1.0]; the state after all temperatures and [iterations] *)
Definition cycles (tmult : list R) : option (hnc_state * nat) :=
  match tmult ++ [1] with
  | [] => None
  | mult :: rest =>
      match first_cycle mult with
      | Finished s => later_cycles rest s (n_iter s)
      | _ => None
      end
  end.
End Solver.

Section Solvers.
Variable K : consts.
Variable solve : nat -> (nat -> nat -> R) -> (nat -> R) -> option (list R).

(** beta = 1 / (k_B Ti mult), hypernetted_chain.py:577-580, :406-409.  [T] has
    shape (M, M, 1) and is broadcast over the grid. *)
Definition beta (T : nat -> nat -> R) (mult : R) (a b : nat) : R := 1 / (kB K * (mult * T a b)).

(** pair_distribution_function_HNC, hypernetted_chain.py:516-630 *)
Definition pair_distribution_function_HNC (fuel M N : nat) (V_s V_l_k : arr3) (r : nat -> R)
    (T : nat -> nat -> R) (ni : nat -> R) (mix : R) (tmult : list R) (N_max : nat)
    : option (arr3 * nat) :=
  match cycles (fun _ => ozr solve N_max M ni) fuel M N r mix
          (fun mult a b j => beta T mult a b * V_s a b j)
          (fun mult a b m => beta T mult a b * V_l_k a b m) tmult with
  | Some (s, iterations) => Some (fun a b j => exp (log_g s a b j), iterations)
  | None => None
  end.

(** pair_distribution_function_SVT_HNC, hypernetted_chain.py:341-513; it returns
    the iterations of the last cycle only (:513) *)
Definition pair_distribution_function_SVT_HNC (fuel M N : nat) (V_s V_l_k : arr3) (r : nat -> R)
    (T : nat -> nat -> R) (ni m : nat -> R) (mix : R) (tmult : list R) (N_max : nat)
    : option (arr3 * nat) :=
  match cycles (fun mult => svt_ozr solve N_max M ni m (fun a b => mult * T a b)) fuel M N r mix
          (fun mult a b j => beta T mult a b * V_s a b j)
          (fun mult a b m => beta T mult a b * V_l_k a b m) tmult with
  | Some (s, _) => Some (fun a b j => exp (log_g s a b j), n_iter s)
  | None => None
  end.
End Solvers.

(** geometric_mean_T, hypernetted_chain.py:633-643; all temperatures are
    positive, so that [sqrt] is the code's square root *)
Definition geometric_mean_T (T : nat -> R) (a b : nat) : R := sqrt (T b * T a).
(** mass_weighted_T, hypernetted_chain.py:646-659 *)
Definition mass_weighted_T (m T : nat -> R) (a b : nat) : R := (m a * T b + m b * T a) / (m a + m b).

(** S_ii_HNC, hypernetted_chain.py:662-687 *)
Definition S_ii_HNC (N : nat) (k : nat -> R) (pdf : arr3) (ni : nat -> R) (r : nat -> R) : arr3 :=
  let S_k := fun a b m =>
    delta a b + three_d_four N k r (fun a b j => pdf a b j - 1) a b m * sqrt (ni a * ni b) in
  fun a b m => if Nat.eqb m 0 then S_k a b 1%nat else S_k a b m.

(** ** The Ogata quadrature (kept in the file beside the sine transform) *)
(** psi, hypernetted_chain.py:18-20 *)
Definition psi (t : R) : R := t * tanh (PI * sinh t / 2).
(** dpsi, hypernetted_chain.py:23-28; the NaN replaced by 1 is that of an
    overflowing cosh, which exact reals do not have *)
Definition dpsi (t : R) : R :=
  (PI * t * cosh t + sinh (PI * sinh t)) / (1 + cosh (PI * sinh t)).
(** hypernetted_chain.py:32-51, for positive arguments *)
Definition bessel_3_2 (x : R) : R := sqrt (2 / (PI * x)) * (sin x / x - cos x).
Definition bessel_0_5 (x : R) : R := sqrt (2 / (PI * x)) * sin x.
Definition bessel_neg0_5 (x : R) : R := sqrt (2 / (PI * x)) * cos x.
Definition bessel_2ndkind_0_5 (x : R) : R :=
  (bessel_0_5 x * cos (0.5 * PI) - bessel_neg0_5 x) / sin (0.5 * PI).
(** the nodes and weights of fourier_transform_ogata, :66-68 and :80-81 *)
Definition ogata_node (h : R) (i : nat) : R := PI * psi (h * INR i) / h.
Definition ogata_weight (i : nat) : R := bessel_2ndkind_0_5 (PI * INR i) / bessel_3_2 (PI * INR i).
