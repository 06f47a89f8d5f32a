(** Model of /repo/src/jaxrts/helpers.py. *)
From Coq Require Import List Bool Arith Reals Lra.
Import ListNotations.
Open Scope R_scope.

(** ** invert_dict, helpers.py:88-98

    A Python dictionary is a list of key/value pairs with distinct keys, in
    insertion order.  [eqK]/[eqV] are Python's [==] on keys and values. *)
Section Dict.
  Context {K V : Type}.
  Variable eqV : V -> V -> bool.
  (** [d[v] = k] : update in place or append *)
  Fixpoint put (v : V) (k : K) (d : list (V * K)) : list (V * K) :=
    match d with
    | [] => [(v, k)]
    | (v', k') :: t => if eqV v v' then (v', k) :: t else (v', k') :: put v k t
    end.
  (** the dict comprehension [{v: k for k, v in d.items()}] *)
  Definition swap_all (d : list (K * V)) : list (V * K) :=
    fold_left (fun out p => put (snd p) (fst p) out) d [].
  (** [None]: raises ValueError *)
  Definition invert_dict (d : list (K * V)) : option (list (V * K)) :=
    let out := swap_all d in
    if Nat.eqb (length d) (length out) then Some out else None.
End Dict.

(** ** jax.lax.while_loop: iteration; [None] when the fuel is used up *)
Fixpoint while_loop {S : Type} (fuel : nat) (cond : S -> bool) (body : S -> S) (s : S) : option S :=
  match fuel with
  | O => None
  | Datatypes.S n => if cond s then while_loop n cond body (body s) else Some s
  end.

Definition rgtb (x y : R) : bool := if Rgt_dec x y then true else false.
Definition rgeb (x y : R) : bool := if Rge_dec x y then true else false.
Definition reqb (x y : R) : bool := if Req_EM_T x y then true else false.

(** ** bisection, helpers.py:327-382; [jnp.sign] *)
Definition sign (x : R) : R :=
  if Rlt_dec x 0 then -1 else if Rgt_dec x 0 then 1 else 0.

Section Bisection.
  Variable func : R -> R.
  Variables (tolerance : R) (max_iter min_iter : nat).
  Definition bis_cond (s : R * R * nat) : bool :=
    let '(prev_x, next_x, count) := s in
    (Nat.ltb count max_iter && rgtb (Rabs (func next_x)) tolerance
     && rgtb (Rabs (prev_x - next_x)) tolerance)
    || Nat.ltb count min_iter.
  Definition bis_body (s : R * R * nat) : R * R * nat :=
    let '(a, b, i) := s in
    let c := (a + b) / 2 in
    let bound := if reqb (sign (func c)) (sign (func b)) then a else b in
    (bound, c, S i).
  (** the whole final state; the code returns its last two components *)
  Definition bisection_loop (fuel : nat) (a b : R) : option (R * R * nat) :=
    while_loop fuel bis_cond bis_body (a, b, O).
  Definition bisection (fuel : nat) (a b : R) : option (R * nat) :=
    match bisection_loop fuel a b with
    | Some (_, x, i) => Some (x, i)
    | None => None
    end.
End Bisection.

(** ** secant_extrema_finding, helpers.py:249-311; [f] is [jax.grad(func)] *)
(** [jnp.clip] *)
Definition clip (x lo hi : R) : R := Rmin (Rmax x lo) hi.

Section Secant.
  Variable f : R -> R.
  Variables (xmin xmax tol : R) (max_iter : nat).
  Definition sec_body (s : R * R * nat) : R * R * nat :=
    let '(x0, x1, i) := s in
    let f0 := f x0 in
    let f1 := f x1 in
    let x_next := x1 - f1 * (x1 - x0) / (f1 - f0) in
    (x1, clip x_next xmin xmax, S i).
  Definition sec_cond (s : R * R * nat) : bool :=
    let '(x0, x1, i) := s in
    rgeb (Rabs (f x0 - f x1)) tol && Nat.ltb i max_iter.
  Definition secant (fuel : nat) : option (R * nat) :=
    match while_loop fuel sec_cond sec_body ((xmin + xmax) / 2, xmax, O) with
    | Some (_, x, i) => Some (x, i)
    | None => None
    end.
End Secant.

(** ** cramer_solve, helpers.py:443-750.  Division by a zero determinant
    (inf/nan in the code) is [None]. *)
Definition divo (x y : R) : option R := if Req_EM_T y 0 then None else Some (x / y).
Fixpoint all_some {A} (l : list (option A)) : option (list A) :=
  match l with
  | [] => Some []
  | None :: _ => None
  | Some x :: t => match all_some t with Some r => Some (x :: r) | None => None end
  end.

(** helpers.py:483-484 *)
Definition cramer1 (A : nat -> nat -> R) (b : nat -> R) : option (list R) :=
  all_some [divo (b O) (A O O)].
(** helpers.py:486-494 *)
Definition cramer2 (A : nat -> nat -> R) (b : nat -> R) : option (list R) :=
  let a00 := A 0%nat 0%nat in let a01 := A 0%nat 1%nat in
  let a10 := A 1%nat 0%nat in let a11 := A 1%nat 1%nat in
  let b0 := b 0%nat in let b1 := b 1%nat in
  let det := a00 * a11 - a01 * a10 in
  all_some [divo (a11 * b0 - a01 * b1) det; divo (- a10 * b0 + a00 * b1) det].
(** helpers.py:496-517 *)
Definition cramer3 (A : nat -> nat -> R) (b : nat -> R) : option (list R) :=
  let a00 := A 0%nat 0%nat in let a01 := A 0%nat 1%nat in let a02 := A 0%nat 2%nat in
  let a10 := A 1%nat 0%nat in let a11 := A 1%nat 1%nat in let a12 := A 1%nat 2%nat in
  let a20 := A 2%nat 0%nat in let a21 := A 2%nat 1%nat in let a22 := A 2%nat 2%nat in
  let b0 := b 0%nat in let b1 := b 1%nat in let b2 := b 2%nat in
  let c00 := a11 * a22 - a12 * a21 in
  let c01 := - (a10 * a22 - a12 * a20) in
  let c02 := a10 * a21 - a11 * a20 in
  let c10 := - (a01 * a22 - a02 * a21) in
  let c11 := a00 * a22 - a02 * a20 in
  let c12 := - (a00 * a21 - a01 * a20) in
  let c20 := a01 * a12 - a02 * a11 in
  let c21 := - (a00 * a12 - a02 * a10) in
  let c22 := a00 * a11 - a01 * a10 in
  let det := a00 * c00 + a01 * c01 + a02 * c02 in
  all_some [divo (c00 * b0 + c10 * b1 + c20 * b2) det;
            divo (c01 * b0 + c11 * b1 + c21 * b2) det;
            divo (c02 * b0 + c12 * b1 + c22 * b2) det].
(** The terms shared by the size-4 branch: determinant and numerators.
    helpers.py:546-746 (transcribed by a script). *)
Definition cramer4_terms (A : nat -> nat -> R) (b : nat -> R) : R * (R * R * R * R) :=
  let a00 := A 0%nat 0%nat in
  let a01 := A 0%nat 1%nat in
  let a02 := A 0%nat 2%nat in
  let a03 := A 0%nat 3%nat in
  let a10 := A 1%nat 0%nat in
  let a11 := A 1%nat 1%nat in
  let a12 := A 1%nat 2%nat in
  let a13 := A 1%nat 3%nat in
  let a20 := A 2%nat 0%nat in
  let a21 := A 2%nat 1%nat in
  let a22 := A 2%nat 2%nat in
  let a23 := A 2%nat 3%nat in
  let a30 := A 3%nat 0%nat in
  let a31 := A 3%nat 1%nat in
  let a32 := A 3%nat 2%nat in
  let a33 := A 3%nat 3%nat in
  let b0 := b 0%nat in
  let b1 := b 1%nat in
  let b2 := b 2%nat in
  let b3 := b 3%nat in
  let t0 := a01 * a10 in
  let t1 := a02 * a20 in
  let t2 := a03 * a30 in
  let t3 := a23 * a32 in
  let t4 := a22 + a33 in
  let t5 := a22 * a33 in
  let t6 := a12 * a21 in
  let t7 := a13 * a31 in
  let t8 := t6 + t7 in
  let t9 := a12 * a20 in
  let t10 := a13 * a30 in
  let t11 := a10 * a11 + t10 + t9 in
  let t12 := a10 * a21 in
  let t13 := a23 * a30 in
  let t14 := a20 * a22 + t12 + t13 in
  let t15 := a10 * a31 in
  let t16 := a20 * a32 in
  let t17 := a30 * a33 + t15 + t16 in
  let t18 := a23 * a31 in
  let t19 := a21 * a32 in
  let t20 := a01 * a12 in
  let t21 := a03 * a11 in
  let t22 := a01 * a13 in
  let t23 := a02 * a33 in
  let t24 := a03 * a31 in
  let t25 := a13 * a21 in
  let t26 := a02 * a23 in
  let t27 := a00 * a12 in
  let t28 := a03 * a10 in
  let t29 := a00 * a13 in
  let t30 := a11 * a33 in
  let t31 := a00 * a11 in
  let t32 := a22 * a30 in
  let t33 := a02 * a30 in
  let det := ( a00 * ( a11 * (-t3 + t5) + a12 * (a21 * a22 + t18) + a13 * (a31 * a33 + t19) - t4 * t8 ) - a01 * (a11 * t11 + a12 * t14 + a13 * t17) - a02 * (a21 * t11 + a22 * t14 + a23 * t17) - a03 * (a31 * t11 + a32 * t14 + a33 * t17) + (a11 + t4) * (a01 * t11 + a02 * t14 + a03 * t17) + (t0 + t1 + t2) * (-a11 * t4 + t3 - t5 + t8) ) in
  let num0 := ( b0 * ( -a11 * t3 + a11 * t5 + a12 * t18 + a13 * t19 - a22 * t7 - a33 * t6 ) - b1 * ( -a01 * t3 + a01 * t5 + a02 * t18 + a03 * t19 - a21 * t23 - a22 * t24 ) + b2 * ( a02 * t7 - a11 * t23 - a12 * t24 + a32 * t21 - a32 * t22 + a33 * t20 ) - b3 * ( a02 * t25 - a03 * t6 - a11 * t26 + a22 * t21 - a22 * t22 + a23 * t20 ) ) in
  let num1 := ( -b0 * ( -a10 * t3 + a10 * t5 + a12 * t13 + a13 * t16 - a22 * t10 - a33 * t9 ) + b1 * ( -a00 * t3 + a00 * t5 + a02 * t13 + a03 * t16 - a22 * t2 - a33 * t1 ) - b2 * ( a02 * t10 - a10 * t23 - a12 * t2 + a32 * t28 - a32 * t29 + a33 * t27 ) + b3 * ( -a03 * t9 - a10 * t26 + a13 * t1 + a22 * t28 - a22 * t29 + a23 * t27 ) ) in
  let num2 := ( b0 * ( -a10 * t18 + a11 * t13 - a20 * t30 + a20 * t7 - a21 * t10 + a33 * t12 ) - b1 * ( a00 * a21 * a33 - a00 * t18 - a01 * a20 * a33 + a01 * t13 + a20 * t24 - a21 * t2 ) + b2 * ( a00 * t30 - a00 * t7 + a01 * t10 + a03 * t15 - a11 * t2 - a33 * t0 ) - b3 * ( -a00 * t25 + a03 * t12 - a20 * t21 + a20 * t22 - a23 * t0 + a23 * t31 ) ) in
  let num3 := ( -b0 * ( a10 * t19 - a11 * t16 + a11 * t32 - a22 * t15 - a30 * t6 + a31 * t9 ) + b1 * ( -a00 * a22 * a31 + a00 * t19 - a01 * t16 + a01 * t32 - a21 * t33 + a31 * t1 ) - b2 * ( a02 * t15 - a11 * t33 + a30 * t20 - a31 * t27 - a32 * t0 + a32 * t31 ) + b3 * ( -a00 * t6 + a01 * t9 + a02 * t12 - a11 * t1 - a22 * t0 + a22 * t31 ) ) in
  (det, (num0, num1, num2, num3)).
(** unbatched size-4 branch: [jnp.stack([num0..num3]) / det], helpers.py:747 *)
Definition cramer4 (A : nat -> nat -> R) (b : nat -> R) : option (list R) :=
  let '(det, (n0, n1, n2, n3)) := cramer4_terms A b in
  all_some [divo n0 det; divo n1 det; divo n2 det; divo n3 det].

(** helpers.py:478-519, 749-750.  [solve] is [jnp.linalg.solve]. *)
Definition cramer_solve (solve : nat -> (nat -> nat -> R) -> (nat -> R) -> option (list R))
    (N_max N : nat) (A : nat -> nat -> R) (b : nat -> R) : option (list R) :=
  if Nat.ltb N_max N then solve N A b else
  match N with
  | 1%nat => cramer1 A b
  | 2%nat => cramer2 A b
  | 3%nat => cramer3 A b
  | 4%nat => cramer4 A b
  | _ => solve N A b
  end.

(** The size-4 branch on a batch: numerators have shape (B, 4) and [det] has
    shape (B); NumPy broadcasting aligns [det] with the last axis: it is an
    error unless B is 4 or 1.  helpers.py:747 with shapes as in the docstring
    (helpers.py:461-463). *)
Definition nums4 A b : list R := let '(_, (n0, n1, n2, n3)) := cramer4_terms A b in [n0; n1; n2; n3].
Definition det4 A b : R := fst (cramer4_terms A b).
Definition cramer4_batched (batch : list ((nat -> nat -> R) * (nat -> R))) : option (list (option (list R))) :=
  let dets := map (fun p => det4 (fst p) (snd p)) batch in
  let nums := map (fun p => nums4 (fst p) (snd p)) batch in
  match dets with
  | [d] => Some (map (fun r => all_some (map (fun x => divo x d) r)) nums)
  | [d0; d1; d2; d3] =>
      Some (map (fun r => all_some (map (fun p => divo (fst p) (snd p)) (combine r dets))) nums)
  | _ => None
  end.
