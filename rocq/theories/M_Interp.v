(** jax.numpy.interp, searchsorted and trapezoid, as documented and implemented
    by jax (external library; used all over /repo/src/jaxrts).  Arrays are lists. *)
From Coq Require Import Reals List Arith.
Import ListNotations.
Open Scope R_scope.

Definition at_ (l : list R) (i : nat) : R := nth i l 0.

(** searchsorted(xs, q, side="right"), default method "scan": a bisection with a
    fixed number of steps, whatever the order of [xs]. *)
Definition bs_step (xs : list R) (q : R) (s : nat * nat) : nat * nat :=
  let '(lo, hi) := s in
  let mid := ((lo + hi) / 2)%nat in
  if Rlt_dec q (at_ xs mid) then (lo, mid) else (mid, hi).
Definition searchsorted (xs : list R) (q : R) : nat :=
  snd (Nat.iter (Nat.log2_up (length xs + 1)) (bs_step xs q) (O, length xs)).

(** jnp.interp(q, xs, ys, left, right); [None] as [left]/[right] is the default,
    the outermost value.  jax's test |dx| <= 5e-32 is modelled as dx = 0. *)
Definition interp (left right : option R) (xs ys : list R) (q : R) : R :=
  let n := length xs in
  let i := Nat.min (Nat.max (searchsorted xs q) 1) (n - 1) in
  let dx := at_ xs i - at_ xs (i - 1) in
  let df := at_ ys i - at_ ys (i - 1) in
  let f := if Req_EM_T dx 0 then at_ ys (i - 1)
           else at_ ys (i - 1) + ((q - at_ xs (i - 1)) / dx) * df in
  let f := if Rlt_dec q (at_ xs 0) then match left with Some v => v | None => at_ ys 0 end else f in
  if Rgt_dec q (at_ xs (n - 1)) then match right with Some v => v | None => at_ ys (n - 1) end else f.

(** jnp.trapezoid(ys, xs) *)
Fixpoint trapz (xs ys : list R) : R :=
  match xs, ys with
  | x0 :: (x1 :: _) as xs', y0 :: (y1 :: _) as ys' => (x1 - x0) * (y1 + y0) / 2 + trapz xs' ys'
  | _, _ => 0
  end.
