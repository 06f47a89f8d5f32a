(** Model of the fast Fourier transforms of /repo/src/jaxrts/hypernetted_chain.py:102-263.
    Arrays are functions of the index, updated at one index at a time.  Loops over a
    range are folds; [fuel] bounds the number of turns of a while loop. *)
From Coq Require Import Reals List Arith Bool.
From Coquelicot Require Import Complex.
From Verif Require Import M_HNC.
Import ListNotations.
Open Scope R_scope.

(** y.at[i].set(v) *)
Definition upd (y : nat -> R) (i : nat) (v : R) : nat -> R := fun j => if Nat.eqb j i then v else y j.
(** range(a, b, s) *)
Definition range (a b s : nat) : list nat := map (fun t => (a + s * t)%nat) (seq 0 ((b - a + s - 1) / s)).

(** hypernetted_chain.py:121-128 *)
Definition swap (y : nat -> R) (i j : nat) : nat -> R :=
  let temp1 := y (i - 1)%nat in
  let temp2 := y (j - 1)%nat in
  let y := upd y (j - 1) temp1 in
  let y := upd y (i - 1) temp2 in
  let temp1 := y i in
  let temp2 := y j in
  let y := upd y j temp1 in
  upd y i temp2.
(** hypernetted_chain.py:130-133: the position and the weight left by the loop *)
Fixpoint carry (fuel m j : nat) : nat * nat :=
  match fuel with
  | O => (j, m)
  | S f => if Nat.leb 2 m && Nat.ltb m j then carry f (Nat.div m 2) (j - m)%nat else (j, m)
  end.
(** hypernetted_chain.py:117-133 *)
Definition rev_step (nn : nat) (st : (nat -> R) * nat) (i : nat) : (nat -> R) * nat :=
  let y := fst st in
  let j := snd st in
  let y := if Nat.ltb i j then swap y i j else y in
  let jm := carry nn nn j in
  (y, (fst jm + snd jm)%nat).
Definition bit_reverse (nn : nat) (y : nat -> R) : nat -> R :=
  fst (fold_left (rev_step nn) (range 1 (2 * nn) 2) (y, 1%nat)).

(** hypernetted_chain.py:147-153 *)
Definition butterfly (wr wi : R) (mmax : nat) (y : nat -> R) (i : nat) : nat -> R :=
  let j := (i + mmax)%nat in
  let tempr := wr * y (j - 1)%nat - wi * y j in
  let tempi := wr * y j + wi * y (j - 1)%nat in
  let y := upd y (j - 1) (y (i - 1)%nat - tempr) in
  let y := upd y j (y i - tempi) in
  let y := upd y (i - 1) (y (i - 1)%nat + tempr) in
  upd y i (y i + tempi).
(** hypernetted_chain.py:137-156 *)
Definition stage (isign : R) (n mmax : nat) (y : nat -> R) : nat -> R :=
  let istep := (2 * mmax)%nat in
  let theta := isign * (2 * PI / INR mmax) in
  let wtemp := sin (1 / 2 * theta) in
  let wpr := - 2 * wtemp ^ 2 in
  let wpi := sin theta in
  let turn := fun (st : (nat -> R) * R * R) m =>
    let '(y, wr, wi) := st in
    (fold_left (butterfly wr wi mmax) (range m (n + 1) istep) y,
     wr * wpr - wi * wpi + wr, wi * wpr + wr * wpi + wi) in
  fst (fst (fold_left turn (range 1 mmax 2) (y, 1, 0))).
(** hypernetted_chain.py:135-158 *)
Fixpoint stages (fuel : nat) (isign : R) (n mmax : nat) (y : nat -> R) : nat -> R :=
  match fuel with
  | O => y
  | S f => if Nat.ltb mmax n then stages f isign n (2 * mmax) (stage isign n mmax y) else y
  end.
(** hypernetted_chain.py:103-160; [nn] is half the length of the array *)
Definition four1 (nn : nat) (y : nat -> R) (isign : R) : nat -> R :=
  let n := (2 * nn)%nat in stages n isign n 2 (bit_reverse nn y).

(** hypernetted_chain.py:187-205 *)
Definition unpack_step (n : nat) (c2 wpr wpi : R) (st : (nat -> R) * R * R) (i : nat) : (nat -> R) * R * R :=
  let '(y, wr, wi) := st in
  let c1 := 1 / 2 in
  let i1 := (i + i - 1)%nat in
  let i2 := (1 + i1)%nat in
  let i3 := (n + 3 - i2)%nat in
  let i4 := (1 + i3)%nat in
  let h1r := c1 * (y (i1 - 1)%nat + y (i3 - 1)%nat) in
  let h1i := c1 * (y (i2 - 1)%nat - y (i4 - 1)%nat) in
  let h2r := - c2 * (y (i2 - 1)%nat + y (i4 - 1)%nat) in
  let h2i := c2 * (y (i1 - 1)%nat - y (i3 - 1)%nat) in
  let y := upd y (i1 - 1) (h1r + wr * h2r - wi * h2i) in
  let y := upd y (i2 - 1) (h1i + wr * h2i + wi * h2r) in
  let y := upd y (i3 - 1) (h1r - wr * h2r + wi * h2i) in
  let y := upd y (i4 - 1) (- h1i + wr * h2i + wi * h2r) in
  (y, wr * wpr - wi * wpi + wr, wi * wpr + wr * wpi + wi).
(** hypernetted_chain.py:163-220; [forward] is isign == 1, otherwise isign is -1.
    [n] is the length of the array. *)
Definition realfft (n : nat) (y : nat -> R) (forward : bool) : nat -> R :=
  let isign := if forward then 1 else - 1 in
  let c2 := - isign * (1 / 2) in
  let y := if forward then four1 (Nat.div n 2) y 1 else y in
  let theta := isign * (PI / INR (Nat.div n 2)) in
  let wtemp := sin (1 / 2 * theta) in
  let wpr := - 2 * wtemp ^ 2 in
  let wpi := sin theta in
  let y := fst (fst (fold_left (unpack_step n c2 wpr wpi) (range 2 (Nat.div n 4 + 1) 1) (y, 1 + wpr, wpi))) in
  let h1r := y O in
  if forward then
    let y := upd y 0 (h1r + y 1%nat) in
    upd y 1 (h1r - y 1%nat)
  else
    let y := upd y 0 (1 / 2 * (h1r + y 1%nat)) in
    let y := upd y 1 (1 / 2 * (h1r - y 1%nat)) in
    four1 (Nat.div n 2) y (- 1).
(** hypernetted_chain.py:223-228; numpy's transform as the sum it is defined to be,
    the last entry dropped *)
Definition rfft (n : nat) (y : nat -> R) (k : nat) : C :=
  csum n (fun j => Cmult (RtoC (y j)) (cis (- (2 * PI * INR j * INR k / INR n)))).
Definition realfftnp (n : nat) (y : nat -> R) : nat -> R :=
  fun i => if Nat.even i then fst (rfft n y (Nat.div i 2)) else - snd (rfft n y (Nat.div i 2)).
(** hypernetted_chain.py:231-263; [y[n : halfn - 1 : -1]] are the indices n-1, ..., halfn *)
Definition sinft (n : nat) (y : nat -> R) : nat -> R :=
  let halfn := Nat.div n 2 in
  let wi := fun j => sin (INR j / (2 * INR n) * PI * 2) in
  let y := upd y 0 0 in
  let f1 := fun j => wi j * (y j + y (n - j)%nat) in
  let f2 := fun j => 1 / 2 * (y j - y (n - j)%nat) in
  let y := fun i => if Nat.leb halfn i then f1 (n - i)%nat - f2 (n - i)%nat
                    else if Nat.leb 1 i then f1 i + f2 i else y i in
  let y := realfftnp n y in
  let y := upd y 0 (y O * (1 / 2)) in
  let y := upd y 1 0 in
  let sum_val := fun k => nsum (S k) (fun i => y (2 * i)%nat) in
  fun i => if Nat.even i then y (i + 1)%nat else sum_val (Nat.div i 2).
