(** Model of /repo/src/jaxrts/instrument_function.py.  Frequencies in one unit;
    widths given as an energy are divided by hbar on construction. *)
From Coq Require Import Reals List Arith.
From Verif Require Import M_Interp.
Import ListNotations.
Open Scope R_scope.

(** instrument_function.py:393-418 *)
Definition instrument_gaussian (x sigma : R) : R :=
  (1 / (sigma * sqrt (2 * PI))) * exp (- (1 / 2) * x ^ 2 / sigma ^ 2).
(** instrument_function.py:76-77 and 83-84 *)
Definition sigma_of_fwhm (fwhm : R) : R := fwhm / (2 * sqrt (2 * ln 2)).
Definition fwhm_of_sigma (sigma : R) : R := sigma * (2 * sqrt (2 * ln 2)).
(** Gaussian.__init__, instrument_function.py:73-80: [None] is TypeError.  The
    conversion from energy divides by hbar. *)
Definition gaussian_init (hbar : R) (is_energy : bool) (sigma fwhm : option R) : option R :=
  let s := match fwhm with Some f => Some (sigma_of_fwhm f) | None => sigma end in
  match s with Some s => Some (if is_energy then s / hbar else s) | None => None end.

(** TwinGaussian.__call__, instrument_function.py:154-161 *)
Definition twin_gaussian (sigma1 sigma2 x : R) : R :=
  let norm1 := sqrt (2 * PI * sigma1 ^ 2) in
  let norm2 := sqrt (2 * PI * sigma2 ^ 2) in
  (if Rlt_dec x 0 then instrument_gaussian x sigma1 * norm1 else instrument_gaussian x sigma2 * norm2)
  / (1 / 2 * norm1 + 1 / 2 * norm2).

(** x ** p for x >= 0 *)
Definition rpow (x p : R) : R := if Req_EM_T x 0 then (if Req_EM_T p 0 then 1 else 0) else Rpower x p.
(** jnp.linspace(a, b, n) *)
Definition linspace (a b : R) (n : nat) : list R :=
  map (fun i => a + INR i * ((b - a) / INR (n - 1))) (seq 0 n).
(** instrument_function.py:421-464 *)
Definition sg_grid (sigma : R) : list R :=
  map (fun x => x / sigma) (linspace (-10 * sigma) (10 * sigma) 600).
Definition sg_norm (sigma power : R) : R :=
  trapz (sg_grid sigma) (map (fun x => exp (- rpow (1 / 2 * x ^ 2) power)) (sg_grid sigma)).
Definition instrument_supergaussian (x sigma power : R) : R :=
  exp (- rpow (1 / 2 * x ^ 2 / sigma ^ 2) power) / (sg_norm sigma power * sigma).

(** instrument_function.py:467-489 *)
Definition instrument_lorentzian (x gamma : R) : R := 1 / (PI * gamma * (1 + (x / gamma) ^ 2)).

(** FromArray, instrument_function.py:344-377 *)
Definition from_array_ints (w ints : list R) : list R := map (fun y => / trapz w ints * y) ints.
Definition from_array (w ints : list R) (omega : R) : R :=
  interp (Some 0) (Some 0) w (from_array_ints w ints) omega.

(** TwinGaussian.__init__, instrument_function.py:139-152.  The first missing
    width raises, whichever it is; each side is converted on its own. *)
Definition twin_init (hbar : R) (is_energy1 is_energy2 : bool) (sigma1 sigma2 fwhm1 fwhm2 : option R) : option (R * R) :=
  match gaussian_init hbar is_energy1 sigma1 fwhm1, gaussian_init hbar is_energy2 sigma2 fwhm2 with
  | Some s1, Some s2 => Some (s1, s2)
  | _, _ => None
  end.
(** SuperGaussian.__init__ and .fwhm, instrument_function.py:212-223 *)
Definition super_init (hbar power : R) (is_energy : bool) (sigma fwhm : option R) : option (R * R) :=
  match gaussian_init hbar is_energy sigma fwhm with Some s => Some (s, power) | None => None end.
(** Lorentzian.__init__, instrument_function.py:257-259 *)
Definition lorentz_init (hbar : R) (is_energy : bool) (gamma : R) : R := if is_energy then gamma / hbar else gamma.
(** FromArray.__init__, instrument_function.py:357-368, and instrument_from_file,
    instrument_function.py:492-519: the file gives rows (shift, intensity), the
    unit of the shifts is a factor, and energies are divided by hbar. *)
Definition from_rows (unit hbar : R) (is_energy : bool) (rows : list (R * R)) : list R * list R :=
  (map (fun r => if is_energy then unit * fst r / hbar else unit * fst r) rows, map snd rows).
Definition instrument_from_file (unit hbar : R) (is_energy : bool) (rows : list (R * R)) (omega : R) : R :=
  from_array (fst (from_rows unit hbar is_energy rows)) (snd (from_rows unit hbar is_energy rows)) omega.
