(** Specification: Chebyshev low and high pass filters designed in binary64. *)
From Coq Require Import ZArith List Bool Reals.
From Flocq Require Import IEEE754.BinarySingleNaN.
From Verif Require Import Num Biquad Float64 DblSpec BwDblSpec ChCoefSpec.
Local Open Scope R_scope.

(** a library function with relative error d *)
Definition lib_rel (fn : f64 -> f64) (g : R -> R) (lo hi d : R) : Prop :=
  forall x : f64, is_finite x = true -> lo <= B2R x <= hi -> is_finite (fn x) = true /\ Rabs (B2R (fn x) - g (B2R x)) <= d * Rabs (g (B2R x)).
(** sin, cos: absolute error 2^-50; log: absolute error 2^-49 (values up to 12.5); exp, sinh, cosh: relative error 2^-50 *)
Definition libm_cheb (m : libm) : Prop :=
  lib_close (lm_sin m) sin (-4) 4 (/ 2 ^ 50) /\ lib_close (lm_cos m) cos (-4) 4 (/ 2 ^ 50) /\
  lib_close (lm_log m) ln 1 (2 ^ 18) (/ 2 ^ 49) /\ lib_rel (lm_exp m) exp (-8) 24 (/ 2 ^ 50) /\
  lib_rel (lm_sinh m) sinh (/ 2 ^ 10) 13 (/ 2 ^ 50) /\ lib_rel (lm_cosh m) cosh (/ 2 ^ 10) 13 (/ 2 ^ 50).
(** 2^-35 / (1 - 2 f) *)
Definition ch_error (f : R) : R := / 2 ^ 35 / (1 - 2 * f).
(** pass band ripple from 1/64 to 24 dB, stop band rejection from 1 to 80 dB *)
Definition ch_db_ok (second : bool) (db : R) : Prop := if second then 1 <= db <= 80 else 1 / 64 <= db <= 24.
(** the range of cutoffs: 2^-11 to 1/2 - 2^-8 *)
Definition ch_cut_ok (f : R) : Prop := / 2 ^ 11 <= f <= 1 / 2 - / 2 ^ 8.
