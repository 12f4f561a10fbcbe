(** Specification: RBJ designs computed in binary64. *)
From Coq Require Import ZArith List Bool Reals.
From Flocq Require Import IEEE754.BinarySingleNaN.
From Verif Require Import Num Biquad RBJ Float64.
Local Open Scope R_scope.

(** the library functions return a number within e of the true value *)
Definition lib_close (fn : f64 -> f64) (g : R -> R) (lo hi e : R) : Prop :=
  forall x : f64, is_finite x = true -> lo <= B2R x <= hi -> is_finite (fn x) = true /\ Rabs (B2R (fn x) - g (B2R x)) <= e.
(** sin, cos and exp are off by at most 2^-50 (correct rounding would give 2^-54 for sin and cos) *)
Definition libm_close (m : libm) : Prop :=
  lib_close (lm_sin m) sin (-4) 4 (/ 2 ^ 50) /\ lib_close (lm_cos m) cos (-4) 4 (/ 2 ^ 50) /\
  lib_close (lm_exp m) exp (-128) 1 (/ 2 ^ 50).

(** coefficients of a section, divided by a0 *)
Record ideal := Ideal { i_a1 : R; i_a2 : R; i_b0 : R; i_b1 : R; i_b2 : R }.
(** Audio EQ Cookbook; the notch with its poles at radius exp (- pi f / q) is the library's own.
    The three shelves are not covered. *)
Definition no_shelf (k : rkind) : Prop := k <> R_LowShelf /\ k <> R_HighShelf /\ k <> R_BandShelf.
Definition cookbook (k : rkind) (f q : R) : ideal :=
  let w := 2 * PI * f in
  let al := sin w / (2 * q) in
  let norm a0 a1 a2 b0 b1 b2 := Ideal (a1 / a0) (a2 / a0) (b0 / a0) (b1 / a0) (b2 / a0) in
  let on := norm (1 + al) (- 2 * cos w) (1 - al) in
  match k with
  | R_LowPass => on ((1 - cos w) / 2) (1 - cos w) ((1 - cos w) / 2)
  | R_HighPass => on ((1 + cos w) / 2) (- (1 + cos w)) ((1 + cos w) / 2)
  | R_BandPass1 => on (sin w / 2) 0 (- (sin w / 2))
  | R_BandPass2 => on al 0 (- al)
  | R_BandStop => on 1 (- 2 * cos w) 1
  | R_AllPass => on (1 - al) (- 2 * cos w) (1 + al)
  | _ => Ideal (- 2 * exp (- (PI * f) / q) * cos w) (exp (- (PI * f) / q) ^ 2) 1 (- 2 * cos w) 1
  end.
(** the stored coefficients differ from these by at most e *)
Definition coefs_near {m} (b : biquad (F64 m)) (i : ideal) (e : R) : Prop :=
  Rabs (B2R (m_a1 b : f64) - i_a1 i) <= e /\ Rabs (B2R (m_a2 b : f64) - i_a2 i) <= e /\
  Rabs (B2R (m_b0 b : f64) - i_b0 i) <= e /\ Rabs (B2R (m_b1 b : f64) - i_b1 i) <= e /\ Rabs (B2R (m_b2 b : f64) - i_b2 i) <= e.
(** 2^-46 (1 + 1/q) *)
Definition design_error (q : R) : R := (1 + / q) / 2 ^ 46.
(** G^2 (2^-36 (1 + 1/q) X + 2^-1050): bound on the output error for inputs in [-X, X], if G bounds the gain of the ideal recursion *)
Definition output_error (q G X : R) : R := G ^ 2 * ((1 + / q) * X / 2 ^ 36 + / 2 ^ 1050).
(** a gain bound for the recursion of the ideal filter, from the radius of its complex poles (q >= 1/2) *)
Definition ideal_gain (k : rkind) (f q : R) : R :=
  match k with R_IIRNotch => (1 + q / (PI * f)) ^ 2 | _ => (1 + 2 * q / sin (2 * PI * f)) ^ 2 end.
