(** Specification: comparing binary64 signals. *)
From Coq Require Import ZArith List Bool Reals.
From Flocq Require Import IEEE754.BinarySingleNaN.
From Verif Require Import Num Biquad Float64.
Import ListNotations.

(** equal under ==, or both NaN *)
Definition f_same (x y : f64) : Prop := Beqb x y = true \/ (x = B754_nan /\ y = B754_nan).
Definition is_zero (x : f64) : Prop := exists s, x = B754_zero s.
Definition is_fin (x : f64) : Prop := is_finite x = true.
(** every coefficient is a finite number *)
Definition fin_coeffs {m} (b : biquad (F64 m)) : Prop :=
  is_fin (m_a1 b) /\ is_fin (m_a2 b) /\ is_fin (m_b0 b) /\ is_fin (m_b1 b) /\ is_fin (m_b2 b).
(** b0 == 1, and the others == 0 *)
Definition identity_coeffs {m} (b : biquad (F64 m)) : Prop :=
  B2R (m_b0 b) = 1%R /\ is_zero (m_b1 b) /\ is_zero (m_b2 b) /\ is_zero (m_a1 b) /\ is_zero (m_a2 b).
