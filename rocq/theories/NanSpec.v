(** Specification: NaN and infinities in binary64. *)
From Flocq Require Import IEEE754.BinarySingleNaN.
From Verif Require Import Float64 FloatSpec.

Definition fnan (x : f64) : Prop := x = B754_nan.
Definition finf (x : f64) : Prop := exists s, x = B754_infinity s.
(** 0/0 or inf/inf *)
Definition div_nan (x y : f64) : Prop := (is_zero x /\ is_zero y) \/ (finf x /\ finf y).
