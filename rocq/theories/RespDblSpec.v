(** Specification: the value of response () in binary64, against the frequency response of cascades with real coefficients. *)
From Coq Require Import ZArith List Bool Reals.
From Coquelicot Require Import Coquelicot.
From Flocq Require Import IEEE754.BinarySingleNaN.
From Verif Require Import Num Biquad Float64 FloatSpec SigSpec DblSpec BwDblSpec.
Import ListNotations.
Local Open Scope R_scope.

(** 1/z on the unit circle at the normalised frequency f: e^(-2 pi i f) *)
Definition z_inv (f : R) : C := cis (- (2 * PI * f)).
(** numerator and denominator of a section *)
Definition i_num (f : R) (d : ideal) : C := poly2 (i_b0 d) (i_b1 d) (i_b2 d) (z_inv f).
Definition i_den (f : R) (d : ideal) : C := poly2 1 (i_a1 d) (i_a2 d) (z_inv f).
Definition i_resp (ds : list ideal) (f : R) : C :=
  (cprod (map (i_num f) ds) / cprod (map (i_den f) ds))%C.
(** sums of the absolute values of the coefficients *)
Definition num_abs (d : ideal) : R := Rabs (i_b0 d) + Rabs (i_b1 d) + Rabs (i_b2 d).
Definition den_abs (d : ideal) : R := 1 + Rabs (i_a1 d) + Rabs (i_a2 d).
(** their products over the modulus of the denominator: condition number of the denominator, and a bound on the response *)
Definition i_cond (ds : list ideal) (f : R) : R :=
  fold_right Rmult 1 (map den_abs ds) / Cmod (cprod (map (i_den f) ds)).
Definition i_level (ds : list ideal) (f : R) : R :=
  fold_right Rmult 1 (map num_abs ds) / Cmod (cprod (map (i_den f) ds)).
(** (n + 1) (32 e + 2^-42) *)
Definition resp_rel (e : R) (n : nat) : R := INR (S n) * (32 * e + / 2 ^ 42).
Definition resp_error (e : R) (ds : list ideal) (f : R) : R := resp_rel e (length ds) * i_cond ds f * i_level ds f + / 2 ^ 300.

(** the coefficients as stored *)
Definition stored {m} (b : biquad (F64 m)) : ideal :=
  Ideal (B2R (m_a1 b : f64)) (B2R (m_a2 b : f64)) (B2R (m_b0 b : f64)) (B2R (m_b1 b : f64)) (B2R (m_b2 b : f64)).
(** finite coefficients within e of the section d, those of the numerator relative to their size; a0 not extreme *)
Definition near_section {m} (e : R) (b : biquad (F64 m)) (d : ideal) : Prop :=
  is_finite (m_a0 b : f64) = true /\ / 2 ^ 100 <= Rabs (B2R (m_a0 b : f64)) <= 2 ^ 100 /\
  is_finite (m_a1 b : f64) = true /\ is_finite (m_a2 b : f64) = true /\
  is_finite (m_b0 b : f64) = true /\ is_finite (m_b1 b : f64) = true /\ is_finite (m_b2 b : f64) = true /\
  Rabs (B2R (m_a1 b : f64) - i_a1 d) <= e /\ Rabs (B2R (m_a2 b : f64) - i_a2 d) <= e /\
  Rabs (B2R (m_b0 b : f64) - i_b0 d) <= e * num_abs d /\ Rabs (B2R (m_b1 b : f64) - i_b1 d) <= e * num_abs d /\
  Rabs (B2R (m_b2 b : f64) - i_b2 d) <= e * num_abs d /\
  num_abs d <= 256 /\ den_abs d <= 256.

(** finite coefficients, a0 not extreme, no coefficient large *)
Definition tame_coeffs {m} (b : biquad (F64 m)) : Prop :=
  fin_coeffs b /\ is_finite (m_a0 b : f64) = true /\ / 2 ^ 100 <= Rabs (B2R (m_a0 b : f64)) <= 2 ^ 100 /\
  num_abs (stored b) <= 256 /\ den_abs (stored b) <= 256.
