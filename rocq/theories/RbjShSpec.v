(** Specification: the RBJ shelves computed in binary64. *)
From Coq Require Import ZArith List Bool Reals.
From Flocq Require Import IEEE754.BinarySingleNaN.
From Verif Require Import Num Biquad RBJ Float64 DblSpec.
Local Open Scope R_scope.

(** also pow (10, .) and sinh are accurate; correct rounding would give 2^-51 and 2^-49 *)
Definition libm_shelf (m : libm) : Prop :=
  libm_close m /\ lib_close (lm_pow m (fofZ 10)) (Rpower 10) (- (5 / 8)) (5 / 8) (/ 2 ^ 50) /\
  lib_close (lm_sinh m) sinh (-1) 4 (/ 2 ^ 47).

(** Audio EQ Cookbook: shelves with gain g dB; s is the shelf slope, for the band shelf the width in octaves *)
Definition cookbook_shelf (k : rkind) (f g s : R) : ideal :=
  let w := 2 * PI * f in
  let A := Rpower 10 (g / 40) in
  let norm a0 a1 a2 b0 b1 b2 := Ideal (a1 / a0) (a2 / a0) (b0 / a0) (b1 / a0) (b2 / a0) in
  let c := cos w in
  let sq := 2 * sqrt A * (sin w / 2 * sqrt ((A + 1 / A) * (1 / s - 1) + 2)) in
  let al := sin w * sinh (ln 2 / 2 * s * w / sin w) in
  match k with
  | R_LowShelf => norm (A + 1 + (A - 1) * c + sq) (- 2 * (A - 1 + (A + 1) * c)) (A + 1 + (A - 1) * c - sq)
                       (A * (A + 1 - (A - 1) * c + sq)) (2 * A * (A - 1 - (A + 1) * c)) (A * (A + 1 - (A - 1) * c - sq))
  | R_HighShelf => norm (A + 1 - (A - 1) * c + sq) (2 * (A - 1 - (A + 1) * c)) (A + 1 - (A - 1) * c - sq)
                       (A * (A + 1 + (A - 1) * c + sq)) (- 2 * A * (A - 1 + (A + 1) * c)) (A * (A + 1 + (A - 1) * c - sq))
  | _ => norm (1 + al / A) (- 2 * c) (1 - al / A) (1 + al * A) (- 2 * c) (1 - al * A)
  end.
(** gains of at most 24 dB; slopes from 1/16 to 1; widths from 1/64 octave, but not so wide that the digital width
    (s w / sin w) exceeds 11 octaves *)
Definition shelf_args (k : rkind) (f g s : R) : Prop :=
  0 < f < 1 / 2 /\ -24 <= g <= 24 /\
  match k with
  | R_LowShelf | R_HighShelf => 1 / 16 <= s <= 1
  | R_BandShelf => / 2 ^ 15 <= f /\ 1 / 64 <= s /\ s * (2 * PI * f) <= 11 * sin (2 * PI * f)
  | _ => False
  end.
(** the stored coefficients are this close to given ones: feedback and feedforward part *)
Definition shelf_near {m} (b : biquad (F64 m)) (i : ideal) : Prop :=
  Rabs (B2R (m_a1 b : f64) - i_a1 i) <= / 2 ^ 36 /\ Rabs (B2R (m_a2 b : f64) - i_a2 i) <= / 2 ^ 36 /\
  Rabs (B2R (m_b0 b : f64) - i_b0 i) <= / 2 ^ 33 /\ Rabs (B2R (m_b1 b : f64) - i_b1 i) <= / 2 ^ 33 /\ Rabs (B2R (m_b2 b : f64) - i_b2 i) <= / 2 ^ 33.
(** output error for inputs in [-X, X], if G bounds the gain of the ideal recursion *)
Definition shelf_error (G X : R) : R := G ^ 2 * (X / 2 ^ 27 + / 2 ^ 1050).
