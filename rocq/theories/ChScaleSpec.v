(** Specification: the scale factor of Chebyshev low and high pass filters in binary64, and the ideal filters. *)
From Coq Require Import ZArith List Bool Reals.
From Flocq Require Import IEEE754.BinarySingleNaN.
From Verif Require Import Num Biquad Float64 DblSpec BwDblSpec ChainSpec ChCoefSpec ChDblSpec.
Import ListNotations.
Local Open Scope R_scope.

(** pow (10, x): relative error 2^-50 for -2 <= x <= 0 *)
Definition libm_pow10 (m : libm) : Prop := lib_rel (lm_pow m (fofZ 10)) (Rpower 10) (-2) 0 (/ 2 ^ 50).
(** denominator and numerator of a section at z = 1 or z = -1: the sum of their inverses *)
Definition peak_cond (hp : bool) (d : ideal) : R :=
  let z := if hp then -1 else 1 in / (1 + z * i_a1 d + i_a2 d) + / (i_b0 d + z * i_b1 d + i_b2 d).
Definition ch_cond (second hp : bool) (f db : R) (n : nat) : R :=
  fold_right Rplus 0 (map (fun i => peak_cond hp (ch_ideal second hp f db n i)) (seq 0 (bw_sections n))).
(** relative error bound of the scale factor *)
Definition ch_scale_error (second hp : bool) (f db : R) (n : nat) : R := 16 * INR n * ch_cond second hp f db n * ch_error f.

Definition ch_section (second hp : bool) (f db : R) (n i : nat) : ideal :=
  scaled (ch_ideal second hp f db n i) (if Nat.eqb i 0 then ch_scale second hp f db n else 1).
Definition ch_cascade (second hp : bool) (f db : R) (n : nat) : list ideal := map (ch_section second hp f db n) (seq 0 (bw_sections n)).
(** gain of the recursion of section i: (1 + (1 + u^2 m) / (2 u g))^2 for poles -g +- ... of squared modulus m, u = t or 1/t *)
Definition ch_gain_bound (second hp : bool) (f db : R) (n i : nat) : R :=
  let t := tan (PI * f) in
  let u := if hp then / t else t in
  let v := ch_width second n db in
  let a := ch_angle n i in
  let s := sinh v * sin a in
  let m := s ^ 2 + (cosh v * cos a) ^ 2 in
  if Nat.ltb i (n / 2)
  then if second then (1 + (1 + u ^ 2 * / m) / (2 * u * (s / m))) ^ 2 else (1 + (1 + u ^ 2 * m) / (2 * u * s)) ^ 2
  else let x := u * (if second then / sinh v else sinh v) in (1 + (1 + x ^ 2) / (2 * x)) ^ 2.
(** stored coefficients: the a's within ch_error, the b's of the first section within the error of the scale factor, those of the
    other sections within ch_error / 64 for type II and exact for type I *)
Definition ch_chain (second hp : bool) (f db : R) (n : nat) : list dsect :=
  map (fun i => DSect (ch_section second hp f db n i) (ch_gain_bound second hp f db n i) (ch_error f)
      (if Nat.eqb i 0 then ch_scale_error second hp f db n * ch_scale second hp f db n else if second then ch_error f / 64 else 0))
    (seq 0 (bw_sections n)).
