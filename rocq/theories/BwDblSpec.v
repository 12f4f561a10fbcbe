(** Specification: Butterworth low and high pass filters designed in binary64. *)
From Coq Require Import ZArith List Bool Reals.
From Coquelicot Require Import Coquelicot.
From Flocq Require Import IEEE754.BinarySingleNaN.
From Verif Require Import Num Exact Biquad Float64 DblSpec.
Import ListNotations.
Local Open Scope R_scope.

Definition c2c (c : cpx f64) : C := (B2R (re c), B2R (im c)).
Definition cfin (c : cpx f64) : Prop := is_finite (re c) = true /\ is_finite (im c) = true.

(** what is asked of the mathematical library.
    tan: relative error 2^-50 between 2^-15 and pi/2 - 2^-15 *)
Definition tan_close (fn : f64 -> f64) : Prop :=
  forall x : f64, is_finite x = true -> / 2 ^ 15 <= B2R x <= PI / 2 - / 2 ^ 15 ->
  is_finite (fn x) = true /\ Rabs (B2R (fn x) - tan (B2R x)) <= tan (B2R x) / 2 ^ 50.
(** std::polar (1, theta): within 2^-50 of e^(i theta) *)
Definition polar_close (pol : f64 -> f64 -> option (cpx f64)) : Prop :=
  forall th : f64, is_finite th = true -> Rabs (B2R th) <= 7 ->
  exists c, pol (fofZ 1) th = Some c /\ cfin c /\ Cmod (c2c c - (cos (B2R th), sin (B2R th)))%C <= / 2 ^ 50.
(** complex division: error at most 2^-48 of the absolute value of the quotient; the quotient of two real numbers is real *)
Definition cdiv_close (div : cpx f64 -> cpx f64 -> cpx f64) : Prop :=
  forall a b, cfin a -> cfin b -> Cmod (c2c a) <= 2 ^ 400 -> / 2 ^ 400 <= Cmod (c2c b) <= 2 ^ 400 ->
  cfin (div a b) /\ Cmod (c2c (div a b) - c2c a / c2c b)%C <= Cmod (c2c a) / Cmod (c2c b) / 2 ^ 48 + / 2 ^ 900 /\
  (B2R (im a) = 0 -> B2R (im b) = 0 -> B2R (im (div a b)) = 0).
(** complex multiplication and absolute value: relative error 2^-48 *)
Definition cmul_close (mul : cpx f64 -> cpx f64 -> cpx f64) : Prop :=
  forall a b, cfin a -> cfin b -> Cmod (c2c a) <= 2 ^ 400 -> Cmod (c2c b) <= 2 ^ 400 ->
  cfin (mul a b) /\ Cmod (c2c (mul a b) - c2c a * c2c b)%C <= Cmod (c2c a) * Cmod (c2c b) / 2 ^ 48 + / 2 ^ 900.
Definition cabs_close (fn : cpx f64 -> f64) : Prop :=
  forall a, cfin a -> Cmod (c2c a) <= 2 ^ 400 ->
  is_finite (fn a) = true /\ Rabs (B2R (fn a) - Cmod (c2c a)) <= Cmod (c2c a) / 2 ^ 48 + / 2 ^ 900.
Definition libm_response (m : libm) : Prop := cmul_close (lm_cmul m) /\ cabs_close (lm_cabs m).
Definition libm_design (m : libm) : Prop := tan_close (lm_tan m) /\ polar_close (lm_polar m) /\ cdiv_close (lm_cdiv m).

(** poles of the normalised analogue Butterworth filter of order n: e^(i theta), left of the imaginary axis *)
Definition bw_angle (n i : nat) : R := PI / 2 + (2 * INR i + 1) * PI / (2 * INR n).
(** section i of the filter with cutoff f before the scale factor is applied: z = (1 + t s)/(1 - t s) with
    t = tan (pi f) for each conjugate pair of poles s; an odd order ends with a first order section for s = -1.
    The zeros are at -1 (low pass) or 1 (high pass). *)
Definition bw_ideal (hp : bool) (f : R) (n i : nat) : ideal :=
  let t := tan (PI * f) in
  let z := if hp then -1 else 1 in
  if Nat.ltb i (n / 2)
  then let c := cos (bw_angle n i) in
       let d := 1 + t ^ 2 - 2 * t * c in
       Ideal (2 * (t ^ 2 - 1) / d) ((1 + t ^ 2 + 2 * t * c) / d) 1 (2 * z) 1
  else Ideal ((t - 1) / (t + 1)) 0 1 z 0.
(** number of sections *)
Definition bw_sections (n : nat) : nat := ((n + 1) / 2)%nat.
(** the inverse of the response of a section at z = 1 (zeros at -1) or z = -1 (zeros at 1) *)
Definition peak_inv (hp : bool) (d : ideal) : R :=
  let z := if hp then -1 else 1 in (1 + z * i_a1 d + i_a2 d) / (i_b0 d + z * i_b1 d + i_b2 d).
(** the scale factor of the first section: response 1 at frequency 0 (low pass) or at the Nyquist frequency (high pass) *)
Definition bw_scale (hp : bool) (f : R) (n : nat) : R :=
  fold_right Rmult 1 (map (fun i => peak_inv hp (bw_ideal hp f n i)) (seq 0 (bw_sections n))).
(** the section with the feedforward coefficients multiplied by s, as real coefficients of the exact model *)
Definition xsection {strict} (d : ideal) (s : R) : biquad (X strict) :=
  @MkBiquad (X strict) (XR 1) (XR (i_a1 d)) (XR (i_a2 d)) (XR (i_b0 d * s)) (XR (i_b1 d * s)) (XR (i_b2 d * s)).
(** 2^-44 / (1 - 2 f) *)
Definition bw_error (f : R) : R := / 2 ^ 44 / (1 - 2 * f).
(** relative error bound of the scale factor: 8 n (1 + t)^2 2^-44 / (1 - 2 f) for the high pass, with 1/t for t for the low pass *)
Definition bw_scale_error (hp : bool) (f : R) (n : nat) : R :=
  let u := if hp then tan (PI * f) else / tan (PI * f) in 8 * INR n * (1 + u) ^ 2 * bw_error f.
