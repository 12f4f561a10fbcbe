(** Specification: coefficients of Butterworth shelves, exactly and in binary64. *)
From Coq Require Import ZArith List Bool Reals.
From Coquelicot Require Import Coquelicot.
From Flocq Require Import IEEE754.BinarySingleNaN.
From Verif Require Import Num Biquad Float64 DblSpec BwDblSpec ChainSpec ChCoefSpec ChDblSpec ChScaleSpec.
Import ListNotations.
Local Open Scope R_scope.

(** a factor 1 + c1 z^-1 + c2 z^-2 with roots at the images of a pair of analogue points with real part x and squared modulus m, under
    z = (1 + u s)/(1 - u s) with u = t (low shelf) or z = -(1 + u s)/(1 - u s) with u = 1/t (high shelf) *)
Definition bl_pair (hs : bool) (t x m : R) : R * R :=
  let u := if hs then / t else t in
  let z := if hs then -1 else 1 in
  let d := 1 - 2 * u * x + u ^ 2 * m in
  (2 * z * (u ^ 2 * m - 1) / d, (1 + 2 * u * x + u ^ 2 * m) / d).
(** and 1 + c1 z^-1 for a real point *)
Definition bl_one (hs : bool) (t x : R) : R :=
  let u := if hs then / t else t in
  let z := if hs then -1 else 1 in
  z * (- 1 - u * x) / (1 - u * x).

(** radius of the zeros, inverse radius of the poles: the 2n-th root of the gain *)
Definition sh_g (n : nat) (gain : R) : R := Rpower 10 (gain / 20 / (2 * INR n)).
(** section i before the scale factor is applied: poles e^(i phi) / g and zeros g e^(i phi) at the Butterworth angles, cos phi = - sin a;
    an odd order ends with the pole -1/g and the zero -g *)
Definition sh_ideal (hs : bool) (f gain : R) (n i : nat) : ideal :=
  let t := tan (PI * f) in
  let g := sh_g n gain in
  let s := sin (ch_angle n i) in
  if Nat.ltb i (n / 2)
  then let p := bl_pair hs t (- (s / g)) (/ g ^ 2) in let z := bl_pair hs t (- (s * g)) (g ^ 2) in Ideal (fst p) (snd p) 1 (fst z) (snd z)
  else Ideal (bl_one hs t (- / g)) 0 1 (bl_one hs t (- g)) 0.
(** the response is 1 at half the sampling rate (low shelf) or at 0 (high shelf) *)
Definition sh_scale (hs : bool) (f gain : R) (n : nat) : R :=
  fold_right Rmult 1 (map (fun i => peak_inv (negb hs) (sh_ideal hs f gain n i)) (seq 0 (bw_sections n))).
Definition sh_section (hs : bool) (f gain : R) (n i : nat) : ideal :=
  scaled (sh_ideal hs f gain n i) (if Nat.eqb i 0 then sh_scale hs f gain n else 1).
Definition sh_cascade (hs : bool) (f gain : R) (n : nat) : list ideal := map (sh_section hs f gain n) (seq 0 (bw_sections n)).

(** ** binary64 *)
(** std::polar for the radii and angles used by the shelves, which are negative resp. in [0, pi/2): error 2^-50 of the radius.
    (The C++ standard leaves polar of a negative radius undefined, see C16; here the library is assumed to evaluate it.) *)
Definition polar_neg (pol : f64 -> f64 -> option (cpx f64)) : Prop :=
  forall r th : f64, is_finite r = true -> is_finite th = true -> - 128 <= B2R r <= - / 128 -> 0 <= B2R th <= 2 ->
  exists z, pol r th = Some z /\ cfin z /\ Cmod (c2c z - (B2R r * cos (B2R th), B2R r * sin (B2R th))%R)%C <= Rabs (B2R r) / 2 ^ 50.
(** pow: relative error 2^-50 *)
Definition libm_bwshelf (m : libm) : Prop :=
  polar_neg (lm_polar m) /\ lib_rel (lm_pow m (fofZ 10)) (Rpower 10) (- 5) 5 (/ 2 ^ 50) /\
  forall x y : f64, is_finite x = true -> is_finite y = true -> / 2 ^ 16 <= B2R x <= 2 ^ 16 -> 0 <= B2R y <= 1 ->
  is_finite (lm_pow m x y) = true /\ Rabs (B2R (lm_pow m x y) - Rpower (B2R x) (B2R y)) <= / 2 ^ 50 * Rpower (B2R x) (B2R y).
(** cutoffs from 2^-13 to 1/2 - 2^-8; -80 to 80 dB *)
Definition sh_cut_ok (f : R) : Prop := / 2 ^ 13 <= f <= 1 / 2 - / 2 ^ 8.
Definition sh_gain_ok (gain : R) : Prop := -80 <= gain <= 80.
(** 2^-44 / (1 - 2 f) *)
Definition sh_error (f : R) : R := / 2 ^ 44 / (1 - 2 * f).
Definition sh_cond (hs : bool) (f gain : R) (n : nat) : R :=
  fold_right Rplus 0 (map (fun i => peak_cond (negb hs) (sh_ideal hs f gain n i)) (seq 0 (bw_sections n))).
(** relative error bound of the scale factor *)
Definition sh_scale_error (hs : bool) (f gain : R) (n : nat) : R := 32 * INR n * sh_cond hs f gain n * sh_error f.
(** gain of the recursion of section i *)
Definition sh_gain_bound (hs : bool) (f gain : R) (n i : nat) : R :=
  let t := tan (PI * f) in
  let u := if hs then / t else t in
  let g := sh_g n gain in
  let x := u / g in
  let s := if Nat.ltb i (n / 2) then sin (ch_angle n i) else 1 in
  (1 + (1 + x ^ 2) / (2 * x * s)) ^ 2.
(** stored coefficients: those of the recursion within sh_error, the b's of the first section within the error of the scale factor,
    those of the other sections within sh_error *)
Definition sh_chain (hs : bool) (f gain : R) (n : nat) : list dsect :=
  map (fun i => DSect (sh_section hs f gain n i) (sh_gain_bound hs f gain n i) (sh_error f)
      (if Nat.eqb i 0 then sh_scale_error hs f gain n * sh_scale hs f gain n else sh_error f))
    (seq 0 (bw_sections n)).
