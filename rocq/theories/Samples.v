(** /repo/iir/Cascade.h:156-164 and /repo/iir/RBJ.h:70-73: filter with sample types other than double.
    [None] as result of a conversion is undefined behaviour ([conv.fpint], [conv.double]). *)
From Coq Require Import ZArith List Bool.
From Flocq Require Import IEEE754.BinarySingleNaN.
From Verif Require Import Num Outcome Biquad State Cascade RBJ Float64.
Import ListNotations.

(** static_cast from double (Cascade.h:163, RBJ.h:72) to an integer type with values lo ... hi: drops the
    fraction, undefined if the result is not a value of the type *)
Definition f_to_integer (lo hi : Z) (y : f64) : option Z :=
  if is_finite y then
    let z := Btrunc y in
    if (Z.leb lo z && Z.leb z hi)%bool then Some z else None
  else None.

(** float *)
Definition f32 : Type := binary_float 24 128.
Definition Hprec32 : FLX.Prec_gt_0 24 := eq_refl.
Definition Hemax32 : Prec_lt_emax 24 128 := eq_refl.
(** FLT_MAX = (2^24 - 1) * 2^104 as a double *)
Definition flt_max : f64 := fnorm 16777215 104.
(** conversion to double, always exact (Cascade.h:159, RBJ.h:72) *)
Definition f_of_float (x : f32) : f64 :=
  match x with
  | B754_zero s => B754_zero s
  | B754_infinity s => B754_infinity s
  | B754_nan => B754_nan
  | B754_finite s m e _ => fnorm (SpecFloat.cond_Zopp s (Zpos m)) e
  end.
(** static_cast<float> (Cascade.h:163, RBJ.h:72): rounds to nearest; undefined beyond +-FLT_MAX *)
Definition f_to_float (y : f64) : option f32 :=
  match y with
  | B754_zero s => Some (B754_zero s)
  | B754_infinity s => Some (B754_infinity s)
  | B754_nan => Some B754_nan
  | B754_finite s m e _ =>
      if Bleb (Babs y) flt_max
      then Some (@binary_normalize 24 128 Hprec32 Hemax32 mode_NE (SpecFloat.cond_Zopp s (Zpos m)) e s)
      else None
  end.

Section Samples.
  Variable m : libm.
  (** Sample = an integer type whose values convert to double as fofZ does *)
  Definition smp_int (lo hi : Z) : sample (F64 m) :=
    {| smp := Z; smp_in := (fofZ : Z -> T (F64 m)); smp_out := (f_to_integer lo hi : T (F64 m) -> option Z) |}.
  (** Sample = float *)
  Definition smp_float : sample (F64 m) :=
    {| smp := f32; smp_in := (f_of_float : f32 -> T (F64 m)); smp_out := (f_to_float : T (F64 m) -> option f32) |}.
  (** Sample = double *)
  Definition smp_double : sample (F64 m) :=
    {| smp := f64; smp_in := (fun x => x : T (F64 m)); smp_out := (fun y : T (F64 m) => Some (y : f64)) |}.
End Samples.

Section Runs.
  Context {N : num}.
  (** RBJ.h:70-73 *)
  Definition rbj_filter_as (S : sample N) (x : smp S) : M (rbj N) (smp S) :=
    fun r => let '(r', y) := rbj_filter r (smp_in S x) in
             match smp_out S y with Some z => Ok r' z | None => UB end.
  (** a caller's loop of filter calls *)
  Fixpoint run_as {St A B : Type} (f : A -> M St B) (xs : list A) : M St (list B) :=
    match xs with
    | [] => ret []
    | x :: xs' => do y <- f x; do ys <- run_as f xs'; ret (y :: ys)
    end.
End Runs.
