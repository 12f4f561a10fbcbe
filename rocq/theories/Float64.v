(** IEEE-754 binary64 as an instance of [num] (Flocq's formalisation with one NaN), round to
    nearest even.  sqrt is the IEEE operation; the other library functions and the complex
    operations, whose results the language does not fix, are an arbitrary [libm].

    Not modelled: NaN payloads, contraction of a*b+c to a fused operation, extended
    precision, changed rounding modes, -ffast-math. *)
From Coq Require Import ZArith List Bool.
From Flocq Require Import IEEE754.BinarySingleNaN.
From Verif Require Import Num.
Import ListNotations.

Definition f64 : Type := binary_float 53 1024.

Definition Hprec64 : FLX.Prec_gt_0 53 := eq_refl.
Definition Hemax64 : Prec_lt_emax 53 1024 := eq_refl.

Definition fadd : f64 -> f64 -> f64 := @Bplus 53 1024 Hprec64 Hemax64 mode_NE.
Definition fsub : f64 -> f64 -> f64 := @Bminus 53 1024 Hprec64 Hemax64 mode_NE.
Definition fmul : f64 -> f64 -> f64 := @Bmult 53 1024 Hprec64 Hemax64 mode_NE.
Definition fdiv : f64 -> f64 -> f64 := @Bdiv 53 1024 Hprec64 Hemax64 mode_NE.
Definition fsqrt : f64 -> f64 := @Bsqrt 53 1024 Hprec64 Hemax64 mode_NE.
(** m * 2^e *)
Definition fnorm (m e : Z) : f64 := @binary_normalize 53 1024 Hprec64 Hemax64 mode_NE m e false.
Definition fofZ (z : Z) : f64 := fnorm z 0.
(** every decimal literal of the library is p/q with p, q exactly representable *)
Definition flit (p : Z) (q : positive) : f64 := fdiv (fofZ p) (fofZ (Zpos q)).

Record libm : Type := MkLibm {
  lm_sin : f64 -> f64; lm_cos : f64 -> f64; lm_tan : f64 -> f64; lm_atan : f64 -> f64;
  lm_exp : f64 -> f64; lm_log : f64 -> f64; lm_sinh : f64 -> f64; lm_cosh : f64 -> f64;
  lm_pow : f64 -> f64 -> f64;
  lm_cmul : cpx f64 -> cpx f64 -> cpx f64;
  lm_cdiv : cpx f64 -> cpx f64 -> cpx f64;
  lm_csqrt : cpx f64 -> cpx f64;
  lm_cabs : cpx f64 -> f64;
  lm_polar : f64 -> f64 -> option (cpx f64)
}.

Definition F64 (m : libm) : num := {|
  T := f64;
  nadd := fadd; nsub := fsub; nmul := fmul; ndiv := fdiv;
  nopp := @Bopp 53 1024; nabs := @Babs 53 1024;
  nsqrt := fsqrt; nsin := lm_sin m; ncos := lm_cos m; ntan := lm_tan m; natan := lm_atan m;
  nexp := lm_exp m; nlog := lm_log m; nsinh := lm_sinh m; ncosh := lm_cosh m; npow := lm_pow m;
  neqb := @Beqb 53 1024; nltb := @Bltb 53 1024; nleb := @Bleb 53 1024;
  nofZ := fofZ;
  nlit := flit;
  npi := fnorm 7074237752028440 (-51);       (* 0x400921FB54442D18 *)
  npi_2 := fnorm 7074237752028440 (-52);
  nln2 := fnorm 6243314768165359 (-53);      (* 0x3FE62E42FEFA39EF *)
  nln10 := fnorm 5184960683398422 (-51);     (* 0x40026BB1BBB55516 *)
  ninf := B754_infinity false;
  ncmul := lm_cmul m; ncdiv := lm_cdiv m; ncsqrt := lm_csqrt m; ncabs := lm_cabs m;
  npolar := lm_polar m
|}.

