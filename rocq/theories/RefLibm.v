(** A concrete math library for binary64, so that the whole model can be run inside Coq.
    It is used in examples only: theorems about [F64 m] hold for every library [m].
    The functions are Taylor series evaluated in binary64 (about 1e-13 accurate). *)
From Coq Require Import ZArith List Bool.
From Flocq Require Import IEEE754.BinarySingleNaN.
From Verif Require Import Num Float64.
Import ListNotations.

Declare Scope f64_scope.
Delimit Scope f64_scope with f64.
Local Open Scope f64_scope.
Local Notation "x + y" := (fadd x y) : f64_scope.
Local Notation "x - y" := (fsub x y) : f64_scope.
Local Notation "x * y" := (fmul x y) : f64_scope.
Local Notation "x / y" := (fdiv x y) : f64_scope.
Definition f0 : f64 := fofZ 0.
Definition f1 : f64 := fofZ 1.
Definition f2 : f64 := fofZ 2.
Definition fopp : f64 -> f64 := @Bopp 53 1024.
Definition fltb : f64 -> f64 -> bool := @Bltb 53 1024.

(** t + t*x2/(i(i+1)) + ... *)
Fixpoint trig_series (fuel : nat) (i : Z) (t x2 : f64) : f64 :=
  match fuel with
  | O => t
  | S n => t + trig_series n (i + 2)%Z (fopp (t * x2 / fofZ (i * (i + 1)))) x2
  end.
Definition ref_sin (x : f64) : f64 := trig_series 28 2 x (x * x).
Definition ref_cos (x : f64) : f64 := trig_series 28 1 f1 (x * x).
Fixpoint exp_series (fuel : nat) (i : Z) (t x : f64) : f64 :=
  match fuel with
  | O => t
  | S n => t + exp_series n (i + 1)%Z (t * x / fofZ i) x
  end.
Fixpoint squarings (n : nat) (x : f64) : f64 := match n with O => x | S m => squarings m (x * x) end.
Definition ref_exp (x : f64) : f64 := squarings 8 (exp_series 16 1 f1 (x / fofZ 256)).
(** Newton's iteration y + 2 (x - e^y)/(x + e^y) *)
Fixpoint log_newton (fuel : nat) (y x : f64) : f64 :=
  match fuel with
  | O => y
  | S n => let e := ref_exp y in log_newton n (y + f2 * (x - e) / (x + e)) x
  end.
Definition ref_log (x : f64) : f64 := log_newton 12 f0 x.
Definition ref_sinh (x : f64) : f64 := (ref_exp x - ref_exp (fopp x)) / f2.
Definition ref_cosh (x : f64) : f64 := (ref_exp x + ref_exp (fopp x)) / f2.
Fixpoint atan_series (fuel : nat) (i : Z) (t x2 : f64) : f64 :=
  match fuel with
  | O => f0
  | S n => t / fofZ i + atan_series n (i + 2)%Z (fopp (t * x2)) x2
  end.
Fixpoint atan_halve (n : nat) (x : f64) : f64 :=
  match n with O => atan_series 14 1 x (x * x) | S m => f2 * atan_halve m (x / (f1 + fsqrt (f1 + x * x))) end.
Definition ref_atan (x : f64) : f64 := atan_halve 3 x.

Definition ref_cmul (c d : cpx f64) : cpx f64 :=
  Cx (re c * re d - im c * im d) (re c * im d + im c * re d).
Definition ref_cdiv (c d : cpx f64) : cpx f64 :=
  let n := re d * re d + im d * im d in
  Cx ((re c * re d + im c * im d) / n) ((im c * re d - re c * im d) / n).
Definition ref_cabs (c : cpx f64) : f64 := fsqrt (re c * re c + im c * im c).
Definition ref_csqrt (c : cpx f64) : cpx f64 :=
  let m := ref_cabs c in
  let p := fsqrt ((m + @Babs 53 1024 (re c)) / f2) in
  if @Beqb 53 1024 p f0 then Cx f0 (im c)
  else
    let q := @Babs 53 1024 (im c) / (f2 * p) in
    let '(a, b) := if fltb (re c) f0 then (q, p) else (p, q) in
    Cx a (if @Bltb 53 1024 (im c) f0 then fopp b else b).
Definition ref_polar (rho theta : f64) : option (cpx f64) :=
  Some (Cx (rho * ref_cos theta) (rho * ref_sin theta)).

Definition ref_libm : libm := {|
  lm_sin := ref_sin; lm_cos := ref_cos; lm_tan := fun x => ref_sin x / ref_cos x; lm_atan := ref_atan;
  lm_exp := ref_exp; lm_log := ref_log; lm_sinh := ref_sinh; lm_cosh := ref_cosh;
  lm_pow := fun x y => ref_exp (y * ref_log x);
  lm_cmul := ref_cmul; lm_cdiv := ref_cdiv; lm_csqrt := ref_csqrt; lm_cabs := ref_cabs;
  lm_polar := ref_polar |}.
Definition D : num := F64 ref_libm.

(** floor (x * 10^6), to compare results *)
Definition micro (x : f64) : option Z :=
  if is_finite x then Some (Btrunc (x * fofZ 1000000)) else None.
