(** The arithmetic the code runs on, as a parameter of the whole model.

    iir1 computes with C++ [double], [std::complex<double>] and the C math library.
    [num] bundles these operations.  It contains functions only, no laws: a theorem
    quantified over [N : num] holds for IEEE-754 doubles with any math library. *)
From Coq Require Import ZArith List Bool.
Import ListNotations.

(** std::complex<T>; /repo/iir/MathSupplement.h:56 *)
Record cpx (A : Type) : Type := Cx { re : A; im : A }.
Arguments Cx {A} _ _.
Arguments re {A} _.
Arguments im {A} _.

Record num : Type := MkNum {
  T : Type;                              (* double *)
  nadd : T -> T -> T;                    (* x + y *)
  nsub : T -> T -> T;                    (* x - y *)
  nmul : T -> T -> T;                    (* x * y *)
  ndiv : T -> T -> T;                    (* x / y *)
  nopp : T -> T;                         (* -x *)
  nabs : T -> T;                         (* fabs *)
  nsqrt : T -> T;
  nsin : T -> T;
  ncos : T -> T;
  ntan : T -> T;
  natan : T -> T;
  nexp : T -> T;
  nlog : T -> T;
  nsinh : T -> T;
  ncosh : T -> T;
  npow : T -> T -> T;
  neqb : T -> T -> bool;                 (* x == y *)
  nltb : T -> T -> bool;                 (* x < y *)
  nleb : T -> T -> bool;                 (* x <= y *)
  nofZ : Z -> T;                         (* int literal, int -> double *)
  nlit : Z -> positive -> T;             (* decimal literal p/q, e.g. 0.1 = 1/10 *)
  npi : T;                               (* doublePi,   MathSupplement.h:51 *)
  npi_2 : T;                             (* doublePi_2, MathSupplement.h:52 *)
  nln2 : T;                              (* doubleLn2,  MathSupplement.h:53 *)
  nln10 : T;                             (* doubleLn10, MathSupplement.h:54 *)
  ninf : T;                              (* numeric_limits<double>::infinity() *)
  ncmul : cpx T -> cpx T -> cpx T;       (* complex * complex *)
  ncdiv : cpx T -> cpx T -> cpx T;       (* complex / complex *)
  ncsqrt : cpx T -> cpx T;               (* std::sqrt(complex) *)
  ncabs : cpx T -> T;                    (* std::abs(complex) *)
  npolar : T -> T -> option (cpx T)      (* std::polar(rho, theta); None: precondition violated *)
}.

Declare Scope num_scope.
Delimit Scope num_scope with num.

Section Derived.
  Context {N : num}.

  Definition nneqb (x y : T N) : bool := negb (neqb N x y).      (* x != y *)
  Definition ngtb (x y : T N) : bool := nltb N y x.              (* x > y *)
  Definition ngeb (x y : T N) : bool := nleb N y x.              (* x >= y *)
  Definition n0 : T N := nofZ N 0.
  Definition n1 : T N := nofZ N 1.
  Definition n2 : T N := nofZ N 2.

  (** MathSupplement.h:79-83 [is_nan(Ty v)] is [!(v == v)] *)
  Definition is_nan (v : T N) : bool := negb (neqb N v v).
  (** MathSupplement.h:85-89 [is_nan<complex_t>] *)
  Definition c_is_nan (v : cpx (T N)) : bool := is_nan (re v) || is_nan (im v).

  (** complex_t (x): real number to complex *)
  Definition c_of (x : T N) : cpx (T N) := Cx x n0.
  (** MathSupplement.h:59-62 [infinity()] *)
  Definition c_inf : cpx (T N) := c_of (ninf N).
  (** std::conj *)
  Definition c_conj (c : cpx (T N)) : cpx (T N) := Cx (re c) (nopp N (im c)).
  (** std::norm: re*re + im*im *)
  Definition c_norm (c : cpx (T N)) : T N := nadd N (nmul N (re c) (re c)) (nmul N (im c) (im c)).
  (** operator== (complex, complex) *)
  Definition c_eqb (c d : cpx (T N)) : bool := neqb N (re c) (re d) && neqb N (im c) (im d).
  (** operator== (complex, double) *)
  Definition c_eqb_r (c : cpx (T N)) (x : T N) : bool := neqb N (re c) x && neqb N (im c) n0.
  (** unary minus *)
  Definition c_opp (c : cpx (T N)) : cpx (T N) := Cx (nopp N (re c)) (nopp N (im c)).
  (** double + complex, complex + double, complex += double (component form of libstdc++) *)
  Definition c_addr (c : cpx (T N)) (x : T N) : cpx (T N) := Cx (nadd N (re c) x) (im c).
  (** complex - double *)
  Definition c_subr (c : cpx (T N)) (x : T N) : cpx (T N) := Cx (nsub N (re c) x) (im c).
  (** double - complex *)
  Definition c_rsub (x : T N) (c : cpx (T N)) : cpx (T N) := Cx (nsub N x (re c)) (nopp N (im c)).
  (** double * complex, complex *= double *)
  Definition c_scale (x : T N) (c : cpx (T N)) : cpx (T N) := Cx (nmul N (re c) x) (nmul N (im c) x).
  (** complex / double *)
  Definition c_divr (c : cpx (T N)) (x : T N) : cpx (T N) := Cx (ndiv N (re c) x) (ndiv N (im c) x).
  (** MathSupplement.h:64-71 [addmul] *)
  Definition addmul (c : cpx (T N)) (v : T N) (c1 : cpx (T N)) : cpx (T N) :=
    Cx (nadd N (re c) (nmul N v (re c1))) (nadd N (im c) (nmul N v (im c1))).
  (** MathSupplement.h:73-77 [asinh] (namespace Iir, hides ::asinh) *)
  Definition iir_asinh (x : T N) : T N :=
    nlog N (nadd N x (nsqrt N (nadd N (nmul N x x) n1))).
End Derived.

Notation "x + y" := (nadd _ x y) : num_scope.
Notation "x - y" := (nsub _ x y) : num_scope.
Notation "x * y" := (nmul _ x y) : num_scope.
Notation "x / y" := (ndiv _ x y) : num_scope.
Notation "- x" := (nopp _ x) : num_scope.
Notation "# z" := (nofZ _ z%Z) (at level 1, z at level 0, format "# z") : num_scope.
