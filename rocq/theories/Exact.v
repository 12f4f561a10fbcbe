(** Exact real arithmetic as an instance of [num].

    The carrier is R with infinities and a NaN.  What differs from double: no rounding, no
    overflow or underflow, doublePi, doublePi_2, doubleLn2, doubleLn10 are the mathematical
    constants, and there is one zero (it behaves like +0: x/0 is +inf for x > 0 and -inf for
    x < 0). *)
From Coq Require Import ZArith List Bool Reals.
From Verif Require Import Num.
Import ListNotations.

Inductive xreal : Type :=
| XR (r : R)
| XInf (neg : bool)
| XNaN.

Section Ops.
  Local Open Scope R_scope.

  Definition Rltb (x y : R) : bool := if Rlt_dec x y then true else false.
  Definition Rleb (x y : R) : bool := if Rle_dec x y then true else false.
  Definition Req0 (x : R) : bool := if Req_EM_T x 0 then true else false.

  Definition xopp (x : xreal) : xreal :=
    match x with XR r => XR (- r) | XInf s => XInf (negb s) | XNaN => XNaN end.
  Definition xadd (x y : xreal) : xreal :=
    match x, y with
    | XR a, XR b => XR (a + b)
    | XNaN, _ | _, XNaN => XNaN
    | XInf s, XInf t => if Bool.eqb s t then XInf s else XNaN
    | XInf s, XR _ => XInf s
    | XR _, XInf t => XInf t
    end.
  Definition xsub (x y : xreal) : xreal :=
    match x, y with
    | XR a, XR b => XR (a - b)
    | _, _ => xadd x (xopp y)
    end.
  Definition xmul (x y : xreal) : xreal :=
    match x, y with
    | XR a, XR b => XR (a * b)
    | XNaN, _ | _, XNaN => XNaN
    | XInf s, XInf t => XInf (xorb s t)
    | XInf s, XR r | XR r, XInf s => if Req0 r then XNaN else XInf (xorb s (Rltb r 0))
    end.
  Definition xdiv (x y : xreal) : xreal :=
    match x, y with
    | XR a, XR b =>
        if Req0 b then (if Req0 a then XNaN else XInf (Rltb a 0)) else XR (a / b)
    | XNaN, _ | _, XNaN => XNaN
    | XInf s, XInf t => XNaN
    | XInf s, XR r => XInf (xorb s (Rltb r 0))
    | XR r, XInf s => XR 0
    end.
  Definition xabs (x : xreal) : xreal :=
    match x with XR r => XR (Rabs r) | XInf _ => XInf false | XNaN => XNaN end.
  Definition xsqrt (x : xreal) : xreal :=
    match x with
    | XR r => if Rltb r 0 then XNaN else XR (sqrt r)
    | XInf false => XInf false
    | _ => XNaN
    end.
  Definition xsin (x : xreal) : xreal := match x with XR r => XR (sin r) | _ => XNaN end.
  Definition xcos (x : xreal) : xreal := match x with XR r => XR (cos r) | _ => XNaN end.
  (** tan at an odd multiple of pi/2 has no value *)
  Definition xtan (x : xreal) : xreal :=
    match x with XR r => if Req0 (cos r) then XNaN else XR (tan r) | _ => XNaN end.
  Definition xatan (x : xreal) : xreal :=
    match x with
    | XR r => XR (atan r)
    | XInf false => XR (PI / 2)
    | XInf true => XR (- (PI / 2))
    | XNaN => XNaN
    end.
  Definition xexp (x : xreal) : xreal :=
    match x with
    | XR r => XR (exp r) | XInf false => XInf false | XInf true => XR 0 | XNaN => XNaN
    end.
  Definition xlog (x : xreal) : xreal :=
    match x with
    | XR r => if Rltb r 0 then XNaN else if Req0 r then XInf true else XR (ln r)
    | XInf false => XInf false
    | _ => XNaN
    end.
  Definition xsinh (x : xreal) : xreal :=
    match x with XR r => XR (sinh r) | XInf s => XInf s | XNaN => XNaN end.
  Definition xcosh (x : xreal) : xreal :=
    match x with XR r => XR (cosh r) | XInf s => XInf false | XNaN => XNaN end.
  (** C pow: pow(1,y) and pow(x,0) are 1.  A negative base gives NaN (C allows integer
      exponents; the library never has a negative base unless an argument was NaN-producing) *)
  Definition xpow (x y : xreal) : xreal :=
    match x, y with
    | XR a, XR b =>
        if Req0 b then XR 1
        else if Req0 a then (if Rltb b 0 then XInf false else XR 0)
        else if Rltb a 0 then XNaN
        else XR (Rpower a b)
    | XR a, XInf s =>
        if Req0 (a - 1) then XR 1
        else if Rltb (Rabs a) 1 then (if s then XInf false else XR 0)
        else (if s then XR 0 else XInf false)
    | XR a, XNaN => if Req0 (a - 1) then XR 1 else XNaN
    | XInf _, XR b =>
        if Req0 b then XR 1 else if Rltb b 0 then XR 0 else XInf false
    | XNaN, XR b => if Req0 b then XR 1 else XNaN
    | XInf _, XInf s => if s then XR 0 else XInf false
    | _, _ => XNaN
    end.
  Definition xeqb (x y : xreal) : bool :=
    match x, y with
    | XR a, XR b => if Req_EM_T a b then true else false
    | XInf s, XInf t => Bool.eqb s t
    | _, _ => false
    end.
  Definition xltb (x y : xreal) : bool :=
    match x, y with
    | XR a, XR b => Rltb a b
    | XR _, XInf s => negb s
    | XInf s, XR _ => s
    | XInf s, XInf t => s && negb t
    | _, _ => false
    end.
  Definition xleb (x y : xreal) : bool := xltb x y || xeqb x y.

  (** complex operations by their textbook formulas *)
  Definition xcmul (c d : cpx xreal) : cpx xreal :=
    Cx (xsub (xmul (re c) (re d)) (xmul (im c) (im d)))
       (xadd (xmul (re c) (im d)) (xmul (im c) (re d))).
  Definition xcdiv (c d : cpx xreal) : cpx xreal :=
    let n := xadd (xmul (re d) (re d)) (xmul (im d) (im d)) in
    Cx (xdiv (xadd (xmul (re c) (re d)) (xmul (im c) (im d))) n)
       (xdiv (xsub (xmul (im c) (re d)) (xmul (re c) (im d))) n).
  Definition xcabs (c : cpx xreal) : xreal :=
    match c with
    | Cx (XR a) (XR b) => XR (sqrt (a * a + b * b))
    | Cx (XInf _) _ | Cx _ (XInf _) => XInf false
    | _ => XNaN
    end.
  (** principal square root *)
  Definition xcsqrt (c : cpx xreal) : cpx xreal :=
    match c with
    | Cx (XR a) (XR b) =>
        let m := sqrt (a * a + b * b) in
        let p := sqrt ((m + a) / 2) in
        let q := sqrt ((m - a) / 2) in
        Cx (XR p) (XR (if Rltb b 0 then - q else q))
    | _ => Cx XNaN XNaN
    end.
  (** std::polar requires rho >= 0 and theta finite.  [strict]: outside this precondition the
      behaviour is undefined, as in the standard; otherwise (rho cos theta, rho sin theta) as
      libstdc++ computes with assertions off. *)
  Definition xpolar (strict : bool) (rho theta : xreal) : option (cpx xreal) :=
    if strict && negb (xleb (XR 0) rho && match theta with XR _ => true | _ => false end)
    then None
    else Some (Cx (xmul rho (xcos theta)) (xmul rho (xsin theta))).
End Ops.

Definition X (strict : bool) : num := {|
  T := xreal;
  nadd := xadd; nsub := xsub; nmul := xmul; ndiv := xdiv; nopp := xopp; nabs := xabs;
  nsqrt := xsqrt; nsin := xsin; ncos := xcos; ntan := xtan; natan := xatan;
  nexp := xexp; nlog := xlog; nsinh := xsinh; ncosh := xcosh; npow := xpow;
  neqb := xeqb; nltb := xltb; nleb := xleb;
  nofZ := fun z => XR (IZR z);
  nlit := fun p q => XR (IZR p / IZR (Zpos q));
  npi := XR PI;
  npi_2 := XR (PI / 2);
  nln2 := XR (ln 2);
  nln10 := XR (ln 10);
  ninf := XInf false;
  ncmul := xcmul; ncdiv := xcdiv; ncsqrt := xcsqrt; ncabs := xcabs;
  npolar := xpolar strict
|}.
