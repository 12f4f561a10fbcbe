(** /repo/iir/Biquad.h, /repo/iir/Biquad.cpp *)
From Coq Require Import ZArith List Bool.
From Verif Require Import Num Outcome Types.
Import ListNotations.

Section Biquad.
  Context {N : num}.
  Notation C := (cpx (T N)).
  Local Open Scope num_scope.

  (** Biquad.h:52,160-165: the stored members m_a0 ... m_b0 *)
  Record biquad : Type := MkBiquad {
    m_a0 : T N; m_a1 : T N; m_a2 : T N;
    m_b0 : T N; m_b1 : T N; m_b2 : T N
  }.

  (** Biquad.h:55,160-165 Biquad() *)
  Definition biquad0 : biquad := MkBiquad #1 #0 #0 #1 #0 #0.

  (** Biquad.h:71-96 getA0 ... getB2 *)
  Definition getA0 (b : biquad) : T N := m_a0 b.
  Definition getA1 (b : biquad) : T N := m_a1 b * m_a0 b.
  Definition getA2 (b : biquad) : T N := m_a2 b * m_a0 b.
  Definition getB0 (b : biquad) : T N := m_b0 b * m_a0 b.
  Definition getB1 (b : biquad) : T N := m_b1 b * m_a0 b.
  Definition getB2 (b : biquad) : T N := m_b2 b * m_a0 b.

  (** Biquad.cpp:123-139 setCoefficients *)
  Definition setCoefficients (a0 a1 a2 b0 b1 b2 : T N) : M biquad unit :=
    throw_if (is_nan a0) E_nan_a0 ;;
    throw_if (is_nan a1) E_nan_a1 ;;
    throw_if (is_nan a2) E_nan_a2 ;;
    throw_if (is_nan b0) E_nan_b0 ;;
    throw_if (is_nan b1) E_nan_b1 ;;
    throw_if (is_nan b2) E_nan_b2 ;;
    put (MkBiquad a0 (a1 / a0) (a2 / a0) (b0 / a0) (b1 / a0) (b2 / a0)).

  (** Biquad.cpp:141-154 setOnePole *)
  Definition setOnePole (pole zero : C) : M biquad unit :=
    throw_if (nneqb (im pole) #0) E_pole_imag ;;
    throw_if (nneqb (im zero) #0) E_zero_imag ;;
    setCoefficients #1 (- re pole) #0 #1 (- re zero) #0.

  (** Biquad.cpp:156-201 setTwoPole; the pole and the zero branch have the same shape *)
  Definition two_coeffs (e : err) (c1 c2 : C) : oc (T N * T N) :=
    if nneqb (im c1) #0 then
      odo _ <- othrow_if (negb (c_eqb c2 (c_conj c1))) e;
      Val (#(-2) * re c1, c_norm c1)
    else
      odo _ <- othrow_if (nneqb (im c2) #0) e;
      Val (- (re c1 + re c2), re c1 * re c2).

  Definition setTwoPole (pole1 zero1 pole2 zero2 : C) : M biquad unit :=
    do (a1, a2) <- lift (two_coeffs E_poles_conj pole1 pole2);
    do (b1, b2) <- lift (two_coeffs E_zeros_conj zero1 zero2);
    setCoefficients #1 a1 a2 #1 b1 b2.

  (** Biquad.h:137-144 setPoleZeroPair *)
  Definition setPoleZeroPair (p : pzpair N) : M biquad unit :=
    if pz_isSinglePole p then setOnePole (cfst (poles p)) (cfst (zeros p))
    else setTwoPole (cfst (poles p)) (cfst (zeros p)) (csnd (poles p)) (csnd (zeros p)).

  (** Biquad.cpp:214-219 applyScale *)
  Definition bq_applyScale (scale : T N) (b : biquad) : biquad :=
    MkBiquad (m_a0 b) (m_a1 b) (m_a2 b) (m_b0 b * scale) (m_b1 b * scale) (m_b2 b * scale).

  (** Biquad.cpp:209-212 setIdentity *)
  Definition setIdentity : M biquad unit := setCoefficients #1 #0 #0 #1 #0 #0.

  (** Biquad.h:175-182 BiquadPoleState: a PoleZeroPair with a gain *)
  Record bpstate : Type := MkBps { bps_pair : pzpair N; bps_gain : T N }.

  (** Biquad.cpp:62-66 / 70-75: roots of one quadratic *)
  Definition bps_roots (k0 k1 k2 : T N) (e : err) : oc (cpair N) :=
    let c := ncsqrt N (Cx (k1 * k1 - #4 * k0 * k2) #0) in
    let d := #2 * k0 in
    let p := CPair (c_divr (c_opp (c_addr c k1)) d) (c_divr (c_subr c k1) d) in
    odo _ <- othrow_if (cp_is_nan p) e;
    Val p.

  (** Biquad.cpp:42-80 BiquadPoleState (const Biquad&) *)
  Definition bps_of (s : biquad) : oc bpstate :=
    let a0 := getA0 s in let a1 := getA1 s in let a2 := getA2 s in
    let b0 := getB0 s in let b1 := getB1 s in let b2 := getB2 s in
    odo pz <-
      (if neqb N a2 #0 && neqb N b2 #0 then
         (* single pole *)
         Val (PZ (CPair (c_of (- a1)) (c_of #0)) (CPair (c_of (- b0 / b1)) (c_of #0)))
       else
         odo ps <- bps_roots a0 a1 a2 E_bps_poles_nan;
         odo zs <- bps_roots b0 b1 b2 E_bps_zeros_nan;
         Val (PZ ps zs));
    Val (MkBps pz (b0 / a0)).

  (** Biquad.cpp:203-207 setPoleZeroForm *)
  Definition setPoleZeroForm (bps : bpstate) : M biquad unit :=
    setPoleZeroPair (bps_pair bps) ;;
    modify (bq_applyScale (bps_gain bps)).

  (** Biquad.cpp:115-121 getPoleZeros *)
  Definition bq_getPoleZeros (b : biquad) : oc (list (pzpair N)) :=
    odo bps <- bps_of b;
    Val [bps_pair bps].

  (** Biquad.cpp:97-108 = Cascade.cpp:65-70: numerator and denominator at (czn1, czn2) *)
  Definition stage_top (czn1 czn2 : C) (b : biquad) : C :=
    let ct := c_of (getB0 b / getA0 b) in
    let ct := addmul ct (getB1 b / getA0 b) czn1 in
    addmul ct (getB2 b / getA0 b) czn2.
  Definition stage_bot (czn1 czn2 : C) (b : biquad) : C :=
    let cb := c_of #1 in
    let cb := addmul cb (getA1 b / getA0 b) czn1 in
    addmul cb (getA2 b / getA0 b) czn2.

  (** Biquad.cpp:88-113 response *)
  Definition bq_response (b : biquad) (f : T N) : oc C :=
    let w := #2 * npi N * f in
    odo czn1 <- oor_ub (npolar N #1 (- w));
    odo czn2 <- oor_ub (npolar N #1 (#(-2) * w));
    let ch := ncmul N (c_of #1) (stage_top czn1 czn2 b) in
    let cbot := ncmul N (c_of #1) (stage_bot czn1 czn2 b) in
    Val (ncdiv N ch cbot).
End Biquad.
Arguments biquad : clear implicits.
Arguments bpstate : clear implicits.
