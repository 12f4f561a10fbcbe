(** /repo/iir/ChebyshevI.cpp:43-155 and /repo/iir/ChebyshevII.cpp:46-156: analog prototypes *)
From Coq Require Import ZArith List Bool.
From Verif Require Import Num Outcome Types Butterworth.
Import ListNotations.

Section ChebyshevI.
  Context {N : num}.
  Notation C := (cpx (T N)).
  Local Open Scope num_scope.

  (** ChebyshevI.cpp:43-46: no setNormal, so the defaults of Layout.h:172-173 *)
  Definition c1_lp_init : proto N := MkProto (-1) #0 #0 layout0.

  (** ChebyshevI.cpp:59-62: (sinh_v0, cosh_v0) *)
  Definition c1_lp_consts (numPoles : Z) (rippleDb : T N) : T N * T N :=
    let eps := nsqrt N (#1 / nexp N ((- rippleDb) * nlit N 1 10 * nln10 N) - #1) in
    let v0 := iir_asinh (#1 / eps) / nofZ N numPoles in
    (- nsinh N v0, ncosh N v0).

  (** ChebyshevI.cpp:65-83 *)
  Definition c1_lp_poles (numPoles : Z) (rippleDb n2 sinh_v0 cosh_v0 : T N) : M (layout N) unit :=
    mfor (zrange (Z.quot numPoles 2)) (fun i =>
      let k := (2 * i + 1 - numPoles)%Z in
      let a := sinh_v0 * ncos N ((nofZ N k * npi N) / n2) in
      let b := cosh_v0 * nsin N ((nofZ N k * npi N) / n2) in
      lay_addConj (Cx a b) c_inf) ;;
    if Z.odd numPoles then
      lay_add1 (Cx sinh_v0 #0) c_inf ;;
      modify (lay_setNormal #0 #1)
    else
      modify (lay_setNormal #0 (npow N #10 ((- rippleDb) / #20))).

  (** ChebyshevI.cpp:48-85 AnalogLowPass::design *)
  Definition c1_lp_design (numPoles : Z) (rippleDb : T N) : M (proto N) unit :=
    do p <- get;
    if negb (p_np p =? numPoles)%Z || nneqb (p_db p) rippleDb then
      modify (fun p => MkProto numPoles (p_gain p) rippleDb (p_lay p)) ;;
      on_lay (modify lay_reset) ;;
      let '(sinh_v0, cosh_v0) := c1_lp_consts numPoles rippleDb in
      do n2 <- or_ub (int_ub (2 * numPoles));
      on_lay (c1_lp_poles numPoles rippleDb (nofZ N n2) sinh_v0 cosh_v0)
    else ret tt.

  (** ChebyshevI.cpp:96-99; m_numPoles is 0 (ChebyshevI.h:81) *)
  Definition c1_ls_init : proto N :=
    MkProto 0 #0 #0 (lay_setNormal (npi N) #1 layout0).

  (** ChebyshevI.cpp:115-140 = ChebyshevII.cpp:116-141 (the two files agree up to the name
      of the third parameter): (sinh_u, cosh_u, sinh_v, cosh_v) *)
  Definition ls_consts (numPoles : Z) (gainDb0 db0 : T N) : T N * T N * (T N * T N) :=
    let gainDb := - gainDb0 in
    let db := if ngeb db0 (nabs N gainDb) then nabs N gainDb else db0 in
    let db := if nltb N gainDb #0 then - db else db in
    let G := npow N #10 (gainDb / #20) in
    let Gb := npow N #10 ((gainDb - db) / #20) in
    let G0 : T N := #1 in
    let g0 := npow N G0 (#1 / nofZ N numPoles) in
    let eps := if nneqb Gb G0 then nsqrt N ((G * G - Gb * Gb) / (Gb * Gb - G0 * G0)) else G - #1 in
    let b := npow N (G / eps + Gb * nsqrt N (#1 + #1 / (eps * eps))) (#1 / nofZ N numPoles) in
    let u := nlog N (b / g0) in
    let v := nlog N (npow N (#1 / eps + nsqrt N (#1 + #1 / (eps * eps))) (#1 / nofZ N numPoles)) in
    (nsinh N u, ncosh N u, (nsinh N v, ncosh N v)).

  (** ChebyshevI.cpp:142-153 = ChebyshevII.cpp:143-154 *)
  Definition ls_poles (numPoles : Z) (n2 sinh_u cosh_u sinh_v cosh_v : T N) : M (layout N) unit :=
    mfor (zrange (Z.quot numPoles 2)) (fun i0 =>
      let i := (i0 + 1)%Z in
      let a := npi N * nofZ N (2 * i - 1) / n2 in
      let sn := nsin N a in
      let cs := ncos N a in
      lay_addConj (Cx ((- sn) * sinh_u) (cs * cosh_u)) (Cx ((- sn) * sinh_v) (cs * cosh_v))) ;;
    if Z.odd numPoles then lay_add1 (c_of (- sinh_u)) (c_of (- sinh_v)) else ret tt.

  (** ChebyshevI.cpp:101-155 = ChebyshevII.cpp:102-156 AnalogLowShelf::design *)
  Definition ls_design (numPoles : Z) (gainDb db : T N) : M (proto N) unit :=
    do p <- get;
    if negb (p_np p =? numPoles)%Z || nneqb (p_db p) db || nneqb (p_gain p) gainDb then
      modify (fun p => MkProto numPoles gainDb db (p_lay p)) ;;
      on_lay (modify lay_reset) ;;
      let '(sinh_u, cosh_u, (sinh_v, cosh_v)) := ls_consts numPoles gainDb db in
      do n2 <- or_ub (int_ub (2 * numPoles));
      on_lay (ls_poles numPoles (nofZ N n2) sinh_u cosh_u sinh_v cosh_v)
    else ret tt.

  (** ChebyshevI.cpp:101-155 *)
  Definition c1_ls_design : Z -> T N -> T N -> M (proto N) unit := ls_design.
End ChebyshevI.

Section ChebyshevII.
  Context {N : num}.
  Notation C := (cpx (T N)).
  Local Open Scope num_scope.

  (** ChebyshevII.cpp:46-50 *)
  Definition c2_lp_init : proto N :=
    MkProto (-1) #0 #0 (lay_setNormal #0 #1 layout0).

  (** ChebyshevII.cpp:63-66: (sinh_v0, cosh_v0) *)
  Definition c2_lp_consts (numPoles : Z) (stopBandDb : T N) : T N * T N :=
    let eps := nsqrt N (#1 / (nexp N (stopBandDb * nlit N 1 10 * nln10 N) - #1)) in
    let v0 := iir_asinh (#1 / eps) / nofZ N numPoles in
    (- nsinh N v0, ncosh N v0).

  (** ChebyshevII.cpp:69-83; the loop runs numPoles/2 times with k = 1, 3, ... *)
  Definition c2_lp_poles (numPoles : Z) (fn sinh_v0 cosh_v0 : T N) : M (layout N) unit :=
    mfor (zrange (Z.quot numPoles 2)) (fun i =>
      let k := (2 * i + 1)%Z in
      let a := sinh_v0 * ncos N (nofZ N (k - numPoles) * fn) in
      let b := cosh_v0 * nsin N (nofZ N (k - numPoles) * fn) in
      let d2 := a * a + b * b in
      let im := #1 / ncos N (nofZ N k * fn) in
      lay_addConj (Cx (a / d2) (b / d2)) (Cx #0 im)) ;;
    if Z.odd numPoles then lay_add1 (c_of (#1 / sinh_v0)) c_inf else ret tt.

  (** ChebyshevII.cpp:52-85 AnalogLowPass::design *)
  Definition c2_lp_design (numPoles : Z) (stopBandDb : T N) : M (proto N) unit :=
    do p <- get;
    if negb (p_np p =? numPoles)%Z || nneqb (p_db p) stopBandDb then
      modify (fun p => MkProto numPoles (p_gain p) stopBandDb (p_lay p)) ;;
      on_lay (modify lay_reset) ;;
      let '(sinh_v0, cosh_v0) := c2_lp_consts numPoles stopBandDb in
      do n2 <- or_ub (int_ub (2 * numPoles));
      let fn := npi N / nofZ N n2 in
      on_lay (c2_lp_poles numPoles fn sinh_v0 cosh_v0)
    else ret tt.

  (** ChebyshevII.cpp:96-100 *)
  Definition c2_ls_init : proto N :=
    MkProto (-1) #0 #0 (lay_setNormal (npi N) #1 layout0).

  (** ChebyshevII.cpp:102-156 *)
  Definition c2_ls_design : Z -> T N -> T N -> M (proto N) unit := ls_design.
End ChebyshevII.
