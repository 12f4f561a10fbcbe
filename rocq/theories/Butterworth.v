(** /repo/iir/Butterworth.cpp:43-103: analog prototypes *)
From Coq Require Import ZArith List Bool.
From Verif Require Import Num Outcome Types.
Import ListNotations.

Section Proto.
  Context {N : num}.

  (** Butterworth.h:65,81-82, ChebyshevI.h:64-65,81-83, ChebyshevII.h:65-66,83-85: the six
      AnalogPrototype classes.  [p_np], [p_gain], [p_db] are the members m_numPoles,
      m_gainDb and m_rippleDb / m_stopBandDb (0 where the class has no such member);
      [p_lay] is the LayoutBase they derive from (with its own m_numPoles). *)
  Record proto : Type := MkProto { p_np : Z; p_gain : T N; p_db : T N; p_lay : layout N }.

  Definition p_set_lay (l : layout N) (p : proto) : proto := MkProto (p_np p) (p_gain p) (p_db p) l.
  Definition on_lay {A} (m : M (layout N) A) : M proto A := zoom p_lay p_set_lay m.
End Proto.
Arguments proto : clear implicits.

Section Butterworth.
  Context {N : num}.
  Notation C := (cpx (T N)).
  Local Open Scope num_scope.

  (** Butterworth.cpp:43-47 with Layout.h:65-70 *)
  Definition bw_lp_init : proto N :=
    MkProto (-1) #0 #0 (lay_setNormal #0 #1 layout0).

  (** Butterworth.cpp:59-66 *)
  Definition bw_lp_poles (numPoles : Z) (n2 : T N) : M (layout N) unit :=
    mfor (zrange (Z.quot numPoles 2)) (fun i =>
      do c <- or_ub (npolar N #1 (npi_2 N + (nofZ N (2 * i + 1) * npi N) / n2));
      lay_addConj c c_inf) ;;
    if Z.odd numPoles then lay_add1 (c_of #(-1)) c_inf else ret tt.

  (** Butterworth.cpp:49-68 AnalogLowPass::design *)
  Definition bw_lp_design (numPoles : Z) : M (proto N) unit :=
    do p <- get;
    if negb (p_np p =? numPoles)%Z then
      modify (fun p => MkProto numPoles (p_gain p) (p_db p) (p_lay p)) ;;
      on_lay (modify lay_reset) ;;
      do n2 <- or_ub (int_ub (2 * numPoles));
      on_lay (bw_lp_poles numPoles (nofZ N n2))
    else ret tt.

  (** Butterworth.cpp:72-76 *)
  Definition bw_ls_init : proto N :=
    MkProto (-1) #0 #0 (lay_setNormal (npi N) #1 layout0).

  (** Butterworth.cpp:93-101; the loop variable runs over 1 ... pairs *)
  Definition bw_ls_poles (numPoles : Z) (n2 gp gz : T N) : M (layout N) unit :=
    mfor (zrange (Z.quot numPoles 2)) (fun i0 =>
      let i := (i0 + 1)%Z in
      let theta := npi N * (nlit N 1 2 - nofZ N (2 * i - 1) / n2) in
      do p <- or_ub (npolar N gp theta);
      do z <- or_ub (npolar N gz theta);
      lay_addConj p z) ;;
    if Z.odd numPoles then lay_add1 (c_of gp) (c_of gz) else ret tt.

  (** Butterworth.cpp:78-103 AnalogLowShelf::design *)
  Definition bw_ls_design (numPoles : Z) (gainDb : T N) : M (proto N) unit :=
    do p <- get;
    if negb (p_np p =? numPoles)%Z || nneqb (p_gain p) gainDb then
      modify (fun p => MkProto numPoles gainDb (p_db p) (p_lay p)) ;;
      on_lay (modify lay_reset) ;;
      do n2i <- or_ub (int_ub (numPoles * 2));
      let n2 := nofZ N n2i in
      let g := npow N (npow N #10 (gainDb / #20)) (#1 / n2) in
      let gp := #(-1) / g in
      let gz := - g in
      on_lay (bw_ls_poles numPoles n2 gp gz)
    else ret tt.
End Butterworth.
