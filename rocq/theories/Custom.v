(** /repo/iir/Custom.h, /repo/iir/Custom.cpp *)
From Coq Require Import ZArith List Bool.
From Verif Require Import Num Outcome Types Biquad State Cascade.
Import ListNotations.

Section Custom.
  Context {N : num}.
  Local Open Scope num_scope.

  (** Custom.cpp:43-49 OnePole::setup; the double arguments convert to complex *)
  Definition onepole_setup (scale pole zero : T N) : M (biquad N) unit :=
    setOnePole (c_of pole) (c_of zero) ;;
    modify (bq_applyScale scale).

  (** Custom.cpp:51-62 TwoPole::setup *)
  Definition twopole_setup (scale poleRho poleTheta zeroRho zeroTheta : T N) : M (biquad N) unit :=
    do pole <- or_ub (npolar N poleRho poleTheta);
    do zero <- or_ub (npolar N zeroRho zeroTheta);
    setTwoPole pole zero (c_conj pole) (c_conj zero) ;;
    modify (bq_applyScale scale).

  (** Custom.h:89-123 SOSCascade: SOSCascade() 96, constructor 107-109, setup 120-122 *)
  Definition sos_init (t : topo) (NSOS : nat) : cstages N := cstages_init t NSOS.
  Definition sos_setup (rows : list (sosrow N)) : M (cstages N) unit := cs_setup rows.
  Definition sos_construct (t : topo) (rows : list (sosrow N)) : res (cstages N) unit :=
    cs_setup rows (cstages_init t (length rows)).
End Custom.
