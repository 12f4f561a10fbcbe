(** Default arguments of the RBJ classes: /repo/iir/RBJ.h *)
From Coq Require Import ZArith List Bool.
From Verif Require Import Num Outcome Types Biquad State RBJ.
Import ListNotations.

Section Defaults.
  Context {N : num}.
  Local Open Scope num_scope.
  (** RBJ.h:59 ONESQRT2 *)
  Definition onesqrt2 : T N := #1 / nsqrt N #2.
  (** the default of the last argument of setupN and setup: RBJ.h:97,107 (LowPass), 123,132 (HighPass),
      232,241 (IIRNotch), 259,270 (LowShelf), 288,299 (HighShelf), 344,354 (AllPass).
      The other classes have none. *)
  Definition rbj_default (k : rkind) : option (T N) :=
    match k with
    | R_LowPass | R_HighPass | R_AllPass => Some onesqrt2
    | R_IIRNotch => Some #10
    | R_LowShelf | R_HighShelf => Some #1
    | R_BandPass1 | R_BandPass2 | R_BandStop | R_BandShelf => None
    end.
  (** setupN without its last argument (RBJ.h, lines as above); the call does not compile for classes without default: the
      old object is kept here *)
  Definition rbj_setupN_default (k : rkind) (f g : T N) : M (biquad N) unit :=
    match rbj_default k with
    | Some q => rbj_setupN k f g q
    | None => ret tt
    end.
End Defaults.
