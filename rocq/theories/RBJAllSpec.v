(** Specification: which RBJ parameters give a stable filter, over all real cutoffs. *)
From Coq Require Import Reals.
From Verif Require Import RBJ RBJSpec.
Local Open Scope R_scope.

(** any real cutoff (relative to the sampling rate) and gain; q / bandwidth / slope not zero.
    For the shelves the value under the square root is positive, for the peaking filter the cutoff is no
    multiple of Nyquist. *)
Definition rbj_real (k : rkind) (f g q : R) : Prop :=
  q <> 0 /\ match k with
            | R_LowShelf | R_HighShelf => 0 < shelf_E g q
            | R_BandShelf => sin (2 * PI * f) <> 0
            | _ => True
            end.
(** the quantity whose sign decides stability *)
Definition rbj_damping (k : rkind) (f q : R) : R :=
  match k with
  | R_IIRNotch | R_BandShelf => q * f
  | R_LowShelf | R_HighShelf => sin (2 * PI * f)
  | _ => q * sin (2 * PI * f)
  end.
