(** Specification: the analogue prototypes of the RBJ filters (Audio EQ Cookbook). *)
From Coq Require Import ZArith List Bool Reals.
From Coquelicot Require Import Coquelicot.
From Verif Require Import RBJ RBJSpec SigSpec.
Local Open Scope R_scope.

(** Q of the cookbook, from the last argument: bandwidth in octaves for the peaking filter, slope for the shelves *)
Definition cook_Q (k : rkind) (f g q : R) : R :=
  match k with
  | R_LowShelf | R_HighShelf => 1 / sqrt (shelf_E g q)
  | R_BandShelf => 1 / (2 * sinh (ln 2 / 2 * q * (2 * PI * f) / sin (2 * PI * f)))
  | _ => q
  end.
Definition sq (s : C) : C := (s * s)%C.
(** numerator and denominator of H(s), Q real, A = 10^(gain/40) *)
Definition ana_num (k : rkind) (A Q : R) (s : C) : C :=
  match k with
  | R_LowPass => RtoC 1
  | R_HighPass => sq s
  | R_BandPass1 => s
  | R_BandPass2 => (s / RtoC Q)%C
  | R_BandStop => (sq s + RtoC 1)%C
  | R_AllPass => (sq s - s / RtoC Q + RtoC 1)%C
  | R_BandShelf => (sq s + s * RtoC (A / Q) + RtoC 1)%C
  | R_LowShelf => (RtoC A * (sq s + RtoC (sqrt A / Q) * s + RtoC A))%C
  | R_HighShelf => (RtoC A * (RtoC A * sq s + RtoC (sqrt A / Q) * s + RtoC 1))%C
  | R_IIRNotch => RtoC 0 (* not a cookbook filter *)
  end.
Definition ana_den (k : rkind) (A Q : R) (s : C) : C :=
  match k with
  | R_BandShelf => (sq s + s / RtoC (A * Q) + RtoC 1)%C
  | R_LowShelf => (RtoC A * sq s + RtoC (sqrt A / Q) * s + RtoC 1)%C
  | R_HighShelf => (sq s + RtoC (sqrt A / Q) * s + RtoC A)%C
  | R_IIRNotch => RtoC 0
  | _ => (sq s + s / RtoC Q + RtoC 1)%C
  end.
(** the limit for s to infinity *)
Definition ana_inf (k : rkind) (A : R) : R :=
  match k with
  | R_LowPass | R_BandPass1 | R_BandPass2 | R_IIRNotch => 0
  | R_HighPass | R_BandStop | R_AllPass | R_BandShelf | R_LowShelf => 1
  | R_HighShelf => A * A
  end.
(** the analogue frequency of f for a filter with cutoff fc (bilinear transform, s = i W) *)
Definition warp (f fc : R) : C := (0, tan (PI * f) / tan (PI * fc)).
