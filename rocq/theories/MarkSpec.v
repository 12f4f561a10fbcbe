(** Specification: the frequencies at which the gain of a filter is documented. *)
From Coq Require Import List Bool Reals.
From Coquelicot Require Import Coquelicot.
From Verif Require Import RBJ.
Import ListNotations.
Local Open Scope R_scope.

(** (frequency, complex gain); (0, q) is i q.  Cutoff or centre frequency f, gain g in dB, quality factor q *)
Definition landmarks (k : rkind) (f g q : R) : list (R * C) :=
  let h := RtoC (Rpower 10 (g / 20)) in
  match k with
  | R_LowPass => [(0, RtoC 1); (1 / 2, RtoC 0); (f, (0, - q))]
  | R_HighPass => [(0, RtoC 0); (1 / 2, RtoC 1); (f, (0, q))]
  | R_BandPass1 => [(0, RtoC 0); (1 / 2, RtoC 0); (f, RtoC q)]
  | R_BandPass2 => [(0, RtoC 0); (1 / 2, RtoC 0); (f, RtoC 1)]
  | R_BandStop => [(0, RtoC 1); (1 / 2, RtoC 1); (f, RtoC 0)]
  | R_IIRNotch => [(f, RtoC 0)]
  | R_AllPass => [(0, RtoC 1); (1 / 2, RtoC 1); (f, RtoC (-1))]
  | R_LowShelf => [(0, h); (1 / 2, RtoC 1)]
  | R_HighShelf => [(0, RtoC 1); (1 / 2, h)]
  | R_BandShelf => [(0, RtoC 1); (1 / 2, RtoC 1); (f, h)]
  end.
