(** Specification: the ideal low and high pass cascades of the three families. *)
From Coq Require Import ZArith List Bool Reals.
From Verif Require Import Types PoleFilter DblSpec BwDblSpec ChainSpec ChScaleSpec DesignSpec.
Local Open Scope R_scope.

(** sections with the scale factor applied to the first *)
Definition lh_cascade (fam : family) (hp : bool) (f db : R) (n : nat) : list ideal :=
  match fam with
  | Bw => bw_cascade hp f n
  | Ch1 => ch_cascade false hp f db n
  | Ch2 => ch_cascade true hp f db n
  end.
(** the frequency x on the axis of the normalised low pass, for 0 < x < 1/2 *)
Definition lh_freq (hp : bool) (f x : R) : R := if hp then tan (PI * f) / tan (PI * x) else tan (PI * x) / tan (PI * f).
