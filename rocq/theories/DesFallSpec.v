(** Specification: how filters designed in binary64 fall silent, in terms of the ideal sections they approximate. *)
From Coq Require Import ZArith List Bool Reals.
From Verif Require Import RoundSpec DblSpec ChainSpec DecaySpec.
Import ListNotations.
Local Open Scope R_scope.

(** [fall_out], [fall], [fall_ok] of DecaySpec.v for stored coefficients that are near ideal ones *)
Definition dfall_out (d : dsect) (u : R) : R := 32 * d_G d * (2 * (1 + d_A d) * (1 + d_B d) * (u + 1) + 4 * (1 + d_B d)).
Fixpoint dfall (l : list dsect) (u : R) : R := match l with [] => u | d :: l' => dfall l' (dfall_out d u) end.
Definition dfall_ok1 (rho c : R) (d : dsect) (u : R) : Prop :=
  rec_gain (i_a1 (d_id d)) (i_a2 (d_id d)) (d_G d) /\ 4 * d_ea d * d_G d <= 1 /\ 2 * d_G d * d_A d * (rho ^ 2 - 1) <= 1 / 2 /\ 2 * d_G d * d_A d <= 2 ^ 36 /\
  dfall_out d u * (1 + d_B d) * (c + 1) <= 2 ^ 900.
Fixpoint dfall_ok (rho c : R) (l : list dsect) (u : R) : Prop := match l with [] => True | d :: l' => dfall_ok1 rho c d u /\ dfall_ok rho c l' (dfall_out d u) end.
(** a stage the design does not use: the identity *)
Definition spare : dsect := DSect (Ideal 0 0 1 0 0) 1 0 0.
(** the sections l, then the spare stages of a filter with k stages *)
Definition padded (l : list dsect) (k : Z) : list dsect := l ++ repeat spare (Z.to_nat k - length l).
