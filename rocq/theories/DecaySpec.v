(** Specification: how a cascade that is no longer fed falls silent in binary64. *)
From Coq Require Import ZArith List Bool Reals.
From Flocq Require Import IEEE754.BinarySingleNaN.
From Verif Require Import Num Biquad State Float64 FloatSpec SigSpec RoundSpec RunOnSpec.
Import ListNotations.
Local Open Scope R_scope.

(** a level that falls like c / rho^n down to 2^-1060 (far below the smallest normal number 2^-1022) *)
Definition falling (rho c : R) (n : nat) : R := c / rho ^ n + g_abs.
(** inputs up to u times the falling level, delay lines up to the level at the start: bound on the outputs in units of the level *)
Definition fall_out (s : sect) (u : R) : R := 16 * s_G s * (2 * (1 + s_A s) * (1 + s_B s) * (u + 1) + 4 * (1 + s_B s)).
Fixpoint fall (l : list sect) (u : R) : R := match l with [] => u | s :: l' => fall l' (fall_out s u) end.
(** the recursion keeps its rounding errors small, the numbers stay away from overflow *)
Definition fall_ok1 (rho c : R) (s : sect) (u : R) : Prop :=
  rec_gain (s_a1 s) (s_a2 s) (s_G s) /\ s_G s * s_A s * (rho ^ 2 - 1) <= 1 / 2 /\ s_G s * s_A s <= 2 ^ 36 /\ fall_out s u * (1 + s_B s) * (c + 1) <= 2 ^ 900.
Fixpoint fall_ok (rho c : R) (l : list sect) (u : R) : Prop := match l with [] => True | s :: l' => fall_ok1 rho c s u /\ fall_ok rho c l' (fall_out s u) end.
