(** Specification: Chebyshev polynomials of the first kind. *)
From Coq Require Import Reals.
Local Open Scope R_scope.

(** (T_n x, T_(n+1) x) *)
Fixpoint cheb2 (n : nat) (x : R) : R * R :=
  match n with
  | O => (1, x)
  | S n' => let '(a, b) := cheb2 n' x in (b, 2 * x * b - a)
  end.
Definition cheb (n : nat) (x : R) : R := fst (cheb2 n x).
