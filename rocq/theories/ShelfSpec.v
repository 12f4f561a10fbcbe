(** Specification: squared gain of the Butterworth shelf with gain G dB at the low pass frequency W
    (None = infinite): G dB at W = 0, G/2 dB at |W| = 1, 0 dB at infinity. *)
From Coq Require Import Reals.
Local Open Scope R_scope.

Definition shelf2 (n : nat) (G : R) (W : option R) : R :=
  match W with
  | Some w => (w ^ (2 * n) + Rpower 10 (G / 20)) / (w ^ (2 * n) + / Rpower 10 (G / 20))
  | None => 1
  end.
