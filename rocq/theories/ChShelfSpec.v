(** Specification: squared gain of the Chebyshev shelves at the low pass frequency W (None = infinite).
    [G] is the shelf's gain in dB and [db] how much the gain may fall short of it inside the shelf; 0 < db < |G|. *)
From Coq Require Import Reals.
From Verif Require Import ChebSpec.
Local Open Scope R_scope.

(** gain G dB as a squared factor *)
Definition top2 (G : R) : R := Rpower 10 (G / 10).
(** squared gain at the edge of the shelf, |W| = 1: db short of G, towards 0 dB *)
Definition edge2 (G db : R) : R := Rpower 10 ((if Rlt_dec G 0 then G + db else G - db) / 10).
(** (1 + e T^2) / (1/top + e T^2) with e such that the edge, T^2 = 1, gets edge2 *)
Definition cs_eps2 (G db : R) : R := (/ top2 G - / edge2 G db) / (/ edge2 G db - 1).
Definition cshelf2 (n : nat) (G db : R) (W : option R) : R :=
  match W with
  | Some w => (1 + cs_eps2 G db * cheb n w ^ 2) / (/ top2 G + cs_eps2 G db * cheb n w ^ 2)
  | None => 1
  end.
(** squared gain at W = 0: the full gain for odd orders, the edge's for even ones *)
Definition cs_dc2 (n : nat) (G db : R) : R := if Nat.odd n then top2 G else edge2 G db.
(** minus the real pole and minus the real zero of the odd order low pass prototypes *)
Definition cs_real_pole (n : nat) (G db : R) : R := sinh (arcsinh (sqrt (/ top2 G / cs_eps2 G db)) / INR n).
Definition cs_real_zero (n : nat) (G db : R) : R := sinh (arcsinh (sqrt (/ cs_eps2 G db)) / INR n).
