(** Specification: parameter range and gains of the RBJ filters. *)
From Coq Require Import ZArith List Bool Reals.
From Coquelicot Require Import Coquelicot.
From Verif Require Import Num Outcome Biquad RBJ Exact SigSpec.
Local Open Scope R_scope.

(** the value under the square root of the shelf filters' alpha (Audio EQ Cookbook):
    (A + 1/A)(1/S - 1) + 2 with A = 10^(gain/40) *)
Definition shelf_E (g s : R) : R := (Rpower 10 (g / 40) + / Rpower 10 (g / 40)) * (/ s - 1) + 2.

(** cutoff between 0 and Nyquist, positive q / bandwidth / slope, real non-zero shelf alpha *)
Definition rbj_range (k : rkind) (f g q : R) : Prop :=
  0 < f < 1 / 2 /\ 0 < q /\ match k with R_LowShelf | R_HighShelf => 0 < shelf_E g q | _ => True end.

(** response() at frequency f is h *)
Definition responds {strict} (b : biquad (X strict)) (f : R) (h : C) : Prop :=
  bq_response b (XR f) = Val (xc h).
