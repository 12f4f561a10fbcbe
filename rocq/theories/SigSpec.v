(** Specification of discrete-time signals and linear difference equations over the reals and
    of the transfer function of a second order section, without any model function. *)
From Coq Require Import ZArith List Bool Reals.
From Coquelicot Require Import Coquelicot.
From Verif Require Import Num Biquad State Cascade Exact RealNum.
Import ListNotations.
Local Open Scope R_scope.

(** ** finite signals *)
(** the sample k steps before sample n; silence before the start *)
Definition back (l : list R) (n k : nat) : R := if Nat.leb k n then nth (n - k) l 0 else 0.

(** a0 y[n] + a1 y[n-1] + a2 y[n-2] = b0 x[n] + b1 x[n-1] + b2 x[n-2] for every sample *)
Definition diffeq (a0 a1 a2 b0 b1 b2 : R) (xs ys : list R) : Prop :=
  length ys = length xs /\
  forall n, (n < length xs)%nat ->
    a0 * back ys n 0 + a1 * back ys n 1 + a2 * back ys n 2 =
    b0 * back xs n 0 + b1 * back xs n 1 + b2 * back xs n 2.

(** al*x + be*y, sample by sample *)
Definition lincomb (al be : R) (xs ys : list R) : list R :=
  map (fun p => al * fst p + be * snd p) (combine xs ys).

(** finite samples as values of the exact arithmetic *)
Definition xr (l : list R) : list xreal := map XR l.

(** ** infinite signals *)
Definition sig : Type := nat -> R.
Definition prefix (n : nat) (x : sig) : list R := map x (seq 0 n).

(** ** stability: all roots of z^2 + a1 z + a2 lie inside the unit circle *)
Definition stable_poly (a1 a2 : R) : Prop :=
  forall z : C, (z * z + RtoC a1 * z + RtoC a2 = 0)%C -> Cmod z < 1.

(** ** the second order sections of the exact model with finite coefficients *)
Section Fin.
  Context {strict : bool}.
  Notation XS := (X strict).
  Definition is_fin (x : xreal) : Prop := exists r, x = XR r.
  Definition fin_bq (b : biquad XS) : Prop :=
    is_fin (m_a0 b) /\ is_fin (m_a1 b) /\ is_fin (m_a2 b) /\ is_fin (m_b0 b) /\ is_fin (m_b1 b) /\ is_fin (m_b2 b).
  Definition fin_st (s : st XS) : Prop :=
    match s with
    | S1 a b c d => is_fin a /\ is_fin b /\ is_fin c /\ is_fin d
    | S2 a b => is_fin a /\ is_fin b
    | S3 a b c d => is_fin a /\ is_fin b /\ is_fin c /\ is_fin d
    end.
  (** all poles of the section lie inside the unit circle *)
  Definition stable_bq (b : biquad XS) : Prop :=
    exists a1 a2, m_a1 b = XR a1 /\ m_a2 b = XR a2 /\ stable_poly a1 a2.
End Fin.

(** ** complex values and transfer functions *)
Definition xc (c : C) : cpx xreal := Cx (XR (fst c)) (XR (snd c)).
(** e^(i t) *)
Definition cis (t : R) : C := (cos t, sin t).
(** c0 + c1 u + c2 u^2 *)
Definition poly2 (c0 c1 c2 : R) (u : C) : C := (RtoC c0 + RtoC c1 * u + RtoC c2 * (u * u))%C.

(** a product of complex numbers *)
Definition cprod (l : list C) : C := fold_right Cmult (RtoC 1) l.
