(** Specification: what rounding to binary64 may do to a cascade of second order sections. *)
From Coq Require Import ZArith List Bool Reals.
From Coquelicot Require Import Coquelicot.
From Flocq Require Import IEEE754.BinarySingleNaN.
From Verif Require Import Num Biquad Float64 SigSpec.
Import ListNotations.
Local Open Scope R_scope.

(** y[n-k], silence before the start *)
Definition prev (y : sig) (n k : nat) : R := if Nat.leb k n then y (n - k)%nat else 0.

(** G bounds the peak gain of the recursion y[n] = u[n] - a1 y[n-1] - a2 y[n-2]: while |u| <= W,
    |y| <= G W *)
Definition rec_gain (a1 a2 G : R) : Prop :=
  forall (y : sig) W n, 0 <= W ->
  (forall i, (i <= n)%nat -> Rabs (prev y i 0 + a1 * prev y i 1 + a2 * prev y i 2) <= W) ->
  Rabs (y n) <= G * W.

(** all roots of z^2 + a1 z + a2 lie in the disc of radius rho *)
Definition roots_within (a1 a2 rho : R) : Prop :=
  forall z : C, (z * z + RtoC a1 * z + RtoC a2 = 0)%C -> Cmod z <= rho.

(** a section 1 + a1 z^-1 + a2 z^-2 under b0 + b1 z^-1 + b2 z^-2 with a gain bound *)
Record sect := Sect { s_a1 : R; s_a2 : R; s_b0 : R; s_b1 : R; s_b2 : R; s_G : R }.
Definition s_A (s : sect) : R := Rabs (s_a1 s) + Rabs (s_a2 s).
Definition s_B (s : sect) : R := Rabs (s_b0 s) + Rabs (s_b1 s) + Rabs (s_b2 s).

(** relative and absolute rounding constants: 2^-46 and 2^-1060 *)
Definition g_rel : R := / 2 ^ 46.
Definition g_abs : R := / 2 ^ 1060.

(** bound on the outputs of a section whose inputs are bounded by x *)
Definition out_bound (s : sect) (x : R) : R := 4 * s_G s * (s_B s * x + (1 + s_B s) * g_abs).
(** bound on the rounding error one section makes *)
Definition own_error (s : sect) (x : R) : R :=
  3 * s_G s * (g_rel * (1 + 2 * s_A s * s_G s) * (s_B s * x + (1 + s_B s) * g_abs) + (1 + s_B s) * g_abs).
(** the numbers stay far away from overflow, and the recursion does not amplify its own rounding
    errors without limit *)
Definition sect_ok (s : sect) (x : R) : Prop :=
  rec_gain (s_a1 s) (s_a2 s) (s_G s) /\ s_G s * s_A s <= 2 ^ 44 /\ x <= 2 ^ 900 /\ s_G s * s_B s * (x + 1) <= 2 ^ 900.

(** the whole cascade: inputs bounded by x, already wrong by e *)
Fixpoint sects_ok (l : list sect) (x : R) : Prop :=
  match l with [] => True | s :: l' => sect_ok s x /\ sects_ok l' (out_bound s x) end.
Fixpoint last_bound (l : list sect) (x : R) : R :=
  match l with [] => x | s :: l' => last_bound l' (out_bound s x) end.
Fixpoint total_error (l : list sect) (x e : R) : R :=
  match l with
  | [] => e
  | s :: l' => total_error l' (out_bound s x) (s_G s * s_B s * e + own_error s x)
  end.
(** zs is the exact response of the cascade to xs *)
Fixpoint exact_out (l : list sect) (xs zs : list R) : Prop :=
  match l with
  | [] => zs = xs
  | s :: l' => exists us, diffeq 1 (s_a1 s) (s_a2 s) (s_b0 s) (s_b1 s) (s_b2 s) xs us /\ exact_out l' us zs
  end.

(** s has the coefficients that are stored in b *)
Definition sect_of {m} (b : biquad (F64 m)) (s : sect) : Prop :=
  s_a1 s = B2R (m_a1 b : f64) /\ s_a2 s = B2R (m_a2 b : f64) /\
  s_b0 s = B2R (m_b0 b : f64) /\ s_b1 s = B2R (m_b1 b : f64) /\ s_b2 s = B2R (m_b2 b : f64).
