(** Specification: a cascade in binary64 whose coefficients are not quite those of the ideal cascade; Butterworth filters. *)
From Coq Require Import ZArith List Bool Reals.
From Flocq Require Import IEEE754.BinarySingleNaN.
From Verif Require Import Num Biquad Float64 SigSpec RoundSpec DblSpec BwDblSpec.
Import ListNotations.
Local Open Scope R_scope.

(** zs is the response of the ideal cascade to xs, without rounding *)
Fixpoint ideal_out (l : list ideal) (xs zs : list R) : Prop :=
  match l with
  | [] => zs = xs
  | d :: l' => exists us, diffeq 1 (i_a1 d) (i_a2 d) (i_b0 d) (i_b1 d) (i_b2 d) xs us /\ ideal_out l' us zs
  end.

(** an ideal section, a gain bound of its recursion, and error bounds for the stored a's and b's *)
Record dsect := DSect { d_id : ideal; d_G : R; d_ea : R; d_eb : R }.
Definition stored_near {m} (b : biquad (F64 m)) (d : dsect) : Prop :=
  Rabs (B2R (m_a1 b : f64) - i_a1 (d_id d)) <= d_ea d /\ Rabs (B2R (m_a2 b : f64) - i_a2 (d_id d)) <= d_ea d /\
  Rabs (B2R (m_b0 b : f64) - i_b0 (d_id d)) <= d_eb d /\ Rabs (B2R (m_b1 b : f64) - i_b1 (d_id d)) <= d_eb d /\
  Rabs (B2R (m_b2 b : f64) - i_b2 (d_id d)) <= d_eb d.
Definition i_B (i : ideal) : R := Rabs (i_b0 i) + Rabs (i_b1 i) + Rabs (i_b2 i).
Definition d_A (d : dsect) : R := Rabs (i_a1 (d_id d)) + Rabs (i_a2 (d_id d)) + 2 * d_ea d.
Definition d_B (d : dsect) : R := i_B (d_id d) + 3 * d_eb d.
(** outputs of the section for inputs up to x, and the error it adds: rounding, then wrong coefficients *)
Definition d_out (d : dsect) (x : R) : R := 8 * d_G d * (d_B d * x + (1 + d_B d) * g_abs).
Definition d_err (d : dsect) (x : R) : R :=
  6 * d_G d * (g_rel * (1 + 4 * d_A d * d_G d) * (d_B d * x + (1 + d_B d) * g_abs) + (1 + d_B d) * g_abs) +
  d_G d * (3 * d_eb d * x + 4 * d_ea d * d_G d * d_B d * x).
Definition d_ok (d : dsect) (x : R) : Prop :=
  rec_gain (i_a1 (d_id d)) (i_a2 (d_id d)) (d_G d) /\ 4 * d_ea d * d_G d <= 1 /\ 2 * d_G d * d_A d <= 2 ^ 44 /\
  x <= 2 ^ 900 /\ 2 * d_G d * d_B d * (x + 1) <= 2 ^ 900.
Fixpoint chain_ok (l : list dsect) (x : R) : Prop :=
  match l with [] => True | d :: l' => d_ok d x /\ chain_ok l' (d_out d x) end.
Fixpoint chain_bound (l : list dsect) (x : R) : R :=
  match l with [] => x | d :: l' => chain_bound l' (d_out d x) end.
(** inputs up to x, already wrong by e *)
Fixpoint chain_error (l : list dsect) (x e : R) : R :=
  match l with [] => e | d :: l' => chain_error l' (d_out d x) (d_G d * i_B (d_id d) * e + d_err d x) end.

(** ** Butterworth low and high pass *)
Definition scaled (d : ideal) (s : R) : ideal := Ideal (i_a1 d) (i_a2 d) (i_b0 d * s) (i_b1 d * s) (i_b2 d * s).
Definition bw_section (hp : bool) (f : R) (n i : nat) : ideal := scaled (bw_ideal hp f n i) (if Nat.eqb i 0 then bw_scale hp f n else 1).
Definition bw_cascade (hp : bool) (f : R) (n : nat) : list ideal := map (bw_section hp f n) (seq 0 (bw_sections n)).
(** gain of the recursion of section i: (1 + (1 + t^2) / (2 t |c|))^2, c the cosine of the pole's angle *)
Definition bw_gain (f : R) (n i : nat) : R :=
  let t := tan (PI * f) in let c := if Nat.ltb i (n / 2) then cos (bw_angle n i) else -1 in (1 + (1 + t ^ 2) / (2 * t * - c)) ^ 2.
Definition bw_chain (hp : bool) (f : R) (n : nat) : list dsect :=
  map (fun i => DSect (bw_section hp f n i) (bw_gain f n i) (bw_error f) (if Nat.eqb i 0 then bw_scale_error hp f n * bw_scale hp f n else 0))
    (seq 0 (bw_sections n)).
