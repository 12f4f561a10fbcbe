(** Specification: a cascade that runs on with whatever its delay lines hold (no reset). *)
From Coq Require Import ZArith List Bool Reals.
From Flocq Require Import IEEE754.BinarySingleNaN.
From Verif Require Import Num Biquad State RealNum Float64 FloatSpec SigSpec RoundSpec.
Import ListNotations.
Local Open Scope R_scope.

(** what the delay lines hold acts like two extra inputs of the recursion, one at the first and one at the second sample *)
Definition left_over {m} (b : biquad (F64 m)) (s : st (F64 m)) : R * R :=
  let a1 := B2R (m_a1 b : f64) in let a2 := B2R (m_a2 b : f64) in
  let b0 := B2R (m_b0 b : f64) in let b1 := B2R (m_b1 b : f64) in let b2 := B2R (m_b2 b : f64) in
  match s with
  | S1 x1 x2 y1 y2 =>
      (b1 * B2R (x1 : f64) + b2 * B2R (x2 : f64) - a1 * B2R (y1 : f64) - a2 * B2R (y2 : f64), b2 * B2R (x1 : f64) - a2 * B2R (y1 : f64))
  | S2 v1 v2 =>
      ((b1 - a1 * b0) * B2R (v1 : f64) + (b2 - a2 * b0) * B2R (v2 : f64), (b2 - a2 * b0) * B2R (v1 : f64) + (a1 * b2 - a2 * b1) * B2R (v2 : f64))
  | S3 _ s1 _ s2 => (B2R (s1 : f64), B2R (s2 : f64))
  end.
Definition lefts {m} (bs : list (biquad (F64 m))) (ss : list (st (F64 m))) : list (R * R) :=
  map (fun p => left_over (fst p) (snd p)) (combine bs ss).
(** the numbers that matter in the delay lines are finite and at most c *)
Definition within (c : R) (v : f64) : Prop := is_finite v = true /\ Rabs (B2R v) <= c.
Definition st_within {m} (c : R) (s : st (F64 m)) : Prop :=
  match s with
  | S1 x1 x2 y1 y2 => within c x1 /\ within c x2 /\ within c y1 /\ within c y2
  | S2 v1 v2 => within c v1 /\ within c v2
  | S3 _ s1 _ s2 => within c s1 /\ within c s2
  end.

(** the difference equation with the two extra inputs k *)
Definition rings (a1 a2 b0 b1 b2 : R) (k : R * R) (xs zs : list R) : Prop :=
  length zs = length xs /\
  forall n, (n < length xs)%nat ->
    back zs n 0 + a1 * back zs n 1 + a2 * back zs n 2 =
    b0 * back xs n 0 + b1 * back xs n 1 + b2 * back xs n 2 + match n with 0%nat => fst k | 1%nat => snd k | _ => 0 end.
(** zs is the exact output of the cascade l for the input xs when the delay lines leave ks *)
Fixpoint exact_from (l : list sect) (ks : list (R * R)) (xs zs : list R) : Prop :=
  match l, ks with
  | [], [] => zs = xs
  | s :: l', k :: ks' => exists us, rings (s_a1 s) (s_a2 s) (s_b0 s) (s_b1 s) (s_b2 s) k xs us /\ exact_from l' ks' us zs
  | _, _ => False
  end.

(** inputs up to x, delay lines up to c: level of the signals in a section, its outputs and its own rounding error *)
Definition lvl (s : sect) (c x : R) : R := s_B s * x + (1 + s_A s) * (1 + s_B s) * c.
Definition out_from (s : sect) (c x : R) : R := 4 * s_G s * (lvl s c x + (1 + s_B s) * g_abs).
Definition err_from (s : sect) (c x : R) : R :=
  3 * s_G s * (g_rel * (1 + 2 * s_A s * s_G s) * (lvl s c x + (1 + s_B s) * g_abs) + (1 + s_B s) * g_abs).
Definition sect_ok_from (s : sect) (c x : R) : Prop :=
  rec_gain (s_a1 s) (s_a2 s) (s_G s) /\ s_G s * s_A s <= 2 ^ 44 /\ x + (1 + s_A s) * c <= 2 ^ 900 /\ s_G s * (lvl s c x + s_B s) <= 2 ^ 900.
Fixpoint ok_from (l : list sect) (c x : R) : Prop :=
  match l with [] => True | s :: l' => sect_ok_from s c x /\ ok_from l' c (out_from s c x) end.
Fixpoint bound_from (l : list sect) (c x : R) : R :=
  match l with [] => x | s :: l' => bound_from l' c (out_from s c x) end.
Fixpoint error_from (l : list sect) (c x e : R) : R :=
  match l with
  | [] => e
  | s :: l' => error_from l' c (out_from s c x) (s_G s * s_B s * e + err_from s c x)
  end.
(** bound on what the delay lines of the cascade hold after any number of samples *)
Definition hold_from (s : sect) (c x : R) : R := 4 * s_G s * (1 + s_A s) * (x + lvl s c x + g_abs).
Fixpoint held (l : list sect) (c x : R) : R :=
  match l with [] => c | s :: l' => Rmax (hold_from s c x) (held l' c (out_from s c x)) end.

(** geometric forgetting: two runs that differ only in the delay lines (both up to c) come together like e / rho^n *)
Definition rate_ok (rho : R) (l : list sect) : Prop := 1 <= rho /\ List.Forall (fun s => s_G s * s_A s * (rho ^ 2 - 1) <= 1 / 2) l.
Fixpoint fade (rho : R) (l : list sect) (c e : R) : R :=
  match l with
  | [] => e
  | s :: l' => fade rho l' c (2 * s_G s * rho ^ 2 * (s_B s * e + 2 * (1 + s_A s) * (1 + s_B s) * c))
  end.

(** the same cascade over the real numbers: coefficients and delay lines read as real numbers *)
Definition real_bq {m} (b : biquad (F64 m)) : biquad RN :=
  @MkBiquad RN 1 (B2R (m_a1 b : f64)) (B2R (m_a2 b : f64)) (B2R (m_b0 b : f64)) (B2R (m_b1 b : f64)) (B2R (m_b2 b : f64)).
Definition real_st {m} (s : st (F64 m)) : st RN :=
  match s with
  | S1 x1 x2 y1 y2 => @S1 RN (B2R (x1 : f64)) (B2R (x2 : f64)) (B2R (y1 : f64)) (B2R (y2 : f64))
  | S2 v1 v2 => @S2 RN (B2R (v1 : f64)) (B2R (v2 : f64))
  | S3 r1 s1 r2 s2 => @S3 RN (B2R (r1 : f64)) (B2R (s1 : f64)) (B2R (r2 : f64)) (B2R (s2 : f64))
  end.
