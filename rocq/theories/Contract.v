(** Model: the filter functions of State.h and Cascade.h under a compiler that contracts a product and a sum
    to a fused multiply-add (the default of GCC where the target has such an instruction, -ffp-contract=fast).
    The compiler may choose differently at every operation and every sample, so the results are a relation. *)
From Coq Require Import ZArith List Bool.
From Flocq Require Import IEEE754.BinarySingleNaN.
From Verif Require Import Num Biquad State Float64.
Import ListNotations.

(** a * b + c with one rounding *)
Definition ffma : f64 -> f64 -> f64 -> f64 := @Bfma 53 1024 Hprec64 Hemax64 mode_NE.

(** the expressions that occur in State.h:71-72,113-114,146-148: variables, products of variables, sums and differences *)
Inductive fexp : Type :=
| EV (x : f64)
| EM (a b : f64)
| EA (e1 e2 : fexp)
| ES (e1 e2 : fexp).

(** possible values.  A product that is an operand of a sum or difference may be fused with it. *)
Inductive cev : fexp -> f64 -> Prop :=
| cev_v x : cev (EV x) x
| cev_m a b : cev (EM a b) (fmul a b)
| cev_a e1 e2 v1 v2 : cev e1 v1 -> cev e2 v2 -> cev (EA e1 e2) (fadd v1 v2)
| cev_s e1 e2 v1 v2 : cev e1 v1 -> cev e2 v2 -> cev (ES e1 e2) (fsub v1 v2)
| cev_al a b e v : cev e v -> cev (EA (EM a b) e) (ffma a b v)
| cev_ar e a b v : cev e v -> cev (EA e (EM a b)) (ffma a b v)
| cev_sl a b e v : cev e v -> cev (ES (EM a b) e) (ffma a b (Bopp v))
| cev_sr e a b v : cev e v -> cev (ES e (EM a b)) (ffma (Bopp a) b v).

Section Contract.
  Context {m : libm}.
  Notation FN := (F64 m).

  (** filter, State.h:68-79 (DirectFormI), 110-120 (DirectFormII), 143-153 (transposed): old state, input, new state, output *)
  Inductive c_filter (b : biquad FN) : st FN -> f64 -> st FN -> f64 -> Prop :=
  | c_df1 (x1 x2 y1 y2 x out : f64) :
      cev (ES (ES (EA (EA (EM (m_b0 b : f64) x) (EM (m_b1 b : f64) x1)) (EM (m_b2 b : f64) x2)) (EM (m_a1 b : f64) y1)) (EM (m_a2 b : f64) y2)) out ->
      c_filter b (S1 (N := FN) x1 x2 y1 y2) x (S1 (N := FN) x x1 out y1) out
  | c_df2 (v1 v2 x w out : f64) :
      cev (ES (ES (EV x) (EM (m_a1 b : f64) v1)) (EM (m_a2 b : f64) v2)) w ->
      cev (EA (EA (EM (m_b0 b : f64) w) (EM (m_b1 b : f64) v1)) (EM (m_b2 b : f64) v2)) out ->
      c_filter b (S2 (N := FN) v1 v2) x (S2 (N := FN) w v1) out
  | c_tdf2 (s1 s1_1 s2 s2_1 x out s1' s2' : f64) :
      cev (EA (EV s1_1) (EM (m_b0 b : f64) x)) out ->
      cev (ES (EA (EV s2_1) (EM (m_b1 b : f64) x)) (EM (m_a1 b : f64) out)) s1' ->
      cev (ES (EM (m_b2 b : f64) x) (EM (m_a2 b : f64) out)) s2' ->
      c_filter b (S3 (N := FN) s1 s1_1 s2 s2_1) x (S3 (N := FN) s1' s1' s2' s2') out.

  (** Cascade.h:157-164: one sample through all sections *)
  Inductive c_loop : list (biquad FN) -> list (st FN) -> f64 -> list (st FN) -> f64 -> Prop :=
  | c_nil x : c_loop [] [] x [] x
  | c_cons b bs s ss x s' y ss' z : c_filter b s x s' y -> c_loop bs ss y ss' z -> c_loop (b :: bs) (s :: ss) x (s' :: ss') z.

  (** a caller's loop of filter calls *)
  Inductive c_run (bs : list (biquad FN)) : list (st FN) -> list f64 -> list f64 -> Prop :=
  | c_done ss : c_run bs ss [] []
  | c_more ss x xs ss' y ys : c_loop bs ss x ss' y -> c_run bs ss' xs ys -> c_run bs ss (x :: xs) (y :: ys).
End Contract.
