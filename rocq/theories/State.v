(** /repo/iir/State.h: the three filter topologies *)
From Coq Require Import ZArith List Bool.
From Verif Require Import Num Outcome Biquad.
Import ListNotations.

(** The StateType template argument *)
Inductive topo : Type := DF1 | DF2 | TDF2.

Section State.
  Context {N : num}.
  Local Open Scope num_scope.

  (** Delay lines.  The constructor says which class the object is an instance of. *)
  Inductive st : Type :=
  | S1 (x1 x2 y1 y2 : T N)          (* DirectFormI, State.h:82-85 *)
  | S2 (v1 v2 : T N)                (* DirectFormII, State.h:123-124 *)
  | S3 (s1 s1_1 s2 s2_1 : T N).     (* TransposedDirectFormII, State.h:156-159 *)

  (** default member initialisers, State.h:82-85,123-124,156-159 *)
  Definition st_init (t : topo) : st :=
    match t with
    | DF1 => S1 #0 #0 #0 #0
    | DF2 => S2 #0 #0
    | TDF2 => S3 #0 #0 #0 #0
    end.

  (** reset, State.h:60-66,104-108,135-141 *)
  Definition st_reset (s : st) : st :=
    match s with
    | S1 _ _ _ _ => S1 #0 #0 #0 #0
    | S2 _ _ => S2 #0 #0
    | S3 _ _ _ _ => S3 #0 #0 #0 #0
    end.

  (** filter, State.h:68-79 (DirectFormI), 110-120 (DirectFormII), 143-153 (transposed) *)
  Definition st_filter (s : st) (b : biquad N) (x : T N) : st * T N :=
    match s with
    | S1 x1 x2 y1 y2 =>
        let out := m_b0 b * x + m_b1 b * x1 + m_b2 b * x2 - m_a1 b * y1 - m_a2 b * y2 in
        (S1 x x1 out y1, out)
    | S2 v1 v2 =>
        let w := x - m_a1 b * v1 - m_a2 b * v2 in
        let out := m_b0 b * w + m_b1 b * v1 + m_b2 b * v2 in
        (S2 w v1, out)
    | S3 s1 s1_1 s2 s2_1 =>
        let out := s1_1 + m_b0 b * x in
        let s1' := s2_1 + m_b1 b * x - m_a1 b * out in
        let s2' := m_b2 b * x - m_a2 b * out in
        (S3 s1' s1' s2' s2', out)
    end.

  Definition st_topo (s : st) : topo :=
    match s with S1 _ _ _ _ => DF1 | S2 _ _ => DF2 | S3 _ _ _ _ => TDF2 end.

  (** Repeated calls of filter on one biquad, oldest sample first (Biquad.h:104-108 with
      a caller's loop) *)
  Fixpoint bq_run (b : biquad N) (s : st) (xs : list (T N)) : st * list (T N) :=
    match xs with
    | [] => (s, [])
    | x :: xs' =>
        let '(s', y) := st_filter s b x in
        let '(s'', ys) := bq_run b s' xs' in
        (s'', y :: ys)
    end.
End State.
Arguments st : clear implicits.
