(** The contracted run of Contract.v with the delay lines it leaves behind. *)
From Coq Require Import List.
From Verif Require Import Num Biquad State Float64 Contract.
Import ListNotations.

(** a caller's loop of filter calls (Cascade.h:157-164), as c_run of Contract.v: old delay lines, inputs, new delay lines, outputs *)
Inductive c_to {m : libm} (bs : list (biquad (F64 m))) : list (st (F64 m)) -> list f64 -> list (st (F64 m)) -> list f64 -> Prop :=
| to_done ss : c_to bs ss [] ss []
| to_more ss x xs ss' y ys ss'' : c_loop bs ss x ss' y -> c_to bs ss' xs ss'' ys -> c_to bs ss (x :: xs) ss'' (y :: ys).
