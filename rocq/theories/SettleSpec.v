(** Specification: sinusoids, and cascades seen as ideal ones without error. *)
From Coq Require Import ZArith List Bool Reals.
From Coquelicot Require Import Coquelicot.
From Flocq Require Import IEEE754.BinarySingleNaN.
From Verif Require Import Num Biquad Float64 FloatSpec RefLibm SigSpec RoundSpec DblSpec ChainSpec RespDblSpec.
Import ListNotations.
Local Open Scope R_scope.

(** sample i of the sinusoid of frequency fr (in cycles per sample) and complex amplitude A: |A| cos (2 pi fr i + arg A); for fr = 0 a constant *)
Definition wave (A : C) (fr : R) (i : nat) : R := fst (A * cis (2 * PI * fr * INR i))%C.
(** finite samples up to X which follow that sinusoid up to e *)
Definition follows (A : C) (fr e X : R) (xs : list f64) : Prop :=
  forall i, (i < length xs)%nat -> FloatSpec.is_fin (nth i xs f0) /\ Rabs (B2R (nth i xs f0)) <= X /\ Rabs (B2R (nth i xs f0) - wave A fr i) <= e.
(** from sample N on ys follows the sinusoid up to e *)
Definition settles (N : nat) (A : C) (fr e : R) (ys : list f64) : Prop :=
  forall i, (N <= i < length ys)%nat -> FloatSpec.is_fin (nth i ys f0) /\ Rabs (B2R (nth i ys f0) - wave A fr i) <= e.
(** stored coefficients taken as they are, with gain bounds of the recursions *)
Definition as_stored {m} (bs : list (biquad (F64 m))) (Gs : list R) : list dsect := map (fun p => DSect (stored (fst p)) (snd p) 0 0) (combine bs Gs).
