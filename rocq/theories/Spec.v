(** Specification notions for signals, independent of the filter model. *)
From Coq Require Import ZArith List Bool.
From Verif Require Import Num Biquad Cascade.
Import ListNotations.

(** feed a signal to a streaming device chunk by chunk *)
Fixpoint feed {S A B : Type} (run : S -> list A -> S * list B) (s : S) (chunks : list (list A))
  : S * list B :=
  match chunks with
  | [] => (s, [])
  | c :: cs => (fst (feed run (fst (run s c)) cs), snd (run s c) ++ snd (feed run (fst (run s c)) cs))
  end.

(** a streaming device is causal, length preserving and does not care how the signal is cut *)
Definition streaming {S A B : Type} (run : S -> list A -> S * list B) : Prop :=
  (forall s xs, length (snd (run s xs)) = length xs) /\
  (forall s n xs ys, firstn n xs = firstn n ys -> firstn n (snd (run s xs)) = firstn n (snd (run s ys))) /\
  (forall s chunks, feed run s chunks = run s (concat chunks)).

(** connect signal processors in series *)
Fixpoint series {A : Type} (fs : list (list A -> list A)) (xs : list A) : list A :=
  match fs with [] => xs | f :: fs' => series fs' (f xs) end.

(** a scipy second order section (b0,b1,b2,a0,a1,a2): is one entry NaN, and the coefficients
    divided by a0 *)
Section Rows.
  Context {N : num}.
  Definition row_nan (r : sosrow N) : bool :=
    let '(b0, b1, b2, a0, a1, a2) := r in
    is_nan a0 || is_nan a1 || is_nan a2 || is_nan b0 || is_nan b1 || is_nan b2.
  Definition row_bq (r : sosrow N) : biquad N :=
    let '(b0, b1, b2, a0, a1, a2) := r in
    MkBiquad a0 (ndiv N a1 a0) (ndiv N a2 a0) (ndiv N b0 a0) (ndiv N b1 a0) (ndiv N b2 a0).

End Rows.
