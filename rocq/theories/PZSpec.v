(** Specification: pole/zero pairs and the transfer functions they stand for. *)
From Coq Require Import ZArith List Bool Reals.
From Coquelicot Require Import Coquelicot.
From Verif Require Import Num Types Biquad Exact SigSpec.
Import ListNotations.
Local Open Scope R_scope.

(** two poles and two zeros *)
Record pzc : Type := PZc { zp1 : C; zp2 : C; zz1 : C; zz2 : C }.

(** both real, or conjugates of each other *)
Definition conj_or_real (c d : C) : Prop := (snd c = 0 /\ snd d = 0) \/ d = Cconj c.
Definition pz_ok (p : pzc) : Prop := conj_or_real (zp1 p) (zp2 p) /\ conj_or_real (zz1 p) (zz2 p).

(** numerator and denominator of the transfer function at u = 1/z *)
Definition pz_num (p : pzc) (u : C) : C := ((1 - zz1 p * u) * (1 - zz2 p * u))%C.
Definition pz_den (p : pzc) (u : C) : C := ((1 - zp1 p * u) * (1 - zp2 p * u))%C.

Section Emb.
  Context {strict : bool}.
  (** the pair as a value of the model (Types.h:92-111) *)
  Definition xpz (p : pzc) : pzpair (X strict) :=
    PZ (N := X strict) (CPair (N := X strict) (xc (zp1 p)) (xc (zp2 p)))
       (CPair (N := X strict) (xc (zz1 p)) (xc (zz2 p))).

  (** a second order section with the given poles and zeros and gain k *)
  Definition realises (p : pzc) (k : R) (b : biquad (X strict)) : Prop :=
    exists a1 a2 b0 b1 b2, b = @MkBiquad (X strict) (XR 1) (XR a1) (XR a2) (XR b0) (XR b1) (XR b2) /\
    forall u : C, poly2 1 a1 a2 u = pz_den p u /\ poly2 b0 b1 b2 u = (RtoC k * pz_num p u)%C.

  (** a section that does nothing *)
  Definition identity_bq (b : biquad (X strict)) : Prop :=
    b = @MkBiquad (X strict) (XR 1) (XR 0) (XR 0) (XR 1) (XR 0) (XR 0).
End Emb.
