(** Specification: what a designed filter does. *)
From Coq Require Import ZArith List Bool Reals.
From Coquelicot Require Import Coquelicot.
From Verif Require Import Num Outcome Types Biquad State Cascade PoleFilter Exact SigSpec PZSpec ChebSpec.
Local Open Scope R_scope.

(** order n was asked for: setupN(n, ...) or, for n = FilterOrder, setupN(...) *)
Definition requested (FO : Z) (req : option Z) (n : nat) : Prop :=
  match req with Some o => o = Z.of_nat n | None => FO = Z.of_nat n end.

(** Squared gain of the normalised low pass of each family at the frequency W (None = infinite).
    [db] is the pass band ripple (Chebyshev I) or the stop band rejection (Chebyshev II). *)
Definition eps2 (fam : family) (db : R) : R :=
  match fam with
  | Bw => 1
  | Ch1 => Rpower 10 (db / 10) - 1
  | Ch2 => 1 / (Rpower 10 (db / 10) - 1)
  end.
Definition gain2 (fam : family) (n : nat) (db : R) (W : option R) : R :=
  match fam, W with
  | Bw, Some w => 1 / (1 + w ^ (2 * n))
  | Bw, None => 0
  | Ch1, Some w => 1 / (1 + eps2 Ch1 db * cheb n w ^ 2)
  | Ch1, None => 0
  | Ch2, Some w =>
      if Req_EM_T w 0 then 1
      else let t := eps2 Ch2 db * cheb n (1 / w) ^ 2 in t / (1 + t)
  | Ch2, None => let t := eps2 Ch2 db * cheb n 0 ^ 2 in t / (1 + t)
  end.
(** squared gain of the Chebyshev II low pass with rejection db at 1/W:
    1/(1 + 1/(eps^2 T_n(1/W)^2)) with eps^2 = 1/(10^(db/10) - 1), written without the inner division *)
Definition rej2 (n : nat) (db w : R) : R := cheb n w ^ 2 / (Rpower 10 (db / 10) - 1 + cheb n w ^ 2).
(** the ripple argument is used by Chebyshev filters only *)
Definition db_ok (fam : family) (db : R) : Prop := match fam with Bw => True | _ => 0 < db end.

Section Spec.
  Context {strict : bool}.
  Notation XS := (X strict).

  (** response(f) is a complex number with squared absolute value m2 *)
  Definition responds (fl : filt XS) (f m2 : R) : Prop :=
    exists h : C, filt_response (N := XS) fl (XR f) = Val (xc h) /\ Cmod h ^ 2 = m2.

  (** finite coefficients and all poles strictly inside the unit circle, stage by stage *)
  Definition stable_filter (fl : filt XS) : Prop :=
    List.Forall fin_bq (fl_stages fl) /\ List.Forall stable_bq (fl_stages fl).

  (** getPoleZeros() returns one pole/zero pair per active stage: real or conjugate, poles inside the
      unit circle, zeros in Z; the stored sections of the active stages have these poles and zeros, the other
      stages are identities; and the response is the rational function with these poles and zeros
      and a positive factor.
      A single pole and zero is paired with a pole and zero at 0. *)
  Definition reports (fl : filt XS) (Z : pzc -> Prop) : Prop :=
    exists (ps : list pzc) (K : R),
      filt_getPoleZeros fl = Val (map xpz ps) /\ Z.of_nat (length ps) = filt_numStages fl /\
      List.Forall pz_ok ps /\
      List.Forall (fun p => Cmod (zp1 p) < 1 /\ Cmod (zp2 p) < 1) ps /\
      List.Forall Z ps /\ 0 < K /\
      (exists used rest, fl_stages fl = (used ++ rest)%list /\ List.Forall identity_bq rest /\
         List.Forall2 (fun p b => exists k, k <> 0 /\ realises p k b) ps used) /\
      forall f, 0 <= f <= 1 / 2 ->
        filt_response fl (XR f) = Val (xc (RtoC K * cprod (map (fun p => pz_num p (cis (- (2 * PI * f)))) ps) /
                                           cprod (map (fun p => pz_den p (cis (- (2 * PI * f)))) ps))%C).
  Definition on_circle (p : pzc) : Prop := Cmod (zz1 p) = 1 /\ (zz2 p = RtoC 0 \/ Cmod (zz2 p) = 1).
  Definition in_circle (p : pzc) : Prop := Cmod (zz1 p) < 1 /\ Cmod (zz2 p) < 1.
End Spec.
