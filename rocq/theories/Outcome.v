(** Outcomes of C++ code: normal result, exception, undefined behaviour. *)
From Coq Require Import ZArith List Bool.
Import ListNotations.

(** The distinct std::invalid_argument messages thrown through
    /repo/iir/Common.h:78-87 [throw_invalid_argument].  (With IIR1_NO_EXCEPTIONS the
    program aborts instead; only the default build is modelled.) *)
Inductive err : Type :=
| E_nan_a0 | E_nan_a1 | E_nan_a2 | E_nan_b0 | E_nan_b1 | E_nan_b2 (* Biquad.cpp:126-131 *)
| E_pole_imag | E_zero_imag                       (* Biquad.cpp:143-144 *)
| E_poles_conj | E_zeros_conj                     (* Biquad.cpp:162-163 *)
| E_bps_poles_nan | E_bps_zeros_nan               (* Biquad.cpp:66,75 *)
| E_maxF | E_minF                                 (* Cascade.cpp:39-40 *)
| E_stages                                        (* Cascade.cpp:105 *)
| E_index                                         (* Cascade.h:81 *)
| E_pole_nan | E_zero_nan                         (* Layout.h:49-50 *)
| E_2nd_after_1st                                 (* Layout.h:52 *)
| E_lay_poles_conj | E_lay_zeros_conj             (* Layout.h:54-55 *)
| E_pair_index                                    (* Layout.h:57 *)
| E_single_not_real                               (* Types.h:54 *)
| E_cutoff_high | E_cutoff_neg                    (* PoleFilter.cpp:44-45 *)
| E_order                                         (* Common.h:69 *)
| E_no_solution.                                  (* RBJ.cpp:188 *)

(** Result of code that does not mutate anything. *)
Inductive oc (A : Type) : Type :=
| Val (a : A)
| Exc (e : err)
| Undef.                     (* undefined behaviour *)
Arguments Val {A} _.
Arguments Exc {A} _.
Arguments Undef {A}.

(** Result of code that mutates a state [S].  A throw keeps the mutated state: C++ does
    not roll back. *)
Inductive res (S A : Type) : Type :=
| Ok (s : S) (a : A)
| Throw (e : err) (s : S)
| UB.
Arguments Ok {S A} _ _.
Arguments Throw {S A} _ _.
Arguments UB {S A}.

Definition M (S A : Type) : Type := S -> res S A.

Definition oret {A} (a : A) : oc A := Val a.
Definition obind {A B} (m : oc A) (f : A -> oc B) : oc B :=
  match m with Val a => f a | Exc e => Exc e | Undef => Undef end.

Definition ret {S A} (a : A) : M S A := fun s => Ok s a.
Definition bind {S A B} (m : M S A) (f : A -> M S B) : M S B :=
  fun s => match m s with
           | Ok s' a => f a s'
           | Throw e s' => Throw e s'
           | UB => UB
           end.
Definition throw {S A} (e : err) : M S A := fun s => Throw e s.
Definition ub {S A} : M S A := fun _ => UB.
Definition get {S} : M S S := fun s => Ok s s.
Definition put {S} (s : S) : M S unit := fun _ => Ok s tt.
Definition modify {S} (f : S -> S) : M S unit := fun s => Ok (f s) tt.
Definition lift {S A} (o : oc A) : M S A :=
  match o with Val a => ret a | Exc e => throw e | Undef => ub end.
(** [if (b) throw_invalid_argument(e);] *)
Definition throw_if {S} (b : bool) (e : err) : M S unit := if b then throw e else ret tt.
Definition othrow_if (b : bool) (e : err) : oc unit := if b then Exc e else Val tt.
(** option as UB *)
Definition or_ub {S A} (o : option A) : M S A :=
  match o with Some a => ret a | None => ub end.
Definition oor_ub {A} (o : option A) : oc A :=
  match o with Some a => Val a | None => Undef end.

(** run code on a part of the state *)
Definition zoom {S S1 A} (g : S -> S1) (p : S1 -> S -> S) (m : M S1 A) : M S A :=
  fun s => match m (g s) with
           | Ok s1 a => Ok (p s1 s) a
           | Throw e s1 => Throw e (p s1 s)
           | UB => UB
           end.

Notation "'do' x <- m ; k" := (bind m (fun x => k))
  (at level 200, x pattern, m at level 100, k at level 200, right associativity).
Notation "m ;; k" := (bind m (fun _ => k)) (at level 100, right associativity).
Notation "'odo' x <- m ; k" := (obind m (fun x => k))
  (at level 200, x pattern, m at level 100, k at level 200, right associativity).

(** [for (i in l) f(i);] *)
Fixpoint mfor {S I} (l : list I) (f : I -> M S unit) : M S unit :=
  match l with
  | [] => ret tt
  | i :: l' => f i ;; mfor l' f
  end.

(** [0, 1, ..., n-1] as ints (empty when n <= 0) *)
Definition zrange (n : Z) : list Z := map Z.of_nat (seq 0 (Z.to_nat n)).

(** a[i] = x on an array; None when out of range *)
Fixpoint upd {A} (l : list A) (i : nat) (x : A) : list A :=
  match l, i with
  | [], _ => []
  | _ :: l', O => x :: l'
  | y :: l', S i' => y :: upd l' i' x
  end.
Definition aget {A} (l : list A) (i : Z) : option A :=
  if (i <? 0)%Z then None else nth_error l (Z.to_nat i).
Definition aset {A} (l : list A) (i : Z) (x : A) : option (list A) :=
  if (i <? 0)%Z || (Z.of_nat (length l) <=? i)%Z then None else Some (upd l (Z.to_nat i) x).

(** C++ int *)
Definition int_min : Z := (-2147483648)%Z.
Definition int_max : Z := 2147483647%Z.
Definition in_int (z : Z) : bool := (int_min <=? z)%Z && (z <=? int_max)%Z.
(** signed overflow is undefined behaviour *)
Definition int_ub (z : Z) : option Z := if in_int z then Some z else None.
