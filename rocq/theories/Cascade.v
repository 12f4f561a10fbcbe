(** /repo/iir/Cascade.h, /repo/iir/Cascade.cpp *)
From Coq Require Import ZArith List Bool.
From Verif Require Import Num Outcome Types Biquad State.
Import ListNotations.

Section Cascade.
  Context {N : num}.
  Notation C := (cpx (T N)).
  Local Open Scope num_scope.

  (** Cascade.h:103-105.  [c_stages] is the array [m_stageArray] points to. *)
  Record cascade : Type := MkCascade {
    c_numStages : Z;
    c_maxStages : Z;
    c_stages : list (biquad N)
  }.
  Definition c_set_stages (l : list (biquad N)) (c : cascade) : cascade :=
    MkCascade (c_numStages c) (c_maxStages c) l.

  (** Cascade.h:53,103-105 *)
  Definition cascade0 : cascade := MkCascade 0 0 [].

  (** Cascade.cpp:45-50 setCascadeStorage *)
  Definition setCascadeStorage (maxStages : Z) (arr : list (biquad N)) : cascade :=
    MkCascade 0 maxStages arr.

  (** Cascade.h:78-83 operator[] *)
  Definition cas_index (c : cascade) (i : Z) : oc (biquad N) :=
    odo _ <- othrow_if ((i <? 0)%Z || (c_numStages c <=? i)%Z) E_index;
    oor_ub (aget (c_stages c) i).

  (** Cascade.cpp:62-73: the loop over the first m_numStages stages; running off the
      array is undefined behaviour *)
  Fixpoint resp_loop (czn1 czn2 : C) (stages : list (biquad N)) (n : nat) (ch cbot : C)
    : oc (C * C) :=
    match n with
    | O => Val (ch, cbot)
    | S n' =>
        match stages with
        | [] => Undef
        | b :: stages' =>
            resp_loop czn1 czn2 stages' n'
              (ncmul N ch (stage_top czn1 czn2 b)) (ncmul N cbot (stage_bot czn1 czn2 b))
        end
    end.

  (** Cascade.cpp:52-76 response *)
  Definition cas_response (c : cascade) (f : T N) : oc C :=
    odo _ <- othrow_if (ngtb f (nlit N 1 2)) E_maxF;
    odo _ <- othrow_if (nltb N f #0) E_minF;
    let w := #2 * npi N * f in
    odo czn1 <- oor_ub (npolar N #1 (- w));
    odo czn2 <- oor_ub (npolar N #1 (#(-2) * w));
    odo (ch, cbot) <- resp_loop czn1 czn2 (c_stages c) (Z.to_nat (c_numStages c)) (c_of #1) (c_of #1);
    Val (ncdiv N ch cbot).

  (** Cascade.cpp:78-91 getPoleZeros *)
  Fixpoint pz_loop (stages : list (biquad N)) (n : nat) : oc (list (pzpair N)) :=
    match n with
    | O => Val []
    | S n' =>
        match stages with
        | [] => Undef
        | b :: stages' =>
            odo bps <- bps_of b;
            odo rest <- pz_loop stages' n';
            Val (bps_pair bps :: rest)
        end
    end.
  Definition cas_getPoleZeros (c : cascade) : oc (list (pzpair N)) :=
    pz_loop (c_stages c) (Z.to_nat (c_numStages c)).

  (** call a Biquad method on stage i through the array pointer *)
  Definition on_stage (i : Z) (m : M (biquad N) unit) : M cascade unit :=
    do c <- get;
    do b <- or_ub (aget (c_stages c) i);
    match m b with
    | Ok b' _ => do l <- or_ub (aset (c_stages c) i b'); put (c_set_stages l c)
    | Throw e b' => do l <- or_ub (aset (c_stages c) i b'); put (c_set_stages l c) ;; throw e
    | UB => ub
    end.

  (** Cascade.cpp:93-97 applyScale *)
  Definition cas_applyScale (scale : T N) : M cascade unit :=
    do c <- get;
    if (c_numStages c <? 1)%Z then ret tt
    else on_stage 0 (modify (bq_applyScale scale)).

  (** Cascade.cpp:100-117 setLayout *)
  Definition setLayout (proto : layout N) : M cascade unit :=
    modify (fun c => MkCascade (Z.quot (l_numPoles proto + 1) 2) (c_maxStages c) (c_stages c)) ;;
    do c <- get;
    throw_if (c_maxStages c <? c_numStages c)%Z E_stages ;;
    mfor (zrange (c_maxStages c)) (fun i => on_stage i setIdentity) ;;
    mfor (zrange (c_numStages c)) (fun i =>
      do p <- lift (lay_getPair proto i);
      on_stage i (setPoleZeroPair p)) ;;
    do c <- get;
    do r <- lift (cas_response c (l_normalW proto / (#2 * npi N)));
    cas_applyScale (l_normalGain proto / ncabs N r).

  (** Cascade.h:115-178 CascadeStages<MaxStages, StateType>: coefficients and delay lines *)
  Record cstages : Type := MkCStages {
    cs_stages : list (biquad N);  (* Cascade.h:176 *)
    cs_states : list (st N)       (* Cascade.h:177 *)
  }.

  (** Cascade.h:119,176-177 *)
  Definition cstages_init (t : topo) (maxStages : nat) : cstages :=
    MkCStages (repeat biquad0 maxStages) (repeat (st_init t) maxStages).

  (** Cascade.h:126-130 reset *)
  Definition cs_reset (c : cstages) : cstages :=
    MkCStages (cs_stages c) (map st_reset (cs_states c)).

  (** Cascade.h:156-164 filter, loop body on (stages, states) *)
  Fixpoint cs_loop (stages : list (biquad N)) (states : list (st N)) (out : T N)
    : list (st N) * T N :=
    match stages, states with
    | b :: stages', s :: states' =>
        let '(s', y) := st_filter s b out in
        let '(states'', z) := cs_loop stages' states' y in
        (s' :: states'', z)
    | _, _ => (states, out)   (* the arrays have the same length MaxStages *)
    end.

  (** Cascade.h:157-164 with Sample = double *)
  Definition cs_filter (c : cstages) (x : T N) : cstages * T N :=
    let '(states', y) := cs_loop (cs_stages c) (cs_states c) x in
    (MkCStages (cs_stages c) states', y).

  (** a caller's loop of filter calls *)
  Fixpoint cs_run (c : cstages) (xs : list (T N)) : cstages * list (T N) :=
    match xs with
    | [] => (c, [])
    | x :: xs' =>
        let '(c', y) := cs_filter c x in
        let '(c'', ys) := cs_run c' xs' in
        (c'', y :: ys)
    end.

  (** Cascade.h:156-164 with another Sample type: conversion in, static_cast out
      (None: the cast is undefined behaviour) *)
  Record sample : Type := MkSample {
    smp : Type;
    smp_in : smp -> T N;
    smp_out : T N -> option smp
  }.
  Definition cs_filter_as (S : sample) (x : smp S) : M cstages (smp S) :=
    fun c => let '(c', y) := cs_filter c (smp_in S x) in
             match smp_out S y with Some z => Ok c' z | None => UB end.

  (** Cascade.h:138-148 setup: one row is (b0,b1,b2,a0,a1,a2) *)
  Definition sosrow : Type := (T N * T N * T N * T N * T N * T N)%type.
  Definition set_row (r : sosrow) : M (biquad N) unit :=
    let '(r0, r1, r2, r3, r4, r5) := r in setCoefficients r3 r4 r5 r0 r1 r2.
  Fixpoint sos_loop (rows : list sosrow) (stages : list (biquad N))
    : res (list (biquad N)) unit :=
    match rows with
    | [] => Ok stages tt
    | r :: rows' =>
        match stages with
        | [] => UB
        | b :: stages' =>
            match set_row r b with
            | Ok b' _ =>
                match sos_loop rows' stages' with
                | Ok l _ => Ok (b' :: l) tt
                | Throw e l => Throw e (b' :: l)
                | UB => UB
                end
            | Throw e b' => Throw e (b' :: stages')
            | UB => UB
            end
        end
    end.
  Definition cs_setup (rows : list sosrow) : M cstages unit :=
    zoom cs_stages (fun l c => MkCStages l (cs_states c)) (sos_loop rows).
End Cascade.
Arguments cascade : clear implicits.
Arguments cstages : clear implicits.
Arguments sample : clear implicits.
Arguments sosrow : clear implicits.
