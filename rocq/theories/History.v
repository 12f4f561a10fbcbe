(** Call histories of one filter object (used to state properties "for every reachable
    filter"). *)
From Coq Require Import ZArith List Bool.
From Verif Require Import Num Outcome Types Biquad State Cascade PoleFilter.
Import ListNotations.

Section History.
  Context {N : num}.

  Inductive op : Type :=
  | OpSetupN (reqOrder : option Z) (q : params N)
  | OpSetup (reqOrder : option Z) (sampleRate : T N) (q : params N)
  | OpFilter (x : T N)
  | OpReset
  | OpAssign (other : filt N).

  (** state after a call that returned or threw; None: undefined behaviour *)
  Definition after {S A} (r : res S A) : option S :=
    match r with Ok s _ => Some s | Throw _ s => Some s | UB => None end.

  Definition step (k : kind) (FO : Z) (o : op) (f : filt N) : option (filt N) :=
    match o with
    | OpSetupN r q => after (filt_setupN k FO r q f)
    | OpSetup r sr q => after (filt_setup k FO r sr q f)
    | OpFilter x => Some (fst (filt_filter f x))
    | OpReset => Some (filt_reset f)
    | OpAssign g => Some (filt_assign f g)
    end.

  (** every exception is caught by the caller, who goes on using the filter *)
  Fixpoint steps (k : kind) (FO : Z) (os : list op) (f : filt N) : option (filt N) :=
    match os with
    | [] => Some f
    | o :: os' => match step k FO o f with Some f' => steps k FO os' f' | None => None end
    end.

  (** f is a filter object of class k<FO, t> after some history of calls *)
  Definition reachable (t : topo) (k : kind) (FO : Z) (f : filt N) : Prop :=
    exists os, steps k FO os (filt_init t k FO) = Some f.

  (** the order argument does not make 2*order overflow an int *)
  Definition order_ok (r : option Z) : Prop :=
    match r with Some o => in_int (2 * o) = true | None => True end.
  Definition op_ok (o : op) : Prop :=
    match o with
    | OpSetupN r _ => order_ok r
    | OpSetup r _ _ => order_ok r
    | _ => True
    end.

  (** reachable by calls whose order arguments do not overflow *)
  Definition reachable_ok (t : topo) (k : kind) (FO : Z) (f : filt N) : Prop :=
    exists os, Forall op_ok os /\ steps k FO os (filt_init t k FO) = Some f.

  Definition is_filter_op (o : op) : bool := match o with OpFilter _ => true | _ => false end.

  (** everything a caller can see of a filter is the same: response(), getPoleZeros(),
      getNumStages(), operator[], all later outputs, the coefficients used by filter() and the
      delay lines *)
  Definition looks_same (f f' : filt N) : Prop :=
    (forall x, filt_response f' x = filt_response f x) /\
    filt_getPoleZeros f' = filt_getPoleZeros f /\
    filt_numStages f' = filt_numStages f /\
    (forall i, filt_index f' i = filt_index f i) /\
    (forall xs, snd (filt_run f' xs) = snd (filt_run f xs)) /\
    fl_stages f' = fl_stages f /\ fl_states f' = fl_states f.
End History.
Arguments op : clear implicits.
