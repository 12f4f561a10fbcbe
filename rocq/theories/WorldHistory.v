(** Histories of calls on several filter objects. *)
From Coq Require Import ZArith List Bool.
From Verif Require Import Num Outcome Types Biquad State Cascade Transforms Butterworth Chebyshev
  PoleFilter History World.
Import ListNotations.

Section WorldHistory.
  Context {N : num}.

  Inductive wop : Type :=
  | WCreate (t : topo) (k : kind) (FO : Z)
  | WCopy (src : nat)
  | WDestroy (i : nat)
  | WCall (i : nat) (c : op N).

  (** one member function call on object i; exceptions are caught by the caller *)
  Definition w_call (i : nat) (c : op N) (w : world N) : option (world N) :=
    match c with
    | OpSetupN r q => after (w_setupN i r q w)
    | OpSetup r sr q => after (w_setup i r sr q w)
    | OpFilter x => after (w_filter i x w)
    | OpReset => after (w_reset i w)
    | OpAssign _ => after (w_assign i i w)    (* operator= does not read its argument *)
    end.
  Definition wstep (o : wop) (w : world N) : option (world N) :=
    match o with
    | WCreate t k FO => Some (w_create t k FO w)
    | WCopy src => after (w_copy src w)
    | WDestroy i => after (w_destroy i w)
    | WCall i c => w_call i c w
    end.
  Fixpoint wsteps (h : list wop) (w : world N) : option (world N) :=
    match h with
    | [] => Some w
    | o :: h' => match wstep o w with Some w' => wsteps h' w' | None => None end
    end.

  Definition no_copy (o : wop) : bool := match o with WCopy _ => false | _ => true end.
  (** the classes of the objects created by a history without copies, in order *)
  Fixpoint creates (h : list wop) : list (topo * kind * Z) :=
    match h with
    | [] => []
    | WCreate t k FO :: h' => (t, k, FO) :: creates h'
    | _ :: h' => creates h'
    end.
  (** the calls addressed to object i *)
  Fixpoint calls_of (i : nat) (h : list wop) : list (op N) :=
    match h with
    | [] => []
    | WCall j c :: h' => if Nat.eqb j i then c :: calls_of i h' else calls_of i h'
    | _ :: h' => calls_of i h'
    end.
  (** ** refinement: an object whose pointers refer to itself is a [filt] *)
  Definition own (w : world N) (i : nat) (o : obj N) : Prop :=
    live w i = Some o /\ o_stagePtr o = i /\ h_ptr (o_dig o) = i /\ h_ptr (o_ana o) = i.

  (** the [filt] that object i is *)
  Definition filt_of (o : obj N) : filt N :=
    MkFilt (MkPf (MkCascade (o_numStages o) (o_maxStages o) (o_stages o))
                 (lay_of (o_dig o) (o_digStore o))
                 (MkProto (o_anaNp o) (o_anaGain o) (o_anaDb o) (lay_of (o_ana o) (o_anaStore o))))
           (o_states o).
End WorldHistory.
Arguments wop : clear implicits.
