(** Calls of the public base-class interface on a filter object: Cascade (Cascade.h:50-106) and
    CascadeStages (Cascade.h:114-178) are public bases of every Butterworth and Chebyshev filter
    (PoleFilter.h:62,117-118), so a caller can also use their methods. *)
From Coq Require Import ZArith List Bool.
From Verif Require Import Num Outcome Types Biquad State Cascade PoleFilter History.
Import ListNotations.

Section Public.
  Context {N : num}.

  (** Cascade.cpp:93-97 through a filter *)
  Definition filt_applyScale (s : T N) : M (filt N) unit := on_pf (on_cas (cas_applyScale s)).

  (** Cascade.cpp:100-117 through a filter, with a layout of the caller *)
  Definition filt_setLayout (l : layout N) : M (filt N) unit := on_pf (on_cas (setLayout l)).

  (** Cascade.cpp:45-50 with the argument f.getCascadeStorage() (Cascade.h:169-173) *)
  Definition filt_setStorage : M (filt N) unit :=
    on_pf (on_cas (modify (fun c => setCascadeStorage (c_maxStages c) (c_stages c)))).

  (** Cascade.h:138-148 CascadeStages::setup, called with its class name because the filters'
      own setup hides it.  The stage array is the one the Cascade base points to. *)
  Definition filt_setupSos (rows : list (sosrow N)) : M (filt N) unit :=
    on_pf (on_cas (zoom c_stages (@c_set_stages N) (sos_loop rows))).

  Inductive pop : Type :=
  | PCall (o : op N)               (* setup, setupN, filter, reset, operator= *)
  | PScale (s : T N)
  | PLayout (l : layout N)
  | PStorage
  | PSos (rows : list (sosrow N)).

  Definition pstep (k : kind) (FO : Z) (o : pop) (f : filt N) : option (filt N) :=
    match o with
    | PCall o => step k FO o f
    | PScale s => after (filt_applyScale s f)
    | PLayout l => after (filt_setLayout l f)
    | PStorage => after (filt_setStorage f)
    | PSos rows => after (filt_setupSos rows f)
    end.
  Fixpoint psteps (k : kind) (FO : Z) (os : list pop) (f : filt N) : option (filt N) :=
    match os with
    | [] => Some f
    | o :: os' => match pstep k FO o f with Some f' => psteps k FO os' f' | None => None end
    end.

  (** the layout's poles lie in its own array *)
  Definition layout_valid (l : layout N) : Prop :=
    (0 <= l_numPoles l)%Z /\ (Z.quot (l_numPoles l + 1) 2 <= Z.of_nat (length (l_pairs l)))%Z.
  (** orders do not overflow; layouts are valid and not larger than the filter; an sos table has
      one row per stage (this is its C++ type) *)
  Definition pop_ok (ms : Z) (o : pop) : Prop :=
    match o with
    | PCall o => op_ok o
    | PLayout l => layout_valid l /\ (Z.quot (l_numPoles l + 1) 2 <= ms)%Z
    | PSos rows => Z.of_nat (length rows) = ms
    | _ => True
    end.
End Public.
Arguments pop : clear implicits.
