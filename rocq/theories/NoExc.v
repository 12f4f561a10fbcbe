(** The library compiled with IIR1_NO_EXCEPTIONS (Common.h:78-88): throw_invalid_argument calls abort () instead of
    throwing.  There is no catch in the library (checked by searching /repo/iir), so a program runs as with exceptions
    up to the first throw, and ends there. *)
From Coq Require Import ZArith List Bool.
From Verif Require Import Num Outcome Types Biquad State Cascade PoleFilter History Public.
Import ListNotations.

Inductive running (S : Type) : Type :=
| Runs (s : S)
| Aborted          (* Common.h:84 *)
| Undefined.
Arguments Runs {S}.
Arguments Aborted {S}.
Arguments Undefined {S}.

Definition noexc {S A} (r : res S A) : running S :=
  match r with Ok s _ => Runs s | Throw _ _ => Aborted | UB => Undefined end.

Section NoExc.
  Context {N : num}.
  (** one call, as in History.v and Public.v *)
  Definition nstep (k : kind) (FO : Z) (o : pop N) (f : filt N) : running (filt N) :=
    match o with
    | PCall (OpSetupN r q) => noexc (filt_setupN k FO r q f)
    | PCall (OpSetup r sr q) => noexc (filt_setup k FO r sr q f)
    | PCall (OpFilter x) => Runs (fst (filt_filter f x))
    | PCall OpReset => Runs (filt_reset f)
    | PCall (OpAssign g) => Runs (filt_assign f g)
    | PScale s => noexc (filt_applyScale s f)
    | PLayout l => noexc (filt_setLayout l f)
    | PStorage => noexc (filt_setStorage f)
    | PSos rows => noexc (filt_setupSos rows f)
    end.
  Fixpoint nsteps (k : kind) (FO : Z) (os : list (pop N)) (f : filt N) : running (filt N) :=
    match os with
    | [] => Runs f
    | o :: os' => match nstep k FO o f with Runs f' => nsteps k FO os' f' | Aborted => Aborted | Undefined => Undefined end
    end.

  (** as [pop_ok], but layouts may have too many poles for the filter *)
  Definition npop_ok (ms : Z) (o : pop N) : Prop :=
    match o with
    | PCall o => op_ok o
    | PLayout l => layout_valid l
    | PSos rows => Z.of_nat (length rows) = ms
    | _ => True
    end.
End NoExc.
