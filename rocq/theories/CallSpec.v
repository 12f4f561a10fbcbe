(** Specification: call histories that do not leave a half finished design behind. *)
From Coq Require Import ZArith List Bool.
From Verif Require Import Num Outcome PoleFilter History.
Import ListNotations.

(** exceptions thrown while poles and zeros are collected (Layout.h:49-55, Types.h:54) *)
Definition design_error (e : err) : bool :=
  match e with
  | E_pole_nan | E_zero_nan | E_2nd_after_1st | E_lay_poles_conj | E_lay_zeros_conj | E_single_not_real => true
  | _ => false
  end.

Section Calls.
  Context {N : num}.
  Definition threw {S A} (r : res S A) : option err := match r with Throw e _ => Some e | _ => None end.
  (** exception of a call *)
  Definition op_threw (k : kind) (FO : Z) (o : op N) (f : filt N) : option err :=
    match o with
    | OpSetupN r q => threw (filt_setupN k FO r q f)
    | OpSetup r sr q => threw (filt_setup k FO r sr q f)
    | _ => None
    end.
  Definition order_of (FO : Z) (r : option Z) : Z := match r with Some o => o | None => FO end.
  (** two setups that need different analog prototypes: the order, the gain of a shelf, or the ripple /
      stop band attenuation of a Chebyshev filter differ *)
  Definition other_proto (k : kind) (FO : Z) (r : option Z) (q : params N) (r' : option Z) (q' : params N) : Prop :=
    order_of FO r <> order_of FO r' \/
    (is_shelf (snd k) = true /\ neqb N (q_gain q) (q_gain q') = false) \/
    (fst k <> Bw /\ neqb N (q_db q) (q_db q') = false).
  Definition op_other_proto (k : kind) (FO : Z) (o : op N) (r' : option Z) (q' : params N) : Prop :=
    match o with
    | OpSetupN r q | OpSetup r _ q => other_proto k FO r q r' q'
    | _ => True
    end.
  (** No setup of the history that needed the analog prototype of setup [r] [q] threw a design error.
      Setups that threw a design error for another prototype, or threw because of an order, a cutoff,
      coefficients that are not numbers, ... are fine. *)
  Fixpoint calm (k : kind) (FO : Z) (r : option Z) (q : params N) (os : list (op N)) (f : filt N) : Prop :=
    match os with
    | [] => True
    | o :: os' =>
        match op_threw k FO o f with Some e => design_error e = true -> op_other_proto k FO o r q | None => True end /\
        match step k FO o f with Some f' => calm k FO r q os' f' | None => False end
    end.
  (** == tells the parameter from all other values (false for binary64 zeros, since 0.0 == -0.0) *)
  Definition exact_param (x : T N) : Prop := forall y, neqb N y x = true -> y = x.
  (** the same coefficients and the same reported poles and zeros *)
  Definition same_design (f f' : filt N) : Prop :=
    fl_stages f = fl_stages f' /\ filt_numStages f = filt_numStages f' /\ filt_getPoleZeros f = filt_getPoleZeros f' /\
    forall x, filt_response f x = filt_response f' x.
  (** two setup calls succeed with the same design or throw the same exception *)
  Definition same_outcome (r r' : res (filt N) unit) : Prop :=
    match r, r' with
    | Ok f _, Ok f' _ => same_design f f'
    | Throw e _, Throw e' _ => e = e'
    | _, _ => False
    end.
End Calls.
