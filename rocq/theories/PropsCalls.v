(** Property theorems about sequences of setup calls. *)
From Coq Require Import ZArith List Bool.
From Flocq Require Import IEEE754.BinarySingleNaN.
From Verif Require Import Num Outcome Types Biquad State Cascade PoleFilter History CallSpec Exact Float64 RefLibm Examples CallLemmas.
Import ListNotations.

(** C24 for every arithmetic: a setup gives the design, or throws the exception, of a newly constructed
    filter.  The history may hold any calls, also setups that threw, except that no earlier setup needing
    the same analog prototype failed while its poles were computed.  The order must be positive, and the
    gain and ripple must be told apart from other values by == (see the two theorems below). *)
Theorem C24_setup_does_not_depend_on_history : forall N : num, (forall r th, npolar N r th <> None) ->
  forall t t' k FO os (f : filt N) r q,
  (1 <= FO)%Z -> in_int (2 * FO) = true -> Forall op_ok os -> order_ok r -> (1 <= order_of FO r)%Z ->
  (is_shelf (snd k) = true -> exact_param (q_gain q)) -> (fst k <> Bw -> exact_param (q_db q)) ->
  steps k FO os (filt_init t k FO) = Some f -> calm k FO r q os (filt_init t k FO) ->
  same_outcome (filt_setupN k FO r q f) (filt_setupN k FO r q (filt_init t' k FO)) /\
  forall sr q', norm_params (snd k) sr q' = q ->
    same_outcome (filt_setup k FO r sr q' f) (filt_setup k FO r sr q' (filt_init t' k FO)).
Proof. exact c24. Qed.
Print Assumptions C24_setup_does_not_depend_on_history.
Theorem C24_exact_parameters : forall strict (x : T (X strict)), exact_param (N := X strict) x.
Proof. exact exact_X. Qed.
Print Assumptions C24_exact_parameters.
Theorem C24_double_parameters : forall m (x : T (F64 m)), (forall s, x <> B754_zero s) -> exact_param (N := F64 m) x.
Proof. exact exact_F64. Qed.
Print Assumptions C24_double_parameters.
(** a history with a failed design, a bad cutoff, a good design, a sample and a bad order *)
Example C24_example : (forall r th, npolar D r th <> None) /\ Forall op_ok ex_calls /\
  trace (Ch1, LP) 4 ex_calls (filt_init DF2 (Ch1, LP) 4) = [Some E_pole_nan; Some E_cutoff_high; None; None; Some E_order] /\
  steps (Ch1, LP) 4 ex_calls (filt_init DF2 (Ch1, LP) 4) = Some ex_called /\
  calm (Ch1, LP) 4 None ex_params ex_calls (filt_init DF2 (Ch1, LP) 4) /\ exact_param (N := D) (q_db ex_params) /\
  exists g, filt_setupN (Ch1, LP) 4 None ex_params ex_called = Ok g tt.
Proof.
  exact (conj D_polar_total (conj ex_calls_ok (conj ex_called_trace (conj ex_called_steps (conj ex_called_calm (conj ex_called_exact ex_called_again)))))).
Qed.

(** C24 is false if the earlier call failed: a Chebyshev I low pass of order 4 with ripple -1 dB throws,
    and the same call again on the same object succeeds, with no stages at all *)
Theorem C24_second_call_refuted : exists f1 f2,
  filt_setupN (Ch1, LP) 4 None neg_ripple (filt_init DF2 (Ch1, LP) 4) = Throw E_pole_nan f1 /\
  filt_setupN (Ch1, LP) 4 None neg_ripple f1 = Ok f2 tt /\ filt_numStages f2 = 0%Z.
Proof. exact twice. Qed.
Print Assumptions C24_second_call_refuted.
(** C24 is false for orders below one: a Butterworth low pass of order -1 has no stage on a new
    filter and one stage on a filter that was designed before *)
Theorem C24_order_refuted : exists f1 f2 f0,
  filt_setupN (Bw, LP) 4 None ex_params (filt_init DF2 (Bw, LP) 4) = Ok f1 tt /\
  filt_setupN (Bw, LP) 4 (Some (-1)%Z) ex_params f1 = Ok f2 tt /\ filt_numStages f2 = 1%Z /\
  filt_setupN (Bw, LP) 4 (Some (-1)%Z) ex_params (filt_init DF2 (Bw, LP) 4) = Ok f0 tt /\ filt_numStages f0 = 0%Z.
Proof. exact order_minus1. Qed.
Print Assumptions C24_order_refuted.
