(** Property theorems about the library compiled with IIR1_NO_EXCEPTIONS (C71). *)
From Coq Require Import ZArith List Bool.
From Verif Require Import Num Outcome Types Biquad State Cascade PoleFilter History Public CallSpec CallLemmas Float64 RefLibm Examples PublicDouble NoExc NoExcProofs.
Import ListNotations.

(** C71: after any sequence of calls the program was aborted, or the filter is one that the library with exceptions
    reaches as well and every query on it is safe.  Unlike C52 this holds for layouts with too many poles too: C51 (a)
    needs a program that goes on after the exception. *)
Theorem C71_safe_or_aborted : forall N : num, (forall r th, npolar N r th <> None) ->
  forall t k FO, (1 <= FO)%Z -> in_int (2 * FO) = true ->
  forall os : list (pop N), Forall (npop_ok (maxStagesOf (snd k) FO)) os ->
  nsteps k FO os (filt_init t k FO) = Aborted \/
  exists f : filt N, nsteps k FO os (filt_init t k FO) = Runs f /\ psteps k FO os (filt_init t k FO) = Some f /\
    (forall x, filt_response f x <> Undef) /\ (forall i, filt_index f i <> Undef) /\
    filt_getPoleZeros f <> Undef /\
    length (fl_stages f) = Z.to_nat (maxStagesOf (snd k) FO) /\
    length (fl_states f) = Z.to_nat (maxStagesOf (snd k) FO) /\
    (0 <= filt_numStages f <= maxStagesOf (snd k) FO)%Z.
Proof. exact @noexc_safe. Qed.
Print Assumptions C71_safe_or_aborted.
Example C71_example : Forall (npop_ok (maxStagesOf LP 2)) [PCall (OpSetupN None ex_params); PLayout ex_layout; PCall (OpFilter (d 1 1))] /\
  is_runs (nsteps (Bw, LP) 4 ex_pops (filt_init DF2 (Bw, LP) 4)) = true /\
  is_aborted (nsteps (Bw, LP) 2 [PCall (OpSetupN None ex_params); PLayout ex_layout; PCall (OpFilter (d 1 1))] (filt_init DF2 (Bw, LP) 2)) = true /\
  is_aborted (nsteps (Ch1, LP) 4 [PCall (OpSetupN None neg_ripple); PCall (OpSetupN None neg_ripple)] (filt_init DF2 (Ch1, LP) 4)) = true.
Proof. exact (conj ex_noexc_ok ex_noexc). Qed.

(** the program stops at the first call that would throw, not later *)
Theorem C71_aborts_at_first_throw : forall (N : num) k FO (os : list (pop N)) (f : filt N),
  nsteps k FO os f = Aborted <->
  exists os1 o os2 f1, os = os1 ++ o :: os2 /\ nsteps k FO os1 f = Runs f1 /\ nstep k FO o f1 = Aborted.
Proof. exact @noexc_abort. Qed.
Print Assumptions C71_aborts_at_first_throw.

(** a program that is still running has seen no failed setup, so C24 holds without its condition on the history *)
Theorem C71_setup_does_not_depend_on_history : forall N : num, (forall r th, npolar N r th <> None) ->
  forall t t' k FO os (f : filt N) r q,
  (1 <= FO)%Z -> in_int (2 * FO) = true -> Forall op_ok os -> order_ok r -> (1 <= order_of FO r)%Z ->
  (is_shelf (snd k) = true -> exact_param (q_gain q)) -> (fst k <> Bw -> exact_param (q_db q)) ->
  nsteps k FO (map PCall os) (filt_init t k FO) = Runs f ->
  same_outcome (filt_setupN k FO r q f) (filt_setupN k FO r q (filt_init t' k FO)) /\
  forall sr q', norm_params (snd k) sr q' = q ->
    same_outcome (filt_setup k FO r sr q' f) (filt_setup k FO r sr q' (filt_init t' k FO)).
Proof. exact noexc_history. Qed.
Print Assumptions C71_setup_does_not_depend_on_history.
Example C71_history_example :
  is_runs (nsteps (Ch1, LP) 4 (map PCall [OpSetup (Some 2%Z) (d 2 1) ex_params2; OpFilter (d 1 1)]) (filt_init DF2 (Ch1, LP) 4)) = true.
Proof. exact ex_noexc_calls. Qed.
