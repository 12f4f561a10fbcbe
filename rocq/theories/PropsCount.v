(** Property theorem: how many second order stages a setup uses (C53). *)
From Coq Require Import ZArith List Bool.
From Verif Require Import Num Outcome Types Biquad State Cascade PoleFilter History CallSpec CountLemmas
  RefLibm Examples CallLemmas.
Import ListNotations.

(** One second order stage per two poles: ceil(order/2) stages, for the band filters [order] stages;
    getPoleZeros() reports one pair per stage.  Histories as in C24. *)
Theorem C53_stage_count : forall N : num, (forall r th, npolar N r th <> None) ->
  forall t k FO os (f g : filt N) r q,
  (1 <= FO)%Z -> in_int (2 * FO) = true -> Forall op_ok os -> order_ok r -> (1 <= order_of FO r)%Z ->
  (is_shelf (snd k) = true -> exact_param (q_gain q)) -> (fst k <> Bw -> exact_param (q_db q)) ->
  steps k FO os (filt_init t k FO) = Some f -> calm k FO r q os (filt_init t k FO) ->
  filt_setupN k FO r q f = Ok g tt ->
  filt_numStages g = (if is_band (snd k) then order_of FO r else (order_of FO r + 1) / 2)%Z /\
  exists ps, filt_getPoleZeros g = Val ps /\ Z.of_nat (length ps) = filt_numStages g.
Proof. exact stage_count_hist. Qed.
Print Assumptions C53_stage_count.
(** the history of C24_example: a failed design, a bad cutoff, a good design, a sample, a bad order;
    the following design of order 4 has two stages *)
Example C53_example : (forall r th, npolar D r th <> None) /\ Forall op_ok ex_calls /\
  steps (Ch1, LP) 4 ex_calls (filt_init DF2 (Ch1, LP) 4) = Some ex_called /\
  calm (Ch1, LP) 4 None ex_params ex_calls (filt_init DF2 (Ch1, LP) 4) /\ exact_param (N := D) (q_db ex_params) /\
  exists g, filt_setupN (Ch1, LP) 4 None ex_params ex_called = Ok g tt.
Proof.
  exact (conj D_polar_total (conj ex_calls_ok (conj ex_called_steps (conj ex_called_calm (conj ex_called_exact ex_called_again))))).
Qed.
