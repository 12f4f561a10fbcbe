(** Property theorem: filters in binary64 that run on without reset settle too (C95). *)
From Coq Require Import ZArith List Bool Reals.
From Coquelicot Require Import Coquelicot.
From Flocq Require Import IEEE754.BinarySingleNaN.
From Verif Require Import Num Outcome Types Biquad State Cascade PoleFilter History Float64 RefLibm FloatSpec Stream Examples SigSpec RoundSpec DblSpec BwDblSpec BwDblFinal ChainSpec
  RespDblSpec RespOutSpec RespOut2 RunOnSpec RunOnLemmas RunOnEx SettleSpec Settle SettleResp PropsSettle SettleOn SettleOn2.
Import ListNotations.
Local Open Scope R_scope.

(** C95: whatever finite numbers up to c the delay lines hold, a cascade in double that is fed a sinusoid settles on the sinusoid that its stored coefficients predict, up to the bound of C87 and any eps.
    N depends on the coefficients, c, the sinusoid and eps, not on the contents of the delay lines, their structure, the samples or their number *)
Theorem C95_cascade : forall (l : list sect) c X e fr (A : C) eps, ok_from l c X -> 0 <= X -> 0 <= c -> 0 <= e -> 0 < eps ->
  exists N, forall m (bs : list (biquad (F64 m))) (ss : list (st (F64 m))) (xs : list f64),
  List.Forall fin_coeffs bs -> List.Forall2 sect_of bs l -> length ss = length bs -> List.Forall (st_within c) ss -> follows A fr e X xs ->
  let ys := snd (cs_run (MkCStages bs ss) xs) : list f64 in
  length ys = length xs /\ settles N (i_resp (map stored bs) fr * A)%C fr (error_from l c X e + eps) ys.
Proof. exact c95_cascade. Qed.
Print Assumptions C95_cascade.
(** a filter object after any history of calls *)
Theorem C95_filter : forall m, (forall r th, npolar (F64 m) r th <> None) -> forall t k FO (f : filt (F64 m)) (l : list sect) c X e fr (A : C) eps,
  (1 <= FO)%Z -> in_int (2 * FO) = true -> reachable_ok t k FO f ->
  List.Forall fin_coeffs (fl_stages f) -> List.Forall2 sect_of (fl_stages f) l -> ok_from l c X -> 0 <= X -> 0 <= c -> List.Forall (st_within c) (fl_states f) -> 0 <= e -> 0 < eps ->
  exists N, forall xs : list f64, follows A fr e X xs ->
  let ys := snd (filt_run f xs) : list f64 in
  length ys = length xs /\ settles N (i_resp (map stored (fl_stages f)) fr * A)%C fr (error_from l c X e + eps) ys.
Proof. exact c95_filter. Qed.
Print Assumptions C95_filter.
(** the used Butterworth low pass of C87_example: any input that follows a sinusoid exactly, here 1, 0, -1, 0, ... *)
Example C95_example : (forall r th, npolar D r th <> None) /\ forallb busy (fl_states ex_filt) = true /\ List.Forall (st_within 2) (fl_states ex_filt) /\ reachable_ok DF2 (Bw, LP) 4 ex_filt /\
  List.Forall fin_coeffs (fl_stages ex_filt) /\ List.Forall2 sect_of (fl_stages ex_filt) (sects_ex (fl_stages ex_filt)) /\
  ok_from (sects_ex (fl_stages ex_filt)) 2 1 /\ error_from (sects_ex (fl_stages ex_filt)) 2 1 0 <= / 10 ^ 6 /\
  forall n, length (quarter_wave n) = n /\ follows (RtoC 1) (1 / 4) 0 1 (quarter_wave n).
Proof. destruct ex_run_on as (A & B & C & E & F & G & _ & H & _). destruct ex_c93 as (_ & _ & _ & _ & _ & _ & _ & W). exact (conj D_polar_total (conj A (conj B (conj C (conj E (conj F (conj G (conj H W)))))))). Qed.
(** setup () again in the middle of a signal, no reset: the filter settles on the response of its new coefficients, and N does not depend on the signal before the change *)
Theorem C95_switch : forall m, (forall r th, npolar (F64 m) r th <> None) -> forall (l l2 : list sect) c X e fr (A : C) eps, 0 <= X -> 0 <= c -> 0 <= e -> 0 < eps -> ok_from l c X -> let c2 := held l c X in ok_from l2 c2 X ->
  exists N, forall t k FO (f f2 : filt (F64 m)) (xs xs2 : list f64) r q,
  (1 <= FO)%Z -> in_int (2 * FO) = true -> reachable_ok t k FO f -> order_ok r ->
  List.Forall fin_coeffs (fl_stages f) -> List.Forall2 sect_of (fl_stages f) l -> List.Forall (st_within c) (fl_states f) ->
  List.Forall (fun x => FloatSpec.is_fin x /\ Rabs (B2R x) <= X) xs -> filt_setupN k FO r q (fst (filt_run f xs)) = Ok f2 tt ->
  List.Forall fin_coeffs (fl_stages f2) -> List.Forall2 sect_of (fl_stages f2) l2 -> follows A fr e X xs2 ->
  let ys := snd (filt_run f2 xs2) : list f64 in
  length ys = length xs2 /\ settles N (i_resp (map stored (fl_stages f2)) fr * A)%C fr (error_from l2 c2 X e + eps) ys.
Proof. exact c95_switch. Qed.
Print Assumptions C95_switch.
Example C95_switch_example : List.Forall (fun x : f64 => FloatSpec.is_fin x /\ Rabs (B2R x) <= 1) ex_more /\ filt_setupN (Bw, LP) 4 None ex_par3 (fst (filt_run ex_filt ex_more)) = Ok ex_f2 tt /\
  List.Forall fin_coeffs (fl_stages ex_f2) /\ List.Forall2 sect_of (fl_stages ex_f2) (sects_ex (fl_stages ex_f2)) /\
  ok_from (sects_ex (fl_stages ex_f2)) (held (sects_ex (fl_stages ex_filt)) 2 1) 1.
Proof. destruct ex_run_switch as (A & B & C & E & F & _). exact (conj A (conj B (conj C (conj E F)))). Qed.
(** and the value that response (x) returns is the factor, whatever the delay lines hold *)
Theorem C95_response : forall m (bs : list (biquad (F64 m))) (l : list sect) mx (x : f64) c X e (A : C) eps, libm_design m -> libm_response m -> List.Forall tame_coeffs bs -> (length bs <= 32)%nat -> List.Forall2 sect_of bs l ->
  FloatSpec.is_fin x -> 0 <= B2R x <= 1 / 2 -> let ds := map stored bs in
  ok_from l c X -> 0 <= X -> 0 <= c -> 0 <= e -> 0 < eps -> resp_rel 0 (length bs) * i_cond ds (B2R x) <= / 4 ->
  exists h N, cas_response (N := F64 m) (MkCascade (Z.of_nat (length bs)) mx bs) x = Val h /\ cfin h /\
    forall (ss : list (st (F64 m))) (xs : list f64), length ss = length bs -> List.Forall (st_within c) ss -> follows A (B2R x) e X xs -> let ys := snd (cs_run (MkCStages bs ss) xs) : list f64 in
    length ys = length xs /\ settles N (c2c h * A)%C (B2R x) (error_from l c X e + eps + resp_error 0 ds (B2R x) * Cmod A) ys.
Proof. exact c95_response. Qed.
Print Assumptions C95_response.
(** the section of C94_example with delay lines that hold 1 and -1 *)
Example C95_response_example : let b := @MkBiquad (F64 design_libm) (fofZ 1) (fnorm (-1) (-1)) (fnorm 1 (-2)) (fofZ 1) (fofZ 2) (fofZ 1) in let l := [Sect (-1 / 2) (1 / 4) 1 2 1 (64 / 9)] in
  tame_coeffs b /\ resp_rel 0 1 * i_cond [stored b] (1 / 4) <= / 4 /\
  List.Forall2 sect_of [b] l /\ ok_from l 1 1 /\ error_from l 1 1 0 <= 1 / 10 ^ 9 /\ st_within 1 (@S2 (F64 design_libm) (fofZ 1) (fofZ (-1))).
Proof. destruct C94_example as (A & B & _). exact (conj A (conj B ex_c95)). Qed.
