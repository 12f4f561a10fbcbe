(** Property theorems: filters in binary64 that run on without reset when the compiler fuses multiplications and additions (C99). *)
From Coq Require Import ZArith List Bool Reals.
From Coquelicot Require Import Coquelicot.
From Flocq Require Import IEEE754.BinarySingleNaN.
From Verif Require Import Num Outcome Types Biquad State Cascade PoleFilter History RealNum Float64 RefLibm FloatSpec Stream SigSpec RoundSpec DblSpec BwDblSpec BwDblFinal ChainSpec
  RespDblSpec RunOnSpec RunOnLemmas Contract ContractLemmas SettleSpec Settle SettleResp SettleRate SettleRateEx FmaOn FmaOnLemmas.
Import ListNotations.
Local Open Scope R_scope.

(** C99: whatever finite numbers up to c the delay lines hold, for every choice of fused and separate operations at every operation of every sample, the output stays within the bound of C87 of the run in exact arithmetic *)
Theorem C99_cascade : forall m (bs : list (biquad (F64 m))) (l : list sect) (ss : list (st (F64 m))) (xs ys : list f64) c X,
  List.Forall fin_coeffs bs -> List.Forall2 sect_of bs l -> ok_from l c X -> 0 <= X -> 0 <= c -> length ss = length bs -> List.Forall (st_within c) ss ->
  List.Forall (fun x => FloatSpec.is_fin x /\ Rabs (B2R x) <= X) xs -> c_run bs ss xs ys ->
  let zs := snd (cs_run (MkCStages (map real_bq bs) (map real_st ss)) (map B2R xs)) : list R in
  length ys = length xs /\ List.Forall (fun y => FloatSpec.is_fin y /\ Rabs (B2R y) <= bound_from l c X) ys /\ List.Forall2 (fun y z => Rabs (B2R y - z) <= error_from l c X 0) ys zs.
Proof. exact c99_cascade. Qed.
Print Assumptions C99_cascade.
(** two runs of differently compiled programs, with different delay lines, come together up to rounding *)
Theorem C99_two : forall m (bs : list (biquad (F64 m))) (l : list sect) (ss ss' : list (st (F64 m))) (xs ys ys' : list f64) c X rho,
  List.Forall fin_coeffs bs -> List.Forall2 sect_of bs l -> ok_from l c X -> 0 <= X -> 0 <= c -> rate_ok rho l ->
  length ss = length bs -> List.Forall (st_within c) ss -> length ss' = length bs -> List.Forall (st_within c) ss' ->
  List.Forall (fun x => FloatSpec.is_fin x /\ Rabs (B2R x) <= X) xs -> c_run bs ss xs ys -> c_run bs ss' xs ys' ->
  forall n, (n < length xs)%nat -> Rabs (B2R (nth n ys f0) - B2R (nth n ys' f0)) <= 2 * error_from l c X 0 + fade rho l c 0 / rho ^ n.
Proof. exact c99_two. Qed.
Print Assumptions C99_two.
(** fed with a sinusoid the output approaches the sinusoid that the stored coefficients predict, as in C97 *)
Theorem C99_settles : forall m (bs : list (biquad (F64 m))) (l : list sect) (ss : list (st (F64 m))) (xs ys : list f64) c X e rho fr (A : C),
  List.Forall fin_coeffs bs -> List.Forall2 sect_of bs l -> ok_from l c X -> rate_ok rho l -> 0 <= X -> 0 <= e -> length ss = length bs -> List.Forall (st_within c) ss ->
  (forall j, (j <= length bs)%nat -> Cmod (i_resp (map stored (firstn j bs)) fr * A)%C <= c) -> follows A fr e X xs -> c_run bs ss xs ys ->
  length ys = length xs /\ forall n, (n < length xs)%nat -> FloatSpec.is_fin (nth n ys f0) /\
    Rabs (B2R (nth n ys f0) - wave (i_resp (map stored bs) fr * A)%C fr n) <= error_from l c X e + fade rho l c 0 / rho ^ n.
Proof. exact c99_settles. Qed.
Print Assumptions C99_settles.
(** a filter object after any history of calls *)
Theorem C99_filter : forall m, (forall r th, npolar (F64 m) r th <> None) -> forall t k FO (f : filt (F64 m)) (l : list sect) (xs ys : list f64) c X e rho fr (A : C),
  (1 <= FO)%Z -> in_int (2 * FO) = true -> reachable_ok t k FO f ->
  List.Forall fin_coeffs (fl_stages f) -> List.Forall2 sect_of (fl_stages f) l -> ok_from l c X -> rate_ok rho l -> 0 <= X -> 0 <= e -> List.Forall (st_within c) (fl_states f) ->
  (forall j, (j <= length (fl_stages f))%nat -> Cmod (i_resp (map stored (firstn j (fl_stages f))) fr * A)%C <= c) -> follows A fr e X xs -> c_run (fl_stages f) (fl_states f) xs ys ->
  length ys = length xs /\ forall n, (n < length xs)%nat -> FloatSpec.is_fin (nth n ys f0) /\
    Rabs (B2R (nth n ys f0) - wave (i_resp (map stored (fl_stages f)) fr * A)%C fr n) <= error_from l c X e + fade rho l c 0 / rho ^ n.
Proof. exact c99_filter. Qed.
Print Assumptions C99_filter.
(** the section of C97_example, with delay lines that hold 1 and -1; for every input there is an output (the filter object of C87_example meets the hypotheses of C99_filter on objects) *)
Example C99_example : let b := @MkBiquad (F64 design_libm) (fofZ 1) (fnorm (-1) (-1)) (fnorm 1 (-2)) (fofZ 1) (fofZ 2) (fofZ 1) in let l := [Sect (-1 / 2) (1 / 4) 1 2 1 (64 / 9)] in let s := @S2 (F64 design_libm) (fofZ 1) (fofZ (-1)) in
  (List.Forall2 sect_of [b] l /\ ok_from l 3 1 /\ rate_ok (25 / 24) l /\ error_from l 3 1 0 <= 1 / 10 ^ 9 /\ fade (25 / 24) l 3 0 <= 1000 /\ st_within 3 s /\
  (forall j, (j <= 1)%nat -> Cmod (i_resp (map stored (firstn j [b])) (1 / 4) * RtoC 1)%C <= 3)) /\
  (forall n, length (quarter_wave n) = n /\ follows (RtoC 1) (1 / 4) 0 1 (quarter_wave n)) /\
  (forall xs, exists ys, c_run [b] [s] xs ys).
Proof. destruct ex_c93 as (_ & _ & _ & _ & _ & _ & _ & W). refine (conj ex_c97 (conj W _)). intros xs. eexists. apply c_plain_run. reflexivity. Qed.
