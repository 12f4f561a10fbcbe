(** Property theorem: how fast filters in binary64 settle on the sinusoid of their response (C97). *)
From Coq Require Import ZArith List Bool Reals.
From Coquelicot Require Import Coquelicot.
From Flocq Require Import IEEE754.BinarySingleNaN.
From Verif Require Import Num Outcome Types Biquad State Cascade PoleFilter History Float64 RefLibm FloatSpec Stream SigSpec RoundSpec DblSpec BwDblSpec BwDblFinal ChainSpec
  RespDblSpec RunOnSpec RunOnLemmas SettleSpec Settle SettleResp SettleRate SettleRateEx.
Import ListNotations.
Local Open Scope R_scope.

(** C97: sample n of the output is within the rounding bound of C87 and K / rho^n of the sinusoid that the stored coefficients predict; rho and K are explicit.
    The delay lines may hold anything up to c, which must also be a bound for the sinusoids after each stage *)
Theorem C97_cascade : forall m (bs : list (biquad (F64 m))) (l : list sect) (ss : list (st (F64 m))) (xs : list f64) c X e rho fr (A : C),
  List.Forall fin_coeffs bs -> List.Forall2 sect_of bs l -> ok_from l c X -> rate_ok rho l -> 0 <= X -> 0 <= e -> length ss = length bs -> List.Forall (st_within c) ss ->
  (forall j, (j <= length bs)%nat -> Cmod (i_resp (map stored (firstn j bs)) fr * A)%C <= c) -> follows A fr e X xs ->
  let ys := snd (cs_run (MkCStages bs ss) xs) : list f64 in
  length ys = length xs /\ forall n, (n < length xs)%nat -> FloatSpec.is_fin (nth n ys f0) /\
    Rabs (B2R (nth n ys f0) - wave (i_resp (map stored bs) fr * A)%C fr n) <= error_from l c X e + fade rho l c 0 / rho ^ n.
Proof. exact c97_cascade. Qed.
Print Assumptions C97_cascade.
(** a filter object after any history of calls *)
Theorem C97_filter : forall m, (forall r th, npolar (F64 m) r th <> None) -> forall t k FO (f : filt (F64 m)) (l : list sect) (xs : list f64) c X e rho fr (A : C),
  (1 <= FO)%Z -> in_int (2 * FO) = true -> reachable_ok t k FO f ->
  List.Forall fin_coeffs (fl_stages f) -> List.Forall2 sect_of (fl_stages f) l -> ok_from l c X -> rate_ok rho l -> 0 <= X -> 0 <= e -> List.Forall (st_within c) (fl_states f) ->
  (forall j, (j <= length (fl_stages f))%nat -> Cmod (i_resp (map stored (firstn j (fl_stages f))) fr * A)%C <= c) -> follows A fr e X xs ->
  let ys := snd (filt_run f xs) : list f64 in
  length ys = length xs /\ forall n, (n < length xs)%nat -> FloatSpec.is_fin (nth n ys f0) /\
    Rabs (B2R (nth n ys f0) - wave (i_resp (map stored (fl_stages f)) fr * A)%C fr n) <= error_from l c X e + fade rho l c 0 / rho ^ n.
Proof. exact c97_filter. Qed.
Print Assumptions C97_filter.
(** the section of C94_example with delay lines that hold 1 and -1, fed with 1, 0, -1, 0, ...: after n samples within 10^-9 + 1000 (24/25)^n of the predicted sinusoid *)
Example C97_example : let b := @MkBiquad (F64 design_libm) (fofZ 1) (fnorm (-1) (-1)) (fnorm 1 (-2)) (fofZ 1) (fofZ 2) (fofZ 1) in let l := [Sect (-1 / 2) (1 / 4) 1 2 1 (64 / 9)] in
  (List.Forall2 sect_of [b] l /\ ok_from l 3 1 /\ rate_ok (25 / 24) l /\ error_from l 3 1 0 <= 1 / 10 ^ 9 /\ fade (25 / 24) l 3 0 <= 1000 /\ st_within 3 (@S2 (F64 design_libm) (fofZ 1) (fofZ (-1))) /\
  (forall j, (j <= 1)%nat -> Cmod (i_resp (map stored (firstn j [b])) (1 / 4) * RtoC 1)%C <= 3)) /\
  (forall n, length (quarter_wave n) = n /\ follows (RtoC 1) (1 / 4) 0 1 (quarter_wave n)).
Proof. destruct ex_c93 as (_ & _ & _ & _ & _ & _ & _ & W). exact (conj ex_c97 W). Qed.
