(** Property theorems: response () of the RBJ filters designed in binary64.
    The mathematical library is arbitrary but must be accurate ([libm_design], [libm_response], [rbj_libm]). *)
From Coq Require Import ZArith List Bool Reals.
From Coquelicot Require Import Coquelicot.
From Flocq Require Import IEEE754.BinarySingleNaN.
From Verif Require Import Num Outcome Types Biquad RBJ Float64 FloatSpec SigSpec RBJSpec RBJProtoSpec DblSpec RbjShSpec BwDblSpec RespDblSpec RbjRespSpec RbjResp.
Import ListNotations.
Local Open Scope R_scope.

(** C79: after setup response () is near the frequency response of the cookbook's coefficients *)
Theorem C79_rbj_response : forall m (f g q : f64) k (b : biquad (F64 m)), libm_design m -> libm_response m -> rbj_libm k m ->
  FloatSpec.is_fin f -> FloatSpec.is_fin g -> FloatSpec.is_fin q -> rbj_args k (B2R f) (B2R g) (B2R q) ->
  let i := rbj_ideal k (B2R f) (B2R g) (B2R q) in let e := rbj_rel_error k (B2R f) (B2R g) (B2R q) in e <= / 2 ^ 10 ->
  exists b', rbj_setupN (N := F64 m) k f g q b = Ok b' tt /\
    forall x : f64, FloatSpec.is_fin x -> 0 <= B2R x <= 1 / 2 -> resp_rel e 1 * i_cond [i] (B2R x) <= / 4 ->
    exists h, bq_response b' x = Val h /\ cfin h /\ Cmod (c2c h - i_resp [i] (B2R x))%C <= resp_error e [i] (B2R x).
Proof. exact c79. Qed.
Print Assumptions C79_rbj_response.
(** which is that of the analogue prototype at the warped frequency, with no pole on the unit circle *)
Theorem C79_ideal_response : forall k f g q, k <> R_IIRNotch -> rbj_range k f g q -> let i := rbj_ideal k f g q in let A := Rpower 10 (g / 40) in let Q := cook_Q k f g q in
  (forall x, 0 <= x <= 1 / 2 -> i_den x i <> 0%C) /\
  (forall x, 0 <= x < 1 / 2 -> i_resp [i] x = (ana_num k A Q (warp x f) / ana_den k A Q (warp x f))%C) /\ i_resp [i] (1 / 2) = RtoC (ana_inf k A).
Proof. exact c79_ideal. Qed.
Print Assumptions C79_ideal_response.
(** and for the notch that of zeros on the unit circle at f and poles behind them *)
Theorem C79_ideal_notch : forall f g q x, 0 < f < 1 / 2 -> 0 < q -> let i := rbj_ideal R_IIRNotch f g q in
  let w := cis (2 * PI * f) in let u := cis (- (2 * PI * x)) in let r := RtoC (exp (- (PI * f / q))) in
  i_den x i <> 0%C /\ i_resp [i] x = ((RtoC 1 - w * u) * (RtoC 1 - Cconj w * u) / ((RtoC 1 - r * w * u) * (RtoC 1 - r * Cconj w * u)))%C.
Proof. exact c79_notch. Qed.
Print Assumptions C79_ideal_notch.
(** a library that rounds correctly; low shelf with 20 dB; low pass at a quarter of the sampling rate with q = 1 and its response at the cutoff *)
Example C79_example : libm_design resp_libm /\ libm_response resp_libm /\ rbj_libm R_LowPass resp_libm /\ rbj_libm R_LowShelf resp_libm /\ rbj_args R_LowShelf (1 / 4) 20 1 /\
  FloatSpec.is_fin (fnorm 1 (-2)) /\ FloatSpec.is_fin (fofZ 0) /\ FloatSpec.is_fin (fofZ 1) /\ B2R (fnorm 1 (-2)) = 1 / 4 /\ B2R (fofZ 0) = 0 /\ B2R (fofZ 1) = 1 /\
  rbj_args R_LowPass (1 / 4) 0 1 /\ let i := rbj_ideal R_LowPass (1 / 4) 0 1 in let e := rbj_rel_error R_LowPass (1 / 4) 0 1 in
  e <= / 2 ^ 10 /\ resp_rel e 1 * i_cond [i] (1 / 4) <= / 4 /\ resp_error e [i] (1 / 4) <= 1 / 10 ^ 10 /\ i_resp [i] (1 / 4) = (0, -1).
Proof. exact ex_c79. Qed.
