(** Property theorems: the value of response () in binary64.
    The mathematical library is arbitrary but must be accurate ([libm_design], [libm_response]; [libm_cheb], [libm_pow10] for Chebyshev designs). *)
From Coq Require Import ZArith List Bool Reals Lra.
From Coquelicot Require Import Coquelicot.
From Flocq Require Import IEEE754.BinarySingleNaN.
From Verif Require Import Num Outcome Types Biquad State Cascade PoleFilter Float64 FloatSpec SigSpec DesignSpec RoundSpec DblSpec BwDblSpec BwDblFinal ChainSpec ChCoefSpec ChDblSpec ChScaleSpec
  RespDblSpec RespOutSpec RespOut RespOut2.
Import ListNotations.
Local Open Scope R_scope.

(** C77: Cascade::response () is near the exact frequency response of the coefficients stored in the active stages *)
Theorem C77_response_of_stored : forall m (bs : list (biquad (F64 m))) rest mx (x : f64), libm_design m -> libm_response m -> List.Forall tame_coeffs bs -> (length bs <= 32)%nat ->
  FloatSpec.is_fin x -> 0 <= B2R x <= 1 / 2 -> let ds := map stored bs in
  0 < Cmod (cprod (map (i_den (B2R x)) ds)) -> resp_rel 0 (length bs) * i_cond ds (B2R x) <= / 4 ->
  exists h, cas_response (N := F64 m) (MkCascade (Z.of_nat (length bs)) mx (bs ++ rest)) x = Val h /\ cfin h /\ Cmod (c2c h - i_resp ds (B2R x))%C <= resp_error 0 ds (B2R x).
Proof. exact c77_stored. Qed.
Print Assumptions C77_response_of_stored.
(** the same for Biquad::response () *)
Theorem C77_biquad_response : forall m (b : biquad (F64 m)) (x : f64), libm_design m -> libm_response m -> tame_coeffs b ->
  FloatSpec.is_fin x -> 0 <= B2R x <= 1 / 2 -> 0 < Cmod (i_den (B2R x) (stored b)) -> resp_rel 0 1 * i_cond [stored b] (B2R x) <= / 4 ->
  exists h, bq_response (N := F64 m) b x = Val h /\ cfin h /\ Cmod (c2c h - i_resp [stored b] (B2R x))%C <= resp_error 0 [stored b] (B2R x).
Proof. exact c77_biquad_stored. Qed.
Print Assumptions C77_biquad_response.
(** stored coefficients within e of ideal ones: near the response of the ideal cascade *)
Theorem C77_response_of_near : forall m e (bs : list (biquad (F64 m))) ds rest mx (x : f64), libm_design m -> libm_response m -> 0 <= e <= / 2 ^ 10 ->
  List.Forall2 (near_section e) bs ds -> (length ds <= 32)%nat -> FloatSpec.is_fin x -> 0 <= B2R x <= 1 / 2 ->
  0 < Cmod (cprod (map (i_den (B2R x)) ds)) -> resp_rel e (length ds) * i_cond ds (B2R x) <= / 4 ->
  exists h, cas_response (N := F64 m) (MkCascade (Z.of_nat (length ds)) mx (bs ++ rest)) x = Val h /\ cfin h /\ Cmod (c2c h - i_resp ds (B2R x))%C <= resp_error e ds (B2R x).
Proof. exact c77_near. Qed.
Print Assumptions C77_response_of_near.
(** a section with coefficients 1, -1/2, 1/4 and 1, 2, 1 at a quarter of the sampling rate *)
Example C77_example : let b := @MkBiquad (F64 design_libm) (fofZ 1) (fnorm (-1) (-1)) (fnorm 1 (-2)) (fofZ 1) (fofZ 2) (fofZ 1) in
  libm_design design_libm /\ libm_response design_libm /\ tame_coeffs b /\ stored b = Ideal (-1 / 2) (1 / 4) 1 2 1 /\
  FloatSpec.is_fin (fnorm 1 (-2)) /\ B2R (fnorm 1 (-2)) = 1 / 4 /\ 0 < Cmod (i_den (1 / 4) (stored b)) /\ resp_rel 0 1 * i_cond [stored b] (1 / 4) <= / 4 /\
  resp_error 0 [stored b] (1 / 4) <= 1 / 10 ^ 10.
Proof. exact ex_c77. Qed.

(** C78: response () of a Butterworth low or high pass set up in double is near the response of the ideal cascade *)
Theorem C78_butterworth_response : forall m (hp : bool) (q : params (F64 m)) n FO t, libm_design m -> libm_response m -> FloatSpec.is_fin (q_fc q : f64) ->
  / 2 ^ 14 <= B2R (q_fc q : f64) <= 1 / 2 - / 2 ^ 14 -> (1 <= n <= 24)%nat -> (Z.of_nat n <= FO)%Z ->
  let k := (Bw, if hp then HP else LP) in let f := B2R (q_fc q : f64) in let e := bw_scale_error hp f n in let ds := bw_cascade hp f n in
  e <= / 2 ^ 10 ->
  exists fl, filt_setupN (N := F64 m) k FO (Some (Z.of_nat n)) q (filt_init t k FO) = Ok fl tt /\
    forall x : f64, FloatSpec.is_fin x -> 0 <= B2R x <= 1 / 2 -> resp_rel e (bw_sections n) * i_cond ds (B2R x) <= / 4 ->
    exists h, filt_response fl x = Val h /\ cfin h /\ Cmod (c2c h - i_resp ds (B2R x))%C <= resp_error e ds (B2R x).
Proof. exact c78_bw. Qed.
Print Assumptions C78_butterworth_response.
(** and of Chebyshev low and high pass filters of both types *)
Theorem C78_chebyshev_response : forall m (second hp : bool) (q : params (F64 m)) n FO t, libm_design m -> libm_response m -> libm_cheb m -> libm_pow10 m -> FloatSpec.is_fin (q_fc q : f64) -> FloatSpec.is_fin (q_db q : f64) ->
  ch_cut_ok (B2R (q_fc q : f64)) -> ch_db_ok second (B2R (q_db q : f64)) -> (1 <= n <= 24)%nat -> (Z.of_nat n <= FO)%Z ->
  let k := (if second then Ch2 else Ch1, if hp then HP else LP) in let f := B2R (q_fc q : f64) in let db := B2R (q_db q : f64) in
  let e := ch_scale_error second hp f db n in let ds := ch_cascade second hp f db n in
  e <= / 2 ^ 10 ->
  exists fl, filt_setupN (N := F64 m) k FO (Some (Z.of_nat n)) q (filt_init t k FO) = Ok fl tt /\
    forall x : f64, FloatSpec.is_fin x -> 0 <= B2R x <= 1 / 2 -> resp_rel e (bw_sections n) * i_cond ds (B2R x) <= / 4 ->
    exists h, filt_response fl x = Val h /\ cfin h /\ Cmod (c2c h - i_resp ds (B2R x))%C <= resp_error e ds (B2R x).
Proof. exact c78_ch. Qed.
Print Assumptions C78_chebyshev_response.
(** the response of the ideal cascades: no poles on the unit circle, and the gain curve of the textbook filter *)
Theorem C78_ideal_gain : forall fam (hp : bool) f db n, (1 <= n)%nat -> in_int (2 * Z.of_nat n) = true -> 0 < f < 1 / 2 -> db_ok fam db ->
  let ds := lh_cascade fam hp f db n in
  (forall x, 0 <= x <= 1 / 2 -> cprod (map (i_den x) ds) <> 0%C) /\
  (forall x, 0 < x < 1 / 2 -> Cmod (i_resp ds x) ^ 2 = gain2 fam n db (Some (lh_freq hp f x))) /\
  Cmod (i_resp ds (if hp then 1 / 2 else 0)) ^ 2 = gain2 fam n db (Some 0) /\
  Cmod (i_resp ds (if hp then 0 else 1 / 2)) ^ 2 = gain2 fam n db None.
Proof. exact c78_gain. Qed.
Print Assumptions C78_ideal_gain.
(** a library that rounds correctly; third order low pass at a quarter of the sampling rate, and its response at the cutoff *)
Example C78_example : libm_design design_libm /\ libm_response design_libm /\ B2R (fnorm 1 (-2)) = 1 / 4 /\ bw_scale_error false (1 / 4) 3 <= / 2 ^ 10 /\
  resp_rel (bw_scale_error false (1 / 4) 3) 2 * i_cond (bw_cascade false (1 / 4) 3) (1 / 4) <= / 4 /\
  resp_error (bw_scale_error false (1 / 4) 3) (bw_cascade false (1 / 4) 3) (1 / 4) <= 1 / 10 ^ 8 /\
  Cmod (i_resp (bw_cascade false (1 / 4) 3) (1 / 4)) ^ 2 = 1 / 2.
Proof. exact ex_c78. Qed.
