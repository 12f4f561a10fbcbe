(** Property theorems: the scale factor of Chebyshev low and high pass filters in binary64, and their output.
    The mathematical library is arbitrary but must be accurate ([libm_design], [libm_response], [libm_cheb], [libm_pow10]). *)
From Coq Require Import ZArith List Bool Reals Lra.
From Coquelicot Require Import Coquelicot.
From Flocq Require Import IEEE754.BinarySingleNaN.
From Verif Require Import Num Outcome Types Biquad State Cascade PoleFilter Float64 FloatSpec Stream SigSpec RoundSpec DblSpec BwDblSpec ChainSpec ChCoefSpec ChDblSpec ChDblEx ChScaleSpec ChScale ChOut.
Import ListNotations.
Local Open Scope R_scope.

(** C75: the feedforward coefficients of the first section, which carry the scale factor, are within a relative error of the ideal ones (C72) *)
Theorem C75_chebyshev_scale_in_double : forall m (second hp : bool) (q : params (F64 m)) n FO, libm_design m -> libm_response m -> libm_cheb m -> libm_pow10 m -> FloatSpec.is_fin (q_fc q : f64) -> FloatSpec.is_fin (q_db q : f64) ->
  ch_cut_ok (B2R (q_fc q : f64)) -> ch_db_ok second (B2R (q_db q : f64)) -> (1 <= n <= 24)%nat -> (Z.of_nat n <= FO)%Z ->
  let k := (if second then Ch2 else Ch1, if hp then HP else LP) in let f := B2R (q_fc q : f64) in let db := B2R (q_db q : f64) in
  ch_scale_error second hp f db n <= / 8 ->
  exists p b, setupN (N := F64 m) k FO (Some (Z.of_nat n)) q (pf_init k FO) = Ok p tt /\ cas_index (pf_cas p) 0 = Val b /\
    let d := ch_ideal second hp f db n 0 in let s := ch_scale second hp f db n in
    FloatSpec.is_fin (m_b0 b : f64) /\ FloatSpec.is_fin (m_b1 b : f64) /\ FloatSpec.is_fin (m_b2 b : f64) /\
    Rabs (B2R (m_b0 b : f64) - i_b0 d * s) <= ch_scale_error second hp f db n * s /\
    Rabs (B2R (m_b1 b : f64) - i_b1 d * s) <= ch_scale_error second hp f db n * s /\
    Rabs (B2R (m_b2 b : f64) - i_b2 d * s) <= ch_scale_error second hp f db n * s.
Proof. exact c75. Qed.
Print Assumptions C75_chebyshev_scale_in_double.
Example C75_example : libm_design cheb_libm /\ libm_response cheb_libm /\ libm_cheb cheb_libm /\ libm_pow10 cheb_libm /\
  FloatSpec.is_fin (fnorm 1 (-2)) /\ B2R (fnorm 1 (-2)) = 1 / 4 /\ ch_cut_ok (1 / 4) /\ FloatSpec.is_fin (fofZ 10) /\ B2R (fofZ 10) = 10 /\ ch_db_ok true 10 /\
  ch_scale_error true false (1 / 4) 10 2 <= / 2 ^ 28.
Proof. pose proof ex_c76. tauto. Qed.

(** C76: a Chebyshev low or high pass, set up and run in double, stays near the exact output of the ideal filter for all time *)
Theorem C76_chebyshev_output : forall m (second hp : bool) (q : params (F64 m)) n FO t, libm_design m -> libm_response m -> libm_cheb m -> libm_pow10 m -> FloatSpec.is_fin (q_fc q : f64) -> FloatSpec.is_fin (q_db q : f64) ->
  ch_cut_ok (B2R (q_fc q : f64)) -> ch_db_ok second (B2R (q_db q : f64)) -> (1 <= n <= 24)%nat -> (Z.of_nat n <= FO)%Z ->
  let k := (if second then Ch2 else Ch1, if hp then HP else LP) in let f := B2R (q_fc q : f64) in let db := B2R (q_db q : f64) in
  ch_scale_error second hp f db n <= / 8 ->
  exists fl, filt_setupN (N := F64 m) k FO (Some (Z.of_nat n)) q (filt_init t k FO) = Ok fl tt /\
    forall X (xs : list f64) zs, 0 <= X -> chain_ok (ch_chain second hp f db n) X -> List.Forall (fun x => FloatSpec.is_fin x /\ Rabs (B2R x) <= X) xs ->
    ideal_out (ch_cascade second hp f db n) (map B2R xs) zs ->
    let ys := snd (filt_run fl xs) : list f64 in
    length ys = length xs /\ List.Forall (fun y => FloatSpec.is_fin y /\ Rabs (B2R y) <= chain_bound (ch_chain second hp f db n) X) ys /\
    List.Forall2 (fun y z => Rabs (B2R y - z) <= chain_error (ch_chain second hp f db n) X 0) ys zs.
Proof. exact c76. Qed.
Print Assumptions C76_chebyshev_output.
(** the gains in [ch_chain] are gains of the recursions, as [chain_ok] asks *)
Theorem C76_gain : forall second hp f db n i, 0 < f < 1 / 2 -> 0 < db -> (1 <= n)%nat -> (i < bw_sections n)%nat ->
  rec_gain (i_a1 (ch_section second hp f db n i)) (i_a2 (ch_section second hp f db n i)) (ch_gain_bound second hp f db n i).
Proof. exact c76_gain. Qed.
Print Assumptions C76_gain.
(** a library that rounds correctly; second order type II low pass at a quarter of the sampling rate, rejection 10 dB, inputs in [-1,1] *)
Example C76_example : libm_design cheb_libm /\ libm_response cheb_libm /\ libm_cheb cheb_libm /\ libm_pow10 cheb_libm /\
  FloatSpec.is_fin (fnorm 1 (-2)) /\ B2R (fnorm 1 (-2)) = 1 / 4 /\ ch_cut_ok (1 / 4) /\ FloatSpec.is_fin (fofZ 10) /\ B2R (fofZ 10) = 10 /\ ch_db_ok true 10 /\
  ch_scale_error true false (1 / 4) 10 2 <= / 2 ^ 28 /\
  chain_ok (ch_chain true false (1 / 4) 10 2) 1 /\ chain_error (ch_chain true false (1 / 4) 10 2) 1 0 <= 1 / 10 ^ 5.
Proof. exact ex_c76. Qed.
