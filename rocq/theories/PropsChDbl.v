(** Property theorems about Chebyshev low and high pass filters designed in binary64.  The mathematical library is arbitrary,
    but its tan, std::polar and complex division must be accurate ([libm_design]), and so must sin, cos, log, exp, sinh and cosh
    ([libm_cheb]). *)
From Coq Require Import ZArith List Bool Reals.
From Flocq Require Import IEEE754.BinarySingleNaN.
From Verif Require Import Num Outcome Types Biquad Cascade PoleFilter Float64 FloatSpec SigSpec DblSpec BwDblSpec ChCoefSpec ChDblSpec ChDblLemmas ChDblEx.
Local Open Scope R_scope.

(** C73: up to order 32 the recursive coefficients are within 2^-35 / (1 - 2 f) of the closed form of C72 and every section is stable;
    the feedforward coefficients of all but the first section are exact for type I and within 2^-41 / (1 - 2 f) for type II *)
Theorem C73_chebyshev_in_double : forall m (second hp : bool) (q : params (F64 m)) n FO, libm_design m -> libm_cheb m ->
  FloatSpec.is_fin (q_fc q : f64) -> FloatSpec.is_fin (q_db q : f64) ->
  ch_cut_ok (B2R (q_fc q : f64)) -> ch_db_ok second (B2R (q_db q : f64)) -> (1 <= n <= 32)%nat -> (Z.of_nat n <= FO)%Z ->
  let k := (if second then Ch2 else Ch1, if hp then HP else LP) in let f := B2R (q_fc q : f64) in let db := B2R (q_db q : f64) in
  exists p, setupN (N := F64 m) k FO (Some (Z.of_nat n)) q (pf_init k FO) = Ok p tt /\
    c_numStages (pf_cas p) = Z.of_nat (bw_sections n) /\
    forall i, (i < bw_sections n)%nat -> exists b, cas_index (pf_cas p) (Z.of_nat i) = Val b /\
      FloatSpec.is_fin (m_a1 b : f64) /\ FloatSpec.is_fin (m_a2 b : f64) /\
      Rabs (B2R (m_a1 b : f64) - i_a1 (ch_ideal second hp f db n i)) <= ch_error f /\
      Rabs (B2R (m_a2 b : f64) - i_a2 (ch_ideal second hp f db n i)) <= ch_error f /\
      stable_poly (B2R (m_a1 b : f64)) (B2R (m_a2 b : f64)) /\
      (i <> 0%nat -> let d := ch_ideal second hp f db n i in let e := if second then ch_error f / 64 else 0 in
        FloatSpec.is_fin (m_b0 b : f64) /\ FloatSpec.is_fin (m_b1 b : f64) /\ FloatSpec.is_fin (m_b2 b : f64) /\
        B2R (m_b0 b : f64) = 1 /\ Rabs (B2R (m_b1 b : f64) - i_b1 d) <= e /\ Rabs (B2R (m_b2 b : f64) - i_b2 d) <= e).
Proof. exact c73. Qed.
Print Assumptions C73_chebyshev_in_double.
(** a library that rounds correctly; cutoff 1/8, ripple 1 dB or rejection 40 dB *)
Example C73_example : libm_design cheb_libm /\ libm_cheb cheb_libm /\ FloatSpec.is_fin (fnorm 1 (-3)) /\ FloatSpec.is_fin (fofZ 1) /\ FloatSpec.is_fin (fofZ 40) /\
  ch_cut_ok (B2R (fnorm 1 (-3))) /\ ch_db_ok false (B2R (fofZ 1)) /\ ch_db_ok true (B2R (fofZ 40)) /\ ch_error (B2R (fnorm 1 (-3))) <= 4 / 10 ^ 11.
Proof. exact ex_c73. Qed.
