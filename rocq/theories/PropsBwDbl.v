(** Property theorems about the coefficients of Butterworth low and high pass filters, in exact arithmetic and in binary64.
    In binary64 the mathematical library is arbitrary, but its tan, std::polar, complex division, product and modulus must be accurate
    ([libm_design], [libm_response]). *)
From Coq Require Import ZArith List Bool Reals Lra.
From Coquelicot Require Import Coquelicot.
From Flocq Require Import IEEE754.BinarySingleNaN.
From Verif Require Import Num Outcome Types Biquad Cascade Butterworth PoleFilter Exact Float64 FloatSpec SigSpec DblSpec DblLemmas BwDblSpec BwExact BwDblFinal BwScaleLemmas.
Import ListNotations.
Local Open Scope R_scope.

(** C63: in exact arithmetic every coefficient of every section, including the scale factor of the first one, has a closed form *)
Theorem C63_butterworth_coefficients : forall strict (hp : bool) (q : params (X strict)) f n FO,
  q_fc q = XR f -> 0 < f < 1 / 2 -> (1 <= n)%nat -> in_int (2 * Z.of_nat n) = true -> (Z.of_nat n <= FO)%Z ->
  let k := (Bw, if hp then HP else LP) in
  exists p, setupN (N := X strict) k FO (Some (Z.of_nat n)) q (pf_init k FO) = Ok p tt /\
    c_numStages (pf_cas p) = Z.of_nat (bw_sections n) /\
    forall i, (i < bw_sections n)%nat ->
    cas_index (N := X strict) (pf_cas p) (Z.of_nat i) = Val (xsection (bw_ideal hp f n i) (if Nat.eqb i 0 then bw_scale hp f n else 1)).
Proof. exact @c63. Qed.
Print Assumptions C63_butterworth_coefficients.
(** order 3 at a quarter of the sampling rate: denominators 1 + z^-2 / 3 and 1, scale 1/6 *)
Example C63_example : 0 < 1 / 4 < 1 / 2 /\ in_int (2 * Z.of_nat 3) = true /\ bw_sections 3 = 2%nat /\ bw_scale false (1 / 4) 3 = 1 / 6 /\
  i_a1 (bw_ideal false (1 / 4) 3 0) = 0 /\ i_a2 (bw_ideal false (1 / 4) 3 0) = 1 / 3 /\ i_a1 (bw_ideal false (1 / 4) 3 1) = 0.
Proof. exact ex_bw3. Qed.

(** C64: in binary64 the recursive coefficients are within 2^-44 / (1 - 2 f) of those, every section is stable, and the
    feedforward coefficients of all but the first section are exact *)
Theorem C64_butterworth_in_double : forall m (hp : bool) (q : params (F64 m)) n FO, libm_design m -> FloatSpec.is_fin (q_fc q : f64) ->
  / 2 ^ 14 <= B2R (q_fc q : f64) <= 1 / 2 - / 2 ^ 14 -> (1 <= n)%nat -> (Z.of_nat n <= 2 ^ 15)%Z -> (Z.of_nat n <= FO)%Z ->
  let k := (Bw, if hp then HP else LP) in let f := B2R (q_fc q : f64) in
  exists p, setupN (N := F64 m) k FO (Some (Z.of_nat n)) q (pf_init k FO) = Ok p tt /\
    c_numStages (pf_cas p) = Z.of_nat (bw_sections n) /\
    forall i, (i < bw_sections n)%nat -> exists b, cas_index (pf_cas p) (Z.of_nat i) = Val b /\
      FloatSpec.is_fin (m_a1 b : f64) /\ FloatSpec.is_fin (m_a2 b : f64) /\
      Rabs (B2R (m_a1 b : f64) - i_a1 (bw_ideal hp f n i)) <= bw_error f /\
      Rabs (B2R (m_a2 b : f64) - i_a2 (bw_ideal hp f n i)) <= bw_error f /\
      stable_poly (B2R (m_a1 b : f64)) (B2R (m_a2 b : f64)) /\
      (i <> 0%nat -> let d := bw_ideal hp f n i in
        FloatSpec.is_fin (m_b0 b : f64) /\ FloatSpec.is_fin (m_b1 b : f64) /\ FloatSpec.is_fin (m_b2 b : f64) /\
        B2R (m_b0 b : f64) = i_b0 d /\ B2R (m_b1 b : f64) = i_b1 d /\ B2R (m_b2 b : f64) = i_b2 d).
Proof. exact c64. Qed.
Print Assumptions C64_butterworth_in_double.
(** a library that rounds correctly; cutoff 1/8 *)
Example C64_example : libm_design design_libm /\ FloatSpec.is_fin (fnorm 1 (-3)) /\ B2R (fnorm 1 (-3)) = 1 / 8 /\ bw_error (1 / 8) <= 1 / 10 ^ 13.
Proof. exact ex_c64. Qed.

(** C65: the feedforward coefficients of the first section, which carry the scale factor computed from the response at the
    normalisation frequency, are within a relative error of the ideal ones; [libm_response] asks for an accurate complex product and modulus *)
Theorem C65_butterworth_scale_in_double : forall m (hp : bool) (q : params (F64 m)) n FO, libm_design m -> libm_response m -> FloatSpec.is_fin (q_fc q : f64) ->
  / 2 ^ 14 <= B2R (q_fc q : f64) <= 1 / 2 - / 2 ^ 14 -> (1 <= n <= 24)%nat -> (Z.of_nat n <= FO)%Z ->
  let k := (Bw, if hp then HP else LP) in let f := B2R (q_fc q : f64) in
  bw_scale_error hp f n <= / 8 ->
  exists p b, setupN (N := F64 m) k FO (Some (Z.of_nat n)) q (pf_init k FO) = Ok p tt /\ cas_index (pf_cas p) 0 = Val b /\
    let d := bw_ideal hp f n 0 in let s := bw_scale hp f n in
    FloatSpec.is_fin (m_b0 b : f64) /\ FloatSpec.is_fin (m_b1 b : f64) /\ FloatSpec.is_fin (m_b2 b : f64) /\
    Rabs (B2R (m_b0 b : f64) - i_b0 d * s) <= bw_scale_error hp f n * s /\
    Rabs (B2R (m_b1 b : f64) - i_b1 d * s) <= bw_scale_error hp f n * s /\
    Rabs (B2R (m_b2 b : f64) - i_b2 d * s) <= bw_scale_error hp f n * s.
Proof. exact c65. Qed.
Print Assumptions C65_butterworth_scale_in_double.
(** a library that rounds correctly; cutoff 1/8 (see [C64_example]), order 4 *)
Example C65_example : libm_design design_libm /\ libm_response design_libm /\ bw_scale_error false (1 / 8) 4 <= 1 / 1000.
Proof. exact ex_c65. Qed.
