(** Property theorems about stability of Butterworth low and high pass filters designed in binary64. *)
From Coq Require Import ZArith List Bool Reals Lra.
From Coquelicot Require Import Coquelicot.
From Flocq Require Import IEEE754.BinarySingleNaN.
From Verif Require Import Num Outcome Types Biquad Cascade Butterworth PoleFilter Exact Float64 RefLibm FloatSpec SigSpec DblSpec BwDblSpec BwDblFinal TinyCutoff.
Import ListNotations.
Local Open Scope R_scope.

(** C67: an accepted design is stable.  For cutoffs at least 2^-14 away from 0 and from the Nyquist frequency this holds for every accurate library;
    missing: closer cutoffs *)
Theorem C67_stability_partial : forall m (hp : bool) (q : params (F64 m)) n FO p, libm_design m -> FloatSpec.is_fin (q_fc q : f64) ->
  / 2 ^ 14 <= B2R (q_fc q : f64) <= 1 / 2 - / 2 ^ 14 -> (1 <= n)%nat -> (Z.of_nat n <= 2 ^ 15)%Z -> (Z.of_nat n <= FO)%Z ->
  let k := (Bw, if hp then HP else LP) in
  setupN (N := F64 m) k FO (Some (Z.of_nat n)) q (pf_init k FO) = Ok p tt ->
  forall i, (i < bw_sections n)%nat -> exists b, cas_index (pf_cas p) (Z.of_nat i) = Val b /\ stable_poly (B2R (m_a1 b : f64)) (B2R (m_a2 b : f64)).
Proof. exact c67_partial. Qed.
Print Assumptions C67_stability_partial.
(** a library that rounds correctly; cutoff 1/8 *)
Example C67_example : libm_design design_libm /\ FloatSpec.is_fin (fnorm 1 (-3)) /\ B2R (fnorm 1 (-3)) = 1 / 8.
Proof. destruct ex_c64 as (A & B & C & _). exact (conj A (conj B C)). Qed.

(** order 2, cutoff 2^-30 from 0 (low pass) or from the Nyquist frequency (high pass): the setup succeeds and the stored section has a
    pole exactly on the unit circle, at 1 or at -1 *)
Theorem C67_stability_refuted : forall hp : bool, let k := (Bw, if hp then HP else LP) in let z := if hp then -1 else 1 in
  exists (q : params D) p b, FloatSpec.is_fin (q_fc q : f64) /\ B2R (q_fc q : f64) = (if hp then 1 / 2 - / 2 ^ 30 else / 2 ^ 30) /\
    setupN (N := D) k 2 (Some 2%Z) q (pf_init k 2) = Ok p tt /\ cas_index (pf_cas p) 0 = Val b /\
    FloatSpec.is_fin (m_a1 b : f64) /\ FloatSpec.is_fin (m_a2 b : f64) /\
    z * z + B2R (m_a1 b : f64) * z + B2R (m_a2 b : f64) = 0 /\ ~ stable_poly (B2R (m_a1 b : f64)) (B2R (m_a2 b : f64)).
Proof. exact c67_refuted. Qed.
Print Assumptions C67_stability_refuted.
