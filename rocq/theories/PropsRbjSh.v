(** Property theorems about the RBJ shelves designed and run in IEEE-754 binary64.
    The mathematical library is arbitrary, but accurate in the sense of [libm_shelf]. *)
From Coq Require Import ZArith List Bool Reals.
From Coquelicot Require Import Coquelicot.
From Flocq Require Import IEEE754.BinarySingleNaN.
From Verif Require Import Num Outcome Types Biquad State Cascade RBJ Exact Float64 FloatSpec SigSpec RoundSpec DblSpec RbjShSpec RbjShLemmas.
Import ListNotations.
Local Open Scope R_scope.

(** C70: setup succeeds; the coefficients are finite, the feedback ones within 2^-36 and the feedforward ones within
    2^-33 of the cookbook's, and the stored filter is stable *)
Theorem C70_shelf_in_double : forall m (f g s : f64) k (b : biquad (F64 m)), libm_shelf m ->
  FloatSpec.is_fin f -> FloatSpec.is_fin g -> FloatSpec.is_fin s -> shelf_args k (B2R f) (B2R g) (B2R s) ->
  exists b', rbj_setupN (N := F64 m) k f g s b = Ok b' tt /\ fin_coeffs b' /\
    shelf_near b' (cookbook_shelf k (B2R f) (B2R g) (B2R s)) /\
    (/ 2 ^ 15 <= B2R f <= 1 / 2 - / 2 ^ 15 -> stable_poly (B2R (m_a1 b' : f64)) (B2R (m_a2 b' : f64))).
Proof. exact c70. Qed.
Print Assumptions C70_shelf_in_double.
(** the cookbook's coefficients are what the code computes in exact arithmetic *)
Theorem C70_shelf_exact : forall strict k f g s (b : biquad (X strict)), shelf_args k f g s ->
  exists b', rbj_setupN (N := X strict) k (XR f) (XR g) (XR s) b = Ok b' tt /\ let i := cookbook_shelf k f g s in
    m_a1 b' = XR (i_a1 i) /\ m_a2 b' = XR (i_a2 i) /\ m_b0 b' = XR (i_b0 i) /\ m_b1 b' = XR (i_b1 i) /\ m_b2 b' = XR (i_b2 i).
Proof. exact c70_exact. Qed.
Print Assumptions C70_shelf_exact.
(** for all time the output stays near that of the ideal shelf, run without rounding *)
Theorem C70_output_in_double : forall m (f g s : f64) k (r : rbj (F64 m)), libm_shelf m ->
  FloatSpec.is_fin f -> FloatSpec.is_fin g -> FloatSpec.is_fin s -> shelf_args k (B2R f) (B2R g) (B2R s) ->
  exists r', rbj_obj_setupN (N := F64 m) k f g s r = Ok r' tt /\
    let i := cookbook_shelf k (B2R f) (B2R g) (B2R s) in
    forall G X (xs : list f64) zs, rec_gain (i_a1 i) (i_a2 i) G -> G <= 2 ^ 34 -> 0 <= X <= 2 ^ 800 ->
    List.Forall (fun x => FloatSpec.is_fin x /\ Rabs (B2R x) <= X) xs ->
    diffeq 1 (i_a1 i) (i_a2 i) (i_b0 i) (i_b1 i) (i_b2 i) (map B2R xs) zs ->
    let ys := snd (rbj_run (rbj_reset r') xs) : list f64 in
    length ys = length xs /\ List.Forall FloatSpec.is_fin ys /\
    List.Forall2 (fun y z => Rabs (B2R y - z) <= shelf_error G X) ys zs.
Proof. exact c70_output. Qed.
Print Assumptions C70_output_in_double.
(** a gain that can be used, from complex poles (see also C62_gain_margin) *)
Theorem C70_gain_complex_poles : forall a1 a2, 0 < a2 < 1 -> a1 ^ 2 <= 4 * a2 -> rec_gain a1 a2 (/ (1 - sqrt a2) ^ 2).
Proof. exact c70_gain. Qed.
Print Assumptions C70_gain_complex_poles.

(** a library with correctly rounded functions; cutoff 1/4, 20 dB, slope 1 or width one octave *)
Example C70_example : libm_shelf shelf_libm /\ (forall k, k = R_LowShelf \/ k = R_HighShelf \/ k = R_BandShelf -> shelf_args k (1 / 4) 20 1) /\
  (let f := fnorm 1 (-2) in FloatSpec.is_fin f /\ FloatSpec.is_fin (fofZ 20) /\ FloatSpec.is_fin (fofZ 1) /\ B2R f = 1 / 4 /\ B2R (fofZ 20) = 20 /\ B2R (fofZ 1) = 1).
Proof. split; [exact shelf_libm_close|]. split; [exact shelf_ex_args|exact shelf_ex_fin]. Qed.
(** the low shelf: for inputs in [-1,1] never further than 10^-6 from the ideal filter *)
Example C70_gain_example : let i := cookbook_shelf R_LowShelf (1 / 4) 20 1 in
  (0 < i_a2 i < 1 /\ i_a1 i ^ 2 <= 4 * i_a2 i) /\ / (1 - sqrt (i_a2 i)) ^ 2 <= 5 /\ shelf_error 5 1 <= 1 / 10 ^ 6.
Proof. exact shelf_ex_gain. Qed.
