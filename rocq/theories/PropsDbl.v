(** Property theorems about RBJ filters designed and run in IEEE-754 binary64.
    The mathematical library is arbitrary, but its sin, cos and exp must be accurate to 2^-50 ([libm_close]). *)
From Coq Require Import ZArith List Bool Reals.
From Coquelicot Require Import Coquelicot.
From Flocq Require Import IEEE754.BinarySingleNaN.
From Verif Require Import Num Outcome Types Biquad State Cascade RBJ Exact Float64 FloatSpec SigSpec RoundSpec DblSpec DblLemmas.
Import ListNotations.
Local Open Scope R_scope.

(** C61: the coefficients are finite and within 2^-46 (1 + 1/q) of the cookbook's, and the stored filter is stable *)
Theorem C61_design_in_double : forall m (f q : f64) k (g : f64) (b : biquad (F64 m)), libm_close m -> no_shelf k ->
  FloatSpec.is_fin f -> FloatSpec.is_fin q -> 0 < B2R f < 1 / 2 -> 1 / 64 <= B2R q <= 1024 ->
  exists b', rbj_setupN (N := F64 m) k f g q b = Ok b' tt /\ fin_coeffs b' /\
    coefs_near b' (cookbook k (B2R f) (B2R q)) (design_error (B2R q)) /\
    (/ 2 ^ 15 <= B2R f <= 1 / 2 - / 2 ^ 15 -> stable_poly (B2R (m_a1 b' : f64)) (B2R (m_a2 b' : f64))).
Proof. exact c61. Qed.
Print Assumptions C61_design_in_double.
(** the cookbook's coefficients are what the code computes in exact arithmetic *)
Theorem C61_design_exact : forall strict k f g q (b : biquad (X strict)), no_shelf k -> 0 < f < 1 / 2 -> 0 < q ->
  exists b', rbj_setupN (N := X strict) k (XR f) (XR g) (XR q) b = Ok b' tt /\ let i := cookbook k f q in
    m_a1 b' = XR (i_a1 i) /\ m_a2 b' = XR (i_a2 i) /\ m_b0 b' = XR (i_b0 i) /\ m_b1 b' = XR (i_b1 i) /\ m_b2 b' = XR (i_b2 i).
Proof. exact c61_exact. Qed.
Print Assumptions C61_design_exact.
(** a library with correctly rounded sin, cos and exp; cutoff 1/8, q = 1 *)
Example C61_example : libm_close round_libm /\ no_shelf R_LowPass /\
  (let f := fnorm 1 (-3) in let q := fofZ 1 in FloatSpec.is_fin f /\ FloatSpec.is_fin q /\ B2R f = 1 / 8 /\ B2R q = 1).
Proof. split; [exact round_libm_close|]. split; [repeat split; discriminate|exact ex_fq]. Qed.

(** C62: for all time the output of the double precision filter stays near that of the ideal filter, that is of the
    difference equation with the cookbook's coefficients, run without rounding *)
Theorem C62_output_in_double : forall m (f q : f64) k (g : f64) (r : rbj (F64 m)), libm_close m -> no_shelf k ->
  FloatSpec.is_fin f -> FloatSpec.is_fin q -> 0 < B2R f < 1 / 2 -> 1 / 64 <= B2R q <= 1024 ->
  exists r', rbj_obj_setupN (N := F64 m) k f g q r = Ok r' tt /\
    let i := cookbook k (B2R f) (B2R q) in
    forall G X (xs : list f64) zs, rec_gain (i_a1 i) (i_a2 i) G -> G <= 2 ^ 37 -> 0 <= X <= 2 ^ 800 ->
    List.Forall (fun x => FloatSpec.is_fin x /\ Rabs (B2R x) <= X) xs ->
    diffeq 1 (i_a1 i) (i_a2 i) (i_b0 i) (i_b1 i) (i_b2 i) (map B2R xs) zs ->
    let ys := snd (rbj_run (rbj_reset r') xs) : list f64 in
    length ys = length xs /\ List.Forall FloatSpec.is_fin ys /\
    List.Forall2 (fun y z => Rabs (B2R y - z) <= output_error (B2R q) G X) ys zs.
Proof. exact c62. Qed.
Print Assumptions C62_output_in_double.
(** gains that C62 can be used with: from complex poles, and from any stable section *)
Theorem C62_gain_complex_poles : forall k f q, no_shelf k -> 0 < f < 1 / 2 -> 0 < q -> (k <> R_IIRNotch -> 1 / 2 <= q) ->
  rec_gain (i_a1 (cookbook k f q)) (i_a2 (cookbook k f q)) (ideal_gain k f q).
Proof. exact c62_gain. Qed.
Print Assumptions C62_gain_complex_poles.
Theorem C62_gain_margin : forall a1 a2 d, 0 < d < 1 -> 2 * d <= 1 + a2 - Rabs a1 -> 2 * d <= 1 - Rabs a2 -> rec_gain a1 a2 (/ d ^ 2).
Proof. exact c62_margin. Qed.
Print Assumptions C62_gain_margin.
(** low pass at 1/8, q = 1, inputs in [-1,1]: never further than 10^-8 from the ideal filter *)
Example C62_example : ideal_gain R_LowPass (1 / 8) 1 <= 16 /\ output_error 1 16 1 <= 1 / 10 ^ 8.
Proof. exact ex_gain8. Qed.
