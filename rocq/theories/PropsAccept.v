(** Property theorems: which arguments of setCoefficients and of the RBJ designs give usable filters. *)
From Coq Require Import ZArith List Bool Reals Lra.
From Coquelicot Require Import Coquelicot.
From Flocq Require Import IEEE754.BinarySingleNaN.
From Verif Require Import Num Outcome Types Biquad State RBJ Float64 RefLibm FloatSpec NanSpec Exact SigSpec RBJSpec RBJAllSpec Examples NanLemmas RBJAll.
Import ListNotations.
Local Open Scope R_scope.

(** C16: what is true.  Missing is a check for a0 == 0 (or infinite) in the code: see C16_a0_zero_refuted.
    For arguments other than NaN the stored coefficients are NaN exactly for 0/0 and inf/inf. *)
Theorem C16_stored_nan_partial : forall m (a0 a1 a2 b0 b1 b2 : f64) (old : biquad (F64 m)),
  ~ fnan a0 -> ~ fnan a1 -> ~ fnan a2 -> ~ fnan b0 -> ~ fnan b1 -> ~ fnan b2 ->
  exists b, setCoefficients (a0 : T (F64 m)) (a1 : T (F64 m)) (a2 : T (F64 m)) (b0 : T (F64 m)) (b1 : T (F64 m)) (b2 : T (F64 m)) old = Ok b tt /\
    ~ fnan (m_a0 b) /\ (fnan (m_a1 b) <-> div_nan a1 a0) /\ (fnan (m_a2 b) <-> div_nan a2 a0) /\
    (fnan (m_b0 b) <-> div_nan b0 a0) /\ (fnan (m_b1 b) <-> div_nan b1 a0) /\ (fnan (m_b2 b) <-> div_nan b2 a0).
Proof. exact @c16_iff. Qed.
Print Assumptions C16_stored_nan_partial.
Theorem C16_finite_partial : forall m (a0 a1 a2 b0 b1 b2 : f64) (old : biquad (F64 m)),
  FloatSpec.is_fin a0 -> FloatSpec.is_fin a1 -> FloatSpec.is_fin a2 -> FloatSpec.is_fin b0 -> FloatSpec.is_fin b1 -> FloatSpec.is_fin b2 -> ~ is_zero a0 ->
  exists b, setCoefficients (a0 : T (F64 m)) (a1 : T (F64 m)) (a2 : T (F64 m)) (b0 : T (F64 m)) (b1 : T (F64 m)) (b2 : T (F64 m)) old = Ok b tt /\
    List.Forall (fun c => ~ fnan c) [m_a0 b : f64; m_a1 b : f64; m_a2 b : f64; m_b0 b : f64; m_b1 b : f64; m_b2 b : f64].
Proof. exact @c16_finite. Qed.
Print Assumptions C16_finite_partial.
Example C16_finite_example : FloatSpec.is_fin (fofZ 3) /\ ~ is_zero (fofZ 3) /\ ~ fnan (fofZ 3) /\ ~ div_nan (fofZ 1) (fofZ 3) /\ div_nan (fofZ 0) (fofZ 0).
Proof.
  assert (F : FloatSpec.is_fin (fofZ 3)) by (vm_compute; reflexivity).
  assert (E : B2SF (fofZ 3) <> SpecFloat.S754_zero false /\ B2SF (fofZ 3) <> SpecFloat.S754_zero true) by (vm_compute; split; discriminate).
  assert (Z : ~ is_zero (fofZ 3)) by (intros [[] H]; rewrite H in E; destruct E as [E1 E2]; [apply E2|apply E1]; reflexivity).
  split; [exact F|]. split; [exact Z|]. split; [intros H; unfold fnan in H; rewrite H in F; discriminate|]. split.
  - intros [[_ H]|[_ [s H]]]; [exact (Z H)|]. rewrite H in F. discriminate.
  - left. split; exists false; reflexivity.
Qed.

(** C31: what is true.  If cos of NaN and of infinities is NaN (IEEE 754, C Annex F), NaN and infinite
    cutoffs are rejected by all ten classes and the old coefficients stay.  Finite cutoffs outside
    (0, 1/2) are not rejected: C31_rbj_cutoff_refuted, C55_rbj_any_cutoff. *)
Theorem C31_nonfinite_partial : forall m, lm_cos m B754_nan = B754_nan -> (forall s, lm_cos m (B754_infinity s) = B754_nan) ->
  forall k (f g q : f64) (old : biquad (F64 m)), ~ FloatSpec.is_fin f ->
  exists e, rbj_setupN (N := F64 m) k (f : T (F64 m)) (g : T (F64 m)) (q : T (F64 m)) old = Throw e old.
Proof. exact @c31_nonfinite. Qed.
Print Assumptions C31_nonfinite_partial.
Example C31_nonfinite_example : lm_cos ref_libm B754_nan = B754_nan /\ (forall s, lm_cos ref_libm (B754_infinity s) = B754_nan) /\
  ~ FloatSpec.is_fin B754_nan /\ ~ FloatSpec.is_fin (B754_infinity false).
Proof.
  split; [vm_compute; reflexivity|]. split; [intros []; vm_compute; reflexivity|]. split; discriminate.
Qed.

(** C55: every real cutoff is accepted, and exactly these give stable filters *)
Theorem C55_rbj_any_cutoff : forall strict k f g q (old : biquad (X strict)), rbj_real k f g q ->
  exists b, rbj_setupN (N := X strict) k (XR f) (XR g) (XR q) old = Ok b tt /\ (stable_bq b <-> 0 < rbj_damping k f q).
Proof. exact @c55. Qed.
Print Assumptions C55_rbj_any_cutoff.
(** cutoff 1/4 of the sampling rate, and the same with q, bandwidth or cutoff negative *)
Example C55_example :
  (forall k, rbj_real k (1 / 4) (-6) 1 /\ 0 < rbj_damping k (1 / 4) 1) /\
  (forall k, rbj_real k (- (1 / 4)) (-6) 1 /\ rbj_damping k (- (1 / 4)) 1 < 0).
Proof.
  assert (S1 : sin (2 * PI * (1 / 4)) = 1) by (replace (2 * PI * (1 / 4)) with (PI / 2) by field; apply sin_PI2).
  assert (S2 : sin (2 * PI * (- (1 / 4))) = -1).
  { replace (2 * PI * (- (1 / 4))) with (- (PI / 2)) by field. rewrite sin_neg, sin_PI2. reflexivity. }
  assert (SE : 0 < shelf_E (-6) 1) by (unfold shelf_E; rewrite Rinv_1; replace (1 - 1) with 0 by ring; rewrite Rmult_0_r; lra).
  split; intros k; (split; [split; [lra|destruct k; try exact I; try exact SE; lra]|]); destruct k; unfold rbj_damping; lra.
Qed.
(** the shelves reject slopes without real alpha, and leave the coefficients alone *)
Theorem C55_shelf_rejects : forall strict k f g q (old : biquad (X strict)), k = R_LowShelf \/ k = R_HighShelf ->
  q <> 0 -> shelf_E g q < 0 -> exists e, rbj_setupN (N := X strict) k (XR f) (XR g) (XR q) old = Throw e old.
Proof. exact @c55_rejects. Qed.
Print Assumptions C55_shelf_rejects.
Example C55_rejects_example : shelf_E 0 (-1) < 0.
Proof. unfold shelf_E. replace (0 / 40) with 0 by field. rewrite Rpower_O by lra. lra. Qed.
