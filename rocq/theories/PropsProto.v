(** Property theorems: analogue prototypes, default arguments and resonance of the RBJ filters, exact arithmetic. *)
From Coq Require Import ZArith List Bool Reals Lra.
From Coquelicot Require Import Coquelicot.
From Verif Require Import Num Outcome Types Biquad State Cascade PoleFilter RBJ RBJDefaults Exact SigSpec RBJSpec RBJProtoSpec RBJProto RBJPeak.
Import ListNotations.
Local Open Scope R_scope.

(** C56: the cookbook's H(s) at s = i tan(pi f')/tan(pi f), for every frequency f' *)
Theorem C56_rbj_prototype : forall strict k f g q (old : biquad (X strict)), k <> R_IIRNotch -> rbj_range k f g q ->
  exists b, rbj_setupN (N := X strict) k (XR f) (XR g) (XR q) old = Ok b tt /\
    (forall f', 0 <= f' < 1 / 2 ->
      ana_den k (Rpower 10 (g / 40)) (cook_Q k f g q) (warp f' f) <> RtoC 0 /\
      responds b f' (ana_num k (Rpower 10 (g / 40)) (cook_Q k f g q) (warp f' f) /
                     ana_den k (Rpower 10 (g / 40)) (cook_Q k f g q) (warp f' f))%C) /\
    responds b (1 / 2) (RtoC (ana_inf k (Rpower 10 (g / 40)))).
Proof. exact @c56. Qed.
Print Assumptions C56_rbj_prototype.
Example C56_example : forall k, rbj_range k (1 / 10) (-6) 1.
Proof.
  intros k. split; [lra|]. split; [lra|]. destruct k; try exact I; unfold shelf_E;
    rewrite Rinv_1; replace (1 - 1) with 0 by ring; rewrite Rmult_0_r; lra.
Qed.
(** the IIR notch: zeros at e^(+-2 pi i f), poles at the same angles with radius e^(-pi f/q) *)
Theorem C56_notch : forall strict f g q (old : biquad (X strict)), 0 < f < 1 / 2 -> 0 < q ->
  exists b, rbj_setupN (N := X strict) R_IIRNotch (XR f) (XR g) (XR q) old = Ok b tt /\
    forall f', let w := cis (2 * PI * f) in let u := cis (- (2 * PI * f')) in let r := RtoC (exp (- (PI * f / q))) in
      ((RtoC 1 - r * w * u) * (RtoC 1 - r * Cconj w * u))%C <> RtoC 0 /\
      responds b f' ((RtoC 1 - w * u) * (RtoC 1 - Cconj w * u) / ((RtoC 1 - r * w * u) * (RtoC 1 - r * Cconj w * u)))%C.
Proof. exact @c56_notch. Qed.
Print Assumptions C56_notch.

(** C57: the default arguments give stable filters; for the low and high pass the gain is that of the
    Butterworth filter of order 2 at every frequency *)
Theorem C57_defaults_stable : forall strict k f g (old : biquad (X strict)), rbj_default (N := X strict) k <> None -> 0 < f < 1 / 2 ->
  exists b, rbj_setupN_default (N := X strict) k (XR f) (XR g) old = Ok b tt /\ fin_bq b /\ stable_bq b.
Proof. exact @c57_ok. Qed.
Print Assumptions C57_defaults_stable.
Theorem C57_defaults_butterworth : forall strict t (kp : rkind * kind) FO f g (q : params (X strict)) (old : biquad (X strict)),
  kp = (R_LowPass, (Bw, LP)) \/ kp = (R_HighPass, (Bw, HP)) -> (2 <= FO)%Z -> q_fc q = XR f -> 0 < f < 1 / 2 ->
  exists b fl, rbj_setupN_default (N := X strict) (fst kp) (XR f) (XR g) old = Ok b tt /\
    filt_setupN (snd kp) FO (Some 2%Z) q (filt_init t (snd kp) FO) = Ok fl tt /\
    forall f', 0 <= f' <= 1 / 2 -> exists h h', bq_response b (XR f') = Val (xc h) /\ filt_response fl (XR f') = Val (xc h') /\ Cmod h = Cmod h'.
Proof. exact @c57_bw. Qed.
Print Assumptions C57_defaults_butterworth.
Example C57_example : rbj_default (N := X true) R_LowShelf <> None /\ rbj_default (N := X true) R_LowPass <> None /\ 0 < 1 / 10 < 1 / 2.
Proof. repeat split; try discriminate; lra. Qed.

(** C58: the low and high pass have a resonance peak (gain above 1) exactly for q > 1/sqrt 2; its squared height is
    4 q^4/(4 q^2 - 1) *)
Theorem C58_resonance : forall strict k f g q (old : biquad (X strict)), k = R_LowPass \/ k = R_HighPass -> 0 < f < 1 / 2 -> 0 < q ->
  let gain2 (b : biquad (X strict)) f m := exists h : C, responds b f h /\ Cmod h ^ 2 = m in
  exists b, rbj_setupN (N := X strict) k (XR f) (XR g) (XR q) old = Ok b tt /\
    (q <= 1 / sqrt 2 -> forall f', 0 <= f' <= 1 / 2 -> exists m, gain2 b f' m /\ m <= 1) /\
    (1 / sqrt 2 < q -> (forall f', 0 <= f' <= 1 / 2 -> exists m, gain2 b f' m /\ m <= 4 * q ^ 4 / (4 * (q * q) - 1)) /\
      (exists f', 0 < f' < 1 / 2 /\ gain2 b f' (4 * q ^ 4 / (4 * (q * q) - 1))) /\ 1 < 4 * q ^ 4 / (4 * (q * q) - 1)).
Proof. exact @c58. Qed.
Print Assumptions C58_resonance.
Example C58_example : 0 < 1 / 10 < 1 / 2 /\ 1 / 2 <= 1 / sqrt 2 /\ 1 / sqrt 2 < 2.
Proof.
  split; [lra|]. pose proof (sqrt_lt_R0 2 ltac:(lra)) as S. pose proof (sqrt_sqrt 2 ltac:(lra)) as Q. split.
  - apply Rmult_le_reg_r with (sqrt 2); [exact S|]. replace (1 / sqrt 2 * sqrt 2) with 1 by (field; lra). nra.
  - apply Rmult_lt_reg_r with (sqrt 2); [exact S|]. replace (1 / sqrt 2 * sqrt 2) with 1 by (field; lra). nra.
Qed.
