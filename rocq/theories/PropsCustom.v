(** Property theorems about Custom::OnePole, Custom::TwoPole and Biquad::response, exact arithmetic. *)
From Coq Require Import ZArith List Bool Reals Lra.
From Coquelicot Require Import Coquelicot.
From Verif Require Import Num Outcome Types Biquad State Cascade Custom Exact RealNum SigSpec CustomLemmas.
Import ListNotations.
Local Open Scope R_scope.

(** C48.  [cis a] is e^(i a) *)
Theorem C48_onepole : forall strict s p z (old : biquad (X strict)), exists b,
  onepole_setup (N := X strict) (XR s) (XR p) (XR z) old = Ok b tt /\
  (stable_bq b <-> Rabs p < 1) /\
  (forall f, (1 - RtoC p * cis (- (2 * PI * f)))%C <> 0%C ->
     bq_response b (XR f) = Val (xc (RtoC s * (1 - RtoC z * cis (- (2 * PI * f))) / (1 - RtoC p * cis (- (2 * PI * f))))%C)) /\
  (forall t xs, exists ys, snd (bq_run b (st_init t) (xr xs)) = xr ys /\ diffeq 1 (- p) 0 s (- (s * z)) 0 xs ys).
Proof. exact @c48_one. Qed.
Print Assumptions C48_onepole.
Theorem C48_twopole : forall strict s rp tp rz tz (old : biquad (X strict)), (strict = true -> 0 <= rp /\ 0 <= rz) -> exists b,
  twopole_setup (N := X strict) (XR s) (XR rp) (XR tp) (XR rz) (XR tz) old = Ok b tt /\
  (stable_bq b <-> Rabs rp < 1) /\
  (forall f, let u := cis (- (2 * PI * f)) in
     ((1 - RtoC rp * cis tp * u) * (1 - RtoC rp * cis (- tp) * u))%C <> 0%C ->
     bq_response b (XR f) = Val (xc (RtoC s * ((1 - RtoC rz * cis tz * u) * (1 - RtoC rz * cis (- tz) * u)) /
                                     ((1 - RtoC rp * cis tp * u) * (1 - RtoC rp * cis (- tp) * u)))%C)) /\
  (forall t xs, exists ys, snd (bq_run b (st_init t) (xr xs)) = xr ys /\
     diffeq 1 (- (2 * rp * cos tp)) (rp * rp) s (- (2 * s * rz * cos tz)) (s * (rz * rz)) xs ys).
Proof. exact @c48_two. Qed.
Print Assumptions C48_twopole.
(** the standard leaves std::polar with a negative modulus undefined *)
Theorem C48_negative_radius : forall s rp tp rz tz (old : biquad (X true)), rp < 0 \/ rz < 0 ->
  twopole_setup (N := X true) (XR s) (XR rp) (XR tp) (XR rz) (XR tz) old = UB.
Proof. exact c48_ub. Qed.
Print Assumptions C48_negative_radius.
(** a stable and an unstable pole; a frequency where the response is defined *)
Example C48_example : Rabs (1 / 2) < 1 /\ ~ Rabs (-2) < 1 /\ (1 - RtoC (1 / 2) * cis (- (2 * PI * 0)))%C <> 0%C /\
  ((1 - RtoC (1 / 2) * cis 0 * cis (- (2 * PI * 0))) * (1 - RtoC (1 / 2) * cis (- 0) * cis (- (2 * PI * 0))))%C <> 0%C /\
  (true = true -> 0 <= 1 / 2 /\ 0 <= 1).
Proof.
  replace (- (2 * PI * 0)) with 0 by ring. replace (-0) with 0 by ring. unfold cis. rewrite cos_0, sin_0.
  split; [rewrite Rabs_pos_eq; lra|]. split; [rewrite Rabs_left; lra|].
  split; [intros H; apply (f_equal fst) in H; cbn in H; lra|].
  split; [intros H; apply (f_equal fst) in H; cbn in H; lra|]. lra.
Qed.

(** C49 *)
Theorem C49_value : forall strict (b : biquad (X strict)) a0 a1 a2 b0 b1 b2 f,
  b = @MkBiquad (X strict) (XR a0) (XR a1) (XR a2) (XR b0) (XR b1) (XR b2) -> a0 <> 0 ->
  poly2 1 a1 a2 (cis (- (2 * PI * f))) <> 0%C ->
  bq_response b (XR f) = Val (xc (poly2 b0 b1 b2 (cis (- (2 * PI * f))) / poly2 1 a1 a2 (cis (- (2 * PI * f))))%C).
Proof. exact @c49_value. Qed.
Print Assumptions C49_value.
Theorem C49_as_cascade : forall strict (b : biquad (X strict)) n m rest f,
  fin_bq b -> m_a0 b <> XR 0 -> stable_bq b -> 0 <= f <= 1 / 2 -> n = 1%Z ->
  cas_response (MkCascade n m (b :: rest)) (XR f) = bq_response b (XR f).
Proof. exact @c49_cascade. Qed.
Print Assumptions C49_as_cascade.
Theorem C49_symmetry : forall strict (b : biquad (X strict)) f, fin_bq b -> m_a0 b <> XR 0 -> stable_bq b -> exists h : C,
  bq_response b (XR f) = Val (xc h) /\ bq_response b (XR (f + 1)) = Val (xc h) /\
  bq_response b (XR (- f)) = Val (xc (Cconj h)).
Proof. exact @c49_symm. Qed.
Print Assumptions C49_symmetry.
Theorem C49_steady_state : forall strict (b : biquad (X strict)) s f phi,
  fin_bq b -> m_a0 b <> XR 0 -> stable_bq b -> fin_st s ->
  exists (y : nat -> R) (h : C), bq_response b (XR f) = Val (xc h) /\
    (forall k, snd (bq_run b s (xr (prefix k (fun i => cos (2 * PI * f * INR i + phi))))) = xr (prefix k y)) /\
    is_lim_seq (fun i => y i - fst (h * cis (2 * PI * f * INR i + phi))%C) 0.
Proof. exact @c49_steady. Qed.
Print Assumptions C49_steady_state.
Example C49_example : exists b : biquad (X false), onepole_setup (N := X false) (XR 3) (XR (1 / 2)) (XR (-1)) biquad0 = Ok b tt /\
  fin_bq b /\ m_a0 b <> XR 0 /\ stable_bq b /\ fin_st (st_init (N := X false) TDF2) /\
  poly2 1 (- (1 / 2)) 0 (cis (- (2 * PI * 0))) <> 0%C.
Proof. exact ex_onepole. Qed.
