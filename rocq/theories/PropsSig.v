(** Property theorems about filtering in exact arithmetic ([X strict]: reals with infinities and
    NaN; see Exact.v). *)
From Coq Require Import ZArith List Bool Reals Lra Lia Permutation.
From Coquelicot Require Import Coquelicot.
From Verif Require Import Num Outcome Types Biquad State Cascade PoleFilter Exact RealNum History Spec
  SigSpec StabProofs SigLemmas FiltSig.
Import ListNotations.
Local Open Scope R_scope.

(** an unscaled second order section 1 - z^-1 + z^-2/2 (complex poles of modulus 0.707) over
    2 + 2 z^-1 + z^-2, and a first order one with pole 1/2 *)
Definition ex_b1 (strict : bool) : biquad (X strict) := @MkBiquad (X strict) (XR 2) (XR (-1)) (XR (1 / 2)) (XR 1) (XR 1) (XR (1 / 2)).
Definition ex_b2 (strict : bool) : biquad (X strict) := @MkBiquad (X strict) (XR 1) (XR (-1 / 2)) (XR 0) (XR 3) (XR 1) (XR 0).
Lemma ex_fin strict : List.Forall fin_bq [ex_b1 strict; ex_b2 strict].
Proof. repeat constructor; eexists; reflexivity. Qed.
Lemma ex_stable strict : List.Forall stable_bq [ex_b1 strict; ex_b2 strict].
Proof.
  constructor; [|constructor; [|constructor]]; eexists; eexists; (split; [reflexivity|split; [reflexivity|]]);
  apply jury; unfold Rabs; repeat destruct (Rcase_abs _); lra.
Qed.
Lemma ex_a0 strict : List.Forall (fun b : biquad (X strict) => m_a0 b <> XR 0) [ex_b1 strict; ex_b2 strict].
Proof. repeat constructor; intros Q; inversion Q; lra. Qed.
Definition ex_states (strict : bool) : list (st (X strict)) :=
  [@S2 (X strict) (XR 3) (XR (-7)); @S1 (X strict) (XR 1) (XR 2) (XR 3) (XR 4)].
Lemma ex_fin_states strict : List.Forall fin_st (ex_states strict).
Proof. repeat constructor; eexists; reflexivity. Qed.

(** C01: the coefficients given to setCoefficients, Direct Form I from reset *)
Theorem C01_difference_equation : forall strict a0 a1 a2 b0 b1 b2 (old : biquad (X strict)) xs, a0 <> 0 ->
  exists b ys,
    setCoefficients (N := X strict) (XR a0) (XR a1) (XR a2) (XR b0) (XR b1) (XR b2) old = Ok b tt /\
    snd (bq_run b (st_init DF1) (xr xs)) = xr ys /\ diffeq a0 a1 a2 b0 b1 b2 xs ys /\
    (forall ys', diffeq a0 a1 a2 b0 b1 b2 xs ys' -> ys' = ys).
Proof. exact @c01. Qed.
Print Assumptions C01_difference_equation.
Example C01_example : 2 <> 0 /\ diffeq 2 (-2) 1 4 0 0 [1; 0; 0] [2; 2; 1].
Proof.
  split; [lra|]. split; [reflexivity|]. intros [|[|[|n]]] H; unfold back; simpl; try lra.
  exfalso. simpl in H. lia.
Qed.

(** C02: a cascade, and one biquad *)
Theorem C02_topologies_interchangeable : forall strict (bs : list (biquad (X strict))) t t' xs,
  List.Forall fin_bq bs ->
  snd (cs_run (MkCStages bs (repeat (st_init t) (length bs))) (xr xs)) =
  snd (cs_run (MkCStages bs (repeat (st_init t') (length bs))) (xr xs)).
Proof. exact @c02. Qed.
Print Assumptions C02_topologies_interchangeable.
Theorem C02_topologies_interchangeable_one : forall strict (b : biquad (X strict)) t t' xs, fin_bq b ->
  snd (bq_run b (st_init t) (xr xs)) = snd (bq_run b (st_init t') (xr xs)).
Proof. exact @c02_one. Qed.
Print Assumptions C02_topologies_interchangeable_one.
Example C02_example : forall strict, List.Forall fin_bq [ex_b1 strict; ex_b2 strict].
Proof. exact ex_fin. Qed.

(** C03 *)
Theorem C03_linear : forall strict (bs : list (biquad (X strict))) t al be xs ys,
  List.Forall fin_bq bs -> length xs = length ys ->
  exists us vs,
    snd (cs_run (MkCStages bs (repeat (st_init t) (length bs))) (xr xs)) = xr us /\
    snd (cs_run (MkCStages bs (repeat (st_init t) (length bs))) (xr ys)) = xr vs /\
    snd (cs_run (MkCStages bs (repeat (st_init t) (length bs))) (xr (lincomb al be xs ys))) =
    xr (lincomb al be us vs).
Proof. exact @c03. Qed.
Print Assumptions C03_linear.
Example C03_example : forall strict, List.Forall fin_bq [ex_b1 strict; ex_b2 strict] /\
  lincomb 2 (-1) [1; 2] [3; 5] = [2 * 1 + -1 * 3; 2 * 2 + -1 * 5].
Proof. exact (fun s => conj (ex_fin s) eq_refl). Qed.

(** C04 in exact arithmetic (the binary64 part is in PropsFloat.v) *)
Theorem C04_time_invariant : forall strict (bs : list (biquad (X strict))) t k xs, List.Forall fin_bq bs ->
  snd (cs_run (MkCStages bs (repeat (st_init t) (length bs))) (xr (repeat 0 k ++ xs))) =
  xr (repeat 0 k) ++ snd (cs_run (MkCStages bs (repeat (st_init t) (length bs))) (xr xs)).
Proof. exact @c04. Qed.
Print Assumptions C04_time_invariant.

(** C07, second half *)
Theorem C07_stages_commute : forall strict (bs bs' : list (biquad (X strict))) t xs,
  List.Forall fin_bq bs -> Permutation bs bs' ->
  snd (cs_run (MkCStages bs (repeat (st_init t) (length bs))) (xr xs)) =
  snd (cs_run (MkCStages bs' (repeat (st_init t) (length bs'))) (xr xs)).
Proof. exact @c07. Qed.
Print Assumptions C07_stages_commute.
Example C07_stages_example : forall strict, List.Forall fin_bq [ex_b1 strict; ex_b2 strict] /\
  Permutation [ex_b1 strict; ex_b2 strict] [ex_b2 strict; ex_b1 strict].
Proof. exact (fun s => conj (ex_fin s) (perm_swap _ _ _)). Qed.

(** C11: from any finite delay line contents; from reset the bound is proportional to the input's *)
Theorem C11_bounded_output : forall strict (bs : list (biquad (X strict))) ss,
  List.Forall fin_bq bs -> List.Forall stable_bq bs -> List.Forall fin_st ss -> length bs = length ss ->
  exists K K0, (List.Forall (fun s => exists t, s = st_init t) ss -> K0 = 0) /\
    forall M xs, 0 <= M -> List.Forall (fun x => Rabs x <= M) xs ->
    exists ys, snd (cs_run (MkCStages bs ss) (xr xs)) = xr ys /\ List.Forall (fun y => Rabs y <= K * M + K0) ys.
Proof. exact @c11. Qed.
Print Assumptions C11_bounded_output.
Example C11_example : forall strict, List.Forall fin_bq [ex_b1 strict; ex_b2 strict] /\
  List.Forall stable_bq [ex_b1 strict; ex_b2 strict] /\ List.Forall fin_st (ex_states strict) /\
  length [ex_b1 strict; ex_b2 strict] = length (ex_states strict).
Proof. exact (fun s => conj (ex_fin s) (conj (ex_stable s) (conj (ex_fin_states s) eq_refl))). Qed.

(** C12: y is the infinite output signal *)
Theorem C12_relaxes_to_zero : forall strict (bs : list (biquad (X strict))) ss (x : nat -> R),
  List.Forall fin_bq bs -> List.Forall stable_bq bs -> List.Forall fin_st ss -> length bs = length ss ->
  is_lim_seq x 0 ->
  exists y : nat -> R, (forall n, snd (cs_run (MkCStages bs ss) (xr (prefix n x))) = xr (prefix n y)) /\
    is_lim_seq y 0.
Proof. exact @c12. Qed.
Print Assumptions C12_relaxes_to_zero.
Example C12_example : forall strict, List.Forall stable_bq [ex_b1 strict; ex_b2 strict] /\
  is_lim_seq (fun n => / (INR n + 1)) 0.
Proof.
  intros s. split; [apply ex_stable|].
  replace (Finite 0) with (Rbar_inv p_infty) by reflexivity. apply is_lim_seq_inv; [|discriminate].
  eapply is_lim_seq_plus; [apply is_lim_seq_INR|apply is_lim_seq_const|reflexivity].
Qed.

(** C13: [n] stages take part in response(), all of them in filter(); [transparent] stages beyond *)
Theorem C13_response_is_steady_state : forall strict (bs : list (biquad (X strict))) ss n m f phi,
  List.Forall fin_bq bs -> List.Forall stable_bq bs ->
  List.Forall (fun b : biquad (X strict) => m_a0 b <> XR 0) bs ->
  List.Forall fin_st ss -> length bs = length ss -> (0 <= n <= Z.of_nat (length bs))%Z ->
  List.Forall transparent (skipn (Z.to_nat n) bs) ->
  0 <= f <= 1 / 2 ->
  exists (y : nat -> R) (h : C),
    cas_response (MkCascade n m bs) (XR f) = Val (xc h) /\
    (forall k, snd (cs_run (MkCStages bs ss) (xr (prefix k (fun i => cos (2 * PI * f * INR i + phi))))) =
               xr (prefix k y)) /\
    is_lim_seq (fun i => y i - fst (h * cis (2 * PI * f * INR i + phi))%C) 0.
Proof. exact @c13. Qed.
Print Assumptions C13_response_is_steady_state.
Example C13_example : forall strict,
  List.Forall (fun b : biquad (X strict) => m_a0 b <> XR 0) [ex_b1 strict; ex_b2 strict] /\
  List.Forall transparent (skipn (Z.to_nat 2) [ex_b1 strict; ex_b2 strict]) /\
  0 <= 1 / 10 <= 1 / 2.
Proof. intros s. split; [apply ex_a0|]. split; [constructor|lra]. Qed.

(** C19 *)
Theorem C19_applyScale : forall strict (bs : list (biquad (X strict))) n m s,
  List.Forall fin_bq bs -> List.Forall (fun b : biquad (X strict) => m_a0 b <> XR 0) bs ->
  (1 <= n <= Z.of_nat (length bs))%Z ->
  exists bs' : list (biquad (X strict)),
    cas_applyScale (N := X strict) (XR s) (MkCascade n m bs) = Ok (MkCascade n m bs') tt /\
    List.Forall2 (fun b b' => m_a0 b' = m_a0 b /\ m_a1 b' = m_a1 b /\ m_a2 b' = m_a2 b) bs bs' /\
    (forall f h, cas_response (MkCascade n m bs) (XR f) = Val (xc h) ->
                 cas_response (MkCascade n m bs') (XR f) = Val (xc (RtoC s * h)%C)) /\
    (forall t xs, exists ys,
       snd (cs_run (MkCStages bs (repeat (st_init t) (length bs))) (xr xs)) = xr ys /\
       snd (cs_run (MkCStages bs' (repeat (st_init t) (length bs'))) (xr xs)) = xr (map (Rmult s) ys)).
Proof. exact @c19. Qed.
Print Assumptions C19_applyScale.
Example C19_example : forall strict, List.Forall fin_bq [ex_b1 strict; ex_b2 strict] /\
  List.Forall (fun b : biquad (X strict) => m_a0 b <> XR 0) [ex_b1 strict; ex_b2 strict].
Proof. exact (fun s => conj (ex_fin s) (ex_a0 s)). Qed.

(** C11-C13 for Butterworth/Chebyshev filters after any history of calls *)
Theorem C11_bounded_output_filter : forall t k FO (f : filt (X false)),
  (1 <= FO)%Z -> in_int (2 * FO) = true -> reachable_ok t k FO f ->
  List.Forall fin_bq (fl_stages f) -> List.Forall stable_bq (fl_stages f) -> List.Forall fin_st (fl_states f) ->
  exists K K0, forall M xs, 0 <= M -> List.Forall (fun x => Rabs x <= M) xs ->
    exists ys, snd (filt_run f (xr xs)) = xr ys /\ List.Forall (fun y => Rabs y <= K * M + K0) ys.
Proof. exact filt_c11. Qed.
Print Assumptions C11_bounded_output_filter.
Theorem C12_relaxes_to_zero_filter : forall t k FO (f : filt (X false)) (x : nat -> R),
  (1 <= FO)%Z -> in_int (2 * FO) = true -> reachable_ok t k FO f ->
  List.Forall fin_bq (fl_stages f) -> List.Forall stable_bq (fl_stages f) -> List.Forall fin_st (fl_states f) ->
  is_lim_seq x 0 ->
  exists y : nat -> R, (forall n, snd (filt_run f (xr (prefix n x))) = xr (prefix n y)) /\ is_lim_seq y 0.
Proof. exact filt_c12. Qed.
Print Assumptions C12_relaxes_to_zero_filter.
Theorem C13_response_is_steady_state_filter : forall t k FO (f : filt (X false)) fr phi,
  (1 <= FO)%Z -> in_int (2 * FO) = true -> reachable_ok t k FO f ->
  List.Forall fin_bq (fl_stages f) -> List.Forall stable_bq (fl_stages f) -> List.Forall fin_st (fl_states f) ->
  0 <= fr <= 1 / 2 ->
  exists (y : nat -> R) (h : C),
    filt_response f (XR fr) = Val (xc h) /\
    (forall n, snd (filt_run f (xr (prefix n (fun i => cos (2 * PI * fr * INR i + phi))))) = xr (prefix n y)) /\
    is_lim_seq (fun i => y i - fst (h * cis (2 * PI * fr * INR i + phi))%C) 0.
Proof. exact filt_c13. Qed.
Print Assumptions C13_response_is_steady_state_filter.
