(** Lemmas: the signal properties for reachable Butterworth/Chebyshev filters. *)
From Coq Require Import ZArith List Bool Reals Lra Lia.
From Coquelicot Require Import Coquelicot.
From Verif Require Import Num Outcome Types Biquad State Cascade PoleFilter Exact RealNum History Safe Stream AnyLemmas
  SigSpec SigProofs StabProofs RespProofs SigLemmas LayoutProofs.
Import ListNotations.
Local Open Scope R_scope.

Notation X0 := (X false).
Lemma X0_polar : forall r th, npolar X0 r th <> None.
Proof. intros r th. discriminate. Qed.

Lemma spare_transparent (b : biquad X0) : spare b -> transparent b.
Proof.
  intros [->| ->]; unfold transparent, idb; cbn; rewrite ?Req0_false by lra; repeat split; f_equal; lra.
Qed.

Lemma filt_c13g t k FO (f : filt X0) sts fr : (1 <= FO)%Z -> in_int (2 * FO) = true -> reachable_ok t k FO f ->
  List.Forall fin_bq (fl_stages f) -> List.Forall stable_bq (fl_stages f) -> List.Forall fin_st sts -> length sts = length (fl_stages f) ->
  0 <= fr <= 1 / 2 ->
  exists h : C, filt_response f (XR fr) = Val (xc h) /\
    forall x A, is_lim_seq (fun i => x i - fst (A * cis (2 * PI * fr * INR i))%C) 0 ->
    exists y : sig, (forall n, snd (filt_run (MkFilt (fl_pf f) sts) (xr (prefix n x))) = xr (prefix n y)) /\
      is_lim_seq (fun i => y i - fst (h * A * cis (2 * PI * fr * INR i))%C) 0.
Proof.
  intros HF HI R F S G LS Hf.
  pose proof (reach_filt_ok X0_polar t k FO HF HI f R) as [[[C1 [C2 C3]] _] [L _]].
  assert (NN : forall z, is_nan (nofZ X0 z) = false).
  { intros z. unfold is_nan. cbn. destruct (Req_EM_T _ _); [reflexivity|congruence]. }
  pose proof (reach_spare (NN 0%Z) (NN 1%Z) X0_polar t k FO f HF HI R) as SP.
  assert (A0 : List.Forall (fun b : biquad X0 => m_a0 b <> XR 0) (fl_stages f)).
  { destruct R as [os [_ E]]. eapply List.Forall_impl; [|apply (reach_a0 t k FO f); exists os; exact E].
    intros b ->. cbn. intros Q. inversion Q. lra. }
  destruct (c13g (fl_stages f) sts (filt_numStages f) (c_maxStages (pf_cas (fl_pf f))) fr F S A0 G (eq_sym LS))
    as [h [E1 E2]].
  - unfold filt_numStages, fl_stages. lia.
  - eapply List.Forall_impl; [|exact SP]. apply spare_transparent.
  - exact Hf.
  - exists h. split.
    + unfold filt_response. etransitivity; [|exact E1]. unfold filt_numStages, fl_stages. destruct (pf_cas (fl_pf f)). reflexivity.
    + intros x A HX. destruct (E2 x A HX) as (y & Y1 & Y2). exists y. split; [|exact Y2]. intros n. rewrite filt_run_snd. apply Y1.
Qed.

Lemma filt_c13 t k FO (f : filt X0) fr phi : (1 <= FO)%Z -> in_int (2 * FO) = true -> reachable_ok t k FO f ->
  List.Forall fin_bq (fl_stages f) -> List.Forall stable_bq (fl_stages f) -> List.Forall fin_st (fl_states f) ->
  0 <= fr <= 1 / 2 ->
  exists (y : sig) (h : C),
    filt_response f (XR fr) = Val (xc h) /\
    (forall n, snd (filt_run f (xr (prefix n (fun i => cos (2 * PI * fr * INR i + phi))))) = xr (prefix n y)) /\
    is_lim_seq (fun i => y i - fst (h * cis (2 * PI * fr * INR i + phi))%C) 0.
Proof.
  intros HF HI R F S G Hf.
  pose proof (reach_filt_ok X0_polar t k FO HF HI f R) as [[[C1 [C2 C3]] _] [L _]].
  assert (NN : forall z, is_nan (nofZ X0 z) = false).
  { intros z. unfold is_nan. cbn. destruct (Req_EM_T _ _); [reflexivity|congruence]. }
  pose proof (reach_spare (NN 0%Z) (NN 1%Z) X0_polar t k FO f HF HI R) as SP.
  assert (A0 : List.Forall (fun b : biquad X0 => m_a0 b <> XR 0) (fl_stages f)).
  { destruct R as [os [_ E]]. eapply List.Forall_impl; [|apply (reach_a0 t k FO f); exists os; exact E].
    intros b ->. cbn. intros Q. inversion Q. lra. }
  destruct (c13 (fl_stages f) (fl_states f) (filt_numStages f) (c_maxStages (pf_cas (fl_pf f))) fr phi F S A0 G)
    as [y [h [E1 [E2 E3]]]].
  - unfold fl_stages. lia.
  - unfold filt_numStages, fl_stages. lia.
  - eapply List.Forall_impl; [|exact SP]. apply spare_transparent.
  - exact Hf.
  - exists y, h. split; [|split; [|exact E3]].
    + unfold filt_response. etransitivity; [|exact E1]. unfold filt_numStages, fl_stages. destruct (pf_cas (fl_pf f)). reflexivity.
    + intros n. rewrite filt_run_snd. apply E2.
Qed.

Lemma filt_c11 t k FO (f : filt X0) : (1 <= FO)%Z -> in_int (2 * FO) = true -> reachable_ok t k FO f ->
  List.Forall fin_bq (fl_stages f) -> List.Forall stable_bq (fl_stages f) -> List.Forall fin_st (fl_states f) ->
  exists K K0, forall M xs, 0 <= M -> List.Forall (fun x => Rabs x <= M) xs ->
    exists ys, snd (filt_run f (xr xs)) = xr ys /\ List.Forall (fun y => Rabs y <= K * M + K0) ys.
Proof.
  intros HF HI R F S G.
  pose proof (reach_filt_ok X0_polar t k FO HF HI f R) as [[[C1 [C2 C3]] _] [L _]].
  destruct (c11 (fl_stages f) (fl_states f) F S G) as [K [K0 [_ B]]].
  - unfold fl_stages. lia.
  - exists K, K0. intros M xs HM HX. destruct (B M xs HM HX) as [ys [E Y]]. exists ys. split; auto.
    rewrite filt_run_snd. exact E.
Qed.

Lemma filt_c12 t k FO (f : filt X0) (x : sig) : (1 <= FO)%Z -> in_int (2 * FO) = true -> reachable_ok t k FO f ->
  List.Forall fin_bq (fl_stages f) -> List.Forall stable_bq (fl_stages f) -> List.Forall fin_st (fl_states f) ->
  is_lim_seq x 0 ->
  exists y : sig, (forall n, snd (filt_run f (xr (prefix n x))) = xr (prefix n y)) /\ is_lim_seq y 0.
Proof.
  intros HF HI R F S G X0'.
  pose proof (reach_filt_ok X0_polar t k FO HF HI f R) as [[[C1 [C2 C3]] _] [L _]].
  destruct (c12 (fl_stages f) (fl_states f) x F S G) as [y [E Y]]; auto.
  - unfold fl_stages. lia.
  - exists y. split; auto. intros n. rewrite filt_run_snd. apply E.
Qed.
