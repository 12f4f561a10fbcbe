(** Proofs: rejected setup calls, run-time reconfiguration. *)
From Coq Require Import ZArith List Bool Lia.
From Verif Require Import Num Outcome Types Biquad State Cascade Transforms Butterworth Chebyshev
  PoleFilter History Hoare Safe Stream.
Import ListNotations.
Local Open Scope Z_scope.

Section Reject.
  Context {N : num}.
  Hypothesis polar_total : forall r th, npolar N r th <> None.

  (** the cutoff test of PoleFilter.cpp:64-65 fails *)
  Definition bad_fc (fc : T N) : bool := negb (nltb N fc (nlit N 1 2)) || nltb N fc (nofZ N 0).

  Lemma check_fc_bad {S} fc (s : S) : bad_fc fc = true ->
    exists e, check_fc fc s = Throw e s.
  Proof.
    unfold bad_fc, check_fc, bind, throw_if. intros H.
    destruct (negb (nltb N fc (nlit N 1 2))); [eexists; reflexivity|].
    simpl in H. rewrite H. eexists. reflexivity.
  Qed.

  Lemma dig_transform_bad s q a d : bad_fc (q_fc q) = true ->
    exists e, dig_transform s q a d = Throw e d.
  Proof.
    intros H. destruct (check_fc_bad (q_fc q) d H) as [e He].
    exists e. destruct s; simpl; unfold LowPassTransform, HighPassTransform, BandPassTransform,
      BandStopTransform, bind; rewrite He; reflexivity.
  Qed.

  Definition same_cd (p p' : pf N) : Prop := pf_cas p' = pf_cas p /\ pf_dig p' = pf_dig p.

  Lemma base_setup_bad k FO o q p : 1 <= FO -> o <= FO -> in_int (2 * o) = true ->
    pf_ok k FO p -> bad_fc (q_fc q) = true ->
    exists e p', base_setup k o q p = Throw e p' /\ same_cd p p'.
  Proof.
    intros HF Ho Hi (P1 & P2 & P3) Hb. unfold base_setup, bind, on_ana, zoom.
    pose proof (ana_design_ok polar_total k FO o q Ho HF Hi (pf_ana p) P3) as H.
    destruct (ana_design k o q (pf_ana p)) as [a u|e a|]; [| |contradiction].
    - unfold get, on_dig, zoom. simpl.
      destruct (dig_transform_bad (snd k) q (p_lay a) (pf_dig p) Hb) as [e ->].
      eexists e, _. split; [reflexivity|]. split; reflexivity.
    - eexists e, _. split; [reflexivity|]. split; reflexivity.
  Qed.

  Lemma setupN_bad k FO r q p : 1 <= FO -> in_int (2 * FO) = true -> order_ok r ->
    pf_ok k FO p -> bad_fc (q_fc q) = true ->
    exists e p', setupN k FO r q p = Throw e p' /\ same_cd p p'.
  Proof.
    intros HF HI Hr Hp Hb. unfold setupN. destruct r as [o|].
    - unfold bind, throw_if. destruct (Z.ltb_spec FO o).
      + eexists _, _. split; [reflexivity|]. split; reflexivity.
      + simpl. apply (base_setup_bad k FO); auto.
    - apply (base_setup_bad k FO); auto. lia.
  Qed.

  Lemma same_cd_obs (f : filt N) p' : same_cd (fl_pf f) p' ->
    let f' := MkFilt p' (fl_states f) in
    (forall x, filt_response f' x = filt_response f x) /\
    filt_getPoleZeros f' = filt_getPoleZeros f /\
    filt_numStages f' = filt_numStages f /\
    (forall i, filt_index f' i = filt_index f i) /\
    (forall xs, snd (filt_run f' xs) = snd (filt_run f xs)) /\
    fl_stages f' = fl_stages f /\ fl_states f' = fl_states f.
  Proof.
    intros [H1 H2]. simpl. unfold filt_response, filt_getPoleZeros, filt_numStages, filt_index, fl_stages.
    simpl. rewrite H1, H2. repeat split.
    intros xs. rewrite !filt_run_snd. unfold fl_cs, fl_stages. simpl. rewrite H1. reflexivity.
  Qed.
End Reject.
