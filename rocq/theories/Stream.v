(** Proofs: streaming laws that hold for every arithmetic. *)
From Coq Require Import ZArith List Bool Lia.
From Verif Require Import Num Outcome Types Biquad State Cascade Transforms Butterworth Chebyshev
  PoleFilter RBJ Custom History Hoare Safe Spec.
Import ListNotations.

Section Stream.
  Context {N : num}.

  (** ** a step function, run over a list *)
  Section Gen.
    Context {S A B : Type} (stp : S -> A -> S * B).
    Fixpoint grun (s : S) (xs : list A) : S * list B :=
      match xs with
      | [] => (s, [])
      | x :: xs' => let '(s', y) := stp s x in let '(s'', ys) := grun s' xs' in (s'', y :: ys)
      end.

    Lemma grun_app s xs ys :
      grun s (xs ++ ys) =
      (fst (grun (fst (grun s xs)) ys), snd (grun s xs) ++ snd (grun (fst (grun s xs)) ys)).
    Proof.
      revert s. induction xs as [|x xs IH]; intros s; simpl.
      - destruct (grun s ys); reflexivity.
      - destruct (stp s x) as [s' y]. rewrite IH. destruct (grun s' xs) as [s'' ys']. reflexivity.
    Qed.

    Lemma grun_length s xs : length (snd (grun s xs)) = length xs.
    Proof.
      revert s. induction xs as [|x xs IH]; intros s; simpl; auto.
      destruct (stp s x) as [s' y]. specialize (IH s'). destruct (grun s' xs). simpl in *. lia.
    Qed.

    Lemma grun_firstn k s xs : firstn k (snd (grun s xs)) = snd (grun s (firstn k xs)).
    Proof.
      revert k s. induction xs as [|x xs IH]; intros [|k] s; simpl; auto.
      destruct (stp s x) as [s' y]. specialize (IH k s').
      destruct (grun s' xs), (grun s' (firstn k xs)). simpl in *. congruence.
    Qed.
  End Gen.

  Lemma filt_run_grun (f : filt N) xs : filt_run f xs = grun filt_filter f xs.
  Proof.
    reflexivity.
  Qed.
  Lemma cs_run_grun (f : cstages N) xs : cs_run f xs = grun cs_filter f xs.
  Proof.
    reflexivity.
  Qed.
  Lemma rbj_run_grun (f : rbj N) xs : rbj_run f xs = grun rbj_filter f xs.
  Proof.
    reflexivity.
  Qed.
  Lemma bq_run_grun (b : biquad N) s xs : bq_run b s xs = grun (fun s x => st_filter s b x) s xs.
  Proof.
    revert s. induction xs as [|x xs IH]; intros f; simpl; [reflexivity|].
    destruct (st_filter f b x). rewrite IH. reflexivity.
  Qed.

  (** filt_run and cs_run agree *)
  Lemma filt_run_cs (f : filt N) xs :
    filt_run f xs = (MkFilt (fl_pf f) (cs_states (fst (cs_run (fl_cs f) xs))), snd (cs_run (fl_cs f) xs)).
  Proof.
    revert f. induction xs as [|x xs IH]; intros f; simpl.
    - destruct f; reflexivity.
    - unfold filt_filter, cs_filter.
      destruct (cs_loop (cs_stages (fl_cs f)) (cs_states (fl_cs f)) x) as [ss y].
      rewrite IH. unfold fl_cs, fl_stages. simpl.
      destruct (cs_run _ xs) as [c ys]. reflexivity.
  Qed.
  Lemma filt_run_snd (f : filt N) xs : snd (filt_run f xs) = snd (cs_run (fl_cs f) xs).
  Proof. rewrite filt_run_cs. reflexivity. Qed.

  (** ** reset *)
  Lemma reset_init (s : st N) : st_reset s = st_init (st_topo s).
  Proof. destruct s; reflexivity. Qed.

  Lemma reset_states_init t (l : list (st N)) : Forall (fun s => st_topo s = t) l ->
    map st_reset l = repeat (st_init t) (length l).
  Proof.
    induction l as [|s l IH]; intros H; simpl; auto. inversion H; subst.
    rewrite IH by assumption. rewrite reset_init. reflexivity.
  Qed.

  (** the delay lines of a reachable filter have the right shape (no hypotheses) *)
  Definition states_ok (t : topo) (k : kind) (FO : Z) (f : filt N) : Prop :=
    length (fl_states f) = Z.to_nat (maxStagesOf (snd k) FO) /\ Forall (fun s => st_topo s = t) (fl_states f).

  Lemma setup_states A (m : M (pf N) A) f f' : after (on_pf m f) = Some f' -> fl_states f' = fl_states f.
  Proof.
    unfold on_pf, zoom. destruct (m (fl_pf f)); simpl; intros H; inversion H; reflexivity.
  Qed.

  Lemma step_states_ok t k FO o f f' : states_ok t k FO f -> step k FO o f = Some f' -> states_ok t k FO f'.
  Proof.
    intros [H1 H2] H. destruct o; simpl in H.
    - apply setup_states in H. unfold states_ok. rewrite H. split; assumption.
    - apply setup_states in H. unfold states_ok. rewrite H. split; assumption.
    - inversion H. unfold filt_filter, cs_filter.
      destruct (cs_loop_inv (cs_stages (fl_cs f)) (cs_states (fl_cs f)) x t) as [C1 C2].
      destruct (cs_loop (cs_stages (fl_cs f)) (cs_states (fl_cs f)) x) as [ss y]. simpl in *.
      split; simpl; [lia|auto].
    - inversion H. split; simpl; [rewrite map_length; auto|].
      apply Forall_map. eapply Forall_impl; [|exact H2]. intros s <-. apply st_reset_topo.
    - inversion H. split; simpl; [rewrite map_length; auto|].
      apply Forall_map. eapply Forall_impl; [|exact H2]. intros s <-. apply st_reset_topo.
  Qed.

  Lemma steps_states_ok t k FO os : forall f f', states_ok t k FO f -> steps k FO os f = Some f' ->
    states_ok t k FO f'.
  Proof.
    induction os as [|o os IH]; intros f f' H1 H2; simpl in H2.
    - inversion H2; subst; auto.
    - destruct (step k FO o f) as [g|] eqn:E; [|discriminate].
      eapply IH; [|exact H2]. eapply step_states_ok; eauto.
  Qed.

  Lemma init_states_ok t k FO : states_ok t k FO (filt_init t k FO).
  Proof.
    split; simpl; [apply repeat_length|].
    apply Forall_forall. intros s Hs. apply repeat_spec in Hs. subst. destruct t; reflexivity.
  Qed.

  Lemma reachable_states_ok t k FO f : reachable t k FO f -> states_ok t k FO f.
  Proof. intros [os H]. eapply steps_states_ok; [apply init_states_ok|exact H]. Qed.


  (** without filter calls the delay lines stay cleared *)
  Lemma steps_fresh t k FO os : forall f f' : filt N, fl_states f = fl_states (filt_init t k FO) ->
    forallb (fun o => negb (is_filter_op o)) os = true ->
    steps k FO os f = Some f' -> fl_states f' = fl_states (filt_init t k FO).
  Proof.
    assert (R : map st_reset (fl_states (filt_init (N := N) t k FO)) = fl_states (filt_init t k FO)).
    { destruct (init_states_ok t k FO) as [A B]. rewrite (reset_states_init t _ B). simpl.
      rewrite repeat_length. reflexivity. }
    induction os as [|o os IH]; intros f f' H1 H2 H3; simpl in *.
    - inversion H3; subst; auto.
    - apply andb_prop in H2. destruct H2 as [H2 H2'].
      destruct (step k FO o f) as [g|] eqn:E; [|discriminate].
      apply (IH g f'); auto. destruct o; simpl in *; try discriminate.
      + apply setup_states in E. congruence.
      + apply setup_states in E. congruence.
      + inversion E. simpl. rewrite H1. exact R.
      + inversion E. simpl. rewrite H1. exact R.
  Qed.

  Lemma reset_like_new t k FO (f g : filt N) os : reachable t k FO f ->
    steps k FO os (filt_init t k FO) = Some g -> forallb (fun o => negb (is_filter_op o)) os = true ->
    fl_stages g = fl_stages f ->
    forall xs, snd (filt_run (filt_reset f) xs) = snd (filt_run g xs).
  Proof.
    intros Hf Hg Hos Hst xs. apply reachable_states_ok in Hf. destruct Hf as [L F].
    pose proof (steps_fresh t k FO os _ g eq_refl Hos Hg) as G.
    rewrite !filt_run_snd. unfold fl_cs. rewrite Hst, G.
    simpl. rewrite (reset_states_init t _ F), L. reflexivity.
  Qed.

  (** ** the cascade is the chain of its stages *)
  (** the signal after every stage; states threaded per stage *)
  Lemma cs_run_cons b bs s ss (xs : list (T N)) :
    length bs = length ss ->
    cs_run (MkCStages (b :: bs) (s :: ss)) xs =
    (MkCStages (b :: bs)
       (fst (bq_run b s xs) :: cs_states (fst (cs_run (MkCStages bs ss) (snd (bq_run b s xs))))),
     snd (cs_run (MkCStages bs ss) (snd (bq_run b s xs)))).
  Proof.
    revert s ss. induction xs as [|x xs IH]; intros s ss H; simpl; auto.
    unfold cs_filter at 1. simpl.
    destruct (st_filter s b x) as [s' y] eqn:Es.
    destruct (bq_run b s' xs) as [s2 ys] eqn:Eb. simpl.
    destruct (cs_loop bs ss y) as [ss' z] eqn:El.
    rewrite IH.
    2:{ destruct (cs_loop_inv bs ss y DF1) as [C _]. rewrite El in C. simpl in C. lia. }
    rewrite Eb. simpl. unfold cs_filter. simpl. rewrite El.
    destruct (cs_run (MkCStages bs ss') ys) as [c zs] eqn:Ec. simpl. reflexivity.
  Qed.

  Lemma cs_run_nil (xs : list (T N)) : cs_run (MkCStages [] []) xs = (MkCStages [] [], xs).
  Proof.
    induction xs as [|x xs IH]; simpl; auto. unfold cs_filter. simpl. rewrite IH. reflexivity.
  Qed.

  Lemma cs_run_stages (c : cstages N) xs : cs_stages (fst (cs_run c xs)) = cs_stages c.
  Proof.
    revert c. induction xs as [|x xs IH]; intros c; simpl; auto.
    unfold cs_filter. destruct (cs_loop (cs_stages c) (cs_states c) x) as [ss y].
    specialize (IH (MkCStages (cs_stages c) ss)).
    destruct (cs_run (MkCStages (cs_stages c) ss) xs). simpl in *. exact IH.
  Qed.

  Lemma cs_run_chain (bss : list (biquad N * st N)) xs :
    snd (cs_run (MkCStages (map fst bss) (map snd bss)) xs) =
    fold_left (fun sig bs => snd (bq_run (fst bs) (snd bs) sig)) bss xs.
  Proof.
    revert xs. induction bss as [|[b s] bss IH]; intros xs; simpl.
    - rewrite cs_run_nil. reflexivity.
    - rewrite cs_run_cons by (rewrite !map_length; reflexivity). simpl. apply IH.
  Qed.
  Lemma cs_run_chain_states (bss : list (biquad N * st N)) xs :
    length (cs_states (fst (cs_run (MkCStages (map fst bss) (map snd bss)) xs))) = length bss.
  Proof.
    revert xs. induction bss as [|[b s] bss IH]; intros xs; simpl.
    - rewrite cs_run_nil. reflexivity.
    - rewrite cs_run_cons by (rewrite !map_length; reflexivity). simpl. rewrite IH. reflexivity.
  Qed.

  (** ** SOSCascade *)
  Lemma setCoefficients_spec a0 a1 a2 b0 b1 b2 (b : biquad N) :
    (is_nan a0 || is_nan a1 || is_nan a2 || is_nan b0 || is_nan b1 || is_nan b2 = false ->
       setCoefficients a0 a1 a2 b0 b1 b2 b =
       Ok (MkBiquad a0 (ndiv N a1 a0) (ndiv N a2 a0) (ndiv N b0 a0) (ndiv N b1 a0) (ndiv N b2 a0)) tt) /\
    (is_nan a0 || is_nan a1 || is_nan a2 || is_nan b0 || is_nan b1 || is_nan b2 = true ->
       exists e, setCoefficients a0 a1 a2 b0 b1 b2 b = Throw e b).
  Proof.
    unfold setCoefficients, bind, throw_if.
    destruct (is_nan a0); simpl; [split; [discriminate|eexists; reflexivity]|].
    destruct (is_nan a1); simpl; [split; [discriminate|eexists; reflexivity]|].
    destruct (is_nan a2); simpl; [split; [discriminate|eexists; reflexivity]|].
    destruct (is_nan b0); simpl; [split; [discriminate|eexists; reflexivity]|].
    destruct (is_nan b1); simpl; [split; [discriminate|eexists; reflexivity]|].
    destruct (is_nan b2); simpl; [split; [discriminate|eexists; reflexivity]|].
    split; [reflexivity|discriminate].
  Qed.

  Lemma set_row_ok r (b : biquad N) : row_nan r = false -> set_row r b = Ok (row_bq r) tt.
  Proof.
    destruct r as [[[[[b0 b1] b2] a0] a1] a2]. unfold row_nan, set_row, row_bq. intros H.
    apply setCoefficients_spec. exact H.
  Qed.
  Lemma set_row_nan r (b : biquad N) : row_nan r = true -> exists e, set_row r b = Throw e b.
  Proof.
    destruct r as [[[[[b0 b1] b2] a0] a1] a2]. unfold row_nan, set_row. intros H.
    apply setCoefficients_spec. exact H.
  Qed.

  Lemma sos_loop_ok rows : forall (stages : list (biquad N)),
    length rows = length stages -> Forall (fun r => row_nan r = false) rows ->
    sos_loop rows stages = Ok (map row_bq rows) tt.
  Proof.
    induction rows as [|r rows IH]; intros [|b stages] HL HF; simpl in *; try lia; auto.
    inversion HF; subst. rewrite set_row_ok by assumption. rewrite IH by (auto; lia). reflexivity.
  Qed.

  Lemma sos_loop_throw good bad rest : forall (stages : list (biquad N)),
    length (good ++ bad :: rest) = length stages -> Forall (fun r => row_nan r = false) good ->
    row_nan bad = true ->
    exists e, sos_loop (good ++ bad :: rest) stages = Throw e (map row_bq good ++ skipn (length good) stages).
  Proof.
    induction good as [|r rows IH]; intros [|b stages] HL HF Hb; simpl in *; try lia; auto.
    - destruct (set_row_nan bad b Hb) as [e ->]. eexists. reflexivity.
    - inversion HF; subst. rewrite set_row_ok by assumption.
      destruct (IH stages ltac:(lia) H2 Hb) as [e ->]. eexists. reflexivity.
  Qed.
End Stream.
