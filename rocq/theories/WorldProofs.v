(** Proofs about several filter objects (World.v). *)
From Coq Require Import ZArith List Bool Lia.
From Verif Require Import Num Outcome Types Biquad State Cascade Transforms Butterworth Chebyshev
  PoleFilter History Hoare Safe Stream World WorldHistory.
Import ListNotations.

Section WorldProofs.
  Context {N : num}.
  Local Notation filt_of := (@filt_of N).
  Local Notation own := (@own N).
  Notation world := (world N).
  Notation obj := (obj N).

  Lemma live_lt (w : world) i o : live w i = Some o -> (i < length w)%nat.
  Proof.
    unfold live. intros H. destruct (nth_error w i) eqn:E; [|discriminate].
    apply nth_error_Some. congruence.
  Qed.
  Lemma live_write_same (w : world) i o o' : live w i = Some o -> live (write w i o') i = Some o'.
  Proof. intros H. apply live_lt in H. unfold live, write. rewrite upd_nth_error_same by exact H. reflexivity. Qed.
  Lemma live_write_other (w : world) i j o' : i <> j -> live (write w i o') j = live w j.
  Proof. intros H. unfold live, write. rewrite upd_nth_error_other by exact H. reflexivity. Qed.
  Lemma live_app_old (w : world) l i : (i < length w)%nat -> live (w ++ l) i = live w i.
  Proof. intros H. unfold live. rewrite nth_error_app1 by exact H. reflexivity. Qed.
  Lemma live_app_new (w : world) o : live (w ++ [Some o]) (length w) = Some o.
  Proof. unfold live. rewrite nth_error_app2 by lia. rewrite Nat.sub_diag. reflexivity. Qed.
  Lemma live_destroyed (w : world) i : live (upd w i None) i = None.
  Proof.
    unfold live. destruct (nth_error (upd w i None) i) as [[o|]|] eqn:E; auto.
    assert (i < length w)%nat.
    { assert (nth_error (upd w i None) i <> None) by congruence. apply nth_error_Some in H.
      rewrite upd_length in H. exact H. }
    rewrite upd_nth_error_same in E by exact H. discriminate.
  Qed.
  Lemma live_upd_other (w : world) i j x : i <> j -> live (upd w i x) j = live w j.
  Proof. intros H. unfold live. rewrite upd_nth_error_other by exact H. reflexivity. Qed.

  Definition obj_of (i : nat) (t : topo) (k : kind) (FO : Z) (f : filt N) : obj :=
    let p := fl_pf f in
    MkObj t k FO (c_numStages (pf_cas p)) (c_maxStages (pf_cas p)) i
          (head_of (pf_dig p) i)
          (p_np (pf_ana p)) (p_gain (pf_ana p)) (p_db (pf_ana p)) (head_of (p_lay (pf_ana p)) i)
          (c_stages (pf_cas p)) (fl_states f) (l_pairs (p_lay (pf_ana p))) (l_pairs (pf_dig p)).

  Lemma load_own w i o : own w i o -> load_pf w o = Some (fl_pf (filt_of o)).
  Proof.
    intros (H & A & B & C). unfold load_pf, load_cas, load_dig, load_ana. rewrite A, B, C, H. reflexivity.
  Qed.

  Lemma at_obj_live w i (f : obj -> obj) o : live w i = Some o -> live (at_obj i f w) i = Some (f o).
  Proof. intros H. unfold at_obj. rewrite H. eapply live_write_same; eauto. Qed.
  Lemma at_obj_other w i j (f : obj -> obj) : i <> j -> live (at_obj i f w) j = live w j.
  Proof. intros H. unfold at_obj. destruct (live w i); auto. apply live_write_other; auto. Qed.

  Lemma store_own w i o p : own w i o ->
    live (store_pf i o p w) i = Some (obj_of i (o_topo o) (o_kind o) (o_FO o) (MkFilt p (o_states o))) /\
    own (store_pf i o p w) i (obj_of i (o_topo o) (o_kind o) (o_FO o) (MkFilt p (o_states o))) /\
    (forall j, j <> i -> live (store_pf i o p w) j = live w j).
  Proof.
    intros (H & A & B & C). unfold store_pf. rewrite A, B, C.
    assert (L : live (at_obj i (set_stages (c_stages (pf_cas p)))
        (at_obj i (set_digStore (l_pairs (pf_dig p)))
        (at_obj i (set_anaStore (l_pairs (p_lay (pf_ana p))))
        (at_obj i (set_head p) w)))) i =
        Some (obj_of i (o_topo o) (o_kind o) (o_FO o) (MkFilt p (o_states o)))).
    { erewrite at_obj_live. 2:{ erewrite at_obj_live. 2:{ erewrite at_obj_live.
      2:{ apply at_obj_live. exact H. } reflexivity. } reflexivity. }
      unfold obj_of, set_stages, set_digStore, set_anaStore, set_head. simpl. rewrite A, B, C. reflexivity. }
    split; [exact L|]. split.
    - split; [exact L|]. repeat split.
    - intros j Hj. rewrite !at_obj_other by auto. reflexivity.
  Qed.

  Lemma obj_of_filt_of i o : o_stagePtr o = i -> h_ptr (o_dig o) = i -> h_ptr (o_ana o) = i ->
    obj_of i (o_topo o) (o_kind o) (o_FO o) (filt_of o) = o.
  Proof.
    intros A B C. destruct o as [t k FO ns ms sp [d1 d2 d3 d4 d5] an ag ad [e1 e2 e3 e4 e5] st ss da dd].
    simpl in *. subst. reflexivity.
  Qed.
  Lemma set_states_obj_of i o l : o_stagePtr o = i -> h_ptr (o_dig o) = i -> h_ptr (o_ana o) = i ->
    set_states l o = obj_of i (o_topo o) (o_kind o) (o_FO o) (MkFilt (fl_pf (filt_of o)) l).
  Proof.
    intros A B C. destruct o as [t k FO ns ms sp [d1 d2 d3 d4 d5] an ag ad [e1 e2 e3 e4 e5] st ss da dd].
    simpl in *. subst. reflexivity.
  Qed.
  Lemma filt_of_obj_of i t k FO f : filt_of (obj_of i t k FO f) = f.
  Proof.
    destruct f as [[[n m s] [d1 d2 d3 d4 d5] [a1 a2 a3 [e1 e2 e3 e4 e5]]] ss]. reflexivity.
  Qed.

  (** all live objects own their arrays *)
  Definition wf (w : world) : Prop := forall i o, live w i = Some o -> own w i o.

  Lemma wf_create w t k FO : wf w -> wf (w_create t k FO w).
  Proof.
    intros H i o Hi. unfold w_create in *.
    destruct (Nat.lt_ge_cases i (length w)) as [L|L].
    - rewrite live_app_old in Hi by exact L. destruct (H i o Hi) as (A & B). split; [|exact B].
      rewrite live_app_old by exact L. exact A.
    - assert (i = length w).
      { apply live_lt in Hi. rewrite app_length in Hi. simpl in Hi. lia. }
      subst. rewrite live_app_new in Hi. inversion Hi. split; [rewrite live_app_new; reflexivity|].
      repeat split.
  Qed.

  Lemma wf_of_change w w' i o' : wf w -> live w' i = Some o' -> own w' i o' ->
    (forall j, j <> i -> live w' j = live w j) -> wf w'.
  Proof.
    intros H H1 H2 H3 j o Hj. destruct (Nat.eq_dec j i) as [->|E].
    - rewrite H1 in Hj. inversion Hj. subst. exact H2.
    - rewrite H3 in Hj by exact E. destruct (H j o Hj) as (A & B). split; [|exact B].
      rewrite H3 by exact E. exact A.
  Qed.

  Lemma wf_destroy w i w' : wf w -> w_destroy i w = Ok w' tt -> wf w'.
  Proof.
    unfold w_destroy. intros H E. destruct (live w i) as [o0|] eqn:L; inversion E; subst. clear E.
    intros j o Hj. destruct (Nat.eq_dec j i) as [->|D].
    - rewrite live_destroyed in Hj. discriminate.
    - rewrite live_upd_other in Hj by auto. destruct (H j o Hj) as (A & B). split; [|exact B].
      rewrite live_upd_other by auto. exact A.
  Qed.

  (** ** one call on an object that owns its arrays is the same call on the [filt] *)
  Lemma w_setup_refine (w : world) i o (m : kind -> Z -> M (pf N) unit) : own w i o ->
    on_obj i (fun o => m (o_kind o) (o_FO o)) w =
    match m (o_kind o) (o_FO o) (fl_pf (filt_of o)) with
    | Ok p a => Ok (store_pf i o p w) a
    | Throw e p => Throw e (store_pf i o p w)
    | UB => UB
    end.
  Proof.
    intros H. unfold on_obj. rewrite (proj1 H), (load_own w i o H). reflexivity.
  Qed.

  Lemma call_refine (w : world) i o c : own w i o ->
    match step (o_kind o) (o_FO o) c (filt_of o) with
    | Some f' => exists w', w_call i c w = Some w' /\
        live w' i = Some (obj_of i (o_topo o) (o_kind o) (o_FO o) f') /\
        (forall j, j <> i -> live w' j = live w j)
    | None => w_call i c w = None
    end.
  Proof.
    intros H. destruct c as [r q|r sr q|x| |g]; simpl.
    - unfold w_setupN. rewrite (w_setup_refine w i o (fun k FO => setupN k FO r q) H).
      unfold filt_setupN, on_pf, zoom. destruct (setupN (o_kind o) (o_FO o) r q (fl_pf (filt_of o))) as [p u|e p|]; simpl; auto;
      destruct (store_own w i o p H) as (A & B & C); eauto.
    - unfold w_setup. rewrite (w_setup_refine w i o (fun k FO => setup k FO r sr q) H).
      unfold filt_setup, on_pf, zoom. destruct (setup (o_kind o) (o_FO o) r sr q (fl_pf (filt_of o))) as [p u|e p|]; simpl; auto;
      destruct (store_own w i o p H) as (A & B & C); eauto.
    - unfold w_filter. destruct H as (H & P1 & P2 & P3). rewrite H. unfold filt_filter, fl_cs, fl_stages. simpl.
      destruct (cs_filter {| cs_stages := o_stages o; cs_states := o_states o |} x) as [c y]. simpl.
      eexists. split; [reflexivity|]. split.
      + erewrite live_write_same by eauto. f_equal. apply set_states_obj_of; assumption.
      + intros j Hj. apply live_write_other. auto.
    - unfold w_reset. destruct H as (H & P1 & P2 & P3). rewrite H.
      eexists. split; [reflexivity|]. split.
      + erewrite live_write_same by eauto. f_equal. apply set_states_obj_of; assumption.
      + intros j Hj. apply live_write_other. auto.
    - unfold w_assign, w_reset. destruct H as (H & P1 & P2 & P3). rewrite H.
      eexists. split; [reflexivity|]. split.
      + erewrite live_write_same by eauto. f_equal. apply set_states_obj_of; assumption.
      + intros j Hj. apply live_write_other. auto.
  Qed.

  Lemma own_obj_of w i t k FO f : live w i = Some (obj_of i t k FO f) -> own w i (obj_of i t k FO f).
  Proof. intros H. split; [exact H|]. repeat split. Qed.

  (** the state of an object is determined by its class and its own calls *)
  Definition tracked (h : list (wop N)) (w : world) : Prop :=
    length w = length (creates h) /\
    forall i o, live w i = Some o ->
      exists t k FO f, nth_error (creates h) i = Some (t, k, FO) /\
        steps k FO (calls_of i h) (filt_init t k FO) = Some f /\ o = obj_of i t k FO f.

  Lemma steps_app (k : kind) FO (a b : list (op N)) f :
    steps k FO (a ++ b) f = match steps k FO a f with Some g => steps k FO b g | None => None end.
  Proof.
    revert f. induction a as [|o a IH]; intros f; simpl; auto. destruct (step k FO o f); auto.
  Qed.

  Lemma upd_len (w : world) i x : length (upd w i x) = length w.
  Proof. apply upd_length. Qed.

  Lemma w_call_len i c (w w' : world) : w_call i c w = Some w' -> length w' = length w.
  Proof.
    assert (L : forall j f (v : world), length (at_obj j f v) = length v).
    { intros. unfold at_obj. destruct (live v j); auto. apply upd_length. }
    assert (K : forall (m : obj -> M (pf N) unit) v v', after (on_obj i m v) = Some v' -> length v' = length v).
    { intros m v v' E. unfold on_obj in E. destruct (live v i); [|discriminate].
      destruct (load_pf v _); [|discriminate]. destruct (m _ _); simpl in E; inversion E;
      unfold store_pf; rewrite !L; reflexivity. }
    destruct c; simpl; intros H.
    - eapply K; eauto.
    - eapply K; eauto.
    - unfold w_filter in H. destruct (live w i); [|discriminate].
      destruct (cs_filter _ x); inversion H. apply upd_length.
    - unfold w_reset in H. destruct (live w i); inversion H. apply upd_length.
    - unfold w_assign, w_reset in H. destruct (live w i); inversion H. apply upd_length.
  Qed.

  Lemma creates_app (a b : list (wop N)) : creates (a ++ b) = creates a ++ creates b.
  Proof. induction a as [|o a IH]; simpl; auto. destruct o; rewrite IH; reflexivity. Qed.
  Lemma calls_app i (a b : list (wop N)) : calls_of i (a ++ b) = calls_of i a ++ calls_of i b.
  Proof.
    induction a as [|o a IH]; simpl; auto. destruct o; rewrite ?IH; auto.
    destruct (Nat.eqb i0 i); reflexivity.
  Qed.

  Lemma wsteps_app (a b : list (wop N)) w :
    wsteps (a ++ b) w = match wsteps a w with Some v => wsteps b v | None => None end.
  Proof. revert w. induction a as [|o a IH]; intros w; simpl; auto. destruct (wstep o w); auto. Qed.

  (** calls on an object that does not exist are undefined behaviour *)
  Lemma w_call_dead i c (w : world) : live w i = None -> w_call i c w = None.
  Proof.
    intros H. destruct c; simpl; unfold w_setupN, w_setup, on_obj, w_filter, w_assign, w_reset; rewrite H; reflexivity.
  Qed.

  Lemma tracked_step h o w w' : tracked h w -> no_copy o = true ->
    (forall i, (length (creates h) <= i)%nat -> calls_of i h = []) ->
    wstep o w = Some w' ->
    tracked (h ++ [o]) w' /\ (forall i, (length (creates (h ++ [o])) <= i)%nat -> calls_of i (h ++ [o]) = []).
  Proof.
    intros [HL H] Hn Hout Hs. destruct o as [t k FO|src|i|i c]; simpl in Hn; try discriminate; simpl in Hs.
    - inversion Hs. subst w'. clear Hs. split; [split|].
      + unfold w_create. rewrite creates_app, !app_length, HL. reflexivity.
      + intros i o Hi. rewrite creates_app, calls_app. simpl. rewrite app_nil_r. unfold w_create in Hi.
        destruct (Nat.lt_ge_cases i (length w)) as [L|L].
        * rewrite live_app_old in Hi by exact L. destruct (H i o Hi) as (t' & k' & FO' & f & A & B & C).
          exists t', k', FO', f. split; [|split]; auto. rewrite nth_error_app1 by lia. exact A.
        * assert (i = length w).
          { apply live_lt in Hi. rewrite app_length in Hi. simpl in Hi. lia. }
          subst i. rewrite live_app_new in Hi. inversion Hi.
          exists t, k, FO, (filt_init t k FO). split; [|split].
          -- rewrite nth_error_app2 by lia. rewrite HL, Nat.sub_diag. reflexivity.
          -- rewrite Hout by lia. reflexivity.
          -- reflexivity.
      + intros i Hi. rewrite calls_app. simpl. rewrite app_nil_r. apply Hout.
        rewrite creates_app, app_length in Hi. simpl in Hi. lia.
    - destruct (w_destroy i w) as [v u|e v|] eqn:E; simpl in Hs; inversion Hs; subst; clear Hs.
      2:{ unfold w_destroy in E. destruct (live w i); discriminate. }
      unfold w_destroy in E. destruct (live w i) as [o0|] eqn:L; inversion E; subst. clear E.
      split; [split|].
      + rewrite creates_app, app_length, upd_len. simpl. lia.
      + intros j o Hj. rewrite creates_app, calls_app. simpl. rewrite !app_nil_r.
        destruct (Nat.eq_dec j i) as [->|D].
        * rewrite live_destroyed in Hj. discriminate.
        * rewrite live_upd_other in Hj by auto. apply H. exact Hj.
      + intros j Hj. rewrite calls_app. simpl. rewrite app_nil_r. apply Hout.
        rewrite creates_app, app_length in Hj. simpl in Hj. lia.
    - destruct (live w i) as [o|] eqn:L.
      2:{ rewrite w_call_dead in Hs by exact L. discriminate. }
      destruct (H i o L) as (t & k & FO & f & A & B & C).
      assert (O : own w i o) by (subst o; apply own_obj_of; exact L).
      pose proof (call_refine w i o c O) as R. subst o. rewrite filt_of_obj_of in R. simpl in R.
      destruct (step k FO c f) as [f'|] eqn:Ef; [|congruence].
      destruct R as (v & R1 & R2 & R3). rewrite Hs in R1. inversion R1. subst v. clear R1.
      split; [split|].
      + rewrite (w_call_len _ _ _ _ Hs), creates_app, app_length. simpl. lia.
      + intros j o Hj. rewrite creates_app, calls_app. simpl. rewrite !app_nil_r.
        destruct (Nat.eq_dec j i) as [->|D].
        * rewrite R2 in Hj. inversion Hj. exists t, k, FO, f'. split; [exact A|]. split; [|reflexivity].
          rewrite Nat.eqb_refl, steps_app, B. simpl. rewrite Ef. reflexivity.
        * rewrite R3 in Hj by exact D. replace (i =? j)%nat with false by (symmetry; apply Nat.eqb_neq; lia).
          rewrite app_nil_r. apply H. exact Hj.
      + intros j Hj. rewrite calls_app. simpl. rewrite creates_app, app_length in Hj. simpl in Hj.
        apply live_lt in L. replace (i =? j)%nat with false by (symmetry; apply Nat.eqb_neq; lia).
        rewrite app_nil_r. apply Hout. lia.
  Qed.

  Lemma tracked_all h : forall w, forallb no_copy h = true -> wsteps h [] = Some w ->
    tracked h w /\ (forall i, (length (creates h) <= i)%nat -> calls_of i h = []).
  Proof.
    induction h as [|o h IH] using rev_ind; intros w Hn Hw.
    - simpl in Hw. inversion Hw. split; [split|]; auto. intros i o Hi. destruct i; discriminate.
    - rewrite forallb_app in Hn. apply andb_prop in Hn. destruct Hn as [Hn1 Hn2]. simpl in Hn2.
      rewrite andb_true_r in Hn2. rewrite wsteps_app in Hw.
      destruct (wsteps h []) as [v|] eqn:Ev; [|discriminate].
      destruct (IH v Hn1 eq_refl) as [I1 I2]. simpl in Hw. destruct (wstep o v) as [w1|] eqn:Eo; [|discriminate].
      inversion Hw. subst w1. eapply tracked_step; eauto.
  Qed.
End WorldProofs.
