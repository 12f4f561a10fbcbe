(** Lemmas in exactly the form of the property theorems that hold for every arithmetic. *)
From Coq Require Import ZArith List Bool Lia.
From Verif Require Import Num Outcome Types Biquad State Cascade Transforms Butterworth Chebyshev
  PoleFilter RBJ Custom History Hoare Safe Stream Reject World WorldHistory WorldProofs Spec.
Import ListNotations.

Section Any.
  Context {N : num}.

  Lemma grun_streaming S A B (stp : S -> A -> S * B) : streaming (grun stp).
  Proof.
    split; [|split].
    - intros. apply grun_length.
    - intros s n xs ys H. rewrite !grun_firstn, H. reflexivity.
    - intros s chunks. revert s. induction chunks as [|c cs IH]; intros s; simpl; auto.
      rewrite grun_app, IH. reflexivity.
  Qed.

  Lemma filt_streaming : streaming (filt_run (N := N)).
  Proof. exact (grun_streaming _ _ _ filt_filter). Qed.
  Lemma cs_streaming : streaming (cs_run (N := N)).
  Proof. exact (grun_streaming _ _ _ cs_filter). Qed.
  Lemma rbj_streaming : streaming (rbj_run (N := N)).
  Proof. exact (grun_streaming _ _ _ rbj_filter). Qed.

  Lemma chain_series (bss : list (biquad N * st N)) xs :
    snd (cs_run (MkCStages (map fst bss) (map snd bss)) xs) =
    series (map (fun bs sig => snd (bq_run (fst bs) (snd bs) sig)) bss) xs.
  Proof.
    rewrite cs_run_chain. revert xs. induction bss as [|bs bss IH]; intros xs; simpl; auto.
  Qed.

  Lemma reset_keeps (f : filt N) :
    fl_stages (filt_reset f) = fl_stages f /\
    (forall x, filt_response (filt_reset f) x = filt_response f x) /\
    filt_getPoleZeros (filt_reset f) = filt_getPoleZeros f /\
    filt_numStages (filt_reset f) = filt_numStages f.
  Proof. repeat split. Qed.

  Lemma rbj_reset_like_new (r : rbj N) xs : st_topo (r_st r) = DF1 ->
    rbj_run (rbj_reset r) xs = rbj_run (MkRbj (r_bq r) (r_st rbj_init)) xs.
  Proof. intros H. unfold rbj_reset. rewrite reset_init, H. reflexivity. Qed.

  Lemma sos_reset_like_new t (c : cstages N) xs :
    Forall (fun s => st_topo s = t) (cs_states c) ->
    cs_run (cs_reset c) xs = cs_run (MkCStages (cs_stages c) (cs_states (sos_init t (length (cs_states c))))) xs.
  Proof. intros H. unfold cs_reset. rewrite (reset_states_init t _ H). reflexivity. Qed.

  Section Polar.
    Hypothesis polar_total : forall r th, npolar N r th <> None.
    Variables (t : topo) (k : kind) (FO : Z).
    Hypothesis HF : (1 <= FO)%Z.
    Hypothesis HI : in_int (2 * FO) = true.

    Lemma reach_filt_ok (f : filt N) : reachable_ok t k FO f -> filt_ok t k FO f.
    Proof.
      intros [os [Ho Hs]].
      destruct (steps_ok polar_total t k FO os (filt_init t k FO) HF HI Ho (filt_init_ok t k FO HF)) as [g [G1 G2]].
      congruence.
    Qed.

    Lemma no_oob (os : list (op N)) : Forall op_ok os ->
      exists f : filt N, steps k FO os (filt_init t k FO) = Some f /\
        (forall x, filt_response f x <> Undef) /\ (forall i, filt_index f i <> Undef) /\
        filt_getPoleZeros f <> Undef /\
        length (fl_stages f) = Z.to_nat (maxStagesOf (snd k) FO) /\
        length (fl_states f) = Z.to_nat (maxStagesOf (snd k) FO) /\
        (0 <= filt_numStages f <= maxStagesOf (snd k) FO)%Z.
    Proof.
      intros Ho.
      destruct (steps_ok polar_total t k FO os (filt_init t k FO) HF HI Ho (filt_init_ok t k FO HF)) as [f [G1 G2]].
      exists f. pose proof G2 as ((C & D & A) & L & _). pose proof C as (C1 & C2 & C3).
      split; [exact G1|]. split; [|split; [|split; [|split; [|split]]]].
      - intros x. apply (cas_response_ok polar_total _ _ x C).
      - intros i. destruct (cas_index_ok _ _ i C) as [I1 I2].
        destruct (Z_le_gt_dec 0 i); [destruct (Z_lt_ge_dec i (c_numStages (pf_cas (fl_pf f))))|].
        + destruct I1 as [b [_ E]]; [lia|]. unfold filt_index. rewrite E. discriminate.
        + unfold filt_index. rewrite I2 by lia. discriminate.
        + unfold filt_index. rewrite I2 by lia. discriminate.
      - destruct (filt_getPoleZeros_ok t k FO f G2) as [ps ->]. discriminate.
      - unfold fl_stages. lia.
      - lia.
      - unfold filt_numStages. lia.
    Qed.

    Lemma response_domain (f : filt N) x : reachable_ok t k FO f ->
      (nltb N (nlit N 1 2) x = true -> exists e, filt_response f x = Exc e) /\
      (nltb N x (nofZ N 0) = true -> exists e, filt_response f x = Exc e) /\
      (nltb N (nlit N 1 2) x = false -> nltb N x (nofZ N 0) = false -> exists c, filt_response f x = Val c).
    Proof.
      intros H. apply reach_filt_ok in H. destruct H as ((C & _) & _).
      destruct (cas_response_ok polar_total _ _ x C) as [_ [[A B]|[[A [B D]]|[A [B [r D]]]]]];
      unfold filt_response, ngtb in *; repeat split; intros; try congruence; eauto.
    Qed.

    Lemma index_domain (f : filt N) i : reachable_ok t k FO f ->
      ((0 <= i < filt_numStages f)%Z -> exists b, nth_error (fl_stages f) (Z.to_nat i) = Some b /\ filt_index f i = Val b) /\
      (~ (0 <= i < filt_numStages f)%Z -> filt_index f i = Exc E_index).
    Proof. intros H. apply reach_filt_ok in H. destruct H as ((C & _) & _). apply (cas_index_ok _ _ i C). Qed.

    Lemma cutoff_rejected (f : filt N) r q : reachable_ok t k FO f -> order_ok r ->
      nltb N (q_fc q) (nlit N 1 2) = false \/ nltb N (q_fc q) (nofZ N 0) = true ->
      exists e f', filt_setupN k FO r q f = Throw e f' /\ looks_same f f'.
    Proof.
      intros H Hr Hb. apply reach_filt_ok in H. destruct H as (H & _ & _).
      assert (B : bad_fc (q_fc q) = true).
      { unfold bad_fc. destruct Hb as [-> | ->]; simpl; auto. apply orb_true_r. }
      destruct (setupN_bad polar_total k FO r q (fl_pf f) HF HI Hr H B) as (e & p' & E & S).
      exists e, (MkFilt p' (fl_states f)). split.
      - unfold filt_setupN, on_pf, zoom. rewrite E. reflexivity.
      - apply same_cd_obs. exact S.
    Qed.
  End Polar.

  Lemma order_rejected k FO o q (f : filt N) : (FO < o)%Z ->
    filt_setupN k FO (Some o) q f = Throw E_order f /\
    (forall sr, filt_setup k FO (Some o) sr q f = Throw E_order f).
  Proof.
    intros H. apply Z.ltb_lt in H. unfold filt_setupN, filt_setup, on_pf, zoom, setupN, setup, bind, throw_if.
    rewrite H. simpl. destruct f; auto.
  Qed.

  Lemma setup_keeps_states k FO r q sr (f f' : filt N) :
    (after (filt_setupN k FO r q f) = Some f' -> fl_states f' = fl_states f) /\
    (after (filt_setup k FO r sr q f) = Some f' -> fl_states f' = fl_states f).
  Proof. split; apply setup_states. Qed.

  (** ** copies *)
  Lemma copy_dangles t k FO (w : world N) :
    let i := length w in
    exists w1 w2, w_copy i (w_create t k FO w) = Ok w1 tt /\ w_destroy i w1 = Ok w2 tt /\
      live w2 (S i) <> None /\
      (forall x, w_response (S i) x w2 = Undef) /\
      w_getPoleZeros (S i) w2 = Undef /\
      (forall r q, w_setupN (S i) r q w2 = UB).
  Proof.
    simpl. set (i := length w). set (o := obj_init (N := N) t k FO i).
    assert (L0 : live (w_create t k FO w) i = Some o) by apply live_app_new.
    set (w1 := w_create t k FO w ++ [Some o]).
    assert (L1 : live w1 i = Some o).
    { unfold w1. rewrite live_app_old; [exact L0|]. unfold w_create. rewrite app_length. simpl. lia. }
    assert (L2 : live (upd w1 i None) (S i) = Some o).
    { rewrite live_upd_other by lia. unfold w1.
      replace (S i) with (length (w_create t k FO w)); [apply live_app_new|].
      unfold w_create. rewrite app_length. simpl. lia. }
    assert (L3 : live (upd w1 i None) i = None) by apply live_destroyed.
    exists w1, (upd w1 i None). split; [unfold w_copy; rewrite L0; reflexivity|].
    split; [unfold w_destroy; rewrite L1; reflexivity|].
    split; [congruence|]. split; [|split].
    - intros x. unfold w_response. rewrite L2. unfold load_cas. simpl. fold i. rewrite L3. reflexivity.
    - unfold w_getPoleZeros. rewrite L2. unfold load_dig. simpl. fold i. rewrite L3. reflexivity.
    - intros r q. unfold w_setupN, on_obj. rewrite L2. unfold load_pf, load_cas. simpl. fold i.
      rewrite L3. reflexivity.
  Qed.

  (** setup on a copy writes the original's coefficients, not its own *)
  Lemma setup_on_copy (w w1 : world N) i o j r q :
    own w i o -> w_copy i w = Ok w1 tt -> j = length w ->
    forall w2, after (w_setupN j r q w1) = Some w2 ->
    exists oi oj f', live w2 i = Some oi /\ live w2 j = Some oj /\
      o_stages oj = o_stages o /\ o_states oj = o_states o /\
      o_states oi = o_states o /\
      after (filt_setupN (o_kind o) (o_FO o) r q (filt_of o)) = Some f' /\
      o_stages oi = fl_stages f'.
  Proof.
    intros (H & A & B & C) Hc Hj w2 H2.
    unfold w_copy in Hc. rewrite H in Hc. inversion Hc as [W]. clear Hc.
    pose proof (live_lt _ _ _ H) as Hlt.
    assert (Lj : live w1 j = Some o) by (subst; apply live_app_new).
    assert (Li : live w1 i = Some o) by (subst; rewrite live_app_old by exact Hlt; exact H).
    assert (D : i <> j) by lia.
    unfold w_setupN, on_obj in H2. rewrite Lj in H2.
    unfold load_pf, load_cas, load_dig, load_ana in H2. rewrite A, B, C, Li in H2.
    unfold filt_setupN, on_pf, zoom. unfold filt_of. cbn [fl_pf].
    set (p := MkPf _ _ _) in *.
    assert (K : forall p', exists oi oj, live (store_pf j o p' w1) i = Some oi /\ live (store_pf j o p' w1) j = Some oj /\
        o_stages oj = o_stages o /\ o_states oj = o_states o /\ o_states oi = o_states o /\
        o_stages oi = c_stages (pf_cas p')).
    { intros p'. unfold store_pf. rewrite A, B, C.
      eexists _, _. split.
      { erewrite at_obj_live. 2:{ erewrite at_obj_live. 2:{ erewrite at_obj_live.
        2:{ rewrite at_obj_other by auto. exact Li. } reflexivity. } reflexivity. } reflexivity. }
      split. { rewrite !(at_obj_other _ i j) by auto. erewrite at_obj_live by exact Lj. reflexivity. }
      repeat split. }
    destruct (setupN (o_kind o) (o_FO o) r q p) as [p' u|e p'|]; simpl in H2; inversion H2; subst w2; clear H2.
    - destruct (K p') as (oi & oj & K1 & K2 & K3 & K4 & K5 & K6).
      exists oi, oj. eexists. simpl. repeat split; eauto.
    - destruct (K p') as (oi & oj & K1 & K2 & K3 & K4 & K5 & K6).
      exists oi, oj. eexists. simpl. repeat split; eauto.
  Qed.

  Lemma assign_spec (w : world N) i j o : live w i = Some o ->
    exists w', w_assign i j w = Ok w' tt /\
      (exists o', live w' i = Some o' /\ o_stages o' = o_stages o /\
         o_states o' = map st_reset (o_states o)) /\
      (forall n, n <> i -> live w' n = live w n) /\
      (forall n x, w_response n x w' = w_response n x w) /\
      (forall n, w_getPoleZeros n w' = w_getPoleZeros n w).
  Proof.
    intros H. set (o' := set_states (map st_reset (o_states o)) o).
    exists (write w i o').
    assert (L : forall n, live (write w i o') n = if Nat.eqb n i then Some o' else live w n).
    { intros n. destruct (Nat.eqb_spec n i) as [->|E]; [eapply live_write_same; eauto|].
      apply live_write_other. auto. }
    split; [unfold w_assign, w_reset; rewrite H; reflexivity|].
    split; [exists o'; rewrite L, Nat.eqb_refl; auto|].
    split. { intros n Hn. rewrite L. apply Nat.eqb_neq in Hn. rewrite Hn. reflexivity. }
    assert (LC : forall ob, load_cas (write w i o') ob = load_cas w ob).
    { intros ob. unfold load_cas. rewrite L. destruct (Nat.eqb_spec (o_stagePtr ob) i) as [E|E]; auto.
      rewrite E, H. reflexivity. }
    assert (LD : forall ob, load_dig (write w i o') ob = load_dig w ob).
    { intros ob. unfold load_dig. rewrite L. destruct (Nat.eqb_spec (h_ptr (o_dig ob)) i) as [E|E]; auto.
      rewrite E, H. reflexivity. }
    split.
    - intros n x. unfold w_response. rewrite L. destruct (Nat.eqb_spec n i) as [->|E].
      + rewrite H, LC. reflexivity.
      + destruct (live w n); auto. rewrite LC. reflexivity.
    - intros n. unfold w_getPoleZeros. rewrite L. destruct (Nat.eqb_spec n i) as [->|E].
      + rewrite H, LD. reflexivity.
      + destruct (live w n); auto. rewrite LD. reflexivity.
  Qed.

  Lemma objects_independent (h : list (wop N)) w i o : forallb no_copy h = true -> wsteps h [] = Some w ->
    live w i = Some o ->
    exists t k FO, nth_error (creates h) i = Some (t, k, FO) /\
      steps k FO (calls_of i h) (filt_init t k FO) = Some (filt_of o).
  Proof.
    intros H1 H2 H3. destruct (tracked_all h w H1 H2) as [[_ T] _].
    destruct (T i o H3) as (t & k & FO & f & A & B & C). subst o. exists t, k, FO.
    rewrite filt_of_obj_of. auto.
  Qed.

  (** ** SOSCascade *)
  Lemma sos_ok t (rows : list (sosrow N)) c : length rows = length (cs_stages c) ->
    Forall (fun r => row_nan r = false) rows ->
    sos_setup rows c = Ok (MkCStages (map row_bq rows) (cs_states c)) tt /\
    sos_construct t rows = Ok (MkCStages (map row_bq rows) (repeat (st_init t) (length rows))) tt.
  Proof.
    intros HL HF. unfold sos_setup, sos_construct, cs_setup, zoom.
    rewrite sos_loop_ok by assumption.
    cbn [cstages_init cs_stages cs_states].
    rewrite sos_loop_ok by (rewrite ?repeat_length; auto). auto.
  Qed.

  Lemma sos_bad good bad rest (c : cstages N) : length (good ++ bad :: rest) = length (cs_stages c) ->
    Forall (fun r => row_nan r = false) good -> row_nan bad = true ->
    exists e, sos_setup (good ++ bad :: rest) c =
      Throw e (MkCStages (map row_bq good ++ skipn (length good) (cs_stages c)) (cs_states c)).
  Proof.
    intros HL HF Hb. unfold sos_setup, cs_setup, zoom.
    destruct (sos_loop_throw good bad rest (cs_stages c) HL HF Hb) as [e ->]. eauto.
  Qed.
End Any.
