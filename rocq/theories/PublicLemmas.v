(** Proofs about the public base-class interface. *)
From Coq Require Import ZArith List Bool Lia.
From Verif Require Import Num Outcome Types Biquad State Cascade Transforms Butterworth Chebyshev
  PoleFilter History Hoare Safe Public.
Import ListNotations.
Local Open Scope Z_scope.

Section Public.
  Context {N : num}.
  Hypothesis polar_total : forall r th, npolar N r th <> None.

  Lemma sos_loop_ok : forall (rows : list (sosrow N)) stages, (length rows <= length stages)%nat ->
    exists l, after (sos_loop rows stages) = Some l /\ length l = length stages.
  Proof.
    induction rows as [|r rows IH]; intros [|b stages] H; simpl in *; try lia; eauto.
    destruct (set_row r b) as [b' u|e b'|] eqn:E.
    - destruct (IH stages) as [l [Hl Hn]]; [lia|].
      destruct (sos_loop rows stages) as [l' u'|e l'|]; simpl in *; inversion Hl; subst;
        eexists; (split; [reflexivity|]); simpl; congruence.
    - eexists; split; reflexivity.
    - exfalso. destruct r as [[[[[r0 r1] r2] r3] r4] r5]. eapply setCoefficients_not_ub; exact E.
  Qed.

  Lemma layout_pairs (l : layout N) : layout_valid l ->
    forall i, 0 <= i < Z.quot (l_numPoles l + 1) 2 -> exists p, lay_getPair l i = Val p.
  Proof.
    intros [H0 H1] i Hi. unfold lay_getPair, obind, othrow_if.
    destruct (Z.ltb_spec i 0); [lia|]. destruct (Z.leb_spec (Z.quot (l_numPoles l + 1) 2) i); [lia|]. simpl.
    destruct (aget_some _ (l_pairs l) i) as [x ->]; [lia|]. simpl. eauto.
  Qed.

  Lemma pstep_ok t k FO o (f : filt N) : 1 <= FO -> in_int (2 * FO) = true -> pop_ok (maxStagesOf (snd k) FO) o ->
    filt_ok t k FO f -> exists f', pstep k FO o f = Some f' /\ filt_ok t k FO f'.
  Proof.
    intros HF HI Ho Hf. destruct o as [o|s|l| |rows]; simpl in *.
    - apply step_ok; auto.
    - destruct Hf as ((H1 & H2 & H3) & H4 & H5).
      unfold filt_applyScale, on_pf, on_cas, zoom, cas_applyScale, bind, get.
      destruct (Z.ltb_spec (c_numStages (pf_cas (fl_pf f))) 1).
      + simpl. eexists. split; [reflexivity|]. repeat split; simpl; auto; apply H1.
      + destruct H1 as (C1 & C2 & C3). unfold on_stage, bind, get, or_ub, modify.
        destruct (aget_some _ (c_stages (pf_cas (fl_pf f))) 0) as [x ->]; [lia|]. simpl.
        rewrite aset_some by lia. simpl. eexists. split; [reflexivity|].
        repeat split; simpl; auto; try apply C3; rewrite ?upd_length; auto.
    - destruct Hf as ((H1 & H2 & H3) & H4 & H5). destruct Ho as [V1 V2].
      pose proof (setLayout_gen polar_total (maxStagesOf (snd k) FO) l) as G.
      assert (Q : 0 <= Z.quot (l_numPoles l + 1) 2)
        by (destruct V1; rewrite quot2_pos by lia; apply Z.div_pos; lia).
      specialize (G (conj Q V2) (layout_pairs l V1) _ H1).
      unfold filt_setLayout, on_pf, on_cas, zoom.
      destruct (setLayout l (pf_cas (fl_pf f))); simpl; [| |contradiction]; eexists;
        (split; [reflexivity|]; repeat split; simpl; auto; (apply G || apply (proj1 G))).
    - destruct Hf as ((H1 & H2 & H3) & H4 & H5). simpl. eexists. split; [reflexivity|].
      destruct H1 as (C1 & C2 & C3).
      repeat split; simpl; auto; lia.
    - destruct Hf as ((H1 & H2 & H3) & H4 & H5). destruct H1 as (C1 & C2 & C3).
      destruct (sos_loop_ok rows (c_stages (pf_cas (fl_pf f)))) as [l [Hl Hn]]; [lia|].
      unfold filt_setupSos, on_pf, on_cas, zoom.
      destruct (sos_loop rows (c_stages (pf_cas (fl_pf f)))); simpl in *; [| |discriminate];
        inversion Hl; subst; eexists; (split; [reflexivity|]); repeat split; simpl; auto; try apply C3; lia.
  Qed.

  Lemma psteps_ok t k FO os : forall f : filt N, 1 <= FO -> in_int (2 * FO) = true ->
    Forall (pop_ok (maxStagesOf (snd k) FO)) os -> filt_ok t k FO f ->
    exists f', psteps k FO os f = Some f' /\ filt_ok t k FO f'.
  Proof.
    induction os as [|o os IH]; intros f HF HI Ho Hf; simpl; [eauto|].
    inversion Ho; subst. destruct (pstep_ok t k FO o f HF HI H1 Hf) as [f' [-> Hf']]. auto.
  Qed.

  Lemma public_safe t k FO : 1 <= FO -> in_int (2 * FO) = true ->
    forall os : list (pop N), Forall (pop_ok (maxStagesOf (snd k) FO)) os ->
    exists f : filt N, psteps k FO os (filt_init t k FO) = Some f /\
      (forall x, filt_response f x <> Undef) /\ (forall i, filt_index f i <> Undef) /\
      filt_getPoleZeros f <> Undef /\
      length (fl_stages f) = Z.to_nat (maxStagesOf (snd k) FO) /\
      length (fl_states f) = Z.to_nat (maxStagesOf (snd k) FO) /\
      0 <= filt_numStages f <= maxStagesOf (snd k) FO.
  Proof.
    intros HF HI os Ho. destruct (psteps_ok t k FO os _ HF HI Ho (filt_init_ok t k FO HF)) as [f [Hs Hf]].
    exists f. split; [exact Hs|]. pose proof Hf as ((H1 & H2 & H3) & H4 & H5).
    split; [intros x; apply (cas_response_ok polar_total _ _ x H1)|].
    split. { intros i E. destruct (cas_index_ok _ _ i H1) as [I1 I2]. unfold filt_index in E.
      destruct (Z_lt_le_dec i 0); [rewrite I2 in E by lia; discriminate|].
      destruct (Z_lt_le_dec i (c_numStages (pf_cas (fl_pf f)))).
      - destruct I1 as [b [_ Hb]]; [lia|]. rewrite Hb in E. discriminate.
      - rewrite I2 in E by lia. discriminate. }
    split. { destruct (filt_getPoleZeros_ok t k FO f Hf) as [ps ->]. discriminate. }
    destruct H1 as (C1 & C2 & C3). unfold fl_stages, filt_numStages. repeat split; lia.
  Qed.
End Public.

(** a rejected layout *)
Lemma rejected_layout (N : num) (c : cascade N) (l : layout N) :
  c_maxStages c = Z.of_nat (length (c_stages c)) -> c_maxStages c < Z.quot (l_numPoles l + 1) 2 ->
  exists c', setLayout l c = Throw E_stages c' /\ c_stages c' = c_stages c /\
    c_numStages c' = Z.quot (l_numPoles l + 1) 2 /\
    cas_index c' (c_maxStages c) = Undef /\
    ((forall r th, npolar N r th <> None) -> forall f,
       ngtb f (nlit N 1 2) = false -> nltb N f (nofZ N 0) = false -> cas_response c' f = Undef).
Proof.
  intros H1 H2. exists (MkCascade (Z.quot (l_numPoles l + 1) 2) (c_maxStages c) (c_stages c)).
  split; [|split; [reflexivity|split; [reflexivity|split]]].
  - unfold setLayout, bind, modify, get, throw_if. simpl.
    destruct (Z.ltb_spec (c_maxStages c) (Z.quot (l_numPoles l + 1) 2)); [reflexivity|lia].
  - unfold cas_index, othrow_if, obind. simpl.
    destruct (Z.ltb_spec (c_maxStages c) 0); [lia|].
    destruct (Z.leb_spec (Z.quot (l_numPoles l + 1) 2) (c_maxStages c)); [lia|]. simpl.
    unfold aget. destruct (Z.ltb_spec (c_maxStages c) 0); [lia|].
    destruct (nth_error (c_stages c) (Z.to_nat (c_maxStages c))) eqn:E; [|reflexivity].
    assert (G : nth_error (c_stages c) (Z.to_nat (c_maxStages c)) <> None) by congruence.
    apply nth_error_Some in G. lia.
  - intros P f F1 F2. unfold cas_response. rewrite F1, F2. unfold othrow_if, obind. simpl.
    destruct (npolar N (nofZ N 1) (nopp N (nmul N (nmul N (nofZ N 2) (npi N)) f))) as [z1|] eqn:E1; [|elim (P _ _ E1)].
    destruct (npolar N (nofZ N 1) (nmul N (nofZ N (-2)) (nmul N (nmul N (nofZ N 2) (npi N)) f))) as [z2|] eqn:E2; [|elim (P _ _ E2)].
    simpl.
    assert (R : forall n (st : list (biquad N)) ch cb, (length st < n)%nat -> resp_loop z1 z2 st n ch cb = Undef).
    { induction n as [|n IH]; intros [|b st] ch cb Hl; cbn [length] in Hl; try lia; [reflexivity|].
      simpl. apply IH. lia. }
    rewrite R; [reflexivity|]. lia.
Qed.

(** a full layout does not notice a further pole pair *)
Lemma full_layout (N : num) (l : layout N) p z :
  Z.even (l_numPoles l) = true -> l_numPoles l = l_maxPoles l -> l_maxPoles l = 2 * Z.of_nat (length (l_pairs l)) ->
  c_is_nan p = false -> c_is_nan z = false ->
  lay_addConj p z l = UB.
Proof.
  intros He Hn Hm Hp Hz. unfold lay_addConj, bind, get, throw_if.
  rewrite <- Z.negb_even, He, Hp, Hz. simpl. unfold lay_write, bind, get, or_ub.
  assert (Q : Z.quot (l_numPoles l) 2 = Z.of_nat (length (l_pairs l)))
    by (rewrite Hn, Hm, Z.mul_comm; apply Z.quot_mul; lia).
  rewrite Q. unfold aset.
  rewrite Z.leb_refl, orb_true_r. reflexivity.
Qed.
