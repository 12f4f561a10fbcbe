(** Proofs: what setLayout does to a cascade. *)
From Coq Require Import ZArith List Bool Lia.
From Verif Require Import Num Outcome Types Biquad State Cascade Transforms Butterworth Chebyshev
  PoleFilter History Hoare Safe Stream AnyLemmas.
Import ListNotations.
Local Open Scope Z_scope.

Lemma F2_length A B (R : A -> B -> Prop) l l' : Forall2 R l l' -> length l = length l'.
Proof. induction 1; simpl; congruence. Qed.

Section Lay.
  Context {N : num}.

  (** the coefficients setPoleZeroPair installs *)
  Definition pair_bq (p : pzpair N) : oc (biquad N) :=
    match setPoleZeroPair p biquad0 with Ok b _ => Val b | Throw e _ => Exc e | UB => Undef end.
  Lemma setCoefficients_any a0 a1 a2 b0 b1 b2 (b : biquad N) :
    setCoefficients a0 a1 a2 b0 b1 b2 b =
    match setCoefficients a0 a1 a2 b0 b1 b2 biquad0 with Ok b' _ => Ok b' tt | Throw e _ => Throw e b | UB => UB end.
  Proof.
    unfold setCoefficients, bind, throw_if.
    destruct (is_nan a0), (is_nan a1), (is_nan a2), (is_nan b0), (is_nan b1), (is_nan b2); reflexivity.
  Qed.
  Lemma setPoleZeroPair_any p (b : biquad N) :
    setPoleZeroPair p b = match pair_bq p with Val b' => Ok b' tt | Exc e => Throw e b | Undef => UB end.
  Proof.
    unfold pair_bq, setPoleZeroPair. destruct (pz_isSinglePole p).
    - unfold setOnePole, bind, throw_if.
      destruct (nneqb _ _); [reflexivity|]. cbn [ret throw]. destruct (nneqb _ _); [reflexivity|]. cbn [ret throw].
      rewrite setCoefficients_any. destruct (setCoefficients _ _ _ _ _ _ biquad0); reflexivity.
    - unfold setTwoPole, bind. 
      destruct (two_coeffs _ _ _) as [[a1 a2]|e|]; cbn [lift ret throw ub]; try reflexivity.
      destruct (two_coeffs _ (cfst (zeros p)) _) as [[b1 b2]|e|]; cbn [lift ret throw ub]; try reflexivity.
      rewrite setCoefficients_any. destruct (setCoefficients _ _ _ _ _ _ biquad0); reflexivity.
  Qed.

  Lemma aget_app (pre : list (biquad N)) b rest : aget (pre ++ b :: rest) (Z.of_nat (length pre)) = Some b.
  Proof.
    unfold aget. destruct (Z.of_nat (length pre) <? 0) eqn:E; [apply Z.ltb_lt in E; lia|].
    rewrite Nat2Z.id, nth_error_app2, Nat.sub_diag by lia. reflexivity.
  Qed.
  Lemma upd_app (pre : list (biquad N)) b b' rest : upd (pre ++ b :: rest) (length pre) b' = pre ++ b' :: rest.
  Proof. induction pre; simpl; congruence. Qed.
  Lemma aset_app (pre : list (biquad N)) b b' rest :
    aset (pre ++ b :: rest) (Z.of_nat (length pre)) b' = Some (pre ++ b' :: rest).
  Proof.
    unfold aset. destruct (Z.of_nat (length pre) <? 0) eqn:E; [apply Z.ltb_lt in E; lia|].
    destruct (Z.of_nat (length (pre ++ b :: rest)) <=? _) eqn:E2.
    - apply Z.leb_le in E2. rewrite app_length in E2. simpl in E2. lia.
    - cbn [orb]. rewrite Nat2Z.id, upd_app. reflexivity.
  Qed.
  Lemma on_stage_app n m (pre : list (biquad N)) b rest g :
    on_stage (Z.of_nat (length pre)) g (MkCascade n m (pre ++ b :: rest)) =
    match g b with
    | Ok b' _ => Ok (MkCascade n m (pre ++ b' :: rest)) tt
    | Throw e b' => Throw e (MkCascade n m (pre ++ b' :: rest))
    | UB => UB
    end.
  Proof.
    unfold on_stage, bind, get. cbn [c_stages]. rewrite aget_app. cbn [or_ub ret].
    destruct (g b) as [b' []|e b'|]; auto.
    - rewrite aset_app. reflexivity.
    - unfold bind. rewrite aset_app. reflexivity.
  Qed.

  (** loops over consecutive stages *)
  Lemma stage_loop_ok n m (f : nat -> M (cascade N) unit) (bs : list (biquad N)) :
    forall pre mid post,
    length mid = length bs ->
    (forall j b pre' rest, length pre' = (length pre + j)%nat -> (j < length bs)%nat ->
       f (length pre + j)%nat (MkCascade n m (pre' ++ b :: rest)) =
       Ok (MkCascade n m (pre' ++ nth j bs biquad0 :: rest)) tt) ->
    mfor (map Z.of_nat (seq (length pre) (length mid))) (fun i => f (Z.to_nat i)) (MkCascade n m (pre ++ mid ++ post)) =
    Ok (MkCascade n m (pre ++ bs ++ post)) tt.
  Proof.
    induction bs as [|b0 bs IH]; intros pre mid post L H.
    - destruct mid; [reflexivity|discriminate].
    - destruct mid as [|x mid]; [discriminate|]. cbn [length seq map mfor app]. unfold bind.
      rewrite Nat2Z.id. pose proof (H 0%nat x pre (mid ++ post)) as H0. rewrite Nat.add_0_r in H0.
      rewrite H0 by (simpl; lia). cbn [nth].
      replace (pre ++ b0 :: mid ++ post) with ((pre ++ [b0]) ++ mid ++ post) by (rewrite <- app_assoc; reflexivity).
      replace (S (length pre)) with (length (pre ++ [b0])) by (rewrite app_length; simpl; lia).
      rewrite IH.
      + rewrite <- app_assoc. reflexivity.
      + simpl in L. lia.
      + intros j b pre' rest L' Hj. rewrite app_length in *. cbn [length] in *.
        replace (length pre + 1 + j)%nat with (length pre + S j)%nat by lia.
        rewrite (H (S j) b pre' rest); simpl; auto; lia.
  Qed.

  (** what every outcome of such a loop looks like *)
  Lemma stage_loop_inv n m (f : nat -> M (cascade N) unit) : forall len pre (mid post : list (biquad N)) c',
    length mid = len ->
    (forall j b pre' rest c, length pre' = (length pre + j)%nat -> (j < len)%nat ->
       after (f (length pre + j)%nat (MkCascade n m (pre' ++ b :: rest))) = Some c ->
       exists b', c = MkCascade n m (pre' ++ b' :: rest)) ->
    after (mfor (map Z.of_nat (seq (length pre) len)) (fun i => f (Z.to_nat i)) (MkCascade n m (pre ++ mid ++ post))) = Some c' ->
    exists mid', c' = MkCascade n m (pre ++ mid' ++ post) /\ length mid' = len.
  Proof.
    induction len as [|len IH]; intros pre mid post c' L H E.
    - destruct mid; [|discriminate]. inversion E. exists []. auto.
    - destruct mid as [|x mid]; [discriminate|]. cbn [length seq map mfor app] in E. unfold bind in E.
      rewrite Nat2Z.id in E. pose proof (H 0%nat x pre (mid ++ post)) as H0. rewrite Nat.add_0_r in H0.
      destruct (f (length pre) (MkCascade n m (pre ++ x :: mid ++ post))) as [c []|e c|] eqn:F.
      + destruct (H0 c) as [b' ->]; [lia|lia|reflexivity|].
        replace (pre ++ b' :: mid ++ post) with ((pre ++ [b']) ++ mid ++ post) in E by (rewrite <- app_assoc; reflexivity).
        replace (S (length pre)) with (length (pre ++ [b'])) in E by (rewrite app_length; simpl; lia).
        destruct (IH (pre ++ [b']) mid post c') as [mid' [-> L']].
        * simpl in L. lia.
        * intros j b pre' rest c L' Hj. rewrite app_length in *. cbn [length] in *.
          replace (length pre + 1 + j)%nat with (length pre + S j)%nat by lia. apply H; lia.
        * exact E.
        * exists (b' :: mid'). rewrite <- app_assoc. simpl. auto.
      + simpl in E. inversion E; subst c'. destruct (H0 c) as [b' ->]; [lia|lia|reflexivity|].
        exists (b' :: mid). simpl in *. auto.
      + discriminate.
  Qed.

  Lemma rep_nth (x y : biquad N) n j : (j < n)%nat -> nth j (repeat x n) y = x.
  Proof. revert j. induction n as [|n IH]; intros [|j] H; simpl; try lia; auto. apply IH. lia. Qed.

  (** the identity stage *)
  Definition idb : biquad N := MkBiquad (nofZ N 1) (ndiv N (nofZ N 0) (nofZ N 1)) (ndiv N (nofZ N 0) (nofZ N 1))
    (ndiv N (nofZ N 1) (nofZ N 1)) (ndiv N (nofZ N 0) (nofZ N 1)) (ndiv N (nofZ N 0) (nofZ N 1)).

  Section Nums.
    Hypothesis N0 : is_nan (nofZ N 0) = false.
    Hypothesis N1 : is_nan (nofZ N 1) = false.

    Lemma setIdentity_ok b : setIdentity b = Ok idb tt.
    Proof.
      unfold setIdentity, setCoefficients, bind, throw_if. rewrite N0, N1. reflexivity.
    Qed.

    Lemma id_loop n (stages : list (biquad N)) m : m = Z.of_nat (length stages) ->
      mfor (zrange m) (fun i => on_stage i setIdentity) (MkCascade n m stages) =
      Ok (MkCascade n m (repeat idb (length stages))) tt.
    Proof.
      intros ->. unfold zrange. rewrite Nat2Z.id.
      pose proof (stage_loop_ok n (Z.of_nat (length stages)) (fun i => on_stage (Z.of_nat i) setIdentity)
        (repeat idb (length stages)) [] stages []) as H.
      cbn [length app] in H. rewrite !app_nil_r in H. rewrite repeat_length in H.
      assert (G : forall l c, mfor (map Z.of_nat l) (fun i => on_stage i (setIdentity (N:=N))) c =
        mfor (map Z.of_nat l) (fun i => on_stage (Z.of_nat (Z.to_nat i)) setIdentity) c).
      { induction l as [|a l IH]; intros c; [reflexivity|]. simpl. unfold bind.
        rewrite Nat2Z.id. destruct (on_stage (Z.of_nat a) setIdentity c); auto. }
      rewrite G. apply H; [reflexivity|].
      intros j b pre' rest L Hj. cbn in L. subst j. cbn [Nat.add]. rewrite on_stage_app, setIdentity_ok.
      do 3 f_equal. f_equal. symmetry. apply rep_nth. exact Hj.
    Qed.

    Lemma mfor_ext I (l : list I) (f g : I -> M (cascade N) unit) c :
      (forall i c, In i l -> f i c = g i c) -> mfor l f c = mfor l g c.
    Proof.
      revert c. induction l as [|a l IH]; intros c H; [reflexivity|]. simpl. unfold bind.
      rewrite H by (left; reflexivity). destruct (g a c); auto. apply IH. intros. apply H. right. assumption.
    Qed.

    (** number of pairs *)
    Definition npairs (d : layout N) : Z := Z.quot (l_numPoles d + 1) 2.

    Lemma getPair_nth (d : layout N) i p : 0 <= i < npairs d -> nth_error (l_pairs d) (Z.to_nat i) = Some p ->
      lay_getPair d i = Val p.
    Proof.
      intros H E. unfold lay_getPair. fold (npairs d).
      replace (i <? 0) with false by (symmetry; apply Z.ltb_ge; lia).
      replace (npairs d <=? i) with false by (symmetry; apply Z.leb_gt; lia).
      cbn [orb othrow_if obind]. unfold aget. replace (i <? 0) with false by (symmetry; apply Z.ltb_ge; lia).
      rewrite E. reflexivity.
    Qed.

    Lemma pair_loop_ok (d : layout N) n m ps bs (mid post : list (biquad N)) :
      0 <= npairs d -> firstn (Z.to_nat (npairs d)) (l_pairs d) = ps -> length ps = Z.to_nat (npairs d) ->
      Forall2 (fun p b => pair_bq p = Val b) ps bs -> length mid = length bs ->
      mfor (zrange (npairs d)) (fun i => do p <- lift (lay_getPair d i); on_stage i (setPoleZeroPair p))
        (MkCascade n m (mid ++ post)) = Ok (MkCascade n m (bs ++ post)) tt.
    Proof.
      intros P E L F Lm. pose proof (F2_length _ _ _ _ _ F) as Lf.
      unfold zrange. rewrite <- L, Lf, <- Lm.
      rewrite (mfor_ext _ _ _ (fun i => (fun k => do p <- lift (lay_getPair d (Z.of_nat k));
        on_stage (Z.of_nat k) (setPoleZeroPair p)) (Z.to_nat i))).
      - apply (stage_loop_ok n m (fun k => do p <- lift (lay_getPair d (Z.of_nat k));
          on_stage (Z.of_nat k) (setPoleZeroPair p)) bs [] mid post Lm).
        intros j b pre' rest L' Hj. cbn [length Nat.add] in *.
        destruct (nth_error ps j) as [p|] eqn:Ep; [|apply nth_error_None in Ep; lia].
        assert (Eb : pair_bq p = Val (nth j bs biquad0)).
        { clear -F Ep. revert j Ep. induction F as [|p' b' ps bs Hpb F IH]; intros [|j] Ep; simpl in *; try discriminate.
          - inversion Ep; subst. exact Hpb.
          - apply IH. exact Ep. }
        unfold bind. rewrite (getPair_nth d (Z.of_nat j) p).
        + cbn [lift ret]. subst j. rewrite on_stage_app, setPoleZeroPair_any, Eb. reflexivity.
        + lia.
        + rewrite Nat2Z.id. rewrite <- E in Ep. rewrite <- Ep. clear -Hj Lf L Ep.
          symmetry. rewrite <- (firstn_skipn (Z.to_nat (npairs d)) (l_pairs d)) at 2.
          rewrite nth_error_app1; [reflexivity|].
          apply nth_error_Some. rewrite Ep. discriminate.
      - intros i c Hi. apply in_map_iff in Hi. destruct Hi as [k [<- _]]. rewrite Nat2Z.id. reflexivity.
    Qed.

    (** scale the first stage *)
    Definition scale_head (s : T N) (l : list (biquad N)) : list (biquad N) :=
      match l with [] => [] | b :: l' => bq_applyScale s b :: l' end.

    Lemma applyScale_ok s n m l : (0 < n)%Z -> l <> [] ->
      cas_applyScale s (MkCascade n m l) = Ok (MkCascade n m (scale_head s l)) tt.
    Proof.
      intros Hn Hl. destruct l as [|b l]; [congruence|]. unfold cas_applyScale, bind, get. cbn [c_numStages].
      replace (n <? 1) with false by (symmetry; apply Z.ltb_ge; lia).
      apply (on_stage_app n m [] b l).
    Qed.

    Lemma setLayout_eq (d : layout N) (c : cascade N) ps bs r :
      c_maxStages c = Z.of_nat (length (c_stages c)) -> 0 <= npairs d <= c_maxStages c ->
      firstn (Z.to_nat (npairs d)) (l_pairs d) = ps -> length ps = Z.to_nat (npairs d) ->
      Forall2 (fun p b => pair_bq p = Val b) ps bs ->
      let all := bs ++ repeat idb (Z.to_nat (c_maxStages c - npairs d)) in
      cas_response (MkCascade (npairs d) (c_maxStages c) all)
        (ndiv N (l_normalW d) (nmul N (nofZ N 2) (npi N))) = Val r ->
      setLayout d c = Ok (MkCascade (npairs d) (c_maxStages c)
        (if npairs d =? 0 then all else scale_head (ndiv N (l_normalGain d) (ncabs N r)) all)) tt.
    Proof.
      intros M B E L F all R. destruct c as [n0 m st]. cbn [c_maxStages c_stages c_numStages] in *.
      pose proof (F2_length _ _ _ _ _ F) as Lf.
      unfold setLayout. unfold bind at 1. unfold modify at 1. cbn [c_maxStages c_stages]. fold (npairs d).
      unfold bind at 1, get at 1. cbn [c_maxStages c_numStages].
      replace (m <? npairs d) with false by (symmetry; apply Z.ltb_ge; lia).
      unfold bind at 1. cbn [throw_if ret]. unfold bind at 1. rewrite (id_loop _ _ _ M).
      unfold bind at 1.
      replace (length st) with (length bs + Z.to_nat (m - npairs d))%nat by lia.
      rewrite repeat_app.
      rewrite (pair_loop_ok d _ _ ps bs _ _ (proj1 B) E L F) by apply repeat_length.
      fold all. unfold bind at 1, get at 1. unfold bind at 1. rewrite R. cbn [lift ret].
      destruct (npairs d =? 0) eqn:Z0.
      - apply Z.eqb_eq in Z0. unfold cas_applyScale, bind, get. cbn [c_numStages]. rewrite Z0. reflexivity.
      - apply Z.eqb_neq in Z0. apply applyScale_ok; [lia|].
        unfold all. destruct bs; [simpl in *; lia|discriminate].
    Qed.

    (** ** spare stages stay transparent *)
    Definition spare (b : biquad N) : Prop := b = idb \/ b = biquad0.
    Definition spare_inv (c : cascade N) : Prop := Forall spare (skipn (Z.to_nat (c_numStages c)) (c_stages c)).

    Lemma pair_loop_inv (d : layout N) ns n m mid (post : list (biquad N)) c' : length mid = Z.to_nat ns ->
      after (mfor (zrange ns) (fun i => do p <- lift (lay_getPair d i); on_stage i (setPoleZeroPair p))
        (MkCascade n m (mid ++ post))) = Some c' ->
      exists mid', c' = MkCascade n m (mid' ++ post) /\ length mid' = Z.to_nat ns.
    Proof.
      intros L. unfold zrange.
      rewrite (mfor_ext _ _ _ (fun i => (fun k => do p <- lift (lay_getPair d (Z.of_nat k));
        on_stage (Z.of_nat k) (setPoleZeroPair p)) (Z.to_nat i))).
      - intros E.
        apply (stage_loop_inv n m (fun k => do p <- lift (lay_getPair d (Z.of_nat k));
          on_stage (Z.of_nat k) (setPoleZeroPair p)) (Z.to_nat ns) [] mid post c' L); [|exact E].
        intros j b pre' rest c L' Hj. cbn [length Nat.add] in *. unfold bind.
        destruct (lay_getPair d (Z.of_nat j)) as [p|e|]; cbn [lift ret throw ub].
        + subst j. rewrite on_stage_app, setPoleZeroPair_any.
          destruct (pair_bq p); simpl; intros H; inversion H; eauto.
        + simpl. intros H. inversion H. eauto.
        + discriminate.
      - intros i c Hi. apply in_map_iff in Hi. destruct Hi as [k [<- _]]. rewrite Nat2Z.id. reflexivity.
    Qed.

    Lemma skipn_app_len (l l' : list (biquad N)) n : length l = n -> skipn n (l ++ l') = l'.
    Proof. intros <-. rewrite skipn_app, skipn_all, Nat.sub_diag. reflexivity. Qed.

    Lemma setLayout_inv ms cap (d : layout N) (c c' : cascade N) : ms = Z.quot (cap + 1) 2 -> lay_ok cap d ->
      cas_ok ms c -> after (setLayout d c) = Some c' ->
      c_numStages c' = npairs d /\ c_maxStages c' = ms /\
      skipn (Z.to_nat (npairs d)) (c_stages c') = repeat idb (Z.to_nat (ms - npairs d)).
    Proof.
      intros Hms Hd (C1 & C2 & C3) E. pose proof Hd as [n [Hn [D1 D2]]].
      assert (Hq : 0 <= npairs d <= ms).
      { unfold npairs. rewrite Hms, !quot2_pos by lia. split; [apply Z.div_pos; lia|]. apply Z.div_le_mono; lia. }
      destruct c as [n0 m st]. cbn [c_maxStages c_stages c_numStages] in *.
      unfold setLayout in E. unfold bind at 1 in E. unfold modify at 1 in E. cbn [c_maxStages c_stages] in E. fold (npairs d) in E.
      unfold bind at 1, get at 1 in E. cbn [c_maxStages c_numStages] in E.
      replace (m <? npairs d) with false in E by (symmetry; apply Z.ltb_ge; lia).
      unfold bind at 1 in E. cbn [throw_if ret] in E. unfold bind at 1 in E. rewrite (id_loop _ _ m) in E by lia.
      unfold bind at 1 in E.
      replace (length st) with (Z.to_nat (npairs d) + Z.to_nat (ms - npairs d))%nat in E by lia.
      rewrite repeat_app in E.
      pose proof (pair_loop_inv d (npairs d) (npairs d) m (repeat idb (Z.to_nat (npairs d))) (repeat idb (Z.to_nat (ms - npairs d)))) as PL.
      destruct (mfor _ _ _) as [c1 []|e c1|].
      - destruct (PL c1) as [mid' [-> L']]; [apply repeat_length|reflexivity|].
        unfold bind at 1, get at 1 in E. unfold bind at 1 in E.
        destruct (cas_response _ _) as [r|e|]; cbn [lift ret throw ub after] in E; [|inversion E; subst c'; simpl|discriminate].
        + destruct (Z.eq_dec (npairs d) 0) as [Z0|Z0].
          * unfold cas_applyScale, bind, get in E. cbn [c_numStages] in E. rewrite Z0 in E. cbn [Z.ltb Z.compare] in E.
            inversion E; subst c'. cbn [c_numStages c_maxStages c_stages]. rewrite Z0. repeat split; auto.
            rewrite Z0 in L'. rewrite <- Z0. rewrite skipn_app_len by lia. rewrite Z0. reflexivity.
          * destruct mid' as [|b mid']; [simpl in L'; lia|]. cbn [app] in E.
            rewrite applyScale_ok in E; [|lia|discriminate]. inversion E; subst c'. cbn [c_numStages c_maxStages c_stages scale_head].
            repeat split; auto.
            change (bq_applyScale (ndiv N (l_normalGain d) (ncabs N r)) b :: mid' ++ repeat idb (Z.to_nat (ms - npairs d)))
              with ((bq_applyScale (ndiv N (l_normalGain d) (ncabs N r)) b :: mid') ++ repeat idb (Z.to_nat (ms - npairs d))).
            apply skipn_app_len. exact L'.
        + repeat split; auto. apply skipn_app_len. exact L'.
      - destruct (PL c1) as [mid' [-> L']]; [apply repeat_length|reflexivity|].
        cbn [after] in E. inversion E; subst c'. cbn [c_numStages c_maxStages c_stages]. repeat split; auto.
        apply skipn_app_len. exact L'.
      - discriminate.
    Qed.

    Section Reach.
      Hypothesis polar_total : forall r th, npolar N r th <> None.

      Lemma base_setup_spare k FO o q p p' : 1 <= FO -> o <= FO -> in_int (2 * o) = true ->
        pf_ok k FO p -> spare_inv (pf_cas p) -> after (base_setup k o q p) = Some p' -> spare_inv (pf_cas p').
      Proof.
        intros HF Ho Hi (P1 & P2 & P3) Hs. unfold base_setup, bind, on_ana, zoom.
        pose proof (ana_design_ok polar_total k FO o q Ho HF Hi (pf_ana p) P3) as H.
        destruct (ana_design k o q (pf_ana p)) as [a u|e a|]; [| |contradiction].
        - unfold get, on_dig, zoom. cbn [pf_ana pf_dig pf_cas].
          pose proof (dig_transform_ok (snd k) q FO (p_lay a) H (pf_dig p) P2) as H2.
          destruct (dig_transform (snd k) q (p_lay a) (pf_dig p)) as [dg u2|e dg|]; [| |contradiction].
          + unfold on_cas, zoom. cbn [pf_dig pf_cas].
            pose proof (setLayout_inv (maxStagesOf (snd k) FO) (maxDigital (snd k) FO) dg (pf_cas p)) as SI.
            destruct (setLayout dg (pf_cas p)) as [c []|e c|]; cbn [after]; intros E; inversion E; cbn [pf_cas].
            * destruct (SI c eq_refl H2 P1 eq_refl) as (E1 & E2 & E3). unfold spare_inv. rewrite E1, E3.
              apply Forall_forall. intros b Hb. apply repeat_spec in Hb. left. exact Hb.
            * destruct (SI c eq_refl H2 P1 eq_refl) as (E1 & E2 & E3). unfold spare_inv. rewrite E1, E3.
              apply Forall_forall. intros b Hb. apply repeat_spec in Hb. left. exact Hb.
          + cbn [after]. intros E. inversion E. exact Hs.
        - cbn [after]. intros E. inversion E. exact Hs.
      Qed.

      Lemma step_spare t k FO o f f' : 1 <= FO -> in_int (2 * FO) = true -> op_ok o -> filt_ok t k FO f ->
        spare_inv (pf_cas (fl_pf f)) -> step k FO o f = Some f' -> spare_inv (pf_cas (fl_pf f')).
      Proof.
        intros HF HI Ho (H1 & H2 & H3) Hs. destruct o; cbn [step].
        - unfold filt_setupN, on_pf, zoom, setupN. destruct reqOrder as [o|].
          + destruct (Z.ltb_spec FO o); cbn [bind throw_if throw ret].
            * unfold bind. cbn. intros E. inversion E. exact Hs.
            * unfold bind. cbn [throw_if ret]. pose proof (base_setup_spare k FO o q (fl_pf f)) as B.
              destruct (base_setup k o q (fl_pf f)) as [p []|e p|]; cbn [after]; intros E; inversion E; cbn [fl_pf]; apply B; auto.
          + pose proof (base_setup_spare k FO FO q (fl_pf f)) as B.
            destruct (base_setup k FO q (fl_pf f)) as [p []|e p|]; cbn [after]; intros E; inversion E; cbn [fl_pf]; apply B; auto; lia.
        - unfold filt_setup, on_pf, zoom, setup. destruct reqOrder as [o|].
          + destruct (Z.ltb_spec FO o); cbn [bind throw_if throw ret].
            * unfold bind. cbn. intros E. inversion E. exact Hs.
            * unfold bind. cbn [throw_if ret]. pose proof (base_setup_spare k FO o (norm_params (snd k) sampleRate q) (fl_pf f)) as B.
              destruct (base_setup k o _ (fl_pf f)) as [p []|e p|]; cbn [after]; intros E; inversion E; cbn [fl_pf]; apply B; auto.
          + pose proof (base_setup_spare k FO FO (norm_params (snd k) sampleRate q) (fl_pf f)) as B.
            destruct (base_setup k FO _ (fl_pf f)) as [p []|e p|]; cbn [after]; intros E; inversion E; cbn [fl_pf]; apply B; auto; lia.
        - intros E. inversion E. unfold filt_filter. destruct (cs_filter (fl_cs f) x). exact Hs.
        - intros E. inversion E. exact Hs.
        - intros E. inversion E. exact Hs.
      Qed.

      Lemma steps_spare t k FO os : forall f f', 1 <= FO -> in_int (2 * FO) = true -> Forall op_ok os -> filt_ok t k FO f ->
        spare_inv (pf_cas (fl_pf f)) -> steps k FO os f = Some f' -> spare_inv (pf_cas (fl_pf f')).
      Proof.
        induction os as [|o os IH]; intros f f' HF HI Ho Hf Hs E; cbn [steps] in E.
        - inversion E; subst. exact Hs.
        - inversion Ho; subst. destruct (step_ok polar_total t k FO o f HF HI H1 Hf) as [g [Eg Hg]].
          rewrite Eg in E. apply (IH g f' HF HI H2 Hg); [|exact E]. exact (step_spare t k FO o f g HF HI H1 Hf Hs Eg).
      Qed.

      Lemma reach_spare t k FO (f : filt N) : 1 <= FO -> in_int (2 * FO) = true -> reachable_ok t k FO f ->
        spare_inv (pf_cas (fl_pf f)).
      Proof.
        intros HF HI [os [Ho Hs]]. eapply steps_spare; eauto.
        - apply filt_init_ok. exact HF.
        - unfold spare_inv. simpl. apply Forall_forall. intros b Hb. apply repeat_spec in Hb. right. exact Hb.
      Qed.
    End Reach.
  End Nums.

  (** ** every stage of a filter has a0 = 1 *)
  Section A0.
    Variable P : biquad N -> Prop.
    Definition keeps (m : M (biquad N) unit) : Prop := forall b b', after (m b) = Some b' -> P b -> P b'.
    Definition allP (c : cascade N) : Prop := Forall P (c_stages c).
    Definition ckeeps {A} (m : M (cascade N) A) : Prop := forall c c', after (m c) = Some c' -> allP c -> allP c'.

    Lemma upd_Forall (l : list (biquad N)) : forall i b, Forall P l -> P b -> Forall P (upd l i b).
    Proof.
      induction l as [|x l IH]; intros i b HF Hb; [simpl; exact HF|].
      inversion HF; subst. destruct i; simpl; constructor; auto.
    Qed.
    Lemma on_stage_keeps i m : keeps m -> ckeeps (on_stage i m).
    Proof.
      intros K c c' E HA. unfold on_stage, bind, get in E.
      unfold aget in E. destruct (i <? 0) eqn:I; [discriminate|].
      destruct (nth_error (c_stages c) (Z.to_nat i)) as [b|] eqn:Eb; [|discriminate]. cbn [or_ub ret] in E.
      pose proof (K b) as Kb. assert (Pb : P b) by (apply (proj1 (Forall_forall P (c_stages c)) HA); eapply nth_error_In; exact Eb).
      unfold aset in E. rewrite I in E. cbn [orb] in E.
      destruct (m b) as [b' []|e b'|]; [| |discriminate].
      - destruct (_ <=? i); [discriminate|]. cbn in E. inversion E. apply upd_Forall; auto.
      - unfold bind in E. destruct (_ <=? i); [discriminate|]. cbn in E. inversion E. apply upd_Forall; auto.
    Qed.
    Lemma bind_keeps A B (m : M (cascade N) A) (f : A -> M (cascade N) B) :
      ckeeps m -> (forall a, ckeeps (f a)) -> ckeeps (bind m f).
    Proof.
      intros K1 K2 c c' E HA. unfold bind in E. pose proof (K1 c) as Kc.
      destruct (m c) as [c1 a|e c1|].
      - apply (K2 a c1 c' E). apply Kc; auto.
      - simpl in E. inversion E; subst. apply Kc; auto.
      - discriminate.
    Qed.
    Lemma same_keeps A (m : M (cascade N) A) : (forall c c', after (m c) = Some c' -> c_stages c' = c_stages c) -> ckeeps m.
    Proof. intros H c c' E HA. unfold allP. rewrite (H c c' E). exact HA. Qed.
    Lemma mfor_keeps I (l : list I) f : (forall i, ckeeps (f i)) -> ckeeps (mfor l f).
    Proof.
      intros H. induction l as [|a l IH]; simpl.
      - apply same_keeps. intros c c' E. inversion E. reflexivity.
      - apply bind_keeps; auto.
    Qed.
    Lemma lift_keeps A (o : oc A) : ckeeps (lift o).
    Proof. apply same_keeps. intros c c' E. destruct o; simpl in E; inversion E; reflexivity. Qed.
    Lemma setLayout_keeps d : keeps setIdentity -> (forall p, keeps (setPoleZeroPair p)) ->
      (forall s, keeps (modify (bq_applyScale s))) -> ckeeps (setLayout d).
    Proof.
      intros K1 K2 K3. unfold setLayout.
      apply bind_keeps; [apply same_keeps; intros c c' E; inversion E; reflexivity|intros _].
      apply bind_keeps; [apply same_keeps; intros c c' E; inversion E; reflexivity|intros c0].
      apply bind_keeps; [apply same_keeps; intros c c' E; unfold throw_if in E; destruct (_ <? _); inversion E; reflexivity|intros _].
      apply bind_keeps; [apply mfor_keeps; intros; apply on_stage_keeps; exact K1|intros _].
      apply bind_keeps.
      { apply mfor_keeps. intros i. apply bind_keeps; [apply lift_keeps|]. intros p. apply on_stage_keeps. apply K2. }
      intros _. apply bind_keeps; [apply same_keeps; intros c c' E; inversion E; reflexivity|intros c1].
      apply bind_keeps; [apply lift_keeps|]. intros r. unfold cas_applyScale.
      apply bind_keeps; [apply same_keeps; intros c c' E; inversion E; reflexivity|intros c2].
      destruct (_ <? _); [apply same_keeps; intros c c' E; inversion E; reflexivity|].
      apply on_stage_keeps. apply K3.
    Qed.
    Lemma base_setup_keeps k o q p p' : keeps setIdentity -> (forall p, keeps (setPoleZeroPair p)) ->
      (forall s, keeps (modify (bq_applyScale s))) ->
      allP (pf_cas p) -> after (base_setup k o q p) = Some p' -> allP (pf_cas p').
    Proof.
      intros K1 K2 K3 HA. unfold base_setup, bind, on_ana, zoom.
      destruct (ana_design k o q (pf_ana p)) as [a u|e a|]; [| |discriminate].
      - unfold get, on_dig, zoom. cbn [pf_ana pf_dig pf_cas].
        destruct (dig_transform (snd k) q (p_lay a) (pf_dig p)) as [dg u2|e dg|]; [| |discriminate].
        + unfold on_cas, zoom. cbn [pf_dig pf_cas]. pose proof (setLayout_keeps dg K1 K2 K3 (pf_cas p)) as S.
          destruct (setLayout dg (pf_cas p)) as [c []|e c|]; cbn [after]; intros E; inversion E; cbn [pf_cas]; apply S; auto.
        + cbn [after]. intros E. inversion E. exact HA.
      - cbn [after]. intros E. inversion E. exact HA.
    Qed.
    Lemma reach_allP t k FO (f : filt N) : keeps setIdentity -> (forall p, keeps (setPoleZeroPair p)) ->
      (forall s, keeps (modify (bq_applyScale s))) -> P biquad0 -> reachable t k FO f -> Forall P (fl_stages f).
    Proof.
      intros K1 K2 K3 P0 [os E].
      assert (I : allP (pf_cas (fl_pf (filt_init t k FO)))).
      { unfold allP. simpl. apply Forall_forall. intros b Hb. apply repeat_spec in Hb. subst. exact P0. }
      revert E I. generalize (filt_init (N:=N) t k FO). induction os as [|o os IH]; intros g E I; cbn [steps] in E.
      - inversion E; subst. exact I.
      - destruct (step k FO o g) as [g'|] eqn:Eg; [|discriminate]. apply (IH g' E).
        clear E IH. destruct o; cbn [step] in Eg.
        + unfold filt_setupN, on_pf, zoom, setupN in Eg. destruct reqOrder as [o|].
          * unfold bind, throw_if in Eg. destruct (FO <? o); cbn in Eg.
            -- inversion Eg. exact I.
            -- pose proof (base_setup_keeps k o q (fl_pf g)) as B.
               destruct (base_setup k o q (fl_pf g)) as [p []|e p|]; cbn in Eg; inversion Eg; apply B; auto.
          * pose proof (base_setup_keeps k FO q (fl_pf g)) as B.
            destruct (base_setup k FO q (fl_pf g)) as [p []|e p|]; cbn in Eg; inversion Eg; apply B; auto.
        + unfold filt_setup, on_pf, zoom, setup in Eg. destruct reqOrder as [o|].
          * unfold bind, throw_if in Eg. destruct (FO <? o); cbn in Eg.
            -- inversion Eg. exact I.
            -- pose proof (base_setup_keeps k o (norm_params (snd k) sampleRate q) (fl_pf g)) as B.
               destruct (base_setup k o _ (fl_pf g)) as [p []|e p|]; cbn in Eg; inversion Eg; apply B; auto.
          * pose proof (base_setup_keeps k FO (norm_params (snd k) sampleRate q) (fl_pf g)) as B.
            destruct (base_setup k FO _ (fl_pf g)) as [p []|e p|]; cbn in Eg; inversion Eg; apply B; auto.
        + inversion Eg. unfold filt_filter. destruct (cs_filter (fl_cs g) x). exact I.
        + inversion Eg. exact I.
        + inversion Eg. exact I.
    Qed.
  End A0.

  Definition a0_one (b : biquad N) : Prop := m_a0 b = nofZ N 1.
  Lemma set_a0 a1 a2 b0 b1 b2 : keeps a0_one (setCoefficients (nofZ N 1) a1 a2 b0 b1 b2).
  Proof.
    intros b b' E HP. unfold setCoefficients, bind, throw_if in E.
    repeat match type of E with context [if ?x then _ else _] => destruct x end;
    cbn in E; inversion E; subst; auto; reflexivity.
  Qed.
  Lemma pair_a0 p : keeps a0_one (setPoleZeroPair p).
  Proof.
    intros b b' E HP. unfold setPoleZeroPair in E. destruct (pz_isSinglePole p).
    - unfold setOnePole, bind, throw_if in E.
      destruct (nneqb _ _); cbn in E; [inversion E; subst; exact HP|].
      destruct (nneqb _ _); cbn in E; [inversion E; subst; exact HP|].
      eapply set_a0; eauto.
    - unfold setTwoPole, bind in E.
      destruct (two_coeffs _ _ _) as [[? ?]|?|]; cbn in E; [|inversion E; subst; exact HP|discriminate].
      destruct (two_coeffs _ (cfst (zeros p)) _) as [[? ?]|?|]; cbn in E; [|inversion E; subst; exact HP|discriminate].
      eapply set_a0; eauto.
  Qed.
  Lemma reach_a0 t k FO (f : filt N) : reachable t k FO f -> Forall a0_one (fl_stages f).
  Proof.
    apply reach_allP.
    - apply set_a0.
    - apply pair_a0.
    - intros s b b' E HP. inversion E; subst. exact HP.
    - reflexivity.
  Qed.
End Lay.
