(** Proofs: complete setups in exact arithmetic. *)
From Coq Require Import ZArith List Bool Reals Lra Lia.
From Coquelicot Require Import Coquelicot.
From Verif Require Import Num Outcome Types Biquad State Cascade Transforms Butterworth Chebyshev PoleFilter Exact RealNum SigSpec ChebSpec DesignSpec
  SigProofs StabProofs RespProofs PZSpec PZProofs RBJProofs CoefLemmas BuildProofs PolyProofs MapProofs TransProofs ProtoProofs ProtoBuild.
Import ListNotations.
Local Open Scope R_scope.

Definition good_pt (q : apt) : Prop := fst (fst q) < 0 /\ zleft (snd q).
Definition real_pt (q : apt) : Prop := snd (fst q) = 0 /\ zreal (snd q).
Definition good (pts : list apt) (sg : option apt) : Prop :=
  List.Forall good_pt (pts ++ olist sg) /\ List.Forall real_pt (olist sg).

Lemma good_flat pts sg : good pts sg -> List.Forall (fun q : apt => fst (fst q) < 0) (flat pts sg).
Proof.
  intros [G _]. apply Forall_app in G. destruct G as [G1 G2]. unfold flat. apply Forall_app. split.
  - induction G1 as [|q l [H _] G1 IH]; [constructor|]. cbn [flat_map app]. constructor; [exact H|]. constructor; [|exact IH].
    unfold conj_apt. cbn [fst]. destruct (fst q). exact H.
  - destruct sg; [|constructor]. inversion G2 as [|? ? [H _]]; subst. constructor; [exact H|constructor].
Qed.

Section Design.
  Context {strict : bool}.
  Notation XS := (X strict).
  Local Notation xo := (TransProofs.xo (strict := strict)).
  Local Notation alay := (TransProofs.alay (strict := strict)).
  Local Notation xpz := (xpz (strict := strict)).

  Lemma check_fc_ok {S} fc (s : S) : 0 <= fc < 1 / 2 -> check_fc (N := XS) (XR fc) s = Ok s tt.
  Proof.
    intros H. unfold check_fc, bind, throw_if. cbn -[Rltb]. unfold Rltb.
    destruct (Rlt_dec fc (1 / 2)); [|lra]. destruct (Rlt_dec fc 0); [lra|]. reflexivity.
  Qed.
  Lemma tan_half fc : 0 < fc < 1 / 2 -> 0 < cos (PI * fc) /\ 0 < sin (PI * fc) /\ 0 < tan (PI * fc).
  Proof.
    intros H. pose proof PI_RGT_0 as P. assert (0 < PI * fc < PI / 2) by nra.
    split; [apply cos_gt_0; lra|]. split; [apply sin_gt_0; lra|apply tan_gt_0; lra].
  Qed.

  Definition simple_dig (D : option C -> C) (pts : list apt) (sg : option apt) : list pzc :=
    map (fun q : apt => conj_pz (D (Some (fst q))) (D (snd q))) pts ++
    map (fun q : apt => PZc (D (Some (fst q))) 0 (D (snd q)) 0) (olist sg).
  Lemma simple_dig_len D pts sg : length (simple_dig D pts sg) = (length pts + length (olist sg))%nat.
  Proof. unfold simple_dig. rewrite app_length, !map_length. reflexivity. Qed.
  Lemma flat_snd (P : option C -> Prop) pts sg : List.Forall (fun q : apt => P (snd q)) (flat pts sg) ->
    List.Forall (fun q : apt => P (snd q)) pts /\ List.Forall (fun q : apt => P (snd q)) (olist sg).
  Proof.
    unfold flat. intros H. apply Forall_app in H. destruct H as [H1 H2]. split.
    - induction pts as [|q l IH]; [constructor|]. cbn [flat_map app] in H1. inversion H1 as [|? ? A1 A2]; subst. inversion A2; subst. constructor; auto.
    - destruct sg; exact H2.
  Qed.
  Lemma simple_dig_nz (D : option C -> C) pts sg : (forall z, zimag z -> D z <> 0%C) -> List.Forall (fun q : apt => zimag (snd q)) (flat pts sg) ->
    List.Forall (fun p => zz1 p <> 0%C) (simple_dig D pts sg).
  Proof.
    intros HD H. apply flat_snd in H. destruct H as [H1 H2]. unfold simple_dig. apply Forall_app. split; apply Forall_map.
    - eapply List.Forall_impl; [|exact H1]. intros q Hq. cbn [conj_pz zz1]. apply HD, Hq.
    - eapply List.Forall_impl; [|exact H2]. intros q Hq. cbn [zz1]. apply HD, Hq.
  Qed.
  Lemma im_nz f (c : C) : fst c = 0 -> (1 + RtoC f * c)%C <> 0%C /\ (1 - RtoC f * c)%C <> 0%C.
  Proof. intros H. destruct c as [x y]. cbn in H. subst x. split; intros Q; inversion Q; lra. Qed.
  Lemma lpD_nz f z : 0 < f -> zimag z -> lpD f z <> 0%C.
  Proof.
    destruct z as [c|]; cbn [zimag lpD]; intros Hf H; [|intros Q; inversion Q; lra].
    destruct (im_nz f c H) as [N1 N2]. apply Cmult_neq_0; [exact N1|]. intros Q; apply (f_equal (Cmult (1 - RtoC f * c)%C)) in Q; rewrite Cinv_r in Q by exact N2; apply C1_nz; rewrite Q; ring.
  Qed.
  Lemma hpD_nz f z : 0 < f -> zimag z -> hpD f z <> 0%C.
  Proof.
    destruct z as [c|]; cbn [zimag hpD]; intros Hf H; [|intros Q; inversion Q; lra].
    destruct (im_nz f c H) as [N1 N2]. apply Cmult_neq_0; [|intros Q; apply (f_equal (Cmult (1 - RtoC f * c)%C)) in Q; rewrite Cinv_r in Q by exact N2; apply C1_nz; rewrite Q; ring].
    intros Q. apply N1. replace (1 + RtoC f * c)%C with (- - (1 + RtoC f * c))%C by ring. rewrite Q. ring.
  Qed.
  Lemma olist_nsg sg : Z.of_nat (length (olist sg)) = nsg sg.
  Proof. destruct sg; reflexivity. Qed.
  Lemma simple_dig_ok D pts sg : List.Forall (fun q : apt => snd (D (Some (fst q))) = 0 /\ snd (D (snd q)) = 0) (olist sg) ->
    List.Forall pz_ok (simple_dig D pts sg).
  Proof.
    intros H. unfold simple_dig. apply Forall_app. split.
    - apply Forall_map. apply Forall_forall. intros q _. split; right; reflexivity.
    - apply Forall_map. eapply List.Forall_impl; [|exact H]. intros q [H1 H2]. split; left; split; try assumption; reflexivity.
  Qed.
  Lemma simple_dig_block A B D pts sg : sym A B ->
    List.Forall (fun q : apt => images A B [D (Some (fst q))] (Some (fst q)) /\ images A B [D (snd q)] (snd q)) (pts ++ olist sg) ->
    block A B (simple_dig D pts sg) (flat pts sg).
  Proof.
    intros S F. apply Forall_app in F. destruct F as [F1 F2]. unfold simple_dig.
    replace (map (fun q : apt => conj_pz (D (Some (fst q))) (D (snd q))) pts)
      with (flat_map (fun q : apt => [conj_pz (D (Some (fst q))) (D (snd q))]) pts)
      by (clear; induction pts as [|q pts IH]; [reflexivity|]; cbn [flat_map map app]; rewrite IH; reflexivity).
    apply block_flat.
    - eapply List.Forall_impl; [|exact F1]. intros q [H1 H2]. apply simple_block; assumption.
    - destruct sg as [q|]; [|apply block_nil]. inversion F2 as [|? ? [H1 H2]]; subst. apply simple_single; assumption.
  Qed.

  (** PoleFilter.cpp:59-90 *)
  Lemma LowPass_x fc pts sg mp' ex' w' g' np mp (storage : list (pzpair XS)) w g : 0 < fc < 1 / 2 -> good pts sg ->
    (length pts + length (olist sg) <= length storage)%nat ->
    let D := lpD (tan (PI * fc)) in
    LowPassTransform (N := XS) (XR fc) (alay pts sg mp' ex' w' g') (MkLayout np mp storage w g) =
    Ok (MkLayout (N := XS) (2 * Z.of_nat (length pts) + nsg sg) mp
          (map xpz (simple_dig D pts sg) ++ skipn (length (simple_dig D pts sg)) storage) w' g') tt.
  Proof.
    intros Hf [G R] L D. destruct (tan_half fc Hf) as (C0 & _ & T0). unfold LowPassTransform. unfold bind at 1.
    rewrite check_fc_ok by lra. unfold bind at 1, modify at 1. rewrite lay_reset_lay. unfold bind at 1.
    cbn [X ntan nmul npi xmul xtan]. rewrite Req0_false by lra.
    rewrite (simple_loop_x _ D).
    - reflexivity.
    - eapply List.Forall_impl; [|exact G]. intros q [H1 H2]. split.
      + apply (lp_x _ (Some (fst q))); [lra|]. cbn. lra.
      + apply lp_x; [lra|exact H2].
    - eapply List.Forall_impl; [|exact R]. intros q [H1 H2]. split; apply lpD_real; assumption.
    - fold (simple_dig D pts sg). rewrite simple_dig_len. exact L.
  Qed.
  (** PoleFilter.cpp:106-136 *)
  Lemma HighPass_x fc pts sg mp' ex' wn g' np mp (storage : list (pzpair XS)) w g : 0 < fc < 1 / 2 -> good pts sg ->
    (length pts + length (olist sg) <= length storage)%nat ->
    let D := hpD (1 / tan (PI * fc)) in
    HighPassTransform (N := XS) (XR fc) (alay pts sg mp' ex' (XR wn) g') (MkLayout np mp storage w g) =
    Ok (MkLayout (N := XS) (2 * Z.of_nat (length pts) + nsg sg) mp
          (map xpz (simple_dig D pts sg) ++ skipn (length (simple_dig D pts sg)) storage) (XR (PI - wn)) g') tt.
  Proof.
    intros Hf [G R] L D. destruct (tan_half fc Hf) as (C0 & _ & T0). unfold HighPassTransform. unfold bind at 1.
    rewrite check_fc_ok by lra. unfold bind at 1, modify at 1. rewrite lay_reset_lay. unfold bind at 1.
    cbn [X ntan nmul npi xmul xtan ndiv nofZ]. rewrite Req0_false by lra. rewrite xdiv_r by lra.
    assert (0 < 1 / tan (PI * fc)) by (apply Rdiv_lt_0_compat; lra).
    rewrite (simple_loop_x _ D).
    - reflexivity.
    - eapply List.Forall_impl; [|exact G]. intros q [H1 H2]. split.
      + apply (hp_x _ (Some (fst q))); [lra|]. cbn. lra.
      + apply hp_x; [lra|exact H2].
    - eapply List.Forall_impl; [|exact R]. intros q [H1 H2]. split; apply hpD_real; assumption.
    - fold (simple_dig D pts sg). rewrite simple_dig_len. exact L.
  Qed.

  Definition qlp (f : R) (fr : R) : R * R := (sin (PI * fr), f * cos (PI * fr)).
  Definition qhp (f : R) (fr : R) : R * R := (- cos (PI * fr), f * sin (PI * fr)).

  Lemma getpairs_x np mp (dig : list pzc) extra w g : Z.of_nat (length dig) = Z.quot (np + 1) 2 ->
    getpairs (N := XS) (MkLayout (N := XS) np mp (map xpz dig ++ extra) w g) (zrange (Z.of_nat (length dig))) = Val (map xpz dig).
  Proof.
    intros LN. unfold zrange. rewrite Nat2Z.id.
    enough (H : forall suf pre, dig = pre ++ suf ->
      getpairs (N := XS) (MkLayout (N := XS) np mp (map xpz dig ++ extra) w g) (map Z.of_nat (seq (length pre) (length suf))) = Val (map xpz suf))
      by (apply (H dig [] eq_refl)).
    induction suf as [|p suf IH]; intros pre E; [reflexivity|]. cbn [length seq map getpairs].
    assert (LE : (length pre < length dig)%nat) by (rewrite E, app_length; cbn [length]; lia).
    assert (G : lay_getPair (N := XS) (MkLayout (N := XS) np mp (map xpz dig ++ extra) w g) (Z.of_nat (length pre)) = Val (xpz p)).
    { unfold lay_getPair. cbn [l_numPoles l_pairs]. rewrite <- LN.
      replace (Z.of_nat (length pre) <? 0)%Z with false by (symmetry; apply Z.ltb_ge; lia).
      replace (Z.of_nat (length dig) <=? Z.of_nat (length pre))%Z with false by (symmetry; apply Z.leb_gt; lia).
      cbn [orb othrow_if obind]. unfold aget. replace (Z.of_nat (length pre) <? 0)%Z with false by (symmetry; apply Z.ltb_ge; lia).
      rewrite Nat2Z.id, nth_error_app1 by (rewrite map_length; exact LE).
      rewrite E, map_app, nth_error_app2 by (rewrite map_length; lia). rewrite map_length, Nat.sub_diag. reflexivity. }
    rewrite G. cbn [obind]. specialize (IH (pre ++ [p])). rewrite app_length in IH. cbn [length] in IH. rewrite Nat.add_1_r in IH.
    rewrite IH; [reflexivity|]. rewrite <- app_assoc. exact E.
  Qed.
  (** what a successful setup gives *)
  Definition designed (p : pf XS) (g : R) (qs : list apt) (xy : R -> R * R) (m0 : R) : Prop :=
    List.Forall fin_bq (c_stages (pf_cas p)) /\ List.Forall stable_bq (c_stages (pf_cas p)) /\
    (forall f, 0 <= f <= 1 / 2 -> exists h,
      cas_response (N := XS) (pf_cas p) (XR f) = Val (xc h) /\ Cmod h = Rabs g * mag qs (fst (xy f)) (snd (xy f)) / m0) /\
    (0 < g -> forall sts, (List.Forall (fun q : apt => zimag (snd q)) qs -> reports (MkFilt p sts) on_circle) /\
      (List.Forall (fun q : apt => zneg (snd q)) qs -> reports (MkFilt p sts) in_circle)).

  Lemma setup_generic k FO n q ana A B dig qs extra np mp w g x0 y0 xy : (n <= FO)%Z ->
    ana_design (N := XS) k n q (pf_ana (pf_init k FO)) = Ok ana tt ->
    dig_transform (N := XS) (snd k) q (p_lay ana) (pf_dig (pf_init k FO)) =
      Ok (MkLayout np mp (map xpz dig ++ extra) (XR w) (XR g)) tt ->
    right_half A B -> unit_half A B -> block A B dig qs -> List.Forall pz_ok dig -> List.Forall (fun q : apt => fst (fst q) < 0) qs ->
    Z.of_nat (length dig) = Z.quot (np + 1) 2 -> (0 < Z.of_nat (length dig) <= maxStagesOf (snd k) FO)%Z ->
    0 <= w <= PI -> circ A B (w / (2 * PI)) x0 y0 -> nums (0, x0) (RtoC y0) qs <> 0%C ->
    (forall f, 0 <= f <= 1 / 2 -> circ A B f (fst (xy f)) (snd (xy f))) ->
    (List.Forall (fun q : apt => zimag (snd q)) qs -> List.Forall (fun p => zz1 p <> 0%C) dig) ->
    exists p, setupN (N := XS) k FO (Some n) q (pf_init k FO) = Ok p tt /\
      designed p g qs xy (mag qs x0 y0).
  Proof.
    intros HO HA HD RH UH BK OK PL LN [L0 LM] Hw CN NZ CF ZN.
    assert (LR : length (repeat (biquad0 (N := XS)) (Z.to_nat (maxStagesOf (snd k) FO))) = Z.to_nat (maxStagesOf (snd k) FO)) by apply repeat_length.
    destruct (design_x (strict := strict) A B dig qs extra np mp w g 0 (repeat biquad0 (Z.to_nat (maxStagesOf (snd k) FO))) x0 y0
      RH BK OK PL LN ltac:(rewrite LR; lia) Hw CN NZ) as (cs & E & LL & F1 & F2 & (c1 & c2 & EC & FC & IC) & KP & R).
    eexists. split.
    - unfold setupN. replace (FO <? n)%Z with false by (symmetry; apply Z.ltb_ge; lia).
      unfold throw_if. unfold bind at 1, ret at 1. unfold base_setup. unfold bind at 1. unfold on_ana, zoom.
      rewrite HA. unfold bind at 1, get at 1. cbn [pf_ana pf_cas pf_dig].
      unfold bind at 1. unfold on_dig, zoom. cbn [pf_dig pf_cas pf_ana]. rewrite HD.
      unfold bind at 1, get. unfold on_cas, zoom. cbn [pf_dig pf_cas pf_ana].
      replace (pf_cas (pf_init k FO)) with
        (MkCascade (N := XS) 0 (Z.of_nat (length (repeat (biquad0 (N := XS)) (Z.to_nat (maxStagesOf (snd k) FO))))) (repeat biquad0 (Z.to_nat (maxStagesOf (snd k) FO)))).
      + rewrite E. reflexivity.
      + rewrite LR. unfold pf_init, setCascadeStorage. cbn [pf_cas]. f_equal. lia.
    - split; [exact F1|]. split; [exact F2|]. cbn [pf_cas]. split.
      { intros f Hf. destruct (R f _ _ Hf (CF f Hf)) as (h & Q1 & Q2 & _). eauto. }
      intros G0 sts.
      assert (G : forall Z, List.Forall Z dig ->
        reports (strict := strict) (MkFilt (N := XS) (MkPf (N := XS)
          (MkCascade (N := XS) (Z.of_nat (length dig)) (Z.of_nat (length (repeat (biquad0 (N := XS)) (Z.to_nat (maxStagesOf (snd k) FO))))) cs)
          (MkLayout (N := XS) np mp (map xpz dig ++ extra) (XR w) (XR g)) ana) sts) Z).
      { intros Z HZ. exists dig, (lay_gain dig w g). split; [|split; [|split; [exact OK|split; [apply (block_poles A B dig qs); assumption|split; [exact HZ|split; [exact (KP G0)|split]]]]]].
        - unfold filt_getPoleZeros. cbn [fl_pf pf_dig l_numPoles]. rewrite <- LN. apply getpairs_x. exact LN.
        - reflexivity.
        - exists c1, c2. split; [exact EC|]. split; [exact IC|]. clear - FC G0. induction FC as [|p b l l' (k0 & K0 & Hk) FC IH]; constructor; [|exact IH]. exists k0. split; [apply K0; lra|exact Hk].
        - intros f Hf. destruct (R f _ _ Hf (CF f Hf)) as (h & Q1 & _ & ->). exact Q1. }
      split; intros HZ; apply G; [|apply (block_zeros_in A B dig qs RH BK HZ)].
      pose proof (block_zeros_on A B dig qs UH BK HZ) as H1. specialize (ZN HZ). rewrite Forall_forall in *. intros p Hp.
      destruct (H1 p Hp) as [[Q|Q] Q2]; [destruct (ZN p Hp Q)|]. split; assumption.
  Qed.

  (** ** sizes *)
  Lemma sizes n FO : (1 <= n)%nat -> (Z.of_nat n <= FO)%Z ->
    (Z.of_nat (nup n) = Z.quot (Z.of_nat n + 1) 2 /\ (nup n <= Z.to_nat (Z.quot (FO + 1) 2))%nat /\ 0 < Z.of_nat (nup n) <= Z.quot (FO + 1) 2)%Z.
  Proof.
    intros Hn HF. rewrite !Z.quot_div_nonneg by lia.
    assert (E : Z.of_nat (nup n) = ((Z.of_nat n + 1) / 2)%Z).
    { rewrite nup_eq, Nat2Z.inj_div, Nat2Z.inj_add. reflexivity. }
    rewrite E. assert (0 < (Z.of_nat n + 1) / 2)%Z by (apply Z.div_str_pos; lia).
    assert ((Z.of_nat n + 1) / 2 <= (FO + 1) / 2)%Z by (apply Z.div_le_mono; lia).
    split; [reflexivity|]. split; [|lia]. lia.
  Qed.
  Lemma pts_len n q q0 : (length (pts_of n q) + length (olist (sg_of n q0)) = nup n)%nat.
  Proof. unfold pts_of, sg_of, nup. rewrite map_length, seq_length. destruct (Nat.odd n); reflexivity. Qed.
  Lemma pts_num n q q0 : (2 * Z.of_nat (length (pts_of n q)) + nsg (sg_of n q0) = Z.of_nat n)%Z.
  Proof.
    unfold pts_of, sg_of. rewrite map_length, seq_length. pose proof (Nat.div_mod n 2 ltac:(lia)) as D.
    rewrite <- Nat.bit0_mod, Nat.bit0_odd in D. destruct (Nat.odd n); simpl Nat.b2n in D; cbn [nsg]; lia.
  Qed.

  Lemma lp_setup fam n FO q q0 (pm : params XS) fc np0 ga db ex wn g qi : (1 <= n)%nat -> (Z.of_nat n <= FO)%Z ->
    q_fc pm = XR fc -> 0 < fc < 1 / 2 -> good (pts_of n q) (sg_of n q0) ->
    In (fam, qi) [(Bw, LP); (Ch1, LP); (Ch2, LP); (Bw, LSh); (Ch1, LSh); (Ch2, LSh)] ->
    ana_design (N := XS) (fam, qi) (Z.of_nat n) pm (pf_ana (pf_init (fam, qi) FO)) =
      Ok (MkProto (N := XS) np0 ga db (alay (pts_of n q) (sg_of n q0) FO ex (XR wn) (XR g))) tt ->
    0 <= wn <= PI ->
    let qs := flat (pts_of n q) (sg_of n q0) in let xy := qlp (tan (PI * fc)) in let xy0 := xy (wn / (2 * PI)) in
    nums (0, fst xy0) (RtoC (snd xy0)) qs <> 0%C ->
    exists p, setupN (N := XS) (fam, qi) FO (Some (Z.of_nat n)) pm (pf_init (fam, qi) FO) = Ok p tt /\
      designed p g qs xy (mag qs (fst xy0) (snd xy0)).
  Proof.
    intros Hn HF EF Hf G HI HA Hw qs xy xy0 NZ. destruct (tan_half fc Hf) as (C0 & _ & T0).
    destruct (sizes n FO Hn HF) as (S1 & S2 & S3). pose proof (pts_len n q q0) as PLn.
    set (A := (fun u : C => 1 - u)%C). set (B := (fun u : C => RtoC (tan (PI * fc)) * (1 + u))%C).
    set (D := lpD (tan (PI * fc))).
    assert (MD : maxDigital qi FO = FO) by (destruct HI as [Q|[Q|[Q|[Q|[Q|[Q|[]]]]]]]; inversion Q; reflexivity).
    eapply (setup_generic _ _ _ _ _ A B (simple_dig D (pts_of n q) (sg_of n q0)) qs _ _ _ wn g _ _ xy HF HA).
    - unfold dig_transform. replace (snd (fam, qi)) with qi by reflexivity.
      assert (E : forall l, match qi with LP | LSh => LowPassTransform (q_fc pm) l | HP | HSh => HighPassTransform (q_fc pm) l
        | BP => BandPassTransform (q_fc pm) (q_fw pm) l | BS => BandStopTransform (q_fc pm) (q_fw pm) l
        | BSh => BandPassTransform (q_fc pm) (q_fw pm) l ;; modify (lay_setNormal (if nltb XS (q_fc pm) (nlit XS 1 4) then npi XS else nofZ XS 0) (nofZ XS 1)) end =
        LowPassTransform (q_fc pm) l) by (intros l; destruct HI as [Q|[Q|[Q|[Q|[Q|[Q|[]]]]]]]; inversion Q; reflexivity).
      cbn zeta. rewrite E. rewrite EF. unfold pf_init. cbn [pf_dig p_lay snd]. unfold layout_of_storage. rewrite MD.
      apply LowPass_x; [exact Hf|exact G|]. rewrite PLn. unfold layout_storage. rewrite repeat_length. exact S2.
    - apply lp_right. exact T0.
    - apply lp_unit. exact T0.
    - apply simple_dig_block; [apply lp_sym|]. destruct G as [G _]. eapply List.Forall_impl; [|exact G].
      intros x [H1 H2]. split; apply lpD_images; try exact T0; [cbn; lra|exact H2].
    - apply simple_dig_ok. destruct G as [_ R]. eapply List.Forall_impl; [|exact R]. intros x [H1 H2]. split; apply lpD_real; assumption.
    - apply good_flat. exact G.
    - rewrite simple_dig_len, PLn, pts_num. exact S1.
    - rewrite simple_dig_len, PLn. unfold maxStagesOf. cbn [snd]. rewrite MD. exact S3.
    - exact Hw.
    - apply lp_circ.
    - exact NZ.
    - intros f _. apply lp_circ.
    - apply simple_dig_nz. intros z Hz. apply lpD_nz; [lra|exact Hz].
  Qed.
  Lemma hp_setup fam n FO q q0 (pm : params XS) fc np0 ga db ex wn g qi : (1 <= n)%nat -> (Z.of_nat n <= FO)%Z ->
    q_fc pm = XR fc -> 0 < fc < 1 / 2 -> good (pts_of n q) (sg_of n q0) ->
    In (fam, qi) [(Bw, HP); (Ch1, HP); (Ch2, HP); (Bw, HSh); (Ch1, HSh); (Ch2, HSh)] ->
    ana_design (N := XS) (fam, qi) (Z.of_nat n) pm (pf_ana (pf_init (fam, qi) FO)) =
      Ok (MkProto (N := XS) np0 ga db (alay (pts_of n q) (sg_of n q0) FO ex (XR wn) (XR g))) tt ->
    0 <= wn <= PI ->
    let qs := flat (pts_of n q) (sg_of n q0) in let xy := qhp (1 / tan (PI * fc)) in let xy0 := xy ((PI - wn) / (2 * PI)) in
    nums (0, fst xy0) (RtoC (snd xy0)) qs <> 0%C ->
    exists p, setupN (N := XS) (fam, qi) FO (Some (Z.of_nat n)) pm (pf_init (fam, qi) FO) = Ok p tt /\
      designed p g qs xy (mag qs (fst xy0) (snd xy0)).
  Proof.
    intros Hn HF EF Hf G HI HA Hw qs xy xy0 NZ. destruct (tan_half fc Hf) as (C0 & _ & T0).
    assert (T1 : 0 < 1 / tan (PI * fc)) by (apply Rdiv_lt_0_compat; lra).
    destruct (sizes n FO Hn HF) as (S1 & S2 & S3). pose proof (pts_len n q q0) as PLn.
    set (A := (fun u : C => 1 + u)%C). set (B := (fun u : C => RtoC (1 / tan (PI * fc)) * (1 - u))%C).
    set (D := hpD (1 / tan (PI * fc))).
    assert (MD : maxDigital qi FO = FO) by (destruct HI as [Q|[Q|[Q|[Q|[Q|[Q|[]]]]]]]; inversion Q; reflexivity).
    eapply (setup_generic _ _ _ _ _ A B (simple_dig D (pts_of n q) (sg_of n q0)) qs _ _ _ (PI - wn) g _ _ xy HF HA).
    - unfold dig_transform. replace (snd (fam, qi)) with qi by reflexivity.
      assert (E : forall l, match qi with LP | LSh => LowPassTransform (q_fc pm) l | HP | HSh => HighPassTransform (q_fc pm) l
        | BP => BandPassTransform (q_fc pm) (q_fw pm) l | BS => BandStopTransform (q_fc pm) (q_fw pm) l
        | BSh => BandPassTransform (q_fc pm) (q_fw pm) l ;; modify (lay_setNormal (if nltb XS (q_fc pm) (nlit XS 1 4) then npi XS else nofZ XS 0) (nofZ XS 1)) end =
        HighPassTransform (q_fc pm) l) by (intros l; destruct HI as [Q|[Q|[Q|[Q|[Q|[Q|[]]]]]]]; inversion Q; reflexivity).
      cbn zeta. rewrite E. rewrite EF. unfold pf_init. cbn [pf_dig p_lay snd]. unfold layout_of_storage. rewrite MD.
      apply HighPass_x; [exact Hf|exact G|]. rewrite PLn. unfold layout_storage. rewrite repeat_length. exact S2.
    - apply hp_right. exact T1.
    - apply hp_unit. exact T1.
    - apply simple_dig_block; [apply hp_sym|]. destruct G as [G _]. eapply List.Forall_impl; [|exact G].
      intros x [H1 H2]. split; apply hpD_images; try exact T1; [cbn; lra|exact H2].
    - apply simple_dig_ok. destruct G as [_ R]. eapply List.Forall_impl; [|exact R]. intros x [H1 H2]. split; apply hpD_real; assumption.
    - apply good_flat. exact G.
    - rewrite simple_dig_len, PLn, pts_num. exact S1.
    - rewrite simple_dig_len, PLn. unfold maxStagesOf. cbn [snd]. rewrite MD. exact S3.
    - lra.
    - apply hp_circ.
    - exact NZ.
    - intros f _. apply hp_circ.
    - apply simple_dig_nz. intros z Hz. apply hpD_nz; [lra|exact Hz].
  Qed.
End Design.
