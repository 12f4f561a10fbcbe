(** Lemmas about setting coefficients, poles and zeros. *)
From Coq Require Import ZArith List Bool Reals Lra Lia.
From Coquelicot Require Import Coquelicot.
From Verif Require Import Num Outcome Types Biquad State Cascade Transforms Butterworth Chebyshev PoleFilter RBJ
  Exact RealNum Hoare Safe SigSpec PZSpec SigProofs StabProofs RespProofs SigLemmas LayoutProofs PZProofs.
Import ListNotations.
Local Open Scope R_scope.

(** C15 *)
Lemma c15_nan (N : num) a0 a1 a2 b0 b1 b2 (b : biquad N) :
  let nan x := neqb N x x = false in
  let some_nan := nan a0 \/ nan a1 \/ nan a2 \/ nan b0 \/ nan b1 \/ nan b2 in
  (some_nan -> exists e, setCoefficients a0 a1 a2 b0 b1 b2 b = Throw e b) /\
  (~ some_nan -> exists b', setCoefficients a0 a1 a2 b0 b1 b2 b = Ok b' tt).
Proof.
  cbv zeta. unfold setCoefficients, bind, throw_if, is_nan.
  destruct (neqb N a0 a0), (neqb N a1 a1), (neqb N a2 a2), (neqb N b0 b0), (neqb N b1 b1), (neqb N b2 b2);
  cbn; (split; [intros H|intros H]); try (eexists; reflexivity);
  try (exfalso; intuition discriminate); exfalso; apply H; tauto.
Qed.

Section X.
  Context {strict : bool}.
  Notation XS := (X strict).

  Lemma c15_get a0 a1 a2 b0 b1 b2 (old : biquad XS) : a0 <> 0 ->
    exists b, setCoefficients (N := XS) (XR a0) (XR a1) (XR a2) (XR b0) (XR b1) (XR b2) old = Ok b tt /\
      getA0 b = XR a0 /\ getA1 b = XR a1 /\ getA2 b = XR a2 /\ getB0 b = XR b0 /\ getB1 b = XR b1 /\ getB2 b = XR b2.
  Proof.
    intros H. eexists. split; [apply set_coeffs_fin; exact H|].
    unfold getA0, getA1, getA2, getB0, getB1, getB2. cbn. repeat split; f_equal; field; exact H.
  Qed.

  (** C17 *)
  Lemma c17_ok p (b : biquad XS) : pz_ok p ->
    exists b', setTwoPole (N := XS) (xc (zp1 p)) (xc (zz1 p)) (xc (zp2 p)) (xc (zz2 p)) b = Ok b' tt /\ realises p 1 b'.
  Proof. intros H. eexists. split; [apply setTwoPole_ok; exact H|apply realises_rbq; exact H]. Qed.
  Lemma c17_bad p (b : biquad XS) : ~ pz_ok p ->
    exists e, setTwoPole (N := XS) (xc (zp1 p)) (xc (zz1 p)) (xc (zp2 p)) (xc (zz2 p)) b = Throw e b.
  Proof.
    intros H. unfold setTwoPole.
    assert (D : conj_or_real (zp1 p) (zp2 p) \/ ~ conj_or_real (zp1 p) (zp2 p)).
    { destruct (Req_dec (snd (zp1 p)) 0) as [A|A]; [destruct (Req_dec (snd (zp2 p)) 0) as [B|B]|].
      - left. left. auto.
      - right. intros [[_ Q]|Q]; [congruence|]. apply B. rewrite Q. simpl. rewrite A. lra.
      - destruct (Req_dec (fst (zp2 p)) (fst (zp1 p))) as [C|C]; [destruct (Req_dec (snd (zp2 p)) (- snd (zp1 p))) as [E|E]|].
        + left. right. apply injective_projections; simpl; assumption.
        + right. intros [[Q _]|Q]; [congruence|]. apply E. rewrite Q. reflexivity.
        + right. intros [[Q _]|Q]; [congruence|]. apply C. rewrite Q. reflexivity. }
    destruct D as [D|D].
    - rewrite (two_coeffs_ok _ _ _ D). cbn [lift]. unfold bind at 1. unfold ret at 1.
      assert (B : ~ conj_or_real (zz1 p) (zz2 p)) by (intros Q; apply H; split; assumption).
      rewrite (two_coeffs_bad _ _ _ B). cbn. eexists. reflexivity.
    - rewrite (two_coeffs_bad _ _ _ D). cbn. eexists. reflexivity.
  Qed.
  Lemma c17_one_ok (pole zero : C) (b : biquad XS) : snd pole = 0 -> snd zero = 0 ->
    exists b', setOnePole (N := XS) (xc pole) (xc zero) b = Ok b' tt /\ realises (PZc pole 0 zero 0) 1 b'.
  Proof.
    intros H1 H2. eexists. split; [apply setOnePole_ok; assumption|]. apply realises_rbq. split; left; simpl; auto.
  Qed.
  Lemma c17_one_bad (pole zero : C) (b : biquad XS) : ~ (snd pole = 0 /\ snd zero = 0) ->
    exists e, setOnePole (N := XS) (xc pole) (xc zero) b = Throw e b.
  Proof.
    destruct pole as [p1 p2], zero as [z1 z2]. cbn [snd]. intros H.
    unfold setOnePole, bind, throw_if, nneqb. cbn [im re xc fst snd neqb nofZ X].
    destruct (Req_dec p2 0) as [E|E].
    - rewrite (xeqb_true p2) by exact E. rewrite xeqb_false by tauto. eexists. reflexivity.
    - rewrite xeqb_false by exact E. eexists. reflexivity.
  Qed.

  (** C18 *)
  Lemma xcsqrt_real D : exists s : C, xcsqrt (Cx (XR D) (XR 0)) = xc s /\ (s * s = RtoC D)%C /\
    ((snd s = 0) \/ (fst s = 0)).
  Proof.
    unfold xcsqrt. rewrite rltb_false by lra. replace (D * D + 0 * 0) with (Rsqr D) by (unfold Rsqr; ring). rewrite sqrt_Rsqr_abs.
    exists (sqrt ((Rabs D + D) / 2), sqrt ((Rabs D - D) / 2)). split; [reflexivity|]. cbn [fst snd].
    destruct (Rle_dec 0 D) as [H|H].
    - rewrite Rabs_right by lra. replace ((D - D) / 2) with 0 by lra. replace ((D + D) / 2) with D by lra.
      rewrite sqrt_0. split; [|left; reflexivity].
      apply injective_projections; simpl; [rewrite sqrt_sqrt by lra|]; ring.
    - rewrite Rabs_left by lra. replace ((- D + D) / 2) with 0 by lra. replace ((- D - D) / 2) with (- D) by lra.
      rewrite sqrt_0. split; [|right; reflexivity].
      apply injective_projections; simpl; [rewrite sqrt_sqrt by lra|]; ring.
  Qed.

  Lemma x_nn r : is_nan (N := XS) (XR r) = false.
  Proof. unfold is_nan. cbn. destruct (Req_EM_T _ _); [reflexivity|congruence]. Qed.

  Lemma bps_roots_ok k0 k1 k2 e : k0 <> 0 ->
    exists r1 r2 : C, bps_roots (N := XS) (XR k0) (XR k1) (XR k2) e = Val (CPair (N := XS) (xc r1) (xc r2)) /\
      conj_or_real r1 r2 /\ (r1 + r2 = RtoC (- k1 / k0))%C /\ (r1 * r2 = RtoC (k2 / k0))%C.
  Proof.
    intros H. unfold bps_roots. cbn [nsub nmul nofZ ncsqrt X xmul xsub].
    destruct (xcsqrt_real (k1 * k1 - 4 * k0 * k2)) as [[s t] [Es [Hs Hc]]]. change (T XS) with xreal. rewrite Es.
    assert (H2 : 2 * k0 <> 0) by lra.
    assert (E1 : c_divr (N := XS) (c_opp (N := XS) (c_addr (N := XS) (xc (s, t)) (XR k1))) (XR (2 * k0)) =
      xc (- (s + k1) / (2 * k0), - t / (2 * k0))).
    { unfold c_divr, c_opp, c_addr, xc. cbn [re im fst snd nadd nopp ndiv X xadd xopp]. rewrite !xdiv_fin by exact H2. reflexivity. }
    assert (E2 : c_divr (N := XS) (c_subr (N := XS) (xc (s, t)) (XR k1)) (XR (2 * k0)) =
      xc ((s - k1) / (2 * k0), t / (2 * k0))).
    { unfold c_divr, c_subr, xc. cbn [re im fst snd nsub ndiv X xsub]. rewrite !xdiv_fin by exact H2. reflexivity. }
    rewrite E1, E2. unfold cp_is_nan, c_is_nan. cbn [cfst csnd re im xc fst snd].
    rewrite !x_nn. cbn [orb othrow_if obind].
    eexists (_, _), (_, _). split; [reflexivity|].
    assert (S1 := f_equal fst Hs). assert (S2 := f_equal snd Hs). cbn in S1, S2.
    assert (T0 : s * t = 0) by lra. cbn [fst snd] in Hc.
    assert (HD : s * s - t * t = k1 * k1 - 4 * k0 * k2) by lra.
    split; [|split].
    - destruct Hc as [->| ->].
      + left. cbn. split; field; exact H.
      + right. apply injective_projections; cbn; field; exact H.
    - apply injective_projections; cbn; field; exact H.
    - apply injective_projections; cbn.
      + replace (k2 / k0) with ((k1 * k1 - (k1 * k1 - 4 * k0 * k2)) / (4 * k0 * k0)) by (field; exact H).
        rewrite <- HD. field. exact H.
      + transitivity ((- 2 * (s * t)) / (4 * k0 * k0)); [field; exact H|]. rewrite T0. field. exact H.
  Qed.

  Lemma roots_poly (r1 r2 : C) k0 k1 k2 (u : C) : k0 <> 0 -> (r1 + r2 = RtoC (- k1 / k0))%C -> (r1 * r2 = RtoC (k2 / k0))%C ->
    poly2 k0 k1 k2 u = (RtoC k0 * ((1 - r1 * u) * (1 - r2 * u)))%C.
  Proof.
    intros H E1 E2. transitivity (RtoC k0 * (1 - (r1 + r2) * u + (r1 * r2) * (u * u)))%C; [|ring].
    rewrite E1, E2. unfold poly2. destruct u as [x y]. apply injective_projections; cbn; field; exact H.
  Qed.

  Lemma c18_two a0 a1 a2 b0 b1 b2 (b' : biquad XS) : a0 <> 0 -> b0 <> 0 -> a2 <> 0 \/ b2 <> 0 ->
    let b := @MkBiquad XS (XR a0) (XR a1) (XR a2) (XR b0) (XR b1) (XR b2) in
    exists p bps, bq_getPoleZeros b = Val [xpz p] /\ pz_ok p /\
      (forall u : C, poly2 1 a1 a2 u = pz_den p u /\ poly2 b0 b1 b2 u = (RtoC b0 * pz_num p u)%C) /\
      bps_of b = Val bps /\
      setPoleZeroForm bps b' = Ok (@MkBiquad XS (XR 1) (XR a1) (XR a2) (XR b0) (XR b1) (XR b2)) tt.
  Proof.
    intros Ha Hb Hor b. unfold bq_getPoleZeros, bps_of, getA0, getA1, getA2, getB0, getB1, getB2, b.
    cbn [m_a0 m_a1 m_a2 m_b0 m_b1 m_b2 nmul neqb ndiv nofZ X xmul].
    assert (N1 : xeqb (XR (a2 * a0)) (XR 0) && xeqb (XR (b2 * a0)) (XR 0) = false).
    { destruct Hor as [Q|Q]; [rewrite xeqb_false; [reflexivity|]|rewrite (xeqb_false (b2 * a0)); [apply andb_false_r|]];
      apply Rmult_integral_contrapositive_currified; assumption. }
    rewrite N1. assert (Hba : b0 * a0 <> 0) by (apply Rmult_integral_contrapositive_currified; assumption).
    destruct (bps_roots_ok a0 (a1 * a0) (a2 * a0) E_bps_poles_nan Ha) as [p1 [p2 [-> [P1 [P2 P3]]]]].
    destruct (bps_roots_ok (b0 * a0) (b1 * a0) (b2 * a0) E_bps_zeros_nan Hba) as [z1 [z2 [-> [Z1 [Z2 Z3]]]]].
    cbn [obind]. rewrite xdiv_fin by exact Ha. set (p := PZc p1 p2 z1 z2).
    exists p, (MkBps (N := XS) (xpz p) (XR (b0 * a0 / a0))).
    assert (Hp : pz_ok p) by (split; assumption).
    assert (D : forall u, poly2 1 a1 a2 u = pz_den p u).
    { intros u. pose proof (roots_poly p1 p2 a0 (a1 * a0) (a2 * a0) u Ha P2 P3) as Q.
      unfold pz_den. cbn [zp1 zp2 p]. apply (f_equal (Cmult (Cinv (RtoC a0)))) in Q.
      assert (Ca : RtoC a0 <> 0%C) by (intros Q'; apply RtoC_inj in Q'; contradiction).
      rewrite Cmult_assoc, Cinv_l, Cmult_1_l in Q by exact Ca. rewrite <- Q. unfold poly2. rewrite !RtoC_mult. field. exact Ca. }
    assert (E : forall u, poly2 b0 b1 b2 u = (RtoC b0 * pz_num p u)%C).
    { intros u. pose proof (roots_poly z1 z2 (b0 * a0) (b1 * a0) (b2 * a0) u Hba Z2 Z3) as Q.
      unfold pz_num. cbn [zz1 zz2 p]. apply (f_equal (Cmult (Cinv (RtoC a0)))) in Q.
      assert (Ca : RtoC a0 <> 0%C) by (intros Q'; apply RtoC_inj in Q'; contradiction).
      transitivity (/ RtoC a0 * poly2 (b0 * a0) (b1 * a0) (b2 * a0) u)%C; [unfold poly2; rewrite !RtoC_mult; field; exact Ca|].
      rewrite Q, RtoC_mult. field. exact Ca. }
    split; [reflexivity|]. split; [exact Hp|]. split; [split; [apply D|apply E]|]. split; [reflexivity|].
    unfold setPoleZeroForm. unfold bind at 1. cbn [bps_pair bps_gain]. rewrite setPoleZeroPair_any, (pair_bq_emb p Hp).
    unfold modify. unfold bq_applyScale, emb_bq, rbq. cbn [m_a0 m_a1 m_a2 m_b0 m_b1 m_b2 nmul X xmul p zp1 zp2 zz1 zz2].
    rewrite P2, P3, Z2, Z3. cbn [fst RtoC]. f_equal. f_equal; f_equal; field; auto.
  Qed.
End X.

Section Refute.
  Context {strict : bool}.
  Notation XS := (X strict).

  (** C18: numerator 2 + 1/z has the zero -1/2, denominator 1 - 1/(2z) *)
  Definition c18_bq : biquad XS := @MkBiquad XS (XR 1) (XR (- (1 / 2))) (XR 0) (XR 2) (XR 1) (XR 0).
  Definition c18_pz : pzc := PZc (RtoC (1 / 2)) 0 (RtoC (- 2)) 0.
  Lemma c18_get : bq_getPoleZeros c18_bq = Val [xpz c18_pz].
  Proof.
    unfold bq_getPoleZeros, bps_of, c18_bq, getA0, getA1, getA2, getB0, getB1, getB2.
    cbn [m_a0 m_a1 m_a2 m_b0 m_b1 m_b2 nmul neqb ndiv nofZ X xmul nopp xopp].
    rewrite !xeqb_true by ring. cbn [andb]. rewrite !xdiv_fin by lra. cbn [obind].
    unfold xpz, c18_pz, c_of, xc. cbn [zp1 zp2 zz1 zz2 fst snd RtoC nofZ X n0 bps_pair].
    unfold n0. cbn [nofZ X]. repeat f_equal; lra.
  Qed.
  Lemma c18_refuted : exists (b : biquad XS) a1 b0 b1 p, b = @MkBiquad XS (XR 1) (XR a1) (XR 0) (XR b0) (XR b1) (XR 0) /\
    bq_getPoleZeros b = Val [xpz p] /\ zz1 p <> 0%C /\ poly2 b0 b1 0 (/ zz1 p)%C <> 0%C /\
    exists bps b', bps_of b = Val bps /\ setPoleZeroForm bps b = Ok b' tt /\ m_b1 b' <> m_b1 b.
  Proof.
    exists c18_bq, (- (1 / 2)), 2, 1, c18_pz. split; [reflexivity|]. split; [apply c18_get|].
    split; [cbn; intros Q; apply RtoC_inj in Q; lra|]. split.
    - cbn [c18_pz zz1]. rewrite <- RtoC_inv by lra. unfold poly2. rewrite <- !RtoC_mult, <- !RtoC_plus.
      intros Q. apply RtoC_inj in Q. lra.
    - pose proof c18_get as G. unfold bq_getPoleZeros in G.
      destruct (bps_of c18_bq) as [bps| |] eqn:E; try discriminate. cbn [obind] in G. inversion G as [G'].
      exists bps. eexists. split; [reflexivity|].
      assert (K : bps_gain bps = XR 2).
      { unfold bps_of, c18_bq, getA0, getA1, getA2, getB0, getB1, getB2 in E.
        cbn [m_a0 m_a1 m_a2 m_b0 m_b1 m_b2 nmul neqb ndiv nofZ X xmul nopp xopp] in E.
        rewrite !xeqb_true in E by ring. cbn [andb] in E. rewrite !xdiv_fin in E by lra. cbn [obind] in E.
        inversion E. cbn. f_equal. lra. }
      unfold setPoleZeroForm, bind. rewrite G', setPoleZeroPair_any, pair_bq_emb.
      + rewrite K. unfold modify. split; [reflexivity|]. cbn. intros Q. inversion Q. lra.
      + split; left; split; reflexivity.
  Qed.

  (** C16 *)
  Lemma c16_a0 : exists b, setCoefficients (N := XS) (XR 0) (XR 0) (XR 0) (XR 1) (XR 0) (XR 0) biquad0 = Ok b tt /\ m_a1 b = XNaN.
  Proof.
    unfold setCoefficients, bind, throw_if. rewrite !x_nn. unfold ret, put. eexists. split; [reflexivity|].
    cbn. rewrite !Req0_true. reflexivity.
  Qed.
  Lemma sin_pos f : 0 < f < 1 / 2 -> 0 < sin (2 * PI * f).
  Proof. intros H. pose proof PI_RGT_0. apply sin_gt_0; nra. Qed.
  Lemma c16_rbj f g (old : biquad XS) : 0 < f < 1 / 2 ->
    exists b, rbj_setupN (N := XS) R_LowPass (XR f) g (XR 0) old = Ok b tt /\ m_a2 b = XNaN.
  Proof.
    intros H. pose proof (sin_pos f H) as S.
    unfold rbj_setupN, rbj_coefs, rbj_lowpass, rbj_w0, set_coefs. unfold bind at 1. unfold ret at 1.
    cbn [nmul npi nofZ X xmul nsin ncos xcos xsin ndiv].
    replace (xdiv (XR (sin (2 * PI * f))) (XR (2 * 0))) with (XInf false).
    2:{ unfold xdiv. replace (2 * 0) with 0 by ring. rewrite Req0_true, Req0_false by lra. rewrite rltb_false by lra. reflexivity. }
    cbn [k_a0 k_a1 k_a2 k_b0 k_b1 k_b2 nadd nsub X xadd xsub xopp negb nofZ].
    rewrite !xdiv_fin by lra.
    assert (NI : forall s, is_nan (N := XS) (XInf s) = false) by (intros []; reflexivity).
    unfold setCoefficients, bind, throw_if. rewrite !x_nn, !NI. unfold ret, put. eexists. split; [reflexivity|].
    reflexivity.
  Qed.

  (** C31 *)
  Lemma stable_a2 a1 a2 : stable_poly a1 a2 -> Rabs a2 < 1.
  Proof.
    intros H. destruct (stable_roots a1 a2 H) as [p1 [p2 [_ [E [H1 H2]]]]].
    rewrite <- Cmod_R, E, Cmod_mult. pose proof (Cmod_ge_0 p1). pose proof (Cmod_ge_0 p2). nra.
  Qed.
  Lemma c31 f q g (old : biquad XS) : 1 / 2 < f < 1 -> 1 / 2 < q ->
    exists b, rbj_setupN (N := XS) R_LowPass (XR f) g (XR q) old = Ok b tt /\ ~ stable_bq b.
  Proof.
    intros Hf Hq. pose proof PI_RGT_0.
    assert (S : sin (2 * PI * f) < 0) by (apply sin_lt_0; nra).
    pose proof (SIN_bound (2 * PI * f)) as SB.
    unfold rbj_setupN, rbj_coefs, rbj_lowpass, rbj_w0, set_coefs. unfold bind at 1. unfold ret at 1.
    cbn [nmul npi nofZ X xmul nsin ncos xcos xsin ndiv]. rewrite xdiv_fin by lra.
    cbn [k_a0 k_a1 k_a2 k_b0 k_b1 k_b2 nadd nsub X xadd xsub xopp negb nofZ].
    rewrite !xdiv_fin by lra. set (AL := sin (2 * PI * f) / (2 * q)).
    assert (A1 : -1 < AL < 0).
    { unfold AL. split; [apply Rmult_lt_reg_r with (2 * q)|apply Rmult_lt_reg_r with (2 * q)]; try lra;
      unfold Rdiv; rewrite Rmult_assoc, Rinv_l by lra; lra. }
    rewrite set_coeffs_fin by lra. eexists. split; [reflexivity|].
    intros (a1 & a2 & E1 & E2 & Hs). cbn in E2. inversion E2 as [E3]. apply stable_a2 in Hs. rewrite <- E3 in Hs.
    apply Rabs_def2 in Hs. destruct Hs as [Hs _].
    assert ((1 - AL) / (1 + AL) * (1 + AL) < 1 * (1 + AL)) by (apply Rmult_lt_compat_r; lra).
    unfold Rdiv in H0. rewrite Rmult_assoc, Rinv_l in H0 by lra. lra.
  Qed.

  (** C39 *)
  Lemma zrange_neg n : (n <= 0)%Z -> zrange n = [].
  Proof. intros H. unfold zrange. replace (Z.to_nat n) with 0%nat by lia. reflexivity. Qed.
  Lemma check_fc_ok S fc (s : S) : 0 <= fc < 1 / 2 -> check_fc (N := XS) (XR fc) s = Ok s tt.
  Proof.
    intros H. unfold check_fc, bind, throw_if. cbn [nltb nlit nofZ X xltb].
    rewrite rltb_true by lra. cbn. rewrite rltb_false by lra. reflexivity.
  Qed.
  Lemma c39 FO o fc fw ga db : (1 <= FO)%Z -> (o <= 0)%Z -> Z.even o = true -> in_int (2 * o) = true -> 0 <= fc < 1 / 2 ->
    exists p, setupN (N := XS) (Bw, LP) FO (Some o) (MkParams (N := XS) (XR fc) fw ga db) (pf_init (Bw, LP) FO) = Ok p tt /\
      c_numStages (pf_cas p) = 0%Z /\ List.Forall identity_bq (c_stages (pf_cas p)).
  Proof.
    intros HF Ho He Hi Hfc. unfold setupN. replace (FO <? o)%Z with false by (symmetry; apply Z.ltb_ge; lia).
    unfold throw_if. unfold bind at 1. unfold ret at 1.
    unfold base_setup. unfold bind at 1. unfold on_ana, zoom. cbn [pf_ana pf_init].
    unfold ana_design. cbn [fst snd is_shelf]. unfold bw_lp_design. unfold bind at 1. unfold get at 1.
    cbn [ana_init fst snd is_shelf bw_lp_init p_set_lay p_np].
    assert (Oo : (-1 =? o)%Z = false).
    { apply Z.eqb_neq. intros <-. discriminate. }
    rewrite Oo. cbn [negb]. unfold bind at 1, modify at 1. unfold bind at 1, on_lay at 1, zoom, modify at 1.
    unfold int_ub. rewrite Hi. cbn [or_ub]. unfold bind at 1, ret at 1. unfold on_lay, zoom, bw_lp_poles.
    assert (Q : (Z.quot o 2 <= 0)%Z).
    { destruct (Z.eq_dec o 0) as [->|]; [reflexivity|]. pose proof (Z.quot_pos (- o) 2 ltac:(lia) ltac:(lia)) as P.
      rewrite Z.quot_opp_l in P by lia. lia. }
    rewrite (zrange_neg _ Q). replace (Z.odd o) with false by (rewrite <- Z.negb_even, He; reflexivity).
    cbn [mfor]. unfold bind at 1, ret at 1. unfold ret at 1.
    cbn [p_lay p_set_lay]. unfold bind at 1, get at 1. unfold bind at 1, on_dig, zoom, dig_transform. cbn [snd q_fc pf_ana pf_dig].
    unfold LowPassTransform. unfold bind at 1. rewrite check_fc_ok by exact Hfc. unfold bind at 1, modify at 1.
    unfold bind at 1, simple_loop. cbn [p_lay p_set_lay l_numPoles lay_reset l_set_numPoles lay_setStorage layout_of_storage].
    change (Z.quot 0 2) with 0%Z. change (zrange 0) with (@nil Z). change (Z.odd 0) with false. cbn [mfor]. unfold bind at 1, ret at 1.
    unfold ret at 1, modify at 1. unfold bind at 1, get at 1. unfold on_cas, zoom.
    cbn [pf_cas pf_dig lay_reset l_set_numPoles lay_setNormal l_maxPoles l_pairs l_normalW l_normalGain l_numPoles layout0 lay_setStorage
      layout_of_storage bw_lp_init p_lay setCascadeStorage].
    set (ms := maxStagesOf (snd (Bw, LP)) FO). set (old := repeat (biquad0 (N := XS)) (Z.to_nat ms)).
    assert (Hms : (0 <= ms)%Z) by (unfold ms, maxStagesOf, maxDigital; cbn [snd is_band]; apply Z.quot_pos; lia).
    assert (C0 : pf_cas (pf_init (N := XS) (Bw, LP) FO) = MkCascade 0 (Z.of_nat (length old)) old).
    { cbn [pf_cas pf_init]. unfold setCascadeStorage. fold ms. fold old. f_equal. unfold old. rewrite repeat_length. lia. }
    rewrite !C0.
    pose proof PI_RGT_0.
    destruct (setLayout_x (strict := strict) [] (layout_storage (maxDigital (snd (Bw, LP)) FO)) 0 (maxDigital (snd (Bw, LP)) FO) 0 1 0 old)
      as [cs [rest [E [L [F2 [I _]]]]]]; try constructor; try (simpl; lia); try lra.
    inversion F2; subst. cbn [map app] in E.
    match type of E with setLayout ?d0 _ = _ => match goal with |- context [setLayout ?d1 _] => change d1 with d0 end end.
    rewrite E.
    eexists. split; [reflexivity|]. cbn. split; [reflexivity|exact I].
  Qed.
End Refute.

(** C40 *)
Lemma Rpower_pos x y : 0 < Rpower x y.
Proof. apply exp_pos. Qed.
Lemma c40 FO o fc fw ga db : (2 <= o <= FO)%Z -> in_int (o * 2) = true ->
  setupN (N := X true) (Bw, LSh) FO (Some o) (MkParams (N := X true) fc fw (XR ga) db) (pf_init (Bw, LSh) FO) = UB.
Proof.
  intros Ho Hi. unfold setupN. replace (FO <? o)%Z with false by (symmetry; apply Z.ltb_ge; lia).
  unfold throw_if. unfold bind at 1. unfold ret at 1.
  unfold base_setup. unfold bind at 1. unfold on_ana, zoom. cbn [pf_ana pf_init].
  unfold ana_design. cbn [fst snd is_shelf]. unfold bw_ls_design. unfold bind at 1. unfold get at 1.
  cbn [ana_init fst snd is_shelf bw_ls_init p_set_lay p_np].
  replace (-1 =? o)%Z with false by (symmetry; apply Z.eqb_neq; lia). cbn [negb orb].
  unfold bind at 1, modify at 1. unfold bind at 1, on_lay at 1, zoom, modify at 1.
  unfold int_ub. rewrite Hi. cbn [or_ub]. unfold bind at 1, ret at 1. unfold on_lay, zoom, bw_ls_poles.
  assert (Q : exists l, zrange (Z.quot o 2) = 0%Z :: l).
  { assert (1 <= Z.quot o 2)%Z by (apply Z.quot_le_lower_bound; lia).
    unfold zrange. destruct (Z.to_nat (Z.quot o 2)) eqn:E; [lia|]. simpl. eexists. reflexivity. }
  destruct Q as [l ->]. cbn [mfor]. unfold bind at 1 2.
  match goal with |- context [npolar _ ?g _] => assert (P : exists r, r < 0 /\ g = XR r) end.
  { cbn [q_gain npow ndiv nofZ X xpow]. rewrite (xdiv_fin ga) by lra. cbn [xpow].
    destruct (Req0 (ga / 20)) eqn:E1.
    - rewrite xdiv_fin by (apply not_0_IZR; lia). cbn [xpow]. destruct (Req0 (1 / _)).
      + rewrite xdiv_fin by lra. eexists. split; [|reflexivity]. lra.
      + rewrite Req0_false, rltb_false by lra. pose proof (Rpower_pos 1 (1 / IZR (o * 2))) as P.
        rewrite xdiv_fin by lra. eexists. split; [|reflexivity].
        replace (-1 / Rpower 1 (1 / IZR (o * 2))) with (- / Rpower 1 (1 / IZR (o * 2))) by (field; lra).
        apply Ropp_lt_gt_0_contravar. apply Rinv_0_lt_compat. exact P.
    - rewrite Req0_false, rltb_false by lra. rewrite xdiv_fin by (apply not_0_IZR; lia). cbn [xpow].
      pose proof (Rpower_pos 10 (ga / 20)) as P0.
      destruct (Req0 (1 / _)).
      + rewrite xdiv_fin by lra. eexists. split; [|reflexivity]. lra.
      + rewrite Req0_false, rltb_false by lra.
        pose proof (Rpower_pos (Rpower 10 (ga / 20)) (1 / IZR (o * 2))) as P. rewrite xdiv_fin by lra. eexists. split; [|reflexivity].
        set (z := Rpower (Rpower 10 (ga / 20)) (1 / IZR (o * 2))) in *.
        replace (-1 / z) with (- / z) by (field; lra).
        apply Ropp_lt_gt_0_contravar. apply Rinv_0_lt_compat. exact P. }
  destruct P as [r [Hr ->]].
  assert (N : forall th, npolar (X true) (XR r) th = None).
  { intros th. cbn. unfold xpolar, xleb. cbn. rewrite rltb_false by lra. destruct (Req_EM_T 0 r); [lra|]. reflexivity. }
  rewrite N. reflexivity.
Qed.
