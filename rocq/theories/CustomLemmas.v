(** Lemmas about Biquad::response and the Custom one and two pole filters (exact arithmetic). *)
From Coq Require Import ZArith List Bool Reals Lra Lia.
From Coquelicot Require Import Coquelicot.
From Verif Require Import Num Outcome Types Biquad State Cascade Custom Exact RealNum Hoare Safe SigSpec PZSpec
  SigProofs StabProofs RespProofs SigLemmas LayoutProofs PZProofs CoefLemmas RBJProofs.
Import ListNotations.
Local Open Scope R_scope.

Section Custom.
  Context {strict : bool}.
  Notation XS := (X strict).

  (** the output of a section from reset, as a difference equation *)
  Lemma emb_diffeq (b : biquad RN) t xs : exists ys,
    snd (bq_run (N := XS) (emb_bq b) (st_init t) (xr xs)) = xr ys /\
    diffeq 1 (m_a1 b) (m_a2 b) (m_b0 b) (m_b1 b) (m_b2 b) xs ys.
  Proof.
    exists (zs [b] xs). split; [apply x_bq_run|]. split; [apply zs_len|]. intros n Hn. unfold zs. rewrite !back_seq by exact Hn.
    rewrite !back_seqof. pose proof (flt_eq b (seqof xs) n) as F. unfold den, numr, fir in F.
    change (flts [b] (seqof xs)) with (flt b (seqof xs)).
    destruct n as [|[|n]]; simpl in *; rewrite ?Nat.sub_0_r; exact F.
  Qed.

  Lemma stable_emb_iff (b : biquad RN) : stable_bq (strict := strict) (emb_bq b) <-> stable_poly (m_a1 b) (m_a2 b).
  Proof.
    split; [exact (stable_emb b)|]. intros H. exists (m_a1 b), (m_a2 b). split; [reflexivity|]. split; [reflexivity|exact H].
  Qed.

  (** z^2 + a1 z + a2 from the denominator at 1/z *)
  Lemma stable_factor a1 a2 (p q : C) : RtoC a1 = (- (p + q))%C -> RtoC a2 = (p * q)%C ->
    (stable_poly a1 a2 <-> Cmod p < 1 /\ Cmod q < 1).
  Proof.
    intros E1 E2.
    assert (F : forall z : C, (z * z + RtoC a1 * z + RtoC a2 = (z - p) * (z - q))%C) by (intros z; rewrite E1, E2; ring).
    split.
    - intros H. split; apply H; rewrite F; ring.
    - intros [Hp Hq] z Hz. rewrite F in Hz.
      assert (Z : (z - p = 0)%C \/ (z - q = 0)%C).
      { destruct (Classical_Prop.classic (z - p = 0)%C) as [Q|Q]; [left; exact Q|right].
        destruct (Classical_Prop.classic (z - q = 0)%C) as [Q'|Q']; [exact Q'|].
        exfalso. exact (Cmult_neq_0 _ _ Q Q' Hz). }
      destruct Z as [Z|Z]; [replace z with p|replace z with q]; auto.
      + replace p with (z - (z - p))%C by ring. rewrite Z. ring.
      + replace q with (z - (z - q))%C by ring. rewrite Z. ring.
  Qed.

  Lemma c48_one s p z (old : biquad XS) : exists b,
    onepole_setup (N := XS) (XR s) (XR p) (XR z) old = Ok b tt /\
    (stable_bq b <-> Rabs p < 1) /\
    (forall f, (1 - RtoC p * cis (- (2 * PI * f)))%C <> 0%C ->
       bq_response b (XR f) = Val (xc (RtoC s * (1 - RtoC z * cis (- (2 * PI * f))) / (1 - RtoC p * cis (- (2 * PI * f))))%C)) /\
    (forall t xs, exists ys, snd (bq_run b (st_init t) (xr xs)) = xr ys /\ diffeq 1 (- p) 0 s (- (s * z)) 0 xs ys).
  Proof.
    set (b := @MkBiquad RN 1 (- p) 0 s (- (s * z)) 0). exists (emb_bq b). split.
    - unfold onepole_setup, bind. change (c_of (N := XS) (XR p)) with (xc (RtoC p)). change (c_of (N := XS) (XR z)) with (xc (RtoC z)).
      rewrite setOnePole_ok by reflexivity. unfold modify, bq_applyScale, emb_bq, b, rbq. cbn. f_equal. f_equal; f_equal; ring.
    - split; [|split].
      + rewrite stable_emb_iff, (stable_factor _ _ (RtoC p) 0%C).
        * rewrite cmod_R, Cmod_0. split; [tauto|intros H; split; [exact H|lra]].
        * unfold b. cbn [m_a1]. rewrite RtoC_opp. ring.
        * unfold b. cbn [m_a2]. ring.
      + intros f Hf.
        assert (B : rbot b (upt f) = (1 - RtoC p * cis (- (2 * PI * f)))%C).
        { unfold rbot, b, poly2, upt. cbn [m_a1 m_a2]. rewrite RtoC_opp. ring. }
        assert (T : rtop b (upt f) = (RtoC s * (1 - RtoC z * cis (- (2 * PI * f))))%C).
        { unfold rtop, b, poly2, upt. cbn [m_b0 m_b1 m_b2]. rewrite RtoC_opp, RtoC_mult. ring. }
        rewrite bq_response_emb, B, T; [reflexivity|cbn; lra|rewrite B; exact Hf].
      + intros t xs. exact (emb_diffeq b t xs).
  Qed.

  Lemma xpolar_gen r th : (strict = true -> 0 <= r) -> xpolar strict (XR r) (XR th) = Some (xc (RtoC r * cis th)%C).
  Proof.
    intros H. unfold xpolar. replace (strict && _)%bool with false.
    - cbn. unfold xc, cis. simpl. do 2 f_equal; f_equal; ring.
    - destruct strict; [|reflexivity]. specialize (H eq_refl). unfold xleb. cbn.
      unfold Rltb. destruct (Rlt_dec 0 r); [reflexivity|]. destruct (Req_EM_T 0 r); [reflexivity|lra].
  Qed.

  Lemma c48_two s rp tp rz tz (old : biquad XS) : (strict = true -> 0 <= rp /\ 0 <= rz) -> exists b,
    twopole_setup (N := XS) (XR s) (XR rp) (XR tp) (XR rz) (XR tz) old = Ok b tt /\
    (stable_bq b <-> Rabs rp < 1) /\
    (forall f, let u := cis (- (2 * PI * f)) in
       ((1 - RtoC rp * cis tp * u) * (1 - RtoC rp * cis (- tp) * u))%C <> 0%C ->
       bq_response b (XR f) = Val (xc (RtoC s * ((1 - RtoC rz * cis tz * u) * (1 - RtoC rz * cis (- tz) * u)) /
                                       ((1 - RtoC rp * cis tp * u) * (1 - RtoC rp * cis (- tp) * u)))%C)) /\
    (forall t xs, exists ys, snd (bq_run b (st_init t) (xr xs)) = xr ys /\
       diffeq 1 (- (2 * rp * cos tp)) (rp * rp) s (- (2 * s * rz * cos tz)) (s * (rz * rz)) xs ys).
  Proof.
    intros HS.
    assert (SC : forall x, cos x * cos x + sin x * sin x = 1) by (intros x; pose proof (sin2_cos2 x); unfold Rsqr in *; lra).
    assert (FS : forall r x : R, RtoC (- (2 * r * cos x)) = (- (RtoC r * cis x + RtoC r * cis (- x)))%C).
    { intros r x. unfold cis, RtoC, Cplus, Cmult, Copp. cbn [fst snd]. rewrite cos_neg, sin_neg. f_equal; ring. }
    assert (FP : forall r x : R, RtoC (r * r) = (RtoC r * cis x * (RtoC r * cis (- x)))%C).
    { intros r x. unfold cis, RtoC, Cmult. cbn [fst snd]. rewrite cos_neg, sin_neg. f_equal; [|ring].
      replace (r * r) with (r * r * (cos x * cos x + sin x * sin x)) at 1 by (rewrite SC; ring). ring. }
    set (b := @MkBiquad RN 1 (- (2 * rp * cos tp)) (rp * rp) s (- (2 * s * rz * cos tz)) (s * (rz * rz))).
    exists (emb_bq b). split; [|split; [|split]].
    - unfold twopole_setup. cbn [npolar X]. rewrite !xpolar_gen by (intros; tauto). cbn [or_ub]. unfold bind, ret.
      set (p := PZc (RtoC rp * cis tp)%C (Cconj (RtoC rp * cis tp)%C) (RtoC rz * cis tz)%C (Cconj (RtoC rz * cis tz)%C)).
      pose proof (setTwoPole_ok p old (conj (or_intror eq_refl) (or_intror eq_refl))) as E.
      change (c_conj (N := XS) (xc (RtoC rp * cis tp)%C)) with (xc (zp2 p)).
      change (c_conj (N := XS) (xc (RtoC rz * cis tz)%C)) with (xc (zz2 p)).
      change (RtoC rp * cis tp)%C with (zp1 p). change (RtoC rz * cis tz)%C with (zz1 p). rewrite E.
      unfold modify, bq_applyScale, emb_bq, rbq, b, p. cbn. pose proof (SC tp). pose proof (SC tz).
      f_equal. f_equal; f_equal; try ring.
      + replace (rp * rp) with (rp * rp * (cos tp * cos tp + sin tp * sin tp)) by (rewrite SC; ring). ring.
      + replace (s * (rz * rz)) with (s * (rz * rz) * (cos tz * cos tz + sin tz * sin tz)) by (rewrite SC; ring). ring.
    - rewrite stable_emb_iff, (stable_factor _ _ (RtoC rp * cis tp)%C (RtoC rp * cis (- tp))%C).
      + rewrite !Cmod_mult, !cis_mod, cmod_R, Rmult_1_r. tauto.
      + apply FS.
      + apply FP.
    - intros f u Hf.
      assert (B : rbot b (upt f) = ((1 - RtoC rp * cis tp * u) * (1 - RtoC rp * cis (- tp) * u))%C).
      { unfold rbot, b, poly2. fold u. change (upt f) with u. cbn [m_a1 m_a2]. rewrite (FS rp tp), (FP rp tp). ring. }
      assert (T : rtop b (upt f) = (RtoC s * ((1 - RtoC rz * cis tz * u) * (1 - RtoC rz * cis (- tz) * u)))%C).
      { unfold rtop, b, poly2. change (upt f) with u. cbn [m_b0 m_b1 m_b2].
        replace (- (2 * s * rz * cos tz)) with (s * - (2 * rz * cos tz)) by ring.
        rewrite !(RtoC_mult s), (FS rz tz), (FP rz tz). ring. }
      rewrite bq_response_emb, B, T; [reflexivity|cbn; lra|rewrite B; exact Hf].
    - intros t xs. exact (emb_diffeq b t xs).
  Qed.
End Custom.

Lemma c48_ub s rp tp rz tz (old : biquad (X true)) : rp < 0 \/ rz < 0 ->
  twopole_setup (N := X true) (XR s) (XR rp) (XR tp) (XR rz) (XR tz) old = UB.
Proof.
  intros H.
  assert (N : forall r th, r < 0 -> npolar (X true) (XR r) th = None).
  { intros r th Hr. cbn. unfold xpolar, xleb. cbn. rewrite rltb_false by lra. destruct (Req_EM_T 0 r); [lra|]. reflexivity. }
  unfold twopole_setup, bind. destruct (Rlt_dec rp 0) as [L|L].
  - rewrite N by exact L. reflexivity.
  - destruct H as [H|H]; [lra|]. cbn [npolar X]. rewrite (xpolar_gen rp) by (intros; lra). cbn [or_ub ret].
    change (xpolar true (XR rz) (XR tz)) with (npolar (X true) (XR rz) (XR tz)). rewrite N by exact H. reflexivity.
Qed.

(** ** Biquad::response *)
Section Resp1.
  Context {strict : bool}.
  Notation XS := (X strict).
  Lemma c49_value (b : biquad XS) a0 a1 a2 b0 b1 b2 f :
    b = @MkBiquad XS (XR a0) (XR a1) (XR a2) (XR b0) (XR b1) (XR b2) -> a0 <> 0 ->
    poly2 1 a1 a2 (cis (- (2 * PI * f))) <> 0%C ->
    bq_response b (XR f) = Val (xc (poly2 b0 b1 b2 (cis (- (2 * PI * f))) / poly2 1 a1 a2 (cis (- (2 * PI * f))))%C).
  Proof. intros -> Ha Hd. exact (bq_response_emb (@MkBiquad RN a0 a1 a2 b0 b1 b2) f Ha Hd). Qed.

  Lemma c49_cascade (b : biquad XS) n m rest f : fin_bq b -> m_a0 b <> XR 0 -> stable_bq b -> 0 <= f <= 1 / 2 -> n = 1%Z ->
    cas_response (MkCascade n m (b :: rest)) (XR f) = bq_response b (XR f).
  Proof.
    intros F A S Hf ->. destruct (fin_bq_emb b F) as [b' ->].
    assert (A' : m_a0 b' <> 0) by (intros Q; apply A; cbn; rewrite Q; reflexivity).
    pose proof (rbot_nz _ (- (2 * PI * f)) (stable_emb _ S)) as D.
    rewrite bq_response_emb by assumption.
    transitivity (cas_response (N := XS) (MkCascade 1 m (map emb_bq [b'])) (XR f));
      [unfold cas_response; cbn [c_stages c_numStages map]; change (Z.to_nat 1) with 1%nat; destruct rest; reflexivity|].
    assert (C1 : forall c : C, cprod [c] = c) by (intros c; apply Cmult_1_r).
    rewrite cas_response_emb; change (Z.to_nat 1) with 1%nat; cbn [firstn map].
    - rewrite !C1. reflexivity.
    - constructor; [exact A'|constructor].
    - cbn. lia.
    - exact Hf.
    - rewrite C1. exact D.
  Qed.

  (** periodic and conjugate symmetric *)
  Lemma c49_symm (b : biquad XS) f : fin_bq b -> m_a0 b <> XR 0 -> stable_bq b -> exists h : C,
    bq_response b (XR f) = Val (xc h) /\ bq_response b (XR (f + 1)) = Val (xc h) /\
    bq_response b (XR (- f)) = Val (xc (Cconj h)).
  Proof.
    intros F A S. destruct (fin_bq_emb b F) as [b' ->].
    assert (A' : m_a0 b' <> 0) by (intros Q; apply A; cbn; rewrite Q; reflexivity).
    assert (D : forall g, rbot b' (upt g) <> 0%C) by (intros g; apply rbot_nz; exact (stable_emb _ S)).
    exists (rtop b' (upt f) / rbot b' (upt f))%C. rewrite !bq_response_emb by auto.
    assert (U1 : upt (f + 1) = upt f).
    { unfold upt, cis. replace (- (2 * PI * (f + 1))) with (- (2 * PI * f) - 2 * PI) by ring.
      f_equal.
      - rewrite <- (cos_period (- (2 * PI * f) - 2 * PI) 1). f_equal. simpl. ring.
      - rewrite <- (sin_period (- (2 * PI * f) - 2 * PI) 1). f_equal. simpl. ring. }
    assert (U2 : upt (- f) = Cconj (upt f)).
    { unfold upt, cis, Cconj. cbn [fst snd]. replace (- (2 * PI * - f)) with (- - (2 * PI * f)) by ring.
      rewrite cos_neg, sin_neg. reflexivity. }
    assert (PC : forall k0 k1 k2 (u : C), poly2 k0 k1 k2 (Cconj u) = Cconj (poly2 k0 k1 k2 u)).
    { intros. unfold poly2, Cconj, Cplus, Cmult, RtoC. cbn [fst snd]. f_equal; ring. }
    assert (IC : forall u : C, (/ Cconj u)%C = Cconj (/ u)%C).
    { intros [x y]. unfold Cinv, Cconj. cbn [fst snd]. f_equal.
      - f_equal. ring.
      - replace (x ^ 2 + (- y) ^ 2) with (x ^ 2 + y ^ 2) by ring. unfold Rdiv. ring. }
    rewrite U1, U2. split; [reflexivity|]. split; [reflexivity|]. do 2 f_equal. unfold rtop, rbot, Cdiv. rewrite !PC, IC.
    unfold Cconj, Cmult. cbn [fst snd]. f_equal; ring.
  Qed.

  (** a sinusoid of any frequency, also above the Nyquist limit or negative *)
  Lemma c49_steady (b : biquad XS) s f phi : fin_bq b -> m_a0 b <> XR 0 -> stable_bq b -> fin_st s ->
    exists (y : sig) (h : C), bq_response b (XR f) = Val (xc h) /\
      (forall k, snd (bq_run b s (xr (prefix k (fun i => cos (2 * PI * f * INR i + phi))))) = xr (prefix k y)) /\
      is_lim_seq (fun i => y i - fst (h * cis (2 * PI * f * INR i + phi))%C) 0.
  Proof.
    intros F A S G. destruct (fin_bq_emb b F) as [b' ->]. destruct (fin_st_emb s G) as [s' ->].
    assert (A' : m_a0 b' <> 0) by (intros Q; apply A; cbn; rewrite Q; reflexivity).
    pose proof (stable_emb _ S) as R.
    set (x := fun i => cos (2 * PI * f * INR i + phi)).
    exists (bout b' s' x), (rtop b' (upt f) / rbot b' (upt f))%C.
    split; [apply bq_response_emb; [exact A'|apply rbot_nz; exact R]|]. split.
    - intros k. unfold xr, prefix. rewrite (emb_run b' (map x (seq 0 k))). cbn [snd]. f_equal. apply bq_run_prefix.
    - assert (X : tends_osc x (cis phi) (2 * PI * f)).
      { unfold tends_osc. apply (is_lim_seq_ext (fun _ => 0)); [|apply is_lim_seq_const].
        intros n. unfold osc, x. rewrite <- cis_add. cbn. rewrite (Rplus_comm phi). ring. }
      pose proof (bout_steady b' s' x _ _ R X) as E. unfold tends_osc in E.
      eapply is_lim_seq_ext; [|exact E]. intros n. cbn beta. f_equal. f_equal. unfold osc, upt.
      rewrite cis_add. f_equal. ring.
  Qed.
End Resp1.

(** used by an example *)
Lemma ex_onepole : exists b : biquad (X false), onepole_setup (N := X false) (XR 3) (XR (1 / 2)) (XR (-1)) biquad0 = Ok b tt /\
  fin_bq b /\ m_a0 b <> XR 0 /\ stable_bq b /\ fin_st (st_init (N := X false) TDF2) /\
  poly2 1 (- (1 / 2)) 0 (cis (- (2 * PI * 0))) <> 0%C.
Proof.
  set (b := @MkBiquad RN 1 (- (1 / 2)) 0 3 (- (3 * -1)) 0). exists (emb_bq b).
  assert (E : onepole_setup (N := X false) (XR 3) (XR (1 / 2)) (XR (-1)) biquad0 = Ok (emb_bq b) tt).
  { unfold onepole_setup, bind. change (c_of (N := X false) (XR (1 / 2))) with (xc (RtoC (1 / 2))). change (c_of (N := X false) (XR (-1))) with (xc (RtoC (-1))).
    rewrite setOnePole_ok by reflexivity. unfold modify, bq_applyScale, emb_bq, b, rbq. cbn. f_equal. f_equal; f_equal; ring. }
  split; [exact E|]. destruct (c48_one (strict := false) 3 (1 / 2) (-1) biquad0) as (b' & E' & S & _).
  rewrite E in E'. injection E' as <-.
  split; [repeat split; eexists; reflexivity|]. split; [cbn; intros [= H]; lra|].
  split; [apply S; rewrite Rabs_pos_eq; lra|]. split; [repeat split; eexists; reflexivity|].
  replace (- (2 * PI * 0)) with 0 by ring. unfold cis, poly2. rewrite cos_0, sin_0. intros H. apply (f_equal fst) in H. cbn in H. lra.
Qed.
