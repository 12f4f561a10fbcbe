(** Lemmas: set-up of the Chebyshev shelves in exact arithmetic. *)
From Coq Require Import ZArith List Bool Reals Lra Lia.
From Coquelicot Require Import Coquelicot.
From Verif Require Import Num Outcome Types Biquad State Cascade Transforms Butterworth Chebyshev PoleFilter Exact RealNum SigSpec ChebSpec BandSpec ChShelfSpec
  SigProofs StabProofs RespProofs PZSpec PZProofs RBJProofs CoefLemmas BuildProofs PolyProofs MapProofs TransProofs ProtoProofs ProtoBuild
  DesignProofs DesignSpec DesignLemmas DesignFinal BandProofs BandBuild BandSetup BandLemmas ChShelfLemmas.
Import ListNotations.
Local Open Scope R_scope.

Definition cheb_fam (fam : family) : Prop := fam = Ch1 \/ fam = Ch2.
Section Setup.
  Context {strict : bool}.
  Notation XS := (X strict).
  Local Notation alay := (TransProofs.alay (strict := strict)).
  (** ChebyshevI.cpp:101-155, ChebyshevII.cpp:102-156 *)
  Definition consts_are n G db (u v : R) : Prop :=
    ls_consts (N := XS) (Z.of_nat n) (XR G) (XR db) = (XR (sinh u), XR (cosh u), (XR (sinh v), XR (cosh v))).
  Lemma cs_design_x n G db u v np0 ga d0 np1 mp (storage : list (pzpair XS)) w g : (0 < n)%nat -> consts_are n G db u v ->
    np0 <> Z.of_nat n -> in_int (2 * Z.of_nat n) = true -> (nup n <= length storage)%nat ->
    ls_design (N := XS) (Z.of_nat n) (XR G) (XR db) (MkProto np0 ga d0 (MkLayout np1 mp storage w g)) =
    Ok (MkProto (N := XS) (Z.of_nat n) (XR G) (XR db) (alay (pts_of n (cs_q n u v)) (sg_of n (cs_q0 u v)) mp (skipn (nup n) storage) w g)) tt.
  Proof.
    intros Hn HO H I L. unfold ls_design. unfold bind at 1, get. cbn [p_np].
    replace (np0 =? Z.of_nat n)%Z with false by (symmetry; apply Z.eqb_neq; exact H). cbn [negb orb].
    unfold bind at 1, modify at 1. cbn [p_gain p_db p_lay]. unfold bind at 1.
    rewrite (on_lay_ok (modify lay_reset) _ _ _ _ (lay mp [] storage w g) tt) by reflexivity.
    rewrite HO.
    unfold int_ub. rewrite I. cbn [or_ub]. unfold bind at 1, ret at 1.
    apply on_lay_ok. unfold ls_poles. rewrite (ana_build _ _ n (cs_q n u v) (cs_q0 u v)); try exact L.
    - reflexivity.
    - intros i Hi. cbn [X nofZ npi nmul ndiv nsin ncos nopp xmul]. rewrite xdiv_r by (apply not_0_IZR; lia).
      replace (2 * (Z.of_nat i + 1) - 1)%Z with (2 * Z.of_nat i + 1)%Z by lia.
      replace (PI * IZR (2 * Z.of_nat i + 1) / IZR (2 * Z.of_nat n)) with (theta n i)
        by (rewrite <- theta_Z; unfold Rdiv; ring).
      cbn [xsin xcos xopp xmul]. unfold cs_q. cbn [fst snd TransProofs.xo]. f_equal; unfold xc, ccos; cbn; f_equal; f_equal; ring.
    - reflexivity.
    - reflexivity.
    - reflexivity.
  Qed.

  Lemma cs_ana_uv fam s n FO G db u v (q : params XS) : cheb_fam fam -> is_shelf s = true -> (1 <= n)%nat -> (Z.of_nat n <= FO)%Z ->
    in_int (2 * Z.of_nat n) = true -> consts_are n G db u v -> q_gain q = XR G -> q_db q = XR db -> exists np ga d ex,
    ana_design (N := XS) (fam, s) (Z.of_nat n) q (pf_ana (pf_init (fam, s) FO)) =
      Ok (MkProto (N := XS) np ga d (alay (pts_of n (cs_q n u v)) (sg_of n (cs_q0 u v)) FO ex (XR PI) (XR 1))) tt.
  Proof.
    intros Hfam Hs Hn HF HI HO Hq Hd. destruct (sizes n FO Hn HF) as (_ & S2 & _).
    assert (L : (nup n <= length (layout_storage (N := XS) FO))%nat) by (unfold layout_storage; rewrite repeat_length; exact S2).
    unfold ana_design, pf_init, ana_init. cbn [fst snd pf_ana]. destruct Hfam; subst fam; rewrite Hs, Hq, Hd; do 4 eexists;
      unfold p_set_lay, c1_ls_init, c2_ls_init, lay_setStorage, lay_setNormal, layout_of_storage, layout0;
      cbn [p_np p_gain p_db p_lay l_maxPoles l_pairs l_normalW l_normalGain];
      apply cs_design_x; try assumption; lia.
  Qed.
  Lemma cs_ana fam s n FO G db (q : params XS) : cheb_fam fam -> is_shelf s = true -> (1 <= n)%nat -> (Z.of_nat n <= FO)%Z ->
    in_int (2 * Z.of_nat n) = true -> cs_ok G db -> q_gain q = XR G -> q_db q = XR db -> exists np ga d ex,
    ana_design (N := XS) (fam, s) (Z.of_nat n) q (pf_ana (pf_init (fam, s) FO)) =
      Ok (MkProto (N := XS) np ga d (alay (pts_of n (csq n G db)) (sg_of n (csq0 n G db)) FO ex (XR PI) (XR 1))) tt.
  Proof. intros Hfam Hs Hn HF HI HO. apply cs_ana_uv; try assumption. apply cs_consts_x; assumption. Qed.
  Lemma csq_zneg n G db : (0 < n)%nat -> cs_ok G db -> List.Forall (fun q : apt => zneg (snd q)) (csqs n G db).
  Proof.
    intros Hn HO. pose proof (sinh_lt _ (cs_v_pos n G db Hn HO)) as S. unfold csqs. apply flat_all; [exact zneg_conj| |].
    - intros i Hi. apply half_lt in Hi. pose proof (sin_theta_pos n i Hi). unfold csq, cs_q, ccos. cbn. nra.
    - cbn. lra.
  Qed.
  Lemma cs_finish n G db t k FO req q xy x0 : (0 < n)%nat -> cs_ok G db -> requested FO req n -> x0 <> 0 ->
    (forall f, 0 <= f <= 1 / 2 -> ~ (fst (xy f) = 0 /\ snd (xy f) = 0)) ->
    (exists p, setupN (N := XS) k FO (Some (Z.of_nat n)) q (pf_init k FO) = Ok p tt /\ designed p 1 (csqs n G db) xy (mag (csqs n G db) x0 0)) ->
    exists fl, filt_setupN (N := XS) k FO req q (filt_init t k FO) = Ok fl tt /\ (stable_filter fl /\ reports fl in_circle) /\
      forall f, 0 <= f <= 1 / 2 -> responds fl f (cshelf2 n G db (ratio (fst (xy f)) (snd (xy f)))).
  Proof.
    intros Hn HO HR Hx NZ H.
    destruct (lift_filt t k FO req n q (fun p => designed p 1 (csqs n G db) xy (mag (csqs n G db) x0 0)) HR H) as (fl & E & (D1 & D2 & D3 & D4) & _).
    exists fl. split; [exact E|]. split; [split; [split; assumption|destruct fl as [p sts]; exact (proj2 (D4 Rlt_0_1 sts) (csq_zneg n G db Hn HO))]|]. intros f Hf. destruct (D3 f Hf) as (h & E1 & E2).
    exists h. split; [exact E1|]. rewrite E2. rewrite rdiv_sq, (proj1 (cs_norm n G db x0 Hn HO Hx)), Rpow_mult_distr, pow2_abs.
    rewrite cshelf_mag by auto. field.
  Qed.
  Lemma cshelf2_opp n G db w : cshelf2 n G db (Some (- w)) = cshelf2 n G db (Some w).
  Proof. cbn [cshelf2]. rewrite cheb_opp. reflexivity. Qed.
  Lemma csq_good n G db : (0 < n)%nat -> cs_ok G db -> good (pts_of n (csq n G db)) (sg_of n (csq0 n G db)).
  Proof. intros. apply cs_good; [apply cs_u_pos|apply cs_v_pos]; assumption. Qed.

  Lemma cs_low fam t n FO req fc G db (q : params XS) : cheb_fam fam -> (1 <= n)%nat -> (Z.of_nat n <= FO)%Z -> in_int (2 * Z.of_nat n) = true ->
    requested FO req n -> q_fc q = XR fc -> 0 < fc < 1 / 2 -> cs_ok G db -> q_gain q = XR G -> q_db q = XR db ->
    exists fl, filt_setupN (N := XS) (fam, LSh) FO req q (filt_init t (fam, LSh) FO) = Ok fl tt /\ (stable_filter fl /\ reports fl in_circle) /\
      (forall f, 0 <= f < 1 / 2 -> responds fl f (cshelf2 n G db (Some (tan (PI * f) / tan (PI * fc))))) /\ responds fl (1 / 2) (cshelf2 n G db None).
  Proof.
    intros Hfam Hn HF HI HR EF Hf HO Hq Hd. destruct (tan_half fc Hf) as (C0 & _ & T0). pose proof PI_RGT_0 as HPI.
    destruct (cs_ana fam LSh n FO G db q Hfam eq_refl Hn HF HI HO Hq Hd) as (np & ga & d & ex & HA).
    destruct (cs_finish n G db t (fam, LSh) FO req q (qlp (tan (PI * fc))) 1) as (fl & F1 & F2 & F3); try assumption; [lra| | |].
    - intros f _ [Q1 Q2]. cbn [qlp fst snd] in *. pose proof (sin2_cos2 (PI * f)) as P. unfold Rsqr in P.
      assert (Z : cos (PI * f) = 0) by (apply Rmult_eq_reg_l with (tan (PI * fc)); lra). rewrite Q1, Z in P. lra.
    - assert (HIn : In (fam, LSh) [(Bw, LP); (Ch1, LP); (Ch2, LP); (Bw, LSh); (Ch1, LSh); (Ch2, LSh)]) by (destruct Hfam; subst fam; simpl; auto 10).
      pose proof (lp_setup fam n FO _ _ q fc np ga d ex PI 1 LSh Hn HF EF Hf (csq_good n G db Hn HO) HIn HA ltac:(lra)) as S. cbv zeta in S.
      fold (csqs n G db) in S. unfold qlp in S at 1 2 4 5. cbn [fst snd] in S.
      replace (PI * (PI / (2 * PI))) with (PI / 2) in S by (field; lra). rewrite sin_PI2, cos_PI2, Rmult_0_r in S.
      apply S. apply cs_norm; [exact Hn|exact HO|lra].
    - exists fl. split; [exact F1|]. split; [exact F2|]. split.
      + intros f H. rewrite <- lp_ratio by assumption. apply (F3 f). lra.
      + specialize (F3 (1 / 2) ltac:(lra)). cbn [qlp fst snd] in F3. rewrite half_pi, cos_PI2, Rmult_0_r, ratio_none in F3. exact F3.
  Qed.
  Lemma cs_high fam t n FO req fc G db (q : params XS) : cheb_fam fam -> (1 <= n)%nat -> (Z.of_nat n <= FO)%Z -> in_int (2 * Z.of_nat n) = true ->
    requested FO req n -> q_fc q = XR fc -> 0 < fc < 1 / 2 -> cs_ok G db -> q_gain q = XR G -> q_db q = XR db ->
    exists fl, filt_setupN (N := XS) (fam, HSh) FO req q (filt_init t (fam, HSh) FO) = Ok fl tt /\ (stable_filter fl /\ reports fl in_circle) /\
      (forall f, 0 < f < 1 / 2 -> responds fl f (cshelf2 n G db (Some (tan (PI * fc) / tan (PI * f))))) /\ responds fl 0 (cshelf2 n G db None) /\
      responds fl (1 / 2) (cshelf2 n G db (Some 0)).
  Proof.
    intros Hfam Hn HF HI HR EF Hf HO Hq Hd. destruct (tan_half fc Hf) as (C0 & _ & T0). pose proof PI_RGT_0 as HPI.
    assert (T1 : 0 < 1 / tan (PI * fc)) by (apply Rdiv_lt_0_compat; lra).
    destruct (cs_ana fam HSh n FO G db q Hfam eq_refl Hn HF HI HO Hq Hd) as (np & ga & d & ex & HA).
    destruct (cs_finish n G db t (fam, HSh) FO req q (qhp (1 / tan (PI * fc))) (-1)) as (fl & F1 & F2 & F3); try assumption; [lra| | |].
    - intros f _ [Q1 Q2]. cbn [qhp fst snd] in *. pose proof (sin2_cos2 (PI * f)) as P. unfold Rsqr in P.
      assert (Z : sin (PI * f) = 0) by (apply Rmult_eq_reg_l with (1 / tan (PI * fc)); lra). assert (Z' : cos (PI * f) = 0) by lra. rewrite Z', Z in P. lra.
    - assert (HIn : In (fam, HSh) [(Bw, HP); (Ch1, HP); (Ch2, HP); (Bw, HSh); (Ch1, HSh); (Ch2, HSh)]) by (destruct Hfam; subst fam; simpl; auto 10).
      pose proof (hp_setup fam n FO _ _ q fc np ga d ex PI 1 HSh Hn HF EF Hf (csq_good n G db Hn HO) HIn HA ltac:(lra)) as S. cbv zeta in S.
      fold (csqs n G db) in S. unfold qhp in S at 1 2 4 5. cbn [fst snd] in S.
      replace (PI * ((PI - PI) / (2 * PI))) with 0 in S by (field; lra). rewrite sin_0, cos_0, Rmult_0_r in S.
      apply S. apply cs_norm; [exact Hn|exact HO|lra].
    - exists fl. split; [exact F1|]. split; [exact F2|]. split; [|split].
      + intros f H. specialize (F3 f ltac:(lra)). cbn [qhp fst snd] in F3. destruct (tan_half f H) as (C & S & T').
        rewrite ratio_some in F3 by (apply Rgt_not_eq, Rmult_lt_0_compat; lra).
        replace (- cos (PI * f) / (1 / tan (PI * fc) * sin (PI * f))) with (- (tan (PI * fc) / tan (PI * f))) in F3 by (unfold tan at 2; field; repeat split; lra).
        rewrite cshelf2_opp in F3. exact F3.
      + specialize (F3 0 ltac:(lra)). cbn [qhp fst snd] in F3. rewrite Rmult_0_r, sin_0, Rmult_0_r, ratio_none in F3. exact F3.
      + specialize (F3 (1 / 2) ltac:(lra)). cbn [qhp fst snd] in F3. rewrite half_pi, cos_PI2, sin_PI2 in F3.
        rewrite ratio_some in F3 by (rewrite Rmult_1_r; lra). replace (- 0 / (1 / tan (PI * fc) * 1)) with 0 in F3; [exact F3|]. field. lra.
  Qed.
  Lemma cs_band fam t n FO req fc fw G db (q : params XS) : cheb_fam fam -> (1 <= n)%nat -> (Z.of_nat n <= FO)%Z -> in_int (2 * Z.of_nat n) = true ->
    requested FO req n -> q_fc q = XR fc -> q_fw q = XR fw -> 0 <= fc < 1 / 2 -> cs_ok G db -> q_gain q = XR G -> q_db q = XR db ->
    let w1 := edge_hi fc fw in let w2 := edge_lo fc fw in w2 < w1 ->
    ~ (Nat.odd n = true /\ (1 / tan ((w1 - w2) / 2) = sinh (cs_u n G db) \/ 1 / tan ((w1 - w2) / 2) = sinh (cs_v n G db))) ->
    exists fl, filt_setupN (N := XS) (fam, BSh) FO req q (filt_init t (fam, BSh) FO) = Ok fl tt /\ (stable_filter fl /\ reports fl in_circle) /\
      forall f, 0 <= f <= 1 / 2 -> responds fl f (cshelf2 n G db (bp_W w1 w2 (2 * PI * f))).
  Proof.
    intros Hfam Hn HF HI HR EF EW Hf HO Hq Hd w1 w2 He NE. destruct (edges_in fc fw) as [E1 E2]. fold w1 in E2. fold w2 in E1. pose proof PI_RGT_0 as HPI.
    destruct (edge_facts w1 w2 (conj E1 He) E2) as (C0 & S0 & T0 & A1). set (td := tan ((w1 - w2) / 2)) in *.
    destruct (cs_ana fam BSh n FO G db q Hfam eq_refl Hn HF HI HO Hq Hd) as (np & ga & d & ex & HA).
    set (x0 := fst (bp_xy fc fw (bs_wn fc / (2 * PI)))).
    assert (X0 : x0 <> 0).
    { unfold x0, bp_xy. cbn [fst]. fold w1 w2 td. replace (2 * PI * (bs_wn fc / (2 * PI))) with (bs_wn fc) by (field; lra).
      assert (0 < 1 / td) by (apply Rdiv_lt_0_compat; lra).
      unfold bs_wn. apply Rmult_integral_contrapositive_currified; [lra|]. destruct (Rltb fc (1 / 4)); [rewrite cos_PI|rewrite cos_0]; lra. }
    destruct (cs_finish n G db t (fam, BSh) FO req q (bp_xy fc fw) x0) as (fl & F1 & F2 & F3); try assumption.
    - intros f _. apply (bp_xy_nz w1 w2 (conj E1 He) E2).
    - apply (bsh_setup fam n FO _ _ q fc fw np ga d ex (XR PI) (XR 1)); try assumption.
      + apply csq_good; assumption.
      + fold w1 w2 td. unfold nonexc_sg, sg_of. destruct (Nat.odd n); cbn [olist]; [|constructor]. constructor; [|constructor].
        unfold csq0, cs_q0. cbn [fst snd nonexc RtoC]. split; intros Q; apply NE; (split; [reflexivity|]); [left|right]; lra.
      + apply cs_norm; assumption.
    - exists fl. split; [exact F1|]. split; [exact F2|]. intros f H. rewrite <- bp_ratio by (exact (conj E1 He) || exact E2). apply (F3 f H).
  Qed.
End Setup.

(** ** values of the specification *)
Lemma top2_pos G : 0 < top2 G. Proof. apply exp_pos. Qed.
Lemma edge2_pos G db : 0 < edge2 G db. Proof. apply exp_pos. Qed.
Lemma cs_edge n G db w : cs_ok G db -> cheb n w ^ 2 = 1 -> cshelf2 n G db (Some w) = edge2 G db.
Proof.
  intros H E. cbn [cshelf2]. rewrite E, Rmult_1_r. unfold cs_eps2. pose proof (top2_pos G) as T. pose proof (edge2_pos G db) as B.
  pose proof (Rinv_0_lt_compat _ T) as T'. pose proof (Rinv_0_lt_compat _ B) as B'.
  assert (N1 : / edge2 G db <> 1 /\ / top2 G <> 1) by (destruct (cs_cases G db H) as [[? ?]|[? ?]]; lra).
  replace (edge2 G db) with (/ / edge2 G db) at 5 by (apply Rinv_inv). set (a := / top2 G) in *. set (b := / edge2 G db) in *.
  destruct N1. field. repeat split; try lra. replace (a * (b - 1) + (a - b)) with (b * (a - 1)) by ring. apply Rmult_integral_contrapositive_currified; lra.
Qed.
Lemma cs_top n G db w : cs_ok G db -> cheb n w = 0 -> cshelf2 n G db (Some w) = top2 G.
Proof. intros H E. cbn [cshelf2]. rewrite E. pose proof (top2_pos G). field. lra. Qed.
Lemma cheb_0 n : cheb n 0 ^ 2 = if Nat.odd n then 0 else 1.
Proof.
  rewrite <- cos_PI2 at 1. rewrite cheb_cos. destruct (Nat.odd n) eqn:O.
  - apply Nat.odd_spec in O. destruct O as [k ->]. rewrite plus_INR, mult_INR. replace (INR 2) with 2 by (simpl; ring). replace (INR 1) with 1 by reflexivity.
    replace ((2 * INR k + 1) * (PI / 2)) with (PI / 2 + INR k * PI) by field.
    assert (E : forall k, cos (PI / 2 + INR k * PI) = 0).
    { intros j. induction j as [|j IH]; [simpl; rewrite Rmult_0_l, Rplus_0_r; apply cos_PI2|]. rewrite S_INR.
      replace (PI / 2 + (INR j + 1) * PI) with (PI / 2 + INR j * PI + PI) by ring. rewrite neg_cos, IH. ring. }
    rewrite E. ring.
  - assert (E : Nat.even n = true) by (rewrite <- Nat.negb_odd, O; reflexivity). apply Nat.even_spec in E. destruct E as [k ->].
    rewrite mult_INR. replace (INR 2) with 2 by (simpl; ring). replace (2 * INR k * (PI / 2)) with (INR k * PI) by field.
    assert (F : forall j, cos (INR j * PI) ^ 2 = 1).
    { intros j. induction j as [|j IH]; [simpl; rewrite Rmult_0_l, cos_0; ring|]. rewrite S_INR.
      replace ((INR j + 1) * PI) with (INR j * PI + PI) by ring. rewrite neg_cos. rewrite <- IH. ring. }
    apply F.
Qed.
Lemma cs_dc n G db : cs_ok G db -> cshelf2 n G db (Some 0) = cs_dc2 n G db.
Proof.
  intros H. unfold cs_dc2. pose proof (cheb_0 n) as E. destruct (Nat.odd n).
  - apply cs_top; [exact H|]. simpl in E. nra.
  - apply cs_edge; assumption.
Qed.
(** between edge and top inside the shelf *)
Lemma cs_inside n G db w : cs_ok G db -> Rabs w <= 1 ->
  Rmin (edge2 G db) (top2 G) <= cshelf2 n G db (Some w) <= Rmax (edge2 G db) (top2 G).
Proof.
  intros H Hw. pose proof (cheb_le1 n w Hw) as C1. pose proof (pow2_ge_0 (cheb n w)) as C0. cbn [cshelf2]. set (t := cheb n w ^ 2) in *.
  pose proof (cs_eps2_pos G db H) as EP. pose proof (top2_pos G) as T. pose proof (edge2_pos G db) as B.
  assert (TI : 0 < / top2 G) by (apply Rinv_0_lt_compat; exact T).
  assert (E1 : edge2 G db = (1 + cs_eps2 G db * 1) / (/ top2 G + cs_eps2 G db * 1)).
  { rewrite <- (cs_edge 0 G db 1 H) by (rewrite cheb_1; ring). cbn [cshelf2]. rewrite cheb_1, pow1. reflexivity. }
  assert (E0 : top2 G = (1 + cs_eps2 G db * 0) / (/ top2 G + cs_eps2 G db * 0)) by (field; lra).
  set (e := cs_eps2 G db) in *. set (a := / top2 G) in *.
  assert (M : forall s r, 0 <= s -> 0 <= r -> (1 + e * s) / (a + e * s) <= (1 + e * r) / (a + e * r) <-> (a - 1) * (s - r) <= 0).
  { intros s r Hs Hr. assert (0 <= e * s) by nra. assert (0 <= e * r) by nra.
    assert (Q : (1 + e * r) / (a + e * r) - (1 + e * s) / (a + e * s) = e * ((a - 1) * (r - s)) / ((a + e * r) * (a + e * s))) by (field; split; lra).
    assert (P : 0 < / ((a + e * r) * (a + e * s))) by (apply Rinv_0_lt_compat; apply Rmult_lt_0_compat; lra).
    split; intros Z.
    - assert (0 <= e * ((a - 1) * (r - s)) / ((a + e * r) * (a + e * s))) by lra.
      destruct (Rle_or_lt 0 ((a - 1) * (r - s))); [lra|]. exfalso.
      assert (e * ((a - 1) * (r - s)) < 0) by nra. unfold Rdiv in *. nra.
    - assert (0 <= e * ((a - 1) * (r - s)) / ((a + e * r) * (a + e * s))); [|lra].
      unfold Rdiv. apply Rmult_le_pos; [|lra]. apply Rmult_le_pos; lra. }
  rewrite E1. rewrite E0. destruct (Rle_or_lt 1 a).
  - split.
    + eapply Rle_trans; [apply Rmin_r|]. apply M; nra.
    + eapply Rle_trans; [|apply Rmax_l]. apply M; nra.
  - split.
    + eapply Rle_trans; [apply Rmin_l|]. apply M; nra.
    + eapply Rle_trans; [|apply Rmax_r]. apply M; nra.
Qed.
