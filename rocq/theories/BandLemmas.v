(** Lemmas: band pass and band stop filters. *)
From Coq Require Import ZArith List Bool Reals Lra Lia.
From Coquelicot Require Import Coquelicot.
From Verif Require Import Num Outcome Types Biquad State Cascade Transforms Butterworth Chebyshev PoleFilter Exact RealNum SigSpec ChebSpec BandSpec
  SigProofs StabProofs RespProofs PZSpec PZProofs RBJProofs CoefLemmas BuildProofs PolyProofs MapProofs TransProofs ProtoProofs ProtoBuild
  DesignProofs DesignSpec DesignLemmas DesignFinal BandProofs BandBuild BandSetup.
Import ListNotations.
Local Open Scope R_scope.

(** ** the frequency maps *)
Section Maps.
  Variables (w1 w2 : R).
  Hypothesis H : 0 < w2 < w1.
  Hypothesis H' : w1 < PI.
  Let d := (w1 - w2) / 2. Let m := (w1 + w2) / 2.
  Lemma bp_ratio w : ratio (1 / tan d * (band_a w1 w2 - cos w)) (sin w) = bp_W w1 w2 w.
  Proof.
    destruct (edge_facts w1 w2 H H') as (C0 & S0 & T0 & _). unfold ratio, bp_W. fold d m. fold d in C0, S0, T0. cbv zeta.
    destruct (Req_EM_T (sin w) 0) as [Z|Z]; [reflexivity|]. f_equal. unfold band_a. fold d m. unfold tan. field. repeat split; lra.
  Qed.
  Lemma bs_ratio w : ratio (tan d * sin w) (cos w - band_a w1 w2) = bs_W w1 w2 w.
  Proof.
    destruct (edge_facts w1 w2 H H') as (C0 & S0 & T0 & _). unfold ratio, bs_W. fold d m. fold d in C0, S0, T0. cbv zeta. unfold band_a. fold d m.
    assert (E : cos d * (cos w - cos m / cos d) = cos d * cos w - cos m) by (field; lra).
    destruct (Req_EM_T (cos w - cos m / cos d) 0) as [Z|Z], (Req_EM_T (cos d * cos w) (cos m)) as [Z'|Z'].
    - reflexivity.
    - exfalso. apply Z'. rewrite Z in E. lra.
    - exfalso. apply Z. apply (Rmult_eq_reg_l (cos d)); [|lra]. rewrite E, Z'. ring.
    - f_equal. unfold tan. assert (cos d * cos w - cos m <> 0) by (intros Q; apply Z'; lra). field. repeat split; lra || assumption.
  Qed.
  Lemma sin_edge : 0 < sin w1 /\ 0 < sin w2.
  Proof. split; apply sin_gt_0; lra. Qed.
  Lemma prod_cc x y : cos x * cos y = (cos (x + y) + cos (x - y)) / 2.
  Proof. rewrite cos_plus, cos_minus. field. Qed.
  Lemma prod_ss x y : sin x * sin y = (cos (x - y) - cos (x + y)) / 2.
  Proof. rewrite cos_plus, cos_minus. field. Qed.
  Lemma bp_num w : cos m - cos d * cos w = sin d * sin w -> sin w <> 0 -> bp_W w1 w2 w = Some 1.
  Proof.
    intros E Z. destruct (edge_facts w1 w2 H H') as (C0 & S0 & T0 & _). fold d in C0, S0, T0. unfold bp_W. cbv zeta. fold d m.
    destruct (Req_EM_T (sin w) 0); [contradiction|]. f_equal. rewrite E. field. split; lra.
  Qed.
  Lemma hi_eq : cos m - cos d * cos w1 = sin d * sin w1.
  Proof.
    assert (E : cos (w1 - d) = cos w1 * cos d + sin w1 * sin d) by apply cos_minus. replace (w1 - d) with m in E by (unfold d, m; field). lra.
  Qed.
  Lemma lo_eq : cos m - cos d * cos w2 = - (sin d * sin w2).
  Proof.
    assert (E : cos (w2 + d) = cos w2 * cos d - sin w2 * sin d) by apply cos_plus. replace (w2 + d) with m in E by (unfold d, m; field). lra.
  Qed.
  Lemma bp_W_hi : bp_W w1 w2 w1 = Some 1.
  Proof. pose proof sin_edge. apply bp_num; [apply hi_eq|lra]. Qed.
  Lemma bp_W_lo : bp_W w1 w2 w2 = Some (-1).
  Proof.
    pose proof sin_edge. destruct (edge_facts w1 w2 H H') as (C0 & S0 & T0 & _). fold d in C0, S0, T0. unfold bp_W. cbv zeta. fold d m.
    destruct (Req_EM_T (sin w2) 0); [lra|]. f_equal. rewrite lo_eq. field. split; lra.
  Qed.
  Lemma bp_W_centre : bp_W w1 w2 (centre w1 w2) = Some 0.
  Proof.
    destruct (centre_facts w1 w2 H H') as [K1 K2]. rewrite <- bp_ratio. rewrite K2. assert (0 < sin (centre w1 w2)) by (apply sin_gt_0; lra).
    rewrite ratio_some by lra. f_equal. field. destruct (edge_facts w1 w2 H H') as (C0 & S0 & T0 & _). fold d in T0. split; lra.
  Qed.
  Lemma bp_W_end w : sin w = 0 -> bp_W w1 w2 w = None.
  Proof. intros E. unfold bp_W. cbv zeta. destruct (Req_EM_T (sin w) 0); [reflexivity|contradiction]. Qed.
  Lemma bp_W_in w : w2 <= w <= w1 -> exists r, bp_W w1 w2 w = Some r /\ -1 <= r <= 1.
  Proof.
    intros Hw. destruct (edge_facts w1 w2 H H') as (C0 & S0 & T0 & _). fold d in C0, S0, T0.
    assert (SW : 0 < sin w) by (apply sin_gt_0; lra). unfold bp_W. cbv zeta. fold d m. destruct (Req_EM_T (sin w) 0); [lra|].
    eexists. split; [reflexivity|].
    assert (P : 0 < sin d * sin w) by (apply Rmult_lt_0_compat; assumption).
    assert (U : cos m <= cos (w - d)).
    { destruct (Rle_dec 0 (w - d)).
      - apply cos_decr_1; unfold d, m in *; lra.
      - rewrite <- (cos_neg (w - d)). apply cos_decr_1; unfold d, m in *; lra. }
    assert (L : cos (w + d) <= cos m).
    { destruct (Rle_dec (w + d) PI).
      - apply cos_decr_1; unfold d, m in *; lra.
      - replace (cos (w + d)) with (cos (2 * PI - (w + d))) by (rewrite cos_minus, cos_2PI, sin_2PI; ring). apply cos_decr_1; unfold d, m in *; lra. }
    rewrite cos_minus in U. rewrite cos_plus in L. split.
    - apply (Rmult_le_reg_r (sin d * sin w)); [exact P|]. unfold Rdiv. rewrite Rmult_assoc, Rinv_l by lra. lra.
    - apply (Rmult_le_reg_r (sin d * sin w)); [exact P|]. unfold Rdiv. rewrite Rmult_assoc, Rinv_l by lra. lra.
  Qed.
  Lemma bs_W_hi : bs_W w1 w2 w1 = Some (-1).
  Proof.
    pose proof sin_edge. destruct (edge_facts w1 w2 H H') as (C0 & S0 & T0 & _). fold d in C0, S0, T0. unfold bs_W. cbv zeta. fold d m.
    pose proof hi_eq as E. assert (P : 0 < sin d * sin w1) by (apply Rmult_lt_0_compat; lra).
    destruct (Req_EM_T (cos d * cos w1) (cos m)); [lra|]. f_equal. replace (cos d * cos w1 - cos m) with (- (sin d * sin w1)) by lra. field. split; lra.
  Qed.
  Lemma bs_W_lo : bs_W w1 w2 w2 = Some 1.
  Proof.
    pose proof sin_edge. destruct (edge_facts w1 w2 H H') as (C0 & S0 & T0 & _). fold d in C0, S0, T0. unfold bs_W. cbv zeta. fold d m.
    pose proof lo_eq as E. assert (P : 0 < sin d * sin w2) by (apply Rmult_lt_0_compat; lra).
    destruct (Req_EM_T (cos d * cos w2) (cos m)); [lra|]. f_equal. replace (cos d * cos w2 - cos m) with (sin d * sin w2) by lra. field. split; lra.
  Qed.
  Lemma bs_W_centre : bs_W w1 w2 (centre w1 w2) = None.
  Proof.
    destruct (centre_facts w1 w2 H H') as [K1 K2]. rewrite <- bs_ratio. rewrite K2. replace (band_a w1 w2 - band_a w1 w2) with 0 by ring. apply ratio_none.
  Qed.
  Lemma bs_W_end w : sin w = 0 -> bs_W w1 w2 w = Some 0.
  Proof.
    intros E. destruct (edge_facts w1 w2 H H') as (C0 & S0 & T0 & A1). rewrite <- bs_ratio, E, ratio_some.
    - f_equal. field. intros Q. pose proof (sin2_cos2 w) as P. unfold Rsqr in P. rewrite E in P. replace (cos w) with (band_a w1 w2) in P by lra. nra.
    - intros Q. pose proof (sin2_cos2 w) as P. unfold Rsqr in P. rewrite E in P. replace (cos w) with (band_a w1 w2) in P by lra. nra.
  Qed.
  Lemma bs_W_out w : 0 <= w <= w2 \/ w1 <= w <= PI -> exists r, bs_W w1 w2 w = Some r /\ -1 <= r <= 1.
  Proof.
    intros Hw. destruct (edge_facts w1 w2 H H') as (C0 & S0 & T0 & _). fold d in C0, S0, T0.
    assert (SW : 0 <= sin w) by (apply sin_ge_0; lra). pose proof sin_edge as [SE1 SE2].
    unfold bs_W. cbv zeta. fold d m.
    assert (P : 0 <= sin d * sin w) by (apply Rmult_le_pos; lra).
    destruct Hw as [Hw|Hw].
    - assert (L : cos m <= cos (w + d)) by (apply cos_decr_1; unfold d, m in *; lra). rewrite cos_plus in L.
      assert (C : cos m < cos d * cos w).
      { destruct (Req_dec w w2) as [->|N]; [pose proof lo_eq; assert (0 < sin d * sin w2) by (apply Rmult_lt_0_compat; lra); lra|].
        assert (cos m < cos (w + d)) by (apply cos_decreasing_1; unfold d, m in *; lra). rewrite cos_plus in H0. lra. }
      destruct (Req_EM_T (cos d * cos w) (cos m)); [lra|]. eexists. split; [reflexivity|]. split.
      + apply (Rmult_le_reg_r (cos d * cos w - cos m)); [lra|]. unfold Rdiv. rewrite Rmult_assoc, Rinv_l by lra. lra.
      + apply (Rmult_le_reg_r (cos d * cos w - cos m)); [lra|]. unfold Rdiv. rewrite Rmult_assoc, Rinv_l by lra. lra.
    - assert (L : cos (w - d) <= cos m) by (apply cos_decr_1; unfold d, m in *; lra). rewrite cos_minus in L.
      assert (C : cos d * cos w < cos m).
      { destruct (Req_dec w w1) as [->|N]; [pose proof hi_eq; assert (0 < sin d * sin w1) by (apply Rmult_lt_0_compat; lra); lra|].
        assert (cos (w - d) < cos m) by (apply cos_decreasing_1; unfold d, m in *; lra). rewrite cos_minus in H0. lra. }
      destruct (Req_EM_T (cos d * cos w) (cos m)); [lra|]. eexists. split; [reflexivity|].
      replace (sin d * sin w / (cos d * cos w - cos m)) with (- (sin d * sin w / (cos m - cos d * cos w))) by (field; lra).
      assert (0 <= sin d * sin w / (cos m - cos d * cos w) <= 1); [|lra]. split.
      + apply Rmult_le_pos; [lra|]. left. apply Rinv_0_lt_compat. lra.
      + apply (Rmult_le_reg_r (cos m - cos d * cos w)); [lra|]. unfold Rdiv. rewrite Rmult_assoc, Rinv_l by lra. lra.
  Qed.
  Lemma bp_xy_nz w : ~ (1 / tan d * (band_a w1 w2 - cos w) = 0 /\ sin w = 0).
  Proof.
    intros [Q1 Q2]. destruct (edge_facts w1 w2 H H') as (C0 & S0 & T0 & A1). fold d in T0. pose proof (sin2_cos2 w) as P. unfold Rsqr in P. rewrite Q2 in P.
    apply Rmult_integral in Q1. destruct Q1 as [Q1|Q1].
    - assert (0 < 1 / tan d) by (apply Rdiv_lt_0_compat; lra). lra.
    - replace (cos w) with (band_a w1 w2) in P by lra. nra.
  Qed.
  Lemma bs_xy_nz w : ~ (tan d * sin w = 0 /\ cos w - band_a w1 w2 = 0).
  Proof.
    intros [Q1 Q2]. destruct (edge_facts w1 w2 H H') as (C0 & S0 & T0 & A1). fold d in T0. pose proof (sin2_cos2 w) as P. unfold Rsqr in P.
    apply Rmult_integral in Q1. destruct Q1 as [Q1|Q1]; [lra|]. rewrite Q1 in P. replace (cos w) with (band_a w1 w2) in P by lra. nra.
  Qed.
End Maps.

Lemma fq0_real fam n db : fst (fst (fq0 fam n db)) = - real_pole fam n db /\ snd (fq0 fam n db) = None.
Proof.
  destruct fam; cbn [fq0 bw_q0 c1_q0 c2_q0 fst snd real_pole RtoC]; (split; [|reflexivity]).
  - reflexivity.
  - reflexivity.
  - unfold fv, ch_v, c2_eps. rewrite Rinv_opp. f_equal.
    replace (1 / (1 / sqrt (Rpower 10 (db / 10) - 1))) with (sqrt (Rpower 10 (db / 10) - 1)).
    + unfold Rdiv at 3. rewrite Rmult_1_l. reflexivity.
    + unfold Rdiv. rewrite !Rmult_1_l, Rinv_inv. reflexivity.
Qed.
Lemma nonexc_iff fam n db b : nonexc_sg b (sg_of n (fq0 fam n db)) <-> ~ (Nat.odd n = true /\ b = real_pole fam n db).
Proof.
  unfold nonexc_sg, sg_of. destruct (fq0_real fam n db) as [E1 E2]. destruct (Nat.odd n); cbn [olist].
  - split.
    + intros F [_ Q]. inversion F as [|? ? [N1 _] _]; subst. cbn in N1. rewrite E1 in N1. lra.
    + intros Q. constructor; [|constructor]. rewrite E2. cbn. split; [|exact I]. rewrite E1. intros Z. apply Q. split; [reflexivity|lra].
  - split; [|constructor]. intros _ [Q _]. discriminate.
Qed.

Section BandFinal.
  Context {strict : bool}.
  Notation XS := (X strict).
  Local Notation alay := (TransProofs.alay (strict := strict)).

  Lemma f_bp fam t n FO req fc fw db (q : params XS) : (1 <= n)%nat -> (Z.of_nat n <= FO)%Z -> in_int (2 * Z.of_nat n) = true ->
    requested FO req n -> q_fc q = XR fc -> q_fw q = XR fw -> 0 <= fc < 1 / 2 -> db_ok fam db -> pmdb fam db q ->
    let w1 := edge_hi fc fw in let w2 := edge_lo fc fw in w2 < w1 ->
    ~ (Nat.odd n = true /\ 1 / tan ((w1 - w2) / 2) = real_pole fam n db) ->
    exists fl, filt_setupN (N := XS) (fam, BP) FO req q (filt_init t (fam, BP) FO) = Ok fl tt /\ (stable_filter fl /\ reports fl on_circle) /\
      forall f, 0 <= f <= 1 / 2 -> responds fl f (gain2 fam n db (bp_W w1 w2 (2 * PI * f))).
  Proof.
    intros Hn HF HI HR EF EW Hf Hd Hq w1 w2 He NE. destruct (edges_in fc fw) as [E1 E2]. fold w1 in E2. fold w2 in E1.
    destruct (f_ana fam BP n FO db q eq_refl Hn HF HI Hd Hq) as (np & ga & d & ex & HA).
    destruct (centre_facts w1 w2 ltac:(lra) E2) as (K1 & K2). assert (SC : 0 < sin (centre w1 w2)) by (apply sin_gt_0; lra).
    destruct (finish fam n db t (fam, BP) FO req q (bp_xy fc fw) (sin (centre w1 w2))) as (fl & F1 & F2 & F3); try assumption; [lra| | |].
    - intros f _. apply (bp_xy_nz w1 w2 (conj E1 He) E2).
    - apply (bp_setup fam n FO _ _ q fc fw np ga d ex (fg fam n db)); try assumption.
      + apply f_good; assumption.
      + apply nonexc_iff. exact NE.
      + apply f_nums; try assumption. fold w1 w2. lra.
    - exists fl. split; [exact F1|]. split; [exact F2|]. intros f H. rewrite <- bp_ratio by (exact (conj E1 He) || exact E2). apply (F3 f H).
  Qed.
  Lemma f_bs fam t n FO req fc fw db (q : params XS) : (1 <= n)%nat -> (Z.of_nat n <= FO)%Z -> in_int (2 * Z.of_nat n) = true ->
    requested FO req n -> q_fc q = XR fc -> q_fw q = XR fw -> 0 <= fc < 1 / 2 -> db_ok fam db -> pmdb fam db q ->
    let w1 := edge_hi fc fw in let w2 := edge_lo fc fw in w2 < w1 ->
    ~ (Nat.odd n = true /\ tan ((w1 - w2) / 2) = real_pole fam n db) ->
    exists fl, filt_setupN (N := XS) (fam, BS) FO req q (filt_init t (fam, BS) FO) = Ok fl tt /\ (stable_filter fl /\ reports fl on_circle) /\
      forall f, 0 <= f <= 1 / 2 -> responds fl f (gain2 fam n db (bs_W w1 w2 (2 * PI * f))).
  Proof.
    intros Hn HF HI HR EF EW Hf Hd Hq w1 w2 He NE. destruct (edges_in fc fw) as [E1 E2]. fold w1 in E2. fold w2 in E1.
    destruct (f_ana fam BS n FO db q eq_refl Hn HF HI Hd Hq) as (np & ga & d & ex & HA).
    destruct (edge_facts w1 w2 ltac:(lra) E2) as (C0 & S0 & T0 & A1).
    assert (Y0 : cos (bs_wn fc) - band_a w1 w2 <> 0).
    { unfold bs_wn. destruct (Rltb fc (1 / 4)); [rewrite cos_PI|rewrite cos_0]; lra. }
    destruct (finish fam n db t (fam, BS) FO req q (bs_xy fc fw) (cos (bs_wn fc) - band_a w1 w2)) as (fl & F1 & F2 & F3); try assumption; [| |].
    - intros f _. apply (bs_xy_nz w1 w2 (conj E1 He) E2).
    - apply (bs_setup fam n FO _ _ q fc fw np ga d ex (XR 0) (fg fam n db)); try assumption.
      + apply f_good; assumption.
      + apply nonexc_iff. exact NE.
      + apply f_nums; try assumption.
    - exists fl. split; [exact F1|]. split; [exact F2|]. intros f H. rewrite <- bs_ratio by (exact (conj E1 He) || exact E2). apply (F3 f H).
  Qed.

  (** the exceptional widths *)
  Lemma setup_throws t k FO req n q ana e0 s0 : (Z.of_nat n <= FO)%Z -> requested FO req n ->
    ana_design (N := XS) k (Z.of_nat n) q (pf_ana (pf_init k FO)) = Ok ana tt ->
    dig_transform (N := XS) (snd k) q (p_lay ana) (pf_dig (pf_init k FO)) = Throw e0 s0 ->
    exists e fl, filt_setupN (N := XS) k FO req q (filt_init t k FO) = Throw e fl.
  Proof.
    intros HF HR HA HD.
    assert (B : exists e p, base_setup (N := XS) k (Z.of_nat n) q (pf_init k FO) = Throw e p).
    { unfold base_setup. unfold bind at 1. unfold on_ana, zoom. rewrite HA. unfold bind at 1, get at 1. cbn [pf_ana pf_cas pf_dig].
      unfold bind at 1. unfold on_dig, zoom. cbn [pf_dig pf_cas pf_ana]. rewrite HD. do 2 eexists. reflexivity. }
    destruct B as (e & p & B). unfold filt_setupN, on_pf, zoom, filt_init. cbn [fl_pf fl_states].
    destruct req as [o|]; cbn [requested] in HR; subst; unfold setupN.
    - replace (FO <? Z.of_nat n)%Z with false by (symmetry; apply Z.ltb_ge; lia). unfold throw_if. unfold bind at 1, ret at 1. rewrite B. do 2 eexists. reflexivity.
    - rewrite B. do 2 eexists. reflexivity.
  Qed.
  Lemma f_bp_throws fam t n FO req fc fw db (q : params XS) : (1 <= n)%nat -> (Z.of_nat n <= FO)%Z -> in_int (2 * Z.of_nat n) = true ->
    requested FO req n -> q_fc q = XR fc -> q_fw q = XR fw -> 0 <= fc < 1 / 2 -> db_ok fam db -> pmdb fam db q ->
    let w1 := edge_hi fc fw in let w2 := edge_lo fc fw in w2 < w1 ->
    Nat.odd n = true -> 1 / tan ((w1 - w2) / 2) = real_pole fam n db ->
    exists e fl, filt_setupN (N := XS) (fam, BP) FO req q (filt_init t (fam, BP) FO) = Throw e fl.
  Proof.
    intros Hn HF HI HR EF EW Hf Hd Hq w1 w2 He HO HB.
    destruct (f_ana fam BP n FO db q eq_refl Hn HF HI Hd Hq) as (np & ga & d & ex & HA). pose proof (f_good fam n db Hn Hd) as G.
    assert (NE : ~ nonexc_sg (1 / tan ((w1 - w2) / 2)) (sg_of n (fq0 fam n db))) by (intros Q; apply nonexc_iff in Q; apply Q; auto).
    destruct (sizes2 n FO Hn HF) as (S1 & S2). pose proof (pts_num2 n (fq fam n db) (fq0 fam n db)) as PLn.
    unfold sg_of in *. rewrite HO in *. cbn [olist length] in PLn.
    destruct (BandPass_throws (strict := strict) fc fw Hf He (pts_of n (fq fam n db)) (fq0 fam n db) FO ex (XR 0) (XR (fg fam n db)) 0 (FO * 2) (layout_storage (FO * 2)) (n0 (N := XS)) (n1 (N := XS)) G
      ltac:(rewrite PLn; unfold layout_storage; rewrite repeat_length; exact S2) NE) as (e & s & TH).
    eapply (setup_throws t (fam, BP) FO req n q); [exact HF|exact HR|exact HA|]. cbn [snd p_lay dig_transform]. rewrite EF, EW. exact TH.
  Qed.
  Lemma f_bs_throws fam t n FO req fc fw db (q : params XS) : (1 <= n)%nat -> (Z.of_nat n <= FO)%Z -> in_int (2 * Z.of_nat n) = true ->
    requested FO req n -> q_fc q = XR fc -> q_fw q = XR fw -> 0 <= fc < 1 / 2 -> db_ok fam db -> pmdb fam db q ->
    let w1 := edge_hi fc fw in let w2 := edge_lo fc fw in w2 < w1 ->
    Nat.odd n = true -> tan ((w1 - w2) / 2) = real_pole fam n db ->
    exists e fl, filt_setupN (N := XS) (fam, BS) FO req q (filt_init t (fam, BS) FO) = Throw e fl.
  Proof.
    intros Hn HF HI HR EF EW Hf Hd Hq w1 w2 He HO HB.
    destruct (f_ana fam BS n FO db q eq_refl Hn HF HI Hd Hq) as (np & ga & d & ex & HA). pose proof (f_good fam n db Hn Hd) as G.
    assert (NE : ~ nonexc_sg (tan ((w1 - w2) / 2)) (sg_of n (fq0 fam n db))) by (intros Q; apply nonexc_iff in Q; apply Q; auto).
    destruct (sizes2 n FO Hn HF) as (S1 & S2). pose proof (pts_num2 n (fq fam n db) (fq0 fam n db)) as PLn.
    unfold sg_of in *. rewrite HO in *. cbn [olist length] in PLn.
    destruct (BandStop_throws (strict := strict) fc fw Hf He (pts_of n (fq fam n db)) (fq0 fam n db) FO ex (XR 0) (XR (fg fam n db)) 0 (FO * 2) (layout_storage (FO * 2)) (n0 (N := XS)) (n1 (N := XS)) G
      ltac:(rewrite PLn; unfold layout_storage; rewrite repeat_length; exact S2) NE) as (e & s & TH).
    eapply (setup_throws t (fam, BS) FO req n q); [exact HF|exact HR|exact HA|]. cbn [snd p_lay dig_transform]. rewrite EF, EW. exact TH.
  Qed.
End BandFinal.
