(** Lemmas: Chebyshev shelves, final forms; the ripple not below the gain. *)
From Coq Require Import ZArith List Bool Reals Lra Lia.
From Coquelicot Require Import Coquelicot.
From Verif Require Import Num Outcome Types Biquad State Cascade Transforms Butterworth Chebyshev PoleFilter Exact RealNum SigSpec ChebSpec BandSpec ChShelfSpec
  SigProofs StabProofs RespProofs PZSpec PZProofs RBJProofs CoefLemmas BuildProofs PolyProofs MapProofs TransProofs ProtoProofs ProtoBuild
  DesignProofs DesignSpec DesignLemmas DesignFinal BandProofs BandBuild BandSetup BandLemmas BandFinal ChShelfLemmas ChShelfSetup.
Import ListNotations.
Local Open Scope R_scope.

Section Final.
  Context {strict : bool}.
  Notation XS := (X strict).
  Lemma tan_mono f fc : 0 <= f <= fc -> fc < 1 / 2 -> 0 <= tan (PI * f) <= tan (PI * fc).
  Proof.
    intros H H2. pose proof PI_RGT_0 as HPI.
    assert (T0 : 0 <= tan (PI * f)).
    { destruct (Req_dec f 0) as [->|Z]; [rewrite Rmult_0_r, tan_0; lra|]. left. apply tan_gt_0; nra. }
    split; [exact T0|]. destruct (Req_dec f fc) as [->|Z]; [lra|]. left. apply tan_increasing; nra.
  Qed.
  Lemma c46_low fam t n FO req fc G db (q : params XS) : fam = Ch1 \/ fam = Ch2 -> (1 <= n)%nat -> (Z.of_nat n <= FO)%Z -> in_int (2 * Z.of_nat n) = true ->
    requested FO req n -> q_fc q = XR fc -> in_range LSh fc 0 -> 0 < db < Rabs G -> q_gain q = XR G -> q_db q = XR db ->
    exists fl, filt_setupN (N := XS) (fam, LSh) FO req q (filt_init t (fam, LSh) FO) = Ok fl tt /\ stable_filter fl /\
      (forall f, 0 <= f < 1 / 2 -> responds fl f (cshelf2 n G db (Some (tan (PI * f) / tan (PI * fc))))) /\
      responds fl 0 (cs_dc2 n G db) /\ responds fl fc (edge2 G db) /\ responds fl (1 / 2) 1 /\
      (forall f, 0 <= f <= fc -> exists m, responds fl f m /\ Rmin (edge2 G db) (top2 G) <= m <= Rmax (edge2 G db) (top2 G)).
  Proof.
    intros Hfam Hn HF HI HR EF Hf HO Hq Hd. cbn [in_range] in Hf.
    destruct (cs_low fam t n FO req fc G db q Hfam Hn HF HI HR EF Hf HO Hq Hd) as (fl & F1 & [F2 _] & F3 & F4).
    destruct (tan_half fc Hf) as (_ & _ & T0).
    exists fl. split; [exact F1|]. split; [exact F2|]. split; [exact F3|]. split; [|split; [|split]].
    - specialize (F3 0 ltac:(lra)). rewrite Rmult_0_r, tan_0 in F3. unfold Rdiv in F3. rewrite Rmult_0_l, cs_dc in F3 by exact HO. exact F3.
    - specialize (F3 fc ltac:(lra)). replace (tan (PI * fc) / tan (PI * fc)) with 1 in F3 by (field; lra).
      rewrite cs_edge in F3; [exact F3|exact HO|]. rewrite cheb_1. ring.
    - exact F4.
    - intros f H. pose proof (tan_mono f fc H ltac:(lra)) as M. eexists. split; [apply F3; lra|]. apply cs_inside; [exact HO|].
      assert (0 < / tan (PI * fc)) by (apply Rinv_0_lt_compat; exact T0). rewrite Rabs_right; unfold Rdiv; [|nra].
      apply (Rmult_le_reg_r (tan (PI * fc))); [exact T0|]. rewrite Rmult_assoc, Rinv_l by lra. lra.
  Qed.
  Lemma c46_high fam t n FO req fc G db (q : params XS) : fam = Ch1 \/ fam = Ch2 -> (1 <= n)%nat -> (Z.of_nat n <= FO)%Z -> in_int (2 * Z.of_nat n) = true ->
    requested FO req n -> q_fc q = XR fc -> in_range HSh fc 0 -> 0 < db < Rabs G -> q_gain q = XR G -> q_db q = XR db ->
    exists fl, filt_setupN (N := XS) (fam, HSh) FO req q (filt_init t (fam, HSh) FO) = Ok fl tt /\ stable_filter fl /\
      (forall f, 0 < f < 1 / 2 -> responds fl f (cshelf2 n G db (Some (tan (PI * fc) / tan (PI * f))))) /\
      responds fl 0 1 /\ responds fl fc (edge2 G db) /\ responds fl (1 / 2) (cs_dc2 n G db) /\
      (forall f, fc <= f <= 1 / 2 -> exists m, responds fl f m /\ Rmin (edge2 G db) (top2 G) <= m <= Rmax (edge2 G db) (top2 G)).
  Proof.
    intros Hfam Hn HF HI HR EF Hf HO Hq Hd. cbn [in_range] in Hf.
    destruct (cs_high fam t n FO req fc G db q Hfam Hn HF HI HR EF Hf HO Hq Hd) as (fl & F1 & [F2 _] & F3 & F4 & F5).
    destruct (tan_half fc Hf) as (_ & _ & T0).
    assert (D : responds fl (1 / 2) (cs_dc2 n G db)) by (rewrite cs_dc in F5 by exact HO; exact F5).
    exists fl. split; [exact F1|]. split; [exact F2|]. split; [exact F3|]. split; [|split; [|split]].
    - exact F4.
    - specialize (F3 fc Hf). replace (tan (PI * fc) / tan (PI * fc)) with 1 in F3 by (field; lra).
      rewrite cs_edge in F3; [exact F3|exact HO|]. rewrite cheb_1. ring.
    - exact D.
    - intros f [H1 H2]. destruct H2 as [H2| ->].
      + assert (Hf' : 0 < f < 1 / 2) by lra. destruct (tan_half f Hf') as (_ & _ & T1). pose proof (tan_mono fc f ltac:(lra) H2) as M.
        eexists. split; [apply F3; exact Hf'|]. apply cs_inside; [exact HO|].
        assert (0 < / tan (PI * f)) by (apply Rinv_0_lt_compat; exact T1). rewrite Rabs_right; unfold Rdiv; [|nra].
        apply (Rmult_le_reg_r (tan (PI * f))); [exact T1|]. rewrite Rmult_assoc, Rinv_l by lra. lra.
      + eexists. split; [exact F5|]. apply cs_inside; [exact HO|]. rewrite Rabs_R0. lra.
  Qed.
  Lemma real_pole_eq n G db : cs_ok G db -> cs_real_pole n G db = sinh (cs_u n G db).
  Proof.
    intros H. unfold cs_real_pole, cs_u. do 3 f_equal. pose proof (cs_e_pos G db H) as EP. pose proof (rp_pos (- G / 20)) as GP.
    unfold top2. rewrite cs_inv, <- (cs_e_sq G db H).
    replace (Rpower 10 (- G / 20) * Rpower 10 (- G / 20) / (cs_e G db * cs_e G db)) with (Rpower 10 (- G / 20) / cs_e G db * (Rpower 10 (- G / 20) / cs_e G db)) by (field; lra).
    apply sqrt_square. left. apply Rdiv_lt_0_compat; assumption.
  Qed.
  Lemma real_zero_eq n G db : cs_ok G db -> cs_real_zero n G db = sinh (cs_v n G db).
  Proof.
    intros H. unfold cs_real_zero, cs_v. do 3 f_equal. pose proof (cs_e_pos G db H) as EP.
    rewrite <- (cs_e_sq G db H). replace (/ (cs_e G db * cs_e G db)) with (1 / cs_e G db * (1 / cs_e G db)) by (field; lra).
    apply sqrt_square. left. apply Rdiv_lt_0_compat; lra.
  Qed.
  Lemma c46_band fam t n FO req fc fw G db (q : params XS) : fam = Ch1 \/ fam = Ch2 -> (1 <= n)%nat -> (Z.of_nat n <= FO)%Z -> in_int (2 * Z.of_nat n) = true ->
    requested FO req n -> q_fc q = XR fc -> q_fw q = XR fw -> in_range BSh fc fw -> 0 < db < Rabs G -> q_gain q = XR G -> q_db q = XR db ->
    let w1 := edge_hi fc fw in let w2 := edge_lo fc fw in
    ~ (Nat.odd n = true /\ (1 / tan ((w1 - w2) / 2) = cs_real_pole n G db \/ 1 / tan ((w1 - w2) / 2) = cs_real_zero n G db)) ->
    exists fl, filt_setupN (N := XS) (fam, BSh) FO req q (filt_init t (fam, BSh) FO) = Ok fl tt /\ stable_filter fl /\
      (forall f, 0 <= f <= 1 / 2 -> responds fl f (cshelf2 n G db (bp_W w1 w2 (2 * PI * f)))) /\
      responds fl (centre w1 w2 / (2 * PI)) (cs_dc2 n G db) /\
      responds fl (w1 / (2 * PI)) (edge2 G db) /\ responds fl (w2 / (2 * PI)) (edge2 G db) /\
      responds fl 0 1 /\ responds fl (1 / 2) 1 /\
      (forall f, w2 <= 2 * PI * f <= w1 -> exists m, responds fl f m /\ Rmin (edge2 G db) (top2 G) <= m <= Rmax (edge2 G db) (top2 G)).
  Proof.
    intros Hfam Hn HF HI HR EF EW [Hf He] HO Hq Hd w1 w2 NE.
    destruct (cs_band fam t n FO req fc fw G db q Hfam Hn HF HI HR EF EW Hf HO Hq Hd He) as (fl & F1 & [F2 _] & F3).
    { rewrite <- real_pole_eq, <- real_zero_eq by exact HO. exact NE. }
    fold w1 w2 in F3. destruct (edges_in fc fw) as [E1 E2]. fold w1 in E2. fold w2 in E1. fold w1 w2 in He. pose proof PI_RGT_0 as HPI.
    destruct (centre_facts w1 w2 (conj E1 He) E2) as (K1 & _). pose proof (conj E1 He) as H.
    exists fl. split; [exact F1|]. split; [exact F2|]. split; [exact F3|]. split; [|split; [|split; [|split; [|split]]]].
    - specialize (F3 (centre w1 w2 / (2 * PI)) (ang_in (centre w1 w2) ltac:(lra))). rewrite ang, bp_W_centre, cs_dc in F3 by (auto || lra). exact F3.
    - specialize (F3 (w1 / (2 * PI)) (ang_in w1 ltac:(lra))). rewrite ang, bp_W_hi in F3 by (auto || lra).
      rewrite cs_edge in F3; [exact F3|exact HO|rewrite cheb_1; ring].
    - specialize (F3 (w2 / (2 * PI)) (ang_in w2 ltac:(lra))). rewrite ang, bp_W_lo in F3 by (auto || lra).
      rewrite cs_edge in F3; [exact F3|exact HO|]. replace (-1) with (- (1)) by ring. rewrite cheb_opp, cheb_1. ring.
    - specialize (F3 0 ltac:(lra)). rewrite Rmult_0_r, bp_W_end in F3 by (auto using sin_0 || lra). exact F3.
    - specialize (F3 (1 / 2) ltac:(lra)). replace (2 * PI * (1 / 2)) with PI in F3 by field. rewrite bp_W_end in F3 by (auto using sin_PI || lra). exact F3.
    - intros f Q. assert (H0 : 0 <= f <= 1 / 2) by (apply f_in; lra). specialize (F3 f H0).
      destruct (bp_W_in w1 w2 H E2 (2 * PI * f) ltac:(lra)) as (r & ER & B). rewrite ER in F3. eexists. split; [exact F3|]. apply cs_inside; [exact HO|]. apply Rabs_le. exact B.
  Qed.

  (** ** ripple at least as large as the gain, attenuating shelf *)
  Definition big_g (G : R) : R := Rpower 10 (- G / 20).
  Definition big_B (G : R) : R := big_g G / (big_g G - 1) + sqrt (1 + 1 / ((big_g G - 1) * (big_g G - 1))).
  Lemma big_g_gt G : G < 0 -> 1 < big_g G.
  Proof. intros H. unfold big_g. rewrite <- (Rpower_O 10) at 1 by lra. apply rp_inc. lra. Qed.
  Lemma big_consts n G db : (0 < n)%nat -> G < 0 -> - G <= db ->
    consts_are (strict := strict) n G db (ln (big_B G) / INR n) (arcsinh (1 / (big_g G - 1)) / INR n).
  Proof.
    intros Hn HG HD. pose proof (big_g_gt G HG) as G1. assert (NI : 0 < INR n) by (apply lt_0_INR; lia). unfold consts_are.
    unfold ls_consts. cbv zeta. change (nopp XS (XR G)) with (XR (- G) : T XS).
    assert (AB : nabs XS (XR (- G) : T XS) = (XR (- G) : T XS)) by (cbn; rewrite Rabs_right by lra; reflexivity).
    rewrite AB.
    assert (GE : ngeb (N := XS) (XR db) (XR (- G)) = true).
    { unfold ngeb. cbn [X nleb]. unfold xleb, xltb, xeqb. unfold Rltb. destruct (Rlt_dec (- G) db); [reflexivity|]. destruct (Req_EM_T (- G) db); [reflexivity|lra]. }
    rewrite GE.
    assert (NL : nltb XS (XR (- G) : T XS) (nofZ XS 0) = false) by (cbn; apply rltb_false; lra).
    rewrite NL. cbn [X nofZ nsub ndiv npow xsub]. rewrite !(xdiv_r _ 20) by lra.
    replace ((- G - - G) / 20) with 0 by field. rewrite !(xpow_pos 10) by lra. rewrite Rpower_O by lra.
    assert (NE : nneqb (N := XS) (XR 1) (XR 1) = false) by (unfold nneqb; cbn; destruct (Req_EM_T 1 1); [reflexivity|lra]).
    rewrite NE. fold (big_g G). rewrite <- (INR_IZR_INZ n). rewrite (xdiv_r 1 (INR n)) by lra. rewrite (xpow_pos 1) by lra.
    replace (Rpower 1 (1 / INR n)) with 1 by (unfold Rpower; rewrite ln_1, Rmult_0_r, exp_0; reflexivity).
    set (e := big_g G - 1). assert (E0 : 0 < e) by (unfold e; lra).
    cbn [nsqrt nmul nadd ndiv nsub X xmul xadd xsub]. fold e.
    rewrite !(xdiv_r _ e) by lra. rewrite (xdiv_r 1 (e * e)) by nra. cbn [xadd].
    assert (P0 : 0 < 1 / (e * e)) by (apply Rdiv_lt_0_compat; nra). rewrite xsqrt_r by lra. cbn [xmul xadd].
    assert (P1 : 0 < big_g G / e) by (apply Rdiv_lt_0_compat; lra). assert (P2 : 0 < 1 / e) by (apply Rdiv_lt_0_compat; lra).
    pose proof (sqrt_pos (1 + 1 / (e * e))) as P4. rewrite Rmult_1_l.
    rewrite !xpow_pos by lra. rewrite (xdiv_r _ 1) by lra.
    cbn [nlog X]. rewrite !xlog_r by (try (apply Rdiv_lt_0_compat; [|lra]); apply exp_pos).
    rewrite Rdiv_1, !ln_root by (assumption || lra). unfold big_B. fold e.
    replace (ln (1 / e + sqrt (1 + 1 / (e * e))) / INR n) with (arcsinh (1 / e) / INR n).
    2:{ unfold arcsinh. do 4 f_equal. field. lra. }
    reflexivity.
  Qed.
  Lemma big_B_gt G : G < 0 -> 1 < big_B G.
  Proof.
    intros H. pose proof (big_g_gt G H). unfold big_B. set (e := big_g G - 1). assert (0 < e) by (unfold e; lra).
    pose proof (sqrt_pos (1 + 1 / (e * e))). assert (1 < big_g G / e); [|lra]. apply (Rmult_lt_reg_r e); [lra|].
    unfold Rdiv. rewrite Rmult_assoc, Rinv_l by lra. unfold e. lra.
  Qed.
  (** sinh (ln B) < g / (g - 1) *)
  Lemma big_sinh G : G < 0 -> 0 < sinh (ln (big_B G)) < big_g G / (big_g G - 1).
  Proof.
    intros H. pose proof (big_g_gt G H) as G1. pose proof (big_B_gt G H) as B1. split.
    - apply sinh_lt. rewrite <- ln_1. apply ln_increasing; lra.
    - rewrite <- (sinh_arcsinh (big_g G / (big_g G - 1))). apply Ranalysis4.sinh_lt. unfold arcsinh. apply ln_increasing; [lra|].
      unfold big_B. set (e := big_g G - 1). assert (E0 : 0 < e) by (unfold e; lra). apply Rplus_lt_compat_l.
      apply sqrt_lt_1_alt. assert (P : 0 < 1 / (e * e)) by (apply Rdiv_lt_0_compat; nra). split; [lra|].
      replace ((big_g G / e) ^ 2) with (big_g G * big_g G * (1 / (e * e))) by (field; lra).
      assert (0 < (big_g G * big_g G - 1) * (1 / (e * e))) by (apply Rmult_lt_0_compat; [nra|exact P]). lra.
  Qed.
  Lemma c47_dc fam t n FO req fc G db (q : params XS) : fam = Ch1 \/ fam = Ch2 -> (1 <= n)%nat -> (Z.of_nat n <= FO)%Z -> in_int (2 * Z.of_nat n) = true ->
    requested FO req n -> q_fc q = XR fc -> in_range LSh fc 0 -> G < 0 -> - G <= db -> q_gain q = XR G -> q_db q = XR db -> Nat.odd n = true ->
    exists fl m, filt_setupN (N := XS) (fam, LSh) FO req q (filt_init t (fam, LSh) FO) = Ok fl tt /\ responds fl 0 m /\ top2 G < m.
  Proof.
    intros Hfam Hn HF HI HR EF Hf HG HD Hq Hd HO. cbn [in_range] in Hf. destruct (tan_half fc Hf) as (C0 & _ & T0). pose proof PI_RGT_0 as HPI.
    pose proof (big_g_gt G HG) as G1. pose proof (big_B_gt G HG) as B1. assert (NI : 0 < INR n) by (apply lt_0_INR; lia).
    set (u := ln (big_B G) / INR n). set (v := arcsinh (1 / (big_g G - 1)) / INR n).
    assert (UP : 0 < u) by (apply Rdiv_lt_0_compat; [rewrite <- ln_1; apply ln_increasing; lra|exact NI]).
    assert (P2 : 0 < 1 / (big_g G - 1)) by (apply Rdiv_lt_0_compat; lra).
    assert (VP : 0 < v) by (apply Rdiv_lt_0_compat; [apply arcsinh_pos; exact P2|exact NI]).
    destruct (cs_ana_uv fam LSh n FO G db u v q Hfam eq_refl Hn HF HI (big_consts n G db Hn HG HD) Hq Hd) as (np & ga & d & ex & HA).
    assert (HIn : In (fam, LSh) [(Bw, LP); (Ch1, LP); (Ch2, LP); (Bw, LSh); (Ch1, LSh); (Ch2, LSh)]) by (destruct Hfam; subst fam; simpl; auto 10).
    pose proof (lp_setup fam n FO _ _ q fc np ga d ex PI 1 LSh Hn HF EF Hf (cs_good n u v UP VP) HIn HA ltac:(lra)) as S. cbv zeta in S.
    set (qs := flat (pts_of n (cs_q n u v)) (sg_of n (cs_q0 u v))) in *. unfold qlp in S at 1 2 4 5. cbn [fst snd] in S.
    replace (PI * (PI / (2 * PI))) with (PI / 2) in S by (field; lra). rewrite sin_PI2, cos_PI2, Rmult_0_r in S.
    assert (M1 : mag qs 1 0 ^ 2 = 1) by (unfold qs; rewrite cs_mag, !prod_zero, pow1 by exact Hn; field).
    assert (NZ : nums (0, 1) (RtoC 0) qs <> 0%C).
    { intros Q. unfold mag in M1. rewrite Q, Cmod_0 in M1. unfold Rdiv in M1. rewrite Rmult_0_l, pow_i in M1 by lia. lra. }
    destruct (lift_filt t (fam, LSh) FO req n q (fun p => designed p 1 qs (qlp (tan (PI * fc))) (mag qs 1 0)) HR (S NZ)) as (fl & E & (D1 & D2 & D3 & _) & _).
    destruct (D3 0 ltac:(lra)) as (h & E1 & E2). exists fl, (Cmod h ^ 2). split; [exact E|]. split; [exists h; auto|].
    rewrite E2, rdiv_sq, M1, Rpow_mult_distr, pow2_abs. cbn [qlp fst snd]. rewrite Rmult_0_r, sin_0, cos_0, Rmult_1_r.
    unfold qs. rewrite cs_mag, !cheb_prod' by (assumption || lra). replace (0 / tan (PI * fc)) with 0 by (field; lra).
    pose proof (cheb_0 n) as C. rewrite HO in C. rewrite C.
    assert (EU : INR n * u = ln (big_B G)) by (unfold u; field; lra). assert (EV : INR n * v = arcsinh (1 / (big_g G - 1))) by (unfold v; field; lra).
    rewrite EU, EV, sinh_arcsinh. destruct (big_sinh G HG) as [S0 S1]. set (s := sinh (ln (big_B G))) in *.
    unfold top2. rewrite <- (Rinv_inv (Rpower 10 (G / 10))), cs_inv. fold (big_g G). set (g := big_g G) in *.
    pose proof (cheb_lead_pos n) as LP. pose proof (pow_even_pos (tan (PI * fc)) n ltac:(lra)) as YP.
    match goal with |- _ < ?x => replace x with (/ ((s * (g - 1)) * (s * (g - 1)))) by (field; repeat split; lra) end.
    assert (L : s * (g - 1) < g). { apply (Rmult_lt_compat_r (g - 1)) in S1; [|lra]. replace (g / (g - 1) * (g - 1)) with g in S1 by (field; lra). exact S1. }
    assert (0 < s * (g - 1)) by (apply Rmult_lt_0_compat; lra).
    apply Rinv_lt_contravar; [apply Rmult_lt_0_compat; nra|]. nra.
  Qed.
End Final.
