(** Lemmas: Butterworth shelves ([X false]: std::polar with a negative radius is evaluated). *)
From Coq Require Import ZArith List Bool Reals Lra Lia.
From Coquelicot Require Import Coquelicot.
From Verif Require Import Num Outcome Types Biquad State Cascade Transforms Butterworth Chebyshev PoleFilter Exact RealNum SigSpec ChebSpec BandSpec ShelfSpec
  SigProofs StabProofs RespProofs PZSpec PZProofs RBJProofs CoefLemmas BuildProofs PolyProofs MapProofs TransProofs ProtoProofs ProtoBuild
  DesignProofs DesignSpec DesignLemmas DesignFinal BandProofs BandBuild BandSetup BandLemmas.
Import ListNotations.
Local Open Scope R_scope.

Lemma shelf_mag n G x y : (0 < n)%nat -> ~ (x = 0 /\ y = 0) ->
  mag (flat (pts_of n (ls_q n (/ ls_g n G) (ls_g n G))) (sg_of n (ls_q0 (/ ls_g n G) (ls_g n G)))) x y ^ 2 = shelf2 n G (ratio x y).
Proof.
  intros Hn Hxy. rewrite ls_mag by exact Hn. rewrite !Rpow_mult_distr, pow_inv, ls_g_pow by exact Hn.
  set (g := Rpower 10 (G / 20)). assert (Hg : 0 < g) by apply exp_pos. assert (Hi : 0 < / g) by (apply Rinv_0_lt_compat; exact Hg).
  unfold ratio, shelf2. fold g. destruct (Req_EM_T y 0) as [->|Z].
  - rewrite (pow_i (2 * n)) by lia. pose proof (pow_even_pos x n ltac:(intros Q; apply Hxy; auto)). field. lra.
  - pose proof (pow_even_pos y n Z). pose proof (pow_even_nonneg x n).
    replace ((x / y) ^ (2 * n)) with (x ^ (2 * n) / y ^ (2 * n)) by (unfold Rdiv; rewrite Rpow_mult_distr, pow_inv; reflexivity). field. assert (0 < / g * y ^ (2 * n)) by (apply Rmult_lt_0_compat; assumption).
    split; [lra|]. split; [lra|]. assert (0 <= x ^ (2 * n) * g) by (apply Rmult_le_pos; lra). lra.
Qed.
Lemma shelf2_opp n G w : shelf2 n G (Some (- w)) = shelf2 n G (Some w).
Proof. cbn [shelf2]. rewrite !(pow_mult (- w)). replace ((- w) ^ 2) with (w ^ 2) by ring. rewrite <- !pow_mult. reflexivity. Qed.

Local Notation XS := (X false).
Local Notation alay := (TransProofs.alay (strict := false)).
Definition sq n G := ls_q n (/ ls_g n G) (ls_g n G).
Definition sq0 n G := ls_q0 (/ ls_g n G) (ls_g n G).
Definition sqs n G := flat (pts_of n (sq n G)) (sg_of n (sq0 n G)).

Lemma sh_good n G : good (pts_of n (sq n G)) (sg_of n (sq0 n G)).
Proof. pose proof (ls_g_pos n G). apply ls_good; [apply Rinv_0_lt_compat|]; assumption. Qed.
Lemma sh_zneg n G : List.Forall (fun q : apt => zneg (snd q)) (sqs n G).
Proof.
  pose proof (ls_g_pos n G) as P. unfold sqs. apply flat_all; [exact zneg_conj| |].
  - intros i Hi. apply half_lt in Hi. pose proof (sin_theta_pos n i Hi). unfold sq, ls_q. cbn. nra.
  - cbn. lra.
Qed.
Lemma sh_ana s n FO G (q : params XS) : is_shelf s = true -> (1 <= n)%nat -> (Z.of_nat n <= FO)%Z -> in_int (2 * Z.of_nat n) = true ->
  q_gain q = XR G -> exists np ga d ex,
  ana_design (N := XS) (Bw, s) (Z.of_nat n) q (pf_ana (pf_init (Bw, s) FO)) =
    Ok (MkProto (N := XS) np ga d (alay (pts_of n (sq n G)) (sg_of n (sq0 n G)) FO ex (XR PI) (XR 1))) tt.
Proof.
  intros Hs Hn HF HI Hq. destruct (sizes n FO Hn HF) as (_ & S2 & _).
  assert (L : (nup n <= length (layout_storage (N := XS) FO))%nat) by (unfold layout_storage; rewrite repeat_length; exact S2).
  unfold ana_design, pf_init, ana_init. cbn [fst snd pf_ana]. rewrite Hs, Hq.
  do 4 eexists. unfold p_set_lay, bw_ls_init, lay_setStorage, lay_setNormal, layout_of_storage, layout0. cbn [p_np p_gain p_db p_lay l_maxPoles l_pairs l_normalW l_normalGain].
  apply bw_ls_design_x; try assumption. lia.
Qed.
Lemma sh_norm n G x : (0 < n)%nat -> x <> 0 -> mag (sqs n G) x 0 ^ 2 = 1 /\ nums (0, x) (RtoC 0) (sqs n G) <> 0%C.
Proof.
  intros Hn Hx. assert (E : mag (sqs n G) x 0 ^ 2 = 1).
  { unfold sqs, sq, sq0. rewrite shelf_mag by (exact Hn || intros [Q _]; auto). rewrite ratio_none. reflexivity. }
  split; [exact E|]. intros Q. unfold mag in E. rewrite Q, Cmod_0 in E. unfold Rdiv in E. rewrite Rmult_0_l, pow_i in E by lia. lra.
Qed.
Lemma sh_finish n G t k FO req q xy x0 : (0 < n)%nat -> requested FO req n -> x0 <> 0 ->
  (forall f, 0 <= f <= 1 / 2 -> ~ (fst (xy f) = 0 /\ snd (xy f) = 0)) ->
  (exists p, setupN (N := XS) k FO (Some (Z.of_nat n)) q (pf_init k FO) = Ok p tt /\ designed p 1 (sqs n G) xy (mag (sqs n G) x0 0)) ->
  exists fl, filt_setupN (N := XS) k FO req q (filt_init t k FO) = Ok fl tt /\ (stable_filter fl /\ reports fl in_circle) /\
    forall f, 0 <= f <= 1 / 2 -> responds fl f (shelf2 n G (ratio (fst (xy f)) (snd (xy f)))).
Proof.
  intros Hn HR Hx NZ H.
  destruct (lift_filt t k FO req n q (fun p => designed p 1 (sqs n G) xy (mag (sqs n G) x0 0)) HR H) as (fl & E & (D1 & D2 & D3 & D4) & _).
  exists fl. split; [exact E|]. split; [split; [split; assumption|destruct fl as [p sts]; exact (proj2 (D4 Rlt_0_1 sts) (sh_zneg n G))]|]. intros f Hf. destruct (D3 f Hf) as (h & E1 & E2).
  exists h. split; [exact E1|]. rewrite E2. rewrite rdiv_sq, (proj1 (sh_norm n G x0 Hn Hx)), Rpow_mult_distr, pow2_abs.
  unfold sqs, sq, sq0. rewrite shelf_mag by auto. field.
Qed.

Lemma sh_low t n FO req fc G (q : params XS) : (1 <= n)%nat -> (Z.of_nat n <= FO)%Z -> in_int (2 * Z.of_nat n) = true ->
  requested FO req n -> q_fc q = XR fc -> 0 < fc < 1 / 2 -> q_gain q = XR G ->
  exists fl, filt_setupN (N := XS) (Bw, LSh) FO req q (filt_init t (Bw, LSh) FO) = Ok fl tt /\ (stable_filter fl /\ reports fl in_circle) /\
    (forall f, 0 <= f < 1 / 2 -> responds fl f (shelf2 n G (Some (tan (PI * f) / tan (PI * fc))))) /\ responds fl (1 / 2) (shelf2 n G None).
Proof.
  intros Hn HF HI HR EF Hf Hq. destruct (tan_half fc Hf) as (C0 & _ & T0). pose proof PI_RGT_0 as HPI.
  destruct (sh_ana LSh n FO G q eq_refl Hn HF HI Hq) as (np & ga & d & ex & HA).
  destruct (sh_finish n G t (Bw, LSh) FO req q (qlp (tan (PI * fc))) 1) as (fl & F1 & F2 & F3); try assumption; [lra| | |].
  - intros f _ [Q1 Q2]. cbn [qlp fst snd] in *. pose proof (sin2_cos2 (PI * f)) as P. unfold Rsqr in P.
    assert (Z : cos (PI * f) = 0) by (apply Rmult_eq_reg_l with (tan (PI * fc)); lra). rewrite Q1, Z in P. lra.
  - pose proof (lp_setup Bw n FO _ _ q fc np ga d ex PI 1 LSh Hn HF EF Hf (sh_good n G) ltac:(simpl; auto 10) HA ltac:(lra)) as S. cbv zeta in S.
    fold (sqs n G) in S. unfold qlp in S at 1 2 4 5. cbn [fst snd] in S.
    replace (PI * (PI / (2 * PI))) with (PI / 2) in S by (field; lra). rewrite sin_PI2, cos_PI2, Rmult_0_r in S.
    apply S. apply sh_norm; [exact Hn|lra].
  - exists fl. split; [exact F1|]. split; [exact F2|]. split.
    + intros f H. rewrite <- lp_ratio by assumption. apply (F3 f). lra.
    + specialize (F3 (1 / 2) ltac:(lra)). cbn [qlp fst snd] in F3. rewrite half_pi, cos_PI2, Rmult_0_r, ratio_none in F3. exact F3.
Qed.
Lemma sh_high t n FO req fc G (q : params XS) : (1 <= n)%nat -> (Z.of_nat n <= FO)%Z -> in_int (2 * Z.of_nat n) = true ->
  requested FO req n -> q_fc q = XR fc -> 0 < fc < 1 / 2 -> q_gain q = XR G ->
  exists fl, filt_setupN (N := XS) (Bw, HSh) FO req q (filt_init t (Bw, HSh) FO) = Ok fl tt /\ (stable_filter fl /\ reports fl in_circle) /\
    (forall f, 0 < f < 1 / 2 -> responds fl f (shelf2 n G (Some (tan (PI * fc) / tan (PI * f))))) /\ responds fl 0 (shelf2 n G None) /\
    responds fl (1 / 2) (shelf2 n G (Some 0)).
Proof.
  intros Hn HF HI HR EF Hf Hq. destruct (tan_half fc Hf) as (C0 & _ & T0). pose proof PI_RGT_0 as HPI.
  assert (T1 : 0 < 1 / tan (PI * fc)) by (apply Rdiv_lt_0_compat; lra).
  destruct (sh_ana HSh n FO G q eq_refl Hn HF HI Hq) as (np & ga & d & ex & HA).
  destruct (sh_finish n G t (Bw, HSh) FO req q (qhp (1 / tan (PI * fc))) (-1)) as (fl & F1 & F2 & F3); try assumption; [lra| | |].
  - intros f _ [Q1 Q2]. cbn [qhp fst snd] in *. pose proof (sin2_cos2 (PI * f)) as P. unfold Rsqr in P.
    assert (Z : sin (PI * f) = 0) by (apply Rmult_eq_reg_l with (1 / tan (PI * fc)); lra). assert (Z' : cos (PI * f) = 0) by lra. rewrite Z', Z in P. lra.
  - pose proof (hp_setup Bw n FO _ _ q fc np ga d ex PI 1 HSh Hn HF EF Hf (sh_good n G) ltac:(simpl; auto 10) HA ltac:(lra)) as S. cbv zeta in S.
    fold (sqs n G) in S. unfold qhp in S at 1 2 4 5. cbn [fst snd] in S.
    replace (PI * ((PI - PI) / (2 * PI))) with 0 in S by (field; lra). rewrite sin_0, cos_0, Rmult_0_r in S.
    apply S. apply sh_norm; [exact Hn|lra].
  - exists fl. split; [exact F1|]. split; [exact F2|]. split; [|split].
    + intros f H. specialize (F3 f ltac:(lra)). cbn [qhp fst snd] in F3. destruct (tan_half f H) as (C & S & T').
      rewrite ratio_some in F3 by (apply Rgt_not_eq, Rmult_lt_0_compat; lra).
      replace (- cos (PI * f) / (1 / tan (PI * fc) * sin (PI * f))) with (- (tan (PI * fc) / tan (PI * f))) in F3 by (unfold tan at 2; field; repeat split; lra).
      rewrite shelf2_opp in F3. exact F3.
    + specialize (F3 0 ltac:(lra)). cbn [qhp fst snd] in F3. rewrite Rmult_0_r, sin_0, Rmult_0_r, ratio_none in F3. exact F3.
    + specialize (F3 (1 / 2) ltac:(lra)). cbn [qhp fst snd] in F3. rewrite half_pi, cos_PI2, sin_PI2 in F3.
      rewrite ratio_some in F3 by (rewrite Rmult_1_r; lra). replace (- 0 / (1 / tan (PI * fc) * 1)) with 0 in F3; [exact F3|]. field. lra.
Qed.
Lemma sh_band t n FO req fc fw G (q : params XS) : (1 <= n)%nat -> (Z.of_nat n <= FO)%Z -> in_int (2 * Z.of_nat n) = true ->
  requested FO req n -> q_fc q = XR fc -> q_fw q = XR fw -> 0 <= fc < 1 / 2 -> q_gain q = XR G ->
  let w1 := edge_hi fc fw in let w2 := edge_lo fc fw in w2 < w1 ->
  ~ (Nat.odd n = true /\ (tan ((w1 - w2) / 2) ^ (2 * n) = Rpower 10 (G / 20) \/ tan ((w1 - w2) / 2) ^ (2 * n) = Rpower 10 (- G / 20))) ->
  exists fl, filt_setupN (N := XS) (Bw, BSh) FO req q (filt_init t (Bw, BSh) FO) = Ok fl tt /\ (stable_filter fl /\ reports fl in_circle) /\
    forall f, 0 <= f <= 1 / 2 -> responds fl f (shelf2 n G (bp_W w1 w2 (2 * PI * f))).
Proof.
  intros Hn HF HI HR EF EW Hf Hq w1 w2 He NE. destruct (edges_in fc fw) as [E1 E2]. fold w1 in E2. fold w2 in E1. pose proof PI_RGT_0 as HPI.
  destruct (edge_facts w1 w2 (conj E1 He) E2) as (C0 & S0 & T0 & A1). set (td := tan ((w1 - w2) / 2)) in *.
  destruct (sh_ana BSh n FO G q eq_refl Hn HF HI Hq) as (np & ga & d & ex & HA).
  set (x0 := fst (bp_xy fc fw (bs_wn fc / (2 * PI)))).
  assert (X0 : x0 <> 0).
  { unfold x0, bp_xy. cbn [fst]. fold w1 w2 td. replace (2 * PI * (bs_wn fc / (2 * PI))) with (bs_wn fc) by (field; lra).
    assert (0 < 1 / td) by (apply Rdiv_lt_0_compat; lra).
    unfold bs_wn. apply Rmult_integral_contrapositive_currified; [lra|]. destruct (Rltb fc (1 / 4)); [rewrite cos_PI|rewrite cos_0]; lra. }
  destruct (sh_finish n G t (Bw, BSh) FO req q (bp_xy fc fw) x0) as (fl & F1 & F2 & F3); try assumption.
  - intros f _. apply (bp_xy_nz w1 w2 (conj E1 He) E2).
  - apply (bsh_setup Bw n FO _ _ q fc fw np ga d ex (XR PI) (XR 1)); try assumption.
    + apply sh_good.
    + fold w1 w2 td. unfold nonexc_sg, sg_of. destruct (Nat.odd n); cbn [olist]; [|constructor]. constructor; [|constructor].
      unfold sq0, ls_q0. cbn [fst snd nonexc RtoC]. pose proof (ls_g_pos n G) as LG. pose proof (ls_g_pow n G Hn) as LP.
      split; intros Q; apply NE; (split; [reflexivity|]).
      * left. replace td with (ls_g n G); [exact LP|]. assert (Q' : 1 / td = / ls_g n G) by lra. rewrite <- (Rinv_inv (ls_g n G)), <- Q'. field. lra.
      * right. replace td with (/ ls_g n G). { rewrite pow_inv, LP. unfold Rdiv. rewrite <- Ropp_mult_distr_l. rewrite Rpower_Ropp. reflexivity. }
        assert (Q' : 1 / td = ls_g n G) by lra. rewrite <- Q'. field. lra.
    + apply sh_norm; [exact Hn|exact X0].
  - exists fl. split; [exact F1|]. split; [exact F2|]. intros f H. rewrite <- bp_ratio by (exact (conj E1 He) || exact E2). apply (F3 f H).
Qed.
