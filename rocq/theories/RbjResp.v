(** Lemmas: response () of the RBJ filters designed in binary64. *)
From Coq Require Import ZArith List Bool Reals Lra Lia.
From Coquelicot Require Import Coquelicot.
From Flocq Require Import Core.Raux IEEE754.BinarySingleNaN.
From Verif Require Import Num Outcome Types Biquad State Cascade RBJ Exact RealNum Float64 FloatSpec SigSpec StabProofs RespProofs RBJSpec RBJProofs RBJProtoSpec RBJProto
  RoundProofs DblSpec DblProofs DblLemmas RbjShSpec RbjShProofs RbjShLemmas BwDblSpec BwDblFinal RespDblSpec RespDbl RespDblLemmas RespOut RespOut2 RbjRespSpec.
Import ListNotations.
Local Open Scope R_scope.

Lemma setup_a0 (N : num) k (f g q : T N) b b' : rbj_setupN k f g q b = Ok b' tt -> m_a0 b' = k_a0 (rbj_coefs k f g q).
Proof.
  unfold rbj_setupN, set_coefs, setCoefficients, bind, ret, put, throw_if, throw. intros H.
  destruct k; repeat match type of H with context [if ?c then _ else _] => destruct c; try discriminate H end; injection H as <-; reflexivity.
Qed.
Lemma ap_val x r S e : ap x r S e -> is_finite x = true /\ Rabs (B2R x - r) <= e.
Proof. intros H. split; apply H. Qed.

Lemma rbj_a0 m (f g q : f64) k : rbj_libm k m -> is_finite f = true -> is_finite g = true -> is_finite q = true -> rbj_args k (B2R f) (B2R g) (B2R q) ->
  is_finite (k_a0 (rbj_coefs (N := F64 m) k f g q) : f64) = true /\ 1 / 4 <= B2R (k_a0 (rbj_coefs (N := F64 m) k f g q) : f64) <= 200.
Proof.
  intros HM Ff Fg Fq H.
  assert (U : 0 < uu <= / 2 ^ 53) by (unfold uu; lra).
  assert (G : forall x r S e, ap x r S e -> 1 / 2 <= r <= 199 -> e <= 1 / 1000 -> is_finite x = true /\ 1 / 4 <= B2R x <= 200).
  { intros x r S e A R E. destruct (ap_val _ _ _ _ A) as [F D]. split; [exact F|]. apply Rabs_le_between in D. lra. }
  unfold rbj_args, rbj_libm in *. destruct k; cbn [rbj_is_shelf] in *.
  1-5, 10: destruct H as [Hf Hq]; pose proof (al_range f q Hf Hq) as AL; pose proof (v_range q Hq) as V;
    assert (/ (2 * B2R q) <= 32) by (replace 32 with (/ (2 * (1 / 64))) by lra; apply Rinv_le; lra);
    (eapply G; [exact (ap_a0 m f q HM Ff Fq Hf Hq)|lra|lra]).
  - cbn [rbj_coefs rbj_iirnotch k_a0 nofZ F64]. destruct (fofZ_val 1 ltac:(lia)) as [A B]. rewrite A. split; [exact B|lra].
  - destruct H as (Hf & Hg & Hs). pose proof (sh_A g Hg) as HA. pose proof (COS_bound (2 * PI * B2R f)) as CB.
    destruct (sl_d f g Hf Hg (cos (2 * PI * B2R f)) ltac:(lra)) as (D1 & _).
    pose proof (sl_sq_range _ _ _ HA Hs (w_sin _ Hf)) as [Q1 Q2]. pose proof (w_sin _ Hf) as SP.
    eapply G; [exact (sl_add m f g HM Ff Fg Hf Hg q Fq Hs _ _ (sh_dp m f g HM Ff Fg Hf Hg))| |lra]. split; [lra|nra].
  - destruct H as (Hf & Hg & Hs). pose proof (sh_A g Hg) as HA. pose proof (COS_bound (2 * PI * B2R f)) as CB.
    destruct (sl_d f g Hf Hg (- cos (2 * PI * B2R f)) ltac:(lra)) as (D1 & _).
    pose proof (sl_sq_range _ _ _ HA Hs (w_sin _ Hf)) as [Q1 Q2]. pose proof (w_sin _ Hf) as SP.
    eapply G; [exact (sl_add m f g HM Ff Fg Hf Hg q Fq Hs _ _ (sh_dm m f g HM Ff Fg Hf Hg))| |lra]. split; [lra|nra].
  - destruct H as (Hf & Hg & H1 & H2 & H3). pose proof (sh_A g Hg) as HA. pose proof (wd_al0 f g Hf Hg q H1 H2 H3) as AL.
    eapply G; [exact (wd_a0 m f g HM Ff Fg Hf Hg q Fq H1 H2 H3)| |lra].
    assert (0 <= sin (2 * PI * B2R f) * sinh (ln 2 / 2 * B2R q * (2 * PI * B2R f) / sin (2 * PI * B2R f)) / Rpower 10 (B2R g / 40) <= 41 * 4); [|lra].
    unfold Rdiv at 1 4. split; [apply Rmult_le_pos; [lra|left; apply Rinv_0_lt_compat; lra]|]. apply Rmult_le_compat; [lra|left; apply Rinv_0_lt_compat; lra|lra|].
    replace 4 with (/ (1 / 4)) by lra. apply Rinv_le; lra.
Qed.

Lemma rbj_double m (f g q : f64) k b : rbj_libm k m -> is_finite f = true -> is_finite g = true -> is_finite q = true -> rbj_args k (B2R f) (B2R g) (B2R q) ->
  let i := rbj_ideal k (B2R f) (B2R g) (B2R q) in let e := rbj_coef_error k (B2R q) in
  exists b', rbj_setupN (N := F64 m) k f g q b = Ok b' tt /\ fin_coeffs b' /\ coefs_near b' i e /\
    Rabs (i_a1 i) <= 2 /\ Rabs (i_a2 i) <= 1 /\ Rabs (i_b0 i) <= 16 /\ Rabs (i_b1 i) <= 32 /\ Rabs (i_b2 i) <= 16 /\ 0 < e <= / 10 ^ 9.
Proof.
  intros HM Ff Fg Fq H i e. unfold i, e, rbj_ideal, rbj_coef_error, rbj_args, rbj_libm in *. destruct (rbj_is_shelf k) eqn:S.
  - destruct (c70 m f g q k b HM Ff Fg Fq H) as (b' & E & F & (N1 & N2 & N3) & _). exists b'. split; [exact E|]. split; [exact F|].
    split. { split; [lra|]. split; [lra|exact N3]. }
    destruct (shelf_range k _ _ _ H) as (R1 & R2 & R3 & R4 & R5). repeat split; assumption || lra.
  - destruct H as [Hf Hq]. assert (K : no_shelf k) by (destruct k; try discriminate S; repeat split; discriminate).
    destruct (c61 m f q k g b HM K Ff Fq Hf Hq) as (b' & E & F & N & _). exists b'. split; [exact E|]. split; [exact F|]. split; [exact N|].
    destruct (cook_range k (B2R f) (B2R q) K Hf ltac:(lra)) as (R1 & R2 & R3 & R4 & R5). pose proof (de_small (B2R q) ltac:(lra)). repeat split; lra.
Qed.

Lemma rbj_args_range k f g q : rbj_args k f g q -> rbj_range k f g q.
Proof.
  unfold rbj_args. destruct (rbj_is_shelf k) eqn:S; intros H; [apply shelf_args_range, H|]. destruct H as [Hf Hq]. split; [exact Hf|]. split; [lra|]. destruct k; try exact I; discriminate S.
Qed.
(** the ideal coefficients are those of the model over the reals *)
Lemma rbj_ideal_coefs k f g q : rbj_range k f g q -> let c := rnorm (rbj_coefs (N := RN) k f g q) in let i := rbj_ideal k f g q in
  m_a1 c = i_a1 i /\ m_a2 c = i_a2 i /\ m_b0 c = i_b0 i /\ m_b1 c = i_b1 i /\ m_b2 c = i_b2 i.
Proof.
  intros H c i. destruct (rbj_is_shelf k) eqn:S.
  - subst c i. unfold rbj_ideal. rewrite S. destruct k; try discriminate S; repeat split; reflexivity.
  - pose proof H as (Hf & Hq & _). assert (K : no_shelf k) by (destruct k; try discriminate S; repeat split; discriminate).
    destruct (c61_exact true k f g q (emb_bq c) K Hf Hq) as (b' & E & E1 & E2 & E3 & E4 & E5). rewrite (rbj_setup_ok k f g q _ H) in E. injection E as <-.
    subst i. unfold rbj_ideal. rewrite S. fold c in E1, E2, E3, E4, E5.
    cbn [emb_bq m_a1 m_a2 m_b0 m_b1 m_b2] in E1, E2, E3, E4, E5. injection E1. injection E2. injection E3. injection E4. injection E5. auto.
Qed.
Lemma rbj_ideal_frac k f g q x : rbj_range k f g q -> let c := rbj_coefs (N := RN) k f g q in let i := rbj_ideal k f g q in
  cden c (upt x) <> 0%C /\ i_den x i <> 0%C /\ i_resp [i] x = (cnum c (upt x) / cden c (upt x))%C.
Proof.
  intros H c i. destruct (rbj_ideal_coefs k f g q H) as (E1 & E2 & E3 & E4 & E5). fold c i in E1, E2, E3, E4, E5.
  pose proof (rbj_tri k f g q H) as TR. destruct (rbj_resp (strict := true) c x TR) as [D _]. pose proof TR as [A0 _]. fold c in A0.
  assert (C0 : RtoC (k_a0 c) <> 0%C) by (intros Q; apply RtoC_inj in Q; lra).
  assert (ED : i_den x i = (/ RtoC (k_a0 c) * cden c (upt x))%C).
  { rewrite <- rnorm_bot by lra. unfold i_den, rbot. change (z_inv x) with (upt x). rewrite <- E1, <- E2. reflexivity. }
  assert (EN : i_num x i = (/ RtoC (k_a0 c) * cnum c (upt x))%C).
  { rewrite <- rnorm_top by lra. unfold i_num, rtop. change (z_inv x) with (upt x). rewrite <- E3, <- E4, <- E5. reflexivity. }
  split; [exact D|]. split.
  - rewrite ED. intros Z. apply D. transitivity (RtoC (k_a0 c) * (/ RtoC (k_a0 c) * cden c (upt x)))%C; [field; exact C0|]. rewrite Z. ring.
  - unfold i_resp, cprod. cbn [map fold_right]. rewrite !Cmult_1_r, ED, EN. field. split; assumption.
Qed.
(** the response of the ideal coefficients is that of the analogue prototype *)
Lemma c79_ideal k f g q : k <> R_IIRNotch -> rbj_range k f g q -> let i := rbj_ideal k f g q in let A := Rpower 10 (g / 40) in let Q := cook_Q k f g q in
  (forall x, 0 <= x <= 1 / 2 -> i_den x i <> 0%C) /\
  (forall x, 0 <= x < 1 / 2 -> i_resp [i] x = (ana_num k A Q (warp x f) / ana_den k A Q (warp x f))%C) /\ i_resp [i] (1 / 2) = RtoC (ana_inf k A).
Proof.
  intros NK H i A Q. split; [intros x _; apply (rbj_ideal_frac k f g q x H)|].
  assert (inj : forall a b, xc a = xc b -> a = b) by (intros [a1 a2] [b1 b2] E; injection E; intros -> ->; reflexivity).
  destruct (c56 (strict := true) k f g q (emb_bq (rnorm (rbj_coefs (N := RN) k f g q))) NK H) as (b & E & R & RH). rewrite (rbj_setup_ok k f g q _ H) in E. injection E as <-.
  split.
  - intros x Hx. destruct (rbj_ideal_frac k f g q x H) as (_ & _ & ER). unfold i. rewrite ER. clear ER. destruct (R x Hx) as [_ P]. unfold responds in P.
    rewrite (proj2 (rbj_resp (strict := true) _ x (rbj_tri k f g q H))) in P. injection P as P1 P2. apply injective_projections; assumption.
  - destruct (rbj_ideal_frac k f g q (1 / 2) H) as (_ & _ & ER). unfold i. rewrite ER. clear ER. unfold responds in RH.
    rewrite (proj2 (rbj_resp (strict := true) _ (1 / 2) (rbj_tri k f g q H))) in RH. injection RH as P1 P2. apply injective_projections; assumption.
Qed.
Lemma c79_notch f g q x : 0 < f < 1 / 2 -> 0 < q -> let i := rbj_ideal R_IIRNotch f g q in
  let w := cis (2 * PI * f) in let u := cis (- (2 * PI * x)) in let r := RtoC (exp (- (PI * f / q))) in
  i_den x i <> 0%C /\ i_resp [i] x = ((RtoC 1 - w * u) * (RtoC 1 - Cconj w * u) / ((RtoC 1 - r * w * u) * (RtoC 1 - r * Cconj w * u)))%C.
Proof.
  intros Hf Hq i w u r. assert (H : rbj_range R_IIRNotch f g q) by (split; [exact Hf|split; [exact Hq|exact I]]).
  destruct (c56_notch (strict := true) f g q (emb_bq (rnorm (rbj_coefs (N := RN) R_IIRNotch f g q))) Hf Hq) as (b & E & R). rewrite (rbj_setup_ok R_IIRNotch f g q _ H) in E. injection E as <-.
  destruct (rbj_ideal_frac R_IIRNotch f g q x H) as (_ & D & ER). split; [exact D|]. unfold i. rewrite ER. destruct (R x) as [_ P]. unfold responds in P.
  pose proof (eq_trans (eq_sym (proj2 (rbj_resp (strict := true) _ x (rbj_tri _ f g q H)))) P) as P0. injection P0 as P1 P2. apply injective_projections; assumption.
Qed.

Lemma num_pos k f g q : rbj_args k f g q -> 0 < num_abs (rbj_ideal k f g q) <= 64.
Proof.
  intros H. split.
  - assert (G : forall x y, 0 < x -> 0 < y -> 0 < Rabs (x / y)) by (intros x y X Y; apply Rabs_pos_lt; intros Z; pose proof (Rdiv_lt_0_compat x y X Y); lra).
    assert (P : forall a b c, 0 < Rabs a \/ 0 < Rabs c -> 0 < Rabs a + Rabs b + Rabs c) by (intros a b c Z; pose proof (Rabs_pos a); pose proof (Rabs_pos b); pose proof (Rabs_pos c); lra).
    unfold num_abs. apply P. unfold rbj_ideal, rbj_args in *. destruct k; cbn [rbj_is_shelf] in *; cbn [cookbook i_b0 i_b2].
    1-5, 10: destruct H as [Hf Hq]; pose proof (w_sin f Hf) as SP; pose proof (sin2_cos2 (2 * PI * f)) as SC; unfold Rsqr in SC; assert (-1 < cos (2 * PI * f) < 1) by (split; nra);
      assert (0 < sin (2 * PI * f) / (2 * q)) by (apply Rdiv_lt_0_compat; lra).
    + left. apply G; lra.
    + left. apply G; lra.
    + left. apply G; lra.
    + left. apply G; lra.
    + left. apply G; lra.
    + right. apply G; lra.
    + left. rewrite Rabs_R1. lra.
    + left. destruct H as (Hf & Hg & Hs). pose proof (amp_range g Hg) as HA. pose proof (COS_bound (2 * PI * f)) as CB. pose proof (w_sin f Hf) as SP.
      cbn [cookbook_shelf i_b0]. pose proof (sl_sq_range _ _ _ HA Hs SP) as [Q1 Q2]. apply G; [apply Rmult_lt_0_compat; nra|nra].
    + left. destruct H as (Hf & Hg & Hs). pose proof (amp_range g Hg) as HA. pose proof (COS_bound (2 * PI * f)) as CB. pose proof (w_sin f Hf) as SP.
      cbn [cookbook_shelf i_b0]. pose proof (sl_sq_range _ _ _ HA Hs SP) as [Q1 Q2]. apply G; [apply Rmult_lt_0_compat; nra|nra].
    + left. destruct H as (Hf & Hg & H1 & H2 & H3). pose proof (amp_range g Hg) as HA. destruct (bs_al_range f q Hf H1 H2 H3) as [Q1 Q2].
      cbn [cookbook_shelf i_b0]. assert (P15 : 0 < / 2 ^ 15) by lra.
      assert (0 <= sin (2 * PI * f) * sinh (ln 2 / 2 * q * (2 * PI * f) / sin (2 * PI * f))) by lra.
      apply G; [|apply Rplus_lt_le_0_compat; [lra|apply Rmult_le_pos; [lra|left; apply Rinv_0_lt_compat; lra]]]. apply Rplus_lt_le_0_compat; [lra|apply Rmult_le_pos; lra].
  - unfold num_abs, rbj_ideal, rbj_args in *. destruct (rbj_is_shelf k) eqn:S.
    + destruct (shelf_range k _ _ _ H) as (_ & _ & R3 & R4 & R5). lra.
    + destruct H as [Hf Hq]. assert (K : no_shelf k) by (destruct k; try discriminate S; repeat split; discriminate).
      destruct (cook_range k f q K Hf ltac:(lra)) as (_ & _ & R3 & R4 & R5). lra.
Qed.

Lemma c79 m (f g q : f64) k b : libm_design m -> libm_response m -> rbj_libm k m -> FloatSpec.is_fin f -> FloatSpec.is_fin g -> FloatSpec.is_fin q -> rbj_args k (B2R f) (B2R g) (B2R q) ->
  let i := rbj_ideal k (B2R f) (B2R g) (B2R q) in let e := rbj_rel_error k (B2R f) (B2R g) (B2R q) in e <= / 2 ^ 10 ->
  exists b', rbj_setupN (N := F64 m) k f g q b = Ok b' tt /\
    forall x : f64, FloatSpec.is_fin x -> 0 <= B2R x <= 1 / 2 -> resp_rel e 1 * i_cond [i] (B2R x) <= / 4 ->
    exists h, bq_response b' x = Val h /\ cfin h /\ Cmod (c2c h - i_resp [i] (B2R x))%C <= resp_error e [i] (B2R x).
Proof.
  intros (HT & HP & HD) (HM & HA) HL Ff Fg Fq H i e He. destruct (rbj_double m f g q k b HL Ff Fg Fq H) as (b' & E & F & N & R1 & R2 & R3 & R4 & R5 & C). exists b'. split; [exact E|].
  pose proof (num_pos k _ _ _ H) as NP. fold i in NP, R1, R2, R3, R4, R5, N. set (e0 := rbj_coef_error k (B2R q)) in *.
  assert (E1 : e = e0 + e0 * / num_abs i) by (unfold e, rbj_rel_error; fold i e0; ring). assert (IP : 0 < / num_abs i) by (apply Rinv_0_lt_compat; lra).
  assert (P1 : 0 < e0 * / num_abs i) by (apply Rmult_lt_0_compat; lra).
  assert (E2 : e0 <= e * num_abs i). { rewrite E1. replace ((e0 + e0 * / num_abs i) * num_abs i) with (e0 + e0 * num_abs i) by (field; lra). assert (0 < e0 * num_abs i) by (apply Rmult_lt_0_compat; lra). lra. }
  destruct (rbj_a0 m f g q k HL Ff Fg Fq H) as [A0 A1]. rewrite <- (setup_a0 _ _ _ _ _ _ _ E) in A0, A1.
  intros x Fx Hx HC. apply c77_biquad; try assumption; [lra| |].
  - destruct F as (F1 & F2 & F3 & F4 & F5). destruct N as (N1 & N2 & N3 & N4 & N5). unfold near_section.
    assert (P100 : 1 <= 2 ^ 50) by lra. split; [exact A0|]. split; [rewrite Rabs_pos_eq by lra; split; [apply Rle_trans with (/ 2 ^ 10); [apply Rinv_le; [lra|apply Rle_pow; [lra|lia]]|lra]|apply Rle_trans with (2 ^ 10); [lra|apply Rle_pow; [lra|lia]]]|].
    split; [exact F1|]. split; [exact F2|]. split; [exact F3|]. split; [exact F4|]. split; [exact F5|]. unfold den_abs. repeat split; lra.
  - apply Cmod_gt_0. apply (rbj_ideal_frac k _ _ _ _ (rbj_args_range _ _ _ _ H)).
Qed.

(** ** a concrete library and a concrete filter *)
Definition resp_libm : libm := MkLibm (lm_sin round_libm) (lm_cos round_libm) (lm_tan design_libm) (lm_atan design_libm) (lm_exp round_libm) (lm_log design_libm) (lm_sinh shelf_libm) (lm_cosh design_libm)
  (lm_pow shelf_libm) (lm_cmul design_libm) (lm_cdiv design_libm) (lm_csqrt design_libm) (lm_cabs design_libm) (lm_polar design_libm).
Lemma resp_libm_ok : libm_design resp_libm /\ libm_response resp_libm /\ forall k, rbj_libm k resp_libm.
Proof.
  split; [exact (proj1 design_libm_ok)|]. split; [exact (proj2 design_libm_ok)|].
  intros k. unfold rbj_libm. destruct (rbj_is_shelf k); [exact shelf_libm_close|exact round_libm_close].
Qed.
Lemma quarter_lp : rbj_ideal R_LowPass (1 / 4) 0 1 = Ideal 0 (1 / 3) (1 / 3) (2 / 3) (1 / 3).
Proof.
  unfold rbj_ideal. cbn [rbj_is_shelf cookbook]. replace (2 * PI * (1 / 4)) with (PI / 2) by field. rewrite cos_PI2, sin_PI2. f_equal; field.
Qed.
Lemma ex_c79 : libm_design resp_libm /\ libm_response resp_libm /\ rbj_libm R_LowPass resp_libm /\ rbj_libm R_LowShelf resp_libm /\ rbj_args R_LowShelf (1 / 4) 20 1 /\
  FloatSpec.is_fin (fnorm 1 (-2)) /\ FloatSpec.is_fin (fofZ 0) /\ FloatSpec.is_fin (fofZ 1) /\ B2R (fnorm 1 (-2)) = 1 / 4 /\ B2R (fofZ 0) = 0 /\ B2R (fofZ 1) = 1 /\
  rbj_args R_LowPass (1 / 4) 0 1 /\ let i := rbj_ideal R_LowPass (1 / 4) 0 1 in let e := rbj_rel_error R_LowPass (1 / 4) 0 1 in
  e <= / 2 ^ 10 /\ resp_rel e 1 * i_cond [i] (1 / 4) <= / 4 /\ resp_error e [i] (1 / 4) <= 1 / 10 ^ 10 /\ i_resp [i] (1 / 4) = (0, -1).
Proof.
  destruct resp_libm_ok as (L1 & L2 & L3). split; [exact L1|]. split; [exact L2|]. split; [apply L3|]. split; [apply L3|].
  split; [exact (shelf_ex_args R_LowShelf (or_introl eq_refl))|].
  destruct shelf_ex_fin as (F1 & _ & F2 & V1 & _ & V2). split; [exact F1|]. split; [reflexivity|]. split; [exact F2|]. split; [exact V1|]. split; [reflexivity|]. split; [exact V2|].
  split. { unfold rbj_args. cbn [rbj_is_shelf]. lra. }
  intros i e. assert (EI : i = Ideal 0 (1 / 3) (1 / 3) (2 / 3) (1 / 3)) by exact quarter_lp.
  assert (NA : num_abs i = 4 / 3) by (rewrite EI; unfold num_abs; cbn [i_b0 i_b1 i_b2]; rewrite !Rabs_pos_eq by lra; lra).
  assert (DA : den_abs i = 4 / 3) by (rewrite EI; unfold den_abs; cbn [i_a1 i_a2]; rewrite !Rabs_pos_eq by lra; lra).
  assert (EE : e = 7 / 2 ^ 47). { unfold e, rbj_rel_error. fold i. rewrite NA. unfold rbj_coef_error, design_error. cbn [rbj_is_shelf]. lra. }
  assert (ED : i_den (1 / 4) i = RtoC (2 / 3)) by (rewrite EI; unfold i_den, poly2; cbn [i_a1 i_a2]; rewrite quarter_z; apply injective_projections; unfold RtoC, Cplus, Cmult; cbn [fst snd]; lra).
  assert (EN : i_num (1 / 4) i = (0, - (2 / 3))) by (rewrite EI; unfold i_num, poly2; cbn [i_b0 i_b1 i_b2]; rewrite quarter_z; apply injective_projections; unfold RtoC, Cplus, Cmult; cbn [fst snd]; lra).
  assert (M : Cmod (cprod (map (i_den (1 / 4)) [i])) = 2 / 3) by (unfold cprod; cbn [map fold_right]; rewrite Cmult_1_r, ED, Cmod_R, Rabs_pos_eq; lra).
  assert (K : i_cond [i] (1 / 4) = 2) by (unfold i_cond; rewrite M; cbn [map fold_right]; rewrite DA; lra).
  assert (L : i_level [i] (1 / 4) = 2) by (unfold i_level; rewrite M; cbn [map fold_right]; rewrite NA; lra).
  split; [rewrite EE; lra|]. split; [rewrite K, EE; unfold resp_rel; simpl INR; lra|]. split.
  - unfold resp_error. rewrite K, L, EE. unfold resp_rel. cbn [length]. simpl INR.
    assert (/ 2 ^ 300 <= / 2 ^ 60) by (apply Rinv_le; [apply pow_lt; lra|apply Rle_pow; [lra|lia]]). lra.
  - unfold i_resp, cprod. cbn [map fold_right]. rewrite !Cmult_1_r, ED, EN. unfold Cdiv. rewrite <- RtoC_inv by lra. apply injective_projections; unfold RtoC, Cmult; cbn [fst snd]; field.
Qed.
