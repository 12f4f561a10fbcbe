(** Concrete cases for PropsDesFall.v. *)
From Coq Require Import ZArith List Bool Reals Lra Lia.
From Coquelicot Require Import Coquelicot.
From Flocq Require Import Core.Raux Core.Defs IEEE754.BinarySingleNaN.
From Verif Require Import Num Outcome Types Biquad State Cascade PoleFilter RBJ Float64 FloatSpec FloatProofs FloatLemmas Stream SigSpec StabProofs
  RoundSpec RoundProofs RoundRun RoundLemmas DblSpec DblProofs DblLemmas LayoutProofs BuildProofs BuildAny BwDblSpec CplxDbl BwDbl BwDbl2 BwDbl3 BwDblLemmas BwExact BwScale BwDblFinal BwScaleLemmas ChainSpec ChainLemmas BwOut
  RbjShProofs RelDbl ChCoefSpec ChDblSpec ChDbl ChDbl2 ChDbl3 ChDbl4 ChDblLemmas ChDblEx ChScaleSpec ChScale ChOut RbjRespSpec RbjResp ContractCh DesignSpec ShelfSpec ShelfDblSpec ShelfExact ShelfOut ShelfEx RunOnSpec RunOnEx DecaySpec DesFallSpec DesFall.
Import ListNotations.
Local Open Scope R_scope.

Lemma one_section d : rec_gain (i_a1 (d_id d)) (i_a2 (d_id d)) (d_G d) -> 4 * d_ea d * d_G d <= 1 -> 1 <= d_G d <= 9 -> 0 <= d_A d <= 1 -> 0 <= d_B d <= 8 ->
  dfall_ok (257 / 256) 2 [d] 1 /\ dfall [d] 1 <= 2 ^ 15.
Proof.
  intros HG HE G A B. assert (P : 2 ^ 30 <= 2 ^ 900) by (apply Rle_pow; [lra|lia]).
  assert (P1 : 0 <= (1 + d_A d) * (1 + d_B d) <= 2 * 9) by (apply mulb; lra).
  assert (P2 : 0 <= d_G d * (2 * (1 + d_A d) * (1 + d_B d) * (1 + 1) + 4 * (1 + d_B d)) <= 9 * (4 * 18 + 4 * 9)) by (apply mulb; lra).
  assert (P3 : 0 <= dfall_out d 1 <= 2 ^ 15) by (unfold dfall_out; lra).
  assert (P4 : 0 <= d_G d * d_A d <= 9 * 1) by (apply mulb; lra).
  assert (P5 : 0 <= dfall_out d 1 * (1 + d_B d) <= 2 ^ 15 * 9) by (apply mulb; lra).
  split; [|exact (proj2 P3)]. split; [|exact I]. split; [exact HG|]. split; [exact HE|]. split; [lra|]. split; [lra|].
  set (q := dfall_out d 1 * (1 + d_B d)) in *. clearbody q. set (p := 2 ^ 900) in *. clearbody p. lra.
Qed.
Lemma ex_dfall_rbj : let i := rbj_ideal R_LowPass (1 / 4) 0 1 in let e := rbj_coef_error R_LowPass 1 in dfall_ok (257 / 256) 2 [DSect i 9 e e] 1 /\ dfall [DSect i 9 e e] 1 <= 2 ^ 15.
Proof.
  intros i e. destruct ex_c80 as [((HG & HE & _) & _) _]. assert (EI : i = Ideal 0 (1 / 3) (1 / 3) (2 / 3) (1 / 3)) by exact quarter_lp.
  assert (EE : e = 2 / 2 ^ 46) by (unfold e, rbj_coef_error, design_error; cbn [rbj_is_shelf]; lra).
  apply one_section; [exact HG|exact HE|cbn [d_G]; lra| |].
  - unfold d_A. cbn [d_id d_ea]. rewrite EI, EE. cbn [i_a1 i_a2]. rewrite Rabs_R0, Rabs_pos_eq by lra. lra.
  - unfold d_B, i_B. cbn [d_id d_eb]. rewrite EI, EE. cbn [i_b0 i_b1 i_b2]. rewrite !Rabs_pos_eq by lra. lra.
Qed.
Lemma ex_dfall_ch : dfall_ok (257 / 256) 2 (padded (ch_chain true false (1 / 4) 10 2) (maxStagesOf LP 2)) 1 /\ dfall (padded (ch_chain true false (1 / 4) 10 2) (maxStagesOf LP 2)) 1 <= 2 ^ 15.
Proof.
  assert (PD : padded (ch_chain true false (1 / 4) 10 2) (maxStagesOf LP 2) = ch_chain true false (1 / 4) 10 2) by (unfold padded; change (Z.to_nat (maxStagesOf LP 2) - length (ch_chain true false (1 / 4) 10 2))%nat with 0%nat; apply app_nil_r). rewrite PD.
  assert (T : tan (PI * (1 / 4)) = 1) by (replace (PI * (1 / 4)) with (PI / 4) by field; apply tan_PI4).
  destruct ex_width as (_ & W1 & W2 & W3). cbn zeta in W1, W2, W3.
  pose proof (c76_gain true false (1 / 4) 10 2 0 ltac:(lra) ltac:(lra) ltac:(lia) ltac:(vm_compute; lia)) as G0. revert G0.
  assert (EE : ch_error (1 / 4) = / 2 ^ 34) by (unfold ch_error; lra).
  unfold ch_chain, ch_scale_error, ch_cond, ch_scale, ch_section, ch_scale. change (bw_sections 2) with 1%nat. cbn [seq map fold_right Nat.eqb].
  unfold ch_gain_bound, ch_ideal. change (Nat.ltb 0 (2 / 2)) with true. cbv iota zeta. rewrite T, EE.
  set (mm := (sinh (ch_width true 2 10) * sin (ch_angle 2 0)) ^ 2 + (cosh (ch_width true 2 10) * cos (ch_angle 2 0)) ^ 2) in *.
  set (s := sinh (ch_width true 2 10) * sin (ch_angle 2 0)) in *. rewrite W3.
  replace (- s / mm) with (- (s / mm)) by (unfold Rdiv; ring). set (g := s / mm) in *. set (M := / mm) in *. clearbody g M. clear mm s W3.
  unfold ch_level, an_pair, peak_inv, peak_cond, scaled. cbn [i_a1 i_a2 i_b0 i_b1 i_b2]. replace (sqrt 2 ^ 2) with 2 by (simpl; rewrite Rmult_1_r, sqrt_sqrt; lra).
  replace (-2 * 1 * ((1 - 1 ^ 2 * 2) / (1 + 1 ^ 2 * 2))) with (2 / 3) by field. replace (INR 2) with 2 by (simpl; ring). rewrite !Rmult_1_l, !Rmult_1_r, !pow1, !Rmult_1_l.
  set (d := 1 - 2 * - g + M). assert (D : 1 + 2 * g + M = d) by (unfold d; ring). assert (D1 : 255 / 100 <= d <= 26 / 10) by lra. assert (D0 : d <> 0) by lra.
  replace (1 + 2 * (M - 1) / d + (1 + 2 * - g + M) / d) with (4 * M / d) by (rewrite <- D; field; lra). replace (1 + 2 / 3 + 1) with (8 / 3) by field.
  assert (ID : 38 / 100 <= / d <= 40 / 100) by (split; [apply Rle_trans with (/ (26 / 10)); [lra|apply Rinv_le; lra]|apply Rle_trans with (/ (255 / 100)); [apply Rinv_le; lra|lra]]).
  assert (BV : / (4 * M / d) <= 11 / 10). { replace (/ (4 * M / d)) with (d * / (4 * M)) by (field; lra). apply Rle_trans with (26 / 10 * / (4 * (63 / 100))); [apply Rmult_le_compat; [lra|left; apply Rinv_0_lt_compat; lra|lra|apply Rinv_le; lra]|lra]. }
  assert (BV0 : 0 < / (4 * M / d)) by (apply Rinv_0_lt_compat, Rdiv_lt_0_compat; lra).
  assert (SC : 0 < 4 * M / d / (8 / 3) <= 1 / 2). { split; [apply Rdiv_lt_0_compat; [apply Rdiv_lt_0_compat|]; lra|]. unfold Rdiv. apply Rle_trans with (4 * (64 / 100) * (40 / 100) * / (8 * / 3)); [|lra]. apply Rmult_le_compat_r; [lra|]. apply Rmult_le_compat; lra. }
  set (sc := 4 * M / d / (8 / 3)) in *. set (bv := / (4 * M / d)) in *. clearbody sc bv.
  assert (AA1 : Rabs (2 * (M - 1) / d) <= 3 / 10). { unfold Rdiv. rewrite Rabs_mult, (Rabs_pos_eq (/ d)), Rabs_left by lra. apply Rle_trans with (- (2 * (M - 1)) * (40 / 100)); [apply Rmult_le_compat_l; lra|lra]. }
  assert (AA2 : Rabs ((1 + 2 * - g + M) / d) <= 3 / 10). { unfold Rdiv. rewrite Rabs_mult, (Rabs_pos_eq (/ d)), Rabs_pos_eq by lra. apply Rle_trans with ((1 + 2 * - g + M) * (40 / 100)); [apply Rmult_le_compat_l; lra|lra]. }
  set (a1 := 2 * (M - 1) / d) in *. set (a2 := (1 + 2 * - g + M) / d) in *. clearbody a1 a2. clear D d D1 D0 ID.
  assert (GG : 1 <= (1 + (1 + M) / (2 * g)) ^ 2 <= 8).
  { assert (0 < / (2 * g) <= / (2 * (46 / 100))) by (split; [apply Rinv_0_lt_compat; lra|apply Rinv_le; lra]). unfold Rdiv in *. set (y := / (2 * g)) in *.
    assert (0 <= (1 + M) * y) by (apply Rmult_le_pos; lra). assert ((1 + M) * y <= 164 / 100 * / (2 * (46 * / 100))) by (apply Rmult_le_compat; lra). split; [nra|]. apply Rle_trans with ((1 + 18 / 10) ^ 2); [apply pow_incr; lra|lra]. }
  set (G := (1 + (1 + M) / (2 * g)) ^ 2) in *. clearbody G. intros G0.
  replace (16 * 2 * (bv + / (8 / 3) + 0) * / 2 ^ 34) with (32 * (bv + 3 / 8) * / 2 ^ 34) by field.
  set (se := 32 * (bv + 3 / 8) * / 2 ^ 34). assert (SE : 0 < se <= / 2 ^ 28) by (unfold se; lra). clearbody se. 
  assert (SE2 : 0 < se * sc <= / 2 ^ 28) by (split; [apply Rmult_lt_0_compat; lra|]; apply Rle_trans with (/ 2 ^ 28 * 1); [apply Rmult_le_compat; lra|lra]). set (eb := se * sc) in *. clearbody eb.
  unfold scaled. apply one_section; cbn [d_id d_G d_ea d_eb]; [exact G0|lra|lra| |].
  - unfold d_A. cbn [d_id d_ea i_a1 i_a2]. pose proof (Rabs_pos a1). pose proof (Rabs_pos a2). lra.
  - unfold d_B, i_B. cbn [d_id d_eb i_b0 i_b1 i_b2]. rewrite !(Rabs_pos_eq sc), !(Rabs_pos_eq (2 / 3 * sc)) by lra. lra.
Qed.
Lemma ex_dfall_sh : dfall_ok (257 / 256) 2 (padded (sh_chain false (1 / 4) 20 2) (maxStagesOf LSh 2)) 1 /\ dfall (padded (sh_chain false (1 / 4) 20 2) (maxStagesOf LSh 2)) 1 <= 2 ^ 15.
Proof.
  assert (PD : padded (sh_chain false (1 / 4) 20 2) (maxStagesOf LSh 2) = sh_chain false (1 / 4) 20 2) by (unfold padded; change (Z.to_nat (maxStagesOf LSh 2) - length (sh_chain false (1 / 4) 20 2))%nat with 0%nat; apply app_nil_r). rewrite PD.
  pose proof shx_scale_err as SE.
  pose proof (c85_gain false (1 / 4) 20 2 0 ltac:(lra) ltac:(lia) ltac:(vm_compute; lia)) as G0. revert G0.
  unfold sh_chain. change (bw_sections 2) with 1%nat. cbn [seq map Nat.eqb]. unfold sh_section. rewrite shx_scale. cbn [Nat.eqb]. rewrite shx_ideal, shx_err. set (se := sh_scale_error false (1 / 4) 20 2) in *. clearbody se.
  assert (GG : 1 <= sh_gain_bound false (1 / 4) 20 2 0 <= 8).
  { destruct shx_vals as (T & G2 & SG). unfold sh_gain_bound. change (Nat.ltb 0 (2 / 2)) with true. cbv iota zeta. rewrite T. pose proof (sh_g_pos 2 20) as GP. assert (SP : 0 < sin (ch_angle 2 0)) by (apply angle_pos; vm_compute; lia).
    assert (QQ : (1 + (1 / sh_g 2 20) ^ 2) / (2 * (1 / sh_g 2 20) * sin (ch_angle 2 0)) = (1 + shx_q) / (2 * shx_r)). { rewrite <- SG, <- G2. field. lra. }
    rewrite QQ. destruct shx_rng as (Q & R & _). set (q := shx_q) in *. set (r := shx_r) in *.
    assert (1 <= (1 + q) / (2 * r) <= 17 / 10) by (split; [apply (proj1 (Rle_div_r _ _ (2 * r) ltac:(lra)))|apply (proj2 (Rle_div_l _ _ (2 * r) ltac:(lra)))]; lra).
    set (w := (1 + q) / (2 * r)) in *. nra. }
  set (G := sh_gain_bound false (1 / 4) 20 2 0) in *. clearbody G. unfold scaled. cbn [i_a1 i_a2 i_b0 i_b1 i_b2]. intros G0.
  destruct shx_rng as (QR & _ & CR & HR). set (sc := shx_q) in *. set (c := shx_c) in *. set (h := shx_h) in *. clearbody sc c h.
  assert (SE2 : 0 < se * sc <= / 2 ^ 33) by (split; [apply Rmult_lt_0_compat; lra|]; apply Rle_trans with (/ 2 ^ 35 * 4); [apply Rmult_le_compat; lra|lra]). set (eb := se * sc) in *. clearbody eb.
  assert (CS : 0 <= c * sc <= 65 / 100 * (3163 / 1000)) by (split; [apply Rmult_le_pos; lra|apply Rmult_le_compat; lra]). assert (HS : 0 <= h * sc <= 25 / 100 * (3163 / 1000)) by (split; [apply Rmult_le_pos; lra|apply Rmult_le_compat; lra]).
  apply one_section; cbn [d_id d_G d_ea d_eb]; [exact G0|lra|lra| |].
  - unfold d_A. cbn [d_id d_ea i_a1 i_a2]. rewrite Rabs_Ropp, !Rabs_pos_eq by lra. lra.
  - unfold d_B, i_B. cbn [d_id d_eb i_b0 i_b1 i_b2]. rewrite Rmult_1_l, !Rabs_pos_eq by lra. lra.
Qed.
Lemma ex_c91 : libm_design design_libm /\ libm_response design_libm /\ B2R (fnorm 1 (-2)) = 1 / 4 /\ bw_scale_error false (1 / 4) 3 <= / 8 /\
  1 <= 129 / 128 /\ (129 / 128) ^ 2 <= 2 /\
  dfall_ok (129 / 128) 2 (padded (bw_chain false (1 / 4) 3) (maxStagesOf LP 4)) 1 /\ dfall (padded (bw_chain false (1 / 4) 3) (maxStagesOf LP 4)) 1 <= 2 ^ 23.
Proof.
  destruct ex_c66 as (A & B & C & D & _). destruct ex_dfall as (E & F). split; [exact A|]. split; [exact B|]. split; [exact C|]. split; [exact D|]. split; [lra|]. split; [lra|]. split; [exact E|exact F].
Qed.
Lemma ex_c91_ch : ch_scale_error true false (1 / 4) 10 2 <= / 2 ^ 28 /\ dfall_ok (257 / 256) 2 (padded (ch_chain true false (1 / 4) 10 2) (maxStagesOf LP 2)) 1 /\ dfall (padded (ch_chain true false (1 / 4) 10 2) (maxStagesOf LP 2)) 1 <= 2 ^ 15.
Proof. destruct ex_c76 as (_ & _ & _ & _ & _ & _ & _ & _ & _ & _ & A & _). destruct ex_dfall_ch as (E & F). split; [exact A|]. split; [exact E|exact F]. Qed.
Lemma ex_c91_sh : sh_scale_error false (1 / 4) 20 2 <= / 2 ^ 35 /\ dfall_ok (257 / 256) 2 (padded (sh_chain false (1 / 4) 20 2) (maxStagesOf LSh 2)) 1 /\ dfall (padded (sh_chain false (1 / 4) 20 2) (maxStagesOf LSh 2)) 1 <= 2 ^ 15.
Proof. pose proof shx_scale_err as (_ & A). destruct ex_dfall_sh as (E & F). split; [exact A|]. split; [exact E|exact F]. Qed.
Lemma ex_falling : 1 < 129 / 128 /\ 0 <= 2 /\ falling (129 / 128) 2 0 > 1.
Proof. pose proof g_pos. unfold falling. cbn [pow]. lra. Qed.
