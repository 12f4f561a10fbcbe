(** Examples for Butterworth shelves in binary64: a library that rounds correctly; second order low shelf of 20 dB at a quarter of the sampling rate. *)
From Coq Require Import ZArith List Bool Reals Lra Lia.
From Coquelicot Require Import Coquelicot.
From Flocq Require Import Core.Raux Core.Defs IEEE754.BinarySingleNaN.
From Verif Require Import Num Outcome Biquad Types State Cascade PoleFilter History CallSpec Float64 FloatSpec FloatProofs SampleLemmas RoundSpec RoundProofs RoundRun DblPi DblSpec DblProofs DblLemmas RbjShProofs RelDbl BwDblSpec CplxDbl BwDbl BwDblFinal
  ChainSpec ChCoefSpec ChDblSpec ChDbl ChDblEx ChScaleSpec ChScale ChOut SigSpec RespOut2 DesignSpec ShelfSpec RespDblSpec RespDbl RespDblLemmas RespOutSpec RespOut RespOut2 BwDbl3 ShelfDblSpec ShelfExact ShelfOut.
Import ListNotations.
Local Open Scope R_scope.

Lemma p10_5 x : - 5 <= x <= 5 -> / 10 ^ 5 <= Rpower 10 x <= 10 ^ 5.
Proof.
  intros H. assert (E : Rpower 10 5 = 10 ^ 5). { replace 5 with (INR 5) at 1 by (simpl; ring). rewrite Rpower_pow by lra. reflexivity. }
  split; [rewrite <- E, <- Rpower_Ropp|rewrite <- E]; apply Rle_Rpower; lra.
Qed.
Lemma rp16 x y : / 2 ^ 16 <= x <= 2 ^ 16 -> 0 <= y <= 1 -> / 2 ^ 16 <= Rpower x y <= 2 ^ 16.
Proof.
  intros H Hy. assert (E : forall w, 0 < w -> Rpower w 1 = w) by (intros; apply Rpower_1; assumption).
  assert (L : - (16 * ln 2) <= ln x <= 16 * ln 2).
  { replace (16 * ln 2) with (ln (2 ^ 16)) by (rewrite ln_pow by lra; simpl; ring). rewrite <- ln_Rinv by lra. split; apply ln_le; lra. }
  pose proof ln_lt_2 as L2. assert (P : 2 ^ 16 = exp (16 * ln 2)). { replace (16 * ln 2) with (ln (2 ^ 16)) by (rewrite ln_pow by lra; simpl; ring). rewrite exp_ln by lra. reflexivity. }
  unfold Rpower. rewrite P. rewrite <- exp_Ropp. split; apply exp_le; [|].
  - assert (y * ln x >= y * - (16 * ln 2)) by (apply Rle_ge, Rmult_le_compat_l; lra). assert (y * (16 * ln 2) <= 1 * (16 * ln 2)) by (apply Rmult_le_compat_r; lra). lra.
  - assert (y * ln x <= y * (16 * ln 2)) by (apply Rmult_le_compat_l; lra). assert (y * (16 * ln 2) <= 1 * (16 * ln 2)) by (apply Rmult_le_compat_r; lra). lra.
Qed.
Lemma bwshelf_ok : libm_bwshelf cheb_libm.
Proof.
  assert (F10 : B2R (fofZ 10) = 10) by (apply fofZ_val; lia). pose proof tiny_uu as TU. pose proof mid_big as BB. pose proof tiny_pos as TP.
  assert (T75 : tiny <= / 2 ^ 75). { pose proof tiny_900 as T. assert (/ 2 ^ 900 <= / 2 ^ 75) by (apply Rinv_le; [lra|apply Rle_pow; [lra|lia]]). lra. }
  split; [|split].
  - intros r th Fr Ft Hr Ht. cbn [lm_polar cheb_libm design_libm]. eexists. split; [reflexivity|].
    assert (M1 : Cmod (B2R r * cos (B2R th), B2R r * sin (B2R th))%R = Rabs (B2R r)).
    { unfold Cmod. cbn [fst snd]. pose proof (sin2_cos2 (B2R th)) as Q. unfold Rsqr in Q.
      replace ((B2R r * cos (B2R th)) ^ 2 + (B2R r * sin (B2R th)) ^ 2) with (Rsqr (B2R r)) by (unfold Rsqr; transitivity (B2R r * B2R r * (sin (B2R th) * sin (B2R th) + cos (B2R th) * cos (B2R th))); [rewrite Q; ring|ring]). apply sqrt_Rsqr_abs. }
    assert (RA : / 128 <= Rabs (B2R r) <= 128) by (rewrite Rabs_left by lra; lra).
    destruct (to_cpx_ok (B2R r * cos (B2R th), B2R r * sin (B2R th))%R ltac:(rewrite M1; lra)) as [A1 A2]. split; [exact A1|]. rewrite M1 in A2. eapply Rle_trans; [exact A2|]. unfold uu in *. lra.
  - cbn [lm_pow cheb_libm]. intros x Fx Hx. rewrite F10. pose proof (p10_5 (B2R x) Hx) as P.
    apply (rel_lib (Rpower 10) (-5) 5); [|exact Fx|exact Hx]. intros y Hy. pose proof (p10_5 y Hy). assert (/ 2 ^ 20 <= / 10 ^ 5) by lra. lra.
  - intros x y Fx Fy Hx Hy. cbn [lm_pow cheb_libm]. pose proof (rp16 _ _ Hx Hy) as P. set (w := Rpower (B2R x) (B2R y)) in *. destruct (to_f64_ok w ltac:(rewrite Rabs_pos_eq; lra)) as [A1 A2]. split; [exact A1|].
    rewrite (Rabs_pos_eq w) in A2 by lra. eapply Rle_trans; [exact A2|]. unfold uu in *. lra.
Qed.

(** the section: with q = sqrt 10 and r^2 = q / 2, coefficients -c, h over 1, c, h *)
Definition shx_q : R := sqrt 10.
Definition shx_r : R := sqrt (sqrt 10 / 2).
Definition shx_c : R := 2 * (shx_q - 1) / (1 + 2 * shx_r + shx_q).
Definition shx_h : R := (1 - 2 * shx_r + shx_q) / (1 + 2 * shx_r + shx_q).
Lemma shx_rng : 316 / 100 <= shx_q <= 3163 / 1000 /\ 1256 / 1000 <= shx_r <= 1258 / 1000 /\ 64 / 100 <= shx_c <= 65 / 100 /\ 24 / 100 <= shx_h <= 25 / 100.
Proof.
  assert (Q : 316 / 100 <= shx_q <= 3163 / 1000).
  { unfold shx_q. assert (S : sqrt 10 * sqrt 10 = 10) by (apply sqrt_sqrt; lra). pose proof (sqrt_pos 10). nra. }
  assert (R : 1256 / 1000 <= shx_r <= 1258 / 1000).
  { unfold shx_r. fold shx_q. assert (S : sqrt (shx_q / 2) * sqrt (shx_q / 2) = shx_q / 2) by (apply sqrt_sqrt; lra). pose proof (sqrt_pos (shx_q / 2)). nra. }
  split; [exact Q|]. split; [exact R|]. unfold shx_c, shx_h. set (q := shx_q) in *. set (r := shx_r) in *. assert (D : 0 < 1 + 2 * r + q) by lra.
  repeat split; [apply (proj1 (Rle_div_r _ _ _ D))|apply (proj2 (Rle_div_l _ _ _ D))|apply (proj1 (Rle_div_r _ _ _ D))|apply (proj2 (Rle_div_l _ _ _ D))]; lra.
Qed.
Lemma shx_vals : tan (PI * (1 / 4)) = 1 /\ sh_g 2 20 ^ 2 = shx_q /\ sin (ch_angle 2 0) * sh_g 2 20 = shx_r.
Proof.
  split; [replace (PI * (1 / 4)) with (PI / 4) by field; apply tan_PI4|].
  assert (G2 : sh_g 2 20 ^ 2 = shx_q).
  { unfold sh_g, shx_q. rewrite <- Rpower_pow by apply exp_pos. rewrite Rpower_mult. replace (20 / 20 / (2 * INR 2) * INR 2) with (/ 2) by (simpl; field). apply Rpower_sqrt. lra. }
  split; [exact G2|].
  assert (S : sin (ch_angle 2 0) ^ 2 = 1 / 2).
  { unfold ch_angle. match goal with |- sin ?a ^ 2 = _ => replace a with (PI / 4) by (simpl; field) end. rewrite sin_PI4. assert (sqrt 2 * sqrt 2 = 2) by (apply sqrt_sqrt; lra). pose proof (Rlt_sqrt2_0). replace ((1 / sqrt 2) ^ 2) with (/ (sqrt 2 * sqrt 2)) by (field; lra). rewrite H. lra. }
  pose proof (sh_g_pos 2 20) as GP. assert (SP : 0 < sin (ch_angle 2 0)) by (apply angle_pos; vm_compute; lia). unfold shx_r. fold shx_q.
  symmetry. apply sqrt_lem_1.
  - pose proof shx_rng. lra.
  - apply Rmult_le_pos; lra.
  - transitivity (sin (ch_angle 2 0) ^ 2 * sh_g 2 20 ^ 2); [ring|]. rewrite S, G2. field.
Qed.
Lemma shx_ideal : sh_ideal false (1 / 4) 20 2 0 = Ideal (- shx_c) shx_h 1 shx_c shx_h.
Proof.
  destruct shx_vals as (T & G2 & SG). destruct shx_rng as (Q & R & _). pose proof (sh_g_pos 2 20) as GP. unfold sh_ideal. change (Nat.ltb 0 (2 / 2)) with true. cbv iota zeta. rewrite T.
  unfold bl_pair. cbn [fst snd]. rewrite !Rmult_1_r, !pow1, !Rmult_1_l.
  assert (SI : sin (ch_angle 2 0) / sh_g 2 20 = shx_r / shx_q). { rewrite <- SG, <- G2. field. lra. }
  rewrite SI, SG, G2. unfold shx_c, shx_h. set (q := shx_q) in *. set (r := shx_r) in *. f_equal; field; repeat split; lra.
Qed.
Lemma shx_scale : sh_scale false (1 / 4) 20 2 = shx_q.
Proof.
  unfold sh_scale. change (bw_sections 2) with 1%nat. cbn [seq map fold_right negb]. rewrite shx_ideal. unfold peak_inv. cbn [i_a1 i_a2 i_b0 i_b1 i_b2]. destruct shx_rng as (Q & R & _).
  unfold shx_c, shx_h. set (q := shx_q) in *. set (r := shx_r) in *. field. repeat split; lra.
Qed.
Lemma shx_cascade : sh_cascade false (1 / 4) 20 2 = [Ideal (- shx_c) shx_h (1 * shx_q) (shx_c * shx_q) (shx_h * shx_q)].
Proof. unfold sh_cascade, sh_section. change (bw_sections 2) with 1%nat. cbn [seq map Nat.eqb]. rewrite shx_ideal, shx_scale. reflexivity. Qed.
Lemma shx_err : sh_error (1 / 4) = / 2 ^ 43.
Proof. unfold sh_error. lra. Qed.
Lemma shx_scale_err : 0 < sh_scale_error false (1 / 4) 20 2 <= / 2 ^ 35.
Proof.
  unfold sh_scale_error, sh_cond. change (bw_sections 2) with 1%nat. cbn [seq map fold_right negb]. rewrite shx_ideal, shx_err. unfold peak_cond. cbn [i_a1 i_a2 i_b0 i_b1 i_b2]. replace (INR 2) with 2 by (simpl; ring).
  destruct shx_rng as (_ & _ & C & H). set (c := shx_c) in *. set (h := shx_h) in *. clearbody c h.
  assert (A : 0 < / (1 + -1 * - c + h) <= / 1) by (split; [apply Rinv_0_lt_compat; lra|apply Rinv_le; lra]). assert (B : 0 < / (1 + -1 * c + h) <= / (1 / 2)) by (split; [apply Rinv_0_lt_compat; lra|apply Rinv_le; lra]).
  set (a := / (1 + -1 * - c + h)) in *. set (b := / (1 + -1 * c + h)) in *. lra.
Qed.
Lemma ex_c85 : libm_design cheb_libm /\ libm_response cheb_libm /\ libm_bwshelf cheb_libm /\
  FloatSpec.is_fin (fnorm 1 (-2)) /\ B2R (fnorm 1 (-2)) = 1 / 4 /\ sh_cut_ok (1 / 4) /\ FloatSpec.is_fin (fofZ 20) /\ B2R (fofZ 20) = 20 /\ sh_gain_ok 20 /\
  sh_scale_error false (1 / 4) 20 2 <= / 2 ^ 35 /\
  chain_ok (sh_chain false (1 / 4) 20 2) 1 /\ chain_error (sh_chain false (1 / 4) 20 2) 1 0 <= 1 / 10 ^ 8.
Proof.
  destruct cheb_libm_ok as (A1 & A2 & _). split; [exact A1|]. split; [exact A2|]. split; [exact bwshelf_ok|]. split; [reflexivity|].
  split. { rewrite (sf_val (fnorm 1 (-2)) _ (ltac:(vm_compute; reflexivity) : _ = SpecFloat.S754_finite false 4503599627370496 (-54))). unfold SF2R, Defs.F2R. cbn. lra. }
  split; [unfold sh_cut_ok; lra|]. destruct (fofZ_val 20 ltac:(lia)) as [Z1 Z2]. split; [exact Z2|]. split; [exact Z1|]. split; [unfold sh_gain_ok; lra|].
  pose proof shx_scale_err as SE. split; [apply SE|].
  pose proof (c85_gain false (1 / 4) 20 2 0 ltac:(lra) ltac:(lia) ltac:(vm_compute; lia)) as G0. revert G0.
  unfold sh_chain. change (bw_sections 2) with 1%nat. cbn [seq map Nat.eqb]. unfold sh_section. rewrite shx_scale. cbn [Nat.eqb]. rewrite shx_ideal, shx_err. set (se := sh_scale_error false (1 / 4) 20 2) in *. clearbody se.
  assert (GG : 1 <= sh_gain_bound false (1 / 4) 20 2 0 <= 8).
  { destruct shx_vals as (T & G2 & SG). unfold sh_gain_bound. change (Nat.ltb 0 (2 / 2)) with true. cbv iota zeta. rewrite T. pose proof (sh_g_pos 2 20) as GP. assert (SP : 0 < sin (ch_angle 2 0)) by (apply angle_pos; vm_compute; lia).
    assert (QQ : (1 + (1 / sh_g 2 20) ^ 2) / (2 * (1 / sh_g 2 20) * sin (ch_angle 2 0)) = (1 + shx_q) / (2 * shx_r)). { rewrite <- SG, <- G2. field. lra. }
    rewrite QQ. destruct shx_rng as (Q & R & _). set (q := shx_q) in *. set (r := shx_r) in *.
    assert (1 <= (1 + q) / (2 * r) <= 17 / 10) by (split; [apply (proj1 (Rle_div_r _ _ (2 * r) ltac:(lra)))|apply (proj2 (Rle_div_l _ _ (2 * r) ltac:(lra)))]; lra).
    set (w := (1 + q) / (2 * r)) in *. nra. }
  set (G := sh_gain_bound false (1 / 4) 20 2 0) in *. clearbody G. unfold scaled. cbn [i_a1 i_a2 i_b0 i_b1 i_b2]. intros G0.
  destruct shx_rng as (QR & _ & CR & HR). set (sc := shx_q) in *. set (c := shx_c) in *. set (h := shx_h) in *. clearbody sc c h.
  assert (SE2 : 0 < se * sc <= / 2 ^ 33) by (split; [apply Rmult_lt_0_compat; lra|]; apply Rle_trans with (/ 2 ^ 35 * 4); [apply Rmult_le_compat; lra|lra]). set (eb := se * sc) in *. clearbody eb.
  pose proof g_pos as GP. assert (GS : g_abs <= / 2 ^ 60) by (unfold g_abs; apply Rinv_le_contravar; [apply pow_lt; lra|apply Rle_pow; [lra|lia]]).
  assert (B9 : 2 ^ 60 <= 2 ^ 900) by (apply Rle_pow; [lra|lia]).
  cbn [chain_ok chain_error]. unfold d_ok, d_out, d_err, d_A, d_B, i_B. cbn [d_id d_G d_ea d_eb i_a1 i_a2 i_b0 i_b1 i_b2].
  assert (CS : 0 <= c * sc <= 65 / 100 * (3163 / 1000)) by (split; [apply Rmult_le_pos; lra|apply Rmult_le_compat; lra]). assert (HS : 0 <= h * sc <= 25 / 100 * (3163 / 1000)) by (split; [apply Rmult_le_pos; lra|apply Rmult_le_compat; lra]).
  rewrite Rabs_Ropp, Rmult_1_l, !(Rabs_pos_eq sc), !(Rabs_pos_eq (c * sc)), !(Rabs_pos_eq (h * sc)), (Rabs_pos_eq c), (Rabs_pos_eq h) by lra. unfold RoundSpec.g_rel.
  set (A := c + h + 2 * / 2 ^ 43). assert (AB : 0 <= A <= 1) by (unfold A; lra). clearbody A.
  set (B := sc + c * sc + h * sc + 3 * eb). assert (BB : 0 <= B <= 8) by (unfold B; lra). clearbody B.
  set (ga := g_abs) in *. clearbody ga. set (P := 2 ^ 900) in *. clearbody P.
  assert (K1 : G * A <= 8) by (apply Rle_trans with (8 * 1); [apply Rmult_le_compat; lra|lra]). assert (K0 : 0 <= G * A) by (apply Rmult_le_pos; lra).
  assert (K2 : G * B <= 64) by (apply Rle_trans with (8 * 8); [apply Rmult_le_compat; lra|lra]). assert (K3 : 0 <= G * B) by (apply Rmult_le_pos; lra).
  split; [split; [split; [exact G0|]|exact I]|].
  - replace (2 * G * A) with (2 * (G * A)) by ring. replace (2 * G * B * (1 + 1)) with (4 * (G * B)) by ring. lra.
  - replace (G * (sc + c * sc + h * sc) * 0) with 0 by ring. rewrite Rplus_0_l, !Rmult_1_r.
    set (w := B + (1 + B) * ga). assert (WW : 0 <= w <= 9) by (unfold w; assert ((1 + B) * ga <= 9 * / 2 ^ 60) by (apply Rmult_le_compat; lra); assert (0 <= (1 + B) * ga) by (apply Rmult_le_pos; lra); lra).
    assert (W5 : 0 <= (1 + B) * ga <= 9 * / 2 ^ 60) by (split; [apply Rmult_le_pos; lra|apply Rmult_le_compat; lra]). clearbody w. set (w5 := (1 + B) * ga) in *. clearbody w5.
    match goal with |- 6 * G * (?r * (1 + 4 * A * G) * w + w5) + _ <= _ => assert (R0 : 0 <= r <= / 2 ^ 45) by lra; set (rr := r) in * end. clearbody rr.
    replace (6 * G * (rr * (1 + 4 * A * G) * w + w5) + G * (3 * eb + 4 * / 2 ^ 43 * G * B)) with (G * (6 * (rr * ((1 + 4 * (G * A)) * w) + w5) + (3 * eb + 4 * / 2 ^ 43 * (G * B)))) by ring.
    assert (Y1 : 0 <= (1 + 4 * (G * A)) * w <= 33 * 9) by (split; [apply Rmult_le_pos; lra|apply Rmult_le_compat; lra]).
    assert (Y2 : 0 <= rr * ((1 + 4 * (G * A)) * w) <= / 2 ^ 45 * (33 * 9)) by (split; [apply Rmult_le_pos; lra|apply Rmult_le_compat; lra]).
    eapply Rle_trans; [apply Rmult_le_compat_r with (r2 := 8); lra|]. lra.
Qed.
Lemma ex_c85_resp : let e := sh_scale_error false (1 / 4) 20 2 in let ds := sh_cascade false (1 / 4) 20 2 in
  e <= / 2 ^ 10 /\ resp_rel e 1 * i_cond ds (1 / 4) <= / 4 /\ resp_error e ds (1 / 4) <= 1 / 10 ^ 6 /\ Cmod (i_resp ds (1 / 4)) ^ 2 = 10.
Proof.
  intros e ds. pose proof shx_scale_err as SE. fold e in SE. split; [lra|].
  destruct shx_rng as (QR & _ & CR & HR). pose proof shx_cascade as DS. fold ds in DS.
  assert (DM : 3 / 4 <= Cmod (cprod (map (i_den (1 / 4)) ds))).
  { rewrite DS. unfold cprod, i_den, poly2. cbn [map fold_right i_a1 i_a2]. rewrite quarter_z.
    match goal with |- _ <= Cmod ?z => apply Rle_trans with (Rabs (fst z)); [|apply re_Cmod] end.
    unfold RtoC, Cplus, Cmult. cbn [fst snd]. apply Rle_trans with (1 - shx_h); [lra|]. eapply Rle_trans; [|apply Rle_abs]. right. ring. }
  set (dm := Cmod (cprod (map (i_den (1 / 4)) ds))) in *.
  assert (DI : 0 < / dm <= / (3 / 4)) by (split; [apply Rinv_0_lt_compat; lra|apply Rinv_le; lra]).
  assert (C : 0 <= i_cond ds (1 / 4) <= 8 / 3).
  { unfold i_cond. fold dm. rewrite DS. cbn [map fold_right]. unfold den_abs. cbn [i_a1 i_a2]. rewrite Rabs_Ropp, !Rabs_pos_eq, Rmult_1_r by lra. unfold Rdiv. split; [apply Rmult_le_pos; lra|].
    apply Rle_trans with (2 * / (3 / 4)); [apply Rmult_le_compat; lra|lra]. }
  assert (L : 0 <= i_level ds (1 / 4) <= 11).
  { unfold i_level. fold dm. rewrite DS. cbn [map fold_right]. unfold num_abs. cbn [i_b0 i_b1 i_b2]. rewrite !Rabs_mult, Rabs_R1, !Rabs_pos_eq by lra. rewrite !Rmult_1_r, !Rmult_1_l. unfold Rdiv.
    assert (0 <= shx_c * shx_q <= 65 / 100 * (3163 / 1000)) by (split; [apply Rmult_le_pos; lra|apply Rmult_le_compat; lra]). assert (0 <= shx_h * shx_q <= 25 / 100 * (3163 / 1000)) by (split; [apply Rmult_le_pos; lra|apply Rmult_le_compat; lra]).
    split; [apply Rmult_le_pos; lra|]. apply Rle_trans with (8 * / (3 / 4)); [apply Rmult_le_compat; lra|lra]. }
  assert (P : / 2 ^ 300 <= / 2 ^ 60) by (apply Rinv_le; [apply pow_lt; lra|apply Rle_pow; [lra|lia]]).
  assert (RR : 0 <= resp_rel e 1 <= / 2 ^ 28) by (unfold resp_rel; replace (INR 2) with 2 by (simpl; ring); lra).
  split; [apply Rle_trans with (/ 2 ^ 28 * (8 / 3)); [apply Rmult_le_compat; lra|lra]|].
  split.
  - unfold resp_error. replace (length ds) with 1%nat by (rewrite DS; reflexivity). set (rr := resp_rel e 1) in *. set (p := / 2 ^ 300) in *. clearbody p rr.
    assert (X : 0 <= rr * i_cond ds (1 / 4) <= / 2 ^ 28 * (8 / 3)) by (split; [apply Rmult_le_pos; lra|apply Rmult_le_compat; lra]).
    assert (rr * i_cond ds (1 / 4) * i_level ds (1 / 4) <= / 2 ^ 28 * (8 / 3) * 11) by (apply Rmult_le_compat; lra). lra.
  - destruct (c85_ideal false (1 / 4) 20 2 ltac:(lia) eq_refl ltac:(lra)) as (_ & _ & G & _). fold ds in G. rewrite G. replace (20 / 20) with 1 by field. apply Rpower_1. lra.
Qed.

(** set up, three samples, an order that is too large *)
Definition shx_p : params (F64 cheb_libm) := MkParams (N := F64 cheb_libm) (fnorm 1 (-2)) (fofZ 0) (fofZ 20) (fofZ 0).
Definition shx_calls : list (op (F64 cheb_libm)) :=
  [OpSetupN (Some 2%Z) shx_p; OpFilter (fofZ 1 : T (F64 cheb_libm)); OpFilter (fofZ 5 : T (F64 cheb_libm)); OpFilter (fofZ 0 : T (F64 cheb_libm)); OpSetupN (Some 99%Z) shx_p].
Lemma ex_c85_used : (forall r th, lm_polar cheb_libm r th <> None) /\ List.Forall op_ok shx_calls /\
  exists f0, steps (Bw, LSh) 4 shx_calls (filt_init DF2 (Bw, LSh) 4) = Some f0 /\ calm (Bw, LSh) 4 (Some 2%Z) shx_p shx_calls (filt_init DF2 (Bw, LSh) 4) /\ filt_numStages f0 = 1%Z.
Proof.
  split; [intros r th; discriminate|]. split; [repeat constructor|].
  destruct ex_c85 as (M & R & S & F1 & V1 & C1 & F2 & V2 & C2 & SE & _).
  destruct (c85_parts cheb_libm false shx_p 2 4 DF2 M R S F1 F2) as (f1 & bs & d & E & _ & _ & _ & SN & NS & _).
  - change (q_fc shx_p) with (fnorm 1 (-2)). rewrite V1. exact C1.
  - change (q_gain shx_p) with (fofZ 20). rewrite V2. exact C2.
  - lia.
  - lia.
  - change (q_fc shx_p) with (fnorm 1 (-2)). change (q_gain shx_p) with (fofZ 20). rewrite V1, V2. lra.
  - assert (L1 : length bs = 1%nat) by (match type of SN with List.Forall2 _ _ ?l => assert (Q : length bs = length l) by (clear - SN; induction SN; cbn [length]; congruence) end; rewrite Q; reflexivity). rewrite L1 in NS.
    set (f2 := fst (filt_filter (fst (filt_filter (fst (filt_filter f1 (fofZ 1 : T (F64 cheb_libm)))) (fofZ 5 : T (F64 cheb_libm)))) (fofZ 0 : T (F64 cheb_libm)))).
    assert (K : filt_setupN (Bw, LSh) 4 (Some 99%Z) shx_p f2 = Throw E_order f2) by (destruct f2 as [[? ? ?] ?]; reflexivity).
    change (filt_setupN (N := F64 cheb_libm) (Bw, LSh) 4 (Some 2%Z) shx_p (filt_init DF2 (Bw, LSh) 4) = Ok f1 tt) in E.
    exists f2. split; [|split].
    + unfold shx_calls. cbn [steps step]. rewrite E. cbn [after]. fold f2. rewrite K. reflexivity.
    + unfold shx_calls. cbn [calm step op_threw]. rewrite E. cbn [after threw]. fold f2. rewrite K. cbn [after threw]. split; [exact I|]. split; [exact I|]. split; [exact I|]. split; [exact I|].
      split; [discriminate|exact I].
    + assert (P : forall (f : filt (F64 cheb_libm)) x, filt_numStages (fst (filt_filter f x)) = filt_numStages f).
      { intros f x. unfold filt_filter. destruct (cs_filter (fl_cs f) x). reflexivity. }
      unfold f2. rewrite !P. exact NS.
Qed.
