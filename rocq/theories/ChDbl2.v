(** Proofs: constants of the Chebyshev prototypes in binary64, the widths of the ellipses. *)
From Coq Require Import ZArith List Bool Reals Lra Lia.
From Coquelicot Require Import Coquelicot.
From Flocq Require Import Core.Raux Core.Defs IEEE754.BinarySingleNaN.
From Verif Require Import Num Outcome Types Biquad Chebyshev Float64 FloatSpec FloatProofs SampleLemmas RoundSpec RoundProofs DblPi DblSpec DblProofs DblLemmas RbjShProofs RelDbl BwDblSpec BwDbl ChCoefSpec ChDblSpec ChDbl.
Local Open Scope R_scope.

Lemma inv_rng a x b : 0 < a -> a <= x <= b -> 1 / b <= 1 / x <= 1 / a.
Proof. intros. unfold Rdiv. rewrite !Rmult_1_l. split; apply Rinv_le; lra. Qed.

Section Const.
  Variable m : libm.
  Hypothesis HM : libm_cheb m.
  Notation one := (fofZ 1).
  Notation ln10f := (fnorm 5184960683398422 (-51)).
  Variable second : bool.
  Variable db : f64.
  Hypothesis Fd : is_finite db = true.
  Hypothesis Hd : ch_db_ok second (B2R db).
  Notation L := (B2R db / 10 * ln 10).
  Notation E := (Rpower 10 (B2R db / 10)).

  Lemma db_rng : 1 / 64 <= B2R db <= 80.
  Proof. unfold ch_db_ok in Hd. destruct second; lra. Qed.
  Lemma L_rng : (if second then 23 / 100 else 23 / 6400) <= L <= (if second then 37 / 2 else 28 / 5).
  Proof. pose proof ln10_rng. unfold ch_db_ok in Hd. destruct second; nra. Qed.
  Lemma rel_arg : rel (fmul (fmul db (flit 1 10)) ln10f) L (52 / 10 * uu).
  Proof.
    pose proof db_rng. pose proof ln10_rng. replace L with (B2R db * (1 / 10) * ln 10) by field.
    eapply rel_mul; [eapply rel_mul; [apply rel_val; [exact Fd|apply mid_of; lra]|exact rel_tenth|apply mid_of; lra|lra|unfold uu; lra|apply Rle_refl]|exact rel_ln10|apply mid_of; nra|unfold uu; lra|unfold uu; lra|unfold uu; lra].
  Qed.
  Lemma rel_narg : rel (fmul (fmul (Bopp db) (flit 1 10)) ln10f) (- L) (52 / 10 * uu).
  Proof.
    pose proof db_rng. pose proof ln10_rng. replace (- L) with (- B2R db * (1 / 10) * ln 10) by field.
    assert (M : mid (- B2R db * (1 / 10))) by (unfold mid; rewrite <- Ropp_mult_distr_l, Rabs_Ropp; apply mid_of; lra).
    eapply rel_mul; [eapply rel_mul; [apply rel_opp, rel_val; [exact Fd|apply mid_of; lra]|exact rel_tenth|exact M|lra|unfold uu; lra|apply Rle_refl]|exact rel_ln10| |unfold uu; lra|unfold uu; lra|unfold uu; lra].
    unfold mid. rewrite <- !Ropp_mult_distr_l, Rabs_Ropp. apply mid_of. nra.
  Qed.
  Lemma E_exp : E = exp L.
  Proof. reflexivity. Qed.
  Lemma E_low : 1 + L <= E.
  Proof. rewrite E_exp. apply exp_ineq1_le. Qed.
  Lemma E_up : E <= (if second then 10 ^ 8 else 256).
  Proof.
    unfold ch_db_ok in Hd. destruct second.
    - eapply Rle_trans; [apply (rpow10_le _ 8); lra|]. replace 8 with (INR 8) at 1 by (simpl; lra). rewrite Rpower_pow by lra. lra.
    - eapply Rle_trans; [apply (rpow10_le _ (12 / 5)); lra|].
      assert (12 / 5 * ln 10 <= ln 256).
      { assert (5 * (12 / 5 * ln 10) <= 5 * ln 256); [|lra].
        replace (5 * (12 / 5 * ln 10)) with (INR 12 * ln 10) by (simpl; lra). replace (5 * ln 256) with (INR 5 * ln 256) by (simpl; lra).
        rewrite <- !ln_pow by lra. left. apply ln_increasing; lra. }
      unfold Rpower. rewrite <- (exp_ln 256) by lra. apply exp_mono. exact H.
  Qed.
  (** exp, then minus 1 *)
  Definition Ef : f64 := if second then lm_exp m (fmul (fmul db (flit 1 10)) ln10f) else fdiv one (lm_exp m (fmul (fmul (Bopp db) (flit 1 10)) ln10f)).
  Lemma rel_E : rel Ef E ((if second then 121 else 387 / 10) * uu).
  Proof.
    pose proof L_rng as LR. pose proof E_low as EL. pose proof E_up as EU. destruct HM as (_ & _ & _ & HE & _). pose proof rel_arg as A1. pose proof rel_narg as A3. unfold Ef. destruct second.
    - clear A3. pose proof A1 as A. clear A1. pose proof A as (FA & _ & DA). rewrite (Rabs_pos_eq L) in DA by lra. set (x := fmul _ _) in *.
      assert (DA' : Rabs (B2R x - L) <= 112 * uu) by (eapply Rle_trans; [exact DA|]; unfold uu; lra).
      assert (X : -8 <= B2R x <= 24) by (apply Rabs_le_between in DA'; unfold uu in *; lra).
      pose proof (exp_rel (B2R x) L ltac:(unfold uu in *; lra)) as ER.
      eapply (rel_fn (lm_exp m) exp x L _ (1125 / 10 * uu) (/ 2 ^ 50) _ A); [apply HE; assumption|lra|rewrite <- E_exp; apply mid_of; lra| |unfold uu; lra|unfold uu; lra].
      eapply Rle_trans; [exact ER|]. rewrite (Rabs_pos_eq (exp L)) by (left; apply exp_pos). apply Rmult_le_compat_r; [left; apply exp_pos|unfold uu in *; lra].
    - clear A1. pose proof A3 as A. clear A3. pose proof A as (FA & _ & DA). rewrite Rabs_Ropp, (Rabs_pos_eq L) in DA by lra. set (x := fmul _ _) in *.
      assert (DA' : Rabs (B2R x - - L) <= 292 / 10 * uu) by (eapply Rle_trans; [exact DA|]; unfold uu; lra).
      assert (X : -8 <= B2R x <= 24) by (apply Rabs_le_between in DA'; unfold uu in *; lra).
      pose proof (exp_rel (B2R x) (- L) ltac:(unfold uu in *; lra)) as ER.
      assert (EI : exp (- L) = / E) by (rewrite E_exp; apply exp_Ropp).
      assert (EI2 : 1 / 256 <= / E <= 1) by (assert (/ 256 <= / E) by (apply Rinv_le; lra); assert (/ E <= / 1) by (apply Rinv_le; lra); lra).
      assert (A2 : rel (lm_exp m x) (exp (- L)) (376 / 10 * uu)).
      { eapply (rel_fn (lm_exp m) exp x (- L) _ (293 / 10 * uu) (/ 2 ^ 50) _ A); [apply HE; assumption|lra|rewrite EI; apply mid_of; lra| |unfold uu; lra|unfold uu; lra].
        eapply Rle_trans; [exact ER|]. rewrite (Rabs_pos_eq (exp (- L))) by (left; apply exp_pos). apply Rmult_le_compat_r; [left; apply exp_pos|unfold uu in *; lra]. }
      rewrite EI in A2. apply (rel_eq _ (1 / / E)); [|unfold Rdiv; rewrite Rmult_1_l, Rinv_inv; reflexivity].
      eapply rel_div; [exact rel_one|exact A2| |lra|unfold uu; lra|unfold uu; lra]. replace (1 / / E) with E by (unfold Rdiv; rewrite Rmult_1_l, Rinv_inv; reflexivity). apply mid_of. lra.
  Qed.
  Lemma rel_E1 : rel (fsub Ef one) (E - 1) ((if second then 660 else 11400) * uu).
  Proof.
    pose proof L_rng as LR. pose proof E_low as EL. pose proof E_up as EU. pose proof rel_E as A. pose proof tiny_uu as TU. pose proof mid_big as MB.
    assert (E0 : 1 <= E) by (destruct second; lra). assert (EB : E <= 10 ^ 8) by (destruct second; lra).
    pose proof (rel_ap _ _ _ A) as A1. rewrite (Rabs_pos_eq E) in A1 by lra. assert (M62 : 2 ^ 62 = 4611686018427387904) by lra.
    pose proof (ap_sub _ _ _ _ _ _ _ _ A1 (ap_ofZ 1 1 ltac:(lia) ltac:(rewrite Rabs_pos_eq; lra))) as S.
    eapply rel_of; [apply S|apply mid_of; destruct second; lra|].
    - destruct second; unfold uu in *; lra.
    - rewrite (Rabs_pos_eq (E - 1)) by lra. destruct second; unfold uu in *; lra.
  Qed.
  Notation y := (if second then sqrt (E - 1) else 1 / sqrt (E - 1)).
  Definition yf : f64 := fdiv one (fsqrt (if second then fdiv one (fsub Ef one) else fsub Ef one)).
  Lemma e_rng : if second then 47 / 100 <= sqrt (E - 1) <= 10 ^ 4 else 1 / 17 <= sqrt (E - 1) <= 16.
  Proof.
    pose proof L_rng as LR. pose proof E_low as EL. pose proof E_up as EU.
    destruct second; split.
    - apply Rsqr_incr_0; [rewrite Rsqr_sqrt by lra; unfold Rsqr; lra|lra|apply sqrt_pos].
    - rewrite <- (sqrt_square (10 ^ 4)) by lra. apply sqrt_le_1; lra.
    - apply Rsqr_incr_0; [rewrite Rsqr_sqrt by lra; unfold Rsqr; lra|lra|apply sqrt_pos].
    - rewrite <- (sqrt_square 16) by lra. apply sqrt_le_1; lra.
  Qed.
  Lemma rel_y : rel yf y ((if second then 335 else 5704) * uu).
  Proof.
    pose proof L_rng as LR. pose proof E_low as EL. pose proof E_up as EU. pose proof rel_E1 as A. pose proof e_rng as ER. unfold yf. destruct second.
    - assert (I : 1 / 10 ^ 8 <= 1 / (E - 1) <= 10) by (pose proof (inv_rng (1 / 10) (E - 1) (10 ^ 8) ltac:(lra) ltac:(lra)); lra).
      assert (EQ : sqrt (1 / (E - 1)) = 1 / sqrt (E - 1)). { rewrite sqrt_div_alt by lra. rewrite sqrt_1. reflexivity. }
      assert (SI : 1 / 10 ^ 4 <= 1 / sqrt (E - 1) <= 10) by (pose proof (inv_rng (1 / 10) (sqrt (E - 1)) (10 ^ 4) ltac:(lra) ltac:(lra)); lra).
      assert (A2 : rel (fdiv one (fsub Ef one)) (1 / (E - 1)) (662 * uu)) by (eapply rel_div; [exact rel_one|exact A|apply mid_of; lra|lra|unfold uu; lra|unfold uu; lra]).
      assert (A3 : rel (fsqrt (fdiv one (fsub Ef one))) (1 / sqrt (E - 1)) (333 * uu)).
      { rewrite <- EQ. eapply rel_sqrt; [exact A2|lra|rewrite EQ; apply mid_of; lra|unfold uu; lra|unfold uu; lra]. }
      apply (rel_eq _ (1 / (1 / sqrt (E - 1)))); [|field; lra].
      eapply rel_div; [exact rel_one|exact A3| |lra|unfold uu; lra|unfold uu; lra]. replace (1 / (1 / sqrt (E - 1))) with (sqrt (E - 1)) by (field; lra). apply mid_of. lra.
    - assert (A3 : rel (fsqrt (fsub Ef one)) (sqrt (E - 1)) (5702 * uu)).
      { eapply rel_sqrt; [exact A|lra|apply mid_of; lra|unfold uu; lra|unfold uu; lra]. }
      eapply rel_div; [exact rel_one|exact A3| |lra|unfold uu; lra|unfold uu; lra]. apply mid_of. pose proof (inv_rng (1 / 17) (sqrt (E - 1)) 16 ltac:(lra) ltac:(lra)). lra.
  Qed.
  Lemma y_rng : if second then 47 / 100 <= y <= 10 ^ 4 else 1 / 16 <= y <= 17.
  Proof.
    pose proof e_rng as ER. destruct second; [exact ER|].
    pose proof (inv_rng (1 / 17) (sqrt (E - 1)) 16 ltac:(lra) ltac:(lra)). lra.
  Qed.
  Lemma exp1_low : 539 / 200 <= exp 1.
  Proof.
    assert (E1 : exp 1 = exp (1 / 64) ^ 64). { rewrite <- Rpower_pow by apply exp_pos. unfold Rpower. rewrite ln_exp. f_equal. replace (INR 64) with 64 by (simpl; lra). lra. }
    rewrite E1. apply Rle_trans with ((1 + 1 / 64) ^ 64); [lra|]. apply pow_incr. split; [lra|]. apply exp_ineq1_le.
  Qed.
  Notation V := (if second then 10 else 4).
  Lemma sinh_V : y <= sinh V.
  Proof.
    pose proof y_rng as Y. assert (EP : forall k, exp (INR k) = exp 1 ^ k). { intros k. rewrite <- Rpower_pow by apply exp_pos. unfold Rpower. rewrite ln_exp. f_equal. lra. }
    pose proof exp1_low as X.
    assert (Q : forall k, (539 / 200) ^ k <= exp (INR k)). { intros k. rewrite EP. apply pow_incr. lra. }
    assert (N : forall z, 0 <= z -> exp (- z) <= 1). { intros z Hz. rewrite <- exp_0. apply exp_mono. lra. }
    destruct second; unfold sinh.
    - pose proof (Q 10%nat) as Q1. replace (INR 10) with 10 in Q1 by (simpl; lra). pose proof (N 10 ltac:(lra)). lra.
    - pose proof (Q 4%nat) as Q1. replace (INR 4) with 4 in Q1 by (simpl; lra). pose proof (N 4 ltac:(lra)). lra.
  Qed.
  Lemma arc_rng : (if second then 2 / 5 else 1 / 17) <= arcsinh y <= V.
  Proof.
    pose proof y_rng as Y. pose proof sinh_V as SV. assert (Y0 : 0 < y) by (destruct second; lra).
    destruct (arc_bounds y V Y0 SV) as [A B]. split; [|apply A].
    set (q := arcsinh y) in *. assert (sinh q = y) by apply sinh_arcsinh.
    set (c := if second then 2 / 5 else 1 / 17). destruct (Rle_lt_dec c q) as [L0|L0]; [exact L0|exfalso].
    assert (C0 : 0 < c <= 2 / 5) by (unfold c; destruct second; lra). pose proof (sinh_smono _ _ L0) as S1.
    pose proof (sinh_le_cosh c ltac:(lra)) as S2. pose proof (ch_sq c) as S3. pose proof (cosh_1 c) as S4. pose proof (sinh_ge c ltac:(lra)) as S5.
    assert (cosh c * cosh c * (1 - c * c) <= 1) by nra. assert (c * c <= 4 / 25) by nra.
    assert (SC : sinh c < (if second then 47 / 100 else 1 / 16)); [|destruct second; lra]. unfold c in *. destruct second.
    - assert (cosh (2 / 5) <= 11 / 10) by nra. nra.
    - assert (cosh (1 / 17) <= 101 / 100) by nra. nra.
  Qed.
  Lemma rel_arc : rel (@iir_asinh (F64 m) yf) (arcsinh y) ((if second then 391 else 6095) * uu).
  Proof.
    pose proof y_rng as Y. pose proof arc_rng as AR. pose proof rel_y as A. pose proof A as (FY & MY & DY). destruct HM as (_ & _ & HL & _).
    assert (Y0 : 1 / 16 <= y <= 10 ^ 4) by (destruct second; lra). rewrite (Rabs_pos_eq y) in DY by lra.
    set (r := (if second then 335 else 5704) * uu) in *. assert (R0 : 0 <= r <= 5704 * uu) by (unfold r; destruct second; unfold uu; lra).
    assert (YB : 1 / 17 <= B2R yf <= 10 ^ 4 + 1) by (apply Rabs_le_between in DY; unfold uu in *; nra).
    assert (MB : mid (B2R yf)) by (apply mid_of; lra).
    set (b := B2R yf) in *. assert (B2 : 0 <= b * b <= 10 ^ 9) by nra.
    assert (A1 : rel (fadd (fmul yf yf) one) (b * b + 1) (203 / 100 * uu)).
    { eapply rel_add; [eapply rel_mul; [apply rel_val; [exact FY|exact MB]|apply rel_val; [exact FY|exact MB]|apply mid_of; nra|lra|lra|apply Rle_refl]|exact rel_one|nra|lra|apply mid_of; nra|unfold uu; lra|lra|unfold uu; lra|unfold uu; lra]. }
    assert (SQ : 1 <= sqrt (b * b + 1) <= 10 ^ 5). { split; [rewrite <- sqrt_1 at 1; apply sqrt_le_1; lra|]. rewrite <- (sqrt_square (10 ^ 5)) by lra. apply sqrt_le_1; lra. }
    assert (A2 : rel (fadd yf (fsqrt (fadd (fmul yf yf) one))) (b + sqrt (b * b + 1)) (305 / 100 * uu)).
    { eapply rel_add; [apply rel_val; [exact FY|exact MB]|eapply rel_sqrt; [exact A1|lra|apply mid_of; lra|unfold uu; lra|apply Rle_refl]|fold b; lra|lra|apply mid_of; fold b; lra|lra|unfold uu; lra|unfold uu; lra|unfold uu; lra]. }
    change (@iir_asinh (F64 m) yf) with (lm_log m (fadd yf (fsqrt (fadd (fmul yf yf) one)))).
    destruct A2 as (FW & _ & DW). set (w := fadd yf _) in *. rewrite (Rabs_pos_eq (b + sqrt (b * b + 1))) in DW by lra.
    assert (SL : b <= sqrt (b * b + 1)). { rewrite <- (sqrt_square b) at 1 by lra. apply sqrt_le_1; lra. }
    assert (WB : 1 <= B2R w <= 2 ^ 18) by (apply Rabs_le_between in DW; unfold uu in *; lra).
    destruct (HL w FW WB) as [FL DL].
    assert (EA : ln (b + sqrt (b * b + 1)) = arcsinh b) by (unfold arcsinh; do 2 f_equal; f_equal; ring).
    pose proof (ln_rel (B2R w) (b + sqrt (b * b + 1)) (305 / 100 * uu) ltac:(lra) ltac:(unfold uu; lra) DW) as LR. rewrite EA in LR.
    pose proof (arc_rel b y r ltac:(lra) ltac:(unfold uu in *; lra) DY) as AA.
    split; [exact FL|]. split; [apply mid_of; destruct second; lra|]. rewrite (Rabs_pos_eq (arcsinh y)) by (destruct second; lra).
    replace (B2R (lm_log m w) - arcsinh y) with ((B2R (lm_log m w) - ln (B2R w)) + (ln (B2R w) - arcsinh b) + (arcsinh b - arcsinh y)) by ring.
    eapply Rle_trans; [apply Rabs_triang|]. eapply Rle_trans; [apply Rplus_le_compat; [apply Rabs_triang|exact AA]|].
    eapply Rle_trans; [apply Rplus_le_compat; [apply Rplus_le_compat; [exact DL|exact LR]|apply Rle_refl]|].
    unfold r. destruct second; unfold uu; lra.
  Qed.
  Variable n : Z.
  Hypothesis Hn : (1 <= n <= 32)%Z.
  Notation vv := (arcsinh y / IZR n).
  Definition vf : f64 := fdiv (@iir_asinh (F64 m) yf) (fofZ n).
  Lemma n_rng : 1 <= IZR n <= 32.
  Proof. destruct Hn as [A B]. apply IZR_le in A, B. lra. Qed.
  Lemma vv_rng : (if second then 1 / 80 else 1 / 544) <= vv <= V.
  Proof.
    pose proof arc_rng as AR. pose proof n_rng as NR. assert (I1 : / 32 <= / IZR n <= / 1) by (split; apply Rinv_le; lra).
    set (q := arcsinh y) in *. clearbody q. change (q / IZR n) with (q * / IZR n). set (i := / IZR n) in *. clearbody i. destruct second; split; nra.
  Qed.
  Lemma rel_v : rel vf vv ((if second then 393 else 6097) * uu).
  Proof.
    pose proof rel_arc as A. pose proof vv_rng as VR. pose proof n_rng as NR.
    eapply rel_div; [exact A|apply rel_ofZ; [apply mid_of; lra|lia]|apply mid_of; destruct second; lra|destruct second; unfold uu; lra|lra|destruct second; unfold uu; lra].
  Qed.
  Lemma hyp_rng : 0 < sinh vv /\ 1 <= cosh vv <= 10 ^ 5 /\ (if second then 1 / 80 else 1 / 544) <= sinh vv <= 10 ^ 5.
  Proof.
    pose proof vv_rng as VR. assert (V0 : 1 / 544 <= vv <= 10) by (destruct second; lra). pose proof (sinh_ge vv ltac:(lra)) as SG. pose proof (cosh_1 vv) as C1. pose proof (ch_sq vv) as CS.
    assert (EX : exp 10 <= 10 ^ 5 - 10).
    { assert (E1 : exp 10 = / exp (- (1 / 16)) ^ 160). { rewrite <- pow_inv. rewrite <- exp_Ropp, Ropp_involutive. rewrite <- Rpower_pow by apply exp_pos. unfold Rpower. rewrite ln_exp. f_equal. replace (INR 160) with 160 by (rewrite INR_IZR_INZ; reflexivity). lra. }
      rewrite E1. assert (B : (15 / 16) ^ 160 <= exp (- (1 / 16)) ^ 160) by (apply pow_incr; split; [lra|]; pose proof (exp_ineq1_le (- (1 / 16))); lra).
      apply Rle_trans with (/ (15 / 16) ^ 160); [apply Rinv_le; [lra|exact B]|]. lra. }
    assert (CH : cosh vv <= 10 ^ 5). { unfold cosh. pose proof (exp_mono vv 10 ltac:(lra)). pose proof (exp_mono (- vv) 0 ltac:(lra)). rewrite exp_0 in *. lra. }
    split; [lra|]. split; [lra|]. split; [lra|]. nra.
  Qed.
  Definition rs : R := (if second then 4400 else 30850) * uu.
  Lemma rel_hyp : rel (lm_sinh m vf) (sinh vv) rs /\ rel (lm_cosh m vf) (cosh vv) rs.
  Proof.
    pose proof rel_v as A. pose proof A as (FV & _ & DV). pose proof vv_rng as VR. pose proof hyp_rng as (S0 & CR & SR). destruct HM as (_ & _ & _ & _ & HS & HC). rewrite (Rabs_pos_eq vv) in DV by (destruct second; lra).
    set (r := (if second then 393 else 6097) * uu) in *. assert (R0 : 0 <= r <= 6097 * uu) by (unfold r; destruct second; unfold uu; lra).
    assert (V0 : 1 / 544 <= vv <= 10) by (destruct second; lra).
    assert (VB : / 2 ^ 10 <= B2R vf <= 13) by (apply Rabs_le_between in DV; assert (r * vv <= 6097 * uu * 10) by (apply Rmult_le_compat; lra); unfold uu in *; lra).
    destruct (hyp_rel (B2R vf) vv r ltac:(lra) ltac:(unfold uu in *; lra) DV) as [H1 H2].
    assert (K : 101 / 100 * (1 + vv) * r <= rs - 82 / 10 * uu) by (unfold r, rs; destruct second; unfold uu; nra).
    assert (RS : rs <= 1 / 10 ^ 6) by (unfold rs; destruct second; unfold uu; lra).
    split.
    - eapply (rel_fn (lm_sinh m) sinh vf vv r (rs - 82 / 10 * uu) (/ 2 ^ 50)); [exact A|apply HS; assumption|lra|apply mid_of; destruct second; lra| |unfold uu in *; lra|unfold uu; lra].
      eapply Rle_trans; [exact H1|]. rewrite (Rabs_pos_eq (sinh vv)) by lra. apply Rmult_le_compat_r; lra.
    - eapply (rel_fn (lm_cosh m) cosh vf vv r (rs - 82 / 10 * uu) (/ 2 ^ 50)); [exact A|apply HC; assumption|lra|apply mid_of; lra| |unfold uu in *; lra|unfold uu; lra].
      eapply Rle_trans; [exact H2|]. rewrite (Rabs_pos_eq (cosh vv)) by lra. apply Rmult_le_compat_r; lra.
  Qed.
End Const.
