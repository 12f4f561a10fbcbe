(** Examples for Chebyshev designs in binary64: a library that rounds correctly. *)
From Coq Require Import ZArith List Bool Reals Lra Lia.
From Coquelicot Require Import Coquelicot.
From Flocq Require Import Core.Raux Core.Defs IEEE754.BinarySingleNaN.
From Verif Require Import Num Biquad Float64 FloatSpec FloatProofs SampleLemmas RoundSpec RoundProofs DblPi DblSpec DblProofs DblLemmas RbjShProofs RelDbl BwDblSpec CplxDbl BwDbl BwDblFinal
  ChCoefSpec ChDblSpec ChDbl.
Local Open Scope R_scope.

Definition cheb_libm : libm := MkLibm (lm_sin round_libm) (lm_cos round_libm) (lm_tan design_libm) (lm_atan design_libm)
  (fun x => to_f64 (exp (B2R x))) (fun x => to_f64 (ln (B2R x))) (fun x => to_f64 (sinh (B2R x))) (fun x => to_f64 (cosh (B2R x))) (fun x y => to_f64 (Rpower (B2R x) (B2R y)))
  (lm_cmul design_libm) (lm_cdiv design_libm) (lm_csqrt design_libm) (lm_cabs design_libm) (lm_polar design_libm).
Lemma rel_lib fn lo hi : (forall x, lo <= x <= hi -> / 2 ^ 20 <= fn x <= 2 ^ 40) -> lib_rel (fun x => to_f64 (fn (B2R x))) fn lo hi (/ 2 ^ 50).
Proof.
  intros H x Fx Hx. specialize (H _ Hx). pose proof mid_big as BB. destruct (to_f64_ok (fn (B2R x)) ltac:(rewrite Rabs_pos_eq; lra)) as [A B]. split; [exact A|].
  rewrite (Rabs_pos_eq (fn _)) in * by lra. pose proof tiny_uu as TU. eapply Rle_trans; [exact B|].
  assert (tiny <= / 2 ^ 75). { pose proof tiny_900 as T. pose proof tiny_pos as TP. assert (/ 2 ^ 900 <= / 2 ^ 75) by (apply Rinv_le; [lra|apply Rle_pow; [lra|lia]]). lra. }
  unfold uu in *. lra.
Qed.
Lemma exp_nat n : exp (INR n) <= 3 ^ n.
Proof.
  induction n as [|n I]; [simpl; rewrite exp_0; lra|]. rewrite S_INR, exp_plus. simpl pow. pose proof exp_le_3. pose proof (exp_pos 1). pose proof (exp_pos (INR n)).
  apply Rle_trans with (exp (INR n) * 3); [apply Rmult_le_compat_l; lra|lra].
Qed.
Lemma cheb_libm_ok : libm_design cheb_libm /\ libm_response cheb_libm /\ libm_cheb cheb_libm.
Proof.
  split; [exact (proj1 design_libm_ok)|]. split; [exact (proj2 design_libm_ok)|].
  pose proof round_libm_close as (R1 & R2 & _). pose proof (exp_nat 24) as E24. pose proof (exp_nat 8) as E8. replace (INR 24) with 24 in E24 by (simpl; lra). replace (INR 8) with 8 in E8 by (simpl; lra).
  split; [exact R1|]. split; [exact R2|]. split; [|split; [|split]].
  - intros x Fx Hx. cbn [lm_log cheb_libm].
    assert (L : 0 <= ln (B2R x) <= 15).
    { split; [rewrite <- ln_1; destruct (Req_dec (B2R x) 1) as [->|N]; [lra|left; apply ln_increasing; lra]|].
      apply Rle_trans with (ln (2 ^ 18)); [destruct (Req_dec (B2R x) (2 ^ 18)) as [->|N]; [lra|left; apply ln_increasing; lra]|].
      rewrite ln_pow by lra. pose proof (ln_lt_2) as L2. assert (L3 : ln 2 <= 4 / 5). { rewrite <- (ln_exp (4 / 5)). left. apply ln_increasing; [lra|]. pose proof (exp_ineq1 (1 / 5) ltac:(lra)) as X. replace (4 / 5) with (1 / 5 + 1 / 5 + (1 / 5 + 1 / 5)) by field. rewrite !exp_plus. set (e := exp (1 / 5)) in *. assert (36 / 25 <= e * e) by nra. nra. } replace (INR 18) with 18 by (simpl; lra). lra. }
    pose proof mid_big as BB. destruct (to_f64_ok (ln (B2R x)) ltac:(rewrite Rabs_pos_eq; lra)) as [A B]. split; [exact A|]. rewrite (Rabs_pos_eq (ln _)) in B by lra. pose proof tiny_uu as TU. eapply Rle_trans; [exact B|]. unfold uu in *. lra.
  - apply (rel_lib exp). intros x Hx. pose proof (exp_mono x 24 ltac:(lra)). pose proof (exp_mono (- (8)) x ltac:(lra)) as L. rewrite exp_Ropp in L.
    assert (/ 3 ^ 8 <= / exp 8) by (apply Rinv_le; [apply exp_pos|exact E8]). lra.
  - apply (rel_lib sinh). intros x Hx. pose proof (sinh_ge x ltac:(lra)). pose proof (exp_mono x 24 ltac:(lra)). pose proof (exp_pos (- x)). split; [lra|]. unfold sinh. lra.
  - apply (rel_lib cosh). intros x Hx. pose proof (cosh_1 x). pose proof (exp_mono x 24 ltac:(lra)). pose proof (exp_mono (- x) 24 ltac:(lra)). split; [lra|]. unfold cosh. lra.
Qed.
(** cutoff 1/8; ripple 1 dB, rejection 40 dB *)
Lemma ex_c73 : libm_design cheb_libm /\ libm_cheb cheb_libm /\ FloatSpec.is_fin (fnorm 1 (-3)) /\ FloatSpec.is_fin (fofZ 1) /\ FloatSpec.is_fin (fofZ 40) /\
  ch_cut_ok (B2R (fnorm 1 (-3))) /\ ch_db_ok false (B2R (fofZ 1)) /\ ch_db_ok true (B2R (fofZ 40)) /\ ch_error (B2R (fnorm 1 (-3))) <= 4 / 10 ^ 11.
Proof.
  destruct cheb_libm_ok as (A & _ & B). destruct ex_fq as (F1 & F2 & F3 & F4). destruct (fofZ_val 40 ltac:(lia)) as [G1 G2].
  split; [exact A|]. split; [exact B|]. split; [exact F1|]. split; [exact F2|]. split; [exact G2|]. rewrite F3, F4, G1. unfold ch_cut_ok, ch_db_ok, ch_error. repeat split; lra.
Qed.
