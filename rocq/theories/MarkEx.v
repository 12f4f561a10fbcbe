(** Numbers for the examples of C96: the notch at a quarter of the sampling rate. *)
From Coq Require Import ZArith List Bool Reals Lra Lia.
From Coquelicot Require Import Coquelicot.
From Flocq Require Import Core.Raux IEEE754.BinarySingleNaN.
From Verif Require Import RBJ Float64 FloatSpec RefLibm SigSpec RoundSpec DblSpec DblProofs DblLemmas ChainSpec RbjRespSpec SettleSpec.
Import ListNotations.
Local Open Scope R_scope.

Lemma ex_c96 : let i := rbj_ideal R_IIRNotch (1 / 4) 0 1 in let e := rbj_coef_error R_IIRNotch 1 in let l := [DSect i 16 e e] in
  chain_ok l 1 /\ chain_error l 1 0 <= 1 / 10 ^ 9.
Proof.
  intros i e l. assert (EE : e = 2 / 2 ^ 46) by (unfold e, rbj_coef_error, design_error; cbn [rbj_is_shelf]; lra).
  set (p := exp (- (PI * (1 / 4)) / 1) ^ 2). assert (C0 : cos (2 * PI * (1 / 4)) = 0) by (replace (2 * PI * (1 / 4)) with (PI / 2) by field; apply cos_PI2).
  assert (EI : i = Ideal 0 p 1 0 1). { unfold i, rbj_ideal, cookbook. cbn [rbj_is_shelf]. rewrite C0. fold p. f_equal; ring. }
  assert (HP : 0 < p <= 16 / 49).
  { unfold p. pose proof (exp_pos (- (PI * (1 / 4)) / 1)) as E0. split; [apply pow_lt; exact E0|]. pose proof PI2_3_2 as P3. pose proof (exp_ineq1 (PI * (1 / 4)) ltac:(lra)) as E1.
    assert (E2 : exp (- (PI * (1 / 4)) / 1) * exp (PI * (1 / 4)) = 1) by (rewrite <- exp_plus; replace (- (PI * (1 / 4)) / 1 + PI * (1 / 4)) with 0 by field; apply exp_0).
    assert (exp (- (PI * (1 / 4)) / 1) <= 4 / 7) by nra. replace (16 / 49) with ((4 / 7) ^ 2) by field. apply pow_incr. lra. }
  clearbody p.
  assert (P900 : 2 ^ 10 <= 2 ^ 900) by (apply Rle_pow; [lra|lia]).
  assert (GA : 0 < g_abs <= / 2 ^ 60). { unfold g_abs. split; [apply Rinv_0_lt_compat, pow_lt; lra|]. apply Rinv_le; [apply pow_lt; lra|apply Rle_pow; [lra|lia]]. }
  set (d := DSect i 16 e e). assert (DA : d_A d = p + 4 / 2 ^ 46) by (unfold d_A, d; cbn [d_id d_ea]; rewrite EI, EE; cbn [i_a1 i_a2]; rewrite Rabs_R0, Rabs_pos_eq by lra; lra).
  assert (DB : d_B d = 2 + 6 / 2 ^ 46) by (unfold d_B, d, i_B; cbn [d_id d_eb]; rewrite EI, EE; cbn [i_b0 i_b1 i_b2]; rewrite Rabs_R0, Rabs_R1; lra).
  split.
  - split; [|exact I]. fold d. unfold d_ok. rewrite DA, DB. unfold d. cbn [d_id d_G d_ea]. rewrite EE.
    split. { replace 16 with (/ (1 / 4) ^ 2) by lra. rewrite EI. cbn [i_a1 i_a2]. apply c62_margin; rewrite ?Rabs_R0, ?(Rabs_pos_eq p) by lra; lra. }
    clear - P900 HP. set (r := 2 ^ 900) in *. clearbody r. lra.
  - unfold l. fold d. cbn [chain_error]. unfold d_err. rewrite DA, DB, Rmult_0_r, Rplus_0_l. unfold d. cbn [d_G d_ea d_eb]. rewrite EE. unfold g_rel.
    clear - GA HP. set (g := g_abs) in *. clearbody g. nra.
Qed.
Lemma ex_c96_args : rbj_args R_IIRNotch (1 / 4) 0 1.
Proof. unfold rbj_args. cbn [rbj_is_shelf]. lra. Qed.
Lemma const_follows n : follows (RtoC 1) 0 0 1 (repeat (fofZ 1) n).
Proof.
  intros i Hi. rewrite repeat_length in Hi. replace (nth i (repeat (fofZ 1) n) f0) with (fofZ 1) by (symmetry; apply (repeat_spec n (fofZ 1)), nth_In; rewrite repeat_length; exact Hi).
  destruct (fofZ_val 1 ltac:(lia)) as [V F]. unfold wave. rewrite Cmult_1_l. cbn [cis fst]. rewrite Rmult_0_r, Rmult_0_l, cos_0. split; [exact F|]. rewrite V, Rabs_R1. split; [lra|]. rewrite Rminus_diag_eq, Rabs_R0 by reflexivity. lra.
Qed.
