(** Numbers for the example of C97. *)
From Coq Require Import ZArith List Bool Reals Lra Lia.
From Coquelicot Require Import Coquelicot.
From Flocq Require Import Core.Raux IEEE754.BinarySingleNaN.
From Verif Require Import Num Biquad State Float64 FloatSpec SigSpec RoundSpec DblSpec BwDblSpec BwDblFinal ChainSpec RespDblSpec RespOutSpec RespOut2 RunOnSpec SettleSpec Settle SettleResp SettleOn2 Mark SettleRate.
Import ListNotations.
Local Open Scope R_scope.

Lemma ex_c97 : let b := @MkBiquad (F64 design_libm) (fofZ 1) (fnorm (-1) (-1)) (fnorm 1 (-2)) (fofZ 1) (fofZ 2) (fofZ 1) in let l := [Sect (-1 / 2) (1 / 4) 1 2 1 (64 / 9)] in
  List.Forall2 sect_of [b] l /\ ok_from l 3 1 /\ rate_ok (25 / 24) l /\ error_from l 3 1 0 <= 1 / 10 ^ 9 /\ fade (25 / 24) l 3 0 <= 1000 /\ st_within 3 (@S2 (F64 design_libm) (fofZ 1) (fofZ (-1))) /\
  (forall j, (j <= 1)%nat -> Cmod (i_resp (map stored (firstn j [b])) (1 / 4) * RtoC 1)%C <= 3).
Proof.
  intros b l. pose proof ex_c95 as X5. cbv zeta in X5. fold b in X5. fold l in X5. destruct X5 as (S & _ & _ & W). pose proof ex_c77 as (_ & _ & _ & SI & _). fold b in SI. pose proof ex_gain as GN.
  assert (B9 : 2 ^ 60 <= 2 ^ 900) by (apply Rle_pow; [lra|lia]). assert (GA : 0 < g_abs <= / 2 ^ 60). { unfold g_abs. split; [apply Rinv_0_lt_compat, pow_lt; lra|]. apply Rinv_le; [apply pow_lt; lra|apply Rle_pow; [lra|lia]]. }
  split; [exact S|]. split; [|split; [|split; [|split; [|split]]]].
  - unfold l. cbn [ok_from]. unfold sect_ok_from, lvl, s_A, s_B. cbn [s_a1 s_a2 s_b0 s_b1 s_b2 s_G]. rewrite (Rabs_left (-1 / 2)), (Rabs_pos_eq (1 / 4)), (Rabs_pos_eq 2), Rabs_R1 by lra. set (P := 2 ^ 900) in *. clearbody P. split; [split; [exact GN|]|exact I]. lra.
  - split; [lra|]. constructor; [|constructor]. unfold s_A. cbn [s_a1 s_a2 s_G]. rewrite (Rabs_left (-1 / 2)), (Rabs_pos_eq (1 / 4)) by lra. lra.
  - unfold l. cbn [error_from]. unfold err_from, lvl, s_A, s_B. cbn [s_a1 s_a2 s_b0 s_b1 s_b2 s_G]. rewrite (Rabs_left (-1 / 2)), (Rabs_pos_eq (1 / 4)), (Rabs_pos_eq 2), Rabs_R1 by lra. unfold g_rel. set (ga := g_abs) in *. clearbody ga. lra.
  - unfold l. cbn [fade]. unfold s_A, s_B. cbn [s_a1 s_a2 s_b0 s_b1 s_b2 s_G]. rewrite (Rabs_left (-1 / 2)), (Rabs_pos_eq (1 / 4)), (Rabs_pos_eq 2), Rabs_R1 by lra. lra.
  - cbn [st_within] in *. unfold within in *. destruct W as ((F1 & W1) & (F2 & W2)). repeat split; try assumption; lra.
  - intros j Hj. rewrite Cmult_1_r. destruct j as [|[|j]]; [| |lia]; cbn [firstn map].
    + unfold i_resp, cprod. cbn [map fold_right]. replace (RtoC 1 / RtoC 1)%C with (RtoC 1) by (field; intros Q; apply (f_equal fst) in Q; cbn in Q; lra). rewrite Cmod_1. lra.
    + rewrite SI. set (d := Ideal _ _ _ _ _). rewrite resp_one. assert (Z : z_inv (1 / 4) = (0, -1)). { rewrite zi_f. replace (2 * PI * (1 / 4)) with (PI / 2) by field. rewrite cos_PI2, sin_PI2. reflexivity. }
      assert (NM : i_num (1 / 4) d = (0, -2)) by (unfold i_num; rewrite Z, poly2_parts; unfold d; cbn [i_b0 i_b1 i_b2]; f_equal; ring).
      assert (DN : i_den (1 / 4) d = (3 / 4, 1 / 2)) by (unfold i_den; rewrite Z, poly2_parts; unfold d; cbn [i_a1 i_a2]; f_equal; field).
      assert (DM : 3 / 4 <= Cmod (i_den (1 / 4) d)). { rewrite DN. eapply Rle_trans; [|eapply Rle_trans; [apply Rmax_l|apply Rmax_Cmod]]. cbn [fst]. rewrite Rabs_pos_eq; lra. }
      assert (NC : Cmod (i_num (1 / 4) d) = 2). { rewrite NM. unfold Cmod. cbn [fst snd]. replace (0 ^ 2 + (-2) ^ 2) with (2 * 2) by ring. apply sqrt_square. lra. }
      rewrite Cmod_div by (apply Cmod_gt_0; lra). rewrite NC. set (D := Cmod (i_den (1 / 4) d)) in *. apply Rmult_le_reg_r with D; [lra|]. replace (2 / D * D) with 2 by (field; lra). lra.
Qed.
