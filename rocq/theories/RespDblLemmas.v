(** Proofs: response () in binary64, assembly. *)
From Coq Require Import ZArith List Bool Reals Lra Lia Floats.SpecFloat.
From Coquelicot Require Import Coquelicot.
From Flocq Require Import Core.Zaux Core.Raux Core.Defs Core.Generic_fmt IEEE754.BinarySingleNaN.
From Verif Require Import Num Outcome Types Biquad Cascade Float64 FloatSpec FloatProofs SampleLemmas SigSpec
  RoundSpec RoundProofs DblPi DblSpec DblProofs BwDblSpec CplxDbl BwDbl BwDbl2 BwDbl3 BwDblLemmas RespDblSpec RespDbl.
Import ListNotations.
Local Open Scope R_scope.

Notation rprod l := (fold_right Rmult 1 l).

Lemma num_nonneg d : 0 <= num_abs d.
Proof. unfold num_abs. pose proof (Rabs_pos (i_b0 d)). pose proof (Rabs_pos (i_b1 d)). pose proof (Rabs_pos (i_b2 d)). lra. Qed.
Lemma den_one d : 1 <= den_abs d.
Proof. unfold den_abs. pose proof (Rabs_pos (i_a1 d)). pose proof (Rabs_pos (i_a2 d)). lra. Qed.
Lemma rprod_rng (g : ideal -> R) : forall ds lo, (lo = 0 \/ lo = 1) -> List.Forall (fun d => lo <= g d <= 256) ds -> lo <= rprod (map g ds) <= 256 ^ length ds.
Proof.
  intros ds lo Hlo F. induction F as [|d ds Hd F IH]; cbn [map fold_right length].
  - rewrite pow_O. destruct Hlo; lra.
  - rewrite <- (tech_pow_Rmult 256). destruct Hlo as [-> | ->].
    + split; [apply Rmult_le_pos; lra|apply Rmult_le_compat; lra].
    + split; [|apply Rmult_le_compat; lra]. apply Rle_trans with (1 * 1); [lra|]. apply Rmult_le_compat; lra.
Qed.
Lemma cprod_num f ds : Cmod (cprod (map (i_num f) ds)) <= rprod (map num_abs ds).
Proof.
  unfold cprod. induction ds as [|d ds IH]; cbn [map fold_right]; [rewrite Cmod_1; lra|]. rewrite Cmod_mult. apply Rmult_le_compat; auto using Cmod_ge_0. apply num_le.
Qed.
Lemma cprod_den f ds : Cmod (cprod (map (i_den f) ds)) <= rprod (map den_abs ds).
Proof.
  unfold cprod. induction ds as [|d ds IH]; cbn [map fold_right]; [rewrite Cmod_1; lra|]. rewrite Cmod_mult. apply Rmult_le_compat; auto using Cmod_ge_0. apply den_le.
Qed.

Section Final.
  Variable m : libm.
  Notation FN := (F64 m).
  Hypothesis HP : polar_close (lm_polar m).
  Hypothesis HD : cdiv_close (lm_cdiv m).
  Hypothesis HM : cmul_close (lm_cmul m).

  Lemma resp_core e (bs : list (biquad FN)) ds rest f z1 z2 : 0 <= e <= / 2 ^ 10 -> List.Forall2 (near_section e) bs ds -> (length ds <= 32)%nat ->
    0 < Cmod (cprod (map (i_den f) ds)) -> resp_rel e (length ds) * i_cond ds f <= / 4 ->
    cap z1 (z_inv f) (32 * uu) -> cap z2 (z_inv f * z_inv f)%C (64 * uu) ->
    exists ch cb, resp_loop (N := FN) z1 z2 (bs ++ rest) (length bs) (c_of (N := FN) (nofZ FN 1)) (c_of (N := FN) (nofZ FN 1)) = Val (ch, cb) /\
      cfin (lm_cdiv m ch cb) /\ Cmod (c2c (lm_cdiv m ch cb) - i_resp ds f)%C <= resp_error e ds f.
  Proof.
    intros He F Hn HDen HC Z1 Z2. assert (HL : length bs = length ds) by (clear - F; induction F; cbn; congruence).
    set (n := length ds) in *. pose proof (pos_INR n) as I0. assert (I32 : INR n <= 32) by (replace 32 with (INR 32) by (cbn; lra); apply le_INR; exact Hn).
    set (rho := 8 * e + / 2 ^ 45).
    assert (FB : List.Forall (fun d => num_abs d <= 256 /\ den_abs d <= 256) ds). { clear - F. induction F as [|b d bs ds H F IH]; constructor; [|exact IH]. split; apply H. }
    assert (FC : List.Forall2 (fun b d => cap (stage_top (N := FN) z1 z2 b) (i_num f d) (rho * num_abs d + / 2 ^ 966) /\ cap (stage_bot (N := FN) z1 z2 b) (i_den f d) (rho * den_abs d + / 2 ^ 966) /\
      num_abs d <= 256 /\ den_abs d <= 256) bs ds).
    { clear HL HDen HC FB n Hn I0 I32. induction F as [|b d bs ds H F IH]; constructor; [|exact IH]. destruct (sec_cap m e b d f z1 z2 He H Z1 Z2) as [S1 S2]. split; [exact S1|]. split; [exact S2|]. split; apply H. }
    assert (T67 : 0 < / 2 ^ 670) by (apply Rinv_0_lt_compat, pow_lt; lra).
    assert (C1 : cap (c_of (N := FN) (nofZ FN 1)) (RtoC 1) (0 * 1 + / 2 ^ 670)).
    { destruct (fofZ_val 1 ltac:(lia)) as [V1 V2]. destruct (fofZ_val 0 ltac:(lia)) as [V3 V4]. split; [split; assumption|]. unfold c2c, c_of. cbn [re im nofZ F64 n0].
      match goal with |- Cmod ?x <= _ => replace x with (RtoC 0) end; [rewrite Cmod_0; lra|]. rewrite V1. change (B2R (nofZ (F64 m) 0 : f64)) with (B2R (fofZ 0)). rewrite V3. unfold Cminus, Cplus, Copp, RtoC. cbn [fst snd]. f_equal; ring. }
    assert (P10 : / 2 ^ 670 * (2 ^ 10) ^ n <= / 2 ^ 350).
    { rewrite <- pow_mult. apply Rle_trans with (/ 2 ^ 670 * 2 ^ 320); [apply Rmult_le_compat_l; [lra|apply Rle_pow; [lra|lia]]|].
      rewrite (pow_add 2 350 320 : 2 ^ 670 = _), Rinv_mult, Rmult_assoc, Rinv_l, Rmult_1_r by (apply Rgt_not_eq, pow_lt; lra). lra. }
    assert (T35 : 0 < / 2 ^ 350 <= / 2 ^ 100) by (split; [apply Rinv_0_lt_compat, pow_lt; lra|apply Rinv_le; [apply pow_lt; lra|apply Rle_pow; [lra|lia]]]).
    assert (T100 : / 2 ^ 100 <= / 2 ^ 60) by (apply Rinv_le; [lra|apply Rle_pow; [lra|lia]]).
    assert (P256 : 256 ^ n <= 2 ^ 256). { replace 256 with (2 ^ 8) at 1 by ring. rewrite <- pow_mult. apply Rle_pow; [lra|lia]. }
    assert (P260 : 2 ^ 256 * 16 = 2 ^ 260). { replace 16 with (2 ^ 4) by ring. rewrite <- pow_add. reflexivity. }
    assert (P1 : 0 < 2 ^ 256) by (apply pow_lt; lra).
    assert (HR : 0 <= rho <= / 8) by (unfold rho; lra).
    assert (DL : INR n * (9 / 8 * rho + / 2 ^ 47) <= INR n * (9 * e + / 2 ^ 44)) by (apply Rmult_le_compat_l; [exact I0|]; unfold rho; lra).
    assert (DL0 : INR n * (9 * e + / 2 ^ 44) <= 32 * (9 * e + / 2 ^ 44)) by (apply Rmult_le_compat_r; lra).
    set (K := rprod (map den_abs ds)) in *. set (Nn := rprod (map num_abs ds)) in *. set (D := Cmod (cprod (map (i_den f) ds))) in *.
    assert (KB : 1 <= K <= 256 ^ n). { apply (rprod_rng den_abs ds 1); [right; reflexivity|]. eapply Forall_impl; [|exact FB]. cbn. intros d [_ H]. pose proof (den_one d). lra. }
    assert (NB : 0 <= Nn <= 256 ^ n). { apply (rprod_rng num_abs ds 0); [left; reflexivity|]. eapply Forall_impl; [|exact FB]. cbn. intros d [H _]. pose proof (num_nonneg d). lra. }
    pose proof (cprod_num f ds) as ND. fold Nn in ND. pose proof (cprod_den f ds) as DD. fold K D in DD.
    set (de := INR n * (9 / 8 * rho + / 2 ^ 47)) in *. assert (de0 : 0 <= de) by (unfold de; apply Rmult_le_pos; [exact I0|lra]).
    set (kap := K / D). assert (ik : i_cond ds f = kap) by reflexivity. set (lam := Nn / D). assert (il : i_level ds f = lam) by reflexivity.
    set (q := resp_rel e n) in *. assert (q1 : 7 / 2 * de + / 2 ^ 42 <= q).
    { unfold q, resp_rel. rewrite S_INR. replace ((INR n + 1) * (32 * e + / 2 ^ 42)) with (INR n * (32 * e + / 2 ^ 42) + (32 * e + / 2 ^ 42)) by ring.
      assert (7 / 2 * (INR n * (9 * e + / 2 ^ 44)) <= INR n * (32 * e + / 2 ^ 42)). { replace (7 / 2 * (INR n * (9 * e + / 2 ^ 44))) with (INR n * (7 / 2 * (9 * e + / 2 ^ 44))) by ring. apply Rmult_le_compat_l; lra. } lra. }
    rewrite ik in HC. assert (k1 : 1 <= kap). { unfold kap. apply Rmult_le_reg_r with D; [exact HDen|]. unfold Rdiv. rewrite Rmult_assoc, Rinv_l, Rmult_1_r by lra. lra. }
    assert (qk : (7 / 2 * de + / 2 ^ 42) * kap <= / 4) by (eapply Rle_trans; [apply Rmult_le_compat_r; [lra|exact q1]|exact HC]).
    assert (dk0 : 0 <= de * kap) by (apply Rmult_le_pos; lra).
    assert (dk : 14 * (de * kap) + / 2 ^ 40 * kap <= 1) by lra.
    assert (d18 : de <= de * kap). { rewrite <- (Rmult_1_r de) at 1. apply Rmult_le_compat_l; lra. }
    assert (KD : K = kap * D) by (unfold kap; field; lra).
    assert (NL : Nn = lam * D) by (unfold lam; field; lra).
    assert (l0 : 0 <= lam) by (unfold lam; apply Rdiv_le_0_compat; lra).
    assert (DLow : / 2 ^ 40 <= D). { assert (/ 2 ^ 40 * kap * D <= 1 * D) by (apply Rmult_le_compat_r; lra). rewrite Rmult_assoc, <- KD in H. assert (/ 2 ^ 40 * 1 <= / 2 ^ 40 * K) by (apply Rmult_le_compat_l; lra). lra. }
    destruct (loop_cap m HM z1 z2 f rho HR bs ds rest FC (c_of (N := FN) (nofZ FN 1)) (c_of (N := FN) (nofZ FN 1)) (RtoC 1) (RtoC 1) 1 1 0 (/ 2 ^ 670) C1 C1) as (ch & cb & EL & R1 & R2);
      rewrite ?Cmod_1, ?HL; fold n; try lra.
    { rewrite Rplus_0_l. fold de. lra. }
    rewrite HL in R1, R2. fold n in R1, R2. fold de in R1, R2. rewrite Cmult_1_l, Rmult_1_l, Rplus_0_l in R1, R2. fold Nn in R1. fold K in R2.
    set (tau := / 2 ^ 670 * (2 ^ 10) ^ n) in *. assert (tau0 : 0 < tau). { unfold tau. apply Rmult_lt_0_compat; [lra|apply pow_lt; lra]. }
    exists ch, cb. split; [rewrite HL in EL; exact EL|].
    set (L9 := 9 / 10 * D).
    assert (dK : de * K <= / 14 * D). { rewrite KD, <- Rmult_assoc. apply Rmult_le_compat_r; [lra|]. assert (0 <= / 2 ^ 40 * kap) by (apply Rmult_le_pos; lra). lra. }
    assert (dK0 : 0 <= de * K) by (apply Rmult_le_pos; lra).
    assert (tD : tau <= / 2 ^ 20 * D). { apply Rle_trans with (/ 2 ^ 60); [lra|]. replace (/ 2 ^ 60) with (/ 2 ^ 20 * / 2 ^ 40) by (rewrite <- Rinv_mult, <- pow_add; reflexivity). apply Rmult_le_compat_l; lra. }
    assert (dN : 0 <= de * Nn <= / 14 * Nn). { split; [apply Rmult_le_pos; lra|]. apply Rmult_le_compat_r; [lra|]. assert (0 <= / 2 ^ 40 * kap) by (apply Rmult_le_pos; lra). lra. }
    assert (X400 : 2 ^ 260 <= 2 ^ 400) by (apply Rle_pow; [lra|lia]).
    assert (Y400 : / 2 ^ 400 <= / 2 ^ 41) by (apply Rinv_le; [lra|apply Rle_pow; [lra|lia]]).
    assert (Q40 : / 2 ^ 41 = / 2 * / 2 ^ 40) by lra.
    set (E := 10 / 9 * ((de * Nn + tau) / D + lam * ((de * K + tau) / D))).
    pose proof (cap_div m ch cb (cprod (map (i_num f) ds)) (cprod (map (i_den f) ds)) (de * Nn + tau) (de * K + tau) D lam E HD R1 R2 ltac:(unfold D; lra) ltac:(lra) ltac:(lra)) as DV.
    fold D in DV. specialize (DV ltac:(lra) ltac:(lra)).
    assert (CW : cprod (map (i_den f) ds) <> 0%C) by (intros Z; unfold D in HDen; rewrite Z, Cmod_0 in HDen; lra).
    specialize (DV ltac:(rewrite Cmod_div by exact CW; fold D; unfold lam, Rdiv; apply Rmult_le_compat_r; [left; apply Rinv_0_lt_compat; lra|exact ND])).
    assert (EP : 0 <= E). { unfold E. apply Rmult_le_pos; [lra|]. apply Rplus_le_le_0_compat; [apply Rdiv_le_0_compat; lra|apply Rmult_le_pos; [lra|apply Rdiv_le_0_compat; lra]]. }
    assert (EQ : de * Nn + tau + lam * (de * K + tau) = E * L9) by (unfold E, L9; field; lra).
    specialize (DV ltac:(rewrite EQ; apply Rmult_le_compat_l; [exact EP|unfold L9; lra])).
    destruct DV as [FQ DQ]. split; [exact FQ|]. unfold i_resp. eapply Rle_trans; [exact DQ|].
    unfold resp_error. fold n. fold q. rewrite ik, il.
    assert (E2 : E = 10 / 9 * (de * lam + tau / D + lam * (de * kap + tau / D))) by (unfold E; rewrite NL, KD; field; lra).
    set (tD' := tau / D) in *. assert (tD0 : 0 <= tD') by (unfold tD'; apply Rdiv_le_0_compat; lra).
    assert (ID : / D <= 2 ^ 40). { rewrite <- (Rinv_inv (2 ^ 40)). apply Rinv_le; lra. }
    assert (tD1 : tD' <= / 2 ^ 310). { unfold tD', Rdiv. apply Rle_trans with (/ 2 ^ 350 * 2 ^ 40); [apply Rmult_le_compat; try lra; left; apply Rinv_0_lt_compat; lra|].
      rewrite (pow_add 2 310 40 : 2 ^ 350 = _), Rinv_mult, Rmult_assoc, Rinv_l, Rmult_1_r by (apply Rgt_not_eq, pow_lt; lra). lra. }
    assert (T310 : 2 * / 2 ^ 310 <= / 2 ^ 301). { replace 2 with (/ / 2 ^ 1) at 1 by field. rewrite <- Rinv_mult. apply Rinv_le; [apply pow_lt; lra|]. rewrite (pow_add 2 301 9 : 2 ^ 310 = _). assert (0 < 2 ^ 301) by (apply pow_lt; lra). lra. }
    assert (T300 : 2 * / 2 ^ 301 = / 2 ^ 300) by (rewrite (pow_add 2 300 1 : 2 ^ 301 = _), Rinv_mult; lra).
    assert (T9 : / 2 ^ 900 <= / 2 ^ 310) by (apply Rinv_le; [apply pow_lt; lra|apply Rle_pow; [lra|lia]]).
    assert (T31 : / 2 ^ 310 <= / 2 ^ 60) by (apply Rinv_le; [apply pow_lt; lra|apply Rle_pow; [lra|lia]]).
    assert (lk : lam <= kap * lam). { rewrite <- (Rmult_1_l lam) at 1. apply Rmult_le_compat_r; lra. }
    set (x := kap * lam) in *. assert (lx : de * lam <= de * x) by (apply Rmult_le_compat_l; lra).
    assert (lt : 0 <= lam * tD' <= x * / 2 ^ 60). { split; [apply Rmult_le_pos; lra|]. apply Rmult_le_compat; lra. }
    assert (qx : (7 / 2 * de + / 2 ^ 42) * x <= q * x) by (apply Rmult_le_compat_r; lra). replace (q * kap * lam) with (q * x) by (unfold x; ring).
    replace (lam * (de * kap + tD')) with (de * x + lam * tD') in E2 by (unfold x; ring).
    set (dx := de * x) in *. replace ((7 / 2 * de + / 2 ^ 42) * x) with (7 / 2 * dx + / 2 ^ 42 * x) in qx by (unfold dx; ring).
    assert (dx0 : 0 <= dx) by (unfold dx; apply Rmult_le_pos; lra).
    assert (U : 0 < uu <= / 2 ^ 53) by (unfold uu; lra).
    assert (uE : 32 * uu * (lam + E) <= 32 * / 2 ^ 53 * (x + E)) by (apply Rmult_le_compat; lra).
    rewrite E2 in *. set (a1 := de * lam) in *. set (a2 := lam * tD') in *.
    set (t300 := / 2 ^ 300) in *. set (t301 := / 2 ^ 301) in *. set (t310 := / 2 ^ 310) in *. set (t900 := / 2 ^ 900) in *. lra.
  Qed.

  (** Cascade::response *)
  Lemma c77_cascade e (bs : list (biquad FN)) ds rest mx (f : f64) : 0 <= e <= / 2 ^ 10 -> List.Forall2 (near_section e) bs ds -> (length ds <= 32)%nat ->
    is_finite f = true -> 0 <= B2R f <= 1 / 2 ->
    0 < Cmod (cprod (map (i_den (B2R f)) ds)) -> resp_rel e (length ds) * i_cond ds (B2R f) <= / 4 ->
    exists h, cas_response (N := FN) (MkCascade (Z.of_nat (length ds)) mx (bs ++ rest)) f = Val h /\ cfin h /\ Cmod (c2c h - i_resp ds (B2R f))%C <= resp_error e ds (B2R f).
  Proof.
    intros He F Hn Ff Hf HDen HC. destruct (polar_at m f HP Ff Hf) as (z1 & z2 & E1 & Z1 & E2 & Z2).
    destruct (resp_core e bs ds rest (B2R f) z1 z2 He F Hn HDen HC Z1 Z2) as (ch & cb & EL & FQ & EQ).
    exists (lm_cdiv m ch cb). split; [|split; assumption].
    assert (HL : length bs = length ds) by (clear - F; induction F; cbn; congruence).
    unfold cas_response. cbn [c_numStages c_stages]. rewrite Nat2Z.id, <- HL.
    assert (G1 : ngtb (N := FN) f (nlit FN 1 2) = false).
    { unfold ngtb. cbn [nltb nlit F64]. match goal with |- Bltb ?h ?x = false => assert (FH : is_finite h = true) by (vm_compute; reflexivity); assert (VH : B2R h = 1 / 2) by (erewrite sf_val by (vm_compute; reflexivity); unfold SF2R, F2R; cbn; lra); rewrite (Bltb_correct _ _ _ _ FH Ff), VH end. apply Rlt_bool_false. lra. }
    assert (G2 : nltb FN f (nofZ FN 0) = false).
    { cbn [nltb nofZ F64]. destruct (fofZ_val 0 ltac:(lia)) as [V1 V2]. rewrite (Bltb_correct _ _ _ _ Ff V2), V1. apply Rlt_bool_false. lra. }
    rewrite G1, G2. cbn [othrow_if obind]. cbn [npolar nmul nopp nofZ npi F64]. rewrite E1. cbn [oor_ub obind]. rewrite E2. cbn [oor_ub obind].
    change (c_of (N := FN) (fofZ 1)) with (c_of (N := FN) (nofZ FN 1)). rewrite EL. cbn [obind]. reflexivity.
  Qed.
  (** Biquad::response *)
  Lemma c77_biquad e (b : biquad FN) d (f : f64) : 0 <= e <= / 2 ^ 10 -> near_section e b d ->
    is_finite f = true -> 0 <= B2R f <= 1 / 2 ->
    0 < Cmod (i_den (B2R f) d) -> resp_rel e 1 * i_cond [d] (B2R f) <= / 4 ->
    exists h, bq_response (N := FN) b f = Val h /\ cfin h /\ Cmod (c2c h - i_resp [d] (B2R f))%C <= resp_error e [d] (B2R f).
  Proof.
    intros He F Ff Hf HDen HC. destruct (polar_at m f HP Ff Hf) as (z1 & z2 & E1 & Z1 & E2 & Z2).
    destruct (resp_core e [b] [d] [] (B2R f) z1 z2 He (List.Forall2_cons _ _ F (List.Forall2_nil _)) ltac:(cbn; lia) ltac:(unfold cprod; cbn [map fold_right]; rewrite Cmult_1_r; exact HDen) HC Z1 Z2) as (ch & cb & EL & FQ & EQ).
    cbn [app length resp_loop] in EL. injection EL as <- <-.
    eexists. split; [|split; [exact FQ|exact EQ]].
    unfold bq_response. cbn [npolar nmul nopp nofZ npi F64]. rewrite E1. cbn [oor_ub obind]. rewrite E2. cbn [oor_ub obind]. reflexivity.
  Qed.
End Final.
