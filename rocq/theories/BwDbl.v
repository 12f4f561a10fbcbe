(** Proofs: errors of the Butterworth low and high pass designs in binary64. *)
From Coq Require Import ZArith List Bool Reals Lra Lia.
From Coquelicot Require Import Coquelicot.
From Flocq Require Import Core.Raux Core.Defs IEEE754.BinarySingleNaN.
From Verif Require Import Num Outcome Types Biquad Cascade Transforms Butterworth PoleFilter Float64 FloatSpec FloatProofs SampleLemmas SigSpec StabProofs
  RoundSpec RoundProofs DblPi DblSpec DblProofs DblLemmas LayoutProofs BuildProofs BuildAny BwDblSpec CplxDbl.
Import ListNotations.
Local Open Scope R_scope.

Lemma sq_le a b : 0 <= b -> a ^ 2 <= b ^ 2 -> a <= b.
Proof. intros H Q. destruct (Rle_lt_dec a b) as [L|L]; [exact L|]. exfalso. assert (b ^ 2 < a ^ 2) by (simpl; nra). lra. Qed.
Lemma den_ge (w : C) : fst w <= 0 -> 1 <= Cmod (1 - w)%C /\ Cmod w <= Cmod (1 - w)%C /\ Cmod (1 + w)%C <= Cmod (1 - w)%C.
Proof.
  destruct w as [x y]. cbn [fst]. intros H. repeat split; (apply sq_le; [apply Cmod_ge_0|]); rewrite ?Cmod_sq; unfold Cminus, Cplus, Copp, RtoC; cbn [fst snd]; nra.
Qed.
Lemma tiny900 : 0 < / 2 ^ 900 <= uu / 1048576.
Proof.
  split; [apply Rinv_0_lt_compat, pow_lt; lra|]. unfold uu. replace (/ 9007199254740992 / 1048576) with (/ 2 ^ 73) by lra.
  apply Rinv_le; [apply pow_lt; lra|apply Rle_pow; [lra|lia]].
Qed.
Lemma p400 : 2 ^ 100 + 2 ^ 100 <= 2 ^ 400 /\ / 2 ^ 400 <= 1 / 2 /\ 2 ^ 100 + 2 ^ 100 <= big.
Proof.
  split; [|split].
  - replace (2 ^ 100 + 2 ^ 100) with (2 ^ 101) by (simpl; lra). apply Rle_pow; [lra|lia].
  - replace (1 / 2) with (/ 2 ^ 1) by lra. apply Rinv_le; [apply pow_lt; lra|apply Rle_pow; [lra|lia]].
  - replace (2 ^ 100 + 2 ^ 100) with (2 ^ 101) by (simpl; lra). apply Rle_pow; [lra|lia].
Qed.

Section Dbl.
  Variable m : libm.
  Notation FN := (F64 m).
  Hypothesis HM : libm_design m.

  Lemma not_inf c : cfin c -> c_eqb (N := FN) c c_inf = false.
  Proof. intros [F _]. destruct c as [x y]. cbn [re] in F. destruct x; try discriminate; reflexivity. Qed.
  (** (1 + w)/(1 - w), where the scaled pole f c has relative error rho *)
  Lemma bil_parts (f : f64) c (w : C) rho : is_finite f = true -> cfin c -> fst w <= 0 -> 0 <= rho <= 1 / 1000 ->
    Cmod (RtoC (B2R f) * c2c c - w)%C <= rho * Cmod w -> Cmod w <= 2 ^ 99 ->
    cap (c_addr (N := FN) (c_scale (N := FN) f c) (fofZ 1)) (1 + w)%C ((rho + 3 * uu) * Cmod (1 - w)%C) /\
    cap (c_rsub (N := FN) (fofZ 1) (c_scale (N := FN) f c)) (1 - w)%C ((rho + 3 * uu) * Cmod (1 - w)%C).
  Proof.
    intros Ff Fc Hw Hr HE HB. destruct (den_ge w Hw) as (K1 & K2 & K3). pose proof tiny_uu as TU. pose proof tiny_pos as TP. destruct p400 as (Q1 & Q2 & Q3).
    pose proof (Cmod_ge_0 w) as W0. set (K := Cmod (1 - w)%C) in *. set (W := Cmod w) in *.
    assert (HB2 : 2 ^ 99 + 2 ^ 99 = 2 ^ 100) by (simpl; lra). assert (P99 : 1 <= 2 ^ 99) by (apply pow_R1_Rle; lra).
    set (P := (RtoC (B2R f) * c2c c)%C) in *.
    assert (MP : Cmod P <= (1 + rho) * W).
    { replace P with (w + (P - w))%C by ring. eapply Rle_trans; [apply Cmod_triangle|]. fold W. lra. }
    assert (RW : rho * W <= 1 / 1000 * W) by (apply Rmult_le_compat_r; lra).
    assert (RK : rho * W <= rho * K) by (apply Rmult_le_compat_l; lra).
    assert (KB : K <= 2 ^ 99 + 1). { unfold K. unfold Cminus. eapply Rle_trans; [apply Cmod_triangle|]. rewrite Cmod_opp, Cmod_1. fold W. lra. }
    pose proof (cap_scale m f c Ff Fc ltac:(fold P; lra)) as S. fold P in S.
    pose proof (cap_trans _ _ w _ _ S HE) as S2.
    assert (EW : uu * Cmod P + 2 * tiny + rho * W <= (rho + 11 / 10 * uu) * K) by (unfold uu in *; lra).
    pose proof (cap_weak _ _ _ _ S2 EW) as S3.
    assert (RK2 : rho * K <= 1 / 1000 * K) by (apply Rmult_le_compat_r; lra).
    split.
    - eapply cap_weak; [apply (cap_addr m _ _ _ S3)|]; fold W; [unfold uu in *; lra|]. unfold uu in *. lra.
    - eapply cap_weak; [apply (cap_rsub m _ _ _ S3)|]; fold W; [unfold uu in *; lra|]. fold K. unfold uu in *. lra.
  Qed.
  Lemma bil_div a b (z w : C) rho : fst w <= 0 -> 0 <= rho <= 1 / 1000 -> Cmod w <= 2 ^ 99 -> Cmod z <= Cmod (1 - w)%C ->
    cap a z ((rho + 3 * uu) * Cmod (1 - w)%C) -> cap b (1 - w)%C ((rho + 3 * uu) * Cmod (1 - w)%C) ->
    cap (lm_cdiv m a b) (z / (1 - w))%C (201 / 100 * rho + 39 * uu).
  Proof.
    intros Hw Hr HB Hz A B. destruct (den_ge w Hw) as (K1 & _ & _). destruct p400 as (Q1 & Q2 & Q3). pose proof tiny900 as T9.
    pose proof (Cmod_ge_0 w) as W0. set (K := Cmod (1 - w)%C) in *. set (W := Cmod w) in *. assert (P99 : 1 <= 2 ^ 99) by (apply pow_R1_Rle; lra).
    assert (HB2 : 2 ^ 99 + 2 ^ 99 = 2 ^ 100) by (simpl; lra).
    assert (KB : K <= 2 ^ 99 + 1). { unfold K. unfold Cminus. eapply Rle_trans; [apply Cmod_triangle|]. rewrite Cmod_opp, Cmod_1. fold W. lra. }
    assert (Wn : (1 - w)%C <> 0%C). { intros Z. unfold K in K1. rewrite Z, Cmod_0 in K1. lra. }
    set (h := rho + 3 * uu) in *. assert (Hh : 0 < h <= 11 / 10000) by (unfold h, uu; lra).
    assert (HK : 0 < h * K <= 11 / 10000 * K) by (split; [apply Rmult_lt_0_compat; lra|apply Rmult_le_compat_r; lra]).
    eapply cap_weak; [apply (cap_div m a b z (1 - w)%C (h * K) (h * K) K 1 (2005 / 1000 * h)); try assumption|].
    - apply HM.
    - unfold K. lra.
    - lra.
    - lra.
    - fold K. lra.
    - lra.
    - rewrite Cmod_div by exact Wn. fold K. apply Rmult_le_reg_r with K; [lra|]. unfold Rdiv. rewrite Rmult_assoc, Rinv_l by lra. lra.
    - assert (0 <= h * K * (2005 / 1000 * (1 - h) - 2)) by (apply Rmult_le_pos; lra). nra.
    - unfold h, uu in *. lra.
  Qed.
  Lemma lp_ap (f : f64) c (w : C) rho : is_finite f = true -> cfin c -> fst w <= 0 -> 0 <= rho <= 1 / 1000 ->
    Cmod (RtoC (B2R f) * c2c c - w)%C <= rho * Cmod w -> Cmod w <= 2 ^ 99 ->
    cap (lp_transform (N := FN) f c) ((1 + w) / (1 - w))%C (201 / 100 * rho + 39 * uu).
  Proof.
    intros Ff Fc Hw Hr HE HB. destruct (bil_parts f c w rho Ff Fc Hw Hr HE HB) as [A B]. unfold lp_transform.
    rewrite (not_inf c Fc).
    unfold bilinear. cbn [ncdiv F64]. destruct (den_ge w Hw) as (_ & _ & K3). apply bil_div; assumption.
  Qed.
  Lemma hp_ap (f : f64) c (w : C) rho : is_finite f = true -> cfin c -> fst w <= 0 -> 0 <= rho <= 1 / 1000 ->
    Cmod (RtoC (B2R f) * c2c c - w)%C <= rho * Cmod w -> Cmod w <= 2 ^ 99 ->
    cap (hp_transform (N := FN) f c) (- (1 + w) / (1 - w))%C (201 / 100 * rho + 39 * uu).
  Proof.
    intros Ff Fc Hw Hr HE HB. destruct (bil_parts f c w rho Ff Fc Hw Hr HE HB) as [A B]. unfold hp_transform.
    rewrite (not_inf c Fc).
    cbn [ncdiv F64]. destruct (den_ge w Hw) as (_ & _ & K3). apply bil_div; try assumption; [rewrite Cmod_opp; exact K3|]. apply cap_copp. exact A.
  Qed.
  (** a real pole stays real *)
  Lemma mul0 (x f : f64) : is_finite x = true -> is_finite f = true -> B2R x = 0 -> B2R (fmul x f) = 0 /\ is_finite (fmul x f) = true.
  Proof.
    intros Fx Ff H. destruct (ap_mul x f 0 Fx Ff) as (A1 & A2 & _); [rewrite H, Rmult_0_l, Rabs_R0; lra|pose proof big_big; lra|]. split; [|exact A1].
    destruct (B2R_zero x Fx H) as [s ->]. destruct f; try discriminate; reflexivity.
  Qed.
  Lemma lp_real (f : f64) c : is_finite f = true -> cfin c -> B2R (im c) = 0 ->
    cap (c_addr (N := FN) (c_scale (N := FN) f c) (fofZ 1)) (1 + RtoC (B2R f) * c2c c)%C 1 -> cap (c_rsub (N := FN) (fofZ 1) (c_scale (N := FN) f c)) (1 - RtoC (B2R f) * c2c c)%C (1 / 2) ->
    Cmod (1 + RtoC (B2R f) * c2c c)%C <= 2 ^ 99 -> 1 <= Cmod (1 - RtoC (B2R f) * c2c c)%C <= 2 ^ 99 ->
    B2R (im (lp_transform (N := FN) f c)) = 0 /\ B2R (im (hp_transform (N := FN) f c)) = 0.
  Proof.
    intros Ff [F1 F2] H A B HA HB. destruct p400 as (Q1 & Q2 & Q3). assert (P99 : 1 <= 2 ^ 99) by (apply pow_R1_Rle; lra). assert (HB2 : 2 ^ 99 + 2 ^ 99 = 2 ^ 100) by (simpl; lra).
    unfold lp_transform, hp_transform. rewrite (not_inf c (conj F1 F2)). unfold bilinear. cbn [ncdiv F64]. destruct HM as (_ & _ & HD).
    pose proof (cap_copp m _ _ _ A) as A'. pose proof (cap_mod _ _ _ A) as MA. pose proof (cap_mod _ _ _ A') as MA'. rewrite Cmod_opp in MA'.
    pose proof (cap_mod _ _ _ B) as MB. pose proof (cap_mod_low _ _ _ B) as LB. destruct (mul0 (im c) f F2 Ff H) as [Z1 Z2].
    split.
    - destruct (HD _ _ (proj1 A) (proj1 B)) as (_ & _ & R); [lra|lra|]. apply R; cbn [c_addr c_rsub c_scale im nmul nopp F64]; [exact Z1|rewrite B2R_Bopp; apply Ropp_eq_0_compat; exact Z1].
    - destruct (HD _ _ (proj1 A') (proj1 B)) as (_ & _ & R); [lra|lra|]. apply R; cbn [c_addr c_rsub c_scale c_opp im nmul nopp F64]; (rewrite B2R_Bopp; apply Ropp_eq_0_compat; exact Z1).
  Qed.

  (** coefficients of a conjugate pair *)
  Lemma Beqb_zero (x : f64) : is_finite x = true -> Beqb x (fofZ 0) = true -> B2R x = 0.
  Proof. intros F H. destruct (fofZ_val 0 ltac:(lia)) as [V1 V2]. rewrite (Beqb_correct _ _ x (fofZ 0) F V2), V1 in H. revert H. apply Req_bool_spec || (unfold Req_bool; destruct (Rcompare_spec (B2R x) 0); try discriminate; auto). Qed.
  Lemma zero_Beqb (x : f64) : is_finite x = true -> B2R x = 0 -> Beqb x (fofZ 0) = true.
  Proof. intros F H. destruct (B2R_zero x F H) as [s ->]. destruct s; reflexivity. Qed.
  Lemma fin_eqb (x : f64) : is_finite x = true -> Beqb x x = true.
  Proof. intros F. apply Beqb_self. intros ->. discriminate. Qed.
  Lemma norm_ap c (p : C) e : cap c p e -> Cmod p <= 1 -> e <= 1 / 1000 ->
    B2R (re c) ^ 2 + B2R (im c) ^ 2 <= 101 / 100 /\ Rabs (B2R (re c) ^ 2 + B2R (im c) ^ 2 - Cmod p ^ 2) <= 2001 / 1000 * e.
  Proof.
    intros A HP He. pose proof (cap_mod _ _ _ A) as U. pose proof (cap_mod_low _ _ _ A) as L. pose proof (Cmod_ge_0 (c2c c)). pose proof (Cmod_ge_0 p).
    assert (E0 : 0 <= e) by (eapply Rle_trans; [apply Cmod_ge_0|apply A]).
    change (B2R (re c) ^ 2 + B2R (im c) ^ 2) with (fst (c2c c) ^ 2 + snd (c2c c) ^ 2). rewrite <- Cmod_sq. generalize dependent (Cmod (c2c c)). intros a U L Ha.
    generalize dependent (Cmod p). intros b HP U L Hb. split; [simpl; nra|]. apply Rabs_le. simpl. nra.
  Qed.
  Lemma two_ap er c (p : C) e : cap c p e -> Cmod p <= 1 -> e <= 1 / 1000 ->
    exists k1 k2 : f64, two_coeffs (N := FN) er c (c_conj (N := FN) c) = Val (k1, k2) /\
      ap k1 (- 2 * fst p) 2 (3 * e + 3 * uu) /\ ap k2 (Cmod p ^ 2) 1 (3 * e + 8 * uu).
  Proof.
    intros A HP He. pose proof (cap_re _ _ _ A) as AR. pose proof (cap_im _ _ _ A) as AI. pose proof (proj1 A) as [F1 F2].
    assert (E0 : 0 <= e) by (eapply Rle_trans; [apply Cmod_ge_0|apply A]). pose proof tiny_uu as TU. pose proof tiny_pos as TP. pose proof big_big as BB.
    pose proof (ap_weak _ _ _ _ 1 e AR HP ltac:(lra)) as AR1. pose proof (ap_weak _ _ _ _ 1 e AI HP ltac:(lra)) as AI1.
    assert (PQ : Cmod p ^ 2 <= 1) by (pose proof (Cmod_ge_0 p); simpl; nra).
    assert (EE : 0 <= e * e <= 1 / 1000 * e) by (split; [nra|apply Rmult_le_compat_r; lra]).
    pose proof (norm_ap _ _ _ A HP He) as NA. destruct c as [x y]. cbn [re im] in *. unfold two_coeffs. cbn [im c_conj nopp nofZ F64 re]. destruct (nneqb (N := FN) y (fofZ 0)) eqn:Z.
    - unfold c_eqb. cbn [re im c_conj neqb F64 nopp]. rewrite (fin_eqb x F1), (fin_eqb (Bopp y)) by (rewrite is_finite_Bopp; exact F2). cbn [andb negb othrow_if obind].
      exists (fmul (fofZ (-2)) x), (fadd (fmul x x) (fmul y y)). split; [reflexivity|]. split.
      + eapply ap_weak; [eapply ap_mul2; [apply (ap_ofZ (-2) 2); [lia|rewrite Rabs_left; lra]|exact AR1|]|..]; unfold uu in *; lra.
      + destruct NA as (N1 & N2). assert (S1 : Rabs (B2R x * B2R x) <= B2R x ^ 2) by (rewrite Rabs_pos_eq; nra).
        assert (S2 : Rabs (B2R y * B2R y) <= B2R y ^ 2) by (rewrite Rabs_pos_eq; nra).
        destruct (ap_add _ _ _ _ _ _ _ _ (ap_mul _ _ _ F1 F1 S1 ltac:(nra)) (ap_mul _ _ _ F2 F2 S2 ltac:(nra)) ltac:(unfold uu in *; nra)) as (Q1 & Q2 & _).
        split; [exact Q1|]. split; [|rewrite Rabs_pos_eq; [exact PQ|apply pow2_ge_0]].
        revert Q2. generalize (B2R (fadd (fmul x x) (fmul y y))). intros v Q2.
        replace (v - Cmod p ^ 2) with ((v - (B2R x * B2R x + B2R y * B2R y)) + ((B2R x ^ 2 + B2R y ^ 2) - Cmod p ^ 2)) by ring.
        eapply Rle_trans; [apply Rabs_triang|]. unfold uu in *. lra.
    - assert (ZI : B2R y = 0) by (apply (Beqb_zero _ F2); unfold nneqb in Z; apply negb_false_iff in Z; exact Z).
      unfold nneqb. cbn [neqb F64 im]. replace (Beqb (Bopp y) (fofZ 0)) with true; [|symmetry; apply zero_Beqb; [rewrite is_finite_Bopp; exact F2|rewrite B2R_Bopp; lra]].
      cbn [negb othrow_if obind]. exists (Bopp (fadd x x)), (fmul x x). split; [reflexivity|]. split.
      + replace (- 2 * fst p) with (- (fst p + fst p)) by ring. apply ap_opp. eapply ap_weak; [eapply ap_add; [exact AR1|exact AR1|]|..]; unfold uu in *; lra.
      + destruct NA as (N1 & N2). rewrite ZI in N1, N2. assert (S1 : Rabs (B2R x * B2R x) <= B2R x ^ 2) by (rewrite Rabs_pos_eq; nra).
        destruct (ap_mul _ _ _ F1 F1 S1 ltac:(nra)) as (Q1 & Q2 & _). split; [exact Q1|]. split; [|rewrite Rabs_pos_eq; [exact PQ|apply pow2_ge_0]].
        revert Q2. generalize (B2R (fmul x x)). intros v Q2.
        replace (v - Cmod p ^ 2) with ((v - (B2R x * B2R x)) + ((B2R x ^ 2 + 0 ^ 2) - Cmod p ^ 2)) by ring.
        eapply Rle_trans; [apply Rabs_triang|]. unfold uu in *. lra.
  Qed.
End Dbl.
