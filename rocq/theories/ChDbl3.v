(** Proofs: poles and zeros of the Chebyshev prototypes in binary64. *)
From Coq Require Import ZArith List Bool Reals Lra Lia.
From Coquelicot Require Import Coquelicot.
From Flocq Require Import Core.Raux Core.Defs IEEE754.BinarySingleNaN.
From Verif Require Import Num Outcome Types Biquad Chebyshev Float64 FloatSpec FloatProofs SampleLemmas RoundSpec RoundProofs DblPi DblSpec DblProofs DblLemmas RbjShProofs RelDbl
  BwDblSpec CplxDbl BwDbl BwDbl2 BuildAny SimSetup ChCoefSpec ChDblSpec ChDbl ChDbl2.
Local Open Scope R_scope.

Lemma trig_low n j : (1 <= j <= n)%nat -> 3 / 4 / INR n <= sin (INR j * PI / (2 * INR n)).
Proof.
  intros [J1 J2]. pose proof pi_bounds as PB. apply le_INR in J1, J2. change (INR 1) with 1 in J1.
  set (ph := INR j * PI / (2 * INR n)).
  destruct (Req_dec (INR n) 1) as [E1|E1].
  { assert (EJ : INR j = 1) by lra. unfold ph. rewrite EJ, E1. replace (1 * PI / (2 * 1)) with (PI / 2) by field. rewrite sin_PI2. lra. }
  assert (N2 : 2 <= INR n). { assert (1 < n)%nat. { apply INR_lt. change (INR 1) with 1. lra. } apply le_INR in H. change (INR 2) with 2 in H. exact H. }
  assert (L : PI / (2 * INR n) <= ph <= PI / 2).
  { unfold ph, Rdiv. split.
    - apply Rmult_le_compat_r; [left; apply Rinv_0_lt_compat; lra|nra].
    - apply Rmult_le_reg_r with (2 * INR n); [lra|]. rewrite Rmult_assoc, Rinv_l by lra. nra. }
  assert (P0 : 0 < PI / (2 * INR n) <= 1).
  { unfold Rdiv. split; [apply Rmult_lt_0_compat; [lra|apply Rinv_0_lt_compat; lra]|]. apply Rmult_le_reg_r with (2 * INR n); [lra|]. rewrite Rmult_assoc, Rinv_l by lra. lra. }
  assert (S : sin (PI / (2 * INR n)) <= sin ph) by (apply sin_incr_1; lra). pose proof (sin_half _ (conj (Rlt_le _ _ (proj1 P0)) (proj2 P0))) as SH.
  assert (3 / 4 / INR n <= PI / (2 * INR n) / 2). { unfold Rdiv. apply Rmult_le_reg_r with (INR n); [lra|]. rewrite Rmult_assoc, Rinv_l by lra. replace (PI * / (2 * INR n) * / 2 * INR n) with (PI / 4) by (field; lra). lra. }
  lra.
Qed.
Lemma prod_err (sf cf : f64) S c r : rel sf S r -> r <= 1 / 10 ^ 6 -> is_finite cf = true -> Rabs (B2R cf - c) <= 13 * uu -> Rabs c <= 1 ->
  is_finite (fmul sf cf) = true /\ Rabs (B2R (fmul sf cf) - S * c) <= (r + 11 / 10 * uu) * Rabs (S * c) + 132 / 10 * uu * Rabs S.
Proof.
  intros A Hr Fc D Hc. pose proof (rel_p0 _ _ _ A) as R0. destruct A as (Fs & M & E). pose proof (mid_pos _ M) as M0. pose proof mid_big as MB. pose proof mid_tiny as MT.
  rewrite (Rabs_mult S c). set (s := B2R sf) in *. set (x := B2R cf) in *.
  assert (XB : Rabs x <= Rabs c + 13 * uu). { replace x with ((x - c) + c) by ring. eapply Rle_trans; [apply Rabs_triang|lra]. }
  assert (SB : Rabs s <= (1 + r) * Rabs S). { replace s with ((s - S) + S) by ring. eapply Rle_trans; [apply Rabs_triang|lra]. }
  pose proof (Rabs_pos c) as C0. pose proof (Rabs_pos x) as X0. destruct M as [M1 M2].
  assert (UU : 0 < uu <= / 10 ^ 12) by (unfold uu; lra).
  assert (PB : Rabs (s * x) <= (1 + r) * Rabs S * (Rabs c + 13 * uu)) by (rewrite Rabs_mult; apply Rmult_le_compat; try apply Rabs_pos; assumption).
  destruct (ap_mul sf cf (2 * Rabs S) Fs Fc) as (F & _ & _).
  { fold s x. eapply Rle_trans; [exact PB|]. replace (2 * Rabs S) with (Rabs S * 2) by ring. replace ((1 + r) * Rabs S * (Rabs c + 13 * uu)) with (Rabs S * ((1 + r) * (Rabs c + 13 * uu))) by ring. apply Rmult_le_compat_l; [lra|]. nra. }
  { assert (2 ^ 61 = 2 * 2 ^ 60) by (simpl; lra). assert (2 ^ 62 = 4 * 2 ^ 60) by (simpl; lra). lra. }
  split; [exact F|].
  destruct (ap_mul sf cf (Rabs (s * x)) Fs Fc (Rle_refl _)) as (_ & G & _).
  { eapply Rle_trans; [exact PB|]. replace ((1 + r) * Rabs S * (Rabs c + 13 * uu)) with (Rabs S * ((1 + r) * (Rabs c + 13 * uu))) by ring. apply Rle_trans with (Rabs S * 2); [apply Rmult_le_compat_l; [lra|nra]|]. assert (2 ^ 62 = 4 * 2 ^ 60) by (simpl; lra). lra. }
  fold s x in G.
  replace (B2R (fmul sf cf) - S * c) with ((B2R (fmul sf cf) - s * x) + ((s - S) * x + S * (x - c))) by ring.
  eapply Rle_trans; [apply Rabs_triang|]. eapply Rle_trans; [apply Rplus_le_compat_l, Rabs_triang|]. rewrite !Rabs_mult.
  assert (T1 : Rabs (s - S) * Rabs x <= r * Rabs S * (Rabs c + 13 * uu)) by (apply Rmult_le_compat; try apply Rabs_pos; assumption).
  assert (T2 : Rabs S * Rabs (x - c) <= Rabs S * (13 * uu)) by (apply Rmult_le_compat_l; lra).
  assert (T3 : tiny <= / 1048576 * uu * Rabs S). { eapply Rle_trans; [exact MT|]. unfold Rdiv. rewrite (Rmult_comm (/ 1048576) uu). apply Rmult_le_compat_l; [unfold uu; lra|exact M1]. }
  assert (T4 : uu * Rabs (s * x) <= uu * ((1 + r) * Rabs S * (Rabs c + 13 * uu))) by (apply Rmult_le_compat_l; lra).
  set (A := Rabs S) in *. set (c' := Rabs c) in *. clearbody A c'. clear - G T1 T2 T3 T4 R0 Hr UU M0 C0 Hc.
  assert (Z0 : 0 <= A * uu) by (apply Rmult_le_pos; lra). assert (Z1 : 0 <= A * uu * c') by (apply Rmult_le_pos; lra). assert (Z2 : 0 <= r * (A * uu)) by (apply Rmult_le_pos; lra).
  assert (K3 : r * (A * uu) <= / 10 ^ 6 * (A * uu)) by (apply Rmult_le_compat_r; lra).
  assert (K4 : r * (A * uu * c') <= / 10 ^ 6 * (A * uu * c')) by (apply Rmult_le_compat_r; lra).
  assert (K5 : r * (A * uu) * uu <= r * (A * uu) * / 10 ^ 12) by (apply Rmult_le_compat_l; lra).
  assert (K6 : A * uu * uu <= A * uu * / 10 ^ 12) by (apply Rmult_le_compat_l; lra).
  lra.
Qed.
Lemma rel_pi : rel (fnorm 7074237752028440 (-51)) PI (7 / 10 * uu).
Proof. pose proof pi_bounds as PB. eapply rel_of; [exact ap_pi|apply mid_of; lra|rewrite Rabs_pos_eq by lra; unfold uu; lra]. Qed.
Lemma mid_neg r : mid r -> mid (- r).
Proof. unfold mid. rewrite Rabs_Ropp. auto. Qed.
Lemma rel_int z : (1 <= Z.abs z <= 1024)%Z -> rel (fofZ z) (IZR z) 0 /\ 1 <= Rabs (IZR z) <= 1024.
Proof.
  intros [H1 H2]. assert (B : 1 <= Rabs (IZR z) <= 1024). { rewrite <- abs_IZR. apply IZR_le in H1, H2. split; assumption. }
  split; [|exact B]. apply rel_ofZ; [|lia]. unfold mid. assert (1024 <= 2 ^ 60) by (replace 1024 with (2 ^ 10) by lra; apply Rle_pow; [lra|lia]). assert (/ 2 ^ 60 <= / 1) by (apply Rinv_le; lra). lra.
Qed.
Lemma mid_abs r : 1 / 10 ^ 12 <= Rabs r <= 10 ^ 12 -> mid r.
Proof. intros H. unfold mid. pose proof (mid_of (Rabs r) H) as Q. unfold mid in Q. rewrite (Rabs_pos_eq (Rabs r)) in Q by apply Rabs_pos. exact Q. Qed.

Section Trig.
  Variable m : libm.
  Hypothesis HM : libm_cheb m.
  Variable n : Z.
  Hypothesis Hn : (1 <= n <= 32)%Z.
  Variable k : Z.
  Hypothesis Hk : (1 <= Z.abs k <= n)%Z.
  Notation pif := (fnorm 7074237752028440 (-51)).
  Notation th := (IZR k * PI / (2 * IZR n)).
  Lemma nz : 1 <= IZR n <= 32 /\ 1 <= Rabs (IZR k) <= IZR n.
  Proof. destruct Hn as [A B], Hk as [D E]. rewrite <- abs_IZR. apply IZR_le in A, B, D, E. lra. Qed.
  Lemma th_abs : 1 / 100 <= Rabs th <= 1571 / 1000.
  Proof.
    destruct nz as [NR KR]. pose proof pi_bounds as PB. unfold Rdiv. rewrite !Rabs_mult, (Rabs_pos_eq PI) by lra. rewrite (Rabs_pos_eq (/ _)) by (left; apply Rinv_0_lt_compat; lra).
    split; apply Rmult_le_reg_r with (2 * IZR n); try lra; rewrite ?Rmult_assoc, ?(Rmult_assoc _ (/ _)), ?Rinv_l by lra; nra.
  Qed.
  Definition ang1 : f64 := fdiv (fmul (fofZ k) pif) (fofZ (2 * n)).
  Definition ang2 : f64 := fmul (fofZ k) (fdiv pif (fofZ (2 * n))).
  Lemma rel_ang : rel ang1 th (271 / 100 * uu) /\ rel ang2 th (271 / 100 * uu).
  Proof.
    destruct nz as [NR KR]. pose proof pi_bounds as PB. pose proof th_abs as TA.
    destruct (rel_int k ltac:(lia)) as [RK _]. destruct (rel_int (2 * n) ltac:(lia)) as [RN _]. rewrite mult_IZR in RN.
    assert (MT : mid th) by (apply mid_abs; lra).
    assert (MP : mid (PI / (2 * IZR n))).
    { apply mid_of. unfold Rdiv at 2. assert (/ 64 <= / (2 * IZR n)) by (apply Rinv_le; lra). assert (/ (2 * IZR n) <= / 1) by (apply Rinv_le; lra). split; nra. }
    assert (MK : mid (IZR k * PI)). { apply mid_abs. rewrite Rabs_mult, (Rabs_pos_eq PI) by lra. split; nra. }
    split.
    - unfold ang1. eapply rel_div; [eapply rel_mul; [exact RK|exact rel_pi|exact MK|lra|unfold uu; lra|apply Rle_refl]|exact RN|exact MT|unfold uu; lra|lra|unfold uu; lra].
    - unfold ang2. apply (rel_eq _ (IZR k * (PI / (2 * IZR n)))); [|field; lra].
      eapply rel_mul; [exact RK|eapply rel_div; [exact rel_pi|exact RN|exact MP|unfold uu; lra|lra|apply Rle_refl]| |lra|unfold uu; lra|unfold uu; lra].
      replace (IZR k * (PI / (2 * IZR n))) with th by (field; lra). exact MT.
  Qed.
  Lemma trig_ap x : x = ang1 \/ x = ang2 ->
    (is_finite (lm_cos m x) = true /\ Rabs (B2R (lm_cos m x) - cos th) <= 13 * uu) /\ (is_finite (lm_sin m x) = true /\ Rabs (B2R (lm_sin m x) - sin th) <= 13 * uu).
  Proof.
    intros HX. assert (A : rel x th (271 / 100 * uu)) by (destruct HX as [->| ->]; apply rel_ang). pose proof th_abs as TA. destruct A as (FX & _ & D).
    assert (D' : Rabs (B2R x - th) <= 43 / 10 * uu) by (eapply Rle_trans; [exact D|]; unfold uu; nra).
    assert (XB : -4 <= B2R x <= 4). { assert (Rabs (B2R x) <= 2). { replace (B2R x) with ((B2R x - th) + th) by ring. eapply Rle_trans; [apply Rabs_triang|]. unfold uu in *. lra. } apply Rabs_le_between in H. lra. }
    destruct HM as (HS & HC & _). destruct (HS x FX XB) as [S1 S2]. destruct (HC x FX XB) as [C1 C2].
    split; (split; [assumption|]).
    - replace (B2R (lm_cos m x) - cos th) with ((B2R (lm_cos m x) - cos (B2R x)) + (cos (B2R x) - cos th)) by ring. eapply Rle_trans; [apply Rabs_triang|]. pose proof (cos_lip (B2R x) th). unfold uu in *. lra.
    - replace (B2R (lm_sin m x) - sin th) with ((B2R (lm_sin m x) - sin (B2R x)) + (sin (B2R x) - sin th)) by ring. eapply Rle_trans; [apply Rabs_triang|]. pose proof (sin_lip (B2R x) th). unfold uu in *. lra.
  Qed.
End Trig.
