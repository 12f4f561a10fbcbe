(** Proofs: errors of the RBJ designs in binary64. *)
From Coq Require Import ZArith List Bool Reals Lra Lia.
From Flocq Require Import Core.Raux Core.Defs IEEE754.BinarySingleNaN.
From Verif Require Import Num Outcome Types Biquad State RBJ Float64 FloatSpec FloatProofs SampleLemmas RoundSpec RoundProofs DblPi DblSpec.
Import ListNotations.
Local Open Scope R_scope.

Lemma ap_mul2 f g r p S T e d : ap f r S e -> ap g p T d -> (S + e) * (T + d) <= big ->
  ap (fmul f g) (r * p) (S * T) (S * d + T * e + e * d + uu * ((S + e) * (T + d)) + tiny).
Proof.
  intros (Ff & Ef & Bf) (Fg & Eg & Bg) H. pose proof (@Bmult_correct 53 1024 Hprec64 Hemax64 mode_NE f g) as A.
  assert (Q1 : Rabs (B2R f) <= S + e) by (replace (B2R f) with ((B2R f - r) + r) by ring; eapply Rle_trans; [apply Rabs_triang|lra]).
  assert (Q2 : Rabs (B2R g) <= T + d) by (replace (B2R g) with ((B2R g - p) + p) by ring; eapply Rle_trans; [apply Rabs_triang|lra]).
  assert (Q : Rabs (B2R f * B2R g) <= (S + e) * (T + d)) by (rewrite Rabs_mult; apply Rmult_le_compat; auto using Rabs_pos).
  rewrite rnd_fit in A by lra. destruct A as (A1 & A2 & _). unfold fmul. split; [rewrite A2, Ff, Fg; reflexivity|]. rewrite A1. split.
  - pose proof (rnd_err (B2R f * B2R g)) as E. assert (uu * Rabs (B2R f * B2R g) <= uu * ((S + e) * (T + d))) by (apply Rmult_le_compat_l; [unfold uu; lra|exact Q]).
    replace (rnd64 (B2R f * B2R g) - r * p) with ((rnd64 (B2R f * B2R g) - B2R f * B2R g) + (r * (B2R g - p) + p * (B2R f - r) + (B2R f - r) * (B2R g - p))) by ring.
    eapply Rle_trans; [apply Rabs_triang|].
    assert (Rabs (r * (B2R g - p) + p * (B2R f - r) + (B2R f - r) * (B2R g - p)) <= S * d + T * e + e * d); [|lra].
    eapply Rle_trans; [apply Rabs_triang|]. apply Rplus_le_compat; [eapply Rle_trans; [apply Rabs_triang|]; apply Rplus_le_compat|];
      rewrite Rabs_mult; apply Rmult_le_compat; auto using Rabs_pos.
  - rewrite Rabs_mult. apply Rmult_le_compat; auto using Rabs_pos.
Qed.
Lemma ap_div2 f g r p S T e d L Q E : ap f r S e -> ap g p T d -> L <= Rabs p -> d < L -> Rabs (r / p) <= Q ->
  e + Q * d <= E * (L - d) -> Q + E <= big -> ap (fdiv f g) (r / p) Q (E + uu * (Q + E) + tiny).
Proof.
  intros (Ff & Ef & Bf) (Fg & Eg & Bg) HL Hd HQ HE H.
  pose proof (Rabs_pos (B2R g - p)) as D0. pose proof (Rabs_pos (B2R f - r)) as E0.
  assert (G1 : L - d <= Rabs (B2R g)). { pose proof (Rabs_triang (B2R g) (p - B2R g)) as Z. replace (B2R g + (p - B2R g)) with p in Z by ring. rewrite (Rabs_minus_sym p) in Z. lra. }
  assert (Gn : B2R g <> 0). { intros Z. rewrite Z, Rabs_R0 in G1. lra. }
  assert (Pn : p <> 0). { intros Z. rewrite Z, Rabs_R0 in HL. lra. }
  pose proof (@Bdiv_correct 53 1024 Hprec64 Hemax64 mode_NE f g Gn) as A.
  assert (N : Rabs (B2R f / B2R g - r / p) <= E).
  { replace (B2R f / B2R g - r / p) with (((B2R f - r) - r / p * (B2R g - p)) / B2R g) by (field; auto).
    unfold Rdiv at 1. rewrite Rabs_mult, Rabs_inv. pose proof (Rabs_pos_lt _ Gn) as GP.
    apply Rmult_le_reg_r with (Rabs (B2R g)); [exact GP|]. rewrite Rmult_assoc, Rinv_l, Rmult_1_r by lra.
    assert (Z : Rabs (B2R f - r - r / p * (B2R g - p)) <= e + Q * d).
    { unfold Rminus at 1. eapply Rle_trans; [apply Rabs_triang|]. rewrite Rabs_Ropp, Rabs_mult. apply Rplus_le_compat; [exact Ef|].
      apply Rmult_le_compat; auto using Rabs_pos. }
    assert (0 <= E). { pose proof (Rabs_pos (B2R f - r - r / p * (B2R g - p))). apply Rmult_le_reg_r with (L - d); lra. }
    eapply Rle_trans; [exact Z|]. eapply Rle_trans; [exact HE|]. apply Rmult_le_compat_l; assumption. }
  assert (V : Rabs (B2R f / B2R g) <= Q + E). { replace (B2R f / B2R g) with (r / p + (B2R f / B2R g - r / p)) by ring. eapply Rle_trans; [apply Rabs_triang|lra]. }
  rewrite rnd_fit in A by lra. destruct A as (A1 & A2 & _). unfold fdiv. split; [rewrite A2; exact Ff|]. rewrite A1. split; [|exact HQ].
  pose proof (rnd_err (B2R f / B2R g)) as W. assert (uu * Rabs (B2R f / B2R g) <= uu * (Q + E)) by (apply Rmult_le_compat_l; [unfold uu; lra|exact V]).
  replace (rnd64 (B2R f / B2R g) - r / p) with ((rnd64 (B2R f / B2R g) - B2R f / B2R g) + (B2R f / B2R g - r / p)) by ring.
  eapply Rle_trans; [apply Rabs_triang|lra].
Qed.
Lemma ap_opp f r S e : ap f r S e -> ap (Bopp f) (- r) S e.
Proof.
  intros (Ff & Ef & Bf). split; [rewrite is_finite_Bopp; exact Ff|]. split; [|rewrite Rabs_Ropp; exact Bf].
  rewrite B2R_Bopp. replace (- B2R f - - r) with (- (B2R f - r)) by ring. rewrite Rabs_Ropp. exact Ef.
Qed.
Lemma fofZ_val z : (Z.abs z < 2 ^ 53)%Z -> B2R (fofZ z) = IZR z /\ is_finite (fofZ z) = true.
Proof.
  intros H. destruct (fnorm_exact z 0 H ltac:(lia)) as [A B]. split; [|exact B]. unfold fofZ. rewrite A. unfold F2R. cbn. ring.
Qed.
Lemma ap_ofZ z S : (Z.abs z < 2 ^ 53)%Z -> Rabs (IZR z) <= S -> ap (fofZ z) (IZR z) S 0.
Proof. intros H HS. destruct (fofZ_val z H) as [A B]. rewrite <- A. apply ap_val; [exact B|rewrite A; exact HS]. Qed.
Lemma ap_pi : ap (fnorm 7074237752028440 (-51)) PI (7 / 2) (2 * uu).
Proof.
  destruct (fnorm_exact 7074237752028440 (-51) ltac:(lia) ltac:(lia)) as [A B]. split; [exact B|]. rewrite A. unfold F2R. cbn [Fnum Fexp].
  change (bpow Zaux.radix2 (-51)) with (/ IZR (Z.pow_pos 2 51)). pose proof pi_bounds as P. change (Z.pow_pos 2 51) with 2251799813685248%Z.
  unfold uu. split; apply Rabs_le; lra.
Qed.

Lemma cos_lip a b : Rabs (cos a - cos b) <= Rabs (a - b).
Proof.
  rewrite form2. replace ((a - b) / 2) with (a / 2 - b / 2) by lra.
  assert (S1 : forall x, Rabs (sin x) <= Rabs x).
  { assert (P : forall x, 0 <= x -> Rabs (sin x) <= x).
    { intros x Hx. destruct (Req_dec x 0) as [->|N]; [rewrite sin_0, Rabs_R0; lra|].
      pose proof (sin_lt_x x ltac:(lra)). apply Rabs_le. split; [|lra].
      destruct (Rle_lt_dec x 1) as [H1|H1]; [|pose proof (SIN_bound x); lra].
      pose proof PI2_1. assert (0 <= sin x) by (apply sin_ge_0; lra). lra. }
    intros x. destruct (Rle_lt_dec 0 x) as [H|H]; [rewrite (Rabs_pos_eq x) by exact H; apply P, H|].
    rewrite (Rabs_left x) by exact H. rewrite <- (Rabs_Ropp (sin x)), <- sin_neg. apply P. lra. }
  rewrite !Rabs_mult. replace (Rabs (-2)) with 2 by (rewrite Rabs_left; lra).
  pose proof (S1 (a / 2 - b / 2)). pose proof (SIN_bound ((a + b) / 2)). assert (Rabs (sin ((a + b) / 2)) <= 1) by (apply Rabs_le; lra).
  replace (Rabs (a - b)) with (2 * Rabs (a / 2 - b / 2)) by (replace (a / 2 - b / 2) with ((a - b) * / 2) by lra; rewrite Rabs_mult, (Rabs_pos_eq (/ 2)) by lra; lra).
  pose proof (Rabs_pos (sin (a / 2 - b / 2))). pose proof (Rabs_pos (sin ((a + b) / 2))). nra.
Qed.
Lemma sin_lip a b : Rabs (sin a - sin b) <= Rabs (a - b).
Proof.
  rewrite <- (cos_shift a), <- (cos_shift b). eapply Rle_trans; [apply cos_lip|].
  replace (PI / 2 - a - (PI / 2 - b)) with (- (a - b)) by ring. rewrite Rabs_Ropp. lra.
Qed.
Lemma exp_lip a b : a <= 1 -> b <= 1 -> Rabs (exp a - exp b) <= 3 * Rabs (a - b).
Proof.
  assert (I : forall a b, a <= b -> exp a <= exp b) by (intros x y [H| ->]; [left; apply exp_increasing, H|lra]).
  assert (P : forall a b, a <= b -> b <= 1 -> exp b - exp a <= 3 * (b - a)).
  { intros x y H Hy. pose proof (I y 1 Hy). pose proof exp_le_3.
    pose proof (exp_ineq1_le (x - y)) as Q. replace (exp x) with (exp y * exp (x - y)) by (rewrite <- exp_plus; f_equal; ring).
    pose proof (exp_pos y). nra. }
  intros Ha Hb. destruct (Rle_lt_dec a b) as [H|H].
  - rewrite (Rabs_left1 (a - b)) by lra. rewrite Rabs_left1 by (specialize (I a b H); lra). specialize (P a b H Hb). lra.
  - rewrite (Rabs_pos_eq (a - b)) by lra. rewrite Rabs_pos_eq by (specialize (I b a ltac:(lra)); lra). specialize (P b a ltac:(lra) Ha). lra.
Qed.

Lemma tiny_uu : tiny <= uu / 1048576.
Proof.
  unfold tiny, uu. replace (/ 9007199254740992 / 1048576) with (/ 9444732965739290427392) by lra. apply Rinv_le; [lra|]. rewrite pow2_IZR. apply IZR_le. vm_compute. discriminate.
Qed.
Lemma ap_fn fn g lo hi x r S e K S' : lib_close fn g lo hi (/ 2 ^ 50) -> ap x r S e -> lo + e <= r <= hi - e ->
  (lo <= B2R x <= hi -> Rabs (g (B2R x) - g r) <= K * Rabs (B2R x - r)) -> 0 <= K -> Rabs (g r) <= S' -> ap (fn x) (g r) S' (8 * uu + K * e).
Proof.
  intros H (F & E & B) Hr HL HK HS. assert (lo <= B2R x <= hi) as Hx by (apply Rabs_def2b in E || (revert E; unfold Rabs; destruct (Rcase_abs _)); lra).
  destruct (H x F Hx) as [Fx Ex]. split; [exact Fx|]. split; [|exact HS]. specialize (HL Hx).
  replace (B2R (fn x) - g r) with ((B2R (fn x) - g (B2R x)) + (g (B2R x) - g r)) by ring. eapply Rle_trans; [apply Rabs_triang|].
  assert (K * Rabs (B2R x - r) <= K * e) by (apply Rmult_le_compat_l; assumption). assert (/ 2 ^ 50 = 8 * uu) by (unfold uu; lra). lra.
Qed.

Lemma ap_div1 f g r p S T e d Q : ap f r S e -> ap g p T d -> 1 <= Rabs p -> d <= 1 / 1000 -> Rabs (r / p) <= Q -> Q <= 4 -> e <= 1 ->
  ap (fdiv f g) (r / p) Q (51 / 50 * (e + Q * d) + uu * Q + tiny).
Proof.
  intros A B L Hd HQ Q4 He. pose proof big_big. assert (0 <= Q) by (eapply Rle_trans; [apply (Rabs_pos (r / p))|exact HQ]).
  assert (0 <= e) by (destruct A as (_ & A & _); eapply Rle_trans; [apply Rabs_pos|exact A]).
  assert (0 <= d) by (destruct B as (_ & B & _); eapply Rle_trans; [apply Rabs_pos|exact B]).
  assert (0 <= Q * d <= 4 / 1000) by (split; nra).
  assert (0 <= (e + Q * d) * (1 / 1000 - d)) by (apply Rmult_le_pos; lra).
  eapply ap_weak; [eapply (ap_div2 _ _ _ _ _ _ _ _ 1 Q (101 / 100 * (e + Q * d)) A B L ltac:(lra) HQ)|lra|].
  - lra.
  - lra.
  - unfold uu. lra.
Qed.

Section Design.
  Variables (m : libm) (f q : f64).
  Hypothesis HM : libm_close m.
  Hypothesis Ff : is_finite f = true.
  Hypothesis Fq : is_finite q = true.
  Hypothesis Hf : 0 < B2R f < 1 / 2.
  Hypothesis Hq : 1 / 64 <= B2R q <= 1024.
  Notation W := (2 * PI * B2R f).
  Notation v := (uu * / B2R q).
  Notation al := (sin W / (2 * B2R q)).

  Lemma v_range : uu / 1024 <= v <= 64 * uu.
  Proof.
    assert (I : / B2R q <= / (1 / 64)) by (apply Rinv_le; lra). assert (J : / 1024 <= / B2R q) by (apply Rinv_le; lra).
    unfold uu. lra.
  Qed.
  Ltac ub := pose proof tiny_uu; pose proof tiny_pos; pose proof big_big; pose proof v_range.
  Lemma ap_f : ap f (B2R f) (1 / 2) 0.
  Proof. apply ap_val; [exact Ff|]. apply Rabs_le; lra. Qed.
  Lemma ap_w : ap (rbj_w0 (N := F64 m) f) W (13 / 4) (10 * uu).
  Proof.
    ub. pose proof pi_bounds. unfold rbj_w0. cbn [nmul npi F64]. eapply ap_weak with (S := 13 / 4); [|lra|].
    - assert (Q : ap (fmul (nofZ (F64 m) 2) (fnorm 7074237752028440 (-51))) (2 * PI) (32 / 5) (11 * uu)).
      { cbn [nofZ F64]. destruct ap_pi as (P1 & P2 & _). assert (P : ap (fnorm 7074237752028440 (-51)) PI (16 / 5) (2 * uu)) by (split; [exact P1|split; [exact P2|apply Rabs_le; lra]]).
        eapply ap_weak; [eapply ap_mul2; [apply (ap_ofZ 2 2); [lia|rewrite Rabs_pos_eq; lra]|exact P|]|..]; unfold uu in *; lra. }
      pose proof ap_f as G. split; [|split].
      + eapply ap_mul2; [exact Q|exact G|]. unfold uu in *; lra.
      + eapply Rle_trans; [eapply ap_mul2; [exact Q|exact G|unfold uu in *; lra]|]. apply Rle_refl.
      + rewrite Rabs_pos_eq by nra. nra.
    - unfold uu in *; lra.
  Qed.
  Lemma ap_cs : ap (lm_cos m (rbj_w0 (N := F64 m) f)) (cos W) 1 (18 * uu).
  Proof.
    pose proof pi_bounds. eapply ap_weak; [eapply (ap_fn _ cos _ _ _ _ _ _ 1 1); [apply HM|exact ap_w|unfold uu in *; nra|intros _; rewrite Rmult_1_l; apply cos_lip|lra|]| |]; [apply Rabs_le, COS_bound|apply Rle_refl|lra].
  Qed.
  Lemma ap_sn : ap (lm_sin m (rbj_w0 (N := F64 m) f)) (sin W) 1 (18 * uu).
  Proof.
    pose proof pi_bounds. eapply ap_weak; [eapply (ap_fn _ sin _ _ _ _ _ _ 1 1); [apply HM|exact ap_w|unfold uu in *; nra|intros _; rewrite Rmult_1_l; apply sin_lip|lra|]| |]; [apply Rabs_le, SIN_bound|apply Rle_refl|lra].
  Qed.
  Lemma sn_pos : 0 < sin W.
  Proof. pose proof PI_RGT_0. apply sin_gt_0; nra. Qed.
  Lemma ap_2q : ap (fmul (fofZ 2) q) (2 * B2R q) (2 * B2R q) (3 * uu * B2R q).
  Proof.
    ub. eapply ap_weak; [eapply ap_mul2; [apply (ap_ofZ 2 2); [lia|rewrite Rabs_pos_eq; lra]|apply (ap_val q (B2R q) Fq); rewrite Rabs_pos_eq; lra|]|..]; unfold uu in *; lra.
  Qed.
  Lemma al_range : 0 < al <= / (2 * B2R q).
  Proof.
    pose proof sn_pos. pose proof (SIN_bound W). assert (0 < / (2 * B2R q)) by (apply Rinv_0_lt_compat; lra). unfold Rdiv. split; nra.
  Qed.
  Lemma ap_al : ap (fdiv (lm_sin m (rbj_w0 (N := F64 m) f)) (fmul (fofZ 2) q)) al (/ (2 * B2R q)) (11 * v).
  Proof.
    ub. pose proof al_range as R. assert (I : / (2 * B2R q) = / 2 * / B2R q) by (field; lra). rewrite I in R |- *.
    assert (J : B2R q * / B2R q = 1) by (field; lra). destruct (v_range) as [V1 V2]. clear H2. assert (Ei : exists i, / B2R q = i) by (eexists; reflexivity). destruct Ei as [i Ei]. rewrite Ei in *. clear Ei.
    eapply ap_weak; [eapply (ap_div2 _ _ _ _ _ _ _ _ (2 * B2R q) (/ 2 * i) (10 * (uu * i)) ap_sn ap_2q)| |].
    - rewrite Rabs_pos_eq; lra.
    - unfold uu; lra.
    - rewrite Rabs_pos_eq; lra.
    - replace (18 * uu + / 2 * i * (3 * uu * B2R q)) with (18 * uu + 3 / 2 * uu * (B2R q * i)) by field.
      replace (10 * (uu * i) * (2 * B2R q - 3 * uu * B2R q)) with (20 * uu * (B2R q * i) - 30 * uu * uu * (B2R q * i)) by ring. rewrite J. unfold uu; lra.
    - unfold uu in *; lra.
    - lra.
    - unfold uu in *; lra.
  Qed.
  Lemma ap_q : ap q (B2R q) (B2R q) 0.
  Proof. apply ap_val; [exact Fq|rewrite Rabs_pos_eq; lra]. Qed.

  Notation h := (/ (2 * B2R q)).
  Lemma uh : uu * h = v / 2 /\ 0 < h <= 32 /\ 11 * v <= 1 / 1000.
  Proof.
    ub. assert (I : / B2R q <= / (1 / 64)) by (apply Rinv_le; lra). assert (J : 0 < / B2R q) by (apply Rinv_0_lt_compat; lra).
    assert (E : h = / 2 * / B2R q) by (field; lra). rewrite E. split; [lra|]. split; [lra|]. unfold uu in *; lra.
  Qed.
  Definition one : f64 := fofZ 1.
  Lemma ap_one : ap one 1 1 0.
  Proof. apply (ap_ofZ 1 1); [lia|rewrite Rabs_pos_eq; lra]. Qed.
  Notation AL := (fdiv (lm_sin m (rbj_w0 (N := F64 m) f)) (fmul (fofZ 2) q)).
  Notation CS := (lm_cos m (rbj_w0 (N := F64 m) f)).
  Notation a0 := (fadd one AL).
  Lemma ap_a0 : ap a0 (1 + al) (1 + h) (12 * (uu + v)).
  Proof.
    ub. destruct uh as (U & Hh & V). eapply ap_weak; [eapply (ap_add _ _ _ _ _ _ _ _ ap_one ap_al)|apply Rle_refl|]; [lra|].
    replace (uu * (1 + h + 0 + 11 * v)) with (uu + uu * h + uu * (11 * v)) by ring. rewrite U. unfold uu in *; lra.
  Qed.
  Lemma ap_a2 : ap (fsub one AL) (1 - al) (1 + h) (12 * (uu + v)).
  Proof.
    ub. destruct uh as (U & Hh & V). eapply ap_weak; [eapply (ap_sub _ _ _ _ _ _ _ _ ap_one ap_al)|apply Rle_refl|]; [lra|].
    replace (uu * (1 + h + 0 + 11 * v)) with (uu + uu * h + uu * (11 * v)) by ring. rewrite U. unfold uu in *; lra.
  Qed.
  Lemma ap_a1 : ap (fmul (fofZ (-2)) CS) (-2 * cos W) 2 (40 * uu).
  Proof.
    ub. eapply ap_weak; [eapply ap_mul2; [apply (ap_ofZ (-2) 2); [lia|rewrite Rabs_left; lra]|exact ap_cs|]|..]; unfold uu in *; lra.
  Qed.
  Lemma ap_1mc : ap (fsub one CS) (1 - cos W) 2 (21 * uu).
  Proof. ub. eapply ap_weak; [eapply (ap_sub _ _ _ _ _ _ _ _ ap_one ap_cs)|..]; unfold uu in *; lra. Qed.
  Lemma ap_1pc : ap (fadd one CS) (1 + cos W) 2 (21 * uu).
  Proof. ub. eapply ap_weak; [eapply (ap_add _ _ _ _ _ _ _ _ ap_one ap_cs)|..]; unfold uu in *; lra. Qed.
  Lemma ap_half x r : ap x r 2 (21 * uu) -> ap (fdiv x (fofZ 2)) (r / 2) 1 (12 * uu).
  Proof.
    intros H. ub. assert (T : ap (fofZ 2) 2 2 0) by (apply (ap_ofZ 2 2); [lia|rewrite Rabs_pos_eq; lra]).
    eapply ap_weak; [eapply (ap_div2 _ _ _ _ _ _ _ _ 2 1 (21 / 2 * uu) H T)|..]; [rewrite Rabs_pos_eq; lra|lra| | |..]; try (unfold uu in *; lra).
    destruct H as (_ & _ & H). unfold Rdiv. rewrite Rabs_mult, (Rabs_pos_eq (/ 2)) by lra. lra.
  Qed.
  Lemma ap_qal : ap (fmul q AL) (sin W / 2) (1 / 2) (12 * uu).
  Proof.
    ub. destruct uh as (U & Hh & V). replace (sin W / 2) with (B2R q * al) by (field; lra).
    assert (E1 : B2R q * h = 1 / 2) by (field; lra). assert (E2 : B2R q * v = uu) by (field; lra).
    eapply ap_weak; [eapply (ap_mul2 _ _ _ _ _ _ _ _ ap_q ap_al)|lra|].
    - rewrite Rplus_0_r, Rmult_plus_distr_l, E1. replace (B2R q * (11 * v)) with (11 * (B2R q * v)) by ring. rewrite E2. unfold uu in *; lra.
    - rewrite Rplus_0_r, Rmult_plus_distr_l, E1. replace (B2R q * (11 * v)) with (11 * (B2R q * v)) by ring. rewrite E2. unfold uu in *; lra.
  Qed.

  Definition dq (x : f64) (r : R) : Prop := is_finite (fdiv x a0) = true /\ Rabs (B2R (fdiv x a0) - r / (1 + al)) <= design_error (B2R q).
  Lemma de : design_error (B2R q) = 128 * (uu + v).
  Proof. unfold design_error, uu. lra. Qed.
  Lemma quot x r S e Q : ap x r S e -> Rabs r <= Q * (1 + al) -> Q <= 2 -> e <= 40 * uu + 12 * v -> dq x r.
  Proof.
    intros A B Q2 He. ub. pose proof al_range as Ra. destruct uh as (U & Hh & V).
    assert (L1 : 1 <= Rabs (1 + al)) by (rewrite Rabs_pos_eq; lra).
    assert (HQ : Rabs (r / (1 + al)) <= 2).
    { unfold Rdiv at 1. rewrite Rabs_mult, (Rabs_pos_eq (/ _)) by (left; apply Rinv_0_lt_compat; lra).
      apply Rmult_le_reg_r with (1 + al); [lra|]. rewrite Rmult_assoc, Rinv_l by lra. nra. }
    unfold dq. edestruct (ap_div1 x a0 r (1 + al) S (1 + h) e (12 * (uu + v)) 2 A ap_a0 L1) as (F & E & _); try (unfold uu in *; lra).
    split; [exact F|]. eapply Rle_trans; [exact E|]. rewrite de. unfold uu in *; lra.
  Qed.
  Lemma q_a1 : dq (fmul (fofZ (-2)) CS) (-2 * cos W).
  Proof. pose proof al_range. ub. eapply (quot _ _ _ _ 2 ap_a1); try lra. pose proof (COS_bound W). apply Rabs_le; lra. Qed.
  Lemma q_a2 : dq (fsub one AL) (1 - al).
  Proof. pose proof al_range. ub. eapply (quot _ _ _ _ 1 ap_a2); try (unfold uu in *; lra). apply Rabs_le; lra. Qed.
  Lemma q_a0 : dq a0 (1 + al).
  Proof. pose proof al_range. ub. eapply (quot _ _ _ _ 1 ap_a0); try (unfold uu in *; lra). apply Rabs_le; lra. Qed.
  Lemma q_al : dq AL al.
  Proof. pose proof al_range. ub. eapply (quot _ _ _ _ 1 ap_al); try (unfold uu in *; lra). apply Rabs_le; lra. Qed.
  Lemma q_al' : dq (Bopp AL) (- al).
  Proof. pose proof al_range. ub. eapply (quot _ _ _ _ 1 (ap_opp _ _ _ _ ap_al)); try (unfold uu in *; lra). apply Rabs_le; lra. Qed.
  Lemma q_one : dq one 1.
  Proof. pose proof al_range. ub. eapply (quot _ _ _ _ 1 ap_one); try (unfold uu in *; lra). apply Rabs_le; lra. Qed.
  Lemma q_zero : dq (fofZ 0) 0.
  Proof.
    pose proof al_range. ub. eapply (quot _ _ _ _ 1 (ap_ofZ 0 0 _ _)); try (unfold uu in *; lra).
    Unshelve. all: try lia. all: rewrite Rabs_R0; lra.
  Qed.
  Lemma q_1mc : dq (fsub one CS) (1 - cos W).
  Proof. pose proof al_range. ub. pose proof (COS_bound W). eapply (quot _ _ _ _ 2 ap_1mc); try (unfold uu in *; lra). apply Rabs_le; lra. Qed.
  Lemma q_1pc : dq (fadd one CS) (1 + cos W).
  Proof. pose proof al_range. ub. pose proof (COS_bound W). eapply (quot _ _ _ _ 2 ap_1pc); try (unfold uu in *; lra). apply Rabs_le; lra. Qed.
  Lemma q_1pc' : dq (Bopp (fadd one CS)) (- (1 + cos W)).
  Proof. pose proof al_range. ub. pose proof (COS_bound W). eapply (quot _ _ _ _ 2 (ap_opp _ _ _ _ ap_1pc)); try (unfold uu in *; lra). apply Rabs_le; lra. Qed.
  Lemma q_h1mc : dq (fdiv (fsub one CS) (fofZ 2)) ((1 - cos W) / 2).
  Proof. pose proof al_range. ub. pose proof (COS_bound W). eapply (quot _ _ _ _ 2 (ap_half _ _ ap_1mc)); try (unfold uu in *; lra). apply Rabs_le; lra. Qed.
  Lemma q_h1pc : dq (fdiv (fadd one CS) (fofZ 2)) ((1 + cos W) / 2).
  Proof. pose proof al_range. ub. pose proof (COS_bound W). eapply (quot _ _ _ _ 2 (ap_half _ _ ap_1pc)); try (unfold uu in *; lra). apply Rabs_le; lra. Qed.
  Lemma q_qal : dq (fmul q AL) (sin W / 2).
  Proof. pose proof al_range. ub. pose proof (SIN_bound W). eapply (quot _ _ _ _ 2 ap_qal); try (unfold uu in *; lra). apply Rabs_le; lra. Qed.
  Lemma ap_qal' : ap (fmul (Bopp q) AL) (- (sin W / 2)) (1 / 2) (12 * uu).
  Proof.
    ub. destruct uh as (U & Hh & V). replace (- (sin W / 2)) with (- B2R q * al) by (field; lra).
    assert (E1 : B2R q * h = 1 / 2) by (field; lra). assert (E2 : B2R q * v = uu) by (field; lra).
    eapply ap_weak; [eapply (ap_mul2 _ _ _ _ _ _ _ _ (ap_opp _ _ _ _ ap_q) ap_al)|lra|].
    - rewrite Rplus_0_r, Rmult_plus_distr_l, E1. replace (B2R q * (11 * v)) with (11 * (B2R q * v)) by ring. rewrite E2. unfold uu in *; lra.
    - rewrite Rplus_0_r, Rmult_plus_distr_l, E1. replace (B2R q * (11 * v)) with (11 * (B2R q * v)) by ring. rewrite E2. unfold uu in *; lra.
  Qed.
  Lemma q_qal' : dq (fmul (Bopp q) AL) (- (sin W / 2)).
  Proof. pose proof al_range. ub. pose proof (SIN_bound W). eapply (quot _ _ _ _ 2 ap_qal'); try (unfold uu in *; lra). apply Rabs_le; lra. Qed.

  (** the notch *)
  Notation RR := (lm_exp m (fdiv (Bopp (fdiv (rbj_w0 (N := F64 m) f) (fofZ 2))) q)).
  Notation rr := (exp (- (PI * B2R f) / B2R q)).
  Lemma ap_r : ap RR rr 1 (8 * uu + 27 * v).
  Proof.
    ub. pose proof pi_bounds as P. assert (T : ap (fofZ 2) 2 2 0) by (apply (ap_ofZ 2 2); [lia|rewrite Rabs_pos_eq; lra]).
    assert (A : ap (fdiv (rbj_w0 (N := F64 m) f) (fofZ 2)) (W / 2) (13 / 8) (7 * uu)).
    { eapply ap_weak; [eapply (ap_div2 _ _ _ _ _ _ _ _ 2 (13 / 8) (5 * uu) ap_w T)|..]; [rewrite Rabs_pos_eq; lra|lra| | |..]; try (unfold uu in *; lra).
      rewrite Rabs_pos_eq; nra. }
    apply ap_opp in A. assert (J : 0 < / B2R q <= 64) by (split; [apply Rinv_0_lt_compat; lra|replace 64 with (/ (1 / 64)) by lra; apply Rinv_le; lra]).
    assert (E0 : - (W / 2) / B2R q = - (PI * B2R f) / B2R q) by (field; lra).
    assert (R0 : 0 <= PI * B2R f <= 13 / 8) by nra.
    assert (R1 : -104 <= - (PI * B2R f) / B2R q <= 0) by (unfold Rdiv; nra).
    assert (B : ap (fdiv (Bopp (fdiv (rbj_w0 (N := F64 m) f) (fofZ 2))) q) (- (PI * B2R f) / B2R q) (13 / 8 * / B2R q) (9 * v)).
    { rewrite <- E0. eapply ap_weak; [eapply (ap_div2 _ _ _ _ _ _ _ _ (B2R q) (13 / 8 * / B2R q) (7 * v) A ap_q)|apply Rle_refl|].
      - rewrite Rabs_pos_eq; lra.
      - lra.
      - rewrite E0. unfold Rdiv. rewrite Rabs_mult, Rabs_Ropp, (Rabs_pos_eq (/ _)), (Rabs_pos_eq (PI * _)) by lra. nra.
      - rewrite Rmult_0_r, Rminus_0_r. replace (7 * v * B2R q) with (7 * uu) by (field; lra). lra.
      - unfold uu in *; lra.
      - unfold uu in *; lra. }
    eapply ap_weak; [eapply (ap_fn _ exp _ _ _ _ _ _ 3 1); [apply HM|exact B| | |lra|]| |]; [unfold uu in *; lra| | |lra|lra].
    - intros Z. apply exp_lip; lra.
    - rewrite Rabs_pos_eq by (left; apply exp_pos). rewrite <- exp_0. destruct (Req_dec (- (PI * B2R f) / B2R q) 0) as [->|]; [lra|]. left. apply exp_increasing. lra.
  Qed.
  Definition dn (x : f64) (r : R) : Prop := is_finite (fdiv x one) = true /\ Rabs (B2R (fdiv x one) - r) <= design_error (B2R q).
  Lemma quotn x r e : ap x r 2 e -> e <= 58 * uu + 57 * v -> dn x r.
  Proof.
    intros A He. ub. assert (L1 : 1 <= Rabs 1) by (rewrite Rabs_pos_eq; lra). replace r with (r / 1) by field. pose proof A as (_ & _ & B).
    assert (HQ : Rabs (r / 1) <= 2) by (replace (r / 1) with r by field; exact B).
    edestruct (ap_div1 x one r 1 2 1 e 0 2 A ap_one L1) as (F & E & _); try (unfold uu in *; lra).
    split; [exact F|]. eapply Rle_trans; [exact E|]. rewrite de. unfold uu in *; lra.
  Qed.
  Lemma ap_na1 : ap (fmul (fmul (fofZ (-2)) RR) CS) (-2 * rr * cos W) 2 (58 * uu + 57 * v).
  Proof.
    ub. assert (A : ap (fmul (fofZ (-2)) RR) (-2 * rr) 2 (19 * uu + 55 * v)).
    { eapply ap_weak; [eapply ap_mul2; [apply (ap_ofZ (-2) 2); [lia|rewrite Rabs_left; lra]|exact ap_r|]|..]; unfold uu in *; lra. }
    eapply ap_weak; [eapply (ap_mul2 _ _ _ _ _ _ _ _ A ap_cs)|..]; unfold uu in *; lra.
  Qed.
  Lemma ap_na2 : ap (fmul RR RR) (rr ^ 2) 2 (58 * uu + 57 * v).
  Proof.
    ub. replace (rr ^ 2) with (rr * rr) by ring. eapply ap_weak; [eapply (ap_mul2 _ _ _ _ _ _ _ _ ap_r ap_r)|..]; try lra.
    - unfold uu in *; nra.
    - assert ((8 * uu + 27 * v) * (8 * uu + 27 * v) <= uu) by (unfold uu in *; nra). assert (uu * (8 * uu + 27 * v) <= uu / 100) by (unfold uu in *; nra).
      replace ((1 + (8 * uu + 27 * v)) * (1 + (8 * uu + 27 * v))) with (1 + 2 * (8 * uu + 27 * v) + (8 * uu + 27 * v) * (8 * uu + 27 * v)) by ring.
      assert (uu * (1 + 2 * (8 * uu + 27 * v) + (8 * uu + 27 * v) * (8 * uu + 27 * v)) <= 2 * uu) by (apply Rle_trans with (uu * 2); [apply Rmult_le_compat_l; unfold uu in *; lra|lra]).
      lra.
  Qed.
  Lemma n_a1 : dn (fmul (fmul (fofZ (-2)) RR) CS) (-2 * rr * cos W).
  Proof. eapply quotn; [exact ap_na1|lra]. Qed.
  Lemma n_a2 : dn (fmul RR RR) (rr ^ 2).
  Proof. eapply quotn; [exact ap_na2|lra]. Qed.
  Lemma n_one : dn one 1.
  Proof. ub. eapply quotn; [eapply ap_weak; [exact ap_one|lra|apply Rle_refl]|unfold uu in *; lra]. Qed.
  Lemma n_b1 : dn (fmul (fofZ (-2)) CS) (-2 * cos W).
  Proof. ub. eapply quotn; [exact ap_a1|]. unfold uu in *; lra. Qed.

  Lemma not_nan (x : f64) : is_finite x = true -> is_nan (N := F64 m) x = false.
  Proof. intros H. unfold is_nan. cbn [neqb F64]. rewrite Beqb_refl. destruct x; try discriminate H; reflexivity. Qed.
  Lemma set_ok (c : coefs (F64 m)) b : is_finite (k_a0 c : f64) = true -> is_finite (k_a1 c : f64) = true -> is_finite (k_a2 c : f64) = true ->
    is_finite (k_b0 c : f64) = true -> is_finite (k_b1 c : f64) = true -> is_finite (k_b2 c : f64) = true ->
    set_coefs c b = Ok (MkBiquad (N := F64 m) (k_a0 c) (fdiv (k_a1 c) (k_a0 c)) (fdiv (k_a2 c) (k_a0 c)) (fdiv (k_b0 c) (k_a0 c)) (fdiv (k_b1 c) (k_a0 c)) (fdiv (k_b2 c) (k_a0 c))) tt.
  Proof.
    intros H0 H1 H2 H3 H4 H5. unfold set_coefs, setCoefficients. rewrite !not_nan by assumption. reflexivity.
  Qed.
  Ltac fin := match goal with |- is_finite ?x = true => first [apply ap_a0|apply ap_a1|apply ap_a2|apply ap_one|apply ap_al|apply (ap_opp _ _ _ _ ap_al)|apply (ap_half _ _ ap_1mc)|apply (ap_half _ _ ap_1pc)
    |apply ap_1mc|apply ap_1pc|apply (ap_opp _ _ _ _ ap_1pc)|apply ap_qal|apply ap_qal'|reflexivity|apply ap_na1|apply ap_na2] end.
  Lemma near5 (c : biquad (F64 m)) i e :
    (is_finite (m_a1 c : f64) = true /\ Rabs (B2R (m_a1 c : f64) - i_a1 i) <= e) -> (is_finite (m_a2 c : f64) = true /\ Rabs (B2R (m_a2 c : f64) - i_a2 i) <= e) ->
    (is_finite (m_b0 c : f64) = true /\ Rabs (B2R (m_b0 c : f64) - i_b0 i) <= e) -> (is_finite (m_b1 c : f64) = true /\ Rabs (B2R (m_b1 c : f64) - i_b1 i) <= e) ->
    (is_finite (m_b2 c : f64) = true /\ Rabs (B2R (m_b2 c : f64) - i_b2 i) <= e) -> fin_coeffs c /\ coefs_near c i e.
  Proof. intros [] [] [] [] []. repeat split; assumption. Qed.
  Lemma design_double k g b : no_shelf k ->
    exists b', rbj_setupN (N := F64 m) k f g q b = Ok b' tt /\ fin_coeffs b' /\ coefs_near b' (cookbook k (B2R f) (B2R q)) (design_error (B2R q)).
  Proof.
    intros (N1 & N2 & N3). destruct k; try (elim N1; reflexivity); try (elim N2; reflexivity); try (elim N3; reflexivity);
      unfold rbj_setupN; cbn [rbj_coefs]; unfold bind, ret;
      (eexists; split; [apply set_ok; cbn [k_a0 k_a1 k_a2 k_b0 k_b1 k_b2 rbj_lowpass rbj_highpass rbj_bandpass1 rbj_bandpass2 rbj_bandstop rbj_iirnotch rbj_allpass nadd nsub nmul ndiv nopp nofZ F64 ncos nsin nexp]; fin|]).
    all: apply near5.
    all: cbn [m_a1 m_a2 m_b0 m_b1 m_b2 k_a0 k_a1 k_a2 k_b0 k_b1 k_b2 rbj_lowpass rbj_highpass rbj_bandpass1 rbj_bandpass2 rbj_bandstop rbj_iirnotch rbj_allpass nadd nsub nmul ndiv nopp nofZ F64 ncos nsin nexp
      i_a1 i_a2 i_b0 i_b1 i_b2 cookbook].
    all: first [exact q_a1|exact q_a2|exact q_h1mc|exact q_1mc|exact q_h1pc|exact q_1pc'|exact q_qal|exact q_qal'|exact q_zero|exact q_al|exact q_al'|exact q_one|exact q_a0|exact n_a1|exact n_a2|exact n_one|exact n_b1].
  Qed.
End Design.
