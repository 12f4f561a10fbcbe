(** Proofs: errors of the RBJ shelf designs in binary64. *)
From Coq Require Import ZArith List Bool Reals Lra Lia.
From Coquelicot Require Import Coquelicot.
From Flocq Require Import Core.Raux Core.Defs IEEE754.BinarySingleNaN.
From Verif Require Import Num Outcome Types Biquad State RBJ Float64 FloatSpec FloatProofs SampleLemmas RoundSpec RoundProofs DblPi DblSpec DblProofs DblLemmas RbjShSpec.
Import ListNotations.
Local Open Scope R_scope.

(** ** numbers *)
Lemma ln_atanh x : 0 <= x <= 1 / 2 ->
  let s := 2 * (x + x ^ 3 / 3 + x ^ 5 / 5 + x ^ 7 / 7 + x ^ 9 / 9 + x ^ 11 / 11 + x ^ 13 / 13 + x ^ 15 / 15 + x ^ 17 / 17 + x ^ 19 / 19 + x ^ 21 / 21
    + x ^ 23 / 23 + x ^ 25 / 25 + x ^ 27 / 27 + x ^ 29 / 29 + x ^ 31 / 31 + x ^ 33 / 33 + x ^ 35 / 35) in
  s <= ln ((1 + x) / (1 - x)) <= s + 3 * x ^ 37.
Proof.
  intros Hx s. destruct (Req_dec x 0) as [E|N].
  { subst x. unfold s. rewrite !pow_i by lia. replace ((1 + 0) / (1 - 0)) with 1 by field. rewrite ln_1. lra. }
  pose (F := fun x => ln ((1 + x) / (1 - x)) - 2 * (x + x ^ 3 / 3 + x ^ 5 / 5 + x ^ 7 / 7 + x ^ 9 / 9 + x ^ 11 / 11 + x ^ 13 / 13 + x ^ 15 / 15 + x ^ 17 / 17 + x ^ 19 / 19 + x ^ 21 / 21
    + x ^ 23 / 23 + x ^ 25 / 25 + x ^ 27 / 27 + x ^ 29 / 29 + x ^ 31 / 31 + x ^ 33 / 33 + x ^ 35 / 35)).
  assert (D : forall y, 0 <= y <= 1 / 2 -> is_derive F y (2 * y ^ 36 / (1 - y ^ 2))).
  { intros y Hy. unfold F. auto_derive.
    - split; [lra|]. split; [|exact I]. apply Rdiv_lt_0_compat; lra.
    - field. split; [|lra]. nra. }
  destruct (MVT_gen F 0 x (fun y => 2 * y ^ 36 / (1 - y ^ 2))) as (c & Hc & E).
  - intros y Hy. rewrite Rmin_left, Rmax_right in Hy by lra. apply D. lra.
  - intros y Hy. rewrite Rmin_left, Rmax_right in Hy by lra. apply continuity_pt_filterlim. apply (ex_derive_continuous F). eexists. apply D. lra.
  - rewrite Rmin_left, Rmax_right in Hc by lra.
    assert (F0 : F 0 = 0). { unfold F. rewrite !pow_i by lia. replace ((1 + 0) / (1 - 0)) with 1 by field. rewrite ln_1. lra. }
    rewrite F0, !Rminus_0_r in E. assert (Q : F x = ln ((1 + x) / (1 - x)) - s) by reflexivity.
    assert (P0 : 0 <= c ^ 36 <= x ^ 36) by (split; [apply pow_le; lra|apply pow_incr; lra]).
    assert (V : 3 / 4 <= 1 - c ^ 2 <= 1) by nra.
    assert (K : 0 <= 2 * c ^ 36 / (1 - c ^ 2) <= 3 * x ^ 36).
    { split; [apply Rmult_le_pos; [lra|left; apply Rinv_0_lt_compat; lra]|]. apply Rmult_le_reg_r with (1 - c ^ 2); [lra|]. unfold Rdiv. rewrite Rmult_assoc, Rinv_l by lra. nra. }
    replace (3 * x ^ 37) with (3 * x ^ 36 * x) by (simpl; ring).
    assert (0 <= 2 * c ^ 36 / (1 - c ^ 2) * x <= 3 * x ^ 36 * x) by (split; [apply Rmult_le_pos; lra|apply Rmult_le_compat_r; lra]). lra.
Qed.
Lemma ln2_bounds : Rabs (6243314768165359 / 2 ^ 53 - ln 2) <= / 2 ^ 53.
Proof.
  pose proof (ln_atanh (1 / 3) ltac:(lra)) as H. cbv zeta in H. replace ((1 + 1 / 3) / (1 - 1 / 3)) with 2 in H by field. apply Rabs_le. lra.
Qed.
Lemma ln10_le : 0 < ln 10 <= 5 / 2.
Proof.
  split; [rewrite <- ln_1; apply ln_increasing; lra|]. rewrite <- (ln_exp (5 / 2)). 
  assert (H : 10 <= exp (5 / 2)).
  { replace (5 / 2) with (INR 20 * (1 / 8)) by (simpl; lra). pose proof (exp_ineq1_le (1 / 8)) as Q.
    assert (E : exp (INR 20 * (1 / 8)) = exp (1 / 8) ^ 20). { rewrite <- Rpower_pow by apply exp_pos. unfold Rpower. rewrite ln_exp. reflexivity. }
    rewrite E. apply Rle_trans with ((9 / 8) ^ 20); [lra|]. apply pow_incr. lra. }
  destruct H as [H|H]; [left; apply ln_increasing; lra|rewrite H; lra].
Qed.
Lemma rpow10_le x y : x <= y -> Rpower 10 x <= Rpower 10 y.
Proof. intros [H| ->]; [left; apply Rpower_lt; lra|lra]. Qed.
Lemma rpow_35 : Rpower 10 (3 / 5) <= 4.
Proof.
  assert (3 / 5 * ln 10 <= ln 4).
  { assert (5 * (3 / 5 * ln 10) <= 5 * ln 4); [|lra].
    replace (5 * (3 / 5 * ln 10)) with (INR 3 * ln 10) by (simpl; lra). replace (5 * ln 4) with (INR 5 * ln 4) by (simpl; lra).
    rewrite <- !ln_pow by lra. left. apply ln_increasing; lra. }
  apply Rle_trans with (exp (ln 4)); [unfold Rpower; destruct H as [H|H]; [left; apply exp_increasing, H|rewrite H; lra]|rewrite exp_ln; lra].
Qed.
Lemma rpow_58 : Rpower 10 (5 / 8) <= 5.
Proof.
  assert (5 / 8 * ln 10 <= ln 5).
  { assert (8 * (5 / 8 * ln 10) <= 8 * ln 5); [|lra].
    replace (8 * (5 / 8 * ln 10)) with (INR 5 * ln 10) by (simpl; lra). replace (8 * ln 5) with (INR 8 * ln 5) by (simpl; lra).
    rewrite <- !ln_pow by lra. left. apply ln_increasing; lra. }
  apply Rle_trans with (exp (ln 5)); [unfold Rpower; destruct H as [H|H]; [left; apply exp_increasing, H|rewrite H; lra]|rewrite exp_ln; lra].
Qed.
(** exp is Lipschitz below any point *)
Lemma exp_lip2 a b M : exp a <= M -> exp b <= M -> Rabs (exp a - exp b) <= M * Rabs (a - b).
Proof.
  assert (P : forall a b, a <= b -> 0 <= exp b - exp a <= exp b * (b - a)).
  { intros x y H. pose proof (exp_ineq1_le (x - y)) as Q. replace (exp x) with (exp y * exp (x - y)) by (rewrite <- exp_plus; f_equal; ring).
    pose proof (exp_pos y). assert (exp (x - y) <= 1). { rewrite <- exp_0. destruct (Req_dec x y) as [->|]; [replace (y - y) with 0 by ring; lra|]. left. apply exp_increasing. lra. } split; nra. }
  intros Ha Hb. destruct (Rle_lt_dec a b) as [H|H].
  - specialize (P a b H). rewrite (Rabs_left1 (a - b)), (Rabs_left1 (exp a - exp b)) by lra. nra.
  - specialize (P b a ltac:(lra)). rewrite (Rabs_pos_eq (a - b)), (Rabs_pos_eq (exp a - exp b)) by lra. nra.
Qed.
Lemma rpow_lip x y : x <= 5 / 8 -> y <= 5 / 8 -> Rabs (Rpower 10 x - Rpower 10 y) <= 25 / 2 * Rabs (x - y).
Proof.
  intros Hx Hy. pose proof rpow_58. pose proof (rpow10_le _ _ Hx). pose proof (rpow10_le _ _ Hy). pose proof ln10_le. unfold Rpower in *.
  eapply Rle_trans; [apply (exp_lip2 _ _ 5); lra|]. rewrite <- Rmult_minus_distr_r, Rabs_mult, (Rabs_pos_eq (ln 10)) by lra.
  pose proof (Rabs_pos (x - y)). nra.
Qed.
Lemma exp4 : exp 4 <= 81.
Proof.
  replace 4 with (INR 4 * 1) by (simpl; lra). assert (E : exp (INR 4 * 1) = exp 1 ^ 4). { rewrite <- Rpower_pow by apply exp_pos. unfold Rpower. rewrite ln_exp. reflexivity. }
  rewrite E. pose proof exp_le_3. pose proof (exp_pos 1). apply Rle_trans with (3 ^ 4); [apply pow_incr; lra|lra].
Qed.
Lemma exp_mono a b : a <= b -> exp a <= exp b.
Proof. intros [H| ->]; [left; apply exp_increasing, H|lra]. Qed.
Lemma sinh_lip a b : -1 <= a <= 4 -> -1 <= b <= 4 -> Rabs (sinh a - sinh b) <= 42 * Rabs (a - b).
Proof.
  intros Ha Hb. pose proof exp4. pose proof exp_le_3. pose proof (exp_mono a 4 ltac:(lra)). pose proof (exp_mono b 4 ltac:(lra)).
  pose proof (exp_mono (- a) 1 ltac:(lra)). pose proof (exp_mono (- b) 1 ltac:(lra)).
  pose proof (exp_lip2 a b 81 ltac:(lra) ltac:(lra)) as P. pose proof (exp_lip2 (- a) (- b) 3 ltac:(lra) ltac:(lra)) as Q.
  replace (- a - - b) with (- (a - b)) in Q by ring. rewrite Rabs_Ropp in Q. unfold sinh.
  replace ((exp a - exp (- a)) / 2 - (exp b - exp (- b)) / 2) with (/ 2 * ((exp a - exp b) - (exp (- a) - exp (- b)))) by field.
  rewrite Rabs_mult, (Rabs_pos_eq (/ 2)) by lra. pose proof (Rabs_triang (exp a - exp b) (- (exp (- a) - exp (- b)))) as T. rewrite Rabs_Ropp in T.
  replace (exp a - exp b + - (exp (- a) - exp (- b))) with ((exp a - exp b) - (exp (- a) - exp (- b))) in T by ring. lra.
Qed.

(** ** square roots, other library functions *)
Lemma ap_sqrt f r S e l : ap f r S e -> 0 < l -> l * l <= r - e -> sqrt r <= S -> S <= big -> ap (fsqrt f) (sqrt r) S (e / (2 * l) + uu * (S + e / (2 * l)) + tiny).
Proof.
  intros (F & E & B) Hl Hr HS HB. assert (E0 : 0 <= e) by (eapply Rle_trans; [apply Rabs_pos|exact E]).
  assert (X : l * l <= B2R f) by (revert E; unfold Rabs; destruct (Rcase_abs _); lra).
  assert (Xp : 0 < B2R f) by nra.
  pose proof (@Bsqrt_correct 53 1024 Hprec64 Hemax64 mode_NE f) as (Q1 & Q2 & _).
  assert (L1 : l <= sqrt (B2R f)) by (rewrite <- (sqrt_square l) by lra; apply sqrt_le_1; nra).
  assert (L2 : l <= sqrt r) by (rewrite <- (sqrt_square l) by lra; apply sqrt_le_1; nra).
  assert (D : Rabs (sqrt (B2R f) - sqrt r) <= e / (2 * l)).
  { assert (Z : B2R f - r = (sqrt (B2R f) - sqrt r) * (sqrt (B2R f) + sqrt r)).
    { replace ((sqrt (B2R f) - sqrt r) * (sqrt (B2R f) + sqrt r)) with (sqrt (B2R f) * sqrt (B2R f) - sqrt r * sqrt r) by ring. rewrite !sqrt_sqrt by nra. reflexivity. }
    rewrite Z, Rabs_mult, (Rabs_pos_eq (_ + _)) in E by lra. apply Rmult_le_reg_r with (2 * l); [lra|]. unfold Rdiv. rewrite Rmult_assoc, Rinv_l, Rmult_1_r by lra.
    eapply Rle_trans; [|exact E]. apply Rmult_le_compat_l; [apply Rabs_pos|lra]. }
  split; [|split].
  - unfold fsqrt. rewrite Q2. destruct f as [s|s| |[|] ma ex Be]; try discriminate F; try reflexivity.
    exfalso. clear - Xp. cbn [B2R] in Xp. pose proof (Float_prop.F2R_lt_0 Zaux.radix2 (Float Zaux.radix2 (SpecFloat.cond_Zopp true (Zpos ma)) ex)) as K. cbn in K. specialize (K ltac:(lia)). cbn in Xp. lra.
  - unfold fsqrt. rewrite Q1. match goal with |- context [Generic_fmt.round ?a ?b ?c (sqrt (B2R f))] => change (Generic_fmt.round a b c (sqrt (B2R f))) with (rnd64 (sqrt (B2R f))) end.
    pose proof (rnd_err (sqrt (B2R f))) as W.
    assert (V : Rabs (sqrt (B2R f)) <= S + e / (2 * l)). { replace (sqrt (B2R f)) with (sqrt r + (sqrt (B2R f) - sqrt r)) by ring. eapply Rle_trans; [apply Rabs_triang|]. rewrite (Rabs_pos_eq (sqrt r)) by lra. lra. }
    assert (uu * Rabs (sqrt (B2R f)) <= uu * (S + e / (2 * l))) by (apply Rmult_le_compat_l; [unfold uu; lra|exact V]).
    replace (rnd64 (sqrt (B2R f)) - sqrt r) with ((rnd64 (sqrt (B2R f)) - sqrt (B2R f)) + (sqrt (B2R f) - sqrt r)) by ring.
    eapply Rle_trans; [apply Rabs_triang|lra].
  - rewrite Rabs_pos_eq by lra. exact HS.
Qed.
Lemma ap_fn2 fn g lo hi x r S e K S' d : lib_close fn g lo hi d -> ap x r S e -> lo + e <= r <= hi - e ->
  (lo <= B2R x <= hi -> Rabs (g (B2R x) - g r) <= K * Rabs (B2R x - r)) -> 0 <= K -> Rabs (g r) <= S' -> ap (fn x) (g r) S' (d + K * e).
Proof.
  intros H (F & E & B) Hr HL HK HS. assert (lo <= B2R x <= hi) as Hx by (revert E; unfold Rabs; destruct (Rcase_abs _); lra).
  destruct (H x F Hx) as [Fx Ex]. split; [exact Fx|]. split; [|exact HS]. specialize (HL Hx).
  replace (B2R (fn x) - g r) with ((B2R (fn x) - g (B2R x)) + (g (B2R x) - g r)) by ring. eapply Rle_trans; [apply Rabs_triang|].
  assert (K * Rabs (B2R x - r) <= K * e) by (apply Rmult_le_compat_l; assumption). lra.
Qed.
Lemma ap_S f r S e S' : ap f r S e -> Rabs r <= S' -> ap f r S' e.
Proof. intros (A & B & _) H. split; [exact A|split; [exact B|exact H]]. Qed.
Lemma frac_le2 r p Q : 0 < p -> Rabs r <= Q * p -> Rabs (r / p) <= Q.
Proof.
  intros Hp H. unfold Rdiv. rewrite Rabs_mult, (Rabs_pos_eq (/ p)) by (left; apply Rinv_0_lt_compat; lra).
  apply Rmult_le_reg_r with p; [lra|]. rewrite Rmult_assoc, Rinv_l, Rmult_1_r by lra. exact H.
Qed.
Lemma ap_ln2 : ap (fnorm 6243314768165359 (-53)) (ln 2) 1 uu.
Proof.
  destruct (fnorm_exact 6243314768165359 (-53) ltac:(lia) ltac:(lia)) as [A B]. pose proof ln2_bounds as L.
  assert (E : B2R (fnorm 6243314768165359 (-53)) = 6243314768165359 / 2 ^ 53) by (rewrite A; unfold F2R; cbn; lra).
  split; [exact B|]. split; [rewrite E; unfold uu; lra|]. apply Rabs_le_between in L. apply Rabs_le. lra.
Qed.
Lemma amp_range g : -24 <= g <= 24 -> 1 / 4 <= Rpower 10 (g / 40) <= 4.
Proof.
  intros H. pose proof rpow_35. split; [|pose proof (rpow10_le (g / 40) (3 / 5) ltac:(lra)); lra].
  pose proof (rpow10_le (- (3 / 5)) (g / 40) ltac:(lra)) as Q. rewrite Rpower_Ropp in Q.
  assert (0 < Rpower 10 (3 / 5)) by apply exp_pos. assert (/ 4 <= / Rpower 10 (3 / 5)) by (apply Rinv_le; lra). lra.
Qed.

Ltac nums' := pose proof tiny_uu; pose proof tiny_pos; pose proof big_big.
Ltac num := unfold uu in *; lra.
Section Shelf.
  Variables (m : libm) (f g : f64).
  Hypothesis HM : libm_shelf m.
  Hypothesis Ff : is_finite f = true.
  Hypothesis Fg : is_finite g = true.
  Hypothesis Hf : 0 < B2R f < 1 / 2.
  Hypothesis Hg : -24 <= B2R g <= 24.
  Notation W := (2 * PI * B2R f).
  Notation A := (Rpower 10 (B2R g / 40)).
  Notation Af := (lm_pow m (fofZ 10) (fdiv g (fofZ 40))).
  Notation w0 := (rbj_w0 (N := F64 m) f).
  Notation cs := (lm_cos m w0).
  Notation sn := (lm_sin m w0).
  Notation one := (fofZ 1).

  Lemma sh_A : 1 / 4 <= A <= 4.
  Proof. apply amp_range, Hg. Qed.
  Lemma sh_cs : ap cs (cos W) 1 (18 * uu).
  Proof. apply (ap_cs m f (fofZ 1) (proj1 HM) Ff Hf). rewrite (proj1 (fofZ_val 1 ltac:(lia))). lra. Qed.
  Lemma sh_sn : ap sn (sin W) 1 (18 * uu).
  Proof. apply (ap_sn m f (fofZ 1) (proj1 HM) Ff Hf). rewrite (proj1 (fofZ_val 1 ltac:(lia))). lra. Qed.
  Lemma sh_one : ap one 1 1 0.
  Proof. apply ap_one. Qed.
  Lemma sh_two : ap (fofZ 2) 2 2 0.
  Proof. apply (ap_ofZ 2 2); [lia|rewrite Rabs_pos_eq; lra]. Qed.
  Lemma sh_mtwo : ap (fofZ (-2)) (-2) 2 0.
  Proof. apply (ap_ofZ (-2) 2); [lia|rewrite Rabs_left; lra]. Qed.
  Lemma sh_a : ap Af A 4 (21 * uu).
  Proof.
    nums'. assert (P : ap (fdiv g (fofZ 40)) (B2R g / 40) (3 / 5) uu).
    { eapply ap_weak; [eapply (ap_div2 _ _ _ _ _ _ _ _ 40 (3 / 5) 0); [apply (ap_val g 24); [exact Fg|apply Rabs_le; lra]|apply (ap_ofZ 40 40); [lia|rewrite Rabs_pos_eq; lra]|rewrite Rabs_pos_eq; lra|lra|apply Rabs_le; lra|lra|lra]|lra|num]. }
    pose proof sh_A. eapply ap_weak; [eapply (ap_fn2 _ _ _ _ _ _ _ _ (25 / 2) 4); [apply HM|exact P|num|intros Hx; apply rpow_lip; lra|lra|rewrite Rabs_pos_eq; lra]|lra|num].
  Qed.
  Lemma sh_ap1 : ap (fadd Af one) (A + 1) 5 (27 * uu).
  Proof. nums'. eapply ap_weak; [eapply (ap_add _ _ _ _ _ _ _ _ sh_a sh_one); num|num|num]. Qed.
  Lemma sh_am1 : ap (fsub Af one) (A - 1) 3 (27 * uu).
  Proof. nums'. pose proof sh_A. eapply ap_S; [eapply ap_weak; [eapply (ap_sub _ _ _ _ _ _ _ _ sh_a sh_one); num|apply Rle_refl|num]|apply Rabs_le; lra]. Qed.
  Lemma sh_am1c : ap (fmul (fsub Af one) cs) ((A - 1) * cos W) 3 (85 * uu).
  Proof. nums'. eapply ap_weak; [eapply (ap_mul2 _ _ _ _ _ _ _ _ sh_am1 sh_cs); num|num|num]. Qed.
  Lemma sh_ap1c : ap (fmul (fadd Af one) cs) ((A + 1) * cos W) 5 (123 * uu).
  Proof. nums'. eapply ap_weak; [eapply (ap_mul2 _ _ _ _ _ _ _ _ sh_ap1 sh_cs); num|num|num]. Qed.
  Lemma sh_dp : ap (fadd (fadd Af one) (fmul (fsub Af one) cs)) (A + 1 + (A - 1) * cos W) 8 (121 * uu).
  Proof. nums'. eapply ap_weak; [eapply (ap_add _ _ _ _ _ _ _ _ sh_ap1 sh_am1c); num|num|num]. Qed.
  Lemma sh_dm : ap (fsub (fadd Af one) (fmul (fsub Af one) cs)) (A + 1 - (A - 1) * cos W) 8 (121 * uu).
  Proof. nums'. eapply ap_weak; [eapply (ap_sub _ _ _ _ _ _ _ _ sh_ap1 sh_am1c); num|num|num]. Qed.
  Lemma sh_ep : ap (fadd (fsub Af one) (fmul (fadd Af one) cs)) (A - 1 + (A + 1) * cos W) 8 (159 * uu).
  Proof. nums'. eapply ap_weak; [eapply (ap_add _ _ _ _ _ _ _ _ sh_am1 sh_ap1c); num|num|num]. Qed.
  Lemma sh_em : ap (fsub (fsub Af one) (fmul (fadd Af one) cs)) (A - 1 - (A + 1) * cos W) 8 (159 * uu).
  Proof. nums'. eapply ap_weak; [eapply (ap_sub _ _ _ _ _ _ _ _ sh_am1 sh_ap1c); num|num|num]. Qed.
  Lemma sh_2 x r : ap x r 8 (159 * uu) -> ap (fmul (fofZ 2) x) (2 * r) 16 (335 * uu).
  Proof. intros H. nums'. eapply ap_weak; [eapply (ap_mul2 _ _ _ _ _ _ _ _ sh_two H); num|num|num]. Qed.
  Lemma sh_m2 x r : ap x r 8 (159 * uu) -> ap (fmul (fofZ (-2)) x) (-2 * r) 16 (335 * uu).
  Proof. intros H. nums'. eapply ap_weak; [eapply (ap_mul2 _ _ _ _ _ _ _ _ sh_mtwo H); num|num|num]. Qed.
  Lemma sh_2a : ap (fmul (fofZ 2) Af) (2 * A) 8 (51 * uu).
  Proof. nums'. eapply ap_weak; [eapply (ap_mul2 _ _ _ _ _ _ _ _ sh_two sh_a); num|num|num]. Qed.
  Lemma sh_m2a : ap (fmul (fofZ (-2)) Af) (-2 * A) 8 (51 * uu).
  Proof. nums'. eapply ap_weak; [eapply (ap_mul2 _ _ _ _ _ _ _ _ sh_mtwo sh_a); num|num|num]. Qed.
  Lemma sh_b1 x y r p : ap x r 8 (51 * uu) -> ap y p 8 (159 * uu) -> ap (fmul x y) (r * p) 64 (1760 * uu).
  Proof. intros H K. nums'. eapply ap_weak; [eapply (ap_mul2 _ _ _ _ _ _ _ _ H K); num|num|num]. Qed.

  (** low and high shelf: [s] is the slope *)
  Variable s : f64.
  Hypothesis Fs : is_finite s = true.
  Section Slope.
  Hypothesis Hs : 1 / 16 <= B2R s <= 1.
  Notation rt := (sqrt ((A + 1 / A) * (1 / B2R s - 1) + 2)).
  Notation sq := (2 * sqrt A * (sin W / 2 * rt)).
  Notation ALf := (fmul (fdiv sn (fofZ 2)) (fsqrt (fadd (fmul (fadd Af (fdiv one Af)) (fsub (fdiv one s) one)) (fofZ 2)))).
  Notation sqf := (fmul (fmul (fofZ 2) (fsqrt Af)) ALf).
  Lemma sl_inv : 0 <= 1 / B2R s - 1 <= 15.
  Proof.
    assert (/ 1 <= / B2R s) by (apply Rinv_le; lra). assert (/ B2R s <= / (1 / 16)) by (apply Rinv_le; lra). lra.
  Qed.
  Lemma sl_sum : 0 < A + 1 / A <= 17 / 4.
  Proof.
    pose proof sh_A as HA. set (a := A) in *. assert (0 < / a) by (apply Rinv_0_lt_compat; lra). assert (E : a * / a = 1) by (apply Rinv_r; lra). unfold Rdiv. nra.
  Qed.
  Lemma sl_arg : 2 <= (A + 1 / A) * (1 / B2R s - 1) + 2 <= 66.
  Proof. pose proof sl_inv. pose proof sl_sum. nra. Qed.
  Lemma sl_rt : ap (fsqrt (fadd (fmul (fadd Af (fdiv one Af)) (fsub (fdiv one s) one)) (fofZ 2))) rt (65 / 8) (2170 * uu).
  Proof.
    nums'. pose proof sh_A as HA. pose proof sl_inv as HI. pose proof sl_sum as HS. pose proof sl_arg as HR.
    assert (P1 : ap (fdiv one Af) (1 / A) 4 (342 * uu)).
    { eapply ap_weak; [eapply (ap_div2 _ _ _ _ _ _ _ _ (1 / 4) 4 (337 * uu)); [exact sh_one|exact sh_a|rewrite Rabs_pos_eq; lra|num| |num|num]|lra|num].
      apply frac_le2; [lra|rewrite Rabs_pos_eq; lra]. }
    assert (P2 : ap (fadd Af (fdiv one Af)) (A + 1 / A) (17 / 4) (372 * uu)).
    { eapply ap_S; [eapply ap_weak; [eapply (ap_add _ _ _ _ _ _ _ _ sh_a P1); num|apply Rle_refl|num]|rewrite Rabs_pos_eq; lra]. }
    assert (P3 : ap (fdiv one s) (1 / B2R s) 16 (17 * uu)).
    { eapply ap_weak; [eapply (ap_div2 _ _ _ _ _ _ _ _ (1 / 16) 16 0); [exact sh_one|apply (ap_val s 1); [exact Fs|apply Rabs_le; lra]|rewrite Rabs_pos_eq; lra|num| |num|num]|lra|num].
      rewrite Rabs_pos_eq; lra. }
    assert (P4 : ap (fsub (fdiv one s) one) (1 / B2R s - 1) 15 (35 * uu)).
    { eapply ap_S; [eapply ap_weak; [eapply (ap_sub _ _ _ _ _ _ _ _ P3 sh_one); num|apply Rle_refl|num]|rewrite Rabs_pos_eq; lra]. }
    assert (P5 : ap (fmul (fadd Af (fdiv one Af)) (fsub (fdiv one s) one)) ((A + 1 / A) * (1 / B2R s - 1)) 64 (5800 * uu)).
    { eapply ap_weak; [eapply (ap_mul2 _ _ _ _ _ _ _ _ P2 P4); num|num|num]. }
    assert (P6 : ap (fadd (fmul (fadd Af (fdiv one Af)) (fsub (fdiv one s) one)) (fofZ 2)) ((A + 1 / A) * (1 / B2R s - 1) + 2) 66 (5870 * uu)).
    { eapply ap_weak; [eapply (ap_add _ _ _ _ _ _ _ _ P5 sh_two); num|num|num]. }
    assert (Q : rt <= 65 / 8) by (rewrite <- (sqrt_square (65 / 8)) by lra; apply sqrt_le_1; lra).
    eapply ap_S; [eapply ap_weak; [apply (ap_sqrt _ _ _ _ (7 / 5) P6); num|apply Rle_refl|num]|]. rewrite Rabs_pos_eq by apply sqrt_pos. exact Q.
  Qed.
  Lemma sl_sq : ap sqf sq (65 / 4) (4980 * uu).
  Proof.
    nums'. pose proof sh_A as HA.
    assert (P1 : ap (fdiv sn (fofZ 2)) (sin W / 2) (1 / 2) (10 * uu)).
    { pose proof (SIN_bound W). eapply ap_weak; [eapply (ap_div2 _ _ _ _ _ _ _ _ 2 (1 / 2) (9 * uu)); [exact sh_sn|exact sh_two|rewrite Rabs_pos_eq; lra|num|apply Rabs_le; lra|num|num]|lra|num]. }
    assert (P2 : ap ALf (sin W / 2 * rt) (65 / 16) (1180 * uu)).
    { eapply ap_weak; [eapply (ap_mul2 _ _ _ _ _ _ _ _ P1 sl_rt); num|num|num]. }
    assert (Q : sqrt A <= 2) by (rewrite <- (sqrt_square 2) by lra; apply sqrt_le_1; lra).
    assert (P3 : ap (fsqrt Af) (sqrt A) 2 (26 * uu)).
    { eapply ap_S; [eapply ap_weak; [apply (ap_sqrt _ _ _ _ (49 / 100) sh_a); num|apply Rle_refl|num]|]. rewrite Rabs_pos_eq by apply sqrt_pos. exact Q. }
    assert (P4 : ap (fmul (fofZ 2) (fsqrt Af)) (2 * sqrt A) 4 (57 * uu)).
    { eapply ap_weak; [eapply (ap_mul2 _ _ _ _ _ _ _ _ sh_two P3); num|num|num]. }
    eapply ap_weak; [eapply (ap_mul2 _ _ _ _ _ _ _ _ P4 P2); num|num|num].
  Qed.
  Lemma sl_pos : 0 < sq.
  Proof.
    pose proof sh_A. pose proof (w_sin _ Hf). pose proof sl_arg. assert (0 < sqrt A) by (apply sqrt_lt_R0; lra). assert (0 < rt) by (apply sqrt_lt_R0; lra).
    assert (0 < sin W / 2 * rt) by (apply Rmult_lt_0_compat; lra). apply Rmult_lt_0_compat; lra.
  Qed.
  Lemma sl_add x r : ap x r 8 (121 * uu) -> ap (fadd x sqf) (r + sq) (97 / 4) (5130 * uu).
  Proof. intros H. nums'. eapply ap_weak; [eapply (ap_add _ _ _ _ _ _ _ _ H sl_sq); num|num|num]. Qed.
  Lemma sl_sub x r : ap x r 8 (121 * uu) -> ap (fsub x sqf) (r - sq) (97 / 4) (5130 * uu).
  Proof. intros H. nums'. eapply ap_weak; [eapply (ap_sub _ _ _ _ _ _ _ _ H sl_sq); num|num|num]. Qed.
  Lemma sl_b x r : ap x r (97 / 4) (5130 * uu) -> ap (fmul Af x) (A * r) 97 (21200 * uu).
  Proof. intros H. nums'. eapply ap_weak; [eapply (ap_mul2 _ _ _ _ _ _ _ _ sh_a H); num|num|num]. Qed.

  (** the quotients; [z] is cos w or - cos w *)
  Lemma sl_d z : -1 <= z <= 1 -> 1 / 2 <= A + 1 + (A - 1) * z /\ A + 1 - (A - 1) * z <= 4 * (A + 1 + (A - 1) * z) /\
    Rabs (A - 1 + (A + 1) * z) <= A + 1 + (A - 1) * z /\ Rabs (A - 1 - (A + 1) * z) <= A + 1 - (A - 1) * z.
  Proof.
    pose proof sh_A as HA. intros Hz. generalize dependent A. intros a HA. split; [nra|]. split; [nra|]. split; apply Rabs_le; split; nra.
  Qed.
  Lemma quot_a a0 p x r e Q : ap a0 p (97 / 4) (5130 * uu) -> 1 / 2 <= p -> ap x r 97 e -> e <= 5130 * uu -> Q = 1 \/ (Q = 2 /\ e <= 335 * uu) -> Rabs r <= Q * p ->
    is_finite (fdiv x a0) = true /\ Rabs (B2R (fdiv x a0) - r / p) <= / 2 ^ 36.
  Proof.
    intros H Hp K He HQ Hr. nums'. assert (P : ap (fdiv x a0) (r / p) Q (21200 * uu + uu * (Q + 21200 * uu) + tiny)).
    { apply (ap_div2 _ _ _ _ _ _ _ _ (1 / 2) Q (21200 * uu) K H); [rewrite Rabs_pos_eq; lra|num|apply frac_le2; lra| |]; destruct HQ as [->|[-> HQ]]; num. }
    destruct P as (P1 & P2 & _). split; [exact P1|]. eapply Rle_trans; [exact P2|]. destruct HQ as [->|[-> _]]; num.
  Qed.
  Lemma quot_b a0 p x r e Q : ap a0 p (97 / 4) (5130 * uu) -> 1 / 2 <= p -> ap x r 97 e -> e <= 21200 * uu -> Q = 16 \/ (Q = 32 /\ e <= 1760 * uu) -> Rabs r <= Q * p ->
    is_finite (fdiv x a0) = true /\ Rabs (B2R (fdiv x a0) - r / p) <= / 2 ^ 33.
  Proof.
    intros H Hp K He HQ Hr. nums'. assert (P : ap (fdiv x a0) (r / p) Q (332000 * uu + uu * (Q + 332000 * uu) + tiny)).
    { apply (ap_div2 _ _ _ _ _ _ _ _ (1 / 2) Q (332000 * uu) K H); [rewrite Rabs_pos_eq; lra|num|apply frac_le2; lra| |]; destruct HQ as [->|[-> HQ]]; num. }
    destruct P as (P1 & P2 & _). split; [exact P1|]. eapply Rle_trans; [exact P2|]. destruct HQ as [->|[-> _]]; num.
  Qed.
  Definition ff (x : f64) (r e : R) : Prop := is_finite x = true /\ Rabs (B2R x - r) <= e.
  Lemma near_sh (c : biquad (F64 m)) i : ff (m_a1 c) (i_a1 i) (/ 2 ^ 36) -> ff (m_a2 c) (i_a2 i) (/ 2 ^ 36) -> ff (m_b0 c) (i_b0 i) (/ 2 ^ 33) -> ff (m_b1 c) (i_b1 i) (/ 2 ^ 33) -> ff (m_b2 c) (i_b2 i) (/ 2 ^ 33) ->
    fin_coeffs c /\ shelf_near c i.
  Proof. intros [] [] [] [] []. repeat split; assumption. Qed.
  Lemma ap97 x r S e : ap x r S e -> S <= 97 -> ap x r 97 e.
  Proof. intros H K. eapply ap_weak; [exact H|exact K|lra]. Qed.
  Ltac cbsh := cbn [k_a0 k_a1 k_a2 k_b0 k_b1 k_b2 rbj_lowshelf rbj_highshelf nadd nsub nmul ndiv nopp nofZ F64 ncos nsin nsqrt npow].
  Ltac cbs2 := cbn [m_a1 m_a2 m_b0 m_b1 m_b2 i_a1 i_a2 i_b0 i_b1 i_b2 cookbook_shelf].
  Lemma low_double b : exists b', rbj_setupN (N := F64 m) R_LowShelf f g s b = Ok b' tt /\ fin_coeffs b' /\ shelf_near b' (cookbook_shelf R_LowShelf (B2R f) (B2R g) (B2R s)).
  Proof.
    pose proof sh_A as HA. pose proof sl_pos as Hsq. destruct (sl_d (cos W) (COS_bound W)) as (D1 & D2 & D3 & D4). pose proof (Rabs_pos (A - 1 - (A + 1) * cos W)).
    pose proof (sl_add _ _ sh_dp) as A0. pose proof (sl_sub _ _ sh_dp) as A2. pose proof (sh_m2 _ _ sh_ep) as A1.
    pose proof (sl_b _ _ (sl_add _ _ sh_dm)) as B0. pose proof (sl_b _ _ (sl_sub _ _ sh_dm)) as B2. pose proof (sh_b1 _ _ _ _ sh_2a sh_em) as B1.
    unfold rbj_setupN; cbn [rbj_coefs]; unfold bind, ret. eexists. split; [apply set_ok; cbsh; [apply A0|apply A1|apply A2|apply B0|apply B1|apply B2]|].
    apply near_sh; cbsh; cbs2.
    - eapply (quot_a _ _ _ _ _ 2 A0 ltac:(lra) (ap97 _ _ _ _ A1 ltac:(lra))); [num|right; split; [reflexivity|lra]|]. rewrite Rabs_mult, Rabs_left by lra. nra.
    - eapply (quot_a _ _ _ _ _ 1 A0 ltac:(lra) (ap97 _ _ _ _ A2 ltac:(lra))); [num|left; reflexivity|]. apply Rabs_le. lra.
    - eapply (quot_b _ _ _ _ _ 16 A0 ltac:(lra) (ap97 _ _ _ _ B0 ltac:(lra))); [num|left; reflexivity|]. rewrite Rabs_mult, (Rabs_pos_eq A) by lra.
      apply Rle_trans with (A * (4 * (A + 1 + (A - 1) * cos W) + sq)); [apply Rmult_le_compat_l; [lra|]; apply Rabs_le; lra|nra].
    - eapply (quot_b _ _ _ _ _ 32 A0 ltac:(lra) (ap97 _ _ _ _ B1 ltac:(lra))); [num|right; split; [reflexivity|lra]|]. rewrite Rabs_mult, (Rabs_pos_eq (2 * A)) by lra.
      apply Rle_trans with (2 * A * (4 * (A + 1 + (A - 1) * cos W))); [apply Rmult_le_compat_l; lra|]. nra.
    - eapply (quot_b _ _ _ _ _ 16 A0 ltac:(lra) (ap97 _ _ _ _ B2 ltac:(lra))); [num|left; reflexivity|]. rewrite Rabs_mult, (Rabs_pos_eq A) by lra.
      apply Rle_trans with (A * (4 * (A + 1 + (A - 1) * cos W) + sq)); [apply Rmult_le_compat_l; [lra|]; apply Rabs_le; lra|nra].
  Qed.
  Lemma high_double b : exists b', rbj_setupN (N := F64 m) R_HighShelf f g s b = Ok b' tt /\ fin_coeffs b' /\ shelf_near b' (cookbook_shelf R_HighShelf (B2R f) (B2R g) (B2R s)).
  Proof.
    pose proof sh_A as HA. pose proof sl_pos as Hsq. pose proof (COS_bound W) as CB. destruct (sl_d (- cos W) ltac:(lra)) as (D1 & D2 & D3 & D4).
    replace (A + 1 + (A - 1) * - cos W) with (A + 1 - (A - 1) * cos W) in * by ring. replace (A + 1 - (A - 1) * - cos W) with (A + 1 + (A - 1) * cos W) in * by ring.
    replace (A - 1 + (A + 1) * - cos W) with (A - 1 - (A + 1) * cos W) in * by ring. replace (A - 1 - (A + 1) * - cos W) with (A - 1 + (A + 1) * cos W) in * by ring.
    pose proof (Rabs_pos (A - 1 + (A + 1) * cos W)). pose proof (sl_add _ _ sh_dm) as A0. pose proof (sl_sub _ _ sh_dm) as A2. pose proof (sh_2 _ _ sh_em) as A1.
    pose proof (sl_b _ _ (sl_add _ _ sh_dp)) as B0. pose proof (sl_b _ _ (sl_sub _ _ sh_dp)) as B2. pose proof (sh_b1 _ _ _ _ sh_m2a sh_ep) as B1.
    unfold rbj_setupN; cbn [rbj_coefs]; unfold bind, ret. eexists. split; [apply set_ok; cbsh; [apply A0|apply A1|apply A2|apply B0|apply B1|apply B2]|].
    apply near_sh; cbsh; cbs2.
    - eapply (quot_a _ _ _ _ _ 2 A0 ltac:(lra) (ap97 _ _ _ _ A1 ltac:(lra))); [num|right; split; [reflexivity|lra]|]. rewrite Rabs_mult, (Rabs_pos_eq 2) by lra. nra.
    - eapply (quot_a _ _ _ _ _ 1 A0 ltac:(lra) (ap97 _ _ _ _ A2 ltac:(lra))); [num|left; reflexivity|]. apply Rabs_le. lra.
    - eapply (quot_b _ _ _ _ _ 16 A0 ltac:(lra) (ap97 _ _ _ _ B0 ltac:(lra))); [num|left; reflexivity|]. rewrite Rabs_mult, (Rabs_pos_eq A) by lra.
      apply Rle_trans with (A * (4 * (A + 1 - (A - 1) * cos W) + sq)); [apply Rmult_le_compat_l; [lra|]; apply Rabs_le; lra|nra].
    - eapply (quot_b _ _ _ _ _ 32 A0 ltac:(lra) (ap97 _ _ _ _ B1 ltac:(lra))); [num|right; split; [reflexivity|lra]|]. rewrite Rabs_mult, (Rabs_left (-2 * A)) by lra.
      apply Rle_trans with (2 * A * (4 * (A + 1 - (A - 1) * cos W))); [|nra]. replace (- (-2 * A)) with (2 * A) by ring. apply Rmult_le_compat_l; lra.
    - eapply (quot_b _ _ _ _ _ 16 A0 ltac:(lra) (ap97 _ _ _ _ B2 ltac:(lra))); [num|left; reflexivity|]. rewrite Rabs_mult, (Rabs_pos_eq A) by lra.
      apply Rle_trans with (A * (4 * (A + 1 - (A - 1) * cos W) + sq)); [apply Rmult_le_compat_l; [lra|]; apply Rabs_le; lra|nra].
  Qed.
  End Slope.

  (** band shelf: [s] is the width in octaves *)
  Section Width.
  Hypothesis Hl : / 2 ^ 15 <= B2R f.
  Hypothesis Hs : 1 / 64 <= B2R s.
  Hypothesis Hw : B2R s * W <= 11 * sin W.
  Notation Sn := (sin W).
  Notation u := (uu / sin W).
  Lemma wd_sin : 1 / 5000000 <= Sn <= 1.
  Proof. pose proof pi_bounds. pose proof (SIN_bound W). split; [|lra]. assert (6 / 32768 <= W) by (simpl in Hl; nra). nra. Qed.
  Lemma wd_w : 6 / 32768 <= W <= 16 / 5.
  Proof. pose proof pi_bounds. simpl in Hl. split; nra. Qed.
  Lemma wd_sw : Sn <= W.
  Proof. pose proof wd_w. apply Rlt_le, sin_lt_x. lra. Qed.
  Lemma wd_s : B2R s <= 11.
  Proof. pose proof wd_w. pose proof wd_sw. nra. Qed.
  Lemma wd_u : uu <= u <= 5000000 * uu.
  Proof.
    pose proof wd_sin. assert (/ Sn <= / (1 / 5000000)) by (apply Rinv_le; lra). assert (/ 1 <= / Sn) by (apply Rinv_le; lra). unfold Rdiv, uu in *. split; nra.
  Qed.
  Lemma wd_uS : u * Sn = uu.
  Proof. pose proof wd_sin. field. lra. Qed.
  Lemma wd_w0 : ap w0 W W (4 * uu * W).
  Proof.
    nums'. pose proof pi_bounds as PB. pose proof wd_w. unfold rbj_w0. cbn [nmul npi F64].
    assert (Q : ap (fmul (nofZ (F64 m) 2) (fnorm 7074237752028440 (-51))) (2 * PI) (32 / 5) (11 * uu)).
    { cbn [nofZ F64]. destruct ap_pi as (P1 & P2 & _). assert (P : ap (fnorm 7074237752028440 (-51)) PI (16 / 5) (2 * uu)) by (split; [exact P1|split; [exact P2|apply Rabs_le; lra]]).
      eapply ap_weak; [eapply ap_mul2; [exact sh_two|exact P|]|..]; num. }
    pose proof (ap_val f (B2R f) Ff ltac:(rewrite Rabs_pos_eq; lra)) as G.
    eapply ap_S; [eapply ap_weak; [eapply (ap_mul2 _ _ _ _ _ _ _ _ Q G)|apply Rle_refl|]|rewrite Rabs_pos_eq; lra].
    - num.
    - simpl in Hl. assert (tiny <= uu * B2R f) by num. assert (24 * uu * B2R f <= 4 * uu * W) by (unfold uu; nra). num.
  Qed.
  Notation th := (ln 2 / 2 * B2R s * W / Sn).
  Notation thf := (fdiv (fmul (fmul (fdiv (fnorm 6243314768165359 (-53)) (fofZ 2)) s) w0) sn).
  Lemma wd_ln : 34 / 100 <= ln 2 / 2 <= 7 / 20.
  Proof. pose proof ln2_bounds as L. apply Rabs_le_between in L. lra. Qed.
  Lemma wd_th : 0 <= th <= 77 / 20.
  Proof.
    pose proof wd_ln. pose proof wd_sin. pose proof wd_w. assert (0 <= B2R s * W) by nra.
    replace (ln 2 / 2 * B2R s * W / Sn) with (ln 2 / 2 * (B2R s * W) / Sn) by (field; lra).
    split; [apply Rmult_le_pos; [nra|left; apply Rinv_0_lt_compat; lra]|]. apply Rmult_le_reg_r with Sn; [lra|]. unfold Rdiv at 1. rewrite Rmult_assoc, Rinv_l by lra. nra.
  Qed.
  Lemma wd_thf : ap thf th 4 (135 * u).
  Proof.
    nums'. pose proof wd_ln as HL. pose proof wd_sin as HS. pose proof wd_w as HW. pose proof wd_s as HB. pose proof wd_u as HU. pose proof wd_uS as HUS. pose proof wd_th as HT.
    assert (P1 : ap (fdiv (fnorm 6243314768165359 (-53)) (fofZ 2)) (ln 2 / 2) (1 / 2) uu).
    { eapply ap_weak; [eapply (ap_div2 _ _ _ _ _ _ _ _ 2 (7 / 20) (uu / 2)); [exact ap_ln2|exact sh_two|rewrite Rabs_pos_eq; lra|num|apply Rabs_le; lra|num|num]|lra|num]. }
    pose proof (ap_val s (B2R s) Fs ltac:(rewrite Rabs_pos_eq; lra)) as G.
    assert (P2 : ap (fmul (fdiv (fnorm 6243314768165359 (-53)) (fofZ 2)) s) (ln 2 / 2 * B2R s) (B2R s / 2) (2 * uu * B2R s)).
    { eapply ap_weak; [eapply (ap_mul2 _ _ _ _ _ _ _ _ P1 G)|lra|].
      - num.
      - assert (tiny <= uu / 4 * B2R s) by num. num. }
    assert (P3 : ap (fmul (fmul (fdiv (fnorm 6243314768165359 (-53)) (fofZ 2)) s) w0) (ln 2 / 2 * B2R s * W) (B2R s * W / 2) (5 * uu * (B2R s * W))).
    { assert (X : 1 / 400000 <= B2R s * W <= 40) by (split; nra).
      eapply ap_weak; [eapply (ap_mul2 _ _ _ _ _ _ _ _ P2 wd_w0)|lra|].
      - replace ((B2R s / 2 + 2 * uu * B2R s) * (W + 4 * uu * W)) with ((1 / 2 + 2 * uu) * (1 + 4 * uu) * (B2R s * W)) by field. num.
      - replace (B2R s / 2 * (4 * uu * W) + W * (2 * uu * B2R s) + 2 * uu * B2R s * (4 * uu * W) + uu * ((B2R s / 2 + 2 * uu * B2R s) * (W + 4 * uu * W)) + tiny)
          with ((4 * uu + 8 * uu * uu + uu * ((1 / 2 + 2 * uu) * (1 + 4 * uu))) * (B2R s * W) + tiny) by field.
        revert X. generalize (B2R s * W). intros x X. num. }
    assert (E1 : 0 <= 5 * uu * (B2R s * W) <= 55 * uu) by (unfold uu in *; nra).
    eapply ap_weak; [eapply (ap_div2 _ _ _ _ _ _ _ _ Sn (77 / 20) (130 * u) P3 sh_sn)|..].
    - apply Rle_abs.
    - num.
    - rewrite Rabs_pos_eq; lra.
    - rewrite Rmult_minus_distr_l. replace (130 * u * Sn) with (130 * (u * Sn)) by ring. rewrite HUS. assert (130 * u * (18 * uu) <= uu) by (revert HU; generalize u; intros v HU; unfold uu in *; nra). num.
    - revert HU; generalize u; intros v HU. num.
    - lra.
    - revert HU; generalize u; intros v HU. assert (uu * (130 * v) <= uu / 100) by (unfold uu in *; nra). num.
  Qed.
  Lemma wd_sh : 0 <= sinh th <= 41.
  Proof.
    pose proof wd_th as HT. unfold sinh. pose proof exp4. pose proof (exp_mono th 4 ltac:(lra)). pose proof (exp_mono (- th) th ltac:(lra)). pose proof (exp_pos (- th)). lra.
  Qed.
  Notation al := (Sn * sinh th).
  Notation alf := (fmul sn (lm_sinh m thf)).
  Lemma wd_al : ap alf al 41 (6530 * uu).
  Proof.
    nums'. pose proof wd_sin as HS. pose proof wd_u as HU. pose proof wd_uS as HUS. pose proof wd_th as HT. pose proof wd_sh as HH.
    assert (P : ap (lm_sinh m thf) (sinh th) 41 (5740 * u)).
    { eapply ap_weak; [eapply (ap_fn2 _ _ _ _ _ _ _ _ 42 41); [apply HM|exact wd_thf| |intros Hx; apply sinh_lip; lra|lra|rewrite Rabs_pos_eq; lra]|lra|].
      - revert HU; generalize u; intros v HU. num.
      - revert HU; generalize u; intros v HU. num. }
    assert (S : ap sn Sn Sn (18 * uu)) by (eapply ap_S; [exact sh_sn|rewrite Rabs_pos_eq; lra]).
    assert (U2 : 0 <= uu * u <= uu / 100000000) by (unfold uu in *; nra).
    eapply ap_weak; [eapply (ap_mul2 _ _ _ _ _ _ _ _ S P)|nra|].
    - revert HU; generalize u; intros v HU. apply Rle_trans with (2 * 100); [|lra]. apply Rmult_le_compat; num.
    - replace (Sn * (5740 * u)) with (5740 * (u * Sn)) by ring. replace ((Sn + 18 * uu) * (41 + 5740 * u)) with (41 * Sn + 5740 * (u * Sn) + 738 * uu + 103320 * (uu * u)) by ring. rewrite HUS.
      replace (18 * uu * (5740 * u)) with (103320 * (uu * u)) by ring. revert U2; generalize (uu * u); intros v U2. num.
  Qed.
  Lemma wd_al0 : 0 <= al <= 41.
  Proof. pose proof wd_sin. pose proof wd_sh. split; [apply Rmult_le_pos; lra|nra]. Qed.
  Lemma wd_q : ap (fdiv alf Af) (al / A) 164 (41500 * uu).
  Proof.
    nums'. pose proof sh_A as HA. pose proof wd_al0 as HB. eapply ap_weak; [eapply (ap_div2 _ _ _ _ _ _ _ _ (1 / 4) 164 (40000 * uu) wd_al sh_a)|lra|num].
    - rewrite Rabs_pos_eq; lra.
    - num.
    - apply frac_le2; [lra|]. rewrite Rabs_pos_eq by lra. nra.
    - num.
    - num.
  Qed.
  Lemma wd_p : ap (fmul alf Af) (al * A) 164 (27200 * uu).
  Proof. nums'. eapply ap_weak; [eapply (ap_mul2 _ _ _ _ _ _ _ _ wd_al sh_a); num|num|num]. Qed.
  Lemma wd_a0 : ap (fadd one (fdiv alf Af)) (1 + al / A) 165 (41700 * uu).
  Proof. nums'. eapply ap_weak; [eapply (ap_add _ _ _ _ _ _ _ _ sh_one wd_q); num|num|num]. Qed.
  Lemma wd_a2 : ap (fsub one (fdiv alf Af)) (1 - al / A) 165 (41700 * uu).
  Proof. nums'. eapply ap_weak; [eapply (ap_sub _ _ _ _ _ _ _ _ sh_one wd_q); num|num|num]. Qed.
  Lemma wd_b0 : ap (fadd one (fmul alf Af)) (1 + al * A) 165 (27400 * uu).
  Proof. nums'. eapply ap_weak; [eapply (ap_add _ _ _ _ _ _ _ _ sh_one wd_p); num|num|num]. Qed.
  Lemma wd_b2 : ap (fsub one (fmul alf Af)) (1 - al * A) 165 (27400 * uu).
  Proof. nums'. eapply ap_weak; [eapply (ap_sub _ _ _ _ _ _ _ _ sh_one wd_p); num|num|num]. Qed.
  Lemma wd_a1 : ap (fmul (fofZ (-2)) cs) (-2 * cos W) 165 (40 * uu).
  Proof. nums'. eapply ap_weak; [eapply (ap_mul2 _ _ _ _ _ _ _ _ sh_mtwo sh_cs); num|num|num]. Qed.
  Lemma wd_quot x r e Q D : ap x r 165 e -> 0 <= Q <= 16 -> Rabs r <= Q * (1 + al / A) -> e + (Q + 1 / 100) * (41700 * uu) + (Q + 1) * uu <= D -> D <= 1 -> ff (fdiv x (fadd one (fdiv alf Af))) (r / (1 + al / A)) (D + D / 1000).
  Proof.
    intros H HQ Hr He HD. nums'. pose proof sh_A as HA. pose proof wd_al0 as HB.
    assert (Z : 0 <= al / A) by (apply Rmult_le_pos; [lra|left; apply Rinv_0_lt_compat; lra]).
    assert (E0 : 0 <= e) by (destruct H as (_ & H & _); eapply Rle_trans; [apply Rabs_pos|exact H]).
    assert (P : ap (fdiv x (fadd one (fdiv alf Af))) (r / (1 + al / A)) Q (D + D / 2000 - uu * Q + uu * (Q + (D + D / 2000 - uu * Q)) + tiny)).
    { apply (ap_div2 _ _ _ _ _ _ _ _ 1 Q (D + D / 2000 - uu * Q) H wd_a0); [rewrite Rabs_pos_eq; lra|num|apply frac_le2; lra| |num].
      assert (D * (41700 * uu) <= D / 100000) by num. num. }
    destruct P as (P1 & P2 & _). split; [exact P1|]. eapply Rle_trans; [exact P2|]. assert (uu * D <= D / 100000) by num. assert (0 <= uu * Q) by num. assert (0 <= uu * (uu * Q)) by num. num.
  Qed.
  Ltac cbbs := cbn [k_a0 k_a1 k_a2 k_b0 k_b1 k_b2 rbj_bandshelf nadd nsub nmul ndiv nopp nofZ F64 ncos npow].
  Lemma band_double b : exists b', rbj_setupN (N := F64 m) R_BandShelf f g s b = Ok b' tt /\ fin_coeffs b' /\ shelf_near b' (cookbook_shelf R_BandShelf (B2R f) (B2R g) (B2R s)).
  Proof.
    pose proof sh_A as HA. pose proof wd_al0 as HB. pose proof (COS_bound W) as CB. pose proof wd_a0 as A0. pose proof wd_a1 as A1. pose proof wd_a2 as A2. pose proof wd_b0 as B0. pose proof wd_b2 as B2.
    assert (Z : 0 <= al / A) by (apply Rmult_le_pos; [lra|left; apply Rinv_0_lt_compat; lra]).
    assert (Z2 : al * A = 16 * (al / A) * (A * A / 16)) by (field; lra). assert (Z3 : al * A <= 16 * (al / A)) by (rewrite Z2; rewrite <- (Rmult_1_r (16 * (al / A))) at 2; apply Rmult_le_compat_l; nra).
    assert (Z4 : 0 <= al * A) by (apply Rmult_le_pos; lra).
    unfold rbj_setupN; cbn [rbj_coefs]; unfold bind, ret.
    assert (NN : throw_if (is_nan (N := F64 m) (rbj_bandshelf_AL (N := F64 m) f s)) E_no_solution b = Ok b tt).
    { rewrite (not_nan m); [reflexivity|]. exact (proj1 wd_al). }
    rewrite NN. eexists. split; [apply set_ok; cbbs; [apply A0|apply A1|apply A2|apply B0|apply A1|apply B2]|].
    assert (FW : forall x r e e', ff x r e -> e <= e' -> ff x r e') by (intros x r e e' [X1 X2] X; split; [exact X1|lra]).
    apply near_sh; cbbs; cbn [m_a1 m_a2 m_b0 m_b1 m_b2 i_a1 i_a2 i_b0 i_b1 i_b2 cookbook_shelf].
    - eapply FW; [apply (wd_quot _ _ _ 2 (84000 * uu) A1); [lra| |num|num]|num]. apply Rabs_le; lra.
    - eapply FW; [apply (wd_quot _ _ _ 1 (84000 * uu) A2); [lra| |num|num]|num]. apply Rabs_le; lra.
    - eapply FW; [apply (wd_quot _ _ _ 16 (700000 * uu) B0); [lra| |num|num]|num]. apply Rabs_le; lra.
    - eapply FW; [apply (wd_quot _ _ _ 2 (84000 * uu) A1); [lra| |num|num]|num]. apply Rabs_le; lra.
    - eapply FW; [apply (wd_quot _ _ _ 16 (700000 * uu) B2); [lra| |num|num]|num]. apply Rabs_le; lra.
  Qed.
  End Width.
End Shelf.
Lemma shelf_double m (f g s : f64) k b : libm_shelf m -> is_finite f = true -> is_finite g = true -> is_finite s = true -> shelf_args k (B2R f) (B2R g) (B2R s) ->
  exists b', rbj_setupN (N := F64 m) k f g s b = Ok b' tt /\ fin_coeffs b' /\ shelf_near b' (cookbook_shelf k (B2R f) (B2R g) (B2R s)).
Proof.
  intros HM Ff Fg Fs (Hf & Hg & H). destruct k; try contradiction.
  - apply (low_double m f g HM Ff Fg Hf Hg s Fs H).
  - apply (high_double m f g HM Ff Fg Hf Hg s Fs H).
  - destruct H as (H1 & H2 & H3). apply (band_double m f g HM Ff Fg Hf Hg s Fs H1 H2 H3).
Qed.
