(** Proofs: relative errors of binary64 operations. *)
From Coq Require Import ZArith List Bool Reals Lra Lia.
From Coquelicot Require Import Coquelicot.
From Flocq Require Import Core.Raux Core.Defs IEEE754.BinarySingleNaN.
From Verif Require Import Num Float64 FloatSpec FloatProofs SampleLemmas RoundSpec RoundProofs DblPi DblSpec DblProofs DblLemmas RbjShProofs.
Local Open Scope R_scope.

(** f is r up to the relative error p; sizes at which no overflow or underflow is near *)
Definition mid (r : R) : Prop := / 2 ^ 60 <= Rabs r <= 2 ^ 60.
Definition rel (f : f64) (r p : R) : Prop := is_finite f = true /\ mid r /\ Rabs (B2R f - r) <= p * Rabs r.

Lemma mid_tiny : tiny <= uu / 1048576 / 2 ^ 60.
Proof.
  unfold tiny, uu. replace (/ 9007199254740992 / 1048576 / 2 ^ 60) with (/ 2 ^ 133) by lra.
  apply Rinv_le; [apply pow_lt; lra|apply Rle_pow; [lra|lia]].
Qed.
Lemma mid_big : 2 ^ 62 <= big.
Proof. unfold big. apply Rle_pow; [lra|lia]. Qed.
Lemma mid_pos r : mid r -> 0 < Rabs r.
Proof. intros [H _]. assert (0 < / 2 ^ 60) by (apply Rinv_0_lt_compat, pow_lt; lra). lra. Qed.
Lemma rel_weak f r p p' : rel f r p -> p <= p' -> rel f r p'.
Proof. intros (A & B & D) H. split; [exact A|]. split; [exact B|]. eapply Rle_trans; [exact D|]. apply Rmult_le_compat_r; [apply Rabs_pos|exact H]. Qed.
Lemma rel_of f r S e p : ap f r S e -> mid r -> e <= p * Rabs r -> rel f r p.
Proof. intros (A & B & _) H Q. split; [exact A|]. split; [exact H|lra]. Qed.
Lemma rel_ap f r p : rel f r p -> ap f r (Rabs r) (p * Rabs r).
Proof. intros (A & B & D). split; [exact A|]. split; [exact D|lra]. Qed.
Lemma rel_val f : is_finite f = true -> mid (B2R f) -> rel f (B2R f) 0.
Proof. intros A B. split; [exact A|]. split; [exact B|]. rewrite Rminus_diag_eq, Rabs_R0 by reflexivity. lra. Qed.
Lemma rel_eq f r r' p : rel f r p -> r = r' -> rel f r' p.
Proof. intros A <-. exact A. Qed.
Lemma rel_opp f r p : rel f r p -> rel (Bopp f) (- r) p.
Proof.
  intros (A & B & D). split; [rewrite is_finite_Bopp; exact A|]. unfold mid in *. rewrite Rabs_Ropp. split; [exact B|].
  rewrite B2R_Bopp. replace (- B2R f - - r) with (- (B2R f - r)) by ring. rewrite Rabs_Ropp. exact D.
Qed.
Lemma rel_p0 f r p : rel f r p -> 0 <= p.
Proof. intros (_ & M & D). pose proof (mid_pos _ M). pose proof (Rabs_pos (B2R f - r)). apply Rmult_le_reg_r with (Rabs r); lra. Qed.
Lemma rel_ofZ z : mid (IZR z) -> (Z.abs z < 2 ^ 53)%Z -> rel (fofZ z) (IZR z) 0.
Proof. intros M H. destruct (fofZ_val z H) as [A B]. rewrite <- A. apply rel_val; [exact B|rewrite A; exact M]. Qed.
(** the rounding step *)
Lemma rel_round a : mid a -> uu * Rabs a + tiny <= 10001 / 10000 * uu * Rabs a.
Proof. intros [H _]. pose proof mid_tiny as T. assert (uu / 1048576 * / 2 ^ 60 <= uu / 1048576 * Rabs a) by (apply Rmult_le_compat_l; [unfold uu; lra|exact H]). unfold uu in *. lra. Qed.
Lemma rel_mul f g r s p q e : rel f r p -> rel g s q -> mid (r * s) -> p <= 1 / 10 ^ 6 -> q <= 1 / 10 ^ 6 -> 100001 / 100000 * (p + q) + 1001 / 1000 * uu <= e -> rel (fmul f g) (r * s) e.
Proof.
  intros A B M Hp Hq HE. pose proof (rel_p0 _ _ _ A) as P0. pose proof (rel_p0 _ _ _ B) as Q0. pose proof mid_big as MB. pose proof (mid_pos _ M) as MP. pose proof (rel_round _ M) as RR.
  assert (PQ : 0 <= p * q <= (p + q) / 10 ^ 6) by (split; [apply Rmult_le_pos; assumption|nra]).
  pose proof M as [M1 M2]. destruct (ap_mul2 _ _ _ _ _ _ _ _ (rel_ap _ _ _ A) (rel_ap _ _ _ B)) as (F & E & _).
  - replace ((Rabs r + p * Rabs r) * (Rabs s + q * Rabs s)) with (Rabs (r * s) * (1 + p + q + p * q)) by (rewrite Rabs_mult; ring).
    apply Rle_trans with (2 ^ 60 * 4); [apply Rmult_le_compat; try lra; apply Rabs_pos|]. lra.
  - split; [exact F|]. split; [exact M|]. eapply Rle_trans; [exact E|].
    replace (Rabs r * (q * Rabs s) + Rabs s * (p * Rabs r) + p * Rabs r * (q * Rabs s) + uu * ((Rabs r + p * Rabs r) * (Rabs s + q * Rabs s)) + tiny)
      with ((uu * Rabs (r * s) + tiny) + (p + q + p * q + uu * (p + q + p * q)) * Rabs (r * s)) by (rewrite Rabs_mult; ring).
    apply Rle_trans with (10001 / 10000 * uu * Rabs (r * s) + (p + q + p * q + uu * (p + q + p * q)) * Rabs (r * s)); [lra|].
    rewrite <- Rmult_plus_distr_r. apply Rmult_le_compat_r; [lra|]. unfold uu in *. lra.
Qed.
Lemma rel_div f g r s p q e : rel f r p -> rel g s q -> mid (r / s) -> p <= 1 / 10 ^ 6 -> q <= 1 / 10 ^ 6 -> 100001 / 100000 * (p + q) + 1001 / 1000 * uu <= e -> rel (fdiv f g) (r / s) e.
Proof.
  intros A B M Hp Hq HE. pose proof (rel_p0 _ _ _ A) as P0. pose proof (rel_p0 _ _ _ B) as Q0. pose proof mid_big as MB. pose proof (mid_pos _ M) as MP. pose proof (rel_round _ M) as RR.
  assert (SP : 0 < Rabs s) by (apply mid_pos, B). assert (Sn : s <> 0) by (intros ->; rewrite Rabs_R0 in SP; lra).
  assert (ER : Rabs r = Rabs (r / s) * Rabs s). { rewrite <- Rabs_mult. f_equal. field. exact Sn. }
  assert (QS : 0 <= q * Rabs s <= 1 / 10 ^ 6 * Rabs s) by (split; [apply Rmult_le_pos; lra|apply Rmult_le_compat_r; lra]).
  pose proof M as [M1 M2]. set (K := Rabs (r / s)) in *. set (h := 1000002 / 1000000 * (p + q)).
  assert (HH : 0 <= h <= 3 / 10 ^ 6) by (unfold h; lra).
  assert (HK : 0 <= h * K <= K) by (split; [apply Rmult_le_pos; lra|rewrite <- (Rmult_1_l K) at 2; apply Rmult_le_compat_r; lra]).
  destruct (ap_div2 _ _ _ _ _ _ _ _ (Rabs s) K (h * K) (rel_ap _ _ _ A) (rel_ap _ _ _ B)) as (F & E & _).
  - lra.
  - lra.
  - unfold K; lra.
  - rewrite ER. replace (p * (K * Rabs s) + K * (q * Rabs s)) with (K * Rabs s * (p + q)) by ring.
    replace (h * K * (Rabs s - q * Rabs s)) with (K * Rabs s * (h * (1 - q))) by ring. apply Rmult_le_compat_l; [apply Rmult_le_pos; lra|].
    unfold h. assert (0 <= (p + q) * (1000002 / 1000000 * (1 - q) - 1)) by (apply Rmult_le_pos; lra). lra.
  - lra.
  - split; [exact F|]. split; [exact M|]. fold K. eapply Rle_trans; [exact E|].
    apply Rle_trans with ((h + 10001 / 10000 * uu + uu * h) * K).
    + replace ((h + 10001 / 10000 * uu + uu * h) * K) with (h * K + uu * (h * K) + 10001 / 10000 * uu * K) by ring. lra.
    + apply Rmult_le_compat_r; [lra|]. unfold h, uu in *. lra.
Qed.
(** sums of positive numbers *)
Lemma rel_add f g r s p q e : rel f r p -> rel g s q -> 0 < r -> 0 < s -> mid (r + s) -> p <= 1 / 10 ^ 6 -> q <= 1 / 10 ^ 6 ->
  100001 / 100000 * p + 1001 / 1000 * uu <= e -> 100001 / 100000 * q + 1001 / 1000 * uu <= e -> rel (fadd f g) (r + s) e.
Proof.
  intros A B Hr Hs M Hp Hq H1 H2. pose proof (rel_p0 _ _ _ A) as P0. pose proof (rel_p0 _ _ _ B) as Q0. pose proof mid_big as MB. pose proof (rel_round _ M) as RR.
  pose proof M as [M1 M2]. rewrite (Rabs_pos_eq (r + s)) in M1, M2, RR by lra. destruct (ap_add _ _ _ _ _ _ _ _ (rel_ap _ _ _ A) (rel_ap _ _ _ B)) as (F & E & _).
  - rewrite (Rabs_pos_eq r), (Rabs_pos_eq s) by lra. nra.
  - split; [exact F|]. split; [exact M|]. rewrite (Rabs_pos_eq r), (Rabs_pos_eq s) in E by lra. rewrite (Rabs_pos_eq (r + s)) by lra. eapply Rle_trans; [exact E|].
    assert (X1 : 100001 / 100000 * p * r + 1001 / 1000 * uu * r <= e * r) by (rewrite <- Rmult_plus_distr_r; apply Rmult_le_compat_r; lra).
    assert (X2 : 100001 / 100000 * q * s + 1001 / 1000 * uu * s <= e * s) by (rewrite <- Rmult_plus_distr_r; apply Rmult_le_compat_r; lra).
    assert (0 <= p * r) by (apply Rmult_le_pos; lra). assert (0 <= q * s) by (apply Rmult_le_pos; lra). unfold uu in *. lra.
Qed.
Lemma sqrt_rel x r p : 0 < r -> 0 <= p <= 1 / 10 ^ 6 -> Rabs (x - r) <= p * r -> Rabs (sqrt x - sqrt r) <= 50001 / 100000 * p * sqrt r.
Proof.
  intros Hr Hp H. apply Rabs_le_between in H. assert (X : 0 < x) by nra.
  pose proof (sqrt_lt_R0 r Hr) as S0. pose proof (sqrt_sqrt r ltac:(lra)) as S1. pose proof (sqrt_lt_R0 x X) as T0. pose proof (sqrt_sqrt x ltac:(lra)) as T1.
  set (a := sqrt x) in *. set (b := sqrt r) in *.
  assert (L2 : (1 - p) * b <= a).
  { apply Rsqr_incr_0; unfold Rsqr; nra. }
  assert (D : Rabs (a - b) * (a + b) <= p * (b * b)). { rewrite <- (Rabs_pos_eq (a + b)) by lra. rewrite <- Rabs_mult. replace ((a - b) * (a + b)) with (x - r) by (rewrite <- S1, <- T1; ring). rewrite S1. apply Rabs_le. lra. }
  apply Rmult_le_reg_r with (a + b); [lra|]. eapply Rle_trans; [exact D|].
  apply Rle_trans with (50001 / 100000 * p * b * ((1 - p) * b + b)); [|apply Rmult_le_compat_l; [nra|lra]].
  assert (0 <= p * (b * b) * (50001 / 100000 * (2 - p) - 1)) by (apply Rmult_le_pos; [apply Rmult_le_pos; nra|lra]). nra.
Qed.
Lemma rel_sqrt f r p e : rel f r p -> 0 < r -> mid (sqrt r) -> p <= 1 / 10 ^ 6 -> 50001 / 100000 * p + 1001 / 1000 * uu <= e -> rel (fsqrt f) (sqrt r) e.
Proof.
  intros A Hr M Hp HE. pose proof (rel_p0 _ _ _ A) as P0. destruct A as (F & M0 & D). rewrite (Rabs_pos_eq r) in D by lra.
  pose proof (sqrt_rel (B2R f) r p Hr (conj P0 Hp) D) as SR. pose proof (sqrt_lt_R0 r Hr) as S0. pose proof M as [M1 M2]. rewrite (Rabs_pos_eq (sqrt r)) in M1, M2 by lra.
  assert (X : 0 < B2R f) by (apply Rabs_le_between in D; nra).
  pose proof mid_big as MB. pose proof mid_tiny as MT.
  pose proof (@Bsqrt_correct 53 1024 Hprec64 Hemax64 mode_NE f) as (Q1 & Q2 & _).
  split; [|split; [exact M|]].
  - unfold fsqrt. rewrite Q2. destruct f as [s|s| |[|] ma ex Be]; try discriminate F; try reflexivity.
    exfalso. clear - X. cbn [B2R] in X. pose proof (Float_prop.F2R_lt_0 Zaux.radix2 (Float Zaux.radix2 (SpecFloat.cond_Zopp true (Zpos ma)) ex)) as K. cbn in K. specialize (K ltac:(lia)). cbn in X. lra.
  - unfold fsqrt. rewrite Q1. match goal with |- context [Generic_fmt.round ?a ?b ?c (sqrt (B2R f))] => change (Generic_fmt.round a b c (sqrt (B2R f))) with (rnd64 (sqrt (B2R f))) end.
    rewrite (Rabs_pos_eq (sqrt r)) by lra. pose proof (rnd_err (sqrt (B2R f))) as W.
    assert (V : Rabs (sqrt (B2R f)) <= 10001 / 10000 * sqrt r).
    { replace (sqrt (B2R f)) with (sqrt r + (sqrt (B2R f) - sqrt r)) by ring. eapply Rle_trans; [apply Rabs_triang|]. rewrite (Rabs_pos_eq (sqrt r)) by lra.
      assert (50001 / 100000 * p * sqrt r <= 1 / 10000 * sqrt r) by (apply Rmult_le_compat_r; lra). lra. }
    assert (uu * Rabs (sqrt (B2R f)) <= uu * (10001 / 10000 * sqrt r)) by (apply Rmult_le_compat_l; [unfold uu; lra|exact V]).
    assert (uu / 1048576 * / 2 ^ 60 <= uu / 1048576 * sqrt r) by (apply Rmult_le_compat_l; [unfold uu; lra|exact M1]).
    replace (rnd64 (sqrt (B2R f)) - sqrt r) with ((rnd64 (sqrt (B2R f)) - sqrt (B2R f)) + (sqrt (B2R f) - sqrt r)) by ring.
    eapply Rle_trans; [apply Rabs_triang|]. apply Rle_trans with ((50001 / 100000 * p + 1001 / 1000 * uu) * sqrt r); [unfold uu in *; lra|apply Rmult_le_compat_r; lra].
Qed.
(** a library function with small relative error, which changes relative errors by the factor k *)
Lemma rel_fn fn (g : R -> R) x r p k d e : rel x r p -> (is_finite (fn x) = true /\ Rabs (B2R (fn x) - g (B2R x)) <= d * Rabs (g (B2R x))) -> 0 <= d <= 1 / 10 ^ 6 -> mid (g r) ->
  Rabs (g (B2R x) - g r) <= k * Rabs (g r) -> k <= 1 / 10 ^ 2 -> k + 102 / 100 * d <= e -> rel (fn x) (g r) e.
Proof.
  intros A [F D] Hd M L Hk HE. split; [exact F|]. split; [exact M|].
  replace (B2R (fn x) - g r) with ((B2R (fn x) - g (B2R x)) + (g (B2R x) - g r)) by ring. eapply Rle_trans; [apply Rabs_triang|].
  assert (V : Rabs (g (B2R x)) <= 102 / 100 * Rabs (g r)).
  { replace (g (B2R x)) with (g r + (g (B2R x) - g r)) by ring. eapply Rle_trans; [apply Rabs_triang|]. pose proof (mid_pos _ M). assert (k * Rabs (g r) <= 1 / 10 ^ 2 * Rabs (g r)) by (apply Rmult_le_compat_r; lra). lra. }
  assert (d * Rabs (g (B2R x)) <= d * (102 / 100 * Rabs (g r))) by (apply Rmult_le_compat_l; lra).
  apply Rle_trans with ((k + 102 / 100 * d) * Rabs (g r)); [lra|apply Rmult_le_compat_r; [apply Rabs_pos|exact HE]].
Qed.
