(** Proofs: constants of the Chebyshev prototypes in binary64. *)
From Coq Require Import ZArith List Bool Reals Lra Lia.
From Coquelicot Require Import Coquelicot.
From Flocq Require Import Core.Raux Core.Defs IEEE754.BinarySingleNaN.
From Verif Require Import Num Outcome Types Biquad Chebyshev Float64 FloatSpec FloatProofs SampleLemmas RoundSpec RoundProofs DblPi DblSpec DblProofs DblLemmas RbjShProofs RelDbl BwDblSpec BwDbl ChCoefSpec ChDblSpec.
Local Open Scope R_scope.

(** ** hyperbolic functions *)
Lemma sinh_mvt a b : a < b -> exists c, a < c < b /\ sinh b - sinh a = cosh c * (b - a).
Proof.
  intros H. destruct (MVT_cor2 sinh cosh a b H) as (c & E & Hc); [intros; apply derivable_pt_lim_sinh|]. exists c. split; assumption.
Qed.
Lemma cosh_mvt a b : a < b -> exists c, a < c < b /\ cosh b - cosh a = sinh c * (b - a).
Proof.
  intros H. destruct (MVT_cor2 cosh sinh a b H) as (c & E & Hc); [intros; apply derivable_pt_lim_cosh|]. exists c. split; assumption.
Qed.
Lemma cosh_1 x : 1 <= cosh x.
Proof.
  unfold cosh. pose proof (exp_pos x). assert (E : exp x * exp (- x) = 1) by (rewrite <- exp_plus; replace (x + - x) with 0 by ring; apply exp_0).
  pose proof (exp_pos (- x)). assert (1 <= (exp x + exp (- x)) / 2); [|lra]. apply sq_le; [lra|]. pose proof (pow2_ge_0 (exp x - exp (- x))). nra.
Qed.
Lemma ch_sq x : cosh x ^ 2 = sinh x ^ 2 + 1.
Proof.
  assert (E : exp x * exp (- x) = 1) by (rewrite <- exp_plus; replace (x + - x) with 0 by ring; apply exp_0). unfold cosh, sinh.
  replace (((exp x + exp (- x)) / 2) ^ 2) with (((exp x - exp (- x)) / 2) ^ 2 + exp x * exp (- x)) by field. rewrite E. reflexivity.
Qed.
Lemma sinh_ge x : 0 <= x -> x <= sinh x.
Proof.
  intros [H| <-]; [|rewrite sinh_0; lra]. destruct (sinh_mvt 0 x H) as (c & _ & E). rewrite sinh_0 in E. pose proof (cosh_1 c). nra.
Qed.
Lemma sinh_mono a b : a <= b -> sinh a <= sinh b.
Proof. intros [H| ->]; [|lra]. destruct (sinh_mvt a b H) as (c & _ & E). pose proof (cosh_1 c). nra. Qed.
Lemma sinh_smono a b : a < b -> sinh a < sinh b.
Proof. intros H. destruct (sinh_mvt a b H) as (c & _ & E). pose proof (cosh_1 c). nra. Qed.
Lemma cosh_mono a b : 0 <= a <= b -> cosh a <= cosh b.
Proof.
  intros [H [L| ->]]; [|lra]. destruct (cosh_mvt a b L) as (c & Hc & E). assert (0 <= sinh c) by (pose proof (sinh_ge c ltac:(lra)); lra). nra.
Qed.
Lemma sinh_le_cosh x : 0 <= x -> sinh x <= x * cosh x.
Proof.
  intros [H| <-]; [|rewrite sinh_0; lra]. destruct (sinh_mvt 0 x H) as (c & Hc & E). rewrite sinh_0 in E. pose proof (cosh_mono c x ltac:(lra)). nra.
Qed.
Lemma cosh_le_sinh x : 0 <= x -> x * cosh x <= (1 + x) * sinh x.
Proof.
  intros H. pose proof (sinh_ge x H). assert (E : cosh x = sinh x + exp (- x)) by (unfold sinh, cosh; field).
  assert (exp (- x) <= 1) by (rewrite <- exp_0; apply exp_mono; lra). pose proof (exp_pos (- x)). rewrite E. nra.
Qed.
Lemma exp_small d : Rabs d <= 1 / 1000 -> 0 < exp d <= 1002 / 1000 /\ Rabs (exp d - 1) <= 1002 / 1000 * Rabs d.
Proof.
  intros H. assert (D : -1 / 1000 <= d <= 1 / 1000) by (apply Rabs_le_between in H; lra). pose proof (exp_ineq1_le d) as A. pose proof (exp_ineq1_le (- d)) as B.
  assert (E : exp d * exp (- d) = 1) by (rewrite <- exp_plus; replace (d + - d) with 0 by ring; apply exp_0). pose proof (exp_pos d) as P.
  assert (U : exp d * (1 - d) <= 1) by (rewrite <- E; apply Rmult_le_compat_l; lra).
  split; [nra|]. unfold Rabs. repeat destruct (Rcase_abs _); nra.
Qed.
Lemma cosh_shift b c : Rabs (c - b) <= 1 / 1000 -> cosh c <= 1002 / 1000 * cosh b.
Proof.
  intros H. pose proof (proj1 (exp_small _ H)) as A. rewrite <- Rabs_Ropp in H. pose proof (proj1 (exp_small _ H)) as B. unfold cosh.
  replace (exp c) with (exp b * exp (c - b)) by (rewrite <- exp_plus; f_equal; ring). replace (exp (- c)) with (exp (- b) * exp (- (c - b))) by (rewrite <- exp_plus; f_equal; ring).
  pose proof (exp_pos b). pose proof (exp_pos (- b)). nra.
Qed.
Lemma cosh_between a b c : a <= c <= b \/ b <= c <= a -> Rabs (a - b) <= 1 / 1000 -> cosh c <= 1002 / 1000 * cosh b.
Proof. intros H D. apply cosh_shift. eapply Rle_trans; [|exact D]. unfold Rabs. repeat destruct (Rcase_abs _); lra. Qed.
Lemma hyp_rel a b p : 0 < b <= 13 -> 0 <= p <= 1 / 10 ^ 5 -> Rabs (a - b) <= p * b ->
  Rabs (sinh a - sinh b) <= 101 / 100 * (1 + b) * p * sinh b /\ Rabs (cosh a - cosh b) <= 101 / 100 * (1 + b) * p * cosh b.
Proof.
  intros Hb Hp H. assert (D : Rabs (a - b) <= 1 / 1000) by nra.
  pose proof (cosh_le_sinh b ltac:(lra)) as CS. pose proof (cosh_1 b) as C1.
  assert (K : forall c, cosh c <= 1002 / 1000 * cosh b -> cosh c * Rabs (a - b) <= 101 / 100 * (1 + b) * p * sinh b /\ cosh c * Rabs (a - b) <= 101 / 100 * (1 + b) * p * cosh b).
  { intros c Hc. assert (Q : cosh c * Rabs (a - b) <= 1002 / 1000 * cosh b * (p * b)) by (apply Rmult_le_compat; try assumption; [pose proof (cosh_1 c); lra|apply Rabs_pos]).
    assert (0 <= p * cosh b) by (apply Rmult_le_pos; lra). pose proof (sinh_ge b ltac:(lra)) as SG.
    split; eapply Rle_trans; try exact Q.
    - replace (1002 / 1000 * cosh b * (p * b)) with (1002 / 1000 * p * (b * cosh b)) by ring. apply Rle_trans with (1002 / 1000 * p * ((1 + b) * sinh b)); [apply Rmult_le_compat_l; lra|].
      assert (0 <= p * ((1 + b) * sinh b)) by (apply Rmult_le_pos; [lra|apply Rmult_le_pos; lra]). lra.
    - assert (0 <= p * cosh b * b) by (apply Rmult_le_pos; lra). lra. }
  assert (SA : forall c, Rabs (sinh c) <= cosh c). { intros c. apply Rabs_le. unfold sinh, cosh. pose proof (exp_pos c). pose proof (exp_pos (- c)). lra. }
  destruct (Rtotal_order a b) as [L|[E|L]].
  - destruct (sinh_mvt a b L) as (c & Hc & E1). destruct (cosh_mvt a b L) as (d & Hd & E2). split.
    + rewrite Rabs_minus_sym, E1, Rabs_mult, (Rabs_pos_eq (cosh c)), (Rabs_minus_sym b) by (pose proof (cosh_1 c); lra). apply K. apply (cosh_between a b); [lra|exact D].
    + rewrite Rabs_minus_sym, E2, Rabs_mult, (Rabs_minus_sym b). eapply Rle_trans; [apply Rmult_le_compat_r; [apply Rabs_pos|apply SA]|]. apply K. apply (cosh_between a b); [lra|exact D].
  - subst a. rewrite !Rminus_diag_eq, Rabs_R0 by reflexivity. pose proof (sinh_ge b ltac:(lra)). split; (apply Rmult_le_pos; [apply Rmult_le_pos|]; lra).
  - destruct (sinh_mvt b a L) as (c & Hc & E1). destruct (cosh_mvt b a L) as (d & Hd & E2). split.
    + rewrite E1, Rabs_mult, (Rabs_pos_eq (cosh c)) by (pose proof (cosh_1 c); lra). apply K. apply (cosh_between a b); [lra|exact D].
    + rewrite E2, Rabs_mult. eapply Rle_trans; [apply Rmult_le_compat_r; [apply Rabs_pos|apply SA]|]. apply K. apply (cosh_between a b); [lra|exact D].
Qed.
Lemma arc_bounds y V : 0 < y -> y <= sinh V -> 0 < arcsinh y <= V /\ y <= arcsinh y * sqrt (1 + y ^ 2).
Proof.
  intros H HV. pose proof (sinh_arcsinh y) as E. set (q := arcsinh y) in *.
  assert (Q0 : 0 < q). { destruct (Rlt_le_dec 0 q) as [L|L]; [exact L|]. pose proof (sinh_mono q 0 L). rewrite sinh_0 in *. lra. }
  split; [split; [exact Q0|]|].
  - destruct (Rle_lt_dec q V) as [L|L]; [exact L|]. pose proof (sinh_smono V q L). lra.
  - replace (sqrt (1 + y ^ 2)) with (cosh q); [rewrite <- E at 1; apply sinh_le_cosh; lra|].
    symmetry. apply sqrt_lem_1; [nra|pose proof (cosh_1 q); lra|]. pose proof (ch_sq q) as S. rewrite E in S. lra.
Qed.
Lemma arc_rel a b p : 0 < b -> 0 <= p <= 1 / 1000 -> Rabs (a - b) <= p * b -> Rabs (arcsinh a - arcsinh b) <= 101 / 100 * p * arcsinh b.
Proof.
  intros Hb Hp H. assert (Ha : 0 < a) by (apply Rabs_le_between in H; nra).
  pose proof (sinh_arcsinh a) as EA. pose proof (sinh_arcsinh b) as EB. set (x := arcsinh a) in *. set (q := arcsinh b) in *.
  assert (Q0 : 0 < q). { destruct (Rlt_le_dec 0 q) as [L|L]; [exact L|]. pose proof (sinh_mono q 0 L). rewrite sinh_0 in *. lra. }
  assert (X0 : 0 < x). { destruct (Rlt_le_dec 0 x) as [L|L]; [exact L|]. pose proof (sinh_mono x 0 L). rewrite sinh_0 in *. lra. }
  pose proof (sinh_le_cosh q ltac:(lra)) as SC. rewrite EB in SC. pose proof (cosh_1 q) as C1.
  assert (CX : (1 - p) * cosh q <= cosh x).
  { apply sq_le; [pose proof (cosh_1 x); lra|]. rewrite Rpow_mult_distr, !ch_sq, EA, EB. apply Rabs_le_between in H. assert ((1 - p) * b <= a) by lra.
    assert (((1 - p) * b) ^ 2 <= a ^ 2) by (apply pow_incr; nra). nra. }
  assert (K : forall c, (1 - p) * cosh q <= cosh c -> forall d, 0 <= d -> cosh c * d <= p * b -> d <= 101 / 100 * p * q).
  { intros c Hc d Hd Q. apply Rmult_le_reg_l with ((1 - p) * cosh q); [apply Rmult_lt_0_compat; lra|].
    apply Rle_trans with (cosh c * d); [apply Rmult_le_compat_r; assumption|]. eapply Rle_trans; [exact Q|].
    apply Rle_trans with (p * (q * cosh q)); [apply Rmult_le_compat_l; lra|].
    assert (0 <= p * q * cosh q * ((1 - p) * (101 / 100) - 1)) by (apply Rmult_le_pos; [apply Rmult_le_pos; [apply Rmult_le_pos|]; lra|lra]). nra. }
  destruct (Rtotal_order x q) as [L|[E|L]].
  - destruct (sinh_mvt x q L) as (c & Hc & E1). rewrite EA, EB in E1. rewrite Rabs_left by lra. apply (K c); [|lra|].
    + pose proof (cosh_mono x c ltac:(lra)). lra.
    + replace (- (x - q)) with (q - x) by ring. rewrite <- E1. rewrite Rabs_minus_sym in H. apply Rabs_le_between in H. lra.
  - rewrite E, Rminus_diag_eq, Rabs_R0 by reflexivity. apply Rmult_le_pos; [|lra]. lra.
  - destruct (sinh_mvt q x L) as (c & Hc & E1). rewrite EA, EB in E1. rewrite Rabs_pos_eq by lra. apply (K c); [|lra|].
    + pose proof (cosh_mono q c ltac:(lra)). nra.
    + rewrite <- E1. apply Rabs_le_between in H. lra.
Qed.
Lemma ln_rel a b p : 0 < b -> 0 <= p <= 1 / 1000 -> Rabs (a - b) <= p * b -> Rabs (ln a - ln b) <= 1002 / 1000 * p.
Proof.
  intros Hb Hp H. assert (D : - (p * b) <= a - b <= p * b) by (apply Rabs_le_between in H; lra). assert (Ha : (1 - p) * b <= a) by lra. assert (A0 : 0 < a) by nra.
  assert (LE : forall x, 0 < x -> ln x <= x - 1). { intros x Hx. pose proof (exp_ineq1_le (ln x)) as Q. rewrite exp_ln in Q by exact Hx. lra. }
  assert (L1 : ln a - ln b <= p). { rewrite <- ln_div by assumption. eapply Rle_trans; [apply LE, Rdiv_lt_0_compat; assumption|]. assert (a / b <= 1 + p); [|lra]. apply Rmult_le_reg_r with b; [exact Hb|]. unfold Rdiv. rewrite Rmult_assoc, Rinv_l by lra. lra. }
  assert (L2 : ln b - ln a <= 1002 / 1000 * p).
  { rewrite <- ln_div by assumption. eapply Rle_trans; [apply LE, Rdiv_lt_0_compat; assumption|]. assert (b / a <= 1 + 1002 / 1000 * p); [|lra]. apply Rmult_le_reg_r with a; [exact A0|]. unfold Rdiv. rewrite Rmult_assoc, Rinv_l, Rmult_1_r by lra. nra. }
  apply Rabs_le. lra.
Qed.
Lemma exp_rel a b : Rabs (a - b) <= 1 / 1000 -> Rabs (exp a - exp b) <= 1002 / 1000 * Rabs (a - b) * exp b.
Proof.
  intros H. replace (exp a - exp b) with (exp b * (exp (a - b) - 1)). 2:{ rewrite Rmult_minus_distr_l, <- exp_plus. replace (b + (a - b)) with a by ring. ring. }
  rewrite Rabs_mult, (Rabs_pos_eq (exp b)) by (left; apply exp_pos). pose proof (proj2 (exp_small _ H)). pose proof (exp_pos b). nra.
Qed.

(** ** numbers *)
Lemma ln10_bounds : Rabs (5184960683398422 / 2 ^ 51 - ln 10) <= 3 / 2 ^ 53.
Proof.
  pose proof (ln_atanh (1 / 3) ltac:(lra)) as H. cbv zeta in H. replace ((1 + 1 / 3) / (1 - 1 / 3)) with 2 in H by field.
  pose proof (ln_atanh (1 / 9) ltac:(lra)) as G. cbv zeta in G. replace ((1 + 1 / 9) / (1 - 1 / 9)) with (5 / 4) in G by field.
  assert (E : ln 10 = 3 * ln 2 + ln (5 / 4)).
  { replace 10 with (2 * (2 * (2 * (5 / 4)))) by field. rewrite !ln_mult by lra. ring. }
  rewrite E. apply Rabs_le. lra.
Qed.
Lemma ln10_rng : 23 / 10 <= ln 10 <= 231 / 100.
Proof. pose proof ln10_bounds as H. apply Rabs_le_between in H. lra. Qed.
Lemma mid_of r : 1 / 10 ^ 12 <= r <= 10 ^ 12 -> mid r.
Proof. intros H. unfold mid. rewrite Rabs_pos_eq by lra. assert (E1 : 2 ^ 60 = 1152921504606846976) by lra. rewrite E1. lra. Qed.
Lemma rel_ln10 : rel (fnorm 5184960683398422 (-51)) (ln 10) (2 * uu).
Proof.
  destruct (fnorm_exact 5184960683398422 (-51) ltac:(lia) ltac:(lia)) as [A B]. pose proof ln10_bounds as L. pose proof ln10_rng as R.
  assert (E : B2R (fnorm 5184960683398422 (-51)) = 5184960683398422 / 2 ^ 51) by (rewrite A; unfold F2R; cbn; lra).
  split; [exact B|]. split; [apply mid_of; lra|]. rewrite E, (Rabs_pos_eq (ln 10)) by lra. eapply Rle_trans; [exact L|]. unfold uu. lra.
Qed.
Lemma rel_one : rel (fofZ 1) 1 0.
Proof. apply (rel_ofZ 1); [apply mid_of; lra|lia]. Qed.
Lemma rel_tenth : rel (flit 1 10) (1 / 10) (11 / 10 * uu).
Proof. unfold flit. eapply rel_div; [exact rel_one|apply (rel_ofZ 10); [apply mid_of; lra|lia]|apply mid_of; lra|lra|lra|unfold uu; lra]. Qed.
