(** Proofs: Butterworth shelves in binary64, the analogue poles and zeros and the stored sections. *)
From Coq Require Import ZArith List Bool Reals Lra Lia.
From Coquelicot Require Import Coquelicot.
From Flocq Require Import Core.Raux Core.Defs IEEE754.BinarySingleNaN.
From Verif Require Import Num Outcome Types Biquad Cascade Transforms Butterworth Chebyshev PoleFilter Float64 FloatSpec FloatProofs SampleLemmas SigSpec StabProofs
  RoundSpec RoundProofs DblPi DblSpec DblProofs DblLemmas RbjShProofs RelDbl LayoutProofs BuildProofs BuildAny
  BwDblSpec CplxDbl BwDbl BwDbl2 BwDbl3 BwDblLemmas BwDblFinal SimDbl ChCoefSpec ChDblSpec ChDbl ChDbl2 ChDbl3 ChDbl4 ChDblLemmas ShelfDblSpec ShelfSetup.
Import ListNotations.
Local Open Scope R_scope.

Lemma cis_near a b : Cmod ((cos a, sin a) - (cos b, sin b))%C <= Rabs (a - b).
Proof.
  apply sq_le; [apply Rabs_pos|]. rewrite Cmod_sq, pow2_abs. unfold Cminus, Cplus, Copp. cbn [fst snd].
  pose proof (sin2_cos2 a) as Q1. pose proof (sin2_cos2 b) as Q2. unfold Rsqr in Q1, Q2. pose proof (cos_minus a b) as CM.
  set (d := a - b) in *. pose proof (sin_lip (d / 2) 0) as SL. rewrite sin_0, !Rminus_0_r in SL.
  assert (C2 : cos d = 1 - 2 * sin (d / 2) * sin (d / 2)) by (rewrite <- cos_2a_sin; f_equal; field).
  assert (S2 : sin (d / 2) * sin (d / 2) <= (d / 2) * (d / 2)).
  { pose proof (Rmult_le_compat _ _ _ _ (Rabs_pos _) (Rabs_pos _) SL SL) as Q. rewrite <- !Rabs_mult in Q. rewrite !Rabs_pos_eq in Q by nra. exact Q. }
  assert (d ^ 2 = 4 * (d / 2 * (d / 2))) by field. nra.
Qed.
Lemma cut_S f : sh_cut_ok f -> cut_ok f /\ (let T := if Rle_dec f (1 / 4) then 2608 else 82 in / T <= tan (PI * f) <= T).
Proof.
  intros H. unfold sh_cut_ok, cut_ok in *. split; [lra|]. pose proof pi_bounds as PB. cbn zeta.
  assert (E4 : PI * (1 / 4) = PI / 4) by field. destruct (Rle_dec f (1 / 4)) as [L|L].
  - split.
    + eapply Rle_trans; [|apply tan_ge; nra]. assert (31415 / 10000 * / 8192 <= PI * f) by (apply Rmult_le_compat; lra). lra.
    + assert (tan (PI * f) <= 1); [|lra]. destruct (Rle_lt_or_eq_dec _ _ L) as [L1| ->]; [|rewrite E4, tan_PI4; lra].
      rewrite <- tan_PI4. left. apply tan_increasing; nra.
  - assert (C : ch_cut_ok f) by (unfold ch_cut_ok; lra). pose proof (proj2 (cut_T f C)) as Q. cbn zeta in Q. destruct (Rle_dec f (1 / 4)); [contradiction|exact Q].
Qed.
Lemma exp_k (k : nat) x : x <= INR k -> exp x <= 3 ^ k.
Proof.
  intros H. apply Rle_trans with (exp (INR k)); [destruct (Rle_lt_or_eq_dec _ _ H) as [L| ->]; [left; apply exp_increasing; exact L|lra]|].
  clear H x. induction k as [|k IH]; [simpl; rewrite exp_0; lra|]. rewrite S_INR, exp_plus. pose proof exp_le_3. pose proof (exp_pos (INR k)). pose proof (exp_pos 1). simpl. nra.
Qed.
Lemma exp_k_low (k : nat) x : - INR k <= x -> / 3 ^ k <= exp x.
Proof.
  intros H. pose proof (exp_k k (- x) ltac:(lra)) as Q. rewrite exp_Ropp in Q. pose proof (exp_pos x). pose proof (Rinv_0_lt_compat _ H0).
  rewrite <- (Rinv_inv (exp x)). apply Rinv_le; assumption.
Qed.

Section Par.
  Variable m : libm.
  Notation FN := (F64 m).
  Hypothesis HM : libm_design m.
  Hypothesis HS : libm_bwshelf m.
  Variable ga : f64.
  Hypothesis Fg : is_finite ga = true.
  Hypothesis Hg : sh_gain_ok (B2R ga).
  Variable n : nat.
  Hypothesis Hn : (1 <= n <= 32)%nat.
  Notation G := (B2R ga).
  Notation g := (sh_g n G).
  Notation gf := (sh_gf (N := FN) n ga : f64).

  Lemma nr : 1 <= INR n <= 32.
  Proof. split; [apply (le_INR 1); lia|replace 32 with (INR 32) by (simpl; lra); apply le_INR; lia]. Qed.
  Lemma n2_val : IZR (Z.of_nat n * 2) = 2 * INR n.
  Proof. rewrite mult_IZR, <- INR_IZR_INZ. ring. Qed.
  Lemma g_exp : g = exp (/ (2 * INR n) * (G / 20 * ln 10)).
  Proof. pose proof nr. unfold sh_g, Rpower. f_equal. field. lra. Qed.
  Lemma L0_rng : - (924 / 100) <= G / 20 * ln 10 <= 924 / 100.
  Proof. pose proof ln10_rng. unfold sh_gain_ok in Hg. split; nra. Qed.
  Lemma z0_rng : 1 / 64 <= / (2 * INR n) <= 1 / 2.
  Proof. pose proof nr. replace (1 / 64) with (/ 64) by lra. replace (1 / 2) with (/ 2) by lra. split; apply Rinv_le; lra. Qed.
  Lemma g_rng : / 243 <= g <= 243 /\ ((2 <= n)%nat -> / 27 <= g <= 27).
  Proof.
    rewrite g_exp. pose proof L0_rng as L. pose proof z0_rng as Z. set (l := G / 20 * ln 10) in *. set (z := / (2 * INR n)) in *. split.
    - assert (- INR 5 <= z * l <= INR 5) by (simpl; nra). split; [eapply Rle_trans; [|apply (exp_k_low 5); lra]|eapply Rle_trans; [apply (exp_k 5); lra|]]; lra.
    - intros N2. assert (Z4 : z <= 1 / 4). { unfold z. replace (1 / 4) with (/ 4) by lra. apply Rinv_le; [lra|]. pose proof (le_INR 2 n N2). simpl in H. lra. }
      assert (- INR 3 <= z * l <= INR 3) by (simpl; nra). split; [eapply Rle_trans; [|apply (exp_k_low 3); lra]|eapply Rle_trans; [apply (exp_k 3); lra|]]; lra.
  Qed.
  Lemma g_rel : rel gf g (221 / 10 * uu).
  Proof.
    pose proof nr as NR. pose proof z0_rng as Z0. pose proof L0_rng as L0. pose proof ln10_rng as LN. destruct g_rng as [GR _]. destruct HS as (_ & HP1 & HP2). unfold sh_gain_ok in Hg.
    assert (U0 : 0 < uu <= / 2 ^ 53) by (unfold uu; lra). pose proof tiny_uu as TU.
    assert (T1 : tiny <= uu / 1000) by (pose proof mid_tiny; assert (uu / 1048576 / 2 ^ 60 <= uu / 1000) by (unfold uu; lra); lra).
    assert (X : ap (fdiv ga (fofZ 20)) (G / 20) 4 (4001 / 1000 * uu)).
    { assert (Q4 : Rabs (G / 20) <= 4) by (apply Rabs_le; lra).
      eapply ap_weak; [eapply (ap_div2 _ _ G 20 80 20 0 0 20 4 0)|lra|]; try lra.
      - split; [exact Fg|]. rewrite Rminus_eq_0, Rabs_R0. split; [lra|apply Rabs_le; lra].
      - apply (ap_ofZ 20 20); [lia|rewrite Rabs_pos_eq; lra].
      - rewrite Rabs_pos_eq; lra.
      - pose proof mid_big. assert (2 ^ 62 = 4611686018427387904) by lra. lra. }
    destruct X as (X1 & X2 & _). set (x := fdiv ga (fofZ 20)) in *. pose proof X2 as X3. apply Rabs_le_between in X3.
    destruct (HP1 x X1 ltac:(lra)) as [Y1 Y2]. set (y := lm_pow m (fofZ 10) x) in *.
    assert (P0 : 0 < Rpower 10 (B2R x)) by apply exp_pos. rewrite (Rabs_pos_eq (Rpower 10 (B2R x))) in Y2 by lra.
    pose proof (ln_rel (B2R y) (Rpower 10 (B2R x)) (/ 2 ^ 50) P0 ltac:(lra) Y2) as LY. unfold Rpower in LY at 1. rewrite ln_exp in LY.
    assert (Y0 : 0 < B2R y) by (apply Rabs_le_between in Y2; nra).
    set (l := G / 20 * ln 10) in *.
    assert (LY2 : Rabs (ln (B2R y) - l) <= 174 / 10 * uu).
    { replace (ln (B2R y) - l) with ((ln (B2R y) - B2R x * ln 10) + (B2R x - G / 20) * ln 10) by (unfold l; ring). eapply Rle_trans; [apply Rabs_triang|]. rewrite Rabs_mult, (Rabs_pos_eq (ln 10)) by lra.
      assert (Rabs (B2R x - G / 20) * ln 10 <= 4001 / 1000 * uu * (231 / 100)) by (apply Rmult_le_compat; try lra; apply Rabs_pos). unfold uu in *. lra. }
    pose proof LY2 as LY3. apply Rabs_le_between in LY3. set (ly := ln (B2R y)) in *. assert (EY : B2R y = exp ly) by (unfold ly; rewrite exp_ln; [reflexivity|exact Y0]).
    assert (YR : / 2 ^ 16 <= B2R y <= 2 ^ 16).
    { rewrite EY. split; [eapply Rle_trans; [|apply (exp_k_low 10); simpl; lra]|eapply Rle_trans; [apply (exp_k 10); simpl; lra|]]; lra. }
    assert (Z : rel (fdiv (fofZ 1) (fofZ (Z.of_nat n * 2))) (1 / IZR (Z.of_nat n * 2)) (11 / 10 * uu)).
    { rewrite n2_val. eapply (rel_div _ _ _ _ 0 0); [exact rel_one| |apply mid_of; unfold Rdiv; rewrite Rmult_1_l; lra|lra|lra|].
      - rewrite <- n2_val. apply rel_ofZ; [rewrite n2_val; apply mid_of; lra|lia].
      - lra. }
    rewrite n2_val in Z. unfold Rdiv in Z at 1. rewrite Rmult_1_l in Z. destruct Z as (Z1 & _ & Z2). set (z := fdiv (fofZ 1) (fofZ (Z.of_nat n * 2))) in *. set (z0 := / (2 * INR n)) in *.
    rewrite (Rabs_pos_eq z0) in Z2 by lra. assert (Z3 : Rabs (B2R z - z0) <= 11 / 20 * uu) by (assert (11 / 10 * uu * z0 <= 11 / 10 * uu * (1 / 2)) by (apply Rmult_le_compat_l; lra); lra). pose proof Z3 as Z4. apply Rabs_le_between in Z4.
    destruct (HP2 y z Y1 Z1 YR ltac:(unfold uu in *; lra)) as [G1 G2]. unfold Rpower in G2. fold ly in G2.
    assert (D : Rabs (B2R z * ly - z0 * l) <= 14 * uu).
    { replace (B2R z * ly - z0 * l) with (B2R z * (ly - l) + (B2R z - z0) * l) by ring. eapply Rle_trans; [apply Rabs_triang|]. rewrite !Rabs_mult.
      assert (Rabs (B2R z) <= 1 / 2 + uu) by (apply Rabs_le; lra). assert (Rabs l <= 924 / 100) by (apply Rabs_le; lra).
      assert (Rabs (B2R z) * Rabs (ly - l) <= (1 / 2 + uu) * (174 / 10 * uu)) by (apply Rmult_le_compat; try lra; apply Rabs_pos).
      assert (Rabs (B2R z - z0) * Rabs l <= 11 / 20 * uu * (924 / 100)) by (apply Rmult_le_compat; try lra; apply Rabs_pos). unfold uu in *. lra. }
    pose proof (exp_rel _ _ ltac:(eapply Rle_trans; [exact D|unfold uu; lra]) : Rabs (exp (B2R z * ly) - exp (z0 * l)) <= _) as ER.
    rewrite g_exp in *. fold z0 in GR |- *. fold l in GR |- *. set (b := exp (z0 * l)) in *. set (a := exp (B2R z * ly)) in *.
    assert (B0 : 0 < b) by apply exp_pos.
    assert (ER2 : Rabs (a - b) <= 14029 / 1000 * uu * b). { eapply Rle_trans; [exact ER|]. apply Rmult_le_compat_r; unfold uu in *; lra. }
    assert (UB : 0 < uu * b <= / 2 ^ 53 * b) by (split; [apply Rmult_lt_0_compat; lra|apply Rmult_le_compat_r; lra]). pose proof ER2 as ER3. apply Rabs_le_between in ER3.
    split; [exact G1|]. split; [apply mid_of; lra|]. rewrite (Rabs_pos_eq b) by lra.
    change (sh_gf (N := FN) n ga) with (lm_pow m y z). replace (B2R (lm_pow m y z) - b) with ((B2R (lm_pow m y z) - a) + (a - b)) by ring. eapply Rle_trans; [apply Rabs_triang|].
    assert (/ 2 ^ 50 * a <= / 2 ^ 50 * (b * (1 + / 2 ^ 20))) by (apply Rmult_le_compat_l; unfold uu in *; lra). unfold uu in *. lra.
  Qed.
  Lemma gz_rel : rel (sh_gz (N := FN) n ga) (- g) (221 / 10 * uu).
  Proof. apply rel_opp. exact g_rel. Qed.
  Lemma gp_rel : rel (sh_gp (N := FN) n ga) (- / g) (232 / 10 * uu).
  Proof.
    destruct g_rng as [GR _]. replace (- / g) with (IZR (-1) / g) by (field; lra). unfold sh_gp. cbn [ndiv nofZ F64].
    assert (I : / 243 <= / g <= 243) by (split; [apply Rinv_le; lra|]; rewrite <- (Rinv_inv 243); apply Rinv_le; lra).
    eapply rel_div; [apply rel_ofZ; [unfold mid; rewrite Rabs_left; lra|lia]|exact g_rel| |lra|unfold uu; lra|unfold uu; lra].
    unfold mid. replace (IZR (-1) / g) with (- / g) by (field; lra). rewrite Rabs_Ropp. apply mid_of. lra.
  Qed.

  Section Pt.
  Variable i : nat.
  Hypothesis Hi : (i < n / 2)%nat.
  Notation a := (ch_angle n i).
  Notation thf := (sh_th (N := FN) n i : f64).
  Lemma th_ap : is_finite thf = true /\ Rabs (B2R thf - (PI / 2 - a)) <= 75 / 10 * uu /\ 0 <= PI / 2 - a <= PI / 2.
  Proof.
    pose proof nr as NR. pose proof (i2 n Hn i Hi) as I2. pose proof pi_bounds as PB. assert (U0 : 0 < uu <= / 2 ^ 53) by (unfold uu; lra).
    assert (T1 : 0 < tiny <= uu / 1000) by (pose proof mid_tiny; assert (uu / 1048576 / 2 ^ 60 <= uu / 1000) by (unfold uu; lra); split; [unfold tiny; apply Rinv_0_lt_compat, pow_lt; lra|lra]).
    pose proof mid_big as MB. assert (E62 : 2 ^ 62 = 4611686018427387904) by lra.
    set (k := (2 * (Z.of_nat i + 1) - 1)%Z).
    assert (EK : IZR k = 2 * INR i + 1) by (unfold k; rewrite minus_IZR, mult_IZR, plus_IZR, <- INR_IZR_INZ; ring).
    pose proof (pos_INR i) as I0. assert (IN : 2 * INR i + 2 <= INR n). { replace (2 * INR i + 2) with (INR (2 * i + 2)) by (rewrite plus_INR, mult_INR; simpl; lra). apply le_INR. exact I2. }
    assert (EA : a = PI * (IZR k / (2 * INR n))) by (unfold ch_angle; rewrite EK; field; lra).
    set (r := IZR k / (2 * INR n)) in *.
    assert (RR : 0 <= r <= 1 / 2). { unfold r. rewrite EK. split; [apply Rle_div_r; lra|]. apply Rle_div_l; lra. }
    assert (Q : ap (fdiv (fofZ k) (fofZ (Z.of_nat n * 2))) r (1 / 2) (501 / 1000 * uu)).
    { unfold r. rewrite <- n2_val. eapply ap_weak; [eapply (ap_div2 _ _ (IZR k) (IZR (Z.of_nat n * 2)) 32 64 0 0 1 (1 / 2) 0)|lra|]; try lra.
      - apply ap_ofZ; [unfold k; lia|]. rewrite EK, Rabs_pos_eq; lra.
      - apply ap_ofZ; [lia|]. rewrite n2_val, Rabs_pos_eq; lra.
      - rewrite n2_val, Rabs_pos_eq; lra.
      - rewrite n2_val. fold r. rewrite Rabs_pos_eq; lra. }
    assert (H2 : ap (nlit FN 1 2) (1 / 2) (1 / 2) 0).
    { cbn [nlit F64]. assert (VH : B2R (flit 1 2) = 1 / 2) by (erewrite sf_val by (vm_compute; reflexivity); unfold SF2R, F2R; cbn; lra).
      split; [vm_compute; reflexivity|]. rewrite VH. rewrite Rminus_eq_0, Rabs_R0, Rabs_pos_eq; lra. }
    pose proof (ap_sub _ _ _ _ _ _ _ _ H2 Q ltac:(lra)) as D. destruct D as (D1 & D2 & _).
    set (df := fsub (nlit FN 1 2) (fdiv (fofZ k) (fofZ (Z.of_nat n * 2)))) in *.
    assert (D3 : ap df (1 / 2 - r) (1 / 2) (1503 / 1000 * uu)).
    { split; [exact D1|]. split; [|rewrite Rabs_pos_eq; lra]. eapply Rle_trans; [exact D2|]. unfold uu in *. lra. }
    destruct ap_pi as (P1 & P2 & _). assert (P3 : ap fpi PI (315 / 100) (2 * uu)) by (split; [exact P1|]; split; [exact P2|rewrite Rabs_pos_eq; lra]).
    pose proof (ap_mul2 _ _ _ _ _ _ _ _ P3 D3 ltac:(unfold uu in *; lra)) as (M1 & M2 & _).
    split; [exact M1|]. rewrite EA. split; [|nra]. change (sh_th (N := FN) n i) with (fmul fpi df).
    replace (PI / 2 - PI * r) with (PI * (1 / 2 - r)) by field. eapply Rle_trans; [exact M2|]. unfold uu in *. lra.
  Qed.
  (** a point r e^(i theta), r < 0 *)
  Lemma polar_pt (rf : f64) r p : rel rf r p -> - 27 <= r <= - / 27 -> 0 <= p <= 24 * uu ->
    exists z, lm_polar m rf thf = Some z /\ cap z (r * sin a, r * cos a) (40 * uu * - r).
  Proof.
    intros (R1 & _ & R2) RR HP. destruct th_ap as (T1 & T2 & T3). destruct HS as (HPL & _). pose proof pi_bounds as PB. assert (U0 : 0 < uu <= / 2 ^ 53) by (unfold uu; lra).
    rewrite (Rabs_left r) in R2 by lra. assert (R3 : Rabs (B2R rf - r) <= 24 * uu * - r) by (eapply Rle_trans; [exact R2|apply Rmult_le_compat_r; lra]).
    assert (UR : 0 < uu * - r <= / 2 ^ 53 * - r) by (split; [apply Rmult_lt_0_compat; lra|apply Rmult_le_compat_r; lra]).
    pose proof R3 as R4. apply Rabs_le_between in R4. pose proof T2 as T4. apply Rabs_le_between in T4.
    (* a rounded angle below 0 cannot occur: it is at least pi / 64 *)
    assert (TH : 0 <= B2R thf <= 2).
    { split; [|lra]. destruct (tr_low n Hn i Hi) as (_ & C & _). rewrite <- sin_shift in C. pose proof (sin_lt_x (PI / 2 - a)) as SX.
      destruct (Req_dec (PI / 2 - a) 0) as [E0|E0]; [rewrite E0, sin_0 in C; lra|]. specialize (SX ltac:(lra)). lra. }
    destruct (HPL rf thf R1 T1 ltac:(lra) TH) as (z & E & F & M). exists z. split; [exact E|]. split; [exact F|].
    set (th := PI / 2 - a) in *. assert (ES : sin a = cos th) by (unfold th; rewrite cos_shift; reflexivity). assert (EC : cos a = sin th) by (unfold th; rewrite sin_shift; reflexivity). rewrite ES, EC.
    assert (SC : forall r x, (r * cos x, r * sin x) = (RtoC r * (cos x, sin x))%C) by (intros; unfold Cmult, RtoC; cbn [fst snd]; f_equal; ring).
    rewrite !SC in *. rewrite (Rabs_left (B2R rf)) in M by lra.
    replace (c2c z - RtoC r * (cos th, sin th))%C with ((c2c z - RtoC (B2R rf) * (cos (B2R thf), sin (B2R thf))) + (RtoC (B2R rf) * ((cos (B2R thf), sin (B2R thf)) - (cos th, sin th)) + (RtoC (B2R rf) - RtoC r) * (cos th, sin th)))%C by ring.
    eapply Rle_trans; [apply Cmod_triangle|]. eapply Rle_trans; [apply Rplus_le_compat_l, Cmod_triangle|]. rewrite !Cmod_mult, <- RtoC_minus, !Cmod_R.
    assert (U1 : Cmod (cos th, sin th) = 1). { assert (CS : cos th ^ 2 + sin th ^ 2 = 1) by (pose proof (sin2_cos2 th) as Q; unfold Rsqr in Q; nra). apply Rle_antisym; (apply sq_le; [try apply Cmod_ge_0; lra|]); rewrite Cmod_sq; cbn [fst snd]; lra. }
    rewrite U1. pose proof (cis_near (B2R thf) th) as CN. rewrite (Rabs_left (B2R rf)) by lra.
    assert (- B2R rf * Cmod ((cos (B2R thf), sin (B2R thf)) - (cos th, sin th))%C <= (- r * (1 + / 2 ^ 20)) * (75 / 10 * uu)) by (apply Rmult_le_compat; [lra|apply Cmod_ge_0|unfold uu in *; lra|lra]).
    unfold uu in *. lra.
  Qed.
  End Pt.
End Par.
