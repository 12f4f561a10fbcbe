(** Proofs: poles and zeros of the Chebyshev prototypes in binary64. *)
From Coq Require Import ZArith List Bool Reals Lra Lia.
From Coquelicot Require Import Coquelicot.
From Flocq Require Import Core.Raux Core.Defs IEEE754.BinarySingleNaN.
From Verif Require Import Num Outcome Types Biquad Chebyshev Float64 FloatSpec FloatProofs SampleLemmas RoundSpec RoundProofs DblPi DblSpec DblProofs DblLemmas RbjShProofs RelDbl
  BwDblSpec CplxDbl BwDbl BwDbl2 BuildAny SimSetup ChCoefSpec ChDblSpec ChDbl ChDbl2 ChDbl3.
Local Open Scope R_scope.

(** inverse of the conjugate *)
Lemma inv_val x y : x ^ 2 + y ^ 2 <> 0 -> (x / (x ^ 2 + y ^ 2), y / (x ^ 2 + y ^ 2)) = (/ Cconj (x, y))%C.
Proof. intros H. unfold Cinv, Cconj. cbn [fst snd]. replace ((- y) ^ 2) with (y ^ 2) by ring. f_equal. field. exact H. Qed.
Lemma conj_mod (z : C) : Cmod (Cconj z) = Cmod z.
Proof. unfold Cmod, Cconj. cbn [fst snd]. f_equal. ring. Qed.
Lemma conj_n0 (z : C) : 0 < Cmod z -> Cconj z <> 0%C.
Proof. intros H E. apply (f_equal Cmod) in E. rewrite conj_mod, Cmod_0 in E. lra. Qed.
Lemma inv_diff (c s : C) : 0 < Cmod c -> 0 < Cmod s -> Cmod (/ Cconj c - / Cconj s)%C = Cmod (c - s)%C / (Cmod c * Cmod s).
Proof.
  intros H1 H2. pose proof (conj_n0 _ H1) as N1. pose proof (conj_n0 _ H2) as N2.
  replace (/ Cconj c - / Cconj s)%C with (Cconj (s - c) / (Cconj c * Cconj s))%C.
  - rewrite Cmod_div by (apply Cmult_neq_0; assumption). rewrite Cmod_mult, !conj_mod. f_equal. replace (s - c)%C with (- (c - s))%C by ring. apply Cmod_opp.
  - replace (Cconj (s - c)%C) with (Cconj s - Cconj c)%C by (destruct s, c; unfold Cconj, Cminus, Cplus, Copp; cbn [fst snd]; f_equal; ring). field. split; assumption.
Qed.
Lemma inv_pole (a b : f64) (s : C) r : cap (Cx a b) s (r * Cmod s) -> 0 <= r <= 1 / 10 ^ 6 -> 1 / 10 ^ 3 <= Cmod s <= 10 ^ 5 ->
  let d := fadd (fmul a a) (fmul b b) in
  cap (Cx (fdiv a d) (fdiv b d)) (/ Cconj s)%C ((101 / 100 * r + 4 * uu) * Cmod (/ Cconj s)%C).
Proof.
  intros A Hr Hs d. pose proof (cap_mod _ _ _ A) as U. pose proof (cap_mod_low _ _ _ A) as Lo. pose proof A as [[Fa Fb] DA]. cbn [re im] in Fa, Fb.
  set (A' := B2R a) in *. set (B' := B2R b) in *. assert (EC : c2c (Cx a b) = (A', B')) by reflexivity. rewrite EC in *.
  pose proof tiny_uu as TU. pose proof tiny_pos as TP. pose proof mid_big as MB. assert (P62 : 10 ^ 12 <= 2 ^ 62) by lra. assert (UU : 0 < uu <= / 10 ^ 12) by (unfold uu; lra).
  set (K := Cmod s) in *. set (c := Cmod (A', B')) in *. assert (CK : (1 - r) * K <= c <= (1 + r) * K) by lra.
  assert (C0 : 1 / 1001 <= c <= 10 ^ 5 + 1) by nra.
  assert (MC : c ^ 2 = A' ^ 2 + B' ^ 2) by apply Cmod_sq. set (M := A' ^ 2 + B' ^ 2) in *.
  assert (MR : 1 / 10 ^ 7 <= M <= 10 ^ 11) by (rewrite <- MC; simpl; nra).
  assert (TM : tiny <= / 10 ^ 20 * uu). { assert (T : tiny <= uu / 1048576 / 2 ^ 60) by exact mid_tiny. unfold uu in *. lra. }
  assert (AA : A' ^ 2 <= M /\ B' ^ 2 <= M) by (unfold M; pose proof (pow2_ge_0 A'); pose proof (pow2_ge_0 B'); lra).
  assert (S1 : Rabs (A' * A') <= A' ^ 2) by (rewrite Rabs_pos_eq; nra). assert (S2 : Rabs (B' * B') <= B' ^ 2) by (rewrite Rabs_pos_eq; nra).
  assert (BG : 10 ^ 12 <= big) by lra.
  destruct (ap_add _ _ _ _ _ _ _ _ (ap_mul a a _ Fa Fa S1 ltac:(lra)) (ap_mul b b _ Fb Fb S2 ltac:(lra)) ltac:(unfold uu in *; lra)) as (Q1 & Q2 & _). fold A' B' in Q2. fold d in Q1, Q2.
  replace (A' * A' + B' * B') with M in Q2 by (unfold M; ring).
  assert (QD : Rabs (B2R d - M) <= 202 / 100 * uu * M). { eapply Rle_trans; [exact Q2|]. unfold M in *. pose proof (pow2_ge_0 A'). pose proof (pow2_ge_0 B'). unfold uu in *. lra. }
  assert (AD : ap d M M (202 / 100 * uu * M)) by (split; [exact Q1|]; split; [exact QD|rewrite Rabs_pos_eq; lra]).
  assert (DV : forall x : f64, is_finite x = true -> Rabs (B2R x) <= c -> is_finite (fdiv x d) = true /\ Rabs (B2R (fdiv x d) - B2R x / M) <= 31 / 10 * uu * Rabs (B2R x / M) + tiny).
  { intros x Fx Bx. assert (EQ : Rabs (B2R x / M) = Rabs (B2R x) / M) by (unfold Rdiv; rewrite Rabs_mult, (Rabs_pos_eq (/ M)); [reflexivity|left; apply Rinv_0_lt_compat; lra]).
    set (Q := Rabs (B2R x) / M). assert (Q0 : 0 <= Q) by (unfold Q, Rdiv; apply Rmult_le_pos; [apply Rabs_pos|left; apply Rinv_0_lt_compat; lra]).
    assert (QM : Q * M = Rabs (B2R x)) by (unfold Q; field; lra). assert (QB : Q <= 10 ^ 5) by (apply Rmult_le_reg_r with M; [lra|]; rewrite QM; nra).
    destruct (ap_div2 x d (B2R x) M (Rabs (B2R x)) M 0 (202 / 100 * uu * M) M Q (203 / 100 * uu * Q)) as (D1 & D2 & _).
    - apply ap_val; [exact Fx|lra].
    - exact AD.
    - rewrite Rabs_pos_eq; lra.
    - unfold uu. lra.
    - rewrite EQ. unfold Q. lra.
    - rewrite Rplus_0_l. replace (Q * (202 / 100 * uu * M)) with (uu * (Q * M) * (202 / 100)) by ring. replace (203 / 100 * uu * Q * (M - 202 / 100 * uu * M)) with (uu * (Q * M) * (203 / 100 * (1 - 202 / 100 * uu))) by ring.
      apply Rmult_le_compat_l; [apply Rmult_le_pos; [lra|rewrite QM; apply Rabs_pos]|unfold uu; lra].
    - unfold uu in *. nra.
    - split; [exact D1|]. eapply Rle_trans; [exact D2|]. rewrite EQ. fold Q. assert (0 <= uu * Q) by (apply Rmult_le_pos; lra). assert (uu * Q * uu <= uu * Q * / 10 ^ 12) by (apply Rmult_le_compat_l; [apply Rmult_le_pos; lra|lra]). lra. }
  assert (BA : Rabs (B2R a) <= c) by exact (re_Cmod (A', B')). assert (BB : Rabs (B2R b) <= c) by exact (im_Cmod (A', B')).
  destruct (DV a Fa BA) as [Da1 Da2]. destruct (DV b Fb BB) as [Db1 Db2]. fold A' in Da2. fold B' in Db2.
  assert (EI : (A' / M, B' / M) = (/ Cconj (A', B'))%C) by (apply inv_val; fold M; lra).
  assert (MI : Cmod (A' / M, B' / M) = / c). { rewrite EI, Cmod_inv by (apply conj_n0; fold c; lra). rewrite conj_mod. reflexivity. }
  assert (ES : Cmod (/ Cconj s)%C = / K) by (rewrite Cmod_inv by (apply conj_n0; fold K; lra); rewrite conj_mod; reflexivity).
  rewrite ES. split; [split; assumption|]. unfold c2c. cbn [re im].
  replace ((B2R (fdiv a d), B2R (fdiv b d)) - / Cconj s)%C with (((B2R (fdiv a d) - A' / M)%R, (B2R (fdiv b d) - B' / M)%R) + (/ Cconj (A', B') - / Cconj s))%C by (rewrite <- EI; unfold Cplus, Cminus, Copp; cbn [fst snd]; unfold Cplus; cbn [fst snd]; f_equal; ring).
  eapply Rle_trans; [apply Cmod_triangle|]. rewrite inv_diff by (fold c; fold K; lra). fold c K.
  pose proof (Cmod_dom (B2R (fdiv a d) - A' / M) (B2R (fdiv b d) - B' / M) (A' / M, B' / M) (31 / 10 * uu) tiny ltac:(lra) ltac:(lra) Da2 Db2) as CD. rewrite MI in CD.
  assert (KI : 0 < / K) by (apply Rinv_0_lt_compat; lra).
  assert (CI : / c <= (1 + 2 * r) * / K). { apply Rmult_le_reg_r with c; [lra|]. rewrite Rinv_l by lra. apply Rle_trans with ((1 + 2 * r) * / K * ((1 - r) * K)); [|apply Rmult_le_compat_l; [apply Rmult_le_pos; lra|lra]]. replace ((1 + 2 * r) * / K * ((1 - r) * K)) with ((1 + 2 * r) * (1 - r)) by (field; lra). nra. }
  assert (T2 : Cmod ((A', B') - s)%C / (c * K) <= r * (1 + 2 * r) * / K).
  { unfold Rdiv. rewrite Rinv_mult. apply Rle_trans with (r * K * ((1 + 2 * r) * / K * / K)).
    - apply Rmult_le_compat; [apply Cmod_ge_0|apply Rmult_le_pos; [left; apply Rinv_0_lt_compat; lra|lra]|exact DA|apply Rmult_le_compat_r; lra].
    - right. field. lra. }
  assert (TK : tiny <= / 10 ^ 10 * uu * / K). { assert (/ 10 ^ 5 <= / K) by (apply Rinv_le; lra). eapply Rle_trans; [exact TM|]. apply Rle_trans with (/ 10 ^ 10 * uu * / 10 ^ 5); [lra|]. apply Rmult_le_compat_l; lra. }
  eapply Rle_trans; [apply Rplus_le_compat; [exact CD|exact T2]|].
  assert (Z1 : 31 / 10 * uu * / c <= 31 / 10 * uu * ((1 + 2 * r) * / K)) by (apply Rmult_le_compat_l; lra).
  set (i := / K) in *. assert (r * r * i <= / 10 ^ 6 * r * i) by (assert (0 <= r * i) by (apply Rmult_le_pos; lra); nra).
  assert (uu * r * i <= uu * / 10 ^ 6 * i) by (assert (0 <= uu * i) by (apply Rmult_le_pos; lra); nra).
  assert (0 <= uu * i) by (apply Rmult_le_pos; lra). assert (0 <= r * i) by (apply Rmult_le_pos; lra). lra.
Qed.

Section Poles.
  Variable m : libm.
  Hypothesis HM : libm_cheb m.
  Variable second : bool.
  Variable db : f64.
  Hypothesis Fd : is_finite db = true.
  Hypothesis Hd : ch_db_ok second (B2R db).
  Variable n : nat.
  Hypothesis Hn : (1 <= n <= 32)%nat.
  Notation w := (ch_width second n (B2R db)).
  Notation S := (sinh w).
  Notation K := (cosh w).
  Notation V := (vf m second db (Z.of_nat n)).
  Lemma zn : (1 <= Z.of_nat n <= 32)%Z.
  Proof. lia. Qed.
  Lemma hyp_ok : rel (lm_sinh m V) S (rs second) /\ rel (lm_cosh m V) K (rs second).
  Proof. unfold ch_width. cbn zeta. rewrite INR_IZR_INZ. exact (rel_hyp m HM second db Fd Hd (Z.of_nat n) zn). Qed.
  Lemma w_rng : (if second then 1 / 80 else 1 / 544) <= w <= (if second then 10 else 4).
  Proof. unfold ch_width. cbn zeta. rewrite INR_IZR_INZ. exact (vv_rng second db Hd (Z.of_nat n) zn). Qed.
  Lemma S_rng : (if second then 1 / 80 else 1 / 544) <= S <= (if second then 10 ^ 4 else 17).
  Proof.
    pose proof w_rng as W. split; [eapply Rle_trans; [apply W|]; apply sinh_ge; destruct second; lra|].
    pose proof (y_rng second db Hd) as Y. pose proof (arc_rng second db Hd) as AR.
    apply Rle_trans with (if second then sqrt (Rpower 10 (B2R db / 10) - 1) else 1 / sqrt (Rpower 10 (B2R db / 10) - 1)); [|destruct second; lra].
    rewrite <- (sinh_arcsinh (if second then _ else _)). apply sinh_mono. unfold ch_width. cbn zeta. set (q := arcsinh _) in *.
    assert (N1 : 1 <= INR n) by (apply (le_INR 1); lia). assert (0 <= q) by (destruct second; lra). assert (IN : / INR n <= / 1) by (apply Rinv_le; lra). rewrite Rinv_1 in IN. unfold Rdiv. rewrite <- (Rmult_1_r q) at 2. apply Rmult_le_compat_l; assumption.
  Qed.
  (** from order 2 on *)
  Lemma S_two : (2 <= n)%nat -> S ^ 2 <= 5000.
  Proof.
    intros H2. pose proof S_rng as SR. pose proof w_rng as W. pose proof (y_rng second db Hd) as Y. pose proof (arc_rng second db Hd) as AR.
    set (y := if second then sqrt (Rpower 10 (B2R db / 10) - 1) else 1 / sqrt (Rpower 10 (B2R db / 10) - 1)) in *.
    assert (Y4 : 0 < y <= 10 ^ 4) by (destruct second; lra).
    assert (WL : 2 * w <= arcsinh y).
    { unfold ch_width. cbn zeta. fold y. apply le_INR in H2. change (INR 2) with 2 in H2. assert (A0 : 0 <= arcsinh y) by (destruct second; lra). assert (/ INR n <= / 2) by (apply Rinv_le; lra). unfold Rdiv. nra. }
    pose proof (cosh_mono (2 * w) (arcsinh y) ltac:(destruct second; lra)) as CM. pose proof (ch_sq (arcsinh y)) as CS. rewrite sinh_arcsinh in CS.
    assert (CY : cosh (arcsinh y) <= 10 ^ 4 + 1) by (pose proof (cosh_1 (arcsinh y)); nra).
    assert (E2 : cosh (2 * w) = 2 * S ^ 2 + 1).
    { pose proof (ch_sq w) as Q. unfold cosh, sinh in *. replace (2 * w) with (w + w) by ring. replace (- (w + w)) with (- w + - w) by ring. rewrite !exp_plus.
      assert (exp w * exp (- w) = 1) by (rewrite <- exp_plus, Rplus_opp_r; apply exp_0). nra. }
    lra.
  Qed.

  Section Index.
  Variable i : nat.
  Hypothesis Hi : (i < n / 2)%nat.
  Notation a := (ch_angle n i).
  Notation k := (2 * Z.of_nat i + 1 - Z.of_nat n)%Z.
  Lemma i2 : (2 * i + 2 <= n)%nat.
  Proof. pose proof (Nat.div_mod n 2 ltac:(lia)). lia. Qed.
  Lemma th_a : IZR k * PI / (2 * IZR (Z.of_nat n)) = a - PI / 2.
  Proof. unfold ch_angle. rewrite minus_IZR, plus_IZR, mult_IZR, <- !INR_IZR_INZ. pose proof i2 as Q. assert (0 < INR n) by (apply lt_0_INR; lia). field. lra. Qed.
  Lemma th_b : IZR (2 * Z.of_nat i + 1) * PI / (2 * IZR (Z.of_nat n)) = a.
  Proof. unfold ch_angle. rewrite plus_IZR, mult_IZR, <- !INR_IZR_INZ. reflexivity. Qed.
  Lemma tr1 : cos (a - PI / 2) = sin a /\ sin (a - PI / 2) = - cos a.
  Proof. split; [replace (a - PI / 2) with (- (PI / 2 - a)) by ring; rewrite cos_neg; apply cos_shift|replace (a - PI / 2) with (- (PI / 2 - a)) by ring; rewrite sin_neg, sin_shift; reflexivity]. Qed.
  Lemma tr_low : 3 / 128 <= sin a <= 1 /\ 3 / 128 <= cos a <= 1 /\ sin a ^ 2 + cos a ^ 2 = 1.
  Proof.
    pose proof i2 as Q. assert (NR : 1 <= INR n <= 32) by (split; [apply (le_INR 1); lia|replace 32 with (INR 32) by (simpl; lra); apply le_INR; lia]).
    assert (N3 : 3 / 128 <= 3 / 4 / INR n). { unfold Rdiv. assert (/ 32 <= / INR n) by (apply Rinv_le; lra). lra. }
    pose proof (trig_low n (2 * i + 1) ltac:(lia)) as S1. pose proof (trig_low n (n - 2 * i - 1) ltac:(lia)) as C1.
    replace (INR (2 * i + 1) * PI / (2 * INR n)) with a in S1 by (unfold ch_angle; rewrite plus_INR, mult_INR; simpl; field; lra).
    replace (INR (n - 2 * i - 1) * PI / (2 * INR n)) with (PI / 2 - a) in C1.
    2:{ unfold ch_angle. rewrite !minus_INR by lia. rewrite mult_INR. simpl. field. lra. }
    rewrite sin_shift in C1. pose proof (SIN_bound a). pose proof (COS_bound a). pose proof (sin2_cos2 a) as SC. unfold Rsqr in SC. repeat split; lra.
  Qed.
  Definition pole : C := (- (S * sin a), - (K * cos a)).
  Lemma pole_sq : Cmod pole ^ 2 = S ^ 2 + cos a ^ 2 /\ Cmod pole ^ 2 = (S * sin a) ^ 2 + (K * cos a) ^ 2.
  Proof.
    destruct tr_low as (_ & _ & T). pose proof (ch_sq w) as Q. rewrite Cmod_sq. unfold pole. cbn [fst snd]. split; [|ring].
    replace ((- (S * sin a)) ^ 2 + (- (K * cos a)) ^ 2) with (S ^ 2 * sin a ^ 2 + K ^ 2 * cos a ^ 2) by ring. rewrite Q. replace (sin a ^ 2) with (1 - cos a ^ 2) by lra. ring.
  Qed.
  Lemma pole_mod : S <= Cmod pole /\ 3 / 128 <= Cmod pole <= 10 ^ 5 /\ K <= 44 * Cmod pole.
  Proof.
    destruct pole_sq as [P _]. destruct tr_low as (_ & T & _). pose proof S_rng as SR. assert (S0 : 1 / 544 <= S <= 10 ^ 4) by (destruct second; lra).
    pose proof (Cmod_ge_0 pole) as C0. assert (A1 : S <= Cmod pole) by (apply sq_le; [lra|rewrite P; pose proof (pow2_ge_0 (cos a)); lra]).
    assert (A2 : cos a <= Cmod pole) by (apply sq_le; [lra|rewrite P; pose proof (pow2_ge_0 S); lra]).
    assert (A3 : K <= 1 + S) by (apply sq_le; [lra|]; rewrite ch_sq; lra).
    split; [exact A1|]. split; [|lra]. split; [lra|]. apply sq_le; [lra|]. rewrite P. assert (cos a ^ 2 <= 1) by nra. assert (S ^ 2 <= (10 ^ 4) ^ 2) by (apply pow_incr; lra). lra.
  Qed.
  Lemma raw_pole x : x = ang1 (Z.of_nat n) k \/ x = ang2 (Z.of_nat n) k ->
    cap (Cx (fmul (Bopp (lm_sinh m V)) (lm_cos m x)) (fmul (lm_cosh m V) (lm_sin m x))) pole ((rs second + 1165 * uu) * Cmod pole).
  Proof.
    intros HX. pose proof i2 as Q. destruct (trig_ap m HM (Z.of_nat n) zn k ltac:(lia) x HX) as [[C1 C2] [S1 S2]]. rewrite th_a in C2, S2. destruct tr1 as [T1 T2]. rewrite T1 in C2. rewrite T2 in S2.
    destruct hyp_ok as [HS HC]. destruct tr_low as (L1 & L2 & _). destruct pole_mod as (P1 & P2 & P3). pose proof S_rng as SR.
    assert (RS : rs second <= 1 / 10 ^ 6) by (unfold rs; destruct second; unfold uu; lra).
    destruct (prod_err _ _ (- S) (sin a) _ (rel_opp _ _ _ HS) RS C1 C2 ltac:(rewrite Rabs_pos_eq; lra)) as [F1 D1].
    destruct (prod_err _ _ K (- cos a) _ HC RS S1 S2 ltac:(rewrite Rabs_Ropp, Rabs_pos_eq; lra)) as [F2 D2].
    split; [split; assumption|]. unfold c2c. cbn [re im]. unfold pole at 1. unfold Cminus, Cplus, Copp. cbn [fst snd].
    assert (S0 : 0 <= S) by (destruct second; lra). pose proof (cosh_1 w) as K1. assert (SK : S <= K) by (pose proof (ch_sq w); apply sq_le; lra).
    rewrite Rabs_Ropp, (Rabs_pos_eq S) in D1 by lra. rewrite (Rabs_pos_eq K) in D2 by lra.
    assert (RP : 0 <= rs second) by (unfold rs; destruct second; unfold uu; lra). assert (UU : 0 < uu) by (unfold uu; lra).
    eapply Rle_trans; [apply (Cmod_dom _ _ pole (rs second + 11 / 10 * uu) (132 / 10 * uu * K))|].
    - lra.
    - apply Rmult_le_pos; lra.
    - unfold pole. cbn [fst]. replace (- S * sin a) with (- (S * sin a)) in D1 by ring. replace (B2R (fmul (Bopp (lm_sinh m V)) (lm_cos m x)) + - - (S * sin a)) with (B2R (fmul (Bopp (lm_sinh m V)) (lm_cos m x)) - - (S * sin a)) by ring. eapply Rle_trans; [exact D1|]. apply Rplus_le_compat_l. apply Rmult_le_compat_l; lra.
    - unfold pole. cbn [snd]. replace (K * - cos a) with (- (K * cos a)) in D2 by ring. replace (B2R (fmul (lm_cosh m V) (lm_sin m x)) + - - (K * cos a)) with (B2R (fmul (lm_cosh m V) (lm_sin m x)) - - (K * cos a)) by ring. exact D2.
    - assert (132 / 10 * uu * K <= 132 / 10 * uu * (44 * Cmod pole)) by (apply Rmult_le_compat_l; lra). assert (0 <= uu * Cmod pole) by (apply Rmult_le_pos; lra). lra.
  Qed.
  (** ChebyshevII.cpp: the zeros *)
  Lemma raw_zero : let z := fdiv (fofZ 1) (lm_cos m (ang2 (Z.of_nat n) (2 * Z.of_nat i + 1))) in
    cap (Cx (fofZ 0) z) (0, / cos a) (558 * uu * Cmod (0, / cos a)) /\ Cmod (0, / cos a) <= 43.
  Proof.
    pose proof i2 as Q. destruct (trig_ap m HM (Z.of_nat n) zn (2 * Z.of_nat i + 1) ltac:(lia) _ (or_intror eq_refl)) as [[C1 C2] _]. rewrite th_b in C2. destruct tr_low as (_ & L2 & _).
    set (cf := lm_cos m _) in *. intros z.
    assert (RC : rel cf (cos a) (555 * uu)). { split; [exact C1|]. split; [apply mid_of; lra|]. rewrite (Rabs_pos_eq (cos a)) by lra. unfold uu in *. lra. }
    assert (IR : 1 <= / cos a <= 128 / 3). { split; [rewrite <- Rinv_1 at 1; apply Rinv_le; lra|]. replace (128 / 3) with (/ (3 / 128)) by field. apply Rinv_le; lra. }
    assert (RZ : rel z (1 / cos a) (557 * uu)) by (eapply rel_div; [exact rel_one|exact RC|apply mid_of; lra|lra|unfold uu; lra|unfold uu; lra]).
    replace (1 / cos a) with (/ cos a) in RZ by (unfold Rdiv; ring). destruct RZ as (F & _ & D). rewrite (Rabs_pos_eq (/ cos a)) in D by lra.
    destruct (fofZ_val 0 ltac:(lia)) as [Z1 Z2].
    assert (CM : forall y, Cmod (0, y) = Rabs y). { intros y. unfold Cmod. cbn [fst snd]. replace (0 ^ 2 + y ^ 2) with (Rsqr y) by (unfold Rsqr; ring). apply sqrt_Rsqr_abs. }
    rewrite CM, (Rabs_pos_eq (/ cos a)) by lra. split; [|lra].
    split; [split; assumption|]. unfold c2c. cbn [re im]. rewrite Z1. unfold Cminus, Cplus, Copp. cbn [fst snd]. replace (0 + - 0) with 0 by ring. rewrite CM. replace (B2R z + - / cos a) with (B2R z - / cos a) by ring. unfold uu in *. lra.
  Qed.
  End Index.
End Poles.
