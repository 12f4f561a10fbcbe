(** Proofs: Chebyshev low and high pass designs in binary64, the stored sections and the setup. *)
From Coq Require Import ZArith List Bool Reals Lra Lia.
From Coquelicot Require Import Coquelicot.
From Flocq Require Import Core.Raux Core.Defs IEEE754.BinarySingleNaN.
From Verif Require Import Num Outcome Types Biquad Cascade Transforms Butterworth Chebyshev PoleFilter Float64 FloatSpec FloatProofs SampleLemmas SigSpec StabProofs
  RoundSpec RoundProofs DblPi DblSpec DblProofs DblLemmas RbjShProofs RelDbl LayoutProofs BuildProofs BuildAny
  BwDblSpec CplxDbl BwDbl BwDbl2 BwDbl3 BwDblLemmas BwDblFinal SimDbl SimSetup ChCoefSpec ChDblSpec ChDbl ChDbl2 ChDbl3 ChDbl4.
Import ListNotations.
Local Open Scope R_scope.

Lemma sin_xcos x : 0 <= x <= PI -> x * cos x <= sin x.
Proof.
  intros H. destruct (Req_dec x 0) as [->|N]; [rewrite sin_0; lra|].
  destruct (MVT_gen (fun z => sin z - z * cos z) 0 x (fun z => z * sin z)) as (c & Hc & E).
  - intros z _. auto_derive; [trivial|ring].
  - intros z _. apply continuity_pt_filterlim. apply (ex_derive_continuous (fun z => sin z - z * cos z)). auto_derive. trivial.
  - rewrite Rmin_left, Rmax_right in Hc by lra. rewrite sin_0 in E. pose proof (sin_ge_0 c ltac:(lra) ltac:(lra)) as SC.
    assert (0 <= c * sin c * (x - 0)) by (apply Rmult_le_pos; [apply Rmult_le_pos|]; lra). lra.
Qed.
Lemma tan_ge x : 0 <= x < PI / 2 -> x <= tan x.
Proof.
  intros H. pose proof (sin_xcos x ltac:(lra)) as Q. pose proof (cos_gt_0 x ltac:(lra) ltac:(lra)) as C0. unfold tan, Rdiv.
  apply Rmult_le_reg_r with (cos x); [exact C0|]. rewrite Rmult_assoc, Rinv_l by lra. lra.
Qed.
Lemma tan_co x : 0 < x < PI / 2 -> tan (PI / 2 - x) = / tan x.
Proof.
  intros H. pose proof (sin_gt_0 x ltac:(lra) ltac:(lra)). pose proof (cos_gt_0 x ltac:(lra) ltac:(lra)). unfold tan. rewrite sin_shift, cos_shift. field. lra.
Qed.
Lemma cut_T f : ch_cut_ok f -> cut_ok f /\ (let T := if Rle_dec f (1 / 4) then 652 else 82 in / T <= tan (PI * f) <= T).
Proof.
  intros H. unfold ch_cut_ok, cut_ok in *. split; [lra|]. pose proof pi_bounds as PB. cbn zeta.
  assert (E4 : PI * (1 / 4) = PI / 4) by field. destruct (Rle_dec f (1 / 4)) as [L|L].
  - split.
    + eapply Rle_trans; [|apply tan_ge; nra]. assert (31415 / 10000 * / 2048 <= PI * f) by (apply Rmult_le_compat; lra). lra.
    + assert (tan (PI * f) <= 1); [|lra]. destruct (Rle_lt_or_eq_dec _ _ L) as [L1| ->]; [|rewrite E4, tan_PI4; lra].
      rewrite <- tan_PI4. left. apply tan_increasing; nra.
  - split.
    + assert (1 <= tan (PI * f)); [|lra]. rewrite <- tan_PI4. left. apply tan_increasing; nra.
    + set (x := PI * (1 / 2 - f)). assert (X : 31415 / 10000 * / 256 <= x < PI / 2) by (unfold x; split; [apply Rmult_le_compat; lra|nra]).
      replace (PI * f) with (PI / 2 - x) by (unfold x; field). rewrite tan_co by lra. pose proof (tan_ge x ltac:(lra)).
      replace 82 with (/ / 82) by (rewrite Rinv_inv; reflexivity). apply Rinv_le; lra.
Qed.
Lemma ch_margin u g mm T kp M z : 1 <= T -> / T <= u <= T -> 0 <= g -> g ^ 2 <= mm -> 0 <= kp -> kp * (1 + mm) <= g -> 1 <= M -> / M <= mm <= M -> (z = 1 \/ z = -1) ->
  let d := 1 - 2 * u * - g + u ^ 2 * mm in let a1 := 2 * z * (u ^ 2 * mm - 1) / d in let a2 := (1 + 2 * u * - g + u ^ 2 * mm) / d in
  0 <= a2 <= 1 - 2 * kp / T /\ Rabs a1 <= 1 + a2 - / (M * T ^ 2).
Proof.
  intros HT Hu Hg Hgm Hk Hkg HM Hm Hz d a1 a2.
  assert (U0 : 0 < u) by (assert (0 < / T) by (apply Rinv_0_lt_compat; lra); lra).
  assert (TU : 1 <= T * u). { apply Rmult_le_reg_l with (/ T); [apply Rinv_0_lt_compat; lra|]. rewrite <- Rmult_assoc, Rinv_l by lra. lra. }
  assert (M0 : 0 < / M) by (apply Rinv_0_lt_compat; lra).
  set (x := u ^ 2 * mm) in *. assert (UG : (u * g) ^ 2 <= x). { unfold x. replace ((u * g) ^ 2) with (u ^ 2 * g ^ 2) by ring. apply Rmult_le_compat_l; [apply pow2_ge_0|exact Hgm]. }
  assert (X0 : 0 < x) by (unfold x; apply Rmult_lt_0_compat; [apply pow_lt; lra|lra]).
  assert (GU : 0 <= u * g) by (apply Rmult_le_pos; lra). set (y := u * g) in *.
  assert (DY : d = 1 + 2 * y + x) by (unfold d, y; ring). assert (D0 : 1 <= d) by lra. assert (D2 : d <= 2 * (1 + x)) by (pose proof (pow2_ge_0 (1 - y)) as P1; simpl in UG, P1; lra).
  assert (DE : 1 + 2 * u * - g + x = d - 4 * y) by (unfold d, y; ring).
  assert (A2 : 0 <= a2). { unfold a2, Rdiv. apply Rmult_le_pos; [rewrite DE; nra|left; apply Rinv_0_lt_compat; lra]. }
  split; [split; [exact A2|]|].
  - assert (E2 : 1 - a2 = 4 * y / d) by (unfold a2; rewrite DE; field; lra).
    assert (2 * kp / T <= 4 * y / d); [|lra].
    apply Rmult_le_reg_r with d; [lra|]. unfold Rdiv at 2. rewrite Rmult_assoc, Rinv_l, Rmult_1_r by lra.
    apply Rle_trans with (2 * kp / T * (2 * (T * u * (1 + mm)))).
    + apply Rmult_le_compat_l; [unfold Rdiv; apply Rmult_le_pos; [lra|left; apply Rinv_0_lt_compat; lra]|].
      eapply Rle_trans; [exact D2|]. apply Rmult_le_compat_l; [lra|]. unfold x. assert (u ^ 2 * mm <= T * u * mm) by (apply Rmult_le_compat_r; [lra|]; nra). lra.
    + replace (2 * kp / T * (2 * (T * u * (1 + mm)))) with (4 * u * (kp * (1 + mm))) by (field; lra). replace (4 * y) with (4 * u * g) by (unfold y; ring). apply Rmult_le_compat_l; lra.
  - assert (T2 : 1 <= T ^ 2) by (simpl; nra). assert (MT : 1 <= M * T ^ 2) by nra. set (nu := / (M * T ^ 2)). assert (NU : 0 < nu <= 1) by (unfold nu; split; [apply Rinv_0_lt_compat; lra|rewrite <- Rinv_1; apply Rinv_le; lra]).
    assert (XN : nu <= x).
    { unfold nu, x. rewrite Rinv_mult. assert (/ T ^ 2 <= u ^ 2). { rewrite <- pow_inv. apply pow_incr. split; [left; apply Rinv_0_lt_compat; lra|lra]. }
      rewrite Rmult_comm. apply Rmult_le_compat; [left; apply Rinv_0_lt_compat; lra|lra|assumption|lra]. }
    assert (NX : nu * x <= 1).
    { unfold nu. apply Rmult_le_reg_l with (M * T ^ 2); [lra|]. rewrite <- Rmult_assoc, Rinv_r by lra. rewrite Rmult_1_l, Rmult_1_r. unfold x. rewrite Rmult_comm. apply Rmult_le_compat; [lra|apply pow2_ge_0|lra|apply pow_incr; lra]. }
    assert (G : nu * d <= 4 /\ nu * d <= 4 * x).
    { assert (nu * d <= nu * (2 * (1 + x))) by (apply Rmult_le_compat_l; lra). split; [lra|]. destruct (Rle_lt_dec x 1); nra. }
    assert (EQ : 1 + a2 - nu = (2 * (1 + x) - nu * d) / d). { unfold a2. replace (1 + 2 * u * - g + x) with (2 * (1 + x) - d) by (unfold d; ring). field. lra. }
    rewrite EQ. unfold a1, Rdiv. rewrite Rabs_mult, (Rabs_pos_eq (/ d)) by (left; apply Rinv_0_lt_compat; lra).
    apply Rmult_le_compat_r; [left; apply Rinv_0_lt_compat; lra|]. apply Rabs_le. destruct Hz as [-> | ->]; lra.
Qed.
Lemma one_margin x B z : 1 <= B -> / B <= x <= B -> (z = 1 \/ z = -1) -> Rabs (z * (- 1 - - x) / (1 - - x)) <= 1 - / B.
Proof.
  intros HB Hx Hz. assert (B0 : 0 < / B) by (apply Rinv_0_lt_compat; lra). assert (BI : / B * B = 1) by (apply Rinv_l; lra). assert (B1 : / B <= 1) by (rewrite <- Rinv_1; apply Rinv_le; lra).
  assert (H1 : / B * x <= 1) by (rewrite <- BI; apply Rmult_le_compat_l; lra). set (i := / B) in *.
  unfold Rdiv. rewrite Rabs_mult, (Rabs_pos_eq (/ _)) by (left; apply Rinv_0_lt_compat; lra).
  apply Rmult_le_reg_r with (1 - - x); [lra|]. rewrite Rmult_assoc, Rinv_l, Rmult_1_r by lra. apply Rabs_le. destruct Hz as [-> | ->]; nra.
Qed.

Section Par.
  Variable m : libm.
  Notation FN := (F64 m).
  Hypothesis HM : libm_design m.
  Hypothesis HC : libm_cheb m.
  Variable second : bool.
  Variable q : params FN.
  Notation fc := (q_fc q : f64).
  Notation db := (q_db q : f64).
  Hypothesis Ff : is_finite fc = true.
  Hypothesis Fd : is_finite db = true.
  Hypothesis Hc : ch_cut_ok (B2R fc).
  Hypothesis Hd : ch_db_ok second (B2R db).
  Variable n : nat.
  Hypothesis Hn : (1 <= n <= 32)%nat.
  Variable FO : Z.
  Hypothesis HFO : (Z.of_nat n <= FO)%Z.
  Variable hp : bool.
  Notation k := (if second then Ch2 else Ch1, if hp then HP else LP).
  Notation sec := (ch_ideal second hp (B2R fc) (B2R db) n).
  Notation err := (ch_error (B2R fc)).
  Notation v := (uu / (1 - 2 * B2R fc)).
  Lemma Hf : cut_ok (B2R fc).
  Proof. exact (proj1 (cut_T _ Hc)). Qed.

  Definition csec_ok (i : nat) (b : biquad FN) : Prop :=
    fin_coeffs b /\ m_a0 b = fofZ 1 /\ Rabs (B2R (m_a1 b : f64) - i_a1 (sec i)) <= err /\ Rabs (B2R (m_a2 b : f64) - i_a2 (sec i)) <= err /\
    stable_poly (B2R (m_a1 b : f64)) (B2R (m_a2 b : f64)) /\
    B2R (m_b0 b : f64) = 1 /\ Rabs (B2R (m_b1 b : f64) - i_b1 (sec i)) <= (if second then err / 64 else 0) /\ Rabs (B2R (m_b2 b : f64) - i_b2 (sec i)) <= (if second then err / 64 else 0).

  Lemma cerr_v : err = 262144 * v.
  Proof. unfold ch_error, uu. unfold ch_cut_ok in Hc. replace (/ 2 ^ 35) with (262144 * / 9007199254740992) by lra. field. lra. Qed.
  Definition TT : R := if Rle_dec (B2R fc) (1 / 4) then 652 else 82.
  Lemma cerr_T : 0 < err /\ err < 1 / 25000 / TT /\ 2 * err < / (5001 * TT ^ 2) /\ 1 <= TT <= 652.
  Proof.
    unfold TT. change (ch_error (B2R fc)) with (/ 2 ^ 35 * / (1 - 2 * B2R fc)). unfold ch_cut_ok in Hc. destruct (Rle_dec (B2R fc) (1 / 4)) as [L|L].
    - assert (I : / (1 - 2 * B2R fc) <= / (1 / 2)) by (apply Rinv_le; lra). assert (I0 : 0 < / (1 - 2 * B2R fc)) by (apply Rinv_0_lt_compat; lra). set (x := / (1 - 2 * B2R fc)) in *. repeat split; lra.
    - assert (I : / (1 - 2 * B2R fc) <= / (/ 128)) by (apply Rinv_le; lra). assert (I0 : 0 < / (1 - 2 * B2R fc)) by (apply Rinv_0_lt_compat; lra). set (x := / (1 - 2 * B2R fc)) in *. repeat split; lra.
  Qed.
  Notation u := (tau fc hp).
  Notation t := (tan (PI * B2R fc)).
  Lemma u_T : / TT <= u <= TT.
  Proof.
    pose proof (proj2 (cut_T _ Hc)) as Q. cbn zeta in Q. fold TT in Q. assert (T1 : 1 <= TT) by apply cerr_T. unfold tau. destruct hp; [|exact Q].
    assert (0 < / TT) by (apply Rinv_0_lt_compat; lra). split; [apply Rinv_le; lra|]. rewrite <- (Rinv_inv TT). apply Rinv_le; lra.
  Qed.
  Lemma zs_pm : zs hp = 1 \/ zs hp = -1.
  Proof. unfold zs. destruct hp; lra. Qed.

  Notation w := (ch_width second n (B2R db)).
  Notation S := (sinh w).
  (** a pair of poles -g +- ..., and zeros at infinity or on the imaginary axis *)
  Lemma pair_sec c (s : C) rho g : cap c s (rho * Cmod s) -> fst s = - g -> 0 <= g -> g ^ 2 <= Cmod s ^ 2 -> 2 / 10 ^ 5 * (1 + Cmod s ^ 2) <= g -> / 5001 <= Cmod s ^ 2 <= 5001 ->
    0 <= rho <= 32020 * uu ->
    let e := an_pair hp t (- g) (Cmod s ^ 2) None in
    exists b, pair_bq (apr (N := FN) (tr m hp fc c, zc hp)) = Val b /\ fin_coeffs b /\ m_a0 b = fofZ 1 /\ Rabs (B2R (m_a1 b : f64) - i_a1 e) <= err /\ Rabs (B2R (m_a2 b : f64) - i_a2 e) <= err /\
      stable_poly (B2R (m_a1 b : f64)) (B2R (m_a2 b : f64)) /\ B2R (m_b0 b : f64) = 1 /\ B2R (m_b1 b : f64) = i_b1 e /\ B2R (m_b2 b : f64) = i_b2 e.
  Proof.
    intros A Fs G0 G1 G2 MR Hr e. pose proof (v_low fc Hf) as VL. pose proof cerr_v as EV. destruct cerr_T as (E0 & E1 & E2 & T1). pose proof u_T as UT.
    assert (SB : Cmod s <= 2 ^ 40). { apply Rle_trans with 71; [apply sq_le; [lra|]; lra|lra]. }
    pose proof (image_ap m HM fc Ff Hf hp c s rho A ltac:(lra) ltac:(unfold uu in *; lra) SB) as IA.
    destruct (image_val fc Hf hp s ltac:(lra)) as (I0 & I1 & I2 & I3 & _). rewrite Fs in *.
    destruct (pair_ok m hp _ _ _ IA I3 ltac:(unfold uu in *; lra)) as (b & B1 & B2 & B3 & B4 & B5 & B6 & B7 & B8).
    exists b. split; [exact B1|]. split; [exact B2|]. split; [exact B3|].
    unfold e, an_pair. cbn [i_a1 i_a2 i_b1 i_b2]. rewrite I1 in B4. rewrite I2 in B5.
    change (if hp then / t else t) with u. change (if hp then -1 else 1) with (zs hp).
    assert (D1 : Rabs (B2R (m_a1 b : f64) - 2 * zs hp * (u ^ 2 * Cmod s ^ 2 - 1) / (1 - 2 * u * - g + u ^ 2 * Cmod s ^ 2)) <= err) by (rewrite EV; unfold uu in *; lra).
    assert (D2 : Rabs (B2R (m_a2 b : f64) - (1 + 2 * u * - g + u ^ 2 * Cmod s ^ 2) / (1 - 2 * u * - g + u ^ 2 * Cmod s ^ 2)) <= err) by (rewrite EV; unfold uu in *; lra).
    split; [exact D1|]. split; [exact D2|].
    destruct (ch_margin u g (Cmod s ^ 2) TT (2 / 10 ^ 5) 5001 (zs hp)) as [[M1 M2] M3]; try lra; try exact zs_pm.
    split; [|split; [exact B6|split; [rewrite B7; unfold zs; destruct hp; lra|exact B8]]].
    apply (stable_near _ _ _ _ _ _ _ M2 M1 M3 D1 D2); try lra.
  Qed.
  Lemma pair_sec2 c (s : C) rho g zf y : cap c s (rho * Cmod s) -> fst s = - g -> 0 <= g -> g ^ 2 <= Cmod s ^ 2 -> 2 / 10 ^ 5 * (1 + Cmod s ^ 2) <= g -> / 5001 <= Cmod s ^ 2 <= 5001 ->
    0 <= rho <= 32020 * uu -> cap zf (0, y) (558 * uu * Cmod (0, y)) -> Cmod (0, y) <= 43 ->
    let e := an_pair hp t (- g) (Cmod s ^ 2) (Some y) in
    cfin (tr m hp fc zf) /\ exists b, pair_bq (apr (N := FN) (tr m hp fc c, tr m hp fc zf)) = Val b /\ fin_coeffs b /\ m_a0 b = fofZ 1 /\ Rabs (B2R (m_a1 b : f64) - i_a1 e) <= err /\ Rabs (B2R (m_a2 b : f64) - i_a2 e) <= err /\
      stable_poly (B2R (m_a1 b : f64)) (B2R (m_a2 b : f64)) /\ B2R (m_b0 b : f64) = 1 /\ Rabs (B2R (m_b1 b : f64) - i_b1 e) <= err / 64 /\ Rabs (B2R (m_b2 b : f64) - i_b2 e) <= err / 64.
  Proof.
    intros A Fs G0 G1 G2 MR Hr Z ZB e. pose proof (v_low fc Hf) as VL. pose proof cerr_v as EV. destruct cerr_T as (E0 & E1 & E2 & T1). pose proof u_T as UT.
    assert (SB : Cmod s <= 2 ^ 40). { apply Rle_trans with 71; [apply sq_le; [lra|]; lra|lra]. }
    pose proof (image_ap m HM fc Ff Hf hp c s rho A ltac:(lra) ltac:(unfold uu in *; lra) SB) as IA.
    destruct (image_val fc Hf hp s ltac:(lra)) as (I0 & I1 & I2 & I3 & _). rewrite Fs in *.
    pose proof (image_ap m HM fc Ff Hf hp zf (0, y) (558 * uu) Z ltac:(cbn [fst]; lra) ltac:(unfold uu in *; lra) ltac:(lra)) as IZ.
    destruct (image_val fc Hf hp (0, y) ltac:(cbn [fst]; lra)) as (J0 & J1 & J2 & J3 & J4). specialize (J4 eq_refl).
    destruct (pair_gen m _ _ _ _ _ _ IA I3 ltac:(unfold uu in *; lra) IZ J4 ltac:(unfold uu in *; lra)) as (b & B1 & B2 & B3 & B4 & B5 & B6 & B7 & B8).
    split; [exact (proj1 IZ)|].
    exists b. split; [exact B1|]. split; [exact B2|]. split; [exact B3|].
    unfold e, an_pair. cbn [i_a1 i_a2 i_b1 i_b2]. rewrite I1 in B4. rewrite I2 in B5. rewrite J1 in B7.
    change (if hp then / t else t) with u. change (if hp then -1 else 1) with (zs hp).
    assert (D1 : Rabs (B2R (m_a1 b : f64) - 2 * zs hp * (u ^ 2 * Cmod s ^ 2 - 1) / (1 - 2 * u * - g + u ^ 2 * Cmod s ^ 2)) <= err) by (rewrite EV; unfold uu in *; lra).
    assert (D2 : Rabs (B2R (m_a2 b : f64) - (1 + 2 * u * - g + u ^ 2 * Cmod s ^ 2) / (1 - 2 * u * - g + u ^ 2 * Cmod s ^ 2)) <= err) by (rewrite EV; unfold uu in *; lra).
    split; [exact D1|]. split; [exact D2|].
    destruct (ch_margin u g (Cmod s ^ 2) TT (2 / 10 ^ 5) 5001 (zs hp)) as [[M1 M2] M3]; try lra; try exact zs_pm.
    split; [apply (stable_near _ _ _ _ _ _ _ M2 M1 M3 D1 D2); lra|]. split; [exact B6|].
    split; [|eapply Rle_trans; [exact B8|]; rewrite EV; unfold uu in *; lra].
    cbn [fst] in B7. replace (Cmod (0, y) ^ 2) with (y ^ 2) in B7 by (rewrite Cmod_sq; cbn [fst snd]; ring).
    replace (-2 * zs hp * ((1 - u ^ 2 * y ^ 2) / (1 + u ^ 2 * y ^ 2))) with (2 * zs hp * (u ^ 2 * y ^ 2 - 1) / (1 - 2 * u * 0 + u ^ 2 * y ^ 2)).
    - eapply Rle_trans; [exact B7|]. rewrite EV. unfold uu in *; lra.
    - pose proof (pow2_ge_0 (u * y)) as UY. rewrite Rpow_mult_distr in UY. field. lra.
  Qed.
  Lemma single_sec (c : cpx f64) x rho : cap c (RtoC (- x)) (rho * Cmod (RtoC (- x))) -> B2R (im c) = 0 -> 1 / 10 ^ 4 <= x <= 10 ^ 4 -> 0 <= rho <= 32020 * uu ->
    let e := an_single hp t (- x) in
    cfin (tr m hp fc c) /\ B2R (im (tr m hp fc c)) = 0 /\ exists b, pair_bq (asg (N := FN) (tr m hp fc c, zc hp)) = Val b /\ fin_coeffs b /\ m_a0 b = fofZ 1 /\ Rabs (B2R (m_a1 b : f64) - i_a1 e) <= err /\ B2R (m_a2 b : f64) = 0 /\
      stable_poly (B2R (m_a1 b : f64)) (B2R (m_a2 b : f64)) /\ B2R (m_b0 b : f64) = 1 /\ B2R (m_b1 b : f64) = i_b1 e /\ B2R (m_b2 b : f64) = 0.
  Proof.
    intros A IM Hx Hr e. pose proof (v_low fc Hf) as VL. pose proof cerr_v as EV. destruct cerr_T as (E0 & E1 & E2 & T1). pose proof u_T as UT.
    assert (CX : Cmod (RtoC (- x)) = x) by (rewrite Cmod_R, Rabs_Ropp, Rabs_pos_eq; lra).
    pose proof (image_ap m HM fc Ff Hf hp c (RtoC (- x)) rho A ltac:(unfold RtoC; cbn [fst]; lra) ltac:(unfold uu in *; lra) ltac:(rewrite CX; lra)) as IA.
    destruct (image_val fc Hf hp (RtoC (- x)) ltac:(unfold RtoC; cbn [fst]; lra)) as (I0 & I1 & I2 & I3 & _). rewrite CX in *. change (fst (RtoC (- x))) with (- x) in *.
    pose proof (cap_re _ _ _ A) as (_ & CR & _). change (fst (RtoC (- x))) with (- x) in CR.
    assert (RX : 0 <= rho * x <= 1) by (split; [apply Rmult_le_pos; lra|apply Rle_trans with (/ 10 ^ 5 * 10 ^ 4); [apply Rmult_le_compat; unfold uu in *; lra|lra]]).
    assert (RH : rho * x <= / 2 * x) by (apply Rmult_le_compat_r; unfold uu in *; lra).
    assert (IR : B2R (im (tr m hp fc c)) = 0) by (apply (image_real m HM fc Ff Hf); [exact (proj1 A)|exact IM|revert CR; unfold Rabs; destruct (Rcase_abs _); lra]).
    destruct (single_ok2 m hp _ _ _ IA IR) as (b & B1 & B2 & B3 & B4 & B5 & B6 & B7 & B8).
    split; [exact (proj1 IA)|]. split; [exact IR|]. exists b. split; [exact B1|]. split; [exact B2|]. split; [exact B3|].
    unfold e, an_single. cbn [i_a1 i_b1]. change (if hp then / t else t) with u. change (if hp then -1 else 1) with (zs hp) in *.
    assert (UX : 0 < u * x) by (apply Rmult_lt_0_compat; [assert (0 < / TT) by (apply Rinv_0_lt_compat; lra)|]; lra).
    assert (EQ : - fst (image fc hp (RtoC (- x))) = zs hp * (- 1 - - (u * x)) / (1 - - (u * x))).
    { apply Rmult_eq_reg_l with 2; [|lra]. replace (2 * - fst (image fc hp (RtoC (- x)))) with (- 2 * fst (image fc hp (RtoC (- x)))) by ring. rewrite I1. field. split; [lra|]. nra. }
    rewrite EQ in B4. replace (u * - x) with (- (u * x)) by ring.
    assert (D1 : Rabs (B2R (m_a1 b : f64) - zs hp * (- 1 - - (u * x)) / (1 - - (u * x))) <= err) by (eapply Rle_trans; [exact B4|]; rewrite EV; unfold uu in *; lra).
    split; [exact D1|]. split; [exact B5|]. split; [|split; [exact B6|split; [exact B7|exact B8]]].
    assert (TP : 0 < / TT) by (apply Rinv_0_lt_compat; lra).
    pose proof (one_margin (u * x) (TT * 10 ^ 4) (zs hp) ltac:(lra)) as OM.
    assert (BR : / (TT * 10 ^ 4) <= u * x <= TT * 10 ^ 4).
    { split; [rewrite Rinv_mult|]; apply Rmult_le_compat; lra. }
    specialize (OM BR zs_pm).
    assert (ME : err < / (TT * 10 ^ 4)). { rewrite Rinv_mult. eapply Rlt_trans; [exact E1|]. unfold Rdiv. lra. }
    rewrite B5. apply jury; [rewrite Rabs_R0; lra|]. revert D1 OM. unfold Rabs. repeat destruct (Rcase_abs _); lra.
  Qed.
  Notation V := (vf m second db (Z.of_nat n)).
  Definition ch_pt (i : nat) : cpx (T FN) * cpx (T FN) := if second then c2_pt (N := FN) n db i else c1_pt (N := FN) n db i.
  Definition ch_sg : option (cpx (T FN) * cpx (T FN)) := if second then c2_sg (N := FN) n db else c1_sg (N := FN) n db.
  Definition ch_gain : f64 := if second then fofZ 1 else c1_gain (N := FN) n db.
  Definition ki (i : nat) : Z := (2 * Z.of_nat i + 1 - Z.of_nat n)%Z.
  Definition raw (x : f64) : cpx f64 := Cx (fmul (Bopp (lm_sinh m V)) (lm_cos m x)) (fmul (lm_cosh m V) (lm_sin m x)).
  Lemma pt1 i : second = false -> ch_pt i = (raw (ang1 (Z.of_nat n) (ki i)), c_inf (N := FN)).
  Proof. intros E. unfold ch_pt. rewrite E. unfold raw. rewrite E. reflexivity. Qed.
  Lemma pt2 i : second = true -> ch_pt i =
    (let c := raw (ang2 (Z.of_nat n) (ki i)) in let a := re c in let b := im c in let d := fadd (fmul a a) (fmul b b) in Cx (fdiv a d) (fdiv b d),
     Cx (fofZ 0) (fdiv (fofZ 1) (lm_cos m (ang2 (Z.of_nat n) (2 * Z.of_nat i + 1))))).
  Proof. intros E. unfold ch_pt. rewrite E. unfold raw. rewrite E. reflexivity. Qed.
  Definition spole i : C := if second then (/ Cconj (pole second db n i))%C else pole second db n i.
  Definition rho : R := if second then 101 / 100 * (rs second + 1165 * uu) + 4 * uu else rs second + 1165 * uu.
  Lemma rho_rng : 0 <= rho <= 32020 * uu.
  Proof. unfold rho, rs. destruct second; unfold uu; lra. Qed.
  Lemma pt_pole i : (i < n / 2)%nat -> cap (fst (ch_pt i)) (spole i) (rho * Cmod (spole i)).
  Proof.
    intros Hi. destruct (pole_mod second db Hd n Hn i Hi) as (P1 & P2 & P3). destruct (Bool.bool_dec second true) as [E|E].
    - pose proof (raw_pole m HC second db Fd Hd n Hn i Hi _ (or_intror eq_refl)) as R. rewrite (pt2 i E). unfold spole, rho, raw. rewrite E in *. cbn [fst re im].
      apply (inv_pole _ _ _ _ R); [unfold rs, uu; lra|lra].
    - apply not_true_is_false in E. pose proof (raw_pole m HC second db Fd Hd n Hn i Hi _ (or_introl eq_refl)) as R. rewrite (pt1 i E). unfold spole, rho. unfold raw. rewrite E in *. exact R.
  Qed.
  Lemma spole_facts i : (i < n / 2)%nat -> let mm := (sinh w * sin (ch_angle n i)) ^ 2 + (cosh w * cos (ch_angle n i)) ^ 2 in
    let g := sinh w * sin (ch_angle n i) / (if second then mm else 1) in
    fst (spole i) = - g /\ 0 <= g /\ g ^ 2 <= Cmod (spole i) ^ 2 /\ 2 / 10 ^ 5 * (1 + Cmod (spole i) ^ 2) <= g /\ / 5001 <= Cmod (spole i) ^ 2 <= 5001 /\ Cmod (spole i) ^ 2 = (if second then / mm else mm).
  Proof.
    intros Hi mm g. destruct (pole_sq second db n Hn i Hi) as [Q1 Q2]. destruct (tr_low n Hn i Hi) as (L1 & L2 & _). pose proof (S_rng second db Hd n Hn) as SR.
    destruct (pole_mod second db Hd n Hn i Hi) as (P1 & P2 & P3).
    pose proof (S_two second db Hd n Hn ltac:(pose proof (i2 n Hn i Hi); lia)) as S2.
    fold mm in Q2. set (a := ch_angle n i) in *. set (sh := sinh w) in *. set (x := sh * sin a) in *.
    assert (SH : 1 / 544 <= sh <= 71) by (split; [destruct second; lra|]; apply sq_le; lra).
    assert (MM : mm = sh ^ 2 + cos a ^ 2) by congruence. assert (C2 : (3 / 128) ^ 2 <= cos a ^ 2 <= 1) by (split; [apply pow_incr; lra|rewrite <- (pow1 2); apply pow_incr; lra]).
    assert (MR : / 5001 <= mm <= 5001) by (rewrite MM; pose proof (pow2_ge_0 sh); lra).
    assert (X0 : sh * (3 / 128) <= x) by (unfold x; apply Rmult_le_compat_l; lra).
    assert (KX : 2 / 10 ^ 5 * (1 + mm) <= x) by (rewrite MM; nra).
    assert (XM : x ^ 2 <= mm) by (unfold mm; fold x; pose proof (pow2_ge_0 (cosh w * cos a)); lra).
    unfold spole, g. clear g. destruct second.
    - assert (MN : mm <> 0) by lra. assert (MI : / 5001 <= / mm <= 5001) by (split; [apply Rinv_le; lra|]; rewrite <- (Rinv_inv 5001); apply Rinv_le; lra).
      assert (ES : Cmod (/ Cconj (pole true db n i))%C ^ 2 = / mm).
      { rewrite Cmod_inv by (apply conj_n0; lra). rewrite conj_mod, pow_inv, Q2. reflexivity. }
      rewrite ES. split; [|split; [|split; [|split; [|split; [exact MI|reflexivity]]]]].
      + unfold pole. rewrite <- inv_val; cbn [fst]; fold sh a x; replace ((- x) ^ 2 + (- (cosh (ch_width true n (B2R db)) * cos a)) ^ 2) with mm by (unfold mm; fold x; ring); [field; exact MN|exact MN].
      + unfold Rdiv. apply Rmult_le_pos; lra.
      + unfold Rdiv. rewrite Rpow_mult_distr. replace (/ mm) with (mm * (/ mm) ^ 2) at 2 by (field; exact MN). apply Rmult_le_compat_r; [apply pow2_ge_0|exact XM].
      + unfold Rdiv at 2. replace (2 / 10 ^ 5 * (1 + / mm)) with (2 / 10 ^ 5 * (1 + mm) * / mm) by (field; exact MN). apply Rmult_le_compat_r; lra.
    - rewrite Q2. replace (x / 1) with x by field. unfold pole. cbn [fst]. fold sh a x. repeat split; try lra.
  Qed.
  Lemma pt_fin i : (i < n / 2)%nat -> nn (N := FN) (ch_pt i).
  Proof.
    intros Hi. split; [apply fin_nn; exact (proj1 (pt_pole i Hi))|]. destruct (Bool.bool_dec second true) as [E|E].
    - rewrite (pt2 i E). apply fin_nn. exact (proj1 (proj1 (raw_zero m HC n Hn i Hi))).
    - apply not_true_is_false in E. rewrite (pt1 i E). vm_compute. reflexivity.
  Qed.
  Lemma pt_ok i : (i < n / 2)%nat -> nn (N := FN) (trq (N := FN) (tr m hp fc) (ch_pt i)) /\ exists b, pair_bq (apr (N := FN) (trq (N := FN) (tr m hp fc) (ch_pt i))) = Val b /\ csec_ok i b.
  Proof.
    intros Hi. pose proof (pt_pole i Hi) as A. destruct (spole_facts i Hi) as (F1 & F2 & F3 & F4 & F5 & F6). pose proof rho_rng as RR.
    pose proof (v_low fc Hf) as VL. pose proof (Cmod_ge_0 (spole i)) as C0.
    assert (CF : cfin (tr m hp fc (fst (ch_pt i)))).
    { apply (proj1 (image_ap m HM fc Ff Hf hp _ _ _ A ltac:(lra) ltac:(unfold uu in *; lra) ltac:(apply Rle_trans with 71; [apply sq_le; lra|lra]))). }
    destruct (Bool.bool_dec second true) as [E|E].
    - destruct (raw_zero m HC n Hn i Hi) as [Z1 Z2].
      destruct (pair_sec2 _ _ _ _ _ _ A F1 F2 F3 F4 F5 RR Z1 Z2) as (G1 & b & B1 & B2 & B3 & B4 & B5 & B6 & B7 & B8 & B9). rewrite F6 in *.
      unfold trq. rewrite (pt2 i E) in *. cbn [fst snd] in *. split; [split; apply fin_nn; assumption|]. exists b. split; [exact B1|].
      unfold csec_ok, ch_ideal. cbn zeta. rewrite (proj2 (Nat.ltb_lt i (n / 2)) Hi). rewrite E in *.
      split; [exact B2|]. split; [exact B3|]. unfold Rdiv in B4, B5, B8, B9 |- *. rewrite Ropp_mult_distr_l in B4, B5, B8, B9. repeat split; assumption.
    - apply not_true_is_false in E. destruct (pair_sec _ _ _ _ A F1 F2 F3 F4 F5 RR) as (b & B1 & B2 & B3 & B4 & B5 & B6 & B7 & B8 & B9). rewrite F6 in *.
      unfold trq. rewrite (pt1 i E) in *. cbn [fst snd] in *. rewrite tr_inf. split; [split; [apply fin_nn; assumption|destruct hp; vm_compute; reflexivity]|]. exists b. split; [exact B1|].
      unfold csec_ok, ch_ideal. cbn zeta. rewrite (proj2 (Nat.ltb_lt i (n / 2)) Hi). rewrite E in *. unfold Rdiv in B4, B5, B8, B9. rewrite Rinv_1, Rmult_1_r in B4, B5, B8, B9.
      split; [exact B2|]. split; [exact B3|]. split; [exact B4|]. split; [exact B5|]. split; [exact B6|]. split; [exact B7|].
      rewrite B8, B9, !Rminus_eq_0, Rabs_R0. split; lra.
  Qed.
  Lemma sg_val x : ch_sg = Some x -> Nat.odd n = true /\ x = (Cx (if second then fdiv (fofZ 1) (Bopp (lm_sinh m V)) else Bopp (lm_sinh m V)) (fofZ 0), c_inf (N := FN)).
  Proof.
    intros H. unfold ch_sg, c1_sg, c2_sg in H. destruct (Nat.odd n); [|destruct second; discriminate]. split; [reflexivity|].
    destruct (Bool.bool_dec second true) as [E|E]; [|apply not_true_is_false in E]; rewrite E in *; inversion H; reflexivity.
  Qed.
  Lemma sg_cap : let x := if second then / sinh w else sinh w in
    cap (Cx (if second then fdiv (fofZ 1) (Bopp (lm_sinh m V)) else Bopp (lm_sinh m V)) (fofZ 0)) (RtoC (- x)) ((rs second + 2 * uu) * Cmod (RtoC (- x))) /\ 1 / 10 ^ 4 <= x <= 10 ^ 4.
  Proof.
    intros x. destruct (hyp_ok m HC second db Fd Hd n Hn) as [HS _]. pose proof (S_rng second db Hd n Hn) as SR. apply rel_opp in HS.
    assert (S0 : 1 / 10 ^ 4 <= sinh w <= 10 ^ 4) by (destruct second; lra).
    assert (XR : 1 / 10 ^ 4 <= x <= 10 ^ 4).
    { unfold x. destruct second; [|exact S0]. replace (1 / 10 ^ 4) with (/ 10 ^ 4) by lra. split; [apply Rinv_le; lra|]. replace (10 ^ 4) with (/ (1 / 10 ^ 4)) by lra. apply Rinv_le; lra. }
    assert (R : rel (if second then fdiv (fofZ 1) (Bopp (lm_sinh m V)) else Bopp (lm_sinh m V)) (- x) (rs second + 2 * uu)).
    { unfold x in *. destruct second.
      - replace (- / sinh (ch_width true n (B2R db))) with (1 / - sinh (ch_width true n (B2R db))) by (field; lra).
        eapply rel_div; [exact rel_one|exact HS|replace (1 / - sinh (ch_width true n (B2R db))) with (- / sinh (ch_width true n (B2R db))) by (field; lra); unfold mid; rewrite Rabs_Ropp; apply mid_of; lra|lra|unfold rs, uu; lra|unfold rs, uu; lra].
      - eapply rel_weak; [exact HS|]. unfold uu; lra. }
    destruct R as (R1 & _ & R2). destruct (fofZ_val 0 ltac:(lia)) as [Z1 Z2]. split; [|exact XR].
    split; [split; [exact R1|exact Z2]|]. unfold c2c. cbn [re im]. rewrite Z1, (Cmod_R (- x)).
    match goal with |- Cmod ?e <= _ => match type of R2 with Rabs ?y <= _ => replace e with (RtoC y) by (unfold RtoC, Cminus, Cplus, Copp; cbn [fst snd]; f_equal; ring) end end.
    rewrite Cmod_R. exact R2.
  Qed.
  Lemma sg_fin x : ch_sg = Some x -> nn (N := FN) x.
  Proof. intros H. destruct (sg_val x H) as [_ ->]. split; cbn [fst snd]; [apply fin_nn; exact (proj1 (proj1 sg_cap))|vm_compute; reflexivity]. Qed.
  Lemma sg_ok x : ch_sg = Some x -> nn (N := FN) (trq (N := FN) (tr m hp fc) x) /\ isreal (N := FN) (trq (N := FN) (tr m hp fc) x) /\ exists b, pair_bq (asg (N := FN) (trq (N := FN) (tr m hp fc) x)) = Val b /\ csec_ok (n / 2) b.
  Proof.
    intros H. destruct (sg_val x H) as [O ->]. destruct sg_cap as [A XR].
    destruct (single_sec _ _ _ A (proj1 (fofZ_val 0 ltac:(lia))) XR ltac:(unfold rs; destruct second; unfold uu; lra)) as (G1 & G2 & b & B1 & B2 & B3 & B4 & B5 & B6 & B7 & B8 & B9).
    unfold trq. cbn [fst snd]. rewrite tr_inf. split; [split; cbn [fst snd]; [apply fin_nn; exact G1|destruct hp; vm_compute; reflexivity]|].
    split; [split; cbn [fst snd]; [cbn [neqb F64]; apply zero_Beqb; [apply G1|exact G2]|destruct hp; vm_compute; reflexivity]|].
    exists b. split; [exact B1|]. unfold csec_ok, ch_ideal. cbn zeta. rewrite Nat.ltb_irrefl.
    replace (if second then - / sinh w else - sinh w) with (- (if second then / sinh w else sinh w)) by (destruct second; reflexivity).
    split; [exact B2|]. split; [exact B3|]. split; [exact B4|]. unfold an_single in *. cbn [i_a1 i_a2 i_b1 i_b2] in *. destruct cerr_T as (E0 & _).
    rewrite B8, B9, B5 in *. rewrite !Rminus_eq_0, Rabs_R0. split; [lra|]. split; [exact B6|]. split; [exact B7|]. destruct second; split; lra.
  Qed.
  Lemma ch_setup : exists p bs r, setupN (N := FN) k FO (Some (Z.of_nat n)) q (pf_init k FO) = Ok p tt /\ length bs = bw_sections n /\
    (forall i b, nth_error bs i = Some b -> csec_ok i b) /\
    let all := bs ++ repeat idb (Z.to_nat (maxStagesOf (snd k) FO) - length bs) in
    cas_response (N := FN) (MkCascade (Z.of_nat (length bs)) (maxStagesOf (snd k) FO) all) (fn hp) = Val r /\
    pf_cas p = MkCascade (Z.of_nat (length bs)) (maxStagesOf (snd k) FO) (scale_head (N := FN) (fdiv ch_gain (ncabs FN r)) all).
  Proof.
    pose proof (half_up n) as HU. set (pts0 := map ch_pt (seq 0 (n / 2))).
    assert (LP0 : length pts0 = (n / 2)%nat) by (unfold pts0; rewrite map_length, seq_length; reflexivity).
    assert (LS0 : length (o1 ch_sg) = (if Nat.odd n then 1 else 0)%nat) by (unfold ch_sg, c1_sg, c2_sg; destruct second; destruct (Nat.odd n); reflexivity).
    assert (PT : forall i x, nth_error pts0 i = Some x -> (i < n / 2)%nat /\ x = ch_pt i).
    { intros i x E. assert (Hi : (i < n / 2)%nat) by (rewrite <- LP0; apply nth_error_Some; congruence). split; [exact Hi|]. unfold pts0 in E. rewrite nth_error_map in E.
      rewrite (nth_error_nth' _ 0%nat) in E by (rewrite seq_length; exact Hi). rewrite seq_nth in E by exact Hi. inversion E. reflexivity. }
    assert (NF : List.Forall (nn (N := FN)) (pts0 ++ o1 ch_sg)).
    { apply Forall_app. split; [apply List.Forall_forall; intros x Ix; apply In_nth_error in Ix; destruct Ix as [i Ei]; destruct (PT i x Ei) as [Hi ->]; apply pt_fin; exact Hi|].
      destruct ch_sg as [x|] eqn:E; constructor; [apply sg_fin; exact E|constructor]. }
    set (ex := skipn (n / 2 + length (o1 ch_sg)) (layout_storage (N := FN) FO)).
    set (ana := MkProto (N := FN) (Z.of_nat n) (fofZ 0) db (blay (N := FN) pts0 ch_sg FO ex (fofZ 0) ch_gain)).
    assert (II : in_int (2 * Z.of_nat n) = true) by (unfold in_int, int_min, int_max; apply andb_true_intro; split; apply Z.leb_le; lia).
    assert (SL : (n / 2 + length (o1 ch_sg) <= length (layout_storage (N := FN) FO))%nat).
    { unfold layout_storage. rewrite repeat_length, LS0, <- HU. rewrite Z.quot_div_nonneg by lia.
      rewrite <- (Nat2Z.id ((n + 1) / 2)). apply Z2Nat.inj_le; try apply Z.div_pos; try lia. rewrite Nat2Z.inj_div, Nat2Z.inj_add. apply Z.div_le_mono; lia. }
    assert (HA : ana_design (N := FN) k (Z.of_nat n) q (pf_ana (pf_init k FO)) = Ok ana tt).
    { replace (pf_ana (pf_init (N := FN) k FO)) with (MkProto (N := FN) (-1) (fofZ 0) (fofZ 0) (MkLayout (N := FN) 0 FO (layout_storage (N := FN) FO) (fofZ 0) (fofZ 1))) by (destruct second, hp; reflexivity).
      destruct (Bool.bool_dec second true) as [E|E]; [|apply not_true_is_false in E].
      - replace (ana_design (N := FN) k (Z.of_nat n) q) with (c2_lp_design (N := FN) (Z.of_nat n) db) by (rewrite E; destruct hp; reflexivity).
        unfold ana, ex, pts0, ch_gain, ch_sg, ch_pt in *. clear PT. rewrite E in *. apply c2_design_any; [reflexivity|exact NF|lia|exact II|exact SL].
      - replace (ana_design (N := FN) k (Z.of_nat n) q) with (c1_lp_design (N := FN) (Z.of_nat n) db) by (rewrite E; destruct hp; reflexivity).
        unfold ana, ex, pts0, ch_gain, ch_sg, ch_pt in *. clear PT. rewrite E in *. 
        exact (c1_design_any (N := FN) n db (-1) (fofZ 0) (fofZ 0) 0 FO (layout_storage (N := FN) FO) (fofZ 0) (fofZ 1) eq_refl NF ltac:(lia) II SL). }
    apply (sim_setup m HM q Ff Hf n ltac:(lia) FO HFO hp (if second then Ch2 else Ch1) pts0 ch_sg ex ch_gain ana csec_ok LP0 LS0 HA eq_refl).
    - intros i x E. destruct (PT i x E) as [Hi ->]. apply pt_ok; exact Hi.
    - intros x E. apply sg_ok; exact E.
  Qed.
End Par.

Lemma c73 m (second hp : bool) (q : params (F64 m)) n FO : libm_design m -> libm_cheb m -> FloatSpec.is_fin (q_fc q : f64) -> FloatSpec.is_fin (q_db q : f64) ->
  ch_cut_ok (B2R (q_fc q : f64)) -> ch_db_ok second (B2R (q_db q : f64)) -> (1 <= n <= 32)%nat -> (Z.of_nat n <= FO)%Z ->
  let k := (if second then Ch2 else Ch1, if hp then HP else LP) in let f := B2R (q_fc q : f64) in let db := B2R (q_db q : f64) in
  exists p, setupN (N := F64 m) k FO (Some (Z.of_nat n)) q (pf_init k FO) = Ok p tt /\
    c_numStages (pf_cas p) = Z.of_nat (bw_sections n) /\
    forall i, (i < bw_sections n)%nat -> exists b, cas_index (pf_cas p) (Z.of_nat i) = Val b /\
      FloatSpec.is_fin (m_a1 b : f64) /\ FloatSpec.is_fin (m_a2 b : f64) /\
      Rabs (B2R (m_a1 b : f64) - i_a1 (ch_ideal second hp f db n i)) <= ch_error f /\
      Rabs (B2R (m_a2 b : f64) - i_a2 (ch_ideal second hp f db n i)) <= ch_error f /\
      stable_poly (B2R (m_a1 b : f64)) (B2R (m_a2 b : f64)) /\
      (i <> 0%nat -> let d := ch_ideal second hp f db n i in let e := if second then ch_error f / 64 else 0 in
        FloatSpec.is_fin (m_b0 b : f64) /\ FloatSpec.is_fin (m_b1 b : f64) /\ FloatSpec.is_fin (m_b2 b : f64) /\
        B2R (m_b0 b : f64) = 1 /\ Rabs (B2R (m_b1 b : f64) - i_b1 d) <= e /\ Rabs (B2R (m_b2 b : f64) - i_b2 d) <= e).
Proof.
  intros HM HC Ff Fd Hf Hd Hn HFO k f db.
  destruct (ch_setup m HM HC second q Ff Fd Hf Hd n Hn FO HFO hp) as (p & bs & r & E & L & S & _ & C). exists p. split; [exact E|]. rewrite C. cbn [c_numStages]. split; [rewrite L; reflexivity|].
  intros i Hi. destruct (nth_error bs i) as [b|] eqn:Eb; [|apply nth_error_None in Eb; lia]. destruct (S i b Eb) as (F & _ & A1 & A2 & ST & X1 & X2 & X3).
  destruct F as (F1 & F2 & F3 & F4 & F5).
  destruct i as [|i].
  - destruct bs as [|b' bs]; [discriminate|]. inversion Eb; subst b'. eexists. split; [apply (index_at _ _ _ 0); [lia|reflexivity]|]. cbn [bq_applyScale m_a1 m_a2 m_b0 m_b1 m_b2].
    split; [exact F1|]. split; [exact F2|]. split; [exact A1|]. split; [exact A2|]. split; [exact ST|]. intros Q. congruence.
  - destruct bs as [|b' bs]; [discriminate|]. cbn [nth_error] in Eb. exists b. split.
    + apply index_at; [lia|]. cbn [app scale_head nth_error]. rewrite nth_error_app1 by (apply nth_error_Some; congruence). exact Eb.
    + repeat split; assumption.
Qed.
