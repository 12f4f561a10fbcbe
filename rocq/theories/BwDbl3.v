(** Proofs: Butterworth low and high pass designs in binary64, the stored sections. *)
From Coq Require Import ZArith List Bool Reals Lra Lia Floats.SpecFloat.
From Coquelicot Require Import Coquelicot.
From Flocq Require Import Core.Raux Core.Defs Core.Generic_fmt IEEE754.BinarySingleNaN.
From Verif Require Import Num Outcome Types Biquad Cascade Transforms Butterworth PoleFilter Float64 FloatSpec FloatProofs SampleLemmas SigSpec StabProofs
  RoundSpec RoundProofs DblPi DblSpec DblProofs DblLemmas LayoutProofs BuildProofs BuildAny BwDblSpec CplxDbl BwDbl BwDbl2.
Import ListNotations.
Local Open Scope R_scope.

Lemma fdiv_one (x : f64) : is_finite x = true -> is_finite (fdiv x (fofZ 1)) = true /\ B2R (fdiv x (fofZ 1)) = B2R x.
Proof.
  intros F. destruct (fofZ_val 1 ltac:(lia)) as [V1 V2].
  pose proof (@Bdiv_correct 53 1024 Hprec64 Hemax64 mode_NE x (fofZ 1) ltac:(rewrite V1; lra)) as A.
  rewrite V1 in A. unfold Rdiv in A. rewrite Rinv_1, Rmult_1_r in A.
  rewrite round_generic in A by (auto with typeclass_instances; apply generic_format_B2R).
  rewrite Rlt_bool_true in A by apply abs_B2R_lt_emax. destruct A as (A1 & A2 & _). split; [rewrite <- F; exact A2|exact A1].
Qed.
Lemma sf_val (x : f64) s : B2SF x = s -> B2R x = SF2R Zaux.radix2 s.
Proof. intros <-. symmetry. apply SF2R_B2SF. Qed.

(** margins of the ideal sections *)
Lemma pair_margin t c n : / 16384 <= t <= 16384 -> 2 <= n <= 32768 -> -1 <= c <= - (3 / 4) / n ->
  let d := 1 + t ^ 2 - 2 * t * c in let a1 := 2 * (t ^ 2 - 1) / d in let a2 := (1 + t ^ 2 + 2 * t * c) / d in
  0 <= a2 <= 1 - 3 / 2 ^ 31 /\ Rabs a1 <= 1 + a2 - / 2 ^ 28.
Proof.
  intros Ht Hn Hc d a1 a2.
  assert (C1 : c <= - (3 / 4) / 32768).
  { apply Rle_trans with (1 := proj2 Hc). unfold Rdiv. assert (/ 32768 <= / n) by (apply Rinv_le; lra). lra. }
  assert (D0 : 0 < d) by (unfold d; nra).
  assert (E2 : 1 - a2 = - 4 * t * c / d) by (unfold a2, d in *; field; lra).
  assert (DB : t <= 1 /\ d <= 4 \/ 1 <= t /\ d <= 4 * t ^ 2).
  { destruct (Rle_lt_dec t 1); [left|right]; (split; [lra|unfold d; nra]). }
  assert (A2 : 0 <= a2). { unfold a2, Rdiv. apply Rmult_le_pos; [nra|left; apply Rinv_0_lt_compat; exact D0]. }
  split; [split; [exact A2|]|].
  - assert (3 / 2 ^ 31 <= - 4 * t * c / d); [|lra].
    apply Rmult_le_reg_r with d; [exact D0|]. unfold Rdiv at 2. rewrite Rmult_assoc, Rinv_l, Rmult_1_r by lra.
    destruct DB as [[B1 B2]|[B1 B2]].
    + apply Rle_trans with (3 / 2 ^ 31 * 4); [apply Rmult_le_compat_l; lra|]. assert (/ 16384 * (3 / 4 / 32768) <= t * - c) by (apply Rmult_le_compat; lra). lra.
    + apply Rle_trans with (3 / 2 ^ 31 * (4 * t ^ 2)); [apply Rmult_le_compat_l; lra|].
      replace (- 4 * t * c) with (t * (- 4 * c)) by ring. replace (3 / 2 ^ 31 * (4 * t ^ 2)) with (t * (3 / 2 ^ 31 * 4 * t)) by ring. apply Rmult_le_compat_l; lra.
  - assert (G : / 2 ^ 28 * d <= 4 /\ / 2 ^ 28 * d <= 4 * t ^ 2).
    { assert (T1 : (/ 16384) ^ 2 <= t ^ 2 <= 16384 ^ 2) by (split; apply pow_incr; lra).
      destruct DB as [[B1 B2]|[B1 B2]]; split; try lra. }
    assert (EQ : 1 + a2 - / 2 ^ 28 = (2 * (1 + t ^ 2) - / 2 ^ 28 * d) / d). { unfold a2, d in *. field. lra. }
    rewrite EQ. unfold a1, Rdiv. rewrite Rabs_mult, (Rabs_pos_eq (/ d)) by (left; apply Rinv_0_lt_compat; exact D0).
    apply Rmult_le_compat_r; [left; apply Rinv_0_lt_compat; exact D0|]. apply Rabs_le. lra.
Qed.
Lemma single_margin t : / 16384 <= t <= 16384 -> Rabs ((t - 1) / (t + 1)) <= 1 - / 2 ^ 15.
Proof.
  intros H. unfold Rdiv. rewrite Rabs_mult, (Rabs_pos_eq (/ (t + 1))) by (left; apply Rinv_0_lt_compat; lra).
  apply Rmult_le_reg_r with (t + 1); [lra|]. rewrite Rmult_assoc, Rinv_l, Rmult_1_r by lra. apply Rabs_le. lra.
Qed.
Lemma stable_near a1 a2 c1 c2 e mu nu : a2 <= 1 - mu -> 0 <= a2 -> Rabs a1 <= 1 + a2 - nu -> Rabs (c1 - a1) <= e -> Rabs (c2 - a2) <= e -> e < mu -> 2 * e < nu -> mu <= 1 -> stable_poly c1 c2.
Proof.
  intros H1 H2 H3 H4 H5 H6 H7 H8. apply jury.
  - revert H5. unfold Rabs. repeat destruct (Rcase_abs _); lra.
  - revert H3 H4 H5. unfold Rabs. repeat destruct (Rcase_abs _); lra.
Qed.

Section Par.
  Variable m : libm.
  Notation FN := (F64 m).
  Hypothesis HM : libm_design m.

  (** zero of the sections: -1 (low pass) or 1 (high pass) *)
  Definition zc (hp : bool) : cpx f64 := Cx (fofZ (if hp then 1 else -1)) (fofZ 0).
  Definition tr (hp : bool) (fc : f64) : cpx f64 -> cpx f64 := if hp then hp_transform (N := FN) (warp1 m fc) else lp_transform (N := FN) (warp m fc).
  Lemma tr_inf hp fc : tr hp fc (c_inf (N := FN)) = zc hp.
  Proof. destruct hp; reflexivity. Qed.
  Lemma zero_two er hp : exists k1 k2 : f64, two_coeffs (N := FN) er (zc hp) (c_conj (N := FN) (zc hp)) = Val (k1, k2) /\
    is_finite k1 = true /\ is_finite k2 = true /\ B2R k1 = (if hp then -2 else 2) /\ B2R k2 = 1.
  Proof.
    set (x := fofZ (if hp then 1 else -1)). exists (Bopp (fadd x x)), (fmul x x). split.
    { unfold two_coeffs. change (nneqb (N := FN) (im (zc hp)) (nofZ FN 0)) with false. cbv iota.
      replace (nneqb (N := FN) (im (c_conj (N := FN) (zc hp))) (nofZ FN 0)) with false by (symmetry; vm_compute; reflexivity). reflexivity. }
    unfold x. destruct hp.
    - split; [vm_compute; reflexivity|]. split; [vm_compute; reflexivity|].
      assert (E1 : B2SF (Bopp (fadd (fofZ 1) (fofZ 1))) = S754_finite true 4503599627370496 (-51)) by (vm_compute; reflexivity).
      assert (E2 : B2SF (fmul (fofZ 1) (fofZ 1)) = S754_finite false 4503599627370496 (-52)) by (vm_compute; reflexivity).
      rewrite (sf_val _ _ E1), (sf_val _ _ E2). unfold SF2R, F2R, Defs.F2R. cbn. lra.
    - split; [vm_compute; reflexivity|]. split; [vm_compute; reflexivity|].
      assert (E1 : B2SF (Bopp (fadd (fofZ (-1)) (fofZ (-1)))) = S754_finite false 4503599627370496 (-51)) by (vm_compute; reflexivity).
      assert (E2 : B2SF (fmul (fofZ (-1)) (fofZ (-1))) = S754_finite false 4503599627370496 (-52)) by (vm_compute; reflexivity).
      rewrite (sf_val _ _ E1), (sf_val _ _ E2). unfold SF2R, F2R, Defs.F2R. cbn. lra.
  Qed.
  Definition exact_b (b : biquad FN) (i : ideal) : Prop :=
    B2R (m_b0 b : f64) = i_b0 i /\ B2R (m_b1 b : f64) = i_b1 i /\ B2R (m_b2 b : f64) = i_b2 i.
  Lemma fin_nan (x : f64) : is_finite x = true -> is_nan (N := FN) x = false.
  Proof. intros F. unfold is_nan. cbn [neqb F64]. rewrite fin_eqb by exact F. reflexivity. Qed.
  Lemma set_ok (a1 a2 b1 b2 : f64) : is_finite a1 = true -> is_finite a2 = true -> is_finite b1 = true -> is_finite b2 = true ->
    exists b : biquad FN, setCoefficients (N := FN) (fofZ 1) a1 a2 (fofZ 1) b1 b2 biquad0 = Ok b tt /\ fin_coeffs b /\ m_a0 b = fofZ 1 /\
      B2R (m_a1 b : f64) = B2R a1 /\ B2R (m_a2 b : f64) = B2R a2 /\ B2R (m_b0 b : f64) = 1 /\ B2R (m_b1 b : f64) = B2R b1 /\ B2R (m_b2 b : f64) = B2R b2.
  Proof.
    intros F1 F2 F3 F4. destruct (fofZ_val 1 ltac:(lia)) as [V1 V2]. eexists. split.
    - unfold setCoefficients, bind, throw_if. rewrite !fin_nan by assumption. reflexivity.
    - destruct (fdiv_one a1 F1), (fdiv_one a2 F2), (fdiv_one b1 F3), (fdiv_one b2 F4), (fdiv_one (fofZ 1) V2).
      unfold fin_coeffs, FloatSpec.is_fin. cbn [m_a0 m_a1 m_a2 m_b0 m_b1 m_b2 ndiv F64]. repeat split; try assumption; congruence.
  Qed.
  Lemma pair_ok hp c (p : C) e : cap c p e -> Cmod p <= 1 -> e <= 1 / 1000 ->
    exists b : biquad FN, pair_bq (apr (N := FN) (c, zc hp)) = Val b /\ fin_coeffs b /\ m_a0 b = fofZ 1 /\
      Rabs (B2R (m_a1 b : f64) - (- 2 * fst p)) <= 3 * e + 3 * uu /\ Rabs (B2R (m_a2 b : f64) - Cmod p ^ 2) <= 3 * e + 8 * uu /\
      B2R (m_b0 b : f64) = 1 /\ B2R (m_b1 b : f64) = (if hp then -2 else 2) /\ B2R (m_b2 b : f64) = 1.
  Proof.
    intros A HP He. destruct (two_ap m E_poles_conj c p e A HP He) as (k1 & k2 & EK & A1 & A2).
    destruct (zero_two E_zeros_conj hp) as (z1 & z2 & EZ & Z1 & Z2 & Z3 & Z4).
    destruct A1 as (F1 & B1 & _), A2 as (F2 & B2 & _).
    destruct (set_ok k1 k2 z1 z2 F1 F2 Z1 Z2) as (b & S1 & S2 & S3 & S4 & S5 & S6 & S7 & S8).
    exists b. split.
    - unfold pair_bq, setPoleZeroPair, apr, pz_pair. cbn [fst snd].
      match goal with |- context [pz_isSinglePole ?q] => replace (pz_isSinglePole q) with false end.
      2:{ unfold pz_isSinglePole. cbn [poles zeros csnd]. symmetry. apply andb_false_intro2. destruct hp; reflexivity. }
      cbn [poles zeros cfst csnd]. unfold setTwoPole, bind. rewrite EK. cbn [lift ret]. rewrite EZ. cbn [lift ret].
      unfold ret. cbn [nofZ F64]. rewrite S1. reflexivity.
    - rewrite S4, S5, S6, S7, S8. auto 10.
  Qed.
  Lemma single_ok2 hp c (p : C) e : cap c p e -> B2R (im c) = 0 ->
    exists b : biquad FN, pair_bq (asg (N := FN) (c, zc hp)) = Val b /\ fin_coeffs b /\ m_a0 b = fofZ 1 /\
      Rabs (B2R (m_a1 b : f64) - (- fst p)) <= e /\ B2R (m_a2 b : f64) = 0 /\
      B2R (m_b0 b : f64) = 1 /\ B2R (m_b1 b : f64) = (if hp then -1 else 1) /\ B2R (m_b2 b : f64) = 0.
  Proof.
    intros A H. pose proof (cap_re _ _ _ A) as (F1 & B1 & _). pose proof (proj1 A) as [_ F2]. destruct (fofZ_val 0 ltac:(lia)) as [W1 W2].
    destruct c as [x y]. cbn [re im] in *.
    assert (ZF : is_finite (Bopp (re (zc hp))) = true) by (rewrite is_finite_Bopp; destruct hp; reflexivity).
    assert (ZV : B2R (Bopp (re (zc hp))) = (if hp then -1 else 1)).
    { rewrite B2R_Bopp. unfold zc. cbn [re]. destruct hp; [rewrite (proj1 (fofZ_val 1 ltac:(lia)))|rewrite (proj1 (fofZ_val (-1) ltac:(lia)))]; lra. }
    destruct (set_ok (Bopp x) (fofZ 0) (Bopp (re (zc hp))) (fofZ 0) ltac:(rewrite is_finite_Bopp; exact F1) W2 ZF W2) as (b & S1 & S2 & S3 & S4 & S5 & S6 & S7 & S8).
    exists b. split.
    - unfold pair_bq, setPoleZeroPair, asg. cbn [fst snd].
      match goal with |- context [pz_isSinglePole ?q] => replace (pz_isSinglePole q) with true end.
      cbn [poles zeros cfst csnd]. unfold setOnePole, bind, throw_if. cbn [im re].
      replace (nneqb (N := FN) y (nofZ FN 0)) with false. 2:{ unfold nneqb. cbn [neqb nofZ F64]. rewrite zero_Beqb by assumption. reflexivity. }
      replace (nneqb (N := FN) (im (zc hp)) (nofZ FN 0)) with false by reflexivity.
      exact (f_equal (fun r => match r with Ok b0 _ => Val b0 | Throw e0 _ => Exc e0 | UB => Undef end) S1).
    - rewrite S4, S5, S6, S7, S8, W1, B2R_Bopp. repeat split; try assumption; try apply S2. replace (- B2R x - - fst p) with (- (B2R x - fst p)) by ring. rewrite Rabs_Ropp. exact B1.
  Qed.

  Section Cut.
  Variable fc : f64.
  Hypothesis Ff : is_finite fc = true.
  Hypothesis Hf : cut_ok (B2R fc).
  Notation t := (tan (PI * B2R fc)).
  Notation v := (uu / (1 - 2 * B2R fc)).
  Definition wp (hp : bool) : f64 := if hp then warp1 m fc else warp m fc.
  Definition tau (hp : bool) : R := if hp then / t else t.
  Lemma tau_rng hp : / 16384 <= tau hp <= 16384.
  Proof.
    pose proof (t_rng fc Hf) as H. destruct hp; cbn [tau]; [|exact H].
    split; [apply Rinv_le; lra|]. rewrite <- (Rinv_inv 16384). apply Rinv_le; lra.
  Qed.
  Lemma wp_ap hp : ap (wp hp) (tau hp) (tau hp) (22 * v * tau hp).
  Proof.
    destruct hp; cbn [wp tau]; [apply warp1_ap; assumption|]. eapply ap_weak; [apply warp_ap; assumption|lra|].
    apply Rmult_le_compat_r; [pose proof (t_rng fc Hf); lra|]. pose proof (v_low fc Hf). unfold uu in *. lra.
  Qed.
  Lemma pole_ap hp c th : cap c (cos th, sin th) (28 * uu) -> cos th < 0 ->
    let d := 1 + t ^ 2 - 2 * t * cos th in
    exists p : C, cap (tr hp fc c) p (142 * v) /\ Cmod p <= 1 /\ - 2 * fst p = 2 * (t ^ 2 - 1) / d /\ Cmod p ^ 2 = (1 + t ^ 2 + 2 * t * cos th) / d.
  Proof.
    intros A Hc d. pose proof (tau_rng hp) as TR. pose proof (t_rng fc Hf) as TT. destruct (wp_ap hp) as (W1 & W2 & _). pose proof (v_low fc Hf) as VL.
    set (V := uu / (1 - 2 * B2R fc)) in *. set (ta := tau hp) in *. set (F := wp hp) in *.
    assert (CS : cos th ^ 2 + sin th ^ 2 = 1) by (pose proof (sin2_cos2 th) as Q; unfold Rsqr in Q; nra).
    destruct (section_val ta (cos th) (sin th) ltac:(lra) CS Hc) as (D1 & D2 & D3 & D4). cbn zeta in *. set (w := (ta * cos th, ta * sin th)) in *.
    assert (FW : fst w <= 0) by (unfold w; cbn [fst]; nra).
    assert (EW : w = (RtoC ta * (cos th, sin th))%C) by (unfold w, Cmult, RtoC; cbn [fst snd]; f_equal; ring).
    assert (MC : Cmod (cos th, sin th) = 1). { apply Rle_antisym; (apply sq_le; [try apply Cmod_ge_0; lra|]); rewrite Cmod_sq; cbn [fst snd]; lra. }
    assert (RH : Cmod (RtoC (B2R F) * c2c c - w)%C <= 51 * V * Cmod w).
    { rewrite D4. rewrite EW. replace (RtoC (B2R F) * c2c c - RtoC ta * (cos th, sin th))%C with ((RtoC (B2R F) - RtoC ta) * c2c c + RtoC ta * (c2c c - (cos th, sin th)))%C by ring.
      eapply Rle_trans; [apply Cmod_triangle|]. rewrite !Cmod_mult, <- RtoC_minus, !Cmod_R, (Rabs_pos_eq ta) by lra.
      pose proof (cap_mod _ _ _ A) as M1. rewrite MC in M1. destruct A as [_ A2].
      apply Rle_trans with (22 * V * ta * (1 + 28 * uu) + ta * (28 * uu)).
      - apply Rplus_le_compat; [apply Rmult_le_compat; [apply Rabs_pos|apply Cmod_ge_0|exact W2|exact M1]|apply Rmult_le_compat_l; [lra|exact A2]].
      - assert (ta * uu <= ta * V) by (apply Rmult_le_compat_l; lra). assert (0 <= ta * V) by (apply Rmult_le_pos; unfold uu in *; lra).
        assert (22 * V * ta * (28 * uu) <= ta * V * (1 / 2)) by (unfold uu in *; lra). lra. }
    assert (RB : 0 <= 51 * V <= 1 / 1000) by (unfold uu in *; lra).
    assert (WB : Cmod w <= 2 ^ 99). { rewrite D4. apply Rle_trans with (2 ^ 14); [lra|apply Rle_pow; [lra|lia]]. }
    assert (EB : 201 / 100 * (51 * V) + 39 * uu <= 142 * V) by (unfold uu in *; lra).
    set (P := ((1 + w) / (1 - w))%C) in *.
    assert (P1 : Cmod P <= 1).
    { apply sq_le; [lra|]. rewrite D3. apply Rmult_le_reg_r with (1 + ta ^ 2 - 2 * ta * cos th); [exact D1|]. unfold Rdiv. rewrite Rmult_assoc, Rinv_l by lra. nra. }
    unfold tr, F, ta in *. destruct hp; cbn [wp tau] in *.
    - exists (- P)%C. split; [|split; [|split]].
      + eapply cap_weak; [|exact EB]. replace (- P)%C with (- (1 + w) / (1 - w))%C by (unfold P, Cdiv; ring). apply hp_ap; try assumption. apply A.
      + rewrite Cmod_opp. exact P1.
      + replace (fst (- P)%C) with (- fst P) by reflexivity. replace (- 2 * - fst P) with (- (- 2 * fst P)) by ring. rewrite D2. unfold d. field. split; [nra|lra].
      + rewrite Cmod_opp, D3. unfold d. field. split; [nra|lra].
    - exists P. split; [|split; [|split]]; try assumption. eapply cap_weak; [|exact EB]. apply lp_ap; try assumption. apply A.
  Qed.
  Lemma pole_real hp : B2R (im (tr hp fc (c_of (N := FN) (fofZ (-1))))) = 0.
  Proof.
    pose proof (tau_rng hp) as TR. destruct (wp_ap hp) as (W1 & W2 & _). pose proof (v_low fc Hf) as VL. set (V := uu / (1 - 2 * B2R fc)) in *.
    assert (E : 22 * V * tau hp <= / 1000 * tau hp) by (apply Rmult_le_compat_r; unfold uu in *; lra).
    assert (FR : 0 < B2R (wp hp) <= 2 * 16384) by (revert W2; unfold Rabs; destruct (Rcase_abs _); lra).
    set (c := c_of (N := FN) (fofZ (-1))). assert (FC : cfin c) by (split; reflexivity).
    assert (EC : c2c c = RtoC (-1)). { unfold c2c, c, c_of. cbn [re im nofZ n0 F64]. rewrite (proj1 (fofZ_val (-1) ltac:(lia))), (proj1 (fofZ_val 0 ltac:(lia))). reflexivity. }
    set (w := (RtoC (B2R (wp hp)) * c2c c)%C).
    assert (EW : w = RtoC (- B2R (wp hp))). { unfold w. rewrite EC, <- RtoC_mult. f_equal. ring. }
    assert (M1 : Cmod (1 - w)%C = 1 + B2R (wp hp)). { rewrite EW, <- RtoC_minus, Cmod_R, Rabs_pos_eq by lra. ring. }
    assert (M2 : Cmod (1 + w)%C <= 1 + B2R (wp hp)). { rewrite EW, <- RtoC_plus, Cmod_R. apply Rabs_le. lra. }
    assert (M3 : Cmod w = B2R (wp hp)). { rewrite EW, Cmod_R, Rabs_Ropp, Rabs_pos_eq; lra. }
    assert (P99 : 2 ^ 17 <= 2 ^ 99) by (apply Rle_pow; [lra|lia]). assert (P17 : 2 ^ 17 = 131072) by (simpl; lra).
    destruct (bil_parts m (wp hp) c w 0 W1 FC) as [B1 B2].
    - rewrite EW. cbn. lra.
    - lra.
    - fold w. replace (w - w)%C with (RtoC 0) by ring. rewrite Cmod_0. lra.
    - lra.
    - rewrite M1 in *. assert (PR : B2R (im (lp_transform (N := FN) (wp hp) c)) = 0 /\ B2R (im (hp_transform (N := FN) (wp hp) c)) = 0).
      { apply lp_real; try assumption.
        - cbn [im c c_of n0 nofZ F64]. apply fofZ_val. lia.
        - eapply cap_weak; [exact B1|]. unfold uu. lra.
        - eapply cap_weak; [exact B2|]. unfold uu. lra.
        - fold w. lra.
        - fold w. lra. }
      unfold tr, wp in *. destruct hp; apply PR.
  Qed.
  End Cut.
End Par.
