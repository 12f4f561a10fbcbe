(** Proofs: low and high pass filters from any analogue prototype, in binary64. *)
From Coq Require Import ZArith List Bool Reals Lra Lia Floats.SpecFloat.
From Coquelicot Require Import Coquelicot.
From Flocq Require Import Core.Raux Core.Defs Core.Generic_fmt IEEE754.BinarySingleNaN.
From Verif Require Import Num Outcome Types Biquad Cascade Transforms Butterworth Chebyshev PoleFilter Safe Float64 FloatSpec FloatProofs SampleLemmas SigSpec StabProofs
  RoundSpec RoundProofs DblPi DblSpec DblProofs DblLemmas LayoutProofs BuildProofs BuildAny BwDblSpec CplxDbl BwDbl BwDbl2 BwDbl3 BwDblLemmas ChCoefSpec.
Import ListNotations.
Local Open Scope R_scope.

Section Par.
  Variable m : libm.
  Notation FN := (F64 m).
  Hypothesis HM : libm_design m.

  Lemma pair_gen c (p : C) e zf (z : C) d : cap c p e -> Cmod p <= 1 -> e <= 1 / 1000 -> cap zf z d -> Cmod z = 1 -> d <= 1 / 1000 ->
    exists b : biquad FN, pair_bq (apr (N := FN) (c, zf)) = Val b /\ fin_coeffs b /\ m_a0 b = fofZ 1 /\
      Rabs (B2R (m_a1 b : f64) - (- 2 * fst p)) <= 3 * e + 3 * uu /\ Rabs (B2R (m_a2 b : f64) - Cmod p ^ 2) <= 3 * e + 8 * uu /\
      B2R (m_b0 b : f64) = 1 /\ Rabs (B2R (m_b1 b : f64) - (- 2 * fst z)) <= 3 * d + 3 * uu /\ Rabs (B2R (m_b2 b : f64) - 1) <= 3 * d + 8 * uu.
  Proof.
    intros A HP He Z HZ Hd. destruct (two_ap m E_poles_conj c p e A HP He) as (k1 & k2 & EK & A1 & A2).
    destruct (two_ap m E_zeros_conj zf z d Z ltac:(lra) Hd) as (z1 & z2 & EZ & Z1 & Z2).
    destruct A1 as (F1 & B1 & _), A2 as (F2 & B2 & _), Z1 as (F3 & B3 & _), Z2 as (F4 & B4 & _).
    destruct (set_ok m k1 k2 z1 z2 F1 F2 F3 F4) as (b & S1 & S2 & S3 & S4 & S5 & S6 & S7 & S8).
    exists b. split.
    - unfold pair_bq, setPoleZeroPair, apr, pz_pair. cbn [fst snd].
      match goal with |- context [pz_isSinglePole ?q] => replace (pz_isSinglePole q) with false end.
      2:{ unfold pz_isSinglePole. cbn [poles zeros csnd]. symmetry. apply andb_false_intro2.
        destruct (c_eqb_r (N := FN) (c_conj (N := FN) zf) n0) eqn:Q; [|reflexivity]. exfalso. unfold c_eqb_r in Q. apply andb_prop in Q. destruct Q as [Q1 Q2].
        pose proof (cap_mod_low _ _ _ Z) as LZ. destruct Z as [[G1 G2] _]. destruct zf as [x y]. cbn [c_conj re im neqb F64 n0 nofZ nopp] in *.
        assert (X : B2R x = 0) by (apply (Beqb_zero x G1); exact Q1).
        assert (Y : B2R (Bopp y) = 0) by (apply (Beqb_zero (Bopp y)); [rewrite is_finite_Bopp; exact G2|exact Q2]). rewrite B2R_Bopp in Y.
        assert (M0 : Cmod (c2c (Cx x y)) = 0). { unfold c2c. cbn [re im]. rewrite X. replace (B2R y) with 0 by lra. apply Cmod_0. }
        lra. }
      cbn [poles zeros cfst csnd]. unfold setTwoPole, bind. rewrite EK. cbn [lift ret]. rewrite EZ. cbn [lift ret].
      unfold ret. cbn [nofZ F64]. rewrite S1. reflexivity.
    - rewrite S4, S5, S6, S7, S8. rewrite HZ in B4. replace (1 ^ 2) with 1 in B4 by ring. auto 12.
  Qed.

  Section Cut.
  Variable fc : f64.
  Hypothesis Ff : is_finite fc = true.
  Hypothesis Hf : cut_ok (B2R fc).
  Notation v := (uu / (1 - 2 * B2R fc)).
  Notation u hp := (tau fc hp).
  Definition zs (hp : bool) : R := if hp then -1 else 1.
  (** the image of an analogue pole or zero *)
  Definition image (hp : bool) (s : C) : C := (RtoC (zs hp) * ((1 + RtoC (u hp) * s) / (1 - RtoC (u hp) * s)))%C.
  Lemma image_val hp (s : C) : fst s <= 0 -> let d := 1 - 2 * u hp * fst s + u hp ^ 2 * Cmod s ^ 2 in
    1 <= d /\ - 2 * fst (image hp s) = 2 * zs hp * (u hp ^ 2 * Cmod s ^ 2 - 1) / d /\ Cmod (image hp s) ^ 2 = (1 + 2 * u hp * fst s + u hp ^ 2 * Cmod s ^ 2) / d /\
    Cmod (image hp s) <= 1 /\ (fst s = 0 -> Cmod (image hp s) = 1).
  Proof.
    intros H d. pose proof (tau_rng fc Hf hp) as TR. unfold image. set (T := tau fc hp) in *. destruct s as [a b]. cbn [fst] in *.
    assert (EM : Cmod (a, b) ^ 2 = a ^ 2 + b ^ 2) by apply Cmod_sq. unfold d in *. rewrite EM in *.
    assert (EW : (RtoC T * (a, b))%C = (T * a, T * b)) by (unfold Cmult, RtoC; cbn [fst snd]; f_equal; ring). rewrite EW.
    assert (TA : T * a <= 0) by nra. assert (D : 1 <= 1 - 2 * T * a + T ^ 2 * (a ^ 2 + b ^ 2)) by nra.
    assert (ED : (1 - T * a) ^ 2 + (T * b) ^ 2 = 1 - 2 * T * a + T ^ 2 * (a ^ 2 + b ^ 2)) by ring.
    rewrite bil_val by (rewrite ED; lra). cbn zeta. rewrite ED. clear d. set (d := 1 - 2 * T * a + T ^ 2 * (a ^ 2 + b ^ 2)) in *.
    set (P := ((1 - (T * a) ^ 2 - (T * b) ^ 2) / d, 2 * (T * b) / d)).
    assert (Z2 : zs hp * zs hp = 1) by (unfold zs; destruct hp; lra).
    assert (E1 : Cmod (RtoC (zs hp) * P)%C = Cmod P). { rewrite Cmod_mult, Cmod_R. replace (Rabs (zs hp)) with 1; [ring|]. unfold zs. destruct hp; [rewrite Rabs_left; lra|rewrite Rabs_pos_eq; lra]. }
    rewrite E1. assert (E2 : Cmod P ^ 2 = (1 + 2 * T * a + T ^ 2 * (a ^ 2 + b ^ 2)) / d).
    { rewrite Cmod_sq. unfold P. cbn [fst snd].
      assert (Y : (1 - (T * a) ^ 2 - (T * b) ^ 2) ^ 2 + (2 * (T * b)) ^ 2 = (1 + 2 * T * a + T ^ 2 * (a ^ 2 + b ^ 2)) * d) by (unfold d; ring).
      replace (((1 - (T * a) ^ 2 - (T * b) ^ 2) / d) ^ 2 + (2 * (T * b) / d) ^ 2) with (((1 - (T * a) ^ 2 - (T * b) ^ 2) ^ 2 + (2 * (T * b)) ^ 2) / d / d) by (field; lra). rewrite Y. field. lra. }
    split; [exact D|]. split; [|split; [exact E2|split]].
    - unfold Cmult, RtoC, P. cbn [fst snd]. field. lra.
    - apply sq_le; [lra|]. rewrite E2. apply Rmult_le_reg_r with d; [lra|]. unfold Rdiv. rewrite Rmult_assoc, Rinv_l by lra. unfold d. lra.
    - intros A0. subst a. apply Rle_antisym; (apply sq_le; [try apply Cmod_ge_0; lra|]); rewrite E2; replace (1 + 2 * T * 0 + T ^ 2 * (0 ^ 2 + b ^ 2)) with d by (unfold d; ring); replace (d / d) with 1 by (field; lra); lra.
  Qed.
  Lemma image_ap hp c (s : C) rho : cap c s (rho * Cmod s) -> fst s <= 0 -> 0 <= rho <= 1 / 10 ^ 5 -> Cmod s <= 2 ^ 40 ->
    cap (tr m hp fc c) (image hp s) (201 / 100 * (rho + 221 / 10 * v) + 39 * uu).
  Proof.
    intros A Hs Hr HB. pose proof (tau_rng fc Hf hp) as TR. destruct (wp_ap m HM fc Ff Hf hp) as (W1 & W2 & _). pose proof (v_low fc Hf) as VL.
    unfold image. set (V := uu / (1 - 2 * B2R fc)) in *. set (ta := tau fc hp) in *. set (F := wp m fc hp) in *. set (w := (RtoC ta * s)%C).
    assert (FW : fst w <= 0) by (unfold w, Cmult, RtoC; cbn [fst snd]; nra).
    assert (MW : Cmod w = ta * Cmod s) by (unfold w; rewrite Cmod_mult, Cmod_R, Rabs_pos_eq by lra; reflexivity).
    pose proof (Cmod_ge_0 s) as S0.
    assert (RH : Cmod (RtoC (B2R F) * c2c c - w)%C <= (rho + 221 / 10 * V) * Cmod w).
    { rewrite MW. unfold w. replace (RtoC (B2R F) * c2c c - RtoC ta * s)%C with ((RtoC (B2R F) - RtoC ta) * c2c c + RtoC ta * (c2c c - s))%C by ring.
      eapply Rle_trans; [apply Cmod_triangle|]. rewrite !Cmod_mult, <- RtoC_minus, !Cmod_R, (Rabs_pos_eq ta) by lra.
      pose proof (cap_mod _ _ _ A) as M1. destruct A as [_ A2].
      apply Rle_trans with (22 * V * ta * (Cmod s + rho * Cmod s) + ta * (rho * Cmod s)).
      - apply Rplus_le_compat; [apply Rmult_le_compat; [apply Rabs_pos|apply Cmod_ge_0|exact W2|exact M1]|apply Rmult_le_compat_l; [lra|exact A2]].
      - assert (Q : 0 <= ta * V * Cmod s) by (apply Rmult_le_pos; [apply Rmult_le_pos; unfold uu in *; lra|lra]).
        assert (ta * V * Cmod s * rho <= ta * V * Cmod s * (1 / 10 ^ 5)) by (apply Rmult_le_compat_l; lra). nra. }
    assert (RB : 0 <= rho + 221 / 10 * V <= 1 / 1000) by (unfold uu in *; lra).
    assert (WB : Cmod w <= 2 ^ 99). { rewrite MW. apply Rle_trans with (16384 * 2 ^ 40); [apply Rmult_le_compat; lra|]. replace (16384 * 2 ^ 40) with (2 ^ 54) by lra. apply Rle_pow; [lra|lia]. }
    unfold tr, F in *. destruct hp; cbn [wp tau zs] in *.
    - replace (RtoC (-1) * ((1 + w) / (1 - w)))%C with (- (1 + w) / (1 - w))%C by (replace (RtoC (-1)) with (- RtoC 1)%C by (rewrite <- RtoC_opp; reflexivity); unfold Cdiv; ring). apply hp_ap; try assumption. apply A.
    - replace (RtoC 1 * ((1 + w) / (1 - w)))%C with ((1 + w) / (1 - w))%C by ring. apply lp_ap; try assumption. apply A.
  Qed.
  (** a negative pole stays real *)
  Lemma image_real hp c : cfin c -> B2R (im c) = 0 -> - 2 ^ 40 <= B2R (re c) <= 0 -> B2R (im (tr m hp fc c)) = 0.
  Proof.
    intros FC HI HR. pose proof (tau_rng fc Hf hp) as TR. destruct (wp_ap m HM fc Ff Hf hp) as (W1 & W2 & _). pose proof (v_low fc Hf) as VL. set (V := uu / (1 - 2 * B2R fc)) in *.
    assert (E : 22 * V * tau fc hp <= / 1000 * tau fc hp) by (apply Rmult_le_compat_r; unfold uu in *; lra).
    assert (FR : 0 < B2R (wp m fc hp) <= 2 * 16384) by (revert W2; unfold Rabs; destruct (Rcase_abs _); lra).
    assert (EC : c2c c = RtoC (B2R (re c))) by (unfold c2c; rewrite HI; reflexivity). set (r := B2R (re c)) in *.
    set (x := B2R (wp m fc hp)) in *. assert (XR : - 2 ^ 60 <= x * r <= 0) by (assert (2 ^ 40 * 32768 <= 2 ^ 60) by lra; nra).
    set (w := (RtoC x * c2c c)%C).
    assert (EW : w = RtoC (x * r)). { unfold w. rewrite EC, <- RtoC_mult. reflexivity. }
    assert (M1 : Cmod (1 - w)%C = 1 - x * r). { rewrite EW, <- RtoC_minus, Cmod_R, Rabs_pos_eq by lra. ring. }
    assert (M2 : Cmod (1 + w)%C <= 1 - x * r). { rewrite EW, <- RtoC_plus, Cmod_R. apply Rabs_le. lra. }
    assert (M3 : Cmod w = - (x * r)). { rewrite EW, Cmod_R, Rabs_left1; lra. }
    assert (P99 : 2 ^ 61 <= 2 ^ 99) by (apply Rle_pow; [lra|lia]). assert (P61 : 2 ^ 61 = 2 * 2 ^ 60) by (simpl; lra). assert (P60 : 1 <= 2 ^ 60) by (apply pow_R1_Rle; lra).
    destruct (HM) as (_ & _ & HD).
    pose proof (not_inf m c FC) as NI. destruct (mul0 (im c) (wp m fc hp) (proj2 FC) W1 HI) as [Z1 Z2].
    destruct (bil_parts m (wp m fc hp) c w 0 W1 FC) as [B1 B2].
    - rewrite EW. cbn. lra.
    - lra.
    - fold x. fold w. replace (w - w)%C with (RtoC 0) by ring. rewrite Cmod_0. lra.
    - lra.
    - rewrite M1 in *. set (K := 1 - x * r) in *. assert (KB : 1 <= K <= 2 ^ 60 + 1) by (unfold K; lra). destruct p400 as (Q1 & Q2 & Q3). assert (HB2 : 2 ^ 99 + 2 ^ 99 = 2 ^ 100) by (simpl; lra).
      pose proof (cap_copp m _ _ _ B1) as A'. pose proof (cap_mod _ _ _ B1) as MA. pose proof (cap_mod _ _ _ A') as MA'. rewrite Cmod_opp in MA'.
      pose proof (cap_mod _ _ _ B2) as MB. pose proof (cap_mod_low _ _ _ B2) as LB. rewrite M1 in MB, LB. assert (EK : 0 <= (0 + 3 * uu) * K <= 1 / 1000 * K) by (split; unfold uu; lra).
      unfold tr, wp in *. destruct hp; [unfold hp_transform|unfold lp_transform, bilinear]; rewrite NI; cbn [ncdiv F64].
      + destruct (HD _ _ (proj1 A') (proj1 B2)) as (_ & _ & R); [lra|lra|]. apply R; cbn [c_addr c_rsub c_scale c_opp im nmul nopp F64]; (rewrite B2R_Bopp; apply Ropp_eq_0_compat; exact Z1).
      + destruct (HD _ _ (proj1 B1) (proj1 B2)) as (_ & _ & R); [lra|lra|]. apply R; cbn [c_addr c_rsub c_scale im nmul nopp F64]; [exact Z1|rewrite B2R_Bopp; apply Ropp_eq_0_compat; exact Z1].
  Qed.
  End Cut.
End Par.
