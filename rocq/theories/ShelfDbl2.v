(** Proofs: Butterworth shelves in binary64, the stored sections and the setup. *)
From Coq Require Import ZArith List Bool Reals Lra Lia.
From Coquelicot Require Import Coquelicot.
From Flocq Require Import Core.Raux Core.Defs IEEE754.BinarySingleNaN.
From Verif Require Import Num Outcome Types Biquad Cascade Transforms Butterworth Chebyshev PoleFilter Float64 FloatSpec FloatProofs SampleLemmas SigSpec StabProofs
  RoundSpec RoundProofs DblPi DblSpec DblProofs DblLemmas RbjShProofs RelDbl LayoutProofs BuildProofs BuildAny
  BwDblSpec CplxDbl BwDbl BwDbl2 BwDbl3 BwDblLemmas BwDblFinal SimDbl ChCoefSpec ChDblSpec ChDbl ChDbl2 ChDbl3 ChDbl4 ChDblLemmas ShelfDblSpec ShelfSetup ShelfDbl.
Import ListNotations.
Local Open Scope R_scope.

Section Gen.
  Variable m : libm.
  Notation FN := (F64 m).
  Lemma pair_gen2 c (p : C) e zf (z : C) d : cap c p e -> Cmod p <= 1 -> e <= 1 / 1000 -> cap zf z d -> 1 / 1000 < Cmod z <= 1 -> d <= 1 / 1000 ->
    exists b : biquad FN, pair_bq (apr (N := FN) (c, zf)) = Val b /\ fin_coeffs b /\ m_a0 b = fofZ 1 /\
      Rabs (B2R (m_a1 b : f64) - (- 2 * fst p)) <= 3 * e + 3 * uu /\ Rabs (B2R (m_a2 b : f64) - Cmod p ^ 2) <= 3 * e + 8 * uu /\
      B2R (m_b0 b : f64) = 1 /\ Rabs (B2R (m_b1 b : f64) - (- 2 * fst z)) <= 3 * d + 3 * uu /\ Rabs (B2R (m_b2 b : f64) - Cmod z ^ 2) <= 3 * d + 8 * uu.
  Proof.
    intros A HP He Z HZ Hd. destruct (two_ap m E_poles_conj c p e A HP He) as (k1 & k2 & EK & A1 & A2).
    destruct (two_ap m E_zeros_conj zf z d Z ltac:(lra) Hd) as (z1 & z2 & EZ & Z1 & Z2).
    destruct A1 as (F1 & B1 & _), A2 as (F2 & B2 & _), Z1 as (F3 & B3 & _), Z2 as (F4 & B4 & _).
    destruct (set_ok m k1 k2 z1 z2 F1 F2 F3 F4) as (b & S1 & S2 & S3 & S4 & S5 & S6 & S7 & S8).
    exists b. split.
    - unfold pair_bq, setPoleZeroPair, apr, pz_pair. cbn [fst snd].
      match goal with |- context [pz_isSinglePole ?q] => replace (pz_isSinglePole q) with false end.
      2:{ unfold pz_isSinglePole. cbn [poles zeros csnd]. symmetry. apply andb_false_intro2.
        destruct (c_eqb_r (N := FN) (c_conj (N := FN) zf) n0) eqn:Q; [|reflexivity]. exfalso. unfold c_eqb_r in Q. apply andb_prop in Q. destruct Q as [Q1 Q2].
        pose proof (cap_mod_low _ _ _ Z) as LZ. destruct Z as [[G1 G2] _]. destruct zf as [x y]. cbn [c_conj re im neqb F64 n0 nofZ nopp] in *.
        assert (X : B2R x = 0) by (apply (Beqb_zero x G1); exact Q1).
        assert (Y : B2R (Bopp y) = 0) by (apply (Beqb_zero (Bopp y)); [rewrite is_finite_Bopp; exact G2|exact Q2]). rewrite B2R_Bopp in Y.
        assert (M0 : Cmod (c2c (Cx x y)) = 0). { unfold c2c. cbn [re im]. rewrite X. replace (B2R y) with 0 by lra. apply Cmod_0. }
        lra. }
      cbn [poles zeros cfst csnd]. unfold setTwoPole, bind. rewrite EK. cbn [lift ret]. rewrite EZ. cbn [lift ret].
      unfold ret. cbn [nofZ F64]. rewrite S1. reflexivity.
    - rewrite S4, S5, S6, S7, S8. auto 12.
  Qed.
  Lemma single_gen c (p : C) e zf (z : C) d : cap c p e -> B2R (im c) = 0 -> cap zf z d -> B2R (im zf) = 0 ->
    exists b : biquad FN, pair_bq (asg (N := FN) (c, zf)) = Val b /\ fin_coeffs b /\ m_a0 b = fofZ 1 /\
      Rabs (B2R (m_a1 b : f64) - (- fst p)) <= e /\ B2R (m_a2 b : f64) = 0 /\
      B2R (m_b0 b : f64) = 1 /\ Rabs (B2R (m_b1 b : f64) - (- fst z)) <= d /\ B2R (m_b2 b : f64) = 0.
  Proof.
    intros A H Z HZ. pose proof (cap_re _ _ _ A) as (F1 & B1 & _). pose proof (proj1 A) as [_ F2]. pose proof (cap_re _ _ _ Z) as (F3 & B3 & _). pose proof (proj1 Z) as [_ F4]. destruct (fofZ_val 0 ltac:(lia)) as [W1 W2].
    destruct c as [x y]. destruct zf as [x' y']. cbn [re im] in *.
    destruct (set_ok m (Bopp x) (fofZ 0) (Bopp x') (fofZ 0) ltac:(rewrite is_finite_Bopp; exact F1) W2 ltac:(rewrite is_finite_Bopp; exact F3) W2) as (b & S1 & S2 & S3 & S4 & S5 & S6 & S7 & S8).
    exists b. split.
    - unfold pair_bq, setPoleZeroPair, asg. cbn [fst snd].
      match goal with |- context [pz_isSinglePole ?q] => replace (pz_isSinglePole q) with true end.
      cbn [poles zeros cfst csnd]. unfold setOnePole, bind, throw_if. cbn [im re].
      replace (nneqb (N := FN) y (nofZ FN 0)) with false. 2:{ unfold nneqb. cbn [neqb nofZ F64]. rewrite zero_Beqb by assumption. reflexivity. }
      replace (nneqb (N := FN) y' (nofZ FN 0)) with false. 2:{ unfold nneqb. cbn [neqb nofZ F64]. rewrite zero_Beqb by assumption. reflexivity. }
      exact (f_equal (fun r => match r with Ok b0 _ => Val b0 | Throw e0 _ => Exc e0 | UB => Undef end) S1).
    - assert (Q : forall x p e, Rabs (x - p) <= e -> Rabs (- x - - p) <= e) by (intros x1 p1 e1 K; replace (- x1 - - p1) with (- (x1 - p1)) by ring; rewrite Rabs_Ropp; exact K).
      rewrite S4, S5, S6, S7, S8, W1, !B2R_Bopp. repeat split; try apply S2; try exact S3; apply Q; assumption.
  Qed.
End Gen.

(** |(1 + w)/(1 - w)| for w = - r (sin a, cos a) is at least |cos a| / 2 *)
Lemma image_low (r s c : R) : 0 < r -> 0 <= s -> s ^ 2 + c ^ 2 = 1 -> c ^ 2 / 4 <= (1 - 2 * r * s + r ^ 2) / (1 + 2 * r * s + r ^ 2).
Proof.
  intros Hr Hs E. assert (S1 : s <= 1) by nra. assert (RS : 0 <= r * s) by nra. pose proof (pow2_ge_0 r) as R2. apply (proj1 (Rle_div_r _ _ (1 + 2 * r * s + r ^ 2) ltac:(lra))).
  pose proof (pow2_ge_0 (1 - s)) as K1. pose proof (pow2_ge_0 (1 - r)) as K2. assert (K3 : r * s <= r * 1) by (apply Rmult_le_compat_l; lra).
  assert (C : c ^ 2 <= 2 * (1 - s)) by lra. assert (D : 1 + 2 * r * s + r ^ 2 <= 2 * (1 + r ^ 2)) by lra.
  assert (T : (1 - s) * (1 + r ^ 2) <= 1 - 2 * r * s + r ^ 2) by (assert (0 <= s * (1 - r) ^ 2) by (apply Rmult_le_pos; [lra|apply pow2_ge_0]); lra).
  apply Rle_trans with ((2 * (1 - s)) / 4 * (2 * (1 + r ^ 2))); [apply Rmult_le_compat; [pose proof (pow2_ge_0 c); lra|pose proof (pow2_ge_0 r); lra|lra|lra]|lra].
Qed.

Section Par.
  Variable m : libm.
  Notation FN := (F64 m).
  Hypothesis HM : libm_design m.
  Hypothesis HS : libm_bwshelf m.
  Variable q : params FN.
  Notation fc := (q_fc q : f64).
  Notation ga := (q_gain q : f64).
  Hypothesis Ff : is_finite fc = true.
  Hypothesis Fg : is_finite ga = true.
  Hypothesis Hc : sh_cut_ok (B2R fc).
  Hypothesis Hg : sh_gain_ok (B2R ga).
  Variable n : nat.
  Hypothesis Hn : (1 <= n <= 32)%nat.
  Variable FO : Z.
  Hypothesis HFO : (Z.of_nat n <= FO)%Z.
  Variable hs : bool.
  Notation k := (Bw, if hs then HSh else LSh).
  Notation sec := (sh_ideal hs (B2R fc) (B2R ga) n).
  Notation err := (sh_error (B2R fc)).
  Notation v := (uu / (1 - 2 * B2R fc)).
  Notation g := (sh_g n (B2R ga)).
  Lemma Hfc : cut_ok (B2R fc).
  Proof. exact (proj1 (cut_S _ Hc)). Qed.

  Definition hsec_ok (i : nat) (b : biquad FN) : Prop :=
    fin_coeffs b /\ m_a0 b = fofZ 1 /\ Rabs (B2R (m_a1 b : f64) - i_a1 (sec i)) <= err /\ Rabs (B2R (m_a2 b : f64) - i_a2 (sec i)) <= err /\
    stable_poly (B2R (m_a1 b : f64)) (B2R (m_a2 b : f64)) /\
    B2R (m_b0 b : f64) = 1 /\ Rabs (B2R (m_b1 b : f64) - i_b1 (sec i)) <= err /\ Rabs (B2R (m_b2 b : f64) - i_b2 (sec i)) <= err.

  Lemma serr_v : err = 512 * v.
  Proof. unfold sh_error, uu. unfold sh_cut_ok in Hc. replace (/ 2 ^ 44) with (512 * / 9007199254740992) by lra. field. lra. Qed.
  Definition ST : R := if Rle_dec (B2R fc) (1 / 4) then 2608 else 82.
  Lemma serr_T : 0 < err <= 1 / 10 ^ 11 /\ err < 1 / 100000 / ST /\ 2 * err < / (729 * ST ^ 2) /\ 82 <= ST <= 2608.
  Proof.
    unfold ST. change (sh_error (B2R fc)) with (/ 2 ^ 44 * / (1 - 2 * B2R fc)). unfold sh_cut_ok in Hc. destruct (Rle_dec (B2R fc) (1 / 4)) as [L|L].
    - assert (I : / (1 - 2 * B2R fc) <= / (1 / 2)) by (apply Rinv_le; lra). assert (I0 : 0 < / (1 - 2 * B2R fc)) by (apply Rinv_0_lt_compat; lra). set (x := / (1 - 2 * B2R fc)) in *. repeat split; lra.
    - assert (I : / (1 - 2 * B2R fc) <= / (/ 128)) by (apply Rinv_le; lra). assert (I0 : 0 < / (1 - 2 * B2R fc)) by (apply Rinv_0_lt_compat; lra). set (x := / (1 - 2 * B2R fc)) in *. repeat split; lra.
  Qed.
  Notation u := (tau fc hs).
  Notation t := (tan (PI * B2R fc)).
  Lemma u_S : / ST <= u <= ST.
  Proof.
    pose proof (proj2 (cut_S _ Hc)) as Q. cbn zeta in Q. fold ST in Q. assert (T1 : 82 <= ST) by apply serr_T. unfold tau. destruct hs; [|exact Q].
    assert (0 < / ST) by (apply Rinv_0_lt_compat; lra). split; [apply Rinv_le; lra|]. rewrite <- (Rinv_inv ST). apply Rinv_le; lra.
  Qed.
  Lemma zsS_pm : zs hs = 1 \/ zs hs = -1.
  Proof. unfold zs. destruct hs; lra. Qed.

  Section Pair.
  Variable i : nat.
  Hypothesis Hi : (i < n / 2)%nat.
  Notation a := (ch_angle n i).
  (** a point of radius r at the angle of section i: image, and its value *)
  Lemma pt_img c r : / 27 <= r <= 27 -> cap c (- r * sin a, - r * cos a) (40 * uu * r) ->
    exists p : C, cap (tr m hs fc c) p (201 / 100 * (40 * uu + 221 / 10 * v) + 39 * uu) /\ 1 / 1000 < Cmod p <= 1 /\
      - 2 * fst p = fst (bl_pair hs t (- (r * sin a)) (r ^ 2)) /\ Cmod p ^ 2 = snd (bl_pair hs t (- (r * sin a)) (r ^ 2)).
  Proof.
    intros RR A. destruct (tr_low n Hn i Hi) as (L1 & L2 & L3). pose proof u_S as US. destruct serr_T as (_ & _ & _ & T1). pose proof (v_low fc Hfc) as VL.
    set (s := (- r * sin a, - r * cos a)) in *. assert (U0 : 0 < u) by (assert (0 < / ST) by (apply Rinv_0_lt_compat; lra); lra).
    assert (M2 : Cmod s ^ 2 = r ^ 2). { rewrite Cmod_sq. unfold s. cbn [fst snd]. replace ((- r * sin a) ^ 2 + (- r * cos a) ^ 2) with (r ^ 2 * (sin a ^ 2 + cos a ^ 2)) by ring. rewrite L3. ring. }
    assert (M1 : Cmod s = r) by (apply Rle_antisym; (apply sq_le; [try apply Cmod_ge_0; lra|]); lra).
    assert (F0 : fst s <= 0) by (unfold s; cbn [fst]; nra).
    rewrite <- M1 in A at 1. pose proof (image_ap m HM fc Ff Hfc hs c s (40 * uu) A F0 ltac:(unfold uu; lra) ltac:(rewrite M1; lra)) as IA.
    destruct (image_val fc Hfc hs s F0) as (I0 & I1 & I2 & I3 & _). rewrite M2 in *. unfold s in I0, I1, I2 at 2 3. cbn [fst] in I0, I1, I2.
    exists (image fc hs s). split; [exact IA|]. split; [split; [|exact I3]|].
    - assert (Q : (1 / 100) ^ 2 <= Cmod (image fc hs s) ^ 2).
      { rewrite I2. pose proof (image_low (u * r) (sin a) (cos a) ltac:(nra) ltac:(lra) L3) as Q.
        replace (1 + 2 * u * (- r * sin a) + u ^ 2 * r ^ 2) with (1 - 2 * (u * r) * sin a + (u * r) ^ 2) by ring. replace (1 - 2 * u * (- r * sin a) + u ^ 2 * r ^ 2) with (1 + 2 * (u * r) * sin a + (u * r) ^ 2) by ring.
        eapply Rle_trans; [|exact Q]. assert ((3 / 128) ^ 2 <= cos a ^ 2) by (apply pow_incr; lra). lra. }
      apply sq_le in Q; [lra|apply Cmod_ge_0].
    - unfold bl_pair. cbn [fst snd]. change (if hs then / t else t) with u. change (if hs then -1 else 1) with (zs hs).
      replace (- (r * sin a)) with (- r * sin a) by ring. split; [exact I1|exact I2].
  Qed.
  Lemma pair_pts c zf : cap c (- / g * sin a, - / g * cos a) (40 * uu * / g) -> cap zf (- g * sin a, - g * cos a) (40 * uu * g) ->
    cfin (tr m hs fc c) /\ cfin (tr m hs fc zf) /\ exists b, pair_bq (apr (N := FN) (tr m hs fc c, tr m hs fc zf)) = Val b /\ hsec_ok i b.
  Proof.
    intros A Z. destruct (tr_low n Hn i Hi) as (L1 & L2 & L3). pose proof u_S as US. destruct serr_T as (E0 & E1 & E2 & T1). pose proof (v_low fc Hfc) as VL. pose proof serr_v as EV.
    destruct (g_rng ga Hg n Hn) as [_ GR]. specialize (GR ltac:(pose proof (i2 n Hn i Hi); lia)).
    assert (GI : / 27 <= / g <= 27) by (split; [apply Rinv_le; lra|rewrite <- (Rinv_inv 27); apply Rinv_le; lra]).
    destruct (pt_img c (/ g) GI A) as (p & P1 & P2 & P3 & P4). destruct (pt_img zf g GR Z) as (z & Z1 & Z2 & Z3 & Z4).
    split; [exact (proj1 P1)|]. split; [exact (proj1 Z1)|].
    destruct (pair_gen2 m _ _ _ _ _ _ P1 (proj2 P2) ltac:(unfold uu in *; lra) Z1 Z2 ltac:(unfold uu in *; lra)) as (b & B1 & B2 & B3 & B4 & B5 & B6 & B7 & B8).
    rewrite P3 in B4. rewrite P4 in B5. rewrite Z3 in B7. rewrite Z4 in B8. clear P3 P4 Z3 Z4.
    assert (ES : sec i = Ideal (fst (bl_pair hs t (- (/ g * sin a)) ((/ g) ^ 2))) (snd (bl_pair hs t (- (/ g * sin a)) ((/ g) ^ 2))) 1 (fst (bl_pair hs t (- (g * sin a)) (g ^ 2))) (snd (bl_pair hs t (- (g * sin a)) (g ^ 2)))).
    { unfold sh_ideal. rewrite (proj2 (Nat.ltb_lt i (n / 2)) Hi). cbn zeta. rewrite pow_inv. unfold Rdiv. rewrite (Rmult_comm (sin a)), (Rmult_comm (sin a)). reflexivity. }
    exists b. split; [exact B1|]. unfold hsec_ok. rewrite ES. cbn [i_a1 i_a2 i_b1 i_b2].
    assert (W : forall x, x <= 3 * (201 / 100 * (40 * uu + 221 / 10 * v) + 39 * uu) + 8 * uu -> x <= err) by (intros x K; rewrite EV; unfold uu in *; lra).
    assert (D1 : Rabs (B2R (m_a1 b : f64) - fst (bl_pair hs t (- (/ g * sin a)) ((/ g) ^ 2))) <= err) by (apply W; unfold uu in *; lra). apply W in B5.
    split; [exact B2|]. split; [exact B3|]. split; [exact D1|]. split; [exact B5|]. split; [|split; [exact B6|split; [apply W; unfold uu in *; lra|apply W; exact B8]]].
    unfold bl_pair in D1, B5. cbn [fst snd] in D1, B5. change (if hs then / t else t) with u in *. change (if hs then -1 else 1) with (zs hs) in *.
    assert (G2 : / 729 <= (/ g) ^ 2 <= 729) by (split; [apply Rle_trans with ((/ 27) ^ 2); [lra|apply pow_incr; lra]|apply Rle_trans with (27 ^ 2); [apply pow_incr; lra|lra]]).
    assert (MS : 8 / 10000 * (1 + (/ g) ^ 2) <= / g * sin a).
    { apply Rle_trans with (/ g * (3 / 128)); [|apply Rmult_le_compat_l; lra]. set (y := / g) in *. nra. }
    destruct (ch_margin u (/ g * sin a) ((/ g) ^ 2) ST (8 / 10000) 729 (zs hs)) as [[M1 M2] M3]; try lra; try exact zsS_pm.
    - rewrite Rpow_mult_distr. rewrite <- (Rmult_1_r ((/ g) ^ 2)) at 2. apply Rmult_le_compat_l; [apply pow2_ge_0|]. pose proof (pow2_ge_0 (cos a)). lra.
    - apply (stable_near _ _ _ _ _ _ _ M2 M1 M3 D1 B5); try lra.
  Qed.
  End Pair.

  Lemma one_img (c : cpx f64) x : cap c (RtoC (- x)) (24 * uu * x) -> B2R (im c) = 0 -> / 243 <= x <= 243 ->
    exists p : C, cap (tr m hs fc c) p (201 / 100 * (24 * uu + 221 / 10 * v) + 39 * uu) /\ - fst p = bl_one hs t (- x) /\ B2R (im (tr m hs fc c)) = 0.
  Proof.
    intros A IM XR. pose proof u_S as US. destruct serr_T as (_ & _ & _ & T1). pose proof (v_low fc Hfc) as VL.
    assert (U0 : 0 < u) by (assert (0 < / ST) by (apply Rinv_0_lt_compat; lra); lra).
    assert (CX : Cmod (RtoC (- x)) = x) by (rewrite Cmod_R, Rabs_Ropp, Rabs_pos_eq; lra).
    pose proof (cap_re _ _ _ A) as (_ & CR & _). change (fst (RtoC (- x))) with (- x) in CR.
    assert (RX : 24 * uu * x <= 1 / 1000 * x) by (apply Rmult_le_compat_r; unfold uu; lra). apply Rabs_le_between in CR.
    assert (IR : B2R (im (tr m hs fc c)) = 0) by (apply (image_real m HM fc Ff Hfc); [exact (proj1 A)|exact IM|lra]).
    rewrite <- CX in A at 2. pose proof (image_ap m HM fc Ff Hfc hs c (RtoC (- x)) (24 * uu) A ltac:(unfold RtoC; cbn [fst]; lra) ltac:(unfold uu; lra) ltac:(rewrite CX; lra)) as IA.
    destruct (image_val fc Hfc hs (RtoC (- x)) ltac:(unfold RtoC; cbn [fst]; lra)) as (I0 & I1 & _). rewrite CX in *. change (fst (RtoC (- x))) with (- x) in *.
    exists (image fc hs (RtoC (- x))). split; [exact IA|]. split; [|exact IR].
    unfold bl_one. change (if hs then / t else t) with u. change (if hs then -1 else 1) with (zs hs).
    assert (UX : 0 < u * x) by (apply Rmult_lt_0_compat; lra).
    apply Rmult_eq_reg_l with 2; [|lra]. replace (2 * - fst (image fc hs (RtoC (- x)))) with (- 2 * fst (image fc hs (RtoC (- x)))) by ring. rewrite I1. field. split; [lra|]. nra.
  Qed.
  Lemma rel_cap0 (f : f64) x p : rel f (- x) p -> 0 < x -> p <= 24 * uu -> cap (c_of (N := FN) f) (RtoC (- x)) (24 * uu * x) /\ B2R (im (c_of (N := FN) f)) = 0.
  Proof.
    intros (R1 & _ & R2) X0 HP. destruct (fofZ_val 0 ltac:(lia)) as [Z1 Z2]. split; [|exact Z1]. split; [split; [exact R1|exact Z2]|]. unfold c2c. cbn [re im c_of n0 nofZ F64]. rewrite Z1.
    rewrite Rabs_Ropp, (Rabs_pos_eq x) in R2 by lra.
    match goal with |- Cmod ?e <= _ => match type of R2 with Rabs ?y <= _ => replace e with (RtoC y) by (unfold RtoC, Cminus, Cplus, Copp; cbn [fst snd]; f_equal; ring) end end.
    rewrite Cmod_R. eapply Rle_trans; [exact R2|]. apply Rmult_le_compat_r; lra.
  Qed.
  Lemma sg_val x : sh_sg (N := FN) n ga = Some x -> Nat.odd n = true /\ x = (c_of (N := FN) (sh_gp (N := FN) n ga), c_of (N := FN) (sh_gz (N := FN) n ga)).
  Proof. unfold sh_sg. destruct (Nat.odd n); [|discriminate]. intros E. inversion E. auto. Qed.
  Lemma gi_rng : / 243 <= / g <= 243.
  Proof. destruct (g_rng ga Hg n Hn) as [GR _]. split; [apply Rinv_le; lra|rewrite <- (Rinv_inv 243); apply Rinv_le; lra]. Qed.
  Lemma sg_ok x : sh_sg (N := FN) n ga = Some x -> nn (N := FN) x /\ nn (N := FN) (trq (N := FN) (tr m hs fc) x) /\ isreal (N := FN) (trq (N := FN) (tr m hs fc) x) /\ exists b, pair_bq (asg (N := FN) (trq (N := FN) (tr m hs fc) x)) = Val b /\ hsec_ok (n / 2) b.
  Proof.
    intros H. destruct (sg_val x H) as [O ->]. destruct (g_rng ga Hg n Hn) as [GR _]. pose proof gi_rng as GI. destruct serr_T as (E0 & E1 & E2 & T1). pose proof (v_low fc Hfc) as VL. pose proof serr_v as EV. pose proof u_S as US.
    destruct (rel_cap0 _ _ _ (gp_rel m HS ga Fg Hg n Hn) ltac:(lra) ltac:(unfold uu; lra)) as [A1 A2].
    destruct (rel_cap0 _ _ _ (gz_rel m HS ga Fg Hg n Hn) ltac:(lra) ltac:(unfold uu; lra)) as [Z1 Z2].
    split; [split; cbn [fst snd]; apply fin_nn; [exact (proj1 A1)|exact (proj1 Z1)]|].
    destruct (one_img _ _ A1 A2 GI) as (p & P1 & P2 & P3). destruct (one_img _ _ Z1 Z2 GR) as (z & Q1 & Q2 & Q3).
    unfold trq. cbn [fst snd]. split; [split; cbn [fst snd]; apply fin_nn; [exact (proj1 P1)|exact (proj1 Q1)]|].
    split; [split; cbn [fst snd]; cbn [neqb F64]; apply zero_Beqb; [apply P1|exact P3|apply Q1|exact Q3]|].
    destruct (single_gen m _ _ _ _ _ _ P1 P3 Q1 Q3) as (b & B1 & B2 & B3 & B4 & B5 & B6 & B7 & B8). exists b. split; [exact B1|].
    unfold hsec_ok, sh_ideal. cbn zeta. rewrite Nat.ltb_irrefl. cbn [i_a1 i_a2 i_b1 i_b2]. rewrite P2 in B4. rewrite Q2 in B7.
    assert (W : forall x, x <= 201 / 100 * (24 * uu + 221 / 10 * v) + 39 * uu -> x <= err) by (intros y K; rewrite EV; unfold uu in *; lra). apply W in B4. apply W in B7.
    rewrite B5, B8, !Rminus_eq_0, Rabs_R0. split; [exact B2|]. split; [exact B3|]. split; [exact B4|]. split; [lra|]. split; [|split; [exact B6|split; [exact B7|lra]]].
    unfold bl_one in B4. change (if hs then / t else t) with u in B4. change (if hs then -1 else 1) with (zs hs) in B4. replace (u * - / g) with (- (u * / g)) in B4 by ring.
    assert (TP : 0 < / ST) by (apply Rinv_0_lt_compat; lra).
    pose proof (one_margin (u * / g) (ST * 243) (zs hs) ltac:(lra)) as OM.
    assert (BR : / (ST * 243) <= u * / g <= ST * 243) by (split; [rewrite Rinv_mult|]; apply Rmult_le_compat; lra).
    specialize (OM BR zsS_pm).
    assert (ME : err < / (ST * 243)). { rewrite Rinv_mult. eapply Rlt_trans; [exact E1|]. unfold Rdiv. lra. }
    apply jury; [rewrite Rabs_R0; lra|]. revert B4 OM. unfold Rabs. repeat destruct (Rcase_abs _); lra.
  Qed.
  Lemma sh_setup : exists p bs r, setupN (N := FN) k FO (Some (Z.of_nat n)) q (pf_init k FO) = Ok p tt /\ length bs = bw_sections n /\
    (forall i b, nth_error bs i = Some b -> hsec_ok i b) /\
    let all := bs ++ repeat idb (Z.to_nat (maxStagesOf (snd k) FO) - length bs) in
    cas_response (N := FN) (MkCascade (Z.of_nat (length bs)) (maxStagesOf (snd k) FO) all) (fn (negb hs)) = Val r /\
    pf_cas p = MkCascade (Z.of_nat (length bs)) (maxStagesOf (snd k) FO) (scale_head (N := FN) (fdiv (fofZ 1) (ncabs FN r)) all).
  Proof.
    pose proof (half_up n) as HU. destruct (g_rng ga Hg n Hn) as [_ GR0].
    destruct (list_of (n / 2) (fun i (c : cpx f64 * cpx f64) => (lm_polar m (sh_gp (N := FN) n ga) (sh_th (N := FN) n i) = Some (fst c) /\ lm_polar m (sh_gz (N := FN) n ga) (sh_th (N := FN) n i) = Some (snd c)) /\
      cap (fst c) (- / g * sin (ch_angle n i), - / g * cos (ch_angle n i)) (40 * uu * / g) /\ cap (snd c) (- g * sin (ch_angle n i), - g * cos (ch_angle n i)) (40 * uu * g))) as (cs & LC & HC).
    { intros i Hi. assert (GR : / 27 <= g <= 27) by (apply GR0; pose proof (i2 n Hn i Hi); lia).
      assert (GI : / 27 <= / g <= 27) by (split; [apply Rinv_le; lra|rewrite <- (Rinv_inv 27); apply Rinv_le; lra]).
      destruct (polar_pt m HS n Hn i Hi _ _ _ (gp_rel m HS ga Fg Hg n Hn) ltac:(lra) ltac:(unfold uu; lra)) as (z1 & Y1 & Y2).
      destruct (polar_pt m HS n Hn i Hi _ _ _ (gz_rel m HS ga Fg Hg n Hn) ltac:(lra) ltac:(unfold uu; lra)) as (z2 & X1 & X2).
      rewrite !Ropp_involutive in *. exists (z1, z2). cbn [fst snd]. auto. }
    set (sg := sh_sg (N := FN) n ga).
    assert (LS0 : length (o1 sg) = (if Nat.odd n then 1 else 0)%nat) by (unfold sg, sh_sg; destruct (Nat.odd n); reflexivity).
    assert (IL : forall i c, nth_error cs i = Some c -> (i < n / 2)%nat) by (intros i c E; rewrite <- LC; apply nth_error_Some; congruence).
    assert (NF : List.Forall (nn (N := FN)) (cs ++ o1 sg)).
    { apply Forall_app. split; [apply List.Forall_forall; intros x Ix; apply In_nth_error in Ix; destruct Ix as [i Ei]; destruct (HC i x Ei) as (_ & A & Z); split; apply fin_nn; [exact (proj1 A)|exact (proj1 Z)]|].
      destruct sg as [x|] eqn:E; constructor; [apply (sg_ok x E)|constructor]. }
    set (ex := skipn (length cs + length (o1 sg)) (layout_storage (N := FN) FO)).
    set (ana := MkProto (N := FN) (Z.of_nat n) ga (fofZ 0) (blay (N := FN) cs sg FO ex fpi (fofZ 1))).
    assert (II : in_int (Z.of_nat n * 2) = true) by (unfold in_int, int_min, int_max; apply andb_true_intro; split; apply Z.leb_le; lia).
    assert (SL : (length cs + length (o1 sg) <= length (layout_storage (N := FN) FO))%nat).
    { unfold layout_storage. rewrite repeat_length, LC, LS0, <- HU. rewrite Z.quot_div_nonneg by lia.
      rewrite <- (Nat2Z.id ((n + 1) / 2)). apply Z2Nat.inj_le; try apply Z.div_pos; try lia. rewrite Nat2Z.inj_div, Nat2Z.inj_add. apply Z.div_le_mono; lia. }
    assert (HA : ana_design (N := FN) k (Z.of_nat n) q (pf_ana (pf_init k FO)) = Ok ana tt).
    { replace (pf_ana (pf_init (N := FN) k FO)) with (MkProto (N := FN) (-1) (fofZ 0) (fofZ 0) (MkLayout (N := FN) 0 FO (layout_storage (N := FN) FO) fpi (fofZ 1))) by (destruct hs; reflexivity).
      replace (ana_design (N := FN) k (Z.of_nat n) q) with (bw_ls_design (N := FN) (Z.of_nat n) ga) by (destruct hs; reflexivity).
      apply (ls_design_any (N := FN)); [reflexivity|exact NF|lia|exact II|exact LC| |exact SL]. intros i c E. apply (HC i c E). }
    apply (shelf_setup_any m HM q Ff Hfc n ltac:(lia) FO HFO hs cs sg ex (fofZ 1) ana hsec_ok LC LS0 HA eq_refl).
    - intros i x E. destruct (HC i x E) as (_ & A & Z). destruct (pair_pts i (IL i x E) _ _ A Z) as (G1 & G2 & b & B1 & B2). unfold trq. split; [split; cbn [fst snd]; apply fin_nn; assumption|]. exists b. split; assumption.
    - intros x E. apply (sg_ok x E).
  Qed.
End Par.

Lemma c83 m (hs : bool) (q : params (F64 m)) n FO : libm_design m -> libm_bwshelf m -> FloatSpec.is_fin (q_fc q : f64) -> FloatSpec.is_fin (q_gain q : f64) ->
  sh_cut_ok (B2R (q_fc q : f64)) -> sh_gain_ok (B2R (q_gain q : f64)) -> (1 <= n <= 32)%nat -> (Z.of_nat n <= FO)%Z ->
  let k := (Bw, if hs then HSh else LSh) in let f := B2R (q_fc q : f64) in let gain := B2R (q_gain q : f64) in
  exists p, setupN (N := F64 m) k FO (Some (Z.of_nat n)) q (pf_init k FO) = Ok p tt /\
    c_numStages (pf_cas p) = Z.of_nat (bw_sections n) /\
    forall i, (i < bw_sections n)%nat -> let d := sh_ideal hs f gain n i in exists b, cas_index (pf_cas p) (Z.of_nat i) = Val b /\
      FloatSpec.is_fin (m_a1 b : f64) /\ FloatSpec.is_fin (m_a2 b : f64) /\
      Rabs (B2R (m_a1 b : f64) - i_a1 d) <= sh_error f /\ Rabs (B2R (m_a2 b : f64) - i_a2 d) <= sh_error f /\
      stable_poly (B2R (m_a1 b : f64)) (B2R (m_a2 b : f64)) /\
      (i <> 0%nat -> FloatSpec.is_fin (m_b0 b : f64) /\ FloatSpec.is_fin (m_b1 b : f64) /\ FloatSpec.is_fin (m_b2 b : f64) /\
        B2R (m_b0 b : f64) = 1 /\ Rabs (B2R (m_b1 b : f64) - i_b1 d) <= sh_error f /\ Rabs (B2R (m_b2 b : f64) - i_b2 d) <= sh_error f).
Proof.
  intros HM HC Ff Fd Hf Hd Hn HFO k f db.
  destruct (sh_setup m HM HC q Ff Fd Hf Hd n Hn FO HFO hs) as (p & bs & r & E & L & S & _ & C). exists p. split; [exact E|]. rewrite C. cbn [c_numStages]. split; [rewrite L; reflexivity|].
  intros i Hi. destruct (nth_error bs i) as [b|] eqn:Eb; [|apply nth_error_None in Eb; lia]. destruct (S i b Eb) as (F & _ & A1 & A2 & ST & X1 & X2 & X3).
  destruct F as (F1 & F2 & F3 & F4 & F5).
  destruct i as [|i].
  - destruct bs as [|b' bs]; [discriminate|]. inversion Eb; subst b'. eexists. split; [apply (index_at _ _ _ 0); [lia|reflexivity]|]. cbn [bq_applyScale m_a1 m_a2 m_b0 m_b1 m_b2].
    split; [exact F1|]. split; [exact F2|]. split; [exact A1|]. split; [exact A2|]. split; [exact ST|]. intros Q. congruence.
  - destruct bs as [|b' bs]; [discriminate|]. cbn [nth_error] in Eb. exists b. split.
    + apply index_at; [lia|]. cbn [app scale_head nth_error]. rewrite nth_error_app1 by (apply nth_error_Some; congruence). exact Eb.
    + repeat split; assumption.
Qed.
