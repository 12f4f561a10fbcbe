(** Proofs: the scale factor of Chebyshev low and high pass designs in binary64. *)
From Coq Require Import ZArith List Bool Reals Lra Lia Floats.SpecFloat.
From Coquelicot Require Import Coquelicot.
From Flocq Require Import Core.Zaux Core.Raux Core.Defs Core.Generic_fmt IEEE754.BinarySingleNaN.
From Verif Require Import Num Outcome Types Biquad Cascade Transforms Butterworth Chebyshev PoleFilter Float64 FloatSpec FloatProofs SampleLemmas SigSpec StabProofs
  RoundSpec RoundProofs DblPi DblSpec DblProofs DblLemmas RbjShProofs RelDbl LayoutProofs BuildProofs BuildAny BwDblSpec CplxDbl BwDbl BwDbl2 BwDbl3 BwDblLemmas BwExact BwScale BwDblFinal
  BwScaleLemmas SimDbl SimSetup ChainSpec ChCoefSpec ChDblSpec ChDbl ChDbl2 ChDbl3 ChDbl4 ChDblLemmas ChScaleSpec.
Import ListNotations.
Local Open Scope R_scope.

Definition tame (hp : bool) (d : ideal) : Prop :=
  Rabs (i_a1 d) <= 2 /\ Rabs (i_a2 d) <= 1 /\ i_b0 d = 1 /\ Rabs (i_b1 d) <= 2 /\ Rabs (i_b2 d) <= 1 /\
  0 < tpv d (zz hp) <= 4 /\ 0 < btv d (zz hp) <= 4.
Lemma tame_of (hp : bool) d : Rabs (i_a1 d) <= 2 -> Rabs (i_a2 d) <= 1 -> i_b0 d = 1 -> Rabs (i_b1 d) <= 2 -> Rabs (i_b2 d) <= 1 -> 0 < tpv d (zz hp) -> 0 < btv d (zz hp) -> tame hp d.
Proof.
  intros A1 A2 B0 B1 B2 P Q. unfold tame. repeat split; try assumption; unfold tpv, btv, zz in *; rewrite ?B0.
  - revert B1 B2. unfold Rabs. destruct (Rcase_abs _), (Rcase_abs _), hp; lra.
  - revert A1 A2. unfold Rabs. destruct (Rcase_abs _), (Rcase_abs _), hp; lra.
Qed.
Lemma frac_abs x b d : 0 < d -> Rabs x <= b * d -> Rabs (x / d) <= b.
Proof.
  intros D H. assert (ID : 0 < / d) by (apply Rinv_0_lt_compat; exact D). unfold Rdiv. rewrite Rabs_mult, (Rabs_pos_eq (/ _)) by lra.
  apply Rmult_le_reg_r with d; [exact D|]. rewrite Rmult_assoc, Rinv_l by lra. lra.
Qed.
Lemma pair_tame hp t g mm w : 0 < t -> 0 <= g -> g ^ 2 <= mm -> 0 < mm -> (match w with Some y => y <> 0 | None => True end) -> tame hp (an_pair hp t (- g) mm w).
Proof.
  intros Ht Hg Hgm Hm Hw. unfold an_pair. set (u := if hp then / t else t). assert (U : 0 < u) by (unfold u; destruct hp; [apply Rinv_0_lt_compat|]; exact Ht).
  set (x := u ^ 2 * mm). assert (X : 0 < x) by (unfold x; apply Rmult_lt_0_compat; [apply pow_lt; lra|exact Hm]).
  assert (UG : (u * g) ^ 2 <= x). { unfold x. replace ((u * g) ^ 2) with (u ^ 2 * g ^ 2) by ring. apply Rmult_le_compat_l; [apply pow2_ge_0|exact Hgm]. }
  assert (GU : 0 <= u * g) by (apply Rmult_le_pos; lra). set (y := u * g) in *.
  set (d := 1 - 2 * u * - g + x). assert (DY : d = 1 + 2 * y + x) by (unfold d, y; ring). assert (D0 : 1 <= d) by lra.
  assert (NY : 1 + 2 * u * - g + x = 1 - 2 * y + x) by (unfold y; ring). rewrite NY.
  assert (Y1 : 2 * y <= 1 + x) by (pose proof (pow2_ge_0 (1 - y)); simpl in *; lra).
  set (c := match w with None => -1 | Some w => (1 - u ^ 2 * w ^ 2) / (1 + u ^ 2 * w ^ 2) end).
  assert (C : -1 <= c < 1).
  { unfold c. destruct w as [y0|]; [|lra]. assert (P : 0 < u ^ 2 * y0 ^ 2) by (apply Rmult_lt_0_compat; [apply pow_lt; lra|]; simpl; rewrite Rmult_1_r; nra).
    set (s := u ^ 2 * y0 ^ 2) in *. assert (I : 0 < / (1 + s)) by (apply Rinv_0_lt_compat; lra).
    replace ((1 - s) / (1 + s)) with (1 - 2 * (s * / (1 + s))) by (field; lra). assert (0 < s * / (1 + s)) by (apply Rmult_lt_0_compat; lra).
    assert (s * / (1 + s) <= 1); [|lra]. apply Rmult_le_reg_r with (1 + s); [lra|]. rewrite Rmult_assoc, Rinv_l by lra. lra. }
  apply tame_of; unfold tpv, btv, zz; cbn [i_a1 i_a2 i_b0 i_b1 i_b2].
  - apply frac_abs; [lra|]. apply Rabs_le. destruct hp; lra.
  - apply frac_abs; [lra|]. apply Rabs_le. lra.
  - reflexivity.
  - apply Rabs_le. destruct hp; lra.
  - rewrite Rabs_R1. lra.
  - destruct hp; lra.
  - replace (1 + (if hp then -1 else 1) * (2 * (if hp then -1 else 1) * (x - 1) / d) + (1 - 2 * y + x) / d) with (4 * x / d) by (rewrite DY; destruct hp; field; lra).
    apply Rdiv_lt_0_compat; lra.
Qed.
Lemma single_tame hp t x : 0 < t -> 0 < x -> tame hp (an_single hp t (- x)).
Proof.
  intros Ht Hx. unfold an_single. set (u := if hp then / t else t). assert (U : 0 < u) by (unfold u; destruct hp; [apply Rinv_0_lt_compat|]; exact Ht).
  assert (Y : 0 < u * x) by (apply Rmult_lt_0_compat; assumption). replace (u * - x) with (- (u * x)) by ring. set (y := u * x) in *.
  apply tame_of; unfold tpv, btv, zz; cbn [i_a1 i_a2 i_b0 i_b1 i_b2].
  - apply frac_abs; [lra|]. apply Rabs_le. destruct hp; lra.
  - rewrite Rabs_R0; lra.
  - reflexivity.
  - apply Rabs_le. destruct hp; lra.
  - rewrite Rabs_R0; lra.
  - destruct hp; lra.
  - replace (1 + (if hp then -1 else 1) * ((if hp then -1 else 1) * (-1 - - y) / (1 - - y)) + 0) with (2 * y / (1 + y)) by (destruct hp; field; lra).
    apply Rdiv_lt_0_compat; lra.
Qed.
Lemma rsum_ge (g : nat -> R) l i : (forall j, In j l -> 0 <= g j) -> In i l -> g i <= fold_right Rplus 0 (map g l).
Proof.
  induction l as [|j l IH]; intros H Hi; [destruct Hi|]. cbn [map fold_right]. assert (P : 0 <= fold_right Rplus 0 (map g l)).
  { clear IH Hi. assert (H' : forall j, In j l -> 0 <= g j) by (intros k Hk; apply H; right; exact Hk). clear H. induction l as [|k l IH]; cbn [map fold_right]; [lra|].
    pose proof (H' k (or_introl eq_refl)). specialize (IH (fun z hz => H' z (or_intror hz))). lra. }
  pose proof (H j (or_introl eq_refl)). destruct Hi as [->|Hi]; [lra|]. specialize (IH (fun z hz => H z (or_intror hz)) Hi). lra.
Qed.

Section Par.
  Variable m : libm.
  Notation FN := (F64 m).
  Hypothesis HM : libm_design m.
  Hypothesis HR : libm_response m.
  Hypothesis HC : libm_cheb m.
  Hypothesis HP10 : libm_pow10 m.
  Variable second : bool.
  Variable q : params FN.
  Notation fc := (q_fc q : f64).
  Notation db := (q_db q : f64).
  Hypothesis Ff : is_finite fc = true.
  Hypothesis Fd : is_finite db = true.
  Hypothesis Hc : ch_cut_ok (B2R fc).
  Hypothesis Hd : ch_db_ok second (B2R db).
  Variable n : nat.
  Hypothesis Hn : (1 <= n <= 24)%nat.
  Variable FO : Z.
  Hypothesis HFO : (Z.of_nat n <= FO)%Z.
  Variable hp : bool.
  Hypothesis HE : ch_scale_error second hp (B2R fc) (B2R db) n <= / 8.
  Notation k := (if second then Ch2 else Ch1, if hp then HP else LP).
  Notation sec := (ch_ideal second hp (B2R fc) (B2R db) n).
  Notation err := (ch_error (B2R fc)).
  Notation t := (tan (PI * B2R fc)).
  Notation cond := (ch_cond second hp (B2R fc) (B2R db) n).

  Lemma Hn32 : (1 <= n <= 32)%nat.
  Proof. lia. Qed.
  Lemma t_pos : 0 < t.
  Proof. pose proof (t_rng fc (Hf m q Hc)). lra. Qed.
  Lemma sec_tame i : (i < bw_sections n)%nat -> tame hp (sec i).
  Proof.
    intros Hi. pose proof t_pos as T. unfold ch_ideal. cbn zeta. destruct (Nat.ltb_spec i (n / 2)) as [L|L].
    - destruct (spole_facts m second q Hd n Hn32 i L) as (_ & F2 & F3 & _ & F5 & F6). cbn zeta in *. rewrite F6 in F3, F5.
      destruct (tr_low n Hn32 i L) as (_ & L2 & _).
      set (mm := (sinh (ch_width second n (B2R db)) * sin (ch_angle n i)) ^ 2 + (cosh (ch_width second n (B2R db)) * cos (ch_angle n i)) ^ 2) in *.
      set (s := sinh (ch_width second n (B2R db)) * sin (ch_angle n i)) in *.
      destruct second.
      + unfold Rdiv. rewrite <- Ropp_mult_distr_l. apply pair_tame; try assumption; [lra|]. apply Rinv_neq_0_compat. lra.
      + unfold Rdiv in F2, F3. rewrite Rinv_1, Rmult_1_r in F2, F3. apply pair_tame; try assumption; [lra|exact I].
    - pose proof (S_rng second db Hd n Hn32) as SR. replace (if second then - / sinh (ch_width second n (B2R db)) else - sinh (ch_width second n (B2R db))) with
        (- (if second then / sinh (ch_width second n (B2R db)) else sinh (ch_width second n (B2R db)))) by (destruct second; reflexivity).
      apply single_tame; [exact T|]. destruct second; [apply Rinv_0_lt_compat|]; lra.
  Qed.
  Lemma cond_ge i : (i < bw_sections n)%nat -> / btv (sec i) (zz hp) + / tpv (sec i) (zz hp) <= cond.
  Proof.
    intros Hi. unfold ch_cond. refine (Rle_trans _ _ _ _ (rsum_ge (fun i => peak_cond hp (sec i)) (seq 0 (bw_sections n)) i _ _)).
    - right. reflexivity.
    - intros j Hj. apply in_seq in Hj. destruct (sec_tame j ltac:(lia)) as (_ & _ & _ & _ & _ & [T _] & [B _]). unfold peak_cond. cbn zeta.
      change (0 <= / btv (sec j) (zz hp) + / tpv (sec j) (zz hp)). pose proof (Rinv_0_lt_compat _ T). pose proof (Rinv_0_lt_compat _ B). lra.
    - apply in_seq. lia.
  Qed.
  Lemma nsec : (1 <= bw_sections n <= 12)%nat /\ (bw_sections n <= n)%nat.
  Proof.
    split; [split|]; [apply Nat.div_le_lower_bound; lia| |apply Nat.div_le_upper_bound; lia].
    apply Nat.lt_succ_r. apply Nat.div_lt_upper_bound; lia.
  Qed.
  Lemma cnr : 1 <= INR n <= 24.
  Proof. destruct Hn as [A B]. apply le_INR in A. apply le_INR in B. rewrite (INR_IZR_INZ 24) in B. simpl in *. lra. Qed.
  Notation E0 := (INR n * cond * err).
  Lemma err_low : / 2 ^ 35 <= err /\ 262144 * uu <= err /\ err <= / 2 ^ 28.
  Proof.
    unfold ch_error, uu. unfold ch_cut_ok in Hc. assert (I : 1 <= / (1 - 2 * B2R fc)) by (rewrite <- Rinv_1 at 1; apply Rinv_le; lra).
    assert (J : / (1 - 2 * B2R fc) <= / (/ 128)) by (apply Rinv_le; lra). unfold Rdiv. set (x := / (1 - 2 * B2R fc)) in *. lra.
  Qed.
  Lemma E0_small : E0 <= / 128 /\ / 2 <= cond /\ / 2 * err <= E0 /\ cond * err <= E0.
  Proof.
    unfold ch_scale_error in HE. pose proof err_low as EL. pose proof cnr as N. pose proof nsec as NS.
    assert (C : / 2 <= cond). { pose proof (cond_ge 0 ltac:(lia)) as Q. destruct (sec_tame 0 ltac:(lia)) as (_ & _ & _ & _ & _ & T & B).
      pose proof (Rinv_le _ _ (proj1 T) (proj2 T)). pose proof (Rinv_le _ _ (proj1 B) (proj2 B)). lra. }
    assert (P : cond * err <= INR n * cond * err). { rewrite Rmult_assoc. rewrite <- (Rmult_1_l (cond * err)) at 1. apply Rmult_le_compat_r; [apply Rmult_le_pos; lra|lra]. }
    assert (P2 : / 2 * err <= cond * err) by (apply Rmult_le_compat_r; lra). repeat split; lra.
  Qed.
  Definition cdd : R := 203 / 100 * (cond * err).
  Lemma cstage_rap z1 z2 b i : cap z1 (RtoC (zz hp)) (16 * uu) -> cap z2 (RtoC 1) (16 * uu) -> (i < bw_sections n)%nat -> csec_ok m second q n hp i b ->
    rap (stage_top (N := FN) z1 z2 b) (tpv (sec i) (zz hp)) cdd /\ rap (stage_bot (N := FN) z1 z2 b) (btv (sec i) (zz hp)) cdd /\
    / 2 ^ 28 <= tpv (sec i) (zz hp) <= 4 /\ / 2 ^ 28 <= btv (sec i) (zz hp) <= 4.
  Proof.
    intros Z1 Z2 Hi ((F1 & F2 & F3 & F4 & F5) & A0 & A1 & A2 & _ & B0 & B1 & B2). pose proof (cond_ge i Hi) as CG.
    destruct (sec_tame i Hi) as (I1 & I2 & I3 & I4 & I5 & I6 & I7). destruct E0_small as (E1 & E2 & E3 & E4). pose proof err_low as EL.
    set (d := sec i) in *. assert (U0 : 0 < uu) by (unfold uu; lra).
    assert (ZH : zz hp = 1 \/ zz hp = -1) by (unfold zz; destruct hp; auto).
    assert (AP : forall (x : f64) r S e, is_finite x = true -> Rabs (B2R x - r) <= e -> Rabs r <= S -> ap (fdiv (fmul x (m_a0 b : f64)) (m_a0 b : f64)) r S e).
    { intros x r S e Fx Ex Rx. destruct (coef_one x (m_a0 b) Fx A0) as [Q1 Q2]. split; [exact Q1|]. split; [rewrite Q2; exact Ex|exact Rx]. }
    set (eb := if second then err / 64 else 0) in *. assert (EB : 0 <= eb <= err / 64) by (unfold eb; destruct second; lra).
    assert (TOP : cap (stage_top (N := FN) z1 z2 b) (RtoC (tpv d (zz hp))) (201 / 100 * eb + 130 * uu)).
    { unfold stage_top, getB0, getB1, getB2, getA0. cbn [nmul ndiv F64]. apply poly_ap; try assumption; [lra| | |].
      - apply AP; [exact F3|rewrite B0, I3, Rminus_eq_0, Rabs_R0; lra|rewrite I3, Rabs_R1; lra].
      - apply AP; [exact F4|exact B1|exact I4].
      - apply AP; [exact F5|exact B2|exact I5]. }
    assert (BOT : cap (stage_bot (N := FN) z1 z2 b) (RtoC (btv d (zz hp))) (201 / 100 * err + 130 * uu)).
    { unfold stage_bot, getA1, getA2, getA0. cbn [nmul ndiv F64]. apply poly_ap; try assumption; [lra| | |].
      - apply (ap_ofZ 1 1); [lia|rewrite Rabs_R1; lra].
      - apply AP; [exact F1|exact A1|exact I1].
      - apply AP; [exact F2|exact A2|exact I2]. }
    pose proof (Rinv_0_lt_compat _ (proj1 I6)) as V6. pose proof (Rinv_0_lt_compat _ (proj1 I7)) as V7.
    assert (G : forall x c, 0 < x -> / x <= cond -> cap c (RtoC x) (2011 / 1000 * err) -> rap c x cdd /\ / 2 ^ 28 <= x).
    { intros x c Hx Hi' [Q1 Q2]. assert (CX : 1 <= cond * x). { replace 1 with (/ x * x) by (apply Rinv_l; lra). apply Rmult_le_compat_r; lra. }
      split; [split; [exact Q1|]; eapply Rle_trans; [exact Q2|]|].
      - unfold cdd. replace (203 / 100 * (cond * err) * x) with (203 / 100 * err * (cond * x)) by ring. assert (203 / 100 * err * 1 <= 203 / 100 * err * (cond * x)) by (apply Rmult_le_compat_l; lra). lra.
      - assert (CE : cond * err <= / 128) by lra. assert (CE2 : cond * / 2 ^ 35 <= / 128) by (eapply Rle_trans; [|exact CE]; apply Rmult_le_compat_l; lra).
        assert (CC : cond <= 2 ^ 28) by lra. assert (IC : / 2 ^ 28 <= / cond) by (apply Rinv_le; lra). eapply Rle_trans; [exact IC|].
        rewrite <- (Rinv_inv x). apply Rinv_le; [apply Rinv_0_lt_compat; exact Hx|exact Hi']. }
    assert (W : forall c r e, cap c r e -> e <= 2011 / 1000 * err -> cap c r (2011 / 1000 * err)) by (intros c r e [Q1 Q2] He; split; [exact Q1|lra]).
    destruct (G _ _ (proj1 I6) ltac:(lra) (W _ _ _ TOP ltac:(lra))) as [G1 G2]. destruct (G _ _ (proj1 I7) ltac:(lra) (W _ _ _ BOT ltac:(lra))) as [G3 G4].
    split; [exact G1|]. split; [exact G3|]. split; split; try assumption; apply I6 || apply I7.
  Qed.
  Lemma cscale_prod : let l := map (fun i => (tpv (sec i) (zz hp), btv (sec i) (zz hp))) (seq 0 (bw_sections n)) in
    ch_level second (B2R db) n * (fold_right Rmult 1 (map snd l) / fold_right Rmult 1 (map fst l)) = ch_scale second hp (B2R fc) (B2R db) n /\ 0 < fold_right Rmult 1 (map snd l) /\ 0 < fold_right Rmult 1 (map fst l).
  Proof.
    intros l. unfold l. rewrite !map_map. cbn [fst snd].
    set (tp := fun i => tpv (sec i) (zz hp)). set (bt := fun i => btv (sec i) (zz hp)).
    assert (FP : List.Forall (fun i => 0 < tp i /\ 0 < bt i) (seq 0 (bw_sections n))).
    { apply List.Forall_forall. intros i Hi. apply in_seq in Hi. destruct (sec_tame i ltac:(lia)) as (_ & _ & _ & _ & _ & [T _] & [B _]). split; assumption. }
    assert (P1 : 0 < fold_right Rmult 1 (map tp (seq 0 (bw_sections n)))) by (apply rprod_pos, Forall_map; eapply List.Forall_impl; [|exact FP]; intros i [Q _]; exact Q).
    assert (P2 : 0 < fold_right Rmult 1 (map bt (seq 0 (bw_sections n)))) by (apply rprod_pos, Forall_map; eapply List.Forall_impl; [|exact FP]; intros i [_ Q]; exact Q).
    split; [|split; assumption]. pose proof (rprod_div tp bt _ FP) as Q. unfold ch_scale. f_equal. transitivity (fold_right Rmult 1 (map (fun x : nat => bt x / tp x) (seq 0 (bw_sections n)))); [|reflexivity].
    rewrite <- Q. field. split; lra.
  Qed.

  Lemma level_rng : / 2 ^ 30 <= ch_level second (B2R db) n <= 1.
  Proof.
    unfold ch_level, ch_db_ok in *. destruct second; [lra|]. destruct (Nat.odd n); [lra|]. pose proof ln10_rng as L. unfold Rpower.
    assert (A : - (4) <= - B2R db / 20 * ln 10 <= 0) by nra. split.
    - eapply Rle_trans; [|apply exp_mono, A]. rewrite exp_Ropp. pose proof exp4. pose proof (exp_pos 4). apply Rle_trans with (/ 81); [lra|apply Rinv_le; assumption].
    - rewrite <- exp_0. apply exp_mono, A.
  Qed.
  Lemma gain_ap : ap (ch_gain m second q n) (ch_level second (B2R db) n) (ch_level second (B2R db) n) (32 * uu * ch_level second (B2R db) n).
  Proof.
    pose proof level_rng as LR. unfold ch_gain, c1_gain, ch_level, ch_db_ok in *. assert (U0 : 0 < uu <= / 2 ^ 53) by (unfold uu; lra).
    assert (O : ap (fofZ 1) 1 1 (32 * uu * 1)) by (eapply ap_weak; [apply (ap_ofZ 1 1); [lia|rewrite Rabs_R1; lra]|lra|lra]).
    destruct second; [exact O|]. cbn [nofZ F64]. destruct (Nat.odd n); [exact O|]. cbn [npow ndiv nopp F64]. pose proof ln10_rng as LN. set (r := - B2R db / 20).
    assert (RR : -12 / 10 <= r <= - 1 / 1280) by (unfold r; lra).
    assert (RX : rel (fdiv (Bopp db) (fofZ 20)) r (2 * uu)).
    { unfold r. eapply rel_div; [apply rel_opp, rel_val; [exact Fd|apply mid_of; lra]|apply rel_ofZ; [apply mid_of; lra|lia]| |lra|lra|lra].
      unfold mid. rewrite Rabs_left by lra. lra. }
    destruct RX as (X1 & _ & X2). set (x := fdiv (Bopp db) (fofZ 20)) in *. rewrite (Rabs_left r) in X2 by lra.
    assert (X3 : Rabs (B2R x - r) <= 24 / 10 * uu) by (assert (2 * uu * - r <= 2 * uu * (12 / 10)) by (apply Rmult_le_compat_l; lra); lra).
    pose proof X3 as X4. apply Rabs_le_between in X4. destruct (HP10 x X1 ltac:(lra)) as [P1 P2]. unfold Rpower in *. fold r in LR |- *.
    assert (D : Rabs (B2R x * ln 10 - r * ln 10) <= 56 / 10 * uu).
    { replace (B2R x * ln 10 - r * ln 10) with ((B2R x - r) * ln 10) by ring. rewrite Rabs_mult, (Rabs_pos_eq (ln 10)) by lra.
      apply Rle_trans with (24 / 10 * uu * (231 / 100)); [apply Rmult_le_compat; try lra; apply Rabs_pos|lra]. }
    pose proof (exp_rel _ _ ltac:(eapply Rle_trans; [exact D|lra]) : Rabs (exp (B2R x * ln 10) - exp (r * ln 10)) <= _) as ER.
    set (a := exp (B2R x * ln 10)) in *. set (b := exp (r * ln 10)) in *. assert (B0 : 0 < b) by apply exp_pos. assert (A0 : 0 < a) by apply exp_pos.
    assert (ER2 : Rabs (a - b) <= 6 * uu * b). { eapply Rle_trans; [exact ER|]. apply Rmult_le_compat_r; lra. }
    rewrite (Rabs_pos_eq a) in P2 by lra. assert (UB : uu * b <= / 2 ^ 53 * b) by (apply Rmult_le_compat_r; lra). pose proof ER2 as ER3. apply Rabs_le_between in ER3.
    split; [exact P1|]. split; [|rewrite Rabs_pos_eq; lra].
    match goal with |- Rabs (?y - b) <= _ => replace (y - b) with ((y - a) + (a - b)) by ring end. eapply Rle_trans; [apply Rabs_triang|]. unfold uu in *. lra.
  Qed.

  Lemma c75_setup : exists p bs s, setupN (N := FN) k FO (Some (Z.of_nat n)) q (pf_init k FO) = Ok p tt /\ length bs = bw_sections n /\
    (forall i b, nth_error bs i = Some b -> csec_ok m second q n hp i b) /\
    pf_cas p = MkCascade (Z.of_nat (length bs)) (maxStagesOf (snd k) FO) (scale_head (N := FN) s (bs ++ repeat idb (Z.to_nat (maxStagesOf (snd k) FO) - length bs))) /\
    let S := ch_scale second hp (B2R fc) (B2R db) n in ap s S S (575 / 100 * E0 * S) /\ / 2 ^ 400 <= S <= 2 ^ 370.
  Proof.
    destruct (ch_setup m HM HC second q Ff Fd Hc Hd n Hn32 FO HFO hp) as (p & bs & r & E & L & S & R & C). cbn zeta in R, C.
    destruct (points m hp HM) as (z1 & z2 & P1 & C1 & P2 & C2).
    set (l := map (fun i => (tpv (sec i) (zz hp), btv (sec i) (zz hp))) (seq 0 (bw_sections n))).
    assert (F : Forall2 (fun b tb => rap (stage_top (N := FN) z1 z2 b) (fst tb) cdd /\ rap (stage_bot (N := FN) z1 z2 b) (snd tb) cdd /\
      / 2 ^ 28 <= fst tb <= 4 /\ / 2 ^ 28 <= snd tb <= 4) bs l).
    { apply F2_nth; [unfold l; rewrite map_length, seq_length; exact L|]. intros i b tb Eb Et.
      assert (Hi : (i < bw_sections n)%nat) by (rewrite <- L; apply nth_error_Some; congruence).
      unfold l in Et. rewrite nth_error_map, (nth_error_nth' _ 0%nat), seq_nth in Et by (try rewrite seq_length; exact Hi). cbn [option_map Nat.add] in Et. inversion Et; subst tb. cbn [fst snd].
      apply cstage_rap; try assumption. apply S. exact Eb. }
    assert (U0 : 0 < uu) by (unfold uu; lra). destruct E0_small as (E1 & E2 & E3 & E4). pose proof err_low as EL. pose proof cnr as NR. destruct nsec as [NS NS1].
    assert (CE : 0 <= cond * err) by (apply Rmult_le_pos; lra). set (D := 9 / 8 * cdd + / 2 ^ 46).
    assert (CE2 : / 2 * err <= cond * err) by (apply Rmult_le_compat_r; lra).
    assert (D46 : / 2 ^ 46 = 128 * uu) by (unfold uu; lra).
    assert (AL : INR (length bs) * D <= 231 / 100 * E0).
    { rewrite L. apply Rle_trans with (INR n * (231 / 100 * (cond * err))); [|lra]. apply Rmult_le_compat; [apply pos_INR|unfold D, cdd; lra|apply le_INR; exact NS1|].
      unfold D, cdd. lra. }
    assert (P4 : 4 ^ length bs <= 2 ^ 24). { rewrite L. apply Rle_trans with (4 ^ 12); [apply Rle_pow; [lra|lia]|lra]. }
    assert (P28 : / 2 ^ 336 <= (/ 2 ^ 28) ^ length bs).
    { rewrite L, pow_inv, <- pow_mult. apply Rinv_le; [apply pow_lt; lra|]. apply Rle_pow; [lra|lia]. }
    destruct (loop_rap m HR z1 z2 cdd ltac:(unfold cdd; lra) bs l (repeat idb (Z.to_nat (maxStagesOf (snd k) FO) - length bs)) F (c_of (N := FN) (fofZ 1)) (c_of (N := FN) (fofZ 1)) 1 1 0 1 1) as (ch & cb & RL & R1 & R2 & R3 & R4).
    - apply one_rap.
    - apply one_rap.
    - lra.
    - fold D. lra.
    - lra.
    - lra.
    - lra.
    - assert (2 ^ 24 <= 2 ^ 300) by (apply Rle_pow; [lra|lia]). lra.
    - assert (/ 2 ^ 800 <= / 2 ^ 336) by (apply Rinv_le; [apply pow_lt; lra|apply Rle_pow; [lra|lia]]). lra.
    - fold D in R1, R2. rewrite !Rplus_0_l in *. rewrite !Rmult_1_l in *.
      destruct cscale_prod as (SP & SQ1 & SQ2). fold l in SP, SQ1, SQ2.
      set (X := fold_right Rmult 1 (map fst l)) in *. set (Y := fold_right Rmult 1 (map snd l)) in *.
      assert (Q24 : 2 ^ 24 <= 2 ^ 30) by lra. assert (Q340 : / 2 ^ 340 <= / 2 ^ 336) by (apply Rinv_le; [apply pow_lt; lra|apply Rle_pow; [lra|lia]]).
      assert (DP : 0 <= INR (length bs) * D) by (apply Rmult_le_pos; [apply pos_INR|unfold D, cdd; lra]).
      pose proof level_rng as LR.
      pose proof (scale_final_g m HR (proj2 (proj2 HM)) _ _ _ ch cb X Y _ R1 R2 ltac:(lra) ltac:(lra) ltac:(lra) gain_ap LR ltac:(unfold uu; lra)) as SF. rewrite SP in SF.
      assert (RV : r = lm_cdiv m ch cb).
      { unfold cas_response, othrow_if, obind in R.
        replace (ngtb (N := FN) (fn hp) (nlit FN 1 2)) with false in R by (symmetry; unfold fn, wn; destruct hp; vm_compute; reflexivity).
        replace (nltb FN (fn hp) (nofZ FN 0)) with false in R by (symmetry; unfold fn, wn; destruct hp; vm_compute; reflexivity).
        cbn [nofZ nmul nopp npi npolar F64] in R. rewrite P1, P2 in R. cbn [oor_ub c_stages c_numStages] in R. rewrite Nat2Z.id, RL in R. inversion R. reflexivity. }
      exists p, bs, (fdiv (ch_gain m second q n) (ncabs FN r)). split; [exact E|]. split; [exact L|]. split; [exact S|]. split; [exact C|]. cbn zeta.
      assert (PW : 2 ^ 340 * 2 ^ 30 = 2 ^ 370) by (rewrite <- pow_add; reflexivity). assert (PW2 : / 2 ^ 400 = / 2 ^ 30 * / 2 ^ 370) by (rewrite <- Rinv_mult, <- pow_add; reflexivity).
      assert (IV : / X <= 2 ^ 340). { rewrite <- (Rinv_inv (2 ^ 340)). apply Rinv_le; [apply Rinv_0_lt_compat, pow_lt; lra|lra]. }
      assert (IV' : / 2 ^ 30 <= / X). { apply Rinv_le; lra. }
      assert (YX : / 2 ^ 370 <= Y / X <= 2 ^ 370).
      { unfold Rdiv. rewrite <- PW. split.
        - rewrite Rinv_mult. apply Rmult_le_compat; try lra; left; apply Rinv_0_lt_compat, pow_lt; lra.
        - rewrite (Rmult_comm (2 ^ 340)). apply Rmult_le_compat; lra. }
      assert (PY : 0 < / 2 ^ 370) by (apply Rinv_0_lt_compat, pow_lt; lra).
      assert (SR : / 2 ^ 400 <= ch_scale second hp (B2R fc) (B2R db) n <= 2 ^ 370).
      { rewrite <- SP, PW2. split; [apply Rmult_le_compat; lra|]. apply Rle_trans with (1 * (Y / X)); [apply Rmult_le_compat_r; lra|lra]. }
      split; [|exact SR]. assert (P4S : 0 < / 2 ^ 400) by (apply Rinv_0_lt_compat, pow_lt; lra).
      rewrite RV. eapply ap_weak; [exact SF|lra|]. apply Rmult_le_compat_r; [lra|]. lra.
  Qed.
End Par.

Lemma c75 m (second hp : bool) (q : params (F64 m)) n FO : libm_design m -> libm_response m -> libm_cheb m -> libm_pow10 m -> FloatSpec.is_fin (q_fc q : f64) -> FloatSpec.is_fin (q_db q : f64) ->
  ch_cut_ok (B2R (q_fc q : f64)) -> ch_db_ok second (B2R (q_db q : f64)) -> (1 <= n <= 24)%nat -> (Z.of_nat n <= FO)%Z ->
  let k := (if second then Ch2 else Ch1, if hp then HP else LP) in let f := B2R (q_fc q : f64) in let db := B2R (q_db q : f64) in
  ch_scale_error second hp f db n <= / 8 ->
  exists p b, setupN (N := F64 m) k FO (Some (Z.of_nat n)) q (pf_init k FO) = Ok p tt /\ cas_index (pf_cas p) 0 = Val b /\
    let d := ch_ideal second hp f db n 0 in let s := ch_scale second hp f db n in
    FloatSpec.is_fin (m_b0 b : f64) /\ FloatSpec.is_fin (m_b1 b : f64) /\ FloatSpec.is_fin (m_b2 b : f64) /\
    Rabs (B2R (m_b0 b : f64) - i_b0 d * s) <= ch_scale_error second hp f db n * s /\
    Rabs (B2R (m_b1 b : f64) - i_b1 d * s) <= ch_scale_error second hp f db n * s /\
    Rabs (B2R (m_b2 b : f64) - i_b2 d * s) <= ch_scale_error second hp f db n * s.
Proof.
  intros HM HR HC HP Ff Fd Hf Hd Hn HFO k f db HE.
  destruct (c75_setup m HM HR HC HP second q Ff Fd Hf Hd n Hn FO HFO hp HE) as (p & bs & s & E & L & S & C & A & SR). cbn zeta in A, SR. destruct (nsec n Hn) as [NS _].
  destruct bs as [|b bs]; [cbn [length] in L; lia|].
  exists p, (bq_applyScale (N := F64 m) s b). split; [exact E|]. split; [rewrite C; apply (index_at _ _ _ 0); [cbn [length]; lia|reflexivity]|].
  destruct (S 0%nat b eq_refl) as ((_ & _ & F3 & F4 & F5) & _ & _ & _ & _ & B0 & B1 & B2). cbn [bq_applyScale m_b0 m_b1 m_b2 nmul F64].
  destruct (sec_tame m second q Hf Hd n Hn hp HE 0%nat ltac:(lia)) as (_ & _ & I3 & I4 & I5 & _). fold f db in A, SR, B0, B1, B2, I3, I4, I5 |- *.
  destruct (E0_small m second q Hf Hd n Hn hp HE) as (E1 & E2 & E3 & E4). fold f db in E1, E2, E3, E4. pose proof (err_low m q Hf) as EL. fold f in EL. pose proof (cnr n Hn) as NR.
  set (SS := ch_scale second hp f db n) in *. set (d := ch_ideal second hp f db n 0) in *.
  assert (ER : ch_scale_error second hp f db n = 16 * (INR n * ch_cond second hp f db n * ch_error f)) by (unfold ch_scale_error; ring). rewrite ER. set (e := INR n * ch_cond second hp f db n * ch_error f) in *.
  assert (S0 : 0 < / 2 ^ 400) by (apply Rinv_0_lt_compat, pow_lt; lra). assert (S1 : 0 < SS) by lra.
  assert (TS : tiny <= / 2 ^ 60 * SS). { unfold tiny. apply Rle_trans with (/ 2 ^ 60 * / 2 ^ 400); [rewrite <- Rinv_mult, <- pow_add; apply Rinv_le; [apply pow_lt; lra|apply Rle_pow; [lra|lia]]|apply Rmult_le_compat_l; lra]. }
  assert (BG : 8 * 2 ^ 370 <= big). { replace (8 * 2 ^ 370) with (2 ^ 373) by (rewrite (pow_add 2 370 3 : 2 ^ 373 = _); ring). unfold big. apply Rle_pow; [lra|lia]. }
  assert (eS : 131072 * uu * SS <= e * SS <= / 128 * SS) by (split; apply Rmult_le_compat_r; lra).
  set (eb := if second then ch_error f / 64 else 0) in *. assert (EB : 0 <= eb <= ch_error f / 64) by (unfold eb; destruct second; lra).
  assert (EBS : 0 <= eb * SS <= e / 32 * SS) by (split; [apply Rmult_le_pos; lra|apply Rmult_le_compat_r; lra]).
  assert (G : forall (x : f64) r, is_finite x = true -> Rabs (B2R x - r) <= eb -> Rabs r <= 2 -> is_finite (fmul x s) = true /\ Rabs (B2R (fmul x s) - r * SS) <= 16 * e * SS).
  { intros x r Fx Ex Hr. assert (AX : ap x r 2 eb) by (split; [exact Fx|split; [exact Ex|exact Hr]]).
    assert (QE : eb * (575 / 100 * e * SS) <= / 100 * (575 / 100 * e * SS)) by (apply Rmult_le_compat_r; [lra|]; lra).
    destruct (ap_mul2 _ _ _ _ _ _ _ _ AX A) as (Q1 & Q2 & _).
    - apply Rle_trans with (3 * (2 * SS)); [apply Rmult_le_compat; lra|lra].
    - split; [exact Q1|]. eapply Rle_trans; [exact Q2|].
      assert (UK : uu * ((2 + eb) * (SS + 575 / 100 * e * SS)) <= uu * (3 * (2 * SS))) by (apply Rmult_le_compat_l; [unfold uu; lra|apply Rmult_le_compat; lra]).
      unfold uu in *. lra. }
  assert (H3 : Rabs (i_b0 d) <= 2) by (rewrite I3, Rabs_R1; lra).
  destruct (G _ (i_b0 d) F3 ltac:(rewrite B0, I3, Rminus_eq_0, Rabs_R0; lra) H3), (G _ _ F4 B1 I4), (G _ _ F5 B2 ltac:(lra)). repeat split; assumption.
Qed.
