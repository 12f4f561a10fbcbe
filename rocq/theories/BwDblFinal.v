(** Lemmas: Butterworth low and high pass designs in binary64. *)
From Coq Require Import ZArith List Bool Reals Lra Lia Floats.SpecFloat.
From Coquelicot Require Import Coquelicot.
From Flocq Require Import Core.Zaux Core.Raux Core.Defs Core.Generic_fmt Core.Round_NE IEEE754.BinarySingleNaN.
From Verif Require Import Num Outcome Types Biquad Cascade Transforms Butterworth PoleFilter Float64 FloatSpec FloatProofs SampleLemmas SigSpec StabProofs
  RoundSpec RoundProofs DblPi DblSpec DblProofs DblLemmas LayoutProofs BuildProofs BuildAny BwDblSpec CplxDbl BwDbl BwDbl2 BwDbl3 BwDblLemmas.
Import ListNotations.
Local Open Scope R_scope.

Lemma index_at {N : num} (ns mx : Z) (l : list (biquad N)) i b : (Z.of_nat i < ns)%Z -> nth_error l i = Some b -> cas_index (MkCascade ns mx l) (Z.of_nat i) = Val b.
Proof.
  intros H E. unfold cas_index. cbn [c_numStages c_stages].
  replace (Z.of_nat i <? 0)%Z with false by (symmetry; apply Z.ltb_ge; lia). replace (ns <=? Z.of_nat i)%Z with false by (symmetry; apply Z.leb_gt; lia).
  cbn [orb othrow_if obind]. unfold aget. replace (Z.of_nat i <? 0)%Z with false by (symmetry; apply Z.ltb_ge; lia). rewrite Nat2Z.id, E. reflexivity.
Qed.
Lemma c64 m (hp : bool) (q : params (F64 m)) n FO : libm_design m -> FloatSpec.is_fin (q_fc q : f64) ->
  / 2 ^ 14 <= B2R (q_fc q : f64) <= 1 / 2 - / 2 ^ 14 -> (1 <= n)%nat -> (Z.of_nat n <= 2 ^ 15)%Z -> (Z.of_nat n <= FO)%Z ->
  let k := (Bw, if hp then HP else LP) in let f := B2R (q_fc q : f64) in
  exists p, setupN (N := F64 m) k FO (Some (Z.of_nat n)) q (pf_init k FO) = Ok p tt /\
    c_numStages (pf_cas p) = Z.of_nat (bw_sections n) /\
    forall i, (i < bw_sections n)%nat -> exists b, cas_index (pf_cas p) (Z.of_nat i) = Val b /\
      FloatSpec.is_fin (m_a1 b : f64) /\ FloatSpec.is_fin (m_a2 b : f64) /\
      Rabs (B2R (m_a1 b : f64) - i_a1 (bw_ideal hp f n i)) <= bw_error f /\
      Rabs (B2R (m_a2 b : f64) - i_a2 (bw_ideal hp f n i)) <= bw_error f /\
      stable_poly (B2R (m_a1 b : f64)) (B2R (m_a2 b : f64)) /\
      (i <> 0%nat -> let d := bw_ideal hp f n i in
        FloatSpec.is_fin (m_b0 b : f64) /\ FloatSpec.is_fin (m_b1 b : f64) /\ FloatSpec.is_fin (m_b2 b : f64) /\
        B2R (m_b0 b : f64) = i_b0 d /\ B2R (m_b1 b : f64) = i_b1 d /\ B2R (m_b2 b : f64) = i_b2 d).
Proof.
  intros HM Ff Hf N1 N2 HFO k f.
  destruct (bw_setup m HM q Ff Hf n N1 N2 FO HFO hp) as (p & bs & r & E & L & S & _ & C). exists p. split; [exact E|]. rewrite C. cbn [c_numStages]. split; [rewrite L; reflexivity|].
  intros i Hi. destruct (nth_error bs i) as [b|] eqn:Eb; [|apply nth_error_None in Eb; lia]. destruct (S i b Eb) as (F & _ & A1 & A2 & ST & X1 & X2 & X3).
  destruct F as (F1 & F2 & F3 & F4 & F5).
  destruct i as [|i].
  - destruct bs as [|b' bs]; [discriminate|]. inversion Eb; subst b'. eexists. split; [apply (index_at _ _ _ 0); [lia|reflexivity]|]. cbn [bq_applyScale m_a1 m_a2 m_b0 m_b1 m_b2].
    split; [exact F1|]. split; [exact F2|]. split; [exact A1|]. split; [exact A2|]. split; [exact ST|]. intros Q. congruence.
  - destruct bs as [|b' bs]; [discriminate|]. cbn [nth_error] in Eb. exists b. split.
    + apply index_at; [lia|]. cbn [app scale_head nth_error]. rewrite nth_error_app1 by (apply nth_error_Some; congruence). exact Eb.
    + repeat split; assumption.
Qed.

(** ** a library that rounds correctly *)
Lemma to_f64_val r : Rabs r <= big -> B2R (to_f64 r) = rnd64 r.
Proof.
  intros H. unfold to_f64, fnorm.
  pose proof (@binary_normalize_correct 53 1024 Hprec64 Hemax64 mode_NE (Round_NE.ZnearestE (scaled_mantissa Zaux.radix2 (SpecFloat.fexp 53 1024) r)) (cexp Zaux.radix2 (SpecFloat.fexp 53 1024) r) false) as Q.
  cbv zeta in Q. change (F2R (Float Zaux.radix2 (Round_NE.ZnearestE (scaled_mantissa Zaux.radix2 (SpecFloat.fexp 53 1024) r)) (cexp Zaux.radix2 (SpecFloat.fexp 53 1024) r))) with (rnd64 r) in Q.
  rewrite round_generic in Q; [|apply valid_rnd_round_mode|apply generic_format_round; [apply vexp64|apply valid_rnd_round_mode]].
  rewrite rnd_fit in Q by exact H. exact (proj1 Q).
Qed.
Lemma to_f64_0 : B2R (to_f64 0) = 0.
Proof. rewrite to_f64_val by (rewrite Rabs_R0; pose proof big_big; lra). unfold rnd64. apply round_0. apply valid_rnd_round_mode. Qed.
Definition to_cpx (c : C) : cpx f64 := Cx (to_f64 (fst c)) (to_f64 (snd c)).
Lemma to_cpx_ok c : Cmod c <= big -> cfin (to_cpx c) /\ Cmod (c2c (to_cpx c) - c)%C <= uu * Cmod c + 2 * tiny.
Proof.
  intros H. pose proof (re_Cmod c). pose proof (im_Cmod c). destruct (to_f64_ok (fst c) ltac:(lra)) as [A1 A2]. destruct (to_f64_ok (snd c) ltac:(lra)) as [B1 B2].
  split; [split; assumption|]. unfold c2c, to_cpx. cbn [re im]. destruct c as [x y]. unfold Cminus, Cplus, Copp. cbn [fst snd] in *.
  apply (Cmod_dom _ _ (x, y)); cbn [fst snd]; try assumption; [unfold uu; lra|pose proof tiny_pos; lra].
Qed.
Definition design_libm : libm := MkLibm (lm_sin round_libm) (lm_cos round_libm) (fun x => to_f64 (tan (B2R x))) (lm_atan round_libm)
  (lm_exp round_libm) (lm_log round_libm) (lm_sinh round_libm) (lm_cosh round_libm) (lm_pow round_libm)
  (fun a b => to_cpx (c2c a * c2c b)%C) (fun a b => to_cpx (c2c a / c2c b)%C) (lm_csqrt round_libm) (fun a => to_f64 (Cmod (c2c a)))
  (fun r t => Some (to_cpx (B2R r * cos (B2R t), B2R r * sin (B2R t)))).
Lemma tiny_900 : 2 * tiny <= / 2 ^ 900.
Proof.
  unfold tiny. apply Rle_trans with (/ 2 ^ 901).
  - assert (/ 2 ^ 1070 <= / 2 ^ 902) by (apply Rinv_le; [apply pow_lt; lra|apply Rle_pow; [lra|lia]]).
    assert (/ 2 ^ 902 = / 2 ^ 901 / 2). { rewrite (pow_add 2 901 1 : 2 ^ 902 = _). field. }
    lra.
  - apply Rinv_le; [apply pow_lt; lra|apply Rle_pow; [lra|lia]].
Qed.
Lemma pow400 : 2 ^ 400 * 2 ^ 400 <= big.
Proof. rewrite <- pow_add. unfold big. apply Rle_pow; [lra|lia]. Qed.
Lemma design_libm_ok : libm_design design_libm /\ libm_response design_libm.
Proof.
  pose proof tiny_900 as T9. pose proof tiny_uu as TU. pose proof big_big as BB. pose proof pow400 as P4. pose proof tiny_pos as TP.
  assert (P4' : 1 <= 2 ^ 400) by (apply pow_R1_Rle; lra).
  split; [split; [|split]|split].
  - intros x Fx Hx. cbn [lm_tan design_libm]. pose proof pi_bounds as PB.
    assert (C0 : / 2 ^ 16 <= cos (B2R x)). { rewrite cos_sin. set (y := PI / 2 - B2R x). replace (PI / 2 + B2R x) with (PI - y) by (unfold y; field). rewrite sin_PI_x.
      assert (Y : / 2 ^ 15 <= y) by (unfold y; lra). destruct (Rle_dec y 1) as [L|L].
      - pose proof (sin_half y ltac:(lra)). lra.
      - assert (sin 1 <= sin y) by (apply sin_incr_1; unfold y in *; lra). pose proof (sin_half 1 ltac:(lra)). lra. }
    assert (S0 : / 2 ^ 16 <= sin (B2R x)). { destruct (Rle_dec (B2R x) 1) as [L|L].
      - pose proof (sin_half (B2R x) ltac:(lra)). lra.
      - assert (sin 1 <= sin (B2R x)) by (apply sin_incr_1; lra). pose proof (sin_half 1 ltac:(lra)). lra. }
    pose proof (COS_bound (B2R x)) as CB. pose proof (SIN_bound (B2R x)) as SB.
    assert (IC : 1 <= / cos (B2R x) <= 2 ^ 16). { split; [rewrite <- Rinv_1 at 1|rewrite <- (Rinv_inv (2 ^ 16))]; apply Rinv_le; lra. }
    assert (TR : / 2 ^ 16 <= tan (B2R x) <= 2 ^ 16). { unfold tan, Rdiv. split; [|apply Rle_trans with (1 * 2 ^ 16); [apply Rmult_le_compat; lra|lra]].
      apply Rle_trans with (/ 2 ^ 16 * 1); [lra|apply Rmult_le_compat; lra]. }
    destruct (to_f64_ok (tan (B2R x)) ltac:(rewrite Rabs_pos_eq; lra)) as [A1 A2]. split; [exact A1|]. rewrite (Rabs_pos_eq (tan _)) in A2 by lra. eapply Rle_trans; [exact A2|]. unfold uu in *. lra.
  - intros t Ft Ht. cbn [lm_polar design_libm]. eexists. split; [reflexivity|]. rewrite (proj1 (fofZ_val 1 ltac:(lia))), !Rmult_1_l.
    assert (M1 : Cmod (cos (B2R t), sin (B2R t)) = 1). { unfold Cmod. cbn [fst snd]. pose proof (sin2_cos2 (B2R t)) as Q. unfold Rsqr in Q. replace (cos (B2R t) ^ 2 + sin (B2R t) ^ 2) with 1 by lra. apply sqrt_1. }
    destruct (to_cpx_ok (cos (B2R t), sin (B2R t)) ltac:(rewrite M1; lra)) as [A1 A2]. split; [exact A1|]. rewrite M1 in A2. eapply Rle_trans; [exact A2|]. unfold uu in *. lra.
  - intros a b Fa Fb Ha Hb. cbn [lm_cdiv design_libm]. pose proof (Cmod_ge_0 (c2c a)) as A0.
    assert (PB : 0 < Cmod (c2c b)) by (assert (0 < / 2 ^ 400) by (apply Rinv_0_lt_compat, pow_lt; lra); lra).
    assert (Bn : c2c b <> 0%C) by (intros Z; rewrite Z, Cmod_0 in PB; lra).
    assert (IB : / Cmod (c2c b) <= 2 ^ 400). { rewrite <- (Rinv_inv (2 ^ 400)). apply Rinv_le; [apply Rinv_0_lt_compat, pow_lt; lra|apply Hb]. }
    assert (I0 : 0 < / Cmod (c2c b)) by (apply Rinv_0_lt_compat; exact PB).
    assert (Q : Cmod (c2c a / c2c b)%C <= big). { rewrite Cmod_div by exact Bn. unfold Rdiv. eapply Rle_trans; [|exact P4]. apply Rmult_le_compat; lra. }
    destruct (to_cpx_ok _ Q) as [A1 A2]. split; [exact A1|]. rewrite Cmod_div in A2 by exact Bn. split.
    + eapply Rle_trans; [exact A2|]. assert (0 <= Cmod (c2c a) / Cmod (c2c b)) by (apply Rmult_le_pos; lra). unfold uu. lra.
    + intros Ia Ib. destruct a as [ar ai], b as [br bi]. unfold c2c, to_cpx. cbn [re im] in *. rewrite Ia, Ib. unfold Cdiv, Cinv, Cmult. cbn [fst snd].
      match goal with |- B2R (to_f64 ?x) = 0 => replace x with 0 by (unfold Rdiv; ring) end. apply to_f64_0.
  - intros a b Fa Fb Ha Hb. cbn [lm_cmul design_libm]. pose proof (Cmod_ge_0 (c2c a)) as A0. pose proof (Cmod_ge_0 (c2c b)) as B0.
    assert (Q : Cmod (c2c a * c2c b)%C <= big). { rewrite Cmod_mult. eapply Rle_trans; [|exact P4]. apply Rmult_le_compat; lra. }
    destruct (to_cpx_ok _ Q) as [A1 A2]. split; [exact A1|]. rewrite Cmod_mult in A2. eapply Rle_trans; [exact A2|].
    assert (0 <= Cmod (c2c a) * Cmod (c2c b)) by (apply Rmult_le_pos; lra). unfold uu. lra.
  - intros a Fa Ha. cbn [lm_cabs design_libm]. pose proof (Cmod_ge_0 (c2c a)) as A0.
    assert (2 ^ 400 <= big) by (eapply Rle_trans; [|exact P4]; rewrite <- (Rmult_1_l (2 ^ 400)) at 1; apply Rmult_le_compat_r; lra).
    destruct (to_f64_ok (Cmod (c2c a)) ltac:(rewrite Rabs_pos_eq; lra)) as [A1 A2]. split; [exact A1|]. rewrite (Rabs_pos_eq (Cmod _)) in A2 by lra.
    eapply Rle_trans; [exact A2|]. unfold uu. lra.
Qed.
Lemma ex_c64 : libm_design design_libm /\ FloatSpec.is_fin (fnorm 1 (-3)) /\ B2R (fnorm 1 (-3)) = 1 / 8 /\ bw_error (1 / 8) <= 1 / 10 ^ 13.
Proof. split; [apply design_libm_ok|]. destruct ex_fq as (A & _ & B & _). split; [exact A|]. split; [exact B|]. unfold bw_error. lra. Qed.
