(** Proofs: the RBJ designs are the bilinear transforms of their analogue prototypes. *)
From Coq Require Import ZArith List Bool Reals Lra Lia Psatz.
From Coquelicot Require Import Coquelicot.
From Verif Require Import Num Outcome Types Biquad State Cascade RBJ RBJDefaults
  Exact RealNum SigSpec RBJSpec RBJAllSpec RBJProtoSpec PZSpec SigProofs StabProofs RespProofs SigLemmas LayoutProofs PZProofs CoefLemmas RBJProofs.
Import ListNotations.
Local Open Scope R_scope.

Lemma tan_half f : 0 < f < 1 / 2 -> 0 < tan (PI * f) /\
  cos (2 * PI * f) = (1 - tan (PI * f) * tan (PI * f)) / (1 + tan (PI * f) * tan (PI * f)) /\
  sin (2 * PI * f) = 2 * tan (PI * f) / (1 + tan (PI * f) * tan (PI * f)).
Proof.
  intros H. pose proof PI_RGT_0 as P. assert (C1 : 0 < cos (PI * f)) by (apply cos_gt_0; nra). assert (S1 : 0 < sin (PI * f)) by (apply sin_gt_0; nra).
  pose proof (sin2_cos2 (PI * f)) as Q. unfold Rsqr in Q.
  assert (E : 1 + tan (PI * f) * tan (PI * f) = / (cos (PI * f) * cos (PI * f))).
  { unfold tan. replace (1 + _) with ((sin (PI * f) * sin (PI * f) + cos (PI * f) * cos (PI * f)) / (cos (PI * f) * cos (PI * f))) by (field; lra).
    rewrite Q. field. lra. }
  split; [unfold tan; apply div_pos; assumption|]. rewrite E. replace (2 * PI * f) with (2 * (PI * f)) by ring. split.
  - rewrite cos_2a. unfold tan. field. lra.
  - rewrite sin_2a. unfold tan. field. lra.
Qed.
(** u = e^(-2 pi i f') and s = i tan (pi f')/T: s T (1 + u) = 1 - u *)
Lemma upt_warp f' (T : R) : 0 <= f' < 1 / 2 -> T <> 0 ->
  (RtoC 1 + upt f')%C <> RtoC 0 /\ (0, tan (PI * f') / T) = ((RtoC 1 - upt f') / (RtoC T * (RtoC 1 + upt f')))%C.
Proof.
  intros H HT. pose proof PI_RGT_0 as P. assert (C1 : 0 < cos (PI * f')) by (apply cos_gt_0; nra).
  assert (NZ : (RtoC 1 + upt f')%C <> RtoC 0).
  { intros E. apply (f_equal fst) in E. rewrite upt_pt in E. cbn in E. replace (2 * PI * f') with (2 * (PI * f')) in E by ring.
    rewrite cos_2a_cos in E. nra. }
  split; [exact NZ|].
  assert (HTc : RtoC T <> RtoC 0) by (intros E; apply RtoC_inj in E; contradiction).
  assert (M : Cmult (0, tan (PI * f') / T) (RtoC T * (RtoC 1 + upt f'))%C = (RtoC 1 - upt f')%C).
  { rewrite upt_pt. replace (2 * PI * f') with (2 * (PI * f')) by ring. rewrite cos_2a, sin_2a. unfold tan.
    pose proof (sin2_cos2 (PI * f')) as Q. unfold Rsqr in Q. set (c := cos _) in *. set (s := sin _) in *.
    apply injective_projections; cbn.
    - replace (_ - _ * _) with (s * s * 2) by (field; split; lra). lra.
    - replace (_ + _) with (s * (1 + c * c - s * s) / c) by (field; split; lra). replace (1 + c * c - s * s) with (2 * (c * c)) by lra. field. lra. }
  rewrite <- M. set (w := (0, tan (PI * f') / T) : C). set (v := upt f' : C) in *. clearbody w v. change (w = (w * (RtoC T * (RtoC 1 + v))) / (RtoC T * (RtoC 1 + v)))%C. field. split; assumption.
Qed.

(** numerator and denominator up to a common factor: T = tan of half the cutoff angle, B = sqrt A *)
Section Alg.
  Variables T Q A B : R.
  Hypothesis HT : 0 < T.
  Hypothesis HQ : 0 < Q.
  Hypothesis HA : 0 < A.
  Variable u : C.
  Hypothesis Hu : (RtoC 1 + u)%C <> RtoC 0.
  Let cs := (1 - T * T) / (1 + T * T).
  Let sn := 2 * T / (1 + T * T).
  Let s := ((RtoC 1 - u) / (RtoC T * (RtoC 1 + u)))%C.
  Let K := (RtoC (T * T / (1 + T * T)) * ((RtoC 1 + u) * (RtoC 1 + u)))%C.
  Ltac push := unfold poly2, sq, s, K, cs, sn; unfold Rdiv, Rminus; change (-2) with (- (2)); change 2 with (1 + 1);
    repeat first [rewrite RtoC_plus|rewrite RtoC_mult|rewrite RtoC_opp|rewrite RtoC_inv by nra].
  Lemma HTc : RtoC T <> RtoC 0. Proof using HT. intros E. apply RtoC_inj in E. lra. Qed.
  Lemma HQc : RtoC Q <> RtoC 0. Proof using HQ. intros E. apply RtoC_inj in E. lra. Qed.
  Lemma HAc : RtoC A <> RtoC 0. Proof using HA. intros E. apply RtoC_inj in E. lra. Qed.
  Lemma HTTc : (RtoC 1 + RtoC T * RtoC T)%C <> RtoC 0.
  Proof using HT. rewrite <- RtoC_mult, <- RtoC_plus. intros E. apply RtoC_inj in E. nra. Qed.
  Lemma H2c : @eq C (R1 + R1, R0 + R0) (RtoC 0) -> False.
  Proof. intros E. apply (f_equal fst) in E. cbn in E. lra. Qed.
  Ltac go := push; field; repeat split; first [exact HTc|exact HQc|exact HAc|exact HTTc|exact Hu|exact H2c|idtac].
  Lemma alg_den : poly2 (1 + sn / (2 * Q)) (-2 * cs) (1 - sn / (2 * Q)) u = (K * (sq s + s / RtoC Q + RtoC 1))%C.
  Proof using All. go. Qed.
  Lemma alg_all : poly2 (1 - sn / (2 * Q)) (-2 * cs) (1 + sn / (2 * Q)) u = (K * (sq s - s / RtoC Q + RtoC 1))%C.
  Proof using All. go. Qed.
  Lemma alg_low : poly2 ((1 - cs) / 2) (1 - cs) ((1 - cs) / 2) u = (K * RtoC 1)%C.
  Proof using All. go. Qed.
  Lemma alg_high : poly2 ((1 + cs) / 2) (- (1 + cs)) ((1 + cs) / 2) u = (K * sq s)%C.
  Proof using All. go. Qed.
  Lemma alg_bp1 : poly2 (Q * (sn / (2 * Q))) 0 (- Q * (sn / (2 * Q))) u = (K * s)%C.
  Proof using All. go. Qed.
  Lemma alg_bp2 : poly2 (sn / (2 * Q)) 0 (- (sn / (2 * Q))) u = (K * (s / RtoC Q))%C.
  Proof using All. go. Qed.
  Lemma alg_stop : poly2 1 (-2 * cs) 1 u = (K * (sq s + RtoC 1))%C.
  Proof using All. go. Qed.
  Lemma alg_peak_n : poly2 (1 + sn / (2 * Q) * A) (-2 * cs) (1 - sn / (2 * Q) * A) u = (K * (sq s + s * RtoC (A / Q) + RtoC 1))%C.
  Proof using All. go. Qed.
  Lemma alg_peak_d : poly2 (1 + sn / (2 * Q) / A) (-2 * cs) (1 - sn / (2 * Q) / A) u = (K * (sq s + s / RtoC (A * Q) + RtoC 1))%C.
  Proof using All. go. Qed.
  (** the shelves *)
  Let sh := 2 * B * (sn / (2 * Q)).
  Lemma alg_ls_d : poly2 ((A + 1) + (A - 1) * cs + sh) (-2 * ((A - 1) + (A + 1) * cs)) ((A + 1) + (A - 1) * cs - sh) u =
    (RtoC 2 * K * (RtoC A * sq s + RtoC (B / Q) * s + RtoC 1))%C.
  Proof using All. unfold sh. go. Qed.
  Lemma alg_ls_n : poly2 (A * ((A + 1) - (A - 1) * cs + sh)) (2 * A * ((A - 1) - (A + 1) * cs)) (A * ((A + 1) - (A - 1) * cs - sh)) u =
    (RtoC 2 * K * (RtoC A * (sq s + RtoC (B / Q) * s + RtoC A)))%C.
  Proof using All. unfold sh. go. Qed.
  Lemma alg_hs_d : poly2 ((A + 1) - (A - 1) * cs + sh) (2 * ((A - 1) - (A + 1) * cs)) ((A + 1) - (A - 1) * cs - sh) u =
    (RtoC 2 * K * (sq s + RtoC (B / Q) * s + RtoC A))%C.
  Proof using All. unfold sh. go. Qed.
  Lemma alg_hs_n : poly2 (A * ((A + 1) + (A - 1) * cs + sh)) (-2 * A * ((A - 1) + (A + 1) * cs)) (A * ((A + 1) + (A - 1) * cs - sh)) u =
    (RtoC 2 * K * (RtoC A * (RtoC A * sq s + RtoC (B / Q) * s + RtoC 1)))%C.
  Proof using All. unfold sh. go. Qed.
End Alg.

Ltac rexp := unfold rbj_coefs, rbj_lowpass, rbj_highpass, rbj_bandpass1, rbj_bandpass2, rbj_bandstop, rbj_iirnotch,
      rbj_lowshelf, rbj_highshelf, rbj_bandshelf, rbj_bandshelf_AL, rbj_allpass, rbj_w0, cnum, cden;
      cbn [nadd nsub nmul ndiv nopp nexp RN nsinh npi nofZ nsin ncos nsqrt npow nln2 k_a0 k_a1 k_a2 k_b0 k_b1 k_b2].
Lemma rbj_proto k f g q f' : k <> R_IIRNotch -> rbj_range k f g q -> 0 <= f' < 1 / 2 ->
  exists K : C, let A := Rpower 10 (g / 40) in let Q := cook_Q k f g q in
    cnum (rbj_coefs (N := RN) k f g q) (upt f') = (K * ana_num k A Q (warp f' f))%C /\
    cden (rbj_coefs (N := RN) k f g q) (upt f') = (K * ana_den k A Q (warp f' f))%C.
Proof.
  intros NK (Hf & Hq & Hk) Hf'. pose proof (sin_pos f Hf) as SP. destruct (tan_half f Hf) as (HT & EC & ES).
  destruct (upt_warp f' (tan (PI * f)) Hf' ltac:(lra)) as [Hu EW]. unfold warp. rewrite EW. clear EW.
  assert (HA : 0 < Rpower 10 (g / 40)) by apply exp_pos. set (A := Rpower 10 (g / 40)) in *.
  destruct k; [| | | | |congruence| | | |]; cbv zeta.
  all: unfold ana_num, ana_den, cook_Q.
  1-5: eexists; split; rexp; rewrite ?EC, ?ES; clear EC ES.
  - apply (alg_low (tan (PI * f)) 1 1 1); lra || exact Hu.
  - apply (alg_den (tan (PI * f)) q 1 1); lra || exact Hu.
  - apply (alg_high (tan (PI * f)) 1 1 1); lra || exact Hu.
  - apply (alg_den (tan (PI * f)) q 1 1); lra || exact Hu.
  - apply (alg_bp1 (tan (PI * f)) q 1 1); lra || exact Hu.
  - apply (alg_den (tan (PI * f)) q 1 1); lra || exact Hu.
  - apply (alg_bp2 (tan (PI * f)) q 1 1); lra || exact Hu.
  - apply (alg_den (tan (PI * f)) q 1 1); lra || exact Hu.
  - apply (alg_stop (tan (PI * f)) 1 1 1); lra || exact Hu.
  - apply (alg_den (tan (PI * f)) q 1 1); lra || exact Hu.
  - set (E := shelf_E g q) in *. set (Q := 1 / sqrt E).
    assert (SE : 0 < sqrt E) by (apply sqrt_lt_R0; exact Hk). assert (HQ : 0 < Q) by (unfold Q; apply div_pos; lra).
    assert (SH : sin (2 * PI * f) / 2 * sqrt ((A + 1 / A) * (1 / q - 1) + 2) = sin (2 * PI * f) / (2 * Q)).
    { replace ((A + 1 / A) * (1 / q - 1) + 2) with E by (unfold E, shelf_E; fold A; unfold Rdiv; ring). unfold Q. field. lra. }
    eexists; split; rexp; fold A; rewrite SH; rewrite EC, ES; clear EC ES SH.
    + apply (alg_ls_n (tan (PI * f)) Q A (sqrt A)); lra || exact Hu.
    + apply (alg_ls_d (tan (PI * f)) Q A (sqrt A)); lra || exact Hu.
  - set (E := shelf_E g q) in *. set (Q := 1 / sqrt E).
    assert (SE : 0 < sqrt E) by (apply sqrt_lt_R0; exact Hk). assert (HQ : 0 < Q) by (unfold Q; apply div_pos; lra).
    assert (SH : sin (2 * PI * f) / 2 * sqrt ((A + 1 / A) * (1 / q - 1) + 2) = sin (2 * PI * f) / (2 * Q)).
    { replace ((A + 1 / A) * (1 / q - 1) + 2) with E by (unfold E, shelf_E; fold A; unfold Rdiv; ring). unfold Q. field. lra. }
    eexists; split; rexp; fold A; rewrite SH; rewrite EC, ES; clear EC ES SH.
    + apply (alg_hs_n (tan (PI * f)) Q A (sqrt A)); lra || exact Hu.
    + apply (alg_hs_d (tan (PI * f)) Q A (sqrt A)); lra || exact Hu.
  - set (w := sinh (ln 2 / 2 * q * (2 * PI * f) / sin (2 * PI * f))).
    assert (HW : 0 < w).
    { apply sinh_pos, div_pos; [|exact SP]. pose proof PI_RGT_0. assert (0 < ln 2) by (rewrite <- ln_1; apply ln_increasing; lra).
      assert (0 < ln 2 / 2 * q) by (apply Rmult_lt_0_compat; lra). apply Rmult_lt_0_compat; [assumption|nra]. }
    set (Q := 1 / (2 * w)). assert (HQ : 0 < Q) by (unfold Q; apply div_pos; lra).
    assert (SH : sin (2 * PI * f) * w = sin (2 * PI * f) / (2 * Q)) by (unfold Q; field; lra).
    eexists; split; rexp; fold w; fold A; rewrite SH; rewrite EC, ES; clear EC ES SH.
    + apply (alg_peak_n (tan (PI * f)) Q A 1); lra || exact Hu.
    + apply (alg_peak_d (tan (PI * f)) Q A 1); lra || exact Hu.
  - eexists; split; rexp; rewrite ?EC, ?ES; clear EC ES.
    + apply (alg_all (tan (PI * f)) q 1 1); lra || exact Hu.
    + apply (alg_den (tan (PI * f)) q 1 1); lra || exact Hu.
Qed.

Section Resp.
  Context {strict : bool}.
  Notation XS := (X strict).
  Lemma c56 k f g q (old : biquad XS) : k <> R_IIRNotch -> rbj_range k f g q ->
    exists b, rbj_setupN (N := XS) k (XR f) (XR g) (XR q) old = Ok b tt /\
      (forall f', 0 <= f' < 1 / 2 ->
        ana_den k (Rpower 10 (g / 40)) (cook_Q k f g q) (warp f' f) <> RtoC 0 /\
        responds b f' (ana_num k (Rpower 10 (g / 40)) (cook_Q k f g q) (warp f' f) /
                       ana_den k (Rpower 10 (g / 40)) (cook_Q k f g q) (warp f' f))%C) /\
      responds b (1 / 2) (RtoC (ana_inf k (Rpower 10 (g / 40)))).
  Proof.
    intros NK H. eexists. split; [apply rbj_setup_ok; exact H|]. pose proof (rbj_tri _ _ _ _ H) as TR. split.
    - intros f' Hf'. destruct (rbj_proto k f g q f' NK H Hf') as (K & EN & ED). cbv zeta in EN, ED.
      destruct (rbj_resp (strict := strict) _ f' TR) as [Hd _]. 
      set (n := ana_num _ _ _ _) in *. set (d := ana_den _ _ _ _) in *.
      assert (D0 : d <> RtoC 0) by (intros E; apply Hd; rewrite ED, E; ring). split; [exact D0|].
      apply resp_val; [exact TR|]. rewrite EN, ED. field. exact D0.
    - apply resp_val; [exact TR|]. rewrite upt_half. pose proof (exp_pos (g / 40 * ln 10)) as HA. change (0 < Rpower 10 (g / 40)) in HA.
      destruct H as (Hf & Hq & Hk). pose proof (sin_pos f Hf).
      destruct k; unfold ana_inf; rexp; unfold poly2; rewrite <- ?RtoC_mult, <- ?RtoC_plus, <- ?RtoC_mult; f_equal; try congruence; try (field; lra).
  Qed.
  Lemma c56_notch f g q (old : biquad XS) : 0 < f < 1 / 2 -> 0 < q ->
    exists b, rbj_setupN (N := XS) R_IIRNotch (XR f) (XR g) (XR q) old = Ok b tt /\
      forall f', let w := cis (2 * PI * f) in let u := cis (- (2 * PI * f')) in let r := RtoC (exp (- (PI * f / q))) in
        ((RtoC 1 - r * w * u) * (RtoC 1 - r * Cconj w * u))%C <> RtoC 0 /\
        responds b f' ((RtoC 1 - w * u) * (RtoC 1 - Cconj w * u) / ((RtoC 1 - r * w * u) * (RtoC 1 - r * Cconj w * u)))%C.
  Proof.
    intros Hf Hq. assert (H : rbj_range R_IIRNotch f g q) by (repeat split; lra). eexists. split; [apply rbj_setup_ok; exact H|].
    pose proof (rbj_tri _ _ _ _ H) as TR. intros f'. cbv zeta. destruct (rbj_resp (strict := strict) _ f' TR) as [Hd _].
    assert (P : forall (r : R) (u : C), ((RtoC 1 - RtoC r * cis (2 * PI * f) * u) * (RtoC 1 - RtoC r * Cconj (cis (2 * PI * f)) * u))%C = poly2 1 (-2 * r * cos (2 * PI * f)) (r * r) u).
    { intros r [x y]. unfold cis, poly2. pose proof (sin2_cos2 (2 * PI * f)) as Q. unfold Rsqr in Q. set (c := cos _) in *. set (s := sin _) in *. clearbody c s.
      assert (E : s * s = 1 - c * c) by lra. apply injective_projections; cbn; ring_simplify; replace (s ^ 2) with (1 - c * c) by (rewrite <- E; ring); ring. }
    assert (D : ((RtoC 1 - RtoC (exp (- (PI * f / q))) * cis (2 * PI * f) * cis (- (2 * PI * f'))) *
      (RtoC 1 - RtoC (exp (- (PI * f / q))) * Cconj (cis (2 * PI * f)) * cis (- (2 * PI * f'))))%C = cden (rbj_coefs (N := RN) R_IIRNotch f g q) (upt f')).
    { rewrite P. rexp. replace (- (2 * PI * f / 2) / q) with (- (PI * f / q)) by (field; lra). reflexivity. }
    assert (Nn : ((RtoC 1 - cis (2 * PI * f) * cis (- (2 * PI * f'))) *
      (RtoC 1 - Cconj (cis (2 * PI * f)) * cis (- (2 * PI * f'))))%C = cnum (rbj_coefs (N := RN) R_IIRNotch f g q) (upt f')).
    { specialize (P 1 (cis (- (2 * PI * f')))). rewrite !Cmult_1_l in P. rewrite P. rexp. f_equal; ring. }
    rewrite D, Nn. split; [exact Hd|]. apply resp_val; [exact TR|]. field. exact Hd.
  Qed.
End Resp.
