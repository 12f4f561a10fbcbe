(** Proofs: stability of the RBJ designs for all real cutoffs, exact arithmetic. *)
From Coq Require Import ZArith List Bool Reals Lra Lia Psatz.
From Coquelicot Require Import Coquelicot.
From Verif Require Import Num Outcome Types Biquad State Cascade RBJ
  Exact RealNum SigSpec RBJSpec RBJAllSpec PZSpec SigProofs StabProofs RespProofs SigLemmas LayoutProofs PZProofs CoefLemmas RBJProofs.
Import ListNotations.
Local Open Scope R_scope.

(** a sign lemma for quotients *)
Lemma quot_sign a b : b <> 0 -> (0 < a / b <-> 0 < b * a).
Proof.
  intros H. assert (E : b * a = (a / b) * (b * b)) by (field; exact H). assert (0 < b * b) by nra. rewrite E. split; intros Q; nra.
Qed.
Lemma sinh_odd x : sinh (- x) = - sinh x.
Proof. unfold sinh. rewrite Ropp_involutive. lra. Qed.
Lemma sinh_sign s y : s <> 0 -> (0 < s * sinh (y / s) <-> 0 < y).
Proof.
  intros H. assert (E : y = s * (y / s)) by (field; exact H). set (x := y / s) in *. clearbody x. subst y.
  destruct (Rtotal_order x 0) as [L|[->|L]].
  - pose proof (sinh_pos (- x) ltac:(lra)) as P. rewrite sinh_odd in P. destruct (Rdichotomy _ _ H); split; intros; nra.
  - rewrite sinh_0, !Rmult_0_r. tauto.
  - pose proof (sinh_pos x L) as P. destruct (Rdichotomy _ _ H); split; intros; nra.
Qed.

Lemma undiv (a b : R) : b <> 0 -> a = a / b * b.
Proof. intros H. field. exact H. Qed.
(** the coefficients have the shape a0 = P + s, a2 = P - s *)
Definition shape (c : coefs RN) (P s : R) : Prop :=
  k_a0 c = P + s /\ k_a2 c = P - s /\ 0 < P /\ (0 < s -> Rabs (k_a1 c) < 2 * P).
Lemma shape_iff c P s : shape c P s -> k_a0 c <> 0 ->
  (stable_poly (k_a1 c / k_a0 c) (k_a2 c / k_a0 c) <-> 0 < s).
Proof.
  intros (E0 & E2 & HP & H1) NZ. split; intros H.
  - apply stable_a2 in H. apply Rnot_le_lt. intros Hs.
    pose proof (undiv (k_a2 c) (k_a0 c) NZ) as Q. set (r := k_a2 c / k_a0 c) in *. clearbody r.
    rewrite E0, E2 in Q. apply Rabs_def2 in H. rewrite E0 in NZ. nra.
  - specialize (H1 H). apply Rabs_def2 in H1. apply tri_stable. unfold tri. lra.
Qed.

Section All.
  Context {strict : bool}.
  Notation XS := (X strict).
  Lemma rbj_all_emb k f g q : rbj_real k f g q ->
    rbj_coefs (N := XS) k (XR f) (XR g) (XR q) = ecoefs (rbj_coefs (N := RN) k f g q).
  Proof.
    intros [Hq Hk]. pose proof (Rpower_pos 10 (g / 40)) as HA.
    assert (Q2 : 2 * q <> 0) by lra.
    destruct k; unfold rbj_coefs, rbj_lowpass, rbj_highpass, rbj_bandpass1, rbj_bandpass2, rbj_bandstop, rbj_iirnotch,
      rbj_lowshelf, rbj_highshelf, rbj_bandshelf, rbj_bandshelf_AL, rbj_allpass, rbj_w0, ecoefs;
      cbn [nmul npi nofZ X xmul nsin ncos xcos xsin ndiv npow nsqrt nexp nsinh nln2 nopp xopp];
      rewrite ?(xdiv_fin _ 2) by lra; rewrite ?(xdiv_fin _ (2 * q)) by exact Q2; rewrite ?(xdiv_fin _ 40) by lra;
      rewrite ?(xdiv_fin _ q) by exact Hq; rewrite ?xpow10;
      cbn [nadd nsub nmul X xadd xsub xmul xopp nopp nexp xexp xsinh RN nsinh ndiv npi nofZ nsin ncos nsqrt npow k_a0 k_a1 k_a2 k_b0 k_b1 k_b2];
      rewrite ?xdiv_fin by lra;
      cbn [nadd nsub nmul X xadd xsub xmul xopp nopp nexp xexp xsinh RN nsinh ndiv npi nofZ nsin ncos nsqrt npow k_a0 k_a1 k_a2 k_b0 k_b1 k_b2]; try reflexivity.
    - unfold shelf_E in Hk. rewrite (xsqrt_fin (_ * _ + 2)) by (unfold Rdiv; rewrite !Rmult_1_l; lra).
      rewrite (xsqrt_fin (Rpower _ _)) by lra. reflexivity.
    - unfold shelf_E in Hk. rewrite (xsqrt_fin (_ * _ + 2)) by (unfold Rdiv; rewrite !Rmult_1_l; lra).
      rewrite (xsqrt_fin (Rpower _ _)) by lra. reflexivity.
    - rewrite !xdiv_fin by (first [exact Hk|lra]). reflexivity.
  Qed.
  Lemma cs_lt1 f : sin (2 * PI * f) <> 0 -> -1 < cos (2 * PI * f) < 1.
  Proof. intros H. pose proof (sin2_cos2 (2 * PI * f)) as Q. unfold Rsqr in Q. split; nra. Qed.
  Lemma rbj_shape k f g q : rbj_real k f g q -> exists P s, shape (rbj_coefs (N := RN) k f g q) P s /\ (0 < s <-> 0 < rbj_damping k f q).
  Proof.
    intros [Hq Hk]. pose proof (Rpower_pos 10 (g / 40)) as HA. pose proof PI_RGT_0 as HPI.
    pose proof (quot_sign (sin (2 * PI * f)) (2 * q) ltac:(lra)) as QS.
    assert (QS' : 0 < sin (2 * PI * f) / (2 * q) <-> 0 < q * sin (2 * PI * f)) by (rewrite QS; split; intros; lra). clear QS.
    assert (A1 : 0 < sin (2 * PI * f) / (2 * q) -> Rabs (-2 * cos (2 * PI * f)) < 2 * 1).
    { intros H. assert (sin (2 * PI * f) <> 0) by (intros E; rewrite E in H; unfold Rdiv in H; lra). pose proof (cs_lt1 f H0). apply Rabs_def1; lra. }
    destruct k; unfold rbj_damping, rbj_coefs, rbj_lowpass, rbj_highpass, rbj_bandpass1, rbj_bandpass2, rbj_bandstop, rbj_iirnotch,
      rbj_lowshelf, rbj_highshelf, rbj_bandshelf, rbj_bandshelf_AL, rbj_allpass, rbj_w0, shape;
      cbn [nadd nsub nmul ndiv nopp nexp RN nsinh npi nofZ nsin ncos nsqrt npow nln2 k_a0 k_a1 k_a2 k_b0 k_b1 k_b2];
      try (exists 1, (sin (2 * PI * f) / (2 * q)); repeat split; try lra; first [exact A1|apply QS']).
    - (* notch: a0 = 1, a2 = r^2 *)
      set (r := exp (- (2 * PI * f / 2) / q)). assert (R1 : 0 < r) by apply exp_pos.
      exists ((1 + r * r) / 2), ((1 - r * r) / 2). split.
      + split; [lra|]. split; [lra|]. split; [nra|]. intros H. pose proof (COS_bound (2 * PI * f)). set (c := cos (2 * PI * f)) in *.
        assert (r < 1) by nra. apply Rabs_def1; nra.
      + assert (E : 0 < q * f <-> 0 < f / q) by (rewrite (quot_sign f q Hq); tauto). rewrite E.
        assert (E2 : - (2 * PI * f / 2) / q = - (PI * (f / q))) by (field; exact Hq). unfold r. rewrite E2. clear E2 R1. set (y := f / q). clearbody y.
        split; intros H.
        * apply Rnot_le_lt. intros L. assert (P : 0 <= - (PI * y)) by nra. set (w := - (PI * y)) in *. clearbody w.
          pose proof (exp_ineq1_le w). assert (1 <= exp w) by lra. nra.
        * pose proof (exp_increasing (- (PI * y)) 0 ltac:(nra)) as I. rewrite exp_0 in I. pose proof (exp_pos (- (PI * y))). nra.
    - unfold shelf_E in Hk. set (A := Rpower 10 (g / 40)) in *. pose proof (COS_bound (2 * PI * f)) as CB. set (c := cos (2 * PI * f)) in *.
      set (HH := sqrt A * sqrt ((A + 1 / A) * (1 / q - 1) + 2)).
      assert (HT : 0 < HH) by (apply Rmult_lt_0_compat; apply sqrt_lt_R0; [exact HA|unfold Rdiv; rewrite !Rmult_1_l; exact Hk]).
      exists (A + 1 + (A - 1) * c), (sin (2 * PI * f) * HH). split.
      + split; [unfold HH; change (T RN) with R; field; lra|]. split; [unfold HH; change (T RN) with R; field; lra|]. split; [nra|]. intros H.
        assert (NS : sin (2 * PI * f) <> 0) by (intros E; rewrite E in H; lra). pose proof (cs_lt1 f NS) as B. fold c in B. apply Rabs_def1; nra.
      + split; intros; nra.
    - unfold shelf_E in Hk. set (A := Rpower 10 (g / 40)) in *. pose proof (COS_bound (2 * PI * f)) as CB. set (c := cos (2 * PI * f)) in *.
      set (HH := sqrt A * sqrt ((A + 1 / A) * (1 / q - 1) + 2)).
      assert (HT : 0 < HH) by (apply Rmult_lt_0_compat; apply sqrt_lt_R0; [exact HA|unfold Rdiv; rewrite !Rmult_1_l; exact Hk]).
      exists (A + 1 - (A - 1) * c), (sin (2 * PI * f) * HH). split.
      + split; [unfold HH; change (T RN) with R; field; lra|]. split; [unfold HH; change (T RN) with R; field; lra|]. split; [nra|]. intros H.
        assert (NS : sin (2 * PI * f) <> 0) by (intros E; rewrite E in H; lra). pose proof (cs_lt1 f NS) as B. fold c in B. apply Rabs_def1; nra.
      + split; intros; nra.
    - set (A := Rpower 10 (g / 40)) in *. pose proof (cs_lt1 f Hk) as B.
      pose proof (sinh_sign (sin (2 * PI * f)) (ln 2 / 2 * q * (2 * PI * f)) Hk) as SS.
      set (AL := sin _ * sinh _) in *. exists 1, (AL / A). split.
      + repeat split; try lra. intros _. apply Rabs_def1; lra.
      + assert (E : 0 < AL / A <-> 0 < AL) by (rewrite (quot_sign AL A ltac:(lra)); split; intros; nra). rewrite E, SS.
        assert (L2 : 0 < ln 2) by (rewrite <- ln_1; apply ln_increasing; lra). pose proof (Rmult_lt_0_compat _ _ L2 HPI).
        replace (ln 2 / 2 * q * (2 * PI * f)) with (ln 2 * PI * (q * f)) by field. split; intros; nra.
  Qed.
  Lemma c55 k f g q (old : biquad XS) : rbj_real k f g q ->
    exists b, rbj_setupN (N := XS) k (XR f) (XR g) (XR q) old = Ok b tt /\ (stable_bq b <-> 0 < rbj_damping k f q).
  Proof.
    intros H. destruct (rbj_shape k f g q H) as (P & s & SH & HS). pose proof (rbj_all_emb k f g q H) as E.
    unfold rbj_setupN, set_coefs. rewrite E. unfold bind.
    assert (PR : (match k with
      | R_BandShelf => throw_if (is_nan (rbj_bandshelf_AL (N := XS) (XR f) (XR q))) E_no_solution
      | _ => ret tt end) old = Ok old tt).
    { destruct k; try reflexivity. destruct H as [_ S].
      unfold rbj_bandshelf_AL, rbj_w0. cbn [nmul npi nofZ X xmul nsin xsin ndiv nsinh nln2].
      rewrite (xdiv_fin _ 2) by lra. cbn [xmul]. rewrite xdiv_fin by exact S. cbn [xsinh xmul]. rewrite x_nn. reflexivity. }
    rewrite PR. unfold ecoefs. set (c := rbj_coefs (N := RN) k f g q) in *. cbn [k_a0 k_a1 k_a2 k_b0 k_b1 k_b2].
    destruct (Req_dec (k_a0 c) 0) as [Z|NZ].
    - unfold setCoefficients, bind, throw_if. rewrite !x_nn. unfold ret, put. eexists. split; [reflexivity|]. rewrite <- HS.
      destruct SH as (E0 & E2 & HP & _). split; [|intros; lra]. intros (a1 & a2 & _ & E3 & _). exfalso.
      cbn [m_a2 ndiv X xdiv] in E3. rewrite Z, Req0_true, Req0_false in E3 by lra. discriminate.
    - rewrite set_coeffs_fin by exact NZ. eexists. split; [reflexivity|]. rewrite <- HS, <- (shape_iff c P s SH NZ).
      unfold stable_bq. cbn. split.
      + intros (a1 & a2 & E1 & E2 & Q). inversion E1. inversion E2. subst. exact Q.
      + intros Q. eauto.
  Qed.
  (** the shelves reject a slope with no real alpha *)
  Lemma c55_rejects k f g q (old : biquad XS) : k = R_LowShelf \/ k = R_HighShelf -> q <> 0 -> shelf_E g q < 0 ->
    exists e, rbj_setupN (N := XS) k (XR f) (XR g) (XR q) old = Throw e old.
  Proof.
    intros Hk Hq HE. pose proof (Rpower_pos 10 (g / 40)) as HA. unfold shelf_E in HE.
    assert (SQ : forall r, r = (Rpower 10 (g / 40) + / Rpower 10 (g / 40)) * (/ q - 1) + 2 -> xsqrt (XR r) = XNaN).
    { intros r ->. cbn [xsqrt]. rewrite rltb_true by exact HE. reflexivity. }
    destruct Hk as [-> | ->]; unfold rbj_setupN, set_coefs, bind at 1, ret at 1; unfold rbj_coefs, rbj_lowshelf, rbj_highshelf, rbj_w0;
      cbn [nmul npi nofZ X xmul nsin ncos xcos xsin ndiv npow nsqrt nadd nsub];
      rewrite ?(xdiv_fin _ 2) by lra; rewrite ?(xdiv_fin _ 40) by lra; rewrite ?(xdiv_fin _ q) by exact Hq; rewrite ?xpow10;
      cbn [xadd xsub xmul xopp]; rewrite ?xdiv_fin by lra; cbn [xadd xsub xmul xopp];
      rewrite (SQ (_ * _ + 2)) by (unfold Rdiv; rewrite !Rmult_1_l; ring); rewrite (xsqrt_fin (Rpower _ _)) by lra;
      eexists; reflexivity.
  Qed.
End All.
