(** Proofs: the RBJ designs in exact arithmetic. *)
From Coq Require Import ZArith List Bool Reals Lra Lia Psatz Nsatz.
From Coquelicot Require Import Coquelicot.
From Verif Require Import Num Outcome Types Biquad State Cascade RBJ
  Exact RealNum SigSpec RBJSpec PZSpec SigProofs StabProofs RespProofs SigLemmas LayoutProofs PZProofs CoefLemmas.
Import ListNotations.
Local Open Scope R_scope.

Definition ecoefs {strict} (c : coefs RN) : coefs (X strict) :=
  MkCoefs (N := X strict) (XR (k_a0 c)) (XR (k_a1 c)) (XR (k_a2 c)) (XR (k_b0 c)) (XR (k_b1 c)) (XR (k_b2 c)).

Section RBJ.
  Context {strict : bool}.
  Notation XS := (X strict).

  Lemma xpow10 y : xpow (XR 10) (XR y) = XR (Rpower 10 y).
  Proof.
    simpl. destruct (Req0 y) eqn:E.
    - unfold Req0 in E. destruct (Req_EM_T y 0); [|discriminate]. subst. rewrite Rpower_O by lra. reflexivity.
    - rewrite Req0_false, rltb_false by lra. reflexivity.
  Qed.
  Lemma xsqrt_fin r : 0 <= r -> xsqrt (XR r) = XR (sqrt r).
  Proof. intros H. simpl. rewrite rltb_false by lra. reflexivity. Qed.

  Lemma rbj_coefs_emb k f g q : rbj_range k f g q ->
    rbj_coefs (N := XS) k (XR f) (XR g) (XR q) = ecoefs (rbj_coefs (N := RN) k f g q).
  Proof.
    intros [Hf [Hq Hk]]. pose proof (sin_pos f Hf) as S. pose proof (Rpower_pos 10 (g / 40)) as HA.
    assert (Q2 : 2 * q <> 0) by lra. assert (Q3 : sin (2 * PI * f) <> 0) by lra.
    destruct k; unfold rbj_coefs, rbj_lowpass, rbj_highpass, rbj_bandpass1, rbj_bandpass2, rbj_bandstop, rbj_iirnotch,
      rbj_lowshelf, rbj_highshelf, rbj_bandshelf, rbj_bandshelf_AL, rbj_allpass, rbj_w0, ecoefs;
      cbn [nmul npi nofZ X xmul nsin ncos xcos xsin ndiv npow nsqrt nexp nsinh nln2 nopp xopp];
      rewrite ?(xdiv_fin _ 2) by lra; rewrite ?(xdiv_fin _ (2 * q)) by exact Q2; rewrite ?(xdiv_fin _ 40) by lra;
      rewrite ?(xdiv_fin _ q) by lra; rewrite ?xpow10;
      cbn [nadd nsub nmul X xadd xsub xmul xopp nopp nexp xexp xsinh RN nsinh ndiv npi nofZ nsin ncos nsqrt npow k_a0 k_a1 k_a2 k_b0 k_b1 k_b2];
      rewrite ?xdiv_fin by lra;
      cbn [nadd nsub nmul X xadd xsub xmul xopp nopp nexp xexp xsinh RN nsinh ndiv npi nofZ nsin ncos nsqrt npow k_a0 k_a1 k_a2 k_b0 k_b1 k_b2]; try reflexivity.
    - unfold shelf_E in Hk. rewrite (xsqrt_fin (_ * _ + 2)) by (unfold Rdiv; rewrite !Rmult_1_l; lra).
      rewrite (xsqrt_fin (Rpower _ _)) by lra. reflexivity.
    - unfold shelf_E in Hk. rewrite (xsqrt_fin (_ * _ + 2)) by (unfold Rdiv; rewrite !Rmult_1_l; lra).
      rewrite (xsqrt_fin (Rpower _ _)) by lra. reflexivity.
    - rewrite !xdiv_fin by lra. reflexivity.
  Qed.

  Lemma cs_bound f : 0 < f < 1 / 2 -> -1 < cos (2 * PI * f) < 1.
  Proof.
    intros H. pose proof (sin_pos f H). pose proof (sin2_cos2 (2 * PI * f)) as Q. unfold Rsqr in Q.
    split; nra.
  Qed.
  Lemma sinh_pos x : 0 < x -> 0 < sinh x.
  Proof. intros H. unfold sinh. pose proof (exp_increasing (- x) x ltac:(lra)). lra. Qed.
  Lemma div_pos a b : 0 < a -> 0 < b -> 0 < a / b.
  Proof. intros. apply Rmult_lt_0_compat; [assumption|apply Rinv_0_lt_compat; assumption]. Qed.

  Definition tri (c : coefs RN) : Prop :=
    0 < k_a0 c /\ - k_a0 c < k_a2 c < k_a0 c /\ - (k_a0 c + k_a2 c) < k_a1 c < k_a0 c + k_a2 c.

  Lemma rbj_tri k f g q : rbj_range k f g q -> tri (rbj_coefs (N := RN) k f g q).
  Proof.
    intros [Hf [Hq Hk]]. pose proof (sin_pos f Hf) as S. pose proof (cs_bound f Hf) as Cb. pose proof (Rpower_pos 10 (g / 40)) as HA.
    assert (Q2 : 0 < sin (2 * PI * f) / (2 * q)) by (apply div_pos; lra).
    pose proof PI_RGT_0 as HPI.
    destruct k; unfold tri, rbj_coefs, rbj_lowpass, rbj_highpass, rbj_bandpass1, rbj_bandpass2, rbj_bandstop, rbj_iirnotch,
      rbj_lowshelf, rbj_highshelf, rbj_bandshelf, rbj_bandshelf_AL, rbj_allpass, rbj_w0;
      cbn [nadd nsub nmul ndiv nopp nexp RN nsinh npi nofZ nsin ncos nsqrt npow nln2 k_a0 k_a1 k_a2 k_b0 k_b1 k_b2]; try lra.
    - set (r := exp (- (2 * PI * f / 2) / q)). assert (R1 : 0 < r) by apply exp_pos.
      assert (R2 : r < 1).
      { unfold r. rewrite <- exp_0. apply exp_increasing. apply Rmult_lt_reg_r with q; [exact Hq|].
        unfold Rdiv. rewrite Rmult_assoc, Rinv_l by lra. nra. }
      set (c := cos (2 * PI * f)) in *. nra.
    - unfold shelf_E in Hk. set (A := Rpower 10 (g / 40)) in *. set (c := cos (2 * PI * f)) in *.
      assert (Sq : 0 < 2 * sqrt A * (sin (2 * PI * f) / 2 * sqrt ((A + 1 / A) * (1 / q - 1) + 2))).
      { apply Rmult_lt_0_compat; [apply Rmult_lt_0_compat; [lra|apply sqrt_lt_R0; exact HA]|].
        apply Rmult_lt_0_compat; [lra|]. apply sqrt_lt_R0. unfold Rdiv. rewrite !Rmult_1_l. exact Hk. }
      set (sq := 2 * sqrt A * _) in *. nra.
    - unfold shelf_E in Hk. set (A := Rpower 10 (g / 40)) in *. set (c := cos (2 * PI * f)) in *.
      assert (Sq : 0 < 2 * sqrt A * (sin (2 * PI * f) / 2 * sqrt ((A + 1 / A) * (1 / q - 1) + 2))).
      { apply Rmult_lt_0_compat; [apply Rmult_lt_0_compat; [lra|apply sqrt_lt_R0; exact HA]|].
        apply Rmult_lt_0_compat; [lra|]. apply sqrt_lt_R0. unfold Rdiv. rewrite !Rmult_1_l. exact Hk. }
      set (sq := 2 * sqrt A * _) in *. nra.
    - assert (AL : 0 < sin (2 * PI * f) * sinh (ln 2 / 2 * q * (2 * PI * f) / sin (2 * PI * f))).
      { apply Rmult_lt_0_compat; [exact S|]. apply sinh_pos. apply div_pos; [|exact S].
        assert (0 < ln 2) by (rewrite <- ln_1; apply ln_increasing; lra).
        assert (0 < ln 2 / 2 * q) by (apply Rmult_lt_0_compat; lra). apply Rmult_lt_0_compat; [assumption|nra]. }
      set (al := sin _ * sinh _) in *. assert (0 < al / Rpower 10 (g / 40)) by (apply div_pos; assumption).
      lra.
  Qed.

  Definition rnorm (c : coefs RN) : biquad RN :=
    @MkBiquad RN (k_a0 c) (k_a1 c / k_a0 c) (k_a2 c / k_a0 c) (k_b0 c / k_a0 c) (k_b1 c / k_a0 c) (k_b2 c / k_a0 c).
  Lemma tri_stable c : tri c -> rstable (rnorm c).
  Proof.
    intros [H0 [H2 H1]]. unfold rstable. simpl. apply jury.
    - apply Rabs_def1; apply Rmult_lt_reg_r with (k_a0 c); try exact H0; unfold Rdiv; rewrite Rmult_assoc, Rinv_l by lra; lra.
    - apply Rabs_def1; apply Rmult_lt_reg_r with (k_a0 c); try exact H0; unfold Rdiv; rewrite Rmult_assoc, Rinv_l by lra.
      + replace ((1 + k_a2 c * / k_a0 c) * k_a0 c) with (k_a0 c + k_a2 c) by (field; lra). lra.
      + replace (- (1 + k_a2 c * / k_a0 c) * k_a0 c) with (- (k_a0 c + k_a2 c)) by (field; lra). lra.
  Qed.

  Lemma rbj_setup_ok k f g q (old : biquad XS) : rbj_range k f g q ->
    rbj_setupN (N := XS) k (XR f) (XR g) (XR q) old = Ok (emb_bq (rnorm (rbj_coefs (N := RN) k f g q))) tt.
  Proof.
    intros H. pose proof (rbj_tri k f g q H) as [Ha _]. pose proof (rbj_coefs_emb k f g q H) as E.
    unfold rbj_setupN, set_coefs. rewrite E. unfold bind.
    assert (P : (match k with
      | R_BandShelf => throw_if (is_nan (rbj_bandshelf_AL (N := XS) (XR f) (XR q))) E_no_solution
      | _ => ret tt end) old = Ok old tt).
    { destruct k; try reflexivity. destruct H as [Hf _]. pose proof (sin_pos f Hf) as S.
      unfold rbj_bandshelf_AL, rbj_w0. cbn [nmul npi nofZ X xmul nsin xsin ndiv nsinh nln2].
      rewrite (xdiv_fin _ 2) by lra. cbn [xmul]. rewrite xdiv_fin by lra. cbn [xsinh xmul]. rewrite x_nn. reflexivity. }
    rewrite P. unfold ecoefs. cbn [k_a0 k_a1 k_a2 k_b0 k_b1 k_b2]. apply set_coeffs_fin. lra.
  Qed.

  (** ** Biquad::response *)
  Lemma bq_response_emb (b : biquad RN) f : m_a0 b <> 0 -> rbot b (upt f) <> 0%C ->
    bq_response (N := XS) (emb_bq b) (XR f) = Val (xc (rtop b (upt f) / rbot b (upt f))%C).
  Proof.
    intros Ha Hb. unfold bq_response. cbn [nmul npi nofZ X xmul nopp xopp npolar].
    rewrite !xpolar_cis. cbn [oor_ub obind].
    replace (cis (-2 * (2 * PI * f))) with (upt f * upt f)%C by (unfold upt; rewrite <- cis_add; f_equal; ring).
    fold (upt f). rewrite stage_top_emb, stage_bot_emb by exact Ha.
    replace (c_of (N := XS) (XR 1)) with (xc (RtoC 1)) by reflexivity.
    cbn [ncmul ncdiv X]. rewrite !xcmul_xc, !Cmult_1_l, xcdiv_xc by exact Hb. reflexivity.
  Qed.

  (** the response in terms of the coefficients handed to setCoefficients *)
  Definition cnum (c : coefs RN) (u : C) : C := poly2 (k_b0 c) (k_b1 c) (k_b2 c) u.
  Definition cden (c : coefs RN) (u : C) : C := poly2 (k_a0 c) (k_a1 c) (k_a2 c) u.
  Lemma rnorm_bot (c : coefs RN) (u : C) : k_a0 c <> 0 -> rbot (rnorm c) u = (/ RtoC (k_a0 c) * cden c u)%C.
  Proof.
    intros H. rewrite <- RtoC_inv by exact H. destruct u as [x y]. apply injective_projections; simpl; field; exact H.
  Qed.
  Lemma rnorm_top (c : coefs RN) (u : C) : k_a0 c <> 0 -> rtop (rnorm c) u = (/ RtoC (k_a0 c) * cnum c u)%C.
  Proof.
    intros H. rewrite <- RtoC_inv by exact H. destruct u as [x y]. apply injective_projections; simpl; field; exact H.
  Qed.
  Lemma Cinv_nz (c : C) : c <> 0%C -> (/ c)%C <> 0%C.
  Proof. intros H Q. apply C1_nz. rewrite <- (Cinv_r c H), Q. ring. Qed.
  Lemma rbj_resp (c : coefs RN) f : tri c ->
    cden c (upt f) <> 0%C /\
    bq_response (N := XS) (emb_bq (rnorm c)) (XR f) = Val (xc (cnum c (upt f) / cden c (upt f))%C).
  Proof.
    intros T. pose proof (tri_stable c T) as S. destruct T as [H0 _].
    assert (Ca : RtoC (k_a0 c) <> 0%C) by (intros Q; apply RtoC_inj in Q; lra).
    assert (Hb : rbot (rnorm c) (upt f) <> 0%C) by (apply (rbot_nz _ _ S)).
    assert (Hc : cden c (upt f) <> 0%C) by (intros Q; apply Hb; rewrite rnorm_bot, Q by lra; ring).
    split; [exact Hc|]. rewrite bq_response_emb by (try exact Hb; simpl; lra).
    rewrite rnorm_bot, rnorm_top by lra. do 2 f_equal. field. split; assumption.
  Qed.

  Lemma resp_val (c : coefs RN) f h : tri c -> cnum c (upt f) = (h * cden c (upt f))%C ->
    responds (emb_bq (strict := strict) (rnorm c)) f h.
  Proof.
    intros T E. destruct (rbj_resp c f T) as [Hd R]. unfold responds. rewrite R, E. do 2 f_equal. field. exact Hd.
  Qed.
  Lemma upt_0 : upt 0 = RtoC 1.
  Proof. unfold upt. rewrite Rmult_0_r, Ropp_0. apply cis_0. Qed.
  Lemma upt_half : upt (1 / 2) = RtoC (-1).
  Proof.
    unfold upt. replace (- (2 * PI * (1 / 2))) with (- PI) by field. unfold cis. rewrite cos_neg, sin_neg, cos_PI, sin_PI.
    unfold RtoC. f_equal. ring.
  Qed.
  Lemma upt_pt f : upt f = (cos (2 * PI * f), - sin (2 * PI * f)).
  Proof. unfold upt, cis. rewrite cos_neg, sin_neg. reflexivity. Qed.

  Notation rc k f g q := (rbj_coefs (N := RN) k f g q).
  Ltac expand := unfold rbj_coefs, rbj_lowpass, rbj_highpass, rbj_bandpass1, rbj_bandpass2, rbj_bandstop, rbj_iirnotch,
      rbj_lowshelf, rbj_highshelf, rbj_bandshelf, rbj_bandshelf_AL, rbj_allpass, rbj_w0;
      unfold cnum, cden, poly2; 
      cbn [nadd nsub nmul ndiv nopp nexp RN nsinh npi nofZ nsin ncos nsqrt npow nln2 k_a0 k_a1 k_a2 k_b0 k_b1 k_b2].
  Ltac at_real := rewrite <- ?RtoC_mult, <- ?RtoC_plus, <- ?RtoC_mult; f_equal.


  (** a design of class k: what it responds *)
  Lemma rbj_gains k f g q (old : biquad XS) (l : list (R * C)) : rbj_range k f g q ->
    List.Forall (fun fh : R * C => cnum (rc k f g q) (upt (fst fh)) = (snd fh * cden (rc k f g q) (upt (fst fh)))%C) l ->
    exists b, rbj_setupN (N := XS) k (XR f) (XR g) (XR q) old = Ok b tt /\
      List.Forall (fun fh : R * C => responds b (fst fh) (snd fh)) l.
  Proof.
    intros H F. eexists. split; [apply rbj_setup_ok; exact H|].
    eapply List.Forall_impl; [|exact F]. intros fh E. cbv beta in *. apply resp_val; [apply rbj_tri; exact H|exact E].
  Qed.

  Ltac edge := cbn [fst snd]; rewrite ?upt_0, ?upt_half; expand; at_real; try (field; lra).
  Ltac centre f q := cbn [fst snd]; rewrite upt_pt; expand;
    pose proof (sin2_cos2 (2 * PI * f)) as P; unfold Rsqr in P; rewrite Rplus_comm in P;
    set (c := cos (2 * PI * f)) in *; set (s := sin (2 * PI * f)) in *;
    try (assert (AE : s / (2 * q) * (2 * q) = s) by (field; lra); set (AL := s / (2 * q)) in *; clearbody AL);
    clearbody c s;
    try (assert (H1 : 2 * ((1 - c) / 2) = 1 - c) by field; set (h := (1 - c) / 2) in *; clearbody h);
    try (assert (H2 : 2 * ((1 + c) / 2) = 1 + c) by field; set (h2 := (1 + c) / 2) in *; clearbody h2);
    apply injective_projections; cbn; try nsatz.

  Lemma c30_lowpass f g q old : 0 < f < 1 / 2 -> 0 < q ->
    exists b : biquad XS, rbj_setupN (N := XS) R_LowPass (XR f) (XR g) (XR q) old = Ok b tt /\
      List.Forall (fun fh : R * C => responds b (fst fh) (snd fh)) [(0, RtoC 1); (1 / 2, RtoC 0); (f, (0, - q))].
  Proof.
    intros Hf Hq. apply rbj_gains; [repeat split; lra|].
    constructor; [edge|constructor; [edge|constructor; [|constructor]]].
    centre f q.
  Qed.
  Lemma c30_highpass f g q old : 0 < f < 1 / 2 -> 0 < q ->
    exists b : biquad XS, rbj_setupN (N := XS) R_HighPass (XR f) (XR g) (XR q) old = Ok b tt /\
      List.Forall (fun fh : R * C => responds b (fst fh) (snd fh)) [(0, RtoC 0); (1 / 2, RtoC 1); (f, (0, q))].
  Proof.
    intros Hf Hq. apply rbj_gains; [repeat split; lra|].
    constructor; [edge|constructor; [edge|constructor; [|constructor]]].
    centre f q.
  Qed.
  Lemma c30_bandpass1 f g q old : 0 < f < 1 / 2 -> 0 < q ->
    exists b : biquad XS, rbj_setupN (N := XS) R_BandPass1 (XR f) (XR g) (XR q) old = Ok b tt /\
      List.Forall (fun fh : R * C => responds b (fst fh) (snd fh)) [(0, RtoC 0); (1 / 2, RtoC 0); (f, RtoC q)].
  Proof.
    intros Hf Hq. apply rbj_gains; [repeat split; lra|].
    constructor; [edge|constructor; [edge|constructor; [|constructor]]].
    centre f q.
  Qed.
  Lemma c30_bandpass2 f g q old : 0 < f < 1 / 2 -> 0 < q ->
    exists b : biquad XS, rbj_setupN (N := XS) R_BandPass2 (XR f) (XR g) (XR q) old = Ok b tt /\
      List.Forall (fun fh : R * C => responds b (fst fh) (snd fh)) [(0, RtoC 0); (1 / 2, RtoC 0); (f, RtoC 1)].
  Proof.
    intros Hf Hq. apply rbj_gains; [repeat split; lra|].
    constructor; [edge|constructor; [edge|constructor; [|constructor]]].
    centre f q.
  Qed.
  Lemma c30_bandstop f g q old : 0 < f < 1 / 2 -> 0 < q ->
    exists b : biquad XS, rbj_setupN (N := XS) R_BandStop (XR f) (XR g) (XR q) old = Ok b tt /\
      List.Forall (fun fh : R * C => responds b (fst fh) (snd fh)) [(0, RtoC 1); (1 / 2, RtoC 1); (f, RtoC 0)].
  Proof.
    intros Hf Hq. apply rbj_gains; [repeat split; lra|].
    constructor; [edge|constructor; [edge|constructor; [|constructor]]].
    centre f q.
  Qed.
  Lemma c30_notch f g q old : 0 < f < 1 / 2 -> 0 < q ->
    exists b : biquad XS, rbj_setupN (N := XS) R_IIRNotch (XR f) (XR g) (XR q) old = Ok b tt /\
      List.Forall (fun fh : R * C => responds b (fst fh) (snd fh)) ((f, RtoC 0) :: nil).
  Proof.
    intros Hf Hq. apply rbj_gains; [repeat split; lra|].
    constructor; [|constructor].
    cbn [fst snd]. rewrite upt_pt. expand.
    match goal with |- context [exp ?x] => set (r := exp x); clearbody r end.
    pose proof (sin2_cos2 (2 * PI * f)) as P. unfold Rsqr in P.
    set (c := cos (2 * PI * f)) in *; set (s := sin (2 * PI * f)) in *. clearbody c s.
    apply injective_projections; cbn; nsatz.
  Qed.
  (** 10^(g/20) is the square of 10^(g/40) *)
  Lemma pow_sq g : Rpower 10 (g / 20) = Rpower 10 (g / 40) * Rpower 10 (g / 40).
  Proof. rewrite <- Rpower_plus. f_equal. field. Qed.
  Lemma c30_lowshelf f g q old : 0 < f < 1 / 2 -> 0 < q -> 0 < shelf_E g q ->
    exists b : biquad XS, rbj_setupN (N := XS) R_LowShelf (XR f) (XR g) (XR q) old = Ok b tt /\
      List.Forall (fun fh : R * C => responds b (fst fh) (snd fh)) [(0, RtoC (Rpower 10 (g / 20))); (1 / 2, RtoC 1)].
  Proof.
    intros Hf Hq HE. apply rbj_gains; [repeat split; (assumption || lra)|]. rewrite pow_sq.
    constructor; [edge; ring|constructor; [edge; ring|constructor]].
  Qed.
  Lemma c30_highshelf f g q old : 0 < f < 1 / 2 -> 0 < q -> 0 < shelf_E g q ->
    exists b : biquad XS, rbj_setupN (N := XS) R_HighShelf (XR f) (XR g) (XR q) old = Ok b tt /\
      List.Forall (fun fh : R * C => responds b (fst fh) (snd fh)) [(0, RtoC 1); (1 / 2, RtoC (Rpower 10 (g / 20)))].
  Proof.
    intros Hf Hq HE. apply rbj_gains; [repeat split; (assumption || lra)|]. rewrite pow_sq.
    constructor; [edge; ring|constructor; [edge; ring|constructor]].
  Qed.
  Lemma c30_bandshelf f g q old : 0 < f < 1 / 2 -> 0 < q ->
    exists b : biquad XS, rbj_setupN (N := XS) R_BandShelf (XR f) (XR g) (XR q) old = Ok b tt /\
      List.Forall (fun fh : R * C => responds b (fst fh) (snd fh)) [(0, RtoC 1); (1 / 2, RtoC 1); (f, RtoC (Rpower 10 (g / 20)))].
  Proof.
    intros Hf Hq. apply rbj_gains; [repeat split; lra|]. rewrite pow_sq.
    pose proof (exp_pos (g / 40 * ln 10)) as HA. change (0 < Rpower 10 (g / 40)) in HA.
    constructor; [edge|constructor; [edge|constructor; [|constructor]]].
    cbn [fst snd]; rewrite upt_pt; expand.
    match goal with |- context [sinh ?x] => set (AS := sinh x) in *; clearbody AS end.
    set (A := Rpower 10 (g / 40)) in *. clearbody A.
    pose proof (sin2_cos2 (2 * PI * f)) as P. unfold Rsqr in P.
    set (c := cos (2 * PI * f)) in *; set (s := sin (2 * PI * f)) in *. clearbody c s.
    assert (AE : s * AS / A * A = s * AS) by (field; lra). set (K := s * AS / A) in *. clearbody K.
    apply injective_projections; cbn; nsatz.
  Qed.
  Lemma cmod_conj (c : C) : Cmod (Cconj c) = Cmod c.
  Proof. unfold Cmod, Cconj. cbn [fst snd]. f_equal. ring. Qed.
  (** all-pass: the numerator is the reversed denominator *)
  Lemma c30_allpass f g q old : 0 < f < 1 / 2 -> 0 < q ->
    exists b : biquad XS, rbj_setupN (N := XS) R_AllPass (XR f) (XR g) (XR q) old = Ok b tt /\
      forall f', exists h, responds b f' h /\ Cmod h = 1.
  Proof.
    intros Hf Hq. assert (HR : rbj_range R_AllPass f g q) by (repeat split; lra).
    eexists. split; [apply rbj_setup_ok; exact HR|]. intros f'.
    destruct (rbj_resp _ f' (rbj_tri _ _ _ _ HR)) as [Hd R]. eexists. split; [exact R|].
    rewrite Cmod_div by exact Hd.
    assert (E : cnum (rc R_AllPass f g q) (upt f') = (upt f' * upt f' * Cconj (cden (rc R_AllPass f g q) (upt f')))%C).
    { rewrite upt_pt. expand. 
      set (AL := sin (2 * PI * f) / (2 * q)). set (cc := cos (2 * PI * f)). clearbody AL cc.
      pose proof (sin2_cos2 (2 * PI * f')) as P. unfold Rsqr in P.
      set (c := cos (2 * PI * f')) in *; set (s := sin (2 * PI * f')) in *. clearbody c s.
      apply injective_projections; cbn; nsatz. }
    rewrite E, !Cmod_mult, cmod_conj. unfold upt. rewrite cis_mod. field.
    intros Q. apply Hd, Cmod_eq_0. exact Q.
  Qed.
  (** C29 *)
  Lemma c29 k f g q old : rbj_range k f g q ->
    exists b : biquad XS, rbj_setupN (N := XS) k (XR f) (XR g) (XR q) old = Ok b tt /\ fin_bq b /\ stable_bq b.
  Proof.
    intros H. eexists. split; [apply rbj_setup_ok; exact H|]. split.
    - repeat split; eexists; reflexivity.
    - pose proof (tri_stable _ (rbj_tri _ _ _ _ H)) as S. eexists. eexists. split; [reflexivity|]. split; [reflexivity|exact S].
  Qed.
End RBJ.
