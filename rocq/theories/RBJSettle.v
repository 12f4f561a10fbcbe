(** Proofs: sinusoidal, constant and alternating inputs of the RBJ filters. *)
From Coq Require Import ZArith List Bool Reals Lra Lia.
From Coquelicot Require Import Coquelicot.
From Verif Require Import Num Outcome Types Biquad State Cascade RBJ Exact RealNum Stream SigSpec SigProofs StabProofs RespProofs SigLemmas
  FloatLemmas RBJSpec RBJProofs RBJProtoSpec RBJProto EndSpec EndLemmas.
Import ListNotations.
Local Open Scope R_scope.

Section Settle.
  Context {strict : bool}.
  Notation XS := (X strict).
  Lemma bq_steady (b : biquad XS) s f h x A : fin_bq b -> m_a0 b <> XR 0 -> stable_bq b -> fin_st s -> responds b f h ->
    is_lim_seq (fun i => x i - fst (A * cis (2 * PI * f * INR i))%C) 0 ->
    exists y : sig, (forall k, snd (rbj_run (MkRbj b s) (xr (prefix k x))) = xr (prefix k y)) /\
      is_lim_seq (fun i => y i - fst (h * A * cis (2 * PI * f * INR i))%C) 0.
  Proof.
    intros F A0 S G E X0. destruct (fin_bq_emb b F) as [b' ->]. destruct (fin_st_emb s G) as [s' ->].
    assert (A' : m_a0 b' <> 0) by (intros Q; apply A0; cbn; rewrite Q; reflexivity).
    pose proof (stable_emb _ S) as R. unfold responds in E. rewrite bq_response_emb in E by (exact A' || (apply rbot_nz; exact R)).
    assert (EH : h = (rtop b' (upt f) / rbot b' (upt f))%C).
    { set (v := (rtop b' (upt f) / rbot b' (upt f))%C) in *. clearbody v. destruct h, v. unfold xc in E. cbn [fst snd] in E. inversion E. reflexivity. }
    exists (couts [(b', s')] x). split.
    - intros k. rewrite rbj_run_cs. cbn [r_bq r_st]. unfold xr, prefix.
      change [emb_bq b'] with (map (emb_bq (strict := strict)) (map fst [(b', s')])). change [emb_st s'] with (map (emb_st (strict := strict)) (map snd [(b', s')])).
      rewrite (emb_cs_run _ (map x (seq 0 k))). cbn [snd]. f_equal. apply cs_run_prefix.
    - assert (RR : List.Forall (fun bs => rstable (fst bs)) [(b', s')]) by (constructor; [exact R|constructor]).
      pose proof (couts_steady [(b', s')] (2 * PI * f) RR x A X0) as Q. unfold tends_osc in Q.
      eapply is_lim_seq_ext; [|exact Q]. intros i. cbv beta. unfold osc. rewrite EH. cbn [map fst]. unfold cprod. cbn [fold_right]. rewrite !Cmult_1_r. reflexivity.
  Qed.
  Lemma obj_setup k f g q (r : rbj XS) : rbj_range k f g q -> fin_st (r_st r) ->
    exists b, rbj_obj_setupN (N := XS) k (XR f) (XR g) (XR q) r = Ok (MkRbj b (r_st r)) tt /\
      rbj_setupN (N := XS) k (XR f) (XR g) (XR q) (r_bq r) = Ok b tt /\ fin_bq b /\ m_a0 b <> XR 0 /\ stable_bq b.
  Proof.
    intros H HS. pose proof (rbj_setup_ok k f g q (r_bq r) H) as E. destruct (c29 k f g q (r_bq r) H) as (b & E' & F & S).
    rewrite E in E'. inversion E' as [EB]. rewrite EB in *. exists b. split; [|split; [exact E|split; [exact F|split; [|exact S]]]].
    - unfold rbj_obj_setupN, zoom. rewrite E. reflexivity.
    - rewrite <- EB. pose proof (rbj_tri k f g q H) as [T _]. intros Q. cbn in Q. inversion Q. lra.
  Qed.
  Lemma c60 k f g q (r : rbj XS) : k <> R_IIRNotch -> rbj_range k f g q -> fin_st (r_st r) ->
    exists r', rbj_obj_setupN (N := XS) k (XR f) (XR g) (XR q) r = Ok r' tt /\
      forall x A f', 0 <= f' < 1 / 2 -> is_lim_seq (fun i => x i - fst (A * cis (2 * PI * f' * INR i))%C) 0 ->
      exists y : sig, (forall m, snd (rbj_run r' (xr (prefix m x))) = xr (prefix m y)) /\
        is_lim_seq (fun i => y i - fst (ana_num k (Rpower 10 (g / 40)) (cook_Q k f g q) (warp f' f) /
                                        ana_den k (Rpower 10 (g / 40)) (cook_Q k f g q) (warp f' f) * A * cis (2 * PI * f' * INR i))%C) 0.
  Proof.
    intros Hk H HS. destruct (obj_setup k f g q r H HS) as (b & E & E1 & F & A0 & S). eexists. split; [exact E|].
    destruct (c56 k f g q (r_bq r) Hk H) as (b' & E2 & R & _). rewrite E1 in E2. inversion E2; subst b'.
    intros x A f' Hf HX. destruct (R f' Hf) as [_ R']. apply (bq_steady b (r_st r) f' _ x A F A0 S HS R' HX).
  Qed.
  Lemma bq_settle (b : biquad XS) s f e g x c : fin_bq b -> m_a0 b <> XR 0 -> stable_bq b -> fin_st s -> responds b f (RtoC g) ->
    (f = 0 /\ e = 1) \/ (f = 1 / 2 /\ e = -1) -> is_lim_seq (fun i => e ^ i * x i) (Finite c) ->
    exists y : sig, (forall k, snd (rbj_run (MkRbj b s) (xr (prefix k x))) = xr (prefix k y)) /\
      is_lim_seq (fun i => e ^ i * y i) (Finite (g * c)).
  Proof.
    intros F A0 S G E Hf HX. assert (PM : e = 1 \/ e = -1) by (destruct Hf as [[_ ->]|[_ ->]]; auto).
    assert (PA : forall i, Rabs (e ^ i) = 1) by (intros i; destruct PM as [-> | ->]; [rewrite pow1, Rabs_R1|rewrite pow_1_abs]; reflexivity).
    destruct (bq_steady b s f (RtoC g) x (RtoC c) F A0 S G E) as (y & Y1 & Y2).
    - apply is_lim_seq_abs_0. apply (is_lim_seq_ext (fun i => Rabs (e ^ i * x i - c))).
      + intros i. rewrite (cis_end e f i Hf), <- RtoC_mult. cbn [fst RtoC].
        replace (x i - c * e ^ i) with (e ^ i * (e ^ i * x i - c)); [rewrite Rabs_mult, PA; ring|].
        rewrite <- (Rmult_1_l (x i)) at 2. rewrite <- (pow_pm e i PM). ring.
      + apply -> is_lim_seq_abs_0. replace (Finite 0) with (Finite (c - c)) by (f_equal; ring). apply is_lim_seq_minus'; [exact HX|apply is_lim_seq_const].
    - exists y. split; [exact Y1|].
      assert (L : is_lim_seq (fun i => e ^ i * y i - g * c) 0).
      { apply is_lim_seq_abs_0. eapply is_lim_seq_ext; [|apply -> is_lim_seq_abs_0; exact Y2]. intros i. cbv beta.
        rewrite (cis_end e f i Hf), <- !RtoC_mult. cbn [fst RtoC].
        replace (e ^ i * y i - g * c) with (e ^ i * (y i - g * c * e ^ i)); [rewrite Rabs_mult, PA; ring|].
        replace (e ^ i * (y i - g * c * e ^ i)) with (e ^ i * y i - g * c * (e ^ i * e ^ i)) by ring. rewrite (pow_pm e i PM). ring. }
      apply (is_lim_seq_ext (fun i => (e ^ i * y i - g * c) + g * c)); [intros; ring|].
      replace (Finite (g * c)) with (Finite (0 + g * c)) by (f_equal; ring). apply is_lim_seq_plus'; [exact L|apply is_lim_seq_const].
  Qed.
  Lemma dc_val k f g q : k <> R_IIRNotch -> rbj_range k f g q ->
    (ana_num k (Rpower 10 (g / 40)) (cook_Q k f g q) (warp 0 f) / ana_den k (Rpower 10 (g / 40)) (cook_Q k f g q) (warp 0 f))%C = RtoC (rbj_dc k g).
  Proof.
    intros Hk H. assert (W : warp 0 f = RtoC 0). { unfold warp. rewrite Rmult_0_r, tan_0. unfold Rdiv. rewrite Rmult_0_l. reflexivity. }
    rewrite W. pose proof (exp_pos (g / 40 * ln 10)) as HA. change (0 < Rpower 10 (g / 40)) in HA. set (Q := cook_Q k f g q). clearbody Q.
    assert (Z : forall Q', (0 / Q')%C = 0%C) by (intros; unfold Cdiv; ring).
    destruct k; try congruence; cbn [ana_num ana_den rbj_dc]; unfold sq; rewrite ?Z, ?Cmult_0_l, ?Cmult_0_r, ?Cplus_0_l; try (rewrite pow_sq, RtoC_mult); try (field; apply RtoC_neq || idtac); try reflexivity;
      try (intros E; apply (f_equal fst) in E; cbn in E; lra).
  Qed.
  Lemma c60_settles k f g q (r : rbj XS) : k <> R_IIRNotch -> rbj_range k f g q -> fin_st (r_st r) ->
    exists r', rbj_obj_setupN (N := XS) k (XR f) (XR g) (XR q) r = Ok r' tt /\
      forall x c,
      (is_lim_seq x (Finite c) -> exists y : sig, (forall m, snd (rbj_run r' (xr (prefix m x))) = xr (prefix m y)) /\ is_lim_seq y (Finite (rbj_dc k g * c))) /\
      (is_lim_seq (fun i => (-1) ^ i * x i) (Finite c) -> exists y : sig, (forall m, snd (rbj_run r' (xr (prefix m x))) = xr (prefix m y)) /\
        is_lim_seq (fun i => (-1) ^ i * y i) (Finite (rbj_nyquist k g * c))).
  Proof.
    intros Hk H HS. destruct (obj_setup k f g q r H HS) as (b & E & E1 & F & A0 & S). eexists. split; [exact E|].
    destruct (c56 k f g q (r_bq r) Hk H) as (b' & E2 & R & R2). rewrite E1 in E2. inversion E2; subst b'. clear E2.
    destruct (R 0 ltac:(lra)) as [_ R0]. rewrite dc_val in R0 by assumption.
    assert (NQ : ana_inf k (Rpower 10 (g / 40)) = rbj_nyquist k g) by (destruct k; try congruence; cbn; try reflexivity; symmetry; apply pow_sq). rewrite NQ in R2.
    intros x c. split; intros HX.
    - destruct (bq_settle b (r_st r) 0 1 (rbj_dc k g) x c F A0 S HS R0 (or_introl (conj eq_refl eq_refl))) as (y & Y1 & Y2).
      + eapply is_lim_seq_ext; [|exact HX]. intros i. cbv beta. rewrite pow1. ring.
      + exists y. split; [exact Y1|]. eapply is_lim_seq_ext; [|exact Y2]. intros i. cbv beta. rewrite pow1. ring.
    - apply (bq_settle b (r_st r) (1 / 2) (-1) _ x c F A0 S HS R2 (or_intror (conj eq_refl eq_refl)) HX).
  Qed.
  Lemma c60_notch k f g q (r : rbj XS) : k = R_BandStop \/ k = R_IIRNotch -> 0 < f < 1 / 2 -> 0 < q -> fin_st (r_st r) ->
    exists r', rbj_obj_setupN (N := XS) k (XR f) (XR g) (XR q) r = Ok r' tt /\
      forall x A, is_lim_seq (fun i => x i - fst (A * cis (2 * PI * f * INR i))%C) 0 ->
      exists y : sig, (forall m, snd (rbj_run r' (xr (prefix m x))) = xr (prefix m y)) /\ is_lim_seq y 0.
  Proof.
    intros Hk Hf Hq HS. assert (H : rbj_range k f g q) by (destruct Hk as [-> | ->]; repeat split; lra).
    destruct (obj_setup k f g q r H HS) as (b & E & E1 & F & A0 & S). eexists. split; [exact E|].
    assert (R : responds b f (RtoC 0)).
    { destruct Hk as [-> | ->].
      - destruct (c30_bandstop f g q (r_bq r) Hf Hq) as (b' & E2 & R). rewrite E1 in E2. inversion E2; subst b'.
        inversion R as [|? ? _ R2]; subst. inversion R2 as [|? ? _ R3]; subst. inversion R3; subst. assumption.
      - destruct (c30_notch f g q (r_bq r) Hf Hq) as (b' & E2 & R). rewrite E1 in E2. inversion E2; subst b'. inversion R; subst. assumption. }
    intros x A HX. destruct (bq_steady b (r_st r) f _ x A F A0 S HS R HX) as (y & Y1 & Y2). exists y. split; [exact Y1|].
    eapply is_lim_seq_ext; [|exact Y2]. intros i. cbv beta. rewrite !Cmult_0_l. cbn. ring.
  Qed.
End Settle.
