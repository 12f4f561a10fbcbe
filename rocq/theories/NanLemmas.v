(** Proofs: when setCoefficients and the RBJ designs store NaN in binary64. *)
From Coq Require Import ZArith List Bool Reals Lra.
From Flocq Require Import Core.Raux Core.Defs Core.Generic_fmt IEEE754.BinarySingleNaN.
From Verif Require Import Num Outcome Types Biquad State RBJ Float64 FloatSpec NanSpec FloatProofs.
Import ListNotations.


Lemma neqb_nan (x : f64) : Beqb x x = false <-> fnan x.
Proof.
  unfold fnan. destruct x as [s|s| |s mx ex H]; split; intros Q; try discriminate; auto.
  - destruct s; discriminate.
  - exfalso. rewrite Beqb_correct in Q by reflexivity. rewrite Req_bool_true in Q by reflexivity. discriminate.
Qed.
(** IEEE division gives NaN from numbers exactly for 0/0 and inf/inf *)
Lemma fdiv_nan (x y : f64) : ~ fnan x -> ~ fnan y ->
  (fnan (fdiv x y) <-> (is_zero x /\ is_zero y) \/ (finf x /\ finf y)).
Proof.
  unfold fnan, fdiv, is_zero, finf. intros Hx Hy.
  destruct y as [sy|sy| |sy my ey Qy]; [| |elim Hy; reflexivity|].
  - destruct x as [sx|sx| |sx mx ex Qx]; [| |elim Hx; reflexivity|]; cbn; split; intros H; try discriminate; auto.
    + left. split; eexists; reflexivity.
    + destruct H as [[[s H] _]|[_ [s H]]]; discriminate.
    + destruct H as [[[s H] _]|[[s H] _]]; discriminate.
  - destruct x as [sx|sx| |sx mx ex Qx]; [| |elim Hx; reflexivity|]; cbn; split; intros H; try discriminate; auto.
    + destruct H as [[_ [s H]]|[[s H] _]]; discriminate.
    + right. split; eexists; reflexivity.
    + destruct H as [[[s H] _]|[[s H] _]]; discriminate.
  - split; [|intros [[_ [s H]]|[_ [s H]]]; discriminate]. intros H. exfalso.
    destruct x as [sx|sx| |sx mx ex Qx]; [discriminate| discriminate|elim Hx; reflexivity|].
    pose proof (@Bdiv_correct 53 1024 Hprec64 Hemax64 mode_NE (B754_finite sx mx ex Qx) (B754_finite sy my ey Qy)) as A.
    assert (NZ : B2R (B754_finite sy my ey Qy) <> 0%R). { cbn. intros E. apply Float_prop.eq_0_F2R in E. destruct sy; discriminate. }
    specialize (A NZ). rewrite H in A. destruct (Rlt_bool _ _); [destruct A as (_ & A & _)|]; discriminate.
Qed.

Section Coefs.
  Context {m : libm}.
  Notation N := (F64 m).
  Notation arg := (T (F64 m)).
  (** what setCoefficients stores is NaN exactly in these cases *)
  Lemma c16_iff (a0 a1 a2 b0 b1 b2 : f64) (old : biquad N) :
    ~ fnan a0 -> ~ fnan a1 -> ~ fnan a2 -> ~ fnan b0 -> ~ fnan b1 -> ~ fnan b2 ->
    exists b, setCoefficients (a0 : arg) (a1 : arg) (a2 : arg) (b0 : arg) (b1 : arg) (b2 : arg) old = Ok b tt /\
      ~ fnan (m_a0 b) /\ (fnan (m_a1 b) <-> div_nan a1 a0) /\ (fnan (m_a2 b) <-> div_nan a2 a0) /\
      (fnan (m_b0 b) <-> div_nan b0 a0) /\ (fnan (m_b1 b) <-> div_nan b1 a0) /\ (fnan (m_b2 b) <-> div_nan b2 a0).
  Proof.
    intros H0 H1 H2 H3 H4 H5.
    assert (Q : forall x : f64, ~ fnan x -> Num.is_nan (N := N) x = false).
    { intros x Hx. unfold Num.is_nan, nneqb. cbn. destruct (Beqb x x) eqn:E; [reflexivity|]. apply neqb_nan in E. contradiction. }
    unfold setCoefficients, bind, throw_if. rewrite !Q by assumption. unfold ret, put. eexists. split; [reflexivity|].
    cbn [m_a0 m_a1 m_a2 m_b0 m_b1 m_b2]. split; [exact H0|]. repeat split; apply fdiv_nan; assumption.
  Qed.
  (** so finite arguments with a0 <> 0 never do *)
  Lemma c16_finite (a0 a1 a2 b0 b1 b2 : f64) (old : biquad N) :
    is_fin a0 -> is_fin a1 -> is_fin a2 -> is_fin b0 -> is_fin b1 -> is_fin b2 -> ~ is_zero a0 ->
    exists b, setCoefficients (a0 : arg) (a1 : arg) (a2 : arg) (b0 : arg) (b1 : arg) (b2 : arg) old = Ok b tt /\
      Forall (fun c => ~ fnan c) [m_a0 b : f64; m_a1 b : f64; m_a2 b : f64; m_b0 b : f64; m_b1 b : f64; m_b2 b : f64].
  Proof.
    intros H0 H1 H2 H3 H4 H5 HZ. assert (Q : forall x, is_fin x -> ~ fnan x) by (unfold is_fin, fnan; intros x Hx ->; discriminate).
    assert (W : forall x, ~ div_nan x a0). { intros x [[_ Z]|[_ [s Z]]]; [exact (HZ Z)|]. unfold is_fin in H0. rewrite Z in H0. discriminate. }
    destruct (c16_iff a0 a1 a2 b0 b1 b2 old) as (b & E & A0 & A1 & A2 & B0 & B1 & B2); auto.
    exists b. split; [exact E|]. repeat constructor; auto; intros F; [apply A1 in F|apply A2 in F|apply B0 in F|apply B1 in F|apply B2 in F]; exact (W _ F).
  Qed.

  (** ** RBJ: a cutoff whose cosine is NaN *)
  Lemma fmul_nan_r (x : f64) : fmul x B754_nan = B754_nan.
  Proof. destruct x; reflexivity. Qed.
  Lemma fadd_nan_r (x : f64) : fadd x B754_nan = B754_nan.
  Proof. destruct x; reflexivity. Qed.
  Lemma fsub_nan_r (x : f64) : fsub x B754_nan = B754_nan.
  Proof. destruct x; reflexivity. Qed.
  Lemma set_nan (a0 a1 a2 b0 b1 b2 : f64) (old : biquad N) : fnan a1 ->
    exists e, setCoefficients (a0 : arg) (a1 : arg) (a2 : arg) (b0 : arg) (b1 : arg) (b2 : arg) old = Throw e old.
  Proof.
    intros H. unfold fnan in H. subst a1. unfold setCoefficients, bind, throw_if. destruct (Num.is_nan (N := N) a0); [eexists; reflexivity|]. unfold ret. cbn. eexists. reflexivity.
  Qed.
  Lemma rbj_nan k (f g q : f64) (old : biquad N) : fnan (lm_cos m (rbj_w0 (N := N) f)) ->
    exists e, rbj_setupN (N := N) k (f : arg) (g : arg) (q : arg) old = Throw e old.
  Proof.
    intros H. unfold fnan in H. unfold rbj_setupN, bind.
    destruct k; cbn [rbj_coefs]; unfold ret, set_coefs;
      try (apply set_nan; unfold fnan; cbn [k_a1 rbj_lowpass rbj_highpass rbj_bandpass1 rbj_bandpass2 rbj_bandstop rbj_iirnotch rbj_lowshelf rbj_highshelf rbj_bandshelf rbj_allpass];
        cbn [ncos F64]; rewrite H; cbn [nmul nadd nsub F64]; rewrite ?fmul_nan_r, ?fadd_nan_r, ?fsub_nan_r, ?fmul_nan_r; reflexivity).
    unfold throw_if. destruct (Num.is_nan _); [eexists; reflexivity|].
    unfold ret. apply set_nan. unfold fnan. cbn [k_a1 rbj_bandshelf]. cbn [ncos F64]. rewrite H. cbn [nmul F64]. apply fmul_nan_r.
  Qed.
  Lemma c31_nonfinite (HN : lm_cos m B754_nan = B754_nan) (HI : forall s, lm_cos m (B754_infinity s) = B754_nan) k (f g q : f64) (old : biquad N) :
    ~ is_fin f -> exists e, rbj_setupN (N := N) k (f : arg) (g : arg) (q : arg) old = Throw e old.
  Proof.
    intros Hf. apply rbj_nan. unfold fnan. unfold rbj_w0. cbn [nmul npi nofZ F64]. destruct f as [s|s| |s mx ex H]; try (elim Hf; reflexivity).
    - assert (E : fmul (fmul (fofZ 2) (fnorm 7074237752028440 (-51))) (B754_infinity s) = B754_infinity (xorb false s)).
      { destruct (fmul (fofZ 2) (fnorm 7074237752028440 (-51))) as [z|z| |z mx ex Q] eqn:E.
        - exfalso. apply (f_equal (@B2SF 53 1024)) in E. vm_compute in E. discriminate.
        - exfalso. apply (f_equal (@B2SF 53 1024)) in E. vm_compute in E. discriminate.
        - exfalso. apply (f_equal (@B2SF 53 1024)) in E. vm_compute in E. discriminate.
        - apply (f_equal (@Bsign 53 1024)) in E. vm_compute in E. subst z. reflexivity. }
      rewrite E. apply HI.
    - rewrite fmul_nan_r. exact HN.
  Qed.
End Coefs.
