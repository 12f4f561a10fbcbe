(** Proofs: response() in exact arithmetic is the transfer function on the unit circle, and the
    steady state for sinusoids. *)
From Coq Require Import ZArith List Bool Reals Lra Lia.
From Coquelicot Require Import Coquelicot.
From Verif Require Import Num Outcome Types Biquad State Cascade Exact RealNum Stream SigSpec SigProofs StabProofs.
Import ListNotations.
Local Open Scope R_scope.

(** ** exact complex arithmetic on finite values *)
Lemma C1_nz : RtoC 1 <> 0%C.
Proof. intros H. injection H. lra. Qed.
Lemma xr_eq r s : r = s -> XR r = XR s. Proof. intros ->. reflexivity. Qed.
Lemma xc_eq a b : a = b -> xc a = xc b. Proof. intros ->. reflexivity. Qed.
Lemma xcmul_xc (a b : C) : xcmul (xc a) (xc b) = xc (a * b)%C.
Proof. destruct a, b. reflexivity. Qed.
Lemma Req0_false r : r <> 0 -> Req0 r = false.
Proof. intros H. unfold Req0. destruct (Req_EM_T r 0); congruence. Qed.
Lemma Req0_true : Req0 0 = true.
Proof. unfold Req0. destruct (Req_EM_T 0 0); congruence. Qed.
Lemma xdiv_fin a b : b <> 0 -> xdiv (XR a) (XR b) = XR (a / b).
Proof. intros H. simpl. rewrite Req0_false by exact H. reflexivity. Qed.
Lemma c_neq0 (c : C) : c <> 0%C -> fst c * fst c + snd c * snd c <> 0.
Proof.
  intros H E. apply H. destruct c as [x y]. simpl in *.
  assert (x = 0) by nra. assert (y = 0) by nra. subst. reflexivity.
Qed.
Lemma xcdiv_xc (a b : C) : b <> 0%C -> xcdiv (xc a) (xc b) = xc (a / b)%C.
Proof.
  intros H. pose proof (c_neq0 b H) as Q. destruct a as [a1 a2], b as [b1 b2].
  unfold xcdiv, xc. cbn [re im xmul xadd xsub fst snd] in *. rewrite !xdiv_fin by exact Q.
  f_equal; f_equal; simpl; field; simpl; nra.
Qed.
Lemma xcabs_xc c : xcabs (xc c) = XR (Cmod c).
Proof. destruct c as [x y]. unfold xcabs, xc, Cmod. simpl. do 2 f_equal. ring. Qed.

Lemma cis_add s t : cis (s + t) = (cis s * cis t)%C.
Proof. apply injective_projections; simpl; [rewrite cos_plus|rewrite sin_plus]; ring. Qed.
Lemma cis_0 : cis 0 = RtoC 1.
Proof. unfold cis. rewrite cos_0, sin_0. reflexivity. Qed.
Lemma cis_mod t : Cmod (cis t) = 1.
Proof.
  unfold Cmod, cis. simpl. pose proof (sin2_cos2 t) as H. unfold Rsqr in H.
  replace (cos t * (cos t * 1) + sin t * (sin t * 1)) with 1 by lra. apply sqrt_1.
Qed.
Lemma cis_neg t : (cis t * cis (- t) = 1)%C.
Proof. rewrite <- cis_add. replace (t + - t) with 0 by ring. apply cis_0. Qed.

(** ** stages *)
Section Resp.
  Context {strict : bool}.
  Notation XS := (X strict).

  Definition rtop (b : biquad RN) (u : C) : C := poly2 (m_b0 b) (m_b1 b) (m_b2 b) u.
  Definition rbot (b : biquad RN) (u : C) : C := poly2 1 (m_a1 b) (m_a2 b) u.

  Lemma stage_top_emb (b : biquad RN) (u : C) : m_a0 b <> 0 ->
    stage_top (N := XS) (xc u) (xc (u * u)%C) (emb_bq b) = xc (rtop b u).
  Proof.
    intros H. unfold stage_top, getB0, getB1, getB2, getA0. destruct b as [a0 a1 a2 b0 b1 b2].
    cbn [m_a0] in H. cbn -[xdiv]. rewrite !xdiv_fin by exact H. destruct u as [x y].
    unfold addmul, xc, rtop, poly2. cbn. f_equal; f_equal; field; exact H.
  Qed.
  Lemma stage_bot_emb (b : biquad RN) (u : C) : m_a0 b <> 0 ->
    stage_bot (N := XS) (xc u) (xc (u * u)%C) (emb_bq b) = xc (rbot b u).
  Proof.
    intros H. unfold stage_bot, getA1, getA2, getA0. destruct b as [a0 a1 a2 b0 b1 b2].
    cbn [m_a0] in H. cbn -[xdiv]. rewrite !xdiv_fin by exact H. destruct u as [x y].
    unfold addmul, xc, rbot, poly2. cbn. f_equal; f_equal; field; exact H.
  Qed.

  Lemma resp_loop_emb (u : C) : forall n (bs : list (biquad RN)) (ch cb : C),
    List.Forall (fun b : biquad RN => m_a0 b <> 0) bs -> (n <= length bs)%nat ->
    resp_loop (N := XS) (xc u) (xc (u * u)%C) (map emb_bq bs) n (xc ch) (xc cb) =
    Val (xc (ch * cprod (map (fun b => rtop b u) (firstn n bs)))%C,
         xc (cb * cprod (map (fun b => rbot b u) (firstn n bs)))%C).
  Proof.
    induction n as [|n IH]; intros bs ch cb HF Hn.
    - simpl. rewrite !Cmult_1_r. destruct bs; reflexivity.
    - destruct bs as [|b bs]; [simpl in Hn; lia|]. inversion HF; subst.
      cbn [map resp_loop firstn].
      rewrite stage_top_emb, stage_bot_emb by assumption.
      change (ncmul XS) with xcmul. rewrite !xcmul_xc.
      rewrite IH by (simpl in Hn; auto; lia).
      unfold cprod at 3 4. cbn [fold_right].
      do 2 f_equal; apply xc_eq; unfold cprod; cbn [fold_right map]; ring.
  Qed.

  Lemma rltb_false x y : ~ x < y -> Rltb x y = false.
  Proof. intros H. unfold Rltb. destruct (Rlt_dec x y); congruence. Qed.
  Lemma rltb_true x y : x < y -> Rltb x y = true.
  Proof. intros H. unfold Rltb. destruct (Rlt_dec x y); congruence. Qed.

  Lemma xpolar_cis t : xpolar strict (XR 1) (XR t) = Some (xc (cis t)).
  Proof.
    unfold xpolar. assert (E : xleb (XR 0) (XR 1) = true).
    { unfold xleb. simpl. rewrite rltb_true by lra. reflexivity. }
    rewrite E, andb_false_r. cbn. unfold xc, cis. simpl. rewrite !Rmult_1_l. reflexivity.
  Qed.

  (** the point e^(-i 2 pi f) *)
  Definition upt (f : R) : C := cis (- (2 * PI * f)).

  Lemma cas_response_emb m (bs : list (biquad RN)) n f : List.Forall (fun b : biquad RN => m_a0 b <> 0) bs ->
    (Z.to_nat n <= length bs)%nat -> 0 <= f <= 1 / 2 ->
    cprod (map (fun b => rbot b (upt f)) (firstn (Z.to_nat n) bs)) <> 0%C ->
    cas_response (N := XS) (MkCascade n m (map emb_bq bs)) (XR f) =
    Val (xc (cprod (map (fun b => rtop b (upt f)) (firstn (Z.to_nat n) bs)) /
             cprod (map (fun b => rbot b (upt f)) (firstn (Z.to_nat n) bs)))%C).
  Proof.
    intros HF Hn Hf Hb. unfold cas_response, ngtb.
    cbn [nltb X nlit nofZ c_stages c_numStages]. unfold xltb.
    rewrite !rltb_false by lra. cbn [othrow_if obind nmul nopp npolar X npi xmul xopp].
    rewrite !xpolar_cis. cbn [oor_ub obind].
    fold (upt f).
    assert (E : cis (-2 * (2 * PI * f)) = (upt f * upt f)%C).
    { unfold upt. rewrite <- cis_add. f_equal. lra. }
    rewrite E. change (c_of (N:=XS) (XR 1)) with (xc (RtoC 1)).
    rewrite resp_loop_emb by assumption. cbn [obind]. change (ncdiv XS) with xcdiv.
    rewrite xcdiv_xc.
    - do 2 f_equal. field. exact Hb.
    - intros Q. apply Hb. rewrite <- Q. ring.
  Qed.

  Lemma rbot_nz b t : rstable b -> rbot b (cis t) <> 0%C.
  Proof.
    intros H Q. unfold rstable, stable_poly in H. specialize (H (cis (- t))).
    rewrite cis_mod in H. apply (Rlt_irrefl 1). apply H.
    pose proof (cis_neg t) as N.
    replace (cis (- t) * cis (- t) + m_a1 b * cis (- t) + m_a2 b)%C
      with (cis (- t) * cis (- t) * rbot b (cis t))%C.
    - rewrite Q. ring.
    - unfold rbot, poly2.
      transitivity (cis (- t) * cis (- t) + m_a1 b * cis (- t) * (cis t * cis (-t))
                    + m_a2 b * ((cis t * cis (- t)) * (cis t * cis (- t))))%C; [ring|].
      rewrite N. ring.
  Qed.
  Lemma cprod_nz l : List.Forall (fun c : C => c <> 0%C) l -> cprod l <> 0%C.
  Proof.
    induction 1; simpl.
    - apply C1_nz.
    - apply Cmult_neq_0; assumption.
  Qed.
End Resp.

(** ** steady state *)
(** the real part of A e^(i w n) *)
Definition osc (A : C) (w : R) : sig := fun n => fst (A * cis (w * INR n))%C.
Lemma osc_mult A B w n : osc (A + B)%C w n = osc A w n + osc B w n.
Proof. unfold osc. simpl. ring. Qed.
Lemma osc_shift A w n : osc A w n = osc (A * cis (- w))%C w (S n).
Proof.
  unfold osc. rewrite S_INR. replace (w * (INR n + 1)) with (w * INR n + w) by ring.
  rewrite cis_add. f_equal.
  transitivity (A * cis (w * INR n) * (cis w * cis (- w)))%C; [rewrite cis_neg|]; ring.
Qed.
Lemma osc_scale r A w n : osc (RtoC r * A)%C w n = r * osc A w n.
Proof. unfold osc. simpl. ring. Qed.
Lemma fir_osc p0 p1 p2 A w n :
  fir p0 p1 p2 (osc A w) (S (S n)) = osc (poly2 p0 p1 p2 (cis (- w)) * A)%C w (S (S n)).
Proof.
  unfold fir. simpl del. rewrite (osc_shift A w n), (osc_shift (A * cis (-w))%C w (S n)).
  rewrite (osc_shift A w (S n)). rewrite <- !osc_scale, <- !osc_mult. f_equal.
  unfold poly2. ring.
Qed.

Definition tends_osc (y : sig) (A : C) (w : R) : Prop := is_lim_seq (fun n => y n - osc A w n) 0.

Lemma bout_steady b s x A w : rstable b -> tends_osc x A w ->
  tends_osc (bout b s x) (rtop b (cis (- w)) / rbot b (cis (- w)) * A)%C w.
Proof.
  intros Hb Hx. unfold tends_osc in *.
  set (H := (rtop b (cis (- w)) / rbot b (cis (- w)) * A)%C).
  apply (den_relax _ _ _ Hb).
  apply (is_lim_seq_ext_loc (fun n => fir (m_b0 b) (m_b1 b) (m_b2 b) (fun k => x k - osc A w k) n)).
  - exists 2%nat. intros n Hn. destruct n as [|[|n]]; try lia.
    pose proof (bout_eq b s x (S (S n))) as E. unfold den, numr in E. cbn [imp2] in E.
    assert (L : forall p0 p1 p2 (y z : sig) k, fir p0 p1 p2 (fun j => y j - z j) k = fir p0 p1 p2 y k - fir p0 p1 p2 z k).
    { intros p0 p1 p2 y z k. unfold fir. destruct k as [|[|k]]; simpl; ring. }
    rewrite !L, E, !fir_osc.
    replace (poly2 1 (m_a1 b) (m_a2 b) (cis (- w)) * H)%C with (poly2 (m_b0 b) (m_b1 b) (m_b2 b) (cis (- w)) * A)%C.
    + ring.
    + unfold H. fold (rtop b (cis (- w))) (rbot b (cis (- w))). field. apply rbot_nz. exact Hb.
  - apply fir_lim. exact Hx.
Qed.

Lemma couts_steady bss w : List.Forall (fun bs => rstable (fst bs)) bss -> forall x A, tends_osc x A w ->
  tends_osc (couts bss x) (cprod (map (fun bs => rtop (fst bs) (cis (- w))) bss) /
                           cprod (map (fun bs => rbot (fst bs) (cis (- w))) bss) * A)%C w.
Proof.
  induction bss as [|[b s] bss IH]; intros HF x A Hx.
  - simpl. replace (1 / 1 * A)%C with A; auto. field. apply C1_nz.
  - inversion HF; subst. cbn [fst snd] in *.
    change (couts ((b, s) :: bss) x) with (couts bss (bout b s x)).
    pose proof (IH H2 _ _ (bout_steady b s x A w H1 Hx)) as G.
    cbn [map cprod fold_right fst]. fold (cprod (map (fun bs => rtop (fst bs) (cis (- w))) bss)).
    fold (cprod (map (fun bs => rbot (fst bs) (cis (- w))) bss)).
    match type of G with tends_osc _ ?a _ => match goal with |- tends_osc _ ?b _ => replace b with a; auto end end.
    field. split; [|apply rbot_nz; auto].
    apply cprod_nz. apply List.Forall_map. eapply List.Forall_impl; [|exact H2].
    intros [b' s'] Hb'. apply rbot_nz. exact Hb'.
Qed.
