(** Proofs: rounding errors of one section that starts with arbitrary finite delay lines. *)
From Coq Require Import ZArith List Bool Reals Lra Lia.
From Flocq Require Import Core.Raux IEEE754.BinarySingleNaN.
From Verif Require Import Num Outcome Biquad State Cascade Float64 FloatSpec Stream SigSpec SigProofs RoundSpec RoundProofs RoundRun RunOnSpec.
Import ListNotations.
Local Open Scope R_scope.

Definition fdi (v : f64) (x : nat -> f64) : nat -> f64 := fun n => match n with O => v | S m => x m end.
Lemma fdi_ok M v (y : nat -> f64) n : okf M v -> (forall i, (i < n)%nat -> okf M (y i)) -> okf M (fdi v y n).
Proof. intros HM H. destruct n as [|n]; simpl; [exact HM|apply H; lia]. Qed.
Lemma fdi2_ok M v1 v2 (y : nat -> f64) n : okf M v1 -> okf M v2 -> (forall i, (i < n)%nat -> okf M (y i)) -> okf M (fdi v2 (fdi v1 y) n).
Proof. intros H1 H2 H. destruct n as [|[|n]]; simpl; [exact H2|exact H1|apply H; lia]. Qed.
Lemma re_fdi v x n : B2R (fdi v x n) = del (re x) n + imp2 (B2R v, 0) n.
Proof. destruct n as [|[|n]]; unfold re; simpl; ring. Qed.
Lemma re_fdi2 v1 v2 x n : B2R (fdi v2 (fdi v1 x) n) = del (del (re x)) n + imp2 (B2R v2, B2R v1) n.
Proof. destruct n as [|[|n]]; unfold re; simpl; ring. Qed.
Lemma okf_weak M M' v : okf M v -> M <= M' -> okf M' v.
Proof. intros [A B] H. split; [exact A|lra]. Qed.
Lemma imp2_bd k n K : 0 <= K -> Rabs (fst k) <= K -> Rabs (snd k) <= K -> Rabs (imp2 k n) <= K.
Proof. intros H A B. destruct n as [|[|n]]; simpl; try assumption. rewrite Rabs_R0. exact H. Qed.

Lemma fir_plus c0 c1 c2 u v n : fir c0 c1 c2 (fun i => u i + v i) n = fir c0 c1 c2 u n + fir c0 c1 c2 v n.
Proof. unfold fir. destruct n as [|[|n]]; cbn [del]; ring. Qed.

Section Stage.
  Context {m : libm}.
  Variables (b : biquad (F64 m)) (x : nat -> f64) (G X c : R).
  Notation stp := (fun (s : st (F64 m)) (v : T (F64 m)) => st_filter s b v).
  Let a1 := B2R (m_a1 b : f64). Let a2 := B2R (m_a2 b : f64).
  Let b0 := B2R (m_b0 b : f64). Let b1 := B2R (m_b1 b : f64). Let b2 := B2R (m_b2 b : f64).
  Let A := Rabs a1 + Rabs a2. Let B := Rabs b0 + Rabs b1 + Rabs b2.
  Let L := B * X + (1 + A) * (1 + B) * c.
  Hypotheses (Hfin : fin_coeffs b) (Hgain : rec_gain a1 a2 G) (HX : forall n, okf X (x n)) (Hc : 0 <= c)
    (H1 : G * A <= 2 ^ 44) (H2 : X + (1 + A) * c <= 2 ^ 900) (H3 : G * (L + B) <= 2 ^ 900).
  Let HG : 1 <= G := gain_ge1 _ _ _ Hgain.
  Let HA : 0 <= A. Proof. unfold A. pose proof (Rabs_pos a1). pose proof (Rabs_pos a2). lra. Qed.
  Let HB : 0 <= B. Proof. unfold B. pose proof (Rabs_pos b0). pose proof (Rabs_pos b1). pose proof (Rabs_pos b2). lra. Qed.
  Let X0 : 0 <= X. Proof. destruct (HX O) as [_ Q]. pose proof (Rabs_pos (B2R (x O))). lra. Qed.
  Let P1 : 0 <= A * c. Proof. apply Rmult_le_pos; assumption. Qed.
  Let P2 : 0 <= B * c. Proof. apply Rmult_le_pos; assumption. Qed.
  Let P3 : 0 <= A * B * c. Proof. apply Rmult_le_pos; [apply Rmult_le_pos|]; assumption. Qed.
  Let P4 : 0 <= B * X. Proof. apply Rmult_le_pos; assumption. Qed.
  Let LE : L = B * X + (c + A * c + B * c + A * B * c). Proof. unfold L. ring. Qed.
  Let L0 : 0 <= L. Proof. rewrite LE. lra. Qed.
  Let L9 : L <= 2 ^ 900.
  Proof. assert (L <= G * L) by nra. assert (0 <= G * B) by (apply Rmult_le_pos; lra). nra. Qed.
  Let V2 := X + (1 + A) * c.
  Let V20 : 0 <= V2. Proof. unfold V2. lra. Qed.
  Let BV2 : B * V2 <= L. Proof. rewrite LE. unfold V2. replace (B * (X + (1 + A) * c)) with (B * X + B * c + A * B * c) by ring. lra. Qed.

  (** exact response *)
  Variables (k : R * R) (z : nat -> R).
  Hypotheses (K1 : Rabs (fst k) <= (A + B + A * B + 1) * c) (K2 : Rabs (snd k) <= (A + B + A * B + 1) * c) (Hz : forall n, fir 1 a1 a2 z n = fir b0 b1 b2 (re x) n + imp2 k n).
  Let KB n : Rabs (imp2 k n) <= (A + B + A * B + 1) * c.
  Proof. apply imp2_bd; [|exact K1|exact K2]. replace ((A + B + A * B + 1) * c) with (c + A * c + B * c + A * B * c) by ring. lra. Qed.

  (** a signal that satisfies the equation up to errors *)
  Lemma nearf (y : nat -> R) (D : R) n : 0 <= D ->
    (forall i, (i <= n)%nat -> Rabs (fir 1 a1 a2 y i - (fir b0 b1 b2 (re x) i + imp2 k i)) <= D) ->
    Rabs (y n) <= G * (L + D) /\ Rabs (y n - z n) <= G * D.
  Proof.
    intros HD H. split.
    - apply (gain_fir _ _ _ Hgain y); [lra|]. intros i Hi. specialize (H i Hi).
      pose proof (fir_bd b0 b1 b2 (re x) X i X0 (fun j _ => proj2 (HX j))) as Q. fold B in Q. pose proof (KB i) as Q2. replace ((A + B + A * B + 1) * c) with (c + A * c + B * c + A * B * c) in Q2 by ring.
      rewrite LE. revert H Q Q2. unfold Rabs; repeat destruct (Rcase_abs _); lra.
    - apply (gain_fir _ _ _ Hgain (fun k => y k - z k)); [lra|]. intros i Hi. rewrite fir_sub, Hz. apply H, Hi.
  Qed.

  (** ** Direct Form I *)
  Section F1.
  Variables x1 x2 w1 w2 : f64.
  Hypotheses (Ox1 : okf c x1) (Ox2 : okf c x2) (Ow1 : okf c w1) (Ow2 : okf c w2).
  Hypothesis Hk : k = left_over b (S1 (x1 : T (F64 m)) (x2 : T (F64 m)) (w1 : T (F64 m)) (w2 : T (F64 m))).
  Let s0 : st (F64 m) := S1 (x1 : T (F64 m)) (x2 : T (F64 m)) (w1 : T (F64 m)) (w2 : T (F64 m)).
  Let y1 : nat -> f64 := sout stp s0 x.
  Lemma st1f n : sst stp s0 x n = S1 (fdi x1 x n : T (F64 m)) (fdi x2 (fdi x1 x) n : T (F64 m)) (fdi w1 y1 n : T (F64 m)) (fdi w2 (fdi w1 y1) n : T (F64 m)).
  Proof.
    induction n as [|n IH]; [reflexivity|]. change (fst (stp (sst stp s0 x n) (x n)) = S1 (x n : T (F64 m)) (fdi x1 x n : T (F64 m)) (y1 n : T (F64 m)) (fdi w1 y1 n : T (F64 m))).
    change (y1 n) with (snd (stp (sst stp s0 x n) (x n))). rewrite IH. reflexivity.
  Qed.
  Let M1 := lev G L.
  Let D1 := dlt G A L.
  Let Mc : c <= M1.
  Proof. unfold M1, lev. pose proof g_pos. assert (c <= L) by (rewrite LE; lra). nra. Qed.
  Let XC := X + c.
  Let xc n : okf XC (x n) /\ okf XC (fdi x1 x n) /\ okf XC (fdi x2 (fdi x1 x) n).
  Proof.
    assert (Q : forall i, okf XC (x i)) by (intros i; apply (okf_weak X); [apply HX|unfold XC; lra]). split; [apply Q|].
    split; [apply fdi_ok|apply fdi2_ok]; try (intros; apply Q); apply (okf_weak c); try assumption; unfold XC; lra.
  Qed.
  Lemma df1_stepf n : (forall i, (i < n)%nat -> okf M1 (y1 i)) ->
    is_finite (y1 n) = true /\ Rabs (fir 1 a1 a2 (re y1) n - (fir b0 b1 b2 (re x) n + imp2 k n)) <= D1.
  Proof.
    intros H. pose proof (lev_pos G A HG HA H1 L L0 L9) as ML. fold M1 in ML.
    destruct (xc n) as ((F0 & Q0) & (F1 & Q1) & (F2 & Q2)).
    destruct (fdi_ok M1 w1 y1 n (okf_weak _ _ _ Ow1 Mc) H) as (F3 & Q3). destruct (fdi2_ok M1 w1 w2 y1 n (okf_weak _ _ _ Ow1 Mc) (okf_weak _ _ _ Ow2 Mc) H) as (F4 & Q4). destruct Hfin as (Ca1 & Ca2 & Cb0 & Cb1 & Cb2).
    pose proof (lev_fits G A HG HA H1 L L0 L9) as Fit. fold M1 in Fit.
    pose proof (dot5 (m_b0 b) (x n) (m_b1 b) (fdi x1 x n) (m_b2 b) (fdi x2 (fdi x1 x) n) (m_a1 b) (fdi w1 y1 n) (m_a2 b) (fdi w2 (fdi w1 y1) n)
      _ _ _ _ _ Cb0 Cb1 Cb2 Ca1 Ca2 F0 F1 F2 F3 F4 (mul_ok _ _ _ Q0) (mul_ok _ _ _ Q1) (mul_ok _ _ _ Q2) (mul_ok _ _ _ Q3) (mul_ok _ _ _ Q4)) as P.
    fold a1 a2 b0 b1 b2 in P. replace (Rabs b0 * XC + Rabs b1 * XC + Rabs b2 * XC + Rabs a1 * M1 + Rabs a2 * M1) with (B * XC + A * M1) in P by (unfold A, B; ring).
    assert (BL : B * XC <= L) by (rewrite LE; unfold XC; lra). specialize (P ltac:(lra)). destruct P as (PF & PE & _).
    match type of PF with is_finite ?t = true => assert (E : y1 n = t) end.
    { unfold y1 at 1, sout. rewrite st1f. reflexivity. }
    rewrite <- E in PF, PE. split; [exact PF|].
    rewrite (re_fdi x1 x), (re_fdi2 x1 x2 x), (re_fdi w1 y1), (re_fdi2 w1 w2 y1) in PE. unfold fir. fold (re x n) (re y1 n) in PE.
    eapply Rle_trans; [|eapply Rle_trans; [exact PE|]].
    - right. f_equal. rewrite Hk. unfold left_over. fold a1 a2 b0 b1 b2. destruct n as [|[|n]]; cbn [imp2 fst snd del]; ring.
    - unfold D1, dlt. fold M1. pose proof g_abs_tiny. pose proof tiny_pos. pose proof (A_lev_pos G A HG HA H1 L L0 L9) as AL. fold M1 in AL. assert (0 <= B * XC) by (apply Rmult_le_pos; unfold XC; lra). rewrite g_rel_uu. unfold uu. lra.
  Qed.
  Lemma df1_allf : forall n, okf M1 (y1 n) /\ Rabs (fir 1 a1 a2 (re y1) n - (fir b0 b1 b2 (re x) n + imp2 k n)) <= D1.
  Proof.
    apply strong. intros n IH. destruct (df1_stepf n (fun i Hi => proj1 (IH i Hi))) as [F E]. split; [|exact E]. split; [exact F|].
    pose proof (dlt_pos G A HG HA H1 L L0 L9) as DP. fold D1 in DP.
    destruct (nearf (re y1) D1 n ltac:(lra)) as [Q _].
    { intros i Hi. destruct (Nat.eq_dec i n) as [->|]; [exact E|apply IH; lia]. }
    eapply Rle_trans; [exact Q|]. apply (lev_covers G A HG HA H1 L L0 L9).
  Qed.
  End F1.

  (** ** Direct Form II *)
  Section F2.
  Variables v1 v2 : f64.
  Hypotheses (Ov1 : okf c v1) (Ov2 : okf c v2).
  Hypothesis Hk : k = left_over b (S2 (v1 : T (F64 m)) (v2 : T (F64 m))).
  Let s0 : st (F64 m) := S2 (v1 : T (F64 m)) (v2 : T (F64 m)).
  Let wf (s : st (F64 m)) : f64 := match s with S2 v1 _ => v1 | _ => f0 end.
  Let w : nat -> f64 := fun n => wf (sst stp s0 x (S n)).
  Let y2 : nat -> f64 := sout stp s0 x.
  Lemma st2f n : sst stp s0 x n = S2 (fdi v1 w n : T (F64 m)) (fdi v2 (fdi v1 w) n : T (F64 m)).
  Proof.
    induction n as [|n IH]; [reflexivity|]. change (fst (stp (sst stp s0 x n) (x n)) = S2 (w n : T (F64 m)) (fdi v1 w n : T (F64 m))).
    change (w n) with (wf (fst (stp (sst stp s0 x n) (x n)))). rewrite IH. reflexivity.
  Qed.
  Let kw : nat -> R := fun n => - a1 * imp2 (B2R v1, 0) n - a2 * imp2 (B2R v2, B2R v1) n.
  Let kb : nat -> R := fun n => b1 * imp2 (B2R v1, 0) n + b2 * imp2 (B2R v2, B2R v1) n.
  Let pulse n : Rabs (imp2 (B2R v1, 0) n) <= c /\ Rabs (imp2 (B2R v2, B2R v1) n) <= c.
  Proof. destruct Ov1 as [_ U1], Ov2 as [_ U2]. split; apply imp2_bd; cbn [fst snd]; try assumption. rewrite Rabs_R0. exact Hc. Qed.
  Let kw_bd n : Rabs (kw n) <= A * c.
  Proof.
    destruct (pulse n) as [U1 U2]. unfold kw. eapply Rle_trans; [apply Rabs_triang|]. rewrite Rabs_Ropp, !Rabs_mult, Rabs_Ropp.
    assert (Rabs a1 * Rabs (imp2 (B2R v1, 0) n) <= Rabs a1 * c) by (apply Rmult_le_compat_l; [apply Rabs_pos|exact U1]).
    assert (Rabs a2 * Rabs (imp2 (B2R v2, B2R v1) n) <= Rabs a2 * c) by (apply Rmult_le_compat_l; [apply Rabs_pos|exact U2]). unfold A. lra.
  Qed.
  Let kb_bd n : Rabs (kb n) <= B * c.
  Proof.
    destruct (pulse n) as [U1 U2]. unfold kb. eapply Rle_trans; [apply Rabs_triang|]. rewrite !Rabs_mult.
    assert (Rabs b1 * Rabs (imp2 (B2R v1, 0) n) <= Rabs b1 * c) by (apply Rmult_le_compat_l; [apply Rabs_pos|exact U1]).
    assert (Rabs b2 * Rabs (imp2 (B2R v2, B2R v1) n) <= Rabs b2 * c) by (apply Rmult_le_compat_l; [apply Rabs_pos|exact U2]).
    assert (0 <= Rabs b0 * c) by (apply Rmult_le_pos; [apply Rabs_pos|exact Hc]). unfold B. lra.
  Qed.
  Let k_eq n : fir b0 b1 b2 kw n + fir 1 a1 a2 kb n = imp2 k n.
  Proof. rewrite Hk. unfold left_over, kw, kb, fir. fold a1 a2 b0 b1 b2. destruct n as [|[|[|[|n]]]]; cbn [imp2 fst snd del]; ring. Qed.
  Let M2 := lev G V2.
  Let D2 := dlt G A V2.
  Let Mc : c <= M2.
  Proof. unfold M2, lev. pose proof g_pos. assert (c <= V2) by (unfold V2; lra). nra. Qed.
  Lemma df2_stepf n : (forall i, (i < n)%nat -> okf M2 (w i)) ->
    is_finite (w n) = true /\ Rabs (fir 1 a1 a2 (re w) n - (re x n + kw n)) <= D2.
  Proof.
    intros H. pose proof (lev_pos G A HG HA H1 V2 V20 H2) as ML. fold M2 in ML.
    destruct (HX n) as (F0 & Q0).
    destruct (fdi_ok M2 v1 w n (okf_weak _ _ _ Ov1 Mc) H) as (F3 & Q3). destruct (fdi2_ok M2 v1 v2 w n (okf_weak _ _ _ Ov1 Mc) (okf_weak _ _ _ Ov2 Mc) H) as (F4 & Q4). destruct Hfin as (Ca1 & Ca2 & _).
    pose proof (lev_fits G A HG HA H1 V2 V20 H2) as Fit. fold M2 in Fit.
    pose proof (dotw (x n) (m_a1 b) (fdi v1 w n) (m_a2 b) (fdi v2 (fdi v1 w) n) _ _ _ Ca1 Ca2 F0 F3 F4 Q0 (mul_ok _ _ _ Q3) (mul_ok _ _ _ Q4)) as P.
    fold a1 a2 in P. replace (X + Rabs a1 * M2 + Rabs a2 * M2) with (X + A * M2) in P by (unfold A; ring).
    assert (XV : X <= V2) by (unfold V2; lra). specialize (P ltac:(lra)). destruct P as (PF & PE & _).
    match type of PF with is_finite ?t = true => assert (E : w n = t) end.
    { unfold w at 1. cbn [sst]. rewrite st2f. reflexivity. }
    rewrite <- E in PF, PE. split; [exact PF|].
    rewrite (re_fdi v1 w), (re_fdi2 v1 v2 w) in PE. unfold fir. fold (re x n) (re w n) in PE.
    eapply Rle_trans; [|eapply Rle_trans; [exact PE|]].
    - right. f_equal. unfold kw. ring.
    - unfold D2, dlt. fold M2. pose proof g_abs_tiny. pose proof tiny_pos. pose proof (A_lev_pos G A HG HA H1 V2 V20 H2) as AL. fold M2 in AL. rewrite g_rel_uu. unfold uu. lra.
  Qed.
  Lemma df2_wf : forall n, okf M2 (w n) /\ Rabs (fir 1 a1 a2 (re w) n - (re x n + kw n)) <= D2.
  Proof.
    apply strong. intros n IH. destruct (df2_stepf n (fun i Hi => proj1 (IH i Hi))) as [F E]. split; [|exact E]. split; [exact F|].
    pose proof (dlt_pos G A HG HA H1 V2 V20 H2) as DP. fold D2 in DP.
    eapply Rle_trans; [|apply (lev_covers G A HG HA H1 V2 V20 H2)].
    apply (gain_fir _ _ _ Hgain (re w)); [fold D2; lra|]. intros i Hi. fold D2.
    assert (Q : Rabs (fir 1 a1 a2 (re w) i - (re x i + kw i)) <= D2) by (destruct (Nat.eq_dec i n) as [->|]; [exact E|apply IH; lia]).
    destruct (HX i) as [_ Q']. fold (re x i) in Q'. pose proof (kw_bd i) as Q2. unfold V2. revert Q Q' Q2. unfold Rabs; repeat destruct (Rcase_abs _); lra.
  Qed.
  Let BM2e : B * M2 = 2 * G * (B * V2 + B * g_abs). Proof. unfold M2, lev. ring. Qed.
  Let BM2 : B * M2 <= big / 2.
  Proof.
    rewrite BM2e. pose proof g_pos. pose proof pow_ratio. pose proof p900.
    assert (B * g_abs <= B) by nra. assert (G * (B * V2 + B * g_abs) <= G * (L + B)) by (apply Rmult_le_compat_l; lra).
    assert (1 * 2 ^ 900 <= 2 ^ 46 * 2 ^ 900). { apply Rmult_le_compat_r; [lra|]. simpl. lra. } lra.
  Qed.
  Let y' : nat -> R := fun n => fir b0 b1 b2 (re w) n + kb n.
  Lemma df2_outf n : is_finite (y2 n) = true /\ Rabs (re y2 n - y' n) <= g_rel * (B * M2) + g_abs.
  Proof.
    pose proof (lev_pos G A HG HA H1 V2 V20 H2) as ML. fold M2 in ML. destruct (df2_wf n) as ((F0 & Q0) & _).
    destruct (fdi_ok M2 v1 w n (okf_weak _ _ _ Ov1 Mc) (fun i _ => proj1 (df2_wf i))) as (F3 & Q3). destruct (fdi2_ok M2 v1 v2 w n (okf_weak _ _ _ Ov1 Mc) (okf_weak _ _ _ Ov2 Mc) (fun i _ => proj1 (df2_wf i))) as (F4 & Q4). destruct Hfin as (_ & _ & Cb0 & Cb1 & Cb2).
    pose proof (dot3 (m_b0 b) (w n) (m_b1 b) (fdi v1 w n) (m_b2 b) (fdi v2 (fdi v1 w) n) _ _ _ Cb0 Cb1 Cb2 F0 F3 F4 (mul_ok _ _ _ Q0) (mul_ok _ _ _ Q3) (mul_ok _ _ _ Q4)) as P.
    fold b0 b1 b2 in P. replace (Rabs b0 * M2 + Rabs b1 * M2 + Rabs b2 * M2) with (B * M2) in P by (unfold B; ring).
    specialize (P BM2). destruct P as (PF & PE & _).
    match type of PF with is_finite ?t = true => assert (E : y2 n = t) end.
    { unfold w at 1. cbn [sst]. unfold y2, sout. rewrite st2f. reflexivity. }
    rewrite <- E in PF, PE. split; [exact PF|].
    rewrite (re_fdi v1 w), (re_fdi2 v1 v2 w) in PE. unfold y', fir, kb. fold (re w n) (re y2 n) in PE.
    match type of PE with Rabs ?u <= _ => match goal with |- Rabs ?v <= _ => replace v with u by ring end end. eapply Rle_trans; [exact PE|].
    assert (0 <= B * M2) by (apply Rmult_le_pos; lra). pose proof g_abs_tiny. pose proof tiny_pos. rewrite g_rel_uu. unfold uu. lra.
  Qed.
  Lemma df2_nearf n : Rabs (y' n - z n) <= G * (B * D2) /\ Rabs (y' n) <= B * M2 + B * c.
  Proof.
    pose proof (dlt_pos G A HG HA H1 V2 V20 H2) as DP. fold D2 in DP. pose proof (lev_pos G A HG HA H1 V2 V20 H2) as ML. fold M2 in ML. split.
    - apply (nearf y' (B * D2) n); [apply Rmult_le_pos; lra|]. intros i Hi. rewrite <- k_eq.
      assert (E : fir 1 a1 a2 y' i - (fir b0 b1 b2 (re x) i + (fir b0 b1 b2 kw i + fir 1 a1 a2 kb i)) = fir b0 b1 b2 (fun j => fir 1 a1 a2 (re w) j - (re x j + kw j)) i).
      { unfold y'. rewrite (fir_plus 1 a1 a2 (fir b0 b1 b2 (re w)) kb i), fir_comm, fir_sub.
        rewrite (fir_plus b0 b1 b2 (re x) kw i). ring. }
      rewrite E. apply fir_bd; [lra|]. intros j _. apply df2_wf.
    - unfold y'. pose proof (fir_bd b0 b1 b2 (re w) M2 n ltac:(lra) (fun i _ => proj2 (proj1 (df2_wf i)))) as Q. fold B in Q. pose proof (kb_bd n) as Q2. eapply Rle_trans; [apply Rabs_triang|]. lra.
  Qed.
  End F2.

  (** ** Transposed Direct Form II *)
  Section F3.
  Variables s1 s2 r1 r2 : f64.
  Hypotheses (Os1 : okf c s1) (Os2 : okf c s2).
  Hypothesis Hk : k = left_over b (S3 (r1 : T (F64 m)) (s1 : T (F64 m)) (r2 : T (F64 m)) (s2 : T (F64 m))).
  Let s0 : st (F64 m) := S3 (r1 : T (F64 m)) (s1 : T (F64 m)) (r2 : T (F64 m)) (s2 : T (F64 m)).
  Let pf1 (s : st (F64 m)) : f64 := match s with S3 _ s1 _ _ => s1 | _ => f0 end.
  Let pf2 (s : st (F64 m)) : f64 := match s with S3 _ _ _ s2 => s2 | _ => f0 end.
  Let p : nat -> f64 := fun n => pf1 (sst stp s0 x n).
  Let q : nat -> f64 := fun n => pf2 (sst stp s0 x n).
  Let y3 : nat -> f64 := sout stp s0 x.
  Lemma st3f n : exists u v, sst stp s0 x n = S3 u (p n : T (F64 m)) v (q n : T (F64 m)).
  Proof.
    destruct n as [|n]; [exists r1, r2; reflexivity|]. unfold p, q. cbn [sst].
    assert (Q : exists u1 u2 u3 u4, sst stp s0 x n = S3 u1 u2 u3 u4).
    { induction n as [|n (u1 & u2 & u3 & u4 & IH)]; [repeat eexists|]. cbn [sst]. rewrite IH. repeat eexists. }
    destruct Q as (u1 & u2 & u3 & u4 & ->). repeat eexists.
  Qed.
  Lemma y3_eqf n : y3 n = fadd (p n) (fmul (m_b0 b) (x n)).
  Proof. unfold y3, sout. destruct (st3f n) as (u & v & ->). reflexivity. Qed.
  Lemma p_eqf n : p (S n) = fsub (fadd (q n) (fmul (m_b1 b) (x n))) (fmul (m_a1 b) (y3 n)).
  Proof. rewrite y3_eqf. unfold p at 1. cbn [sst]. destruct (st3f n) as (u & v & ->). reflexivity. Qed.
  Lemma q_eqf n : q (S n) = fsub (fmul (m_b2 b) (x n)) (fmul (m_a2 b) (y3 n)).
  Proof. rewrite y3_eqf. unfold q at 1. cbn [sst]. destruct (st3f n) as (u & v & ->). reflexivity. Qed.
  Let M1 := lev G L.
  Let D1 := dlt G A L.
  Let Q := L + A * M1.
  Let e := 8 * uu * (2 * Q + 64 * tiny) + 16 * tiny.
  (** the two states and their errors after sample n *)
  Let qok n := is_finite (q n) = true /\ Rabs (B2R (q n)) <= c + Rabs b2 * X + Rabs a2 * M1 + e.
  Let pok n := is_finite (p n) = true /\ Rabs (B2R (p n)) <= c + (Rabs b1 + Rabs b2) * X + A * M1 + 2 * e.
  Let Q0 : 0 <= Q. Proof. unfold Q. pose proof (A_lev_pos G A HG HA H1 L L0 L9) as AL. fold M1 in AL. lra. Qed.
  Let Qb : Q <= big / 2. Proof. apply (lev_fits G A HG HA H1 L L0 L9). Qed.
  Let Qsmall : Q <= big / 4.
  Proof.
    unfold Q, M1. pose proof (A_lev G A HG HA H1 L L0 L9). pose proof g_pos. pose proof p900. pose proof pow_ratio.
    assert (2 ^ 45 * (L + g_abs) <= 2 ^ 45 * (2 * 2 ^ 900)) by (apply Rmult_le_compat_l; [apply pow_le; lra|lra]).
    replace (2 ^ 46) with (2 * 2 ^ 45) in * by (simpl; ring). assert (1024 * 2 ^ 900 <= 2 ^ 45 * 2 ^ 900). { apply Rmult_le_compat_r; [lra|]. simpl. lra. } nra.
  Qed.
  Let e_small : 0 <= e <= Q / 1024 + 32 * tiny.
  Proof. unfold e. pose proof tiny_pos. unfold uu. lra. Qed.
  Let parts : 0 <= Rabs b0 * X /\ 0 <= Rabs b1 * X /\ 0 <= Rabs b2 * X /\ 0 <= Rabs a1 * M1 /\ 0 <= Rabs a2 * M1 /\
    c + Rabs b0 * X + Rabs b1 * X + Rabs b2 * X + Rabs a1 * M1 + Rabs a2 * M1 <= Q.
  Proof.
    pose proof (lev_pos G A HG HA H1 L L0 L9) as ML. fold M1 in ML.
    repeat split; try (apply Rmult_le_pos; [apply Rabs_pos|lra]). assert (E1 : A * M1 = Rabs a1 * M1 + Rabs a2 * M1) by (unfold A; ring). assert (E2 : B * X = Rabs b0 * X + Rabs b1 * X + Rabs b2 * X) by (unfold B; ring). unfold Q. rewrite LE. lra.
  Qed.
  Lemma tdf_outf n : pok n -> is_finite (y3 n) = true /\ Rabs (re y3 n - (B2R (p n) + b0 * re x n)) <= e.
  Proof.
    intros (Fp & Ep). destruct (HX n) as (F0 & X1). destruct Hfin as (_ & _ & Cb0 & _). destruct parts as (R0 & R1 & R2 & R3 & R4 & PQ). nums.
    pose proof (dots (p n) (m_b0 b) (x n) _ _ Fp Cb0 F0 Ep (mul_ok _ _ _ X1)) as P. fold b0 in P.
    assert (AM : A * M1 = Rabs a1 * M1 + Rabs a2 * M1) by (unfold A; ring).
    destruct P as (PF & PE & _). { replace ((Rabs b1 + Rabs b2) * X) with (Rabs b1 * X + Rabs b2 * X) by ring. rewrite AM. lra. }
    rewrite <- y3_eqf in PF, PE. split; [exact PF|]. eapply Rle_trans; [exact PE|].
    replace ((Rabs b1 + Rabs b2) * X) with (Rabs b1 * X + Rabs b2 * X) by ring. rewrite AM.
    assert (S : c + (Rabs b1 * X + Rabs b2 * X) + (Rabs a1 * M1 + Rabs a2 * M1) + 2 * e + Rabs b0 * X <= 2 * Q + 64 * tiny) by lra.
    revert S. unfold e at 3. unfold uu. lra.
  Qed.
  Lemma tdf_nextf n : okf M1 (y3 n) -> qok n ->
    qok (S n) /\ pok (S n) /\ Rabs (B2R (q (S n)) - (b2 * re x n - a2 * re y3 n)) <= e /\
    Rabs (B2R (p (S n)) - (B2R (q n) + b1 * re x n - a1 * re y3 n)) <= e.
  Proof.
    intros (Fy & Ey) (Fq & Eq). destruct (HX n) as (F0 & X1). destruct Hfin as (Ca1 & Ca2 & _ & Cb1 & Cb2). destruct parts as (R0 & R1 & R2 & R3 & R4 & PQ). nums.
    pose proof (dotxy (m_b2 b) (x n) (m_a2 b) (y3 n) _ _ Cb2 F0 Ca2 Fy (mul_ok _ _ _ X1) (mul_ok _ _ _ Ey)) as P.
    pose proof (dotsy (q n) (m_b1 b) (x n) (m_a1 b) (y3 n) _ _ _ Fq Cb1 F0 Ca1 Fy Eq (mul_ok _ _ _ X1) (mul_ok _ _ _ Ey)) as R.
    fold a2 b2 in P. fold a1 b1 in R. destruct P as (PF & PE & PB); [lra|]. destruct R as (RF & RE & RB); [lra|].
    rewrite <- q_eqf in PF, PE. rewrite <- p_eqf in RF, RE. fold (re x n) (re y3 n) in PE, RE.
    assert (E1 : Rabs (B2R (q (S n)) - (b2 * re x n - a2 * re y3 n)) <= e).
    { eapply Rle_trans; [exact PE|]. unfold e, uu. lra. }
    assert (E2 : Rabs (B2R (p (S n)) - (B2R (q n) + b1 * re x n - a1 * re y3 n)) <= e).
    { eapply Rle_trans; [exact RE|]. assert (S : c + Rabs b2 * X + Rabs a2 * M1 + e + Rabs b1 * X + Rabs a1 * M1 <= 2 * Q + 64 * tiny) by lra. revert S. unfold e at 3. unfold uu. lra. }
    repeat split; auto.
    - pose proof (Rabs_triang_inv (B2R (q (S n))) (b2 * re x n - a2 * re y3 n)). fold (re x n) (re y3 n) in PB. lra.
    - replace ((Rabs b1 + Rabs b2) * X) with (Rabs b1 * X + Rabs b2 * X) by ring. replace (A * M1) with (Rabs a1 * M1 + Rabs a2 * M1) by (unfold A; ring).
      fold (re x n) (re y3 n) in RB. pose proof (Rabs_triang_inv (B2R (p (S n))) (B2R (q n) + b1 * re x n - a1 * re y3 n)). lra.
  Qed.
  Lemma tdf_pertf n : (forall i, (i <= n)%nat -> qok i /\ pok i) -> (forall i, (i < n)%nat -> okf M1 (y3 i)) ->
    Rabs (fir 1 a1 a2 (re y3) n - (fir b0 b1 b2 (re x) n + imp2 k n)) <= D1.
  Proof.
    intros HS HY. rewrite Hk. cbn [left_over]. assert (S3e : 3 * e <= D1).
    { unfold D1, dlt. fold M1. fold Q. unfold e. rewrite g_rel_uu, <- g_abs_tiny. pose proof tiny_pos. unfold uu. lra. }
    destruct (tdf_outf n (proj2 (HS n ltac:(lia)))) as [_ O].
    destruct n as [|n].
    - unfold fir. cbn [del imp2 fst snd]. replace (B2R (p 0)) with (B2R s1) in O by reflexivity. pose proof (proj1 e_small) as EP. revert O S3e EP.
      unfold Rabs; repeat destruct (Rcase_abs _); lra.
    - destruct (tdf_nextf n (HY n ltac:(lia)) (proj1 (HS n ltac:(lia)))) as (_ & _ & _ & E1).
      destruct n as [|n].
      + unfold fir. cbn [del imp2 fst snd]. replace (B2R (q 0)) with (B2R s2) in E1 by reflexivity. revert O E1 S3e.
        unfold Rabs; repeat destruct (Rcase_abs _); lra.
      + destruct (tdf_nextf n (HY n ltac:(lia)) (proj1 (HS n ltac:(lia)))) as (_ & _ & E2 & _).
        unfold fir. cbn [del imp2 fst snd]. revert O E1 E2 S3e. unfold Rabs; repeat destruct (Rcase_abs _); lra.
  Qed.
  Lemma tdf_allf : forall n, (qok n /\ pok n) /\ okf M1 (y3 n) /\ Rabs (fir 1 a1 a2 (re y3) n - (fir b0 b1 b2 (re x) n + imp2 k n)) <= D1.
  Proof.
    apply strong. intros n IH. destruct parts as (R0 & R1 & R2 & R3 & R4 & PQ). nums.
    assert (SO : qok n /\ pok n).
    { destruct n as [|n].
      - assert (0 <= A * M1) by (replace (A * M1) with (Rabs a1 * M1 + Rabs a2 * M1) by (unfold A; ring); lra).
        split; [split; [apply Os2|]|split; [apply Os1|]].
        + destruct Os2 as [_ U]. change (B2R (q 0)) with (B2R s2). lra.
        + destruct Os1 as [_ U]. change (B2R (p 0)) with (B2R s1). lra.
      - destruct (IH n ltac:(lia)) as ((Hq & _) & Hy & _). destruct (tdf_nextf n Hy Hq) as (A1 & A2 & _). split; assumption. }
    assert (E : Rabs (fir 1 a1 a2 (re y3) n - (fir b0 b1 b2 (re x) n + imp2 k n)) <= D1).
    { apply tdf_pertf.
      - intros i Hi. destruct (Nat.eq_dec i n) as [->|]; [exact SO|apply IH; lia].
      - intros i Hi. apply IH, Hi. }
    split; [exact SO|]. split; [|exact E]. split; [apply (tdf_outf n (proj2 SO))|].
    pose proof (dlt_pos G A HG HA H1 L L0 L9) as DP. fold D1 in DP.
    destruct (nearf (re y3) D1 n ltac:(lra)) as [N _].
    { intros i Hi. destruct (Nat.eq_dec i n) as [->|]; [exact E|apply IH; lia]. }
    eapply Rle_trans; [exact N|]. apply (lev_covers G A HG HA H1 L L0 L9).
  Qed.
  End F3.

  (** ** all three *)
  Let ob := 4 * G * (L + (1 + B) * g_abs).
  Let oe := 3 * G * (g_rel * (1 + 2 * A * G) * (L + (1 + B) * g_abs) + (1 + B) * g_abs).
  Let M1 := lev G L.
  Let D1 := dlt G A L.
  Let M1_ob : M1 <= ob.
  Proof. unfold M1, lev, ob. pose proof g_pos. assert (0 <= B * g_abs) by nra. nra. Qed.
  Let D1_oe : G * D1 <= oe.
  Proof.
    unfold D1, dlt, lev, oe. pose proof g_pos. assert (0 < g_rel) by (rewrite g_rel_uu; unfold uu; lra).
    set (LL := L + (1 + B) * g_abs). assert (L1 : L + g_abs <= LL) by (unfold LL; nra).
    assert (0 <= A * G) by nra.
    assert (S1 : g_rel * (L + A * (2 * G * (L + g_abs))) <= g_rel * (1 + 2 * A * G) * LL).
    { rewrite (Rmult_assoc g_rel (1 + 2 * A * G) LL). apply Rmult_le_compat_l; [lra|]. nra. }
    assert (0 <= g_rel * (1 + 2 * A * G) * LL) by (apply Rmult_le_pos; [apply Rmult_le_pos; nra|lra]).
    assert (g_abs <= (1 + B) * g_abs) by nra. nra.
  Qed.
  Lemma stage_from s n : st_within c s -> k = left_over b s -> okf ob (sout stp s x n) /\ Rabs (re (sout stp s x) n - z n) <= oe.
  Proof.
    pose proof (dlt_pos G A HG HA H1 L L0 L9) as DP. fold D1 in DP. intros W Hk. destruct s as [x1 x2 w1 w2|v1 v2|r1 s1 r2 s2].
    - destruct W as (W1 & W2 & W3 & W4). pose proof (df1_allf x1 x2 w1 w2 W1 W2 W3 W4 Hk) as Q. set (y1 := sout stp (S1 x1 x2 w1 w2) x) in *.
      destruct (Q n) as ((F & Q') & _). fold M1 in Q'. split; [split; [exact F|lra]|].
      destruct (nearf (re y1) D1 n ltac:(lra) (fun i _ => proj2 (Q i))) as [_ E]. lra.
    - destruct W as (W1 & W2). destruct (df2_outf v1 v2 W1 W2 n) as (F & O). destruct (df2_nearf v1 v2 W1 W2 Hk n) as (N1 & N2). pose proof g_pos.
      set (y2 := sout stp (S2 v1 v2) x) in *. match type of O with Rabs (_ - ?u) <= _ => set (y' := u) in * end. clearbody y' y2.
      assert (0 < g_rel) by (rewrite g_rel_uu; unfold uu; lra). assert (0 <= A * G) by nra.
      set (M2 := lev G V2) in *. assert (BM : B * M2 = 2 * G * (B * V2 + B * g_abs)) by (unfold M2, lev; ring).
      set (LL := L + (1 + B) * g_abs). assert (L1 : B * V2 + B * g_abs <= LL) by (unfold LL; nra). assert (0 <= B * g_abs) by nra. assert (BV0 : 0 <= B * V2) by (apply Rmult_le_pos; lra).
      assert (BM0 : 0 <= B * M2) by (rewrite BM; apply Rmult_le_pos; lra).
      split; [split; [exact F|]|].
      + assert (G1 : g_rel * (B * M2) <= B * M2 / 4) by (rewrite g_rel_uu; unfold uu; lra).
        assert (YB : Rabs (B2R (y2 n)) <= 5 / 4 * (B * M2) + B * c + g_abs). { fold (re y2 n). revert O N2. unfold Rabs; repeat destruct (Rcase_abs _); lra. }
        assert (BcL : B * c <= L) by (rewrite LE; lra). unfold ob. fold LL. assert (U1 : B * c + g_abs <= LL) by (unfold LL; nra). assert (U2 : G * (B * V2 + B * g_abs) <= G * LL) by (apply Rmult_le_compat_l; lra).
        assert (LL0 : 0 <= LL) by lra. assert (U3 : LL <= G * LL) by (rewrite <- (Rmult_1_l LL) at 1; apply Rmult_le_compat_r; lra). assert (U4 : 0 <= G * LL) by lra. clear - YB BM U1 U2 U3 U4. lra.
      + assert (TR : Rabs (re y2 n - z n) <= G * (B * dlt G A V2) + (g_rel * (B * M2) + g_abs)). { revert O N1. unfold Rabs; repeat destruct (Rcase_abs _); lra. }
        eapply Rle_trans; [exact TR|]. rewrite BM. unfold dlt, lev, oe. fold LL.
        assert (S1 : B * (g_rel * (V2 + A * (2 * G * (V2 + g_abs))) + g_abs) <= g_rel * (1 + 2 * A * G) * LL + B * g_abs).
        { replace (B * (g_rel * (V2 + A * (2 * G * (V2 + g_abs))) + g_abs)) with (g_rel * (B * V2 + 2 * A * G * (B * V2 + B * g_abs)) + B * g_abs) by ring.
          apply Rplus_le_compat_r. rewrite (Rmult_assoc g_rel (1 + 2 * A * G) LL). apply Rmult_le_compat_l; [lra|]. nra. }
        assert (S2 : g_rel * (2 * G * (B * V2 + B * g_abs)) <= 2 * G * (g_rel * (1 + 2 * A * G) * LL)).
        { replace (g_rel * (2 * G * (B * V2 + B * g_abs))) with (2 * G * (g_rel * (B * V2 + B * g_abs))) by ring. apply Rmult_le_compat_l; [lra|].
          rewrite (Rmult_assoc g_rel (1 + 2 * A * G) LL). apply Rmult_le_compat_l; [lra|]. assert (0 <= LL) by (unfold LL; nra). nra. }
        assert (G * (B * (g_rel * (V2 + A * (2 * G * (V2 + g_abs))) + g_abs)) <= G * (g_rel * (1 + 2 * A * G) * LL + B * g_abs)) by (apply Rmult_le_compat_l; lra).
        assert (g_abs <= G * g_abs) by nra. assert (0 <= G * (B * g_abs)) by nra. nra.
    - destruct W as (W1 & W2). pose proof (tdf_allf s1 s2 r1 r2 W1 W2 Hk) as Q. set (y3 := sout stp (S3 r1 s1 r2 s2) x) in *.
      destruct (Q n) as (_ & (F & Q') & _). fold M1 in Q'. split; [split; [exact F|lra]|].
      destruct (nearf (re y3) D1 n ltac:(lra) (fun i _ => proj2 (proj2 (Q i)))) as [_ E]. lra.
  Qed.
  Let hd := 4 * G * (1 + A) * (X + L + g_abs).
  Lemma stage_hold s n : st_within c s -> k = left_over b s -> st_within hd (sst stp s x n).
  Proof.
    pose proof g_pos as GP. pose proof (lev_pos G A HG HA H1 L L0 L9) as ML. fold M1 in ML. set (U := X + L + g_abs) in *.
    assert (GA : 0 <= G * A) by (apply Rmult_le_pos; lra). assert (U0 : 0 <= U) by (unfold U; lra).
    assert (I1 : U <= G * U) by (rewrite <- (Rmult_1_l U) at 1; apply Rmult_le_compat_r; lra).
    assert (I2 : 0 <= G * A * U) by (apply Rmult_le_pos; lra).
    assert (HDe : hd = 4 * (G * U) + 4 * (G * A * U)) by (unfold hd; fold U; ring).
    assert (M1e : M1 <= 2 * (G * U)). { unfold M1, lev. rewrite Rmult_assoc. apply Rmult_le_compat_l; [lra|]. apply Rmult_le_compat_l; unfold U; lra. }
    assert (AM : A * M1 <= 2 * (G * A * U)). { replace (2 * (G * A * U)) with (A * (2 * (G * U))) by ring. apply Rmult_le_compat_l; lra. }
    assert (cL : c <= L) by (rewrite LE; lra). assert (cV : V2 <= U). { unfold V2, U. rewrite LE. lra. }
    assert (LU : L <= U) by (unfold U; lra). assert (XU : X <= U) by (unfold U; lra). assert (gU : g_abs <= U) by (unfold U; lra).
    intros W Hk. destruct s as [x1 x2 w1 w2|v1 v2|r1 s1 r2 s2].
    - destruct W as (W1 & W2 & W3 & W4). pose proof (df1_allf x1 x2 w1 w2 W1 W2 W3 W4 Hk) as Q. rewrite st1f.
      assert (QX : forall i, okf hd (x i)) by (intros i; apply (okf_weak X); [apply HX|lra]).
      assert (QY : forall i, okf hd (sout stp (S1 (x1 : T (F64 m)) (x2 : T (F64 m)) (w1 : T (F64 m)) (w2 : T (F64 m))) x i)).
      { intros i. destruct (Q i) as ((F & Q') & _). fold M1 in Q'. split; [exact F|lra]. }
      assert (QC : forall v, okf c v -> okf hd v) by (intros v V; apply (okf_weak c); [exact V|lra]).
      cbn [st_within]. split; [apply fdi_ok|split; [apply fdi2_ok|split; [apply fdi_ok|apply fdi2_ok]]]; auto.
    - destruct W as (W1 & W2). rewrite st2f. pose proof (df2_wf v1 v2 W1 W2) as Q.
      assert (QC : forall v, okf c v -> okf hd v) by (intros v V; apply (okf_weak c); [exact V|lra]).
      assert (M2e : lev G V2 <= 4 * (G * U)). { unfold lev. rewrite Rmult_assoc. assert (G * (V2 + g_abs) <= G * (2 * U)) by (apply Rmult_le_compat_l; lra). lra. }
      match goal with |- st_within _ (S2 (fdi _ ?w _) _) => assert (QW : forall i, okf hd (w i)) end.
      { intros i. destruct (Q i) as ((F & Q') & _). split; [exact F|lra]. }
      cbn [st_within]. split; [apply fdi_ok|apply fdi2_ok]; auto.
    - destruct W as (W1 & W2). pose proof (tdf_allf s1 s2 r1 r2 W1 W2 Hk n) as (((Fq & Eq) & (Fp & Ep)) & _).
      destruct (st3f s1 s2 r1 r2 n) as (u & v & ->). cbn [st_within]. set (p := sst stp (S3 r1 s1 r2 s2) x n) in *.
      assert (TG : 1024 * tiny = g_abs) by apply g_abs_tiny. pose proof tiny_pos as TP. fold M1 in Eq, Ep.
      assert (BX : B * X <= L) by (rewrite LE; lra).
      assert (X1 : 0 <= Rabs b0 * X) by (apply Rmult_le_pos; [apply Rabs_pos|lra]). assert (X2 : 0 <= Rabs b1 * X) by (apply Rmult_le_pos; [apply Rabs_pos|lra]).
      assert (X3 : 0 <= Rabs b2 * X) by (apply Rmult_le_pos; [apply Rabs_pos|lra]).
      assert (BE : B * X = Rabs b0 * X + Rabs b1 * X + Rabs b2 * X) by (unfold B; ring).
      assert (Y1 : 0 <= Rabs a1 * M1) by (apply Rmult_le_pos; [apply Rabs_pos|lra]). assert (Y2 : 0 <= Rabs a2 * M1) by (apply Rmult_le_pos; [apply Rabs_pos|lra]).
      assert (AE : A * M1 = Rabs a1 * M1 + Rabs a2 * M1) by (unfold A; ring).
      set (e := 8 * uu * (2 * (L + A * M1) + 64 * tiny) + 16 * tiny) in *.
      assert (ES : 0 <= e <= (L + A * M1) / 1024 + 32 * tiny) by (unfold e, uu; lra).
      assert (BXc : c + B * X <= L) by (rewrite LE; lra).
      split; split; try assumption.
      + eapply Rle_trans; [exact Ep|]. replace ((Rabs b1 + Rabs b2) * X) with (Rabs b1 * X + Rabs b2 * X) by ring. lra.
      + eapply Rle_trans; [exact Eq|]. lra.
  Qed.
End Stage.
