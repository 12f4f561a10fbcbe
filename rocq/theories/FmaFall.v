(** Proofs: one section whose inputs and delay lines fall to silence, under contraction. *)
From Coq Require Import ZArith List Bool Reals Lra Lia.
From Flocq Require Import Core.Raux IEEE754.BinarySingleNaN.
From Verif Require Import Num Outcome Biquad State Cascade Float64 FloatSpec Stream SigSpec SigProofs RoundSpec RoundProofs RoundRun RunOnSpec RunOn RunOnLemmas DecaySpec Decay Contract ContractProofs FmaOn.
Import ListNotations.
Local Open Scope R_scope.

Section Stage.
  Context {m : libm}.
  Variables (b : biquad (F64 m)) (x : nat -> f64) (phi : nat -> R) (G u rho : R).
  Let a1 := B2R (m_a1 b : f64). Let a2 := B2R (m_a2 b : f64).
  Let b0 := B2R (m_b0 b : f64). Let b1 := B2R (m_b1 b : f64). Let b2 := B2R (m_b2 b : f64).
  Let A := Rabs a1 + Rabs a2. Let B := Rabs b0 + Rabs b1 + Rabs b2.
  Let Lw := 2 * (1 + A) * (u + 1).
  Let L := 2 * (1 + A) * (1 + B) * (u + 1).
  Let ob := 16 * G * (L + 4 * (1 + B)).
  Hypotheses (Hfin : fin_coeffs b) (Hgain : rec_gain a1 a2 G) (Hu : 0 <= u) (HR : 1 <= rho) (R2 : rho ^ 2 <= 2) (HA2 : G * A * (rho ^ 2 - 1) <= 1 / 2)
    (HP : forall n, 0 < phi n) (HM : forall n, phi (S n) <= phi n <= rho * phi (S n)) (Hg : forall n, g_abs <= phi n)
    (HX : forall n, okf (u * phi n) (x n)) (H1 : G * A <= 2 ^ 36) (H2 : ob * (1 + B) * phi 0%nat <= 2 ^ 900).
  Let HG : 1 <= G := gain_ge1 _ _ _ Hgain.
  Let HA : 0 <= A. Proof. unfold A. pose proof (Rabs_pos a1). pose proof (Rabs_pos a2). lra. Qed.
  Let HB : 0 <= B. Proof. unfold B. pose proof (Rabs_pos b0). pose proof (Rabs_pos b1). pose proof (Rabs_pos b2). lra. Qed.
  Let P0 n : phi n <= phi 0%nat.
  Proof. induction n as [|n IH]; [lra|]. destruct (HM n). lra. Qed.
  Let rho2 : rho <= 2. Proof. assert (rho * 1 <= rho * rho) by (apply Rmult_le_compat_l; lra). simpl in R2. lra. Qed.
  (** delayed signals *)
  Lemma fd_w K v (y : nat -> f64) n : 0 <= K -> okf (K * phi 0%nat) v -> (forall i, (i < n)%nat -> okf (K * phi i) (y i)) -> okf (2 * K * phi n) (fdi v y n).
  Proof.
    intros HK Hv H. destruct n as [|n]; cbn [fdi].
    - apply (okf_weak (K * phi 0%nat)); [exact Hv|]. pose proof (HP 0%nat). nra.
    - apply (okf_weak (K * phi n)); [apply H; lia|]. destruct (HM n) as [_ Q]. pose proof (HP (S n)). assert (phi n <= 2 * phi (S n)) by nra. nra.
  Qed.
  Lemma fd2_w K v1 v2 (y : nat -> f64) n : 0 <= K -> okf (K * phi 0%nat) v1 -> okf (K * phi 0%nat) v2 -> (forall i, (i < n)%nat -> okf (K * phi i) (y i)) -> okf (2 * K * phi n) (fdi v2 (fdi v1 y) n).
  Proof.
    intros HK H1' H2' H. destruct n as [|[|n]]; cbn [fdi].
    - apply (okf_weak (K * phi 0%nat)); [exact H2'|]. pose proof (HP 0%nat). nra.
    - apply (okf_weak (K * phi 0%nat)); [exact H1'|]. destruct (HM 0%nat) as [_ Q]. pose proof (HP 1%nat). assert (phi 0%nat <= 2 * phi 1%nat) by nra. nra.
    - apply (okf_weak (K * phi n)); [apply H; lia|]. destruct (HM n) as [_ Q]. destruct (HM (S n)) as [_ Q']. pose proof (HP (S (S n))).
      assert (phi n <= 2 * phi (S (S n))). { apply Rle_trans with (rho ^ 2 * phi (S (S n))); [|apply Rmult_le_compat_r; lra]. replace (rho ^ 2 * phi (S (S n))) with (rho * (rho * phi (S (S n)))) by ring. apply Rle_trans with (rho * phi (S n)); [lra|]. apply Rmult_le_compat_l; lra. }
      nra.
  Qed.
  Let P1 : 0 <= A * u. Proof. apply Rmult_le_pos; assumption. Qed.
  Let P2 : 0 <= B * u. Proof. apply Rmult_le_pos; assumption. Qed.
  Let P3 : 0 <= A * B. Proof. apply Rmult_le_pos; assumption. Qed.
  Let P4 : 0 <= A * B * u. Proof. apply Rmult_le_pos; assumption. Qed.
  Let LE : L = 2 * (u + 1 + A * u + A + B * u + B + A * B * u + A * B). Proof. unfold L. ring. Qed.
  Let LwE : Lw = 2 * (u + 1 + A * u + A). Proof. unfold Lw. ring. Qed.
  Let LwL : Lw * (1 + B) = L. Proof. unfold L, Lw. ring. Qed.
  Let BLw : 0 <= B * Lw. Proof. apply Rmult_le_pos; [assumption|]. rewrite LwE. lra. Qed.
  (** level of the recursion *)
  Let lw (V : R) := 4 * G * (V + 4).
  Let AM V : 2 <= V -> 0 <= A * lw V <= 2 ^ 38 * (V + 4).
  Proof.
    intros HV. unfold lw. replace (A * (4 * G * (V + 4))) with (G * A * (4 * (V + 4))) by ring. assert (0 <= G * A) by (apply Rmult_le_pos; lra). split; [apply Rmult_le_pos; lra|].
    replace (2 ^ 38 * (V + 4)) with (2 ^ 36 * (4 * (V + 4))) by (simpl; ring). apply Rmult_le_compat_r; lra.
  Qed.
  Let fitL V n : 2 <= V <= L -> (8 * V + 16 * (A * lw V) + 64) * phi n <= big / 4.
  Proof.
    intros HV. destruct (AM V (proj1 HV)) as [Q0 Q]. pose proof (HP n) as Pn. pose proof (P0 n) as Pm.
    assert (Q1 : (L + 4) * phi 0%nat <= 2 ^ 900).
    { eapply Rle_trans; [|exact H2]. apply Rmult_le_compat_r; [left; apply HP|]. unfold ob. assert (0 <= L) by lra. assert (L + 4 <= G * (L + 4 * (1 + B))).
      { rewrite <- (Rmult_1_l (L + 4)). apply Rmult_le_compat; lra. } assert (0 <= 16 * G * (L + 4 * (1 + B)) * B) by (apply Rmult_le_pos; lra). lra. }
    pose proof pow_ratio. set (p9 := 2 ^ 900) in *. assert (P9 : 1 <= p9) by apply p900.
    apply Rle_trans with ((2 ^ 43 * (L + 4)) * phi 0%nat).
    - apply Rmult_le_compat; [lra|lra| |exact Pm]. replace (2 ^ 43) with (32 * 2 ^ 38) by (simpl; ring). assert (2 ^ 38 * (V + 4) <= 2 ^ 38 * (L + 4)) by (apply Rmult_le_compat_l; [apply pow_le|]; lra).
      assert (16 <= 2 ^ 38) by (simpl; lra). assert (16 * (L + 4) <= 2 ^ 38 * (L + 4)) by (apply Rmult_le_compat_r; lra). lra.
    - rewrite Rmult_assoc. apply Rle_trans with (2 ^ 43 * p9); [apply Rmult_le_compat_l; [apply pow_le; lra|exact Q1]|]. replace (2 ^ 46) with (8 * 2 ^ 43) in * by (simpl; ring). assert (0 <= 2 ^ 43 * p9) by (apply Rmult_le_pos; [apply pow_le|]; lra). lra.
  Qed.
  Let small V : 2 <= V -> g_rel * (8 * V + 16 * (A * lw V) + 64) <= (V + 4) / 8.
  Proof. intros HV. destruct (AM V HV) as [Q0 Q]. rewrite g_rel_uu. unfold uu. replace (2 ^ 38) with 274877906944 in Q by (simpl; ring). lra. Qed.
  Let gr : 0 < g_rel. Proof. rewrite g_rel_uu. unfold uu. lra. Qed.

  (** a run under some contraction *)
  Variables (ss : nat -> st (F64 m)) (y : nat -> f64).
  Hypothesis Hrun : forall n, c_filter b (ss n) (x n) (ss (S n)) (y n).

  (** ** Direct Form I *)
  Section F1.
  Variables x1 x2 w1 w2 : f64.
  Hypotheses (Ox1 : okf (phi 0%nat) x1) (Ox2 : okf (phi 0%nat) x2) (Ow1 : okf (phi 0%nat) w1) (Ow2 : okf (phi 0%nat) w2).
  Hypothesis H0 : ss 0%nat = S1 (x1 : T (F64 m)) (x2 : T (F64 m)) (w1 : T (F64 m)) (w2 : T (F64 m)).
  Notation y1 := y.
  Let M := lw L.
  Let M1 : 1 <= M. Proof. unfold M, lw. assert (1 * 1 <= G * (L + 4)) by (apply Rmult_le_compat; lra). lra. Qed.
  Let up v K : 1 <= K -> okf (phi 0%nat) v -> okf (K * phi 0%nat) v.
  Proof. intros HK H. apply (okf_weak (phi 0%nat)); [exact H|]. pose proof (HP 0%nat). nra. Qed.
  Lemma df1_w : forall n, okf (M * phi n) (y1 n).
  Proof.
    pose proof (small L ltac:(lra)) as SM. pose proof (AM L ltac:(lra)) as [AM0 _]. fold M in SM, AM0.
    assert (ST : forall n, (forall i, (i < n)%nat -> okf (M * phi i) (y1 i)) -> is_finite (y1 n) = true /\ Rabs (fir 1 a1 a2 (re y1) n) <= (L + (L + 8)) * phi n).
    { intros n H. pose proof (HP n) as Pn.
      destruct (okf_weak _ (2 * (u + 1) * phi n) _ (HX n) ltac:(nra)) as (F0 & Q0).
      assert (HX' : forall i, (i < n)%nat -> okf ((u + 1) * phi i) (x i)) by (intros i _; apply (okf_weak (u * phi i)); [apply HX|pose proof (HP i); nra]).
      destruct (fd_w (u + 1) x1 x n ltac:(lra) (up x1 (u + 1) ltac:(lra) Ox1) HX') as (F1 & Q1). destruct (fd2_w (u + 1) x1 x2 x n ltac:(lra) (up x1 (u + 1) ltac:(lra) Ox1) (up x2 (u + 1) ltac:(lra) Ox2) HX') as (F2 & Q2).
      destruct (fd_w M w1 y1 n ltac:(lra) (up _ _ M1 Ow1) H) as (F3 & Q3). destruct (fd2_w M w1 w2 y1 n ltac:(lra) (up _ _ M1 Ow1) (up _ _ M1 Ow2) H) as (F4 & Q4). destruct Hfin as (Ca1 & Ca2 & Cb0 & Cb1 & Cb2).
      pose proof (fitL L n ltac:(lra)) as Fit. fold M in Fit.
      pose proof (cdot5 (y n) (m_b0 b) (x n) (m_b1 b) (fdi x1 x n) (m_b2 b) (fdi x2 (fdi x1 x) n) (m_a1 b) (fdi w1 y1 n) (m_a2 b) (fdi w2 (fdi w1 y1) n)
        _ _ _ _ _ Cb0 Cb1 Cb2 Ca1 Ca2 F0 F1 F2 F3 F4 (mul_ok _ _ _ Q0) (mul_ok _ _ _ Q1) (mul_ok _ _ _ Q2) (mul_ok _ _ _ Q3) (mul_ok _ _ _ Q4)) as P.
      fold a1 a2 b0 b1 b2 in P. match type of P with ?s <= _ -> _ => replace s with ((2 * B * (u + 1) + 2 * (A * M)) * phi n) in P by (unfold A, B; ring) end.
      assert (SL : 2 * B * (u + 1) <= L) by (rewrite LE; lra).
      assert (S8 : (2 * B * (u + 1) + 2 * (A * M)) * phi n <= (8 * L + 16 * (A * M) + 64) * phi n) by (apply Rmult_le_compat_r; lra).
      nums. pose proof (Hrun n) as RN. rewrite (st1f b x ss y Hrun x1 x2 w1 w2 H0 n) in RN. apply c_inv1 in RN as [_ CV]. specialize (P ltac:(lra) CV). destruct P as (PF & PE & _). split; [exact PF|].
      assert (PE' : Rabs (B2R (y1 n) - (b0 * B2R (x n) + b1 * B2R (fdi x1 x n) + b2 * B2R (fdi x2 (fdi x1 x) n) - a1 * B2R (fdi w1 y1 n) - a2 * B2R (fdi w2 (fdi w1 y1) n))) <= ((L + 4) / 8 + 1) * phi n).
      { eapply Rle_trans; [exact PE|]. assert (HG1 : g_rel * ((8 * L + 16 * (A * M) + 64) * phi n) <= (L + 4) / 8 * phi n) by (rewrite <- Rmult_assoc; apply Rmult_le_compat_r; lra).
        pose proof g_abs_tiny. pose proof (Hg n). assert (0 <= (2 * B * (u + 1) + 2 * (A * M)) * phi n) by (apply Rmult_le_pos; [|lra]; assert (0 <= B * (u + 1)) by (apply Rmult_le_pos; lra); lra).
        rewrite g_rel_uu in HG1. unfold uu in *. lra. }
      clear PE. rewrite (re_fdi w1 y1), (re_fdi2 w1 w2 y1) in PE'.
      pose proof (abs_mul_le b0 _ _ Q0) as Z0. pose proof (abs_mul_le b1 _ _ Q1) as Z1. pose proof (abs_mul_le b2 _ _ Q2) as Z2.
      assert (I1 : Rabs (imp2 (B2R w1, 0) n) <= 2 * phi n /\ Rabs (imp2 (B2R w2, B2R w1) n) <= 2 * phi n).
      { destruct Ow1 as [_ V1], Ow2 as [_ V2]. destruct n as [|[|n]]; cbn [imp2 fst snd]; rewrite ?Rabs_R0; try lra. destruct (HM 0%nat) as [_ Q]. assert (phi 0%nat <= 2 * phi 1%nat) by nra. lra. }
      destruct I1 as [I1 I2]. pose proof (abs_mul_le a1 _ _ I1) as Z3. pose proof (abs_mul_le a2 _ _ I2) as Z4.
      unfold fir. fold (re y1 n) in PE'.
      match type of PE' with Rabs (?yy - ?rest) <= _ => set (r := yy - rest) in * end.
      replace (1 * re y1 n + a1 * del (re y1) n + a2 * del (del (re y1)) n) with (r + (b0 * B2R (x n) + b1 * B2R (fdi x1 x n) - - (b2 * B2R (fdi x2 (fdi x1 x) n)) - 0) + (- (a1 * imp2 (B2R w1, 0) n) + - (a2 * imp2 (B2R w2, B2R w1) n))) by (unfold r; ring).
      eapply Rle_trans; [apply Rabs_triang|]. eapply Rle_trans; [apply Rplus_le_compat_r, Rabs_triang|]. eapply Rle_trans; [apply Rplus_le_compat_r, Rplus_le_compat_l, tri4|].
      eapply Rle_trans; [apply Rplus_le_compat_l, Rabs_triang|]. rewrite !Rabs_Ropp, Rabs_R0.
      assert (T : Rabs b0 * (2 * (u + 1) * phi n) + Rabs b1 * (2 * (u + 1) * phi n) + Rabs b2 * (2 * (u + 1) * phi n) + (Rabs a1 * (2 * phi n) + Rabs a2 * (2 * phi n)) <= L * phi n).
      { replace (Rabs b0 * (2 * (u + 1) * phi n) + Rabs b1 * (2 * (u + 1) * phi n) + Rabs b2 * (2 * (u + 1) * phi n) + (Rabs a1 * (2 * phi n) + Rabs a2 * (2 * phi n))) with ((2 * B * (u + 1) + 2 * A) * phi n) by (unfold A, B; ring).
        apply Rmult_le_compat_r; [lra|]. rewrite LE. lra. }
      assert (T2 : ((L + 4) / 8 + 1) * phi n <= (L + 8) * phi n) by (apply Rmult_le_compat_r; lra). lra. }
    apply strong. intros n IH. destruct (ST n IH) as [F _]. split; [exact F|].
    replace (M * phi n) with (2 * G * (L + (L + 8)) * phi n) by (unfold M, lw; ring).
    apply (gain_w a1 a2 G rho phi Hgain HR HA2 HP HM (re y1)); [lra|]. intros i Hi. apply ST. intros j Hj. apply IH. lia.
  Qed.
  End F1.

  (** ** Direct Form II *)
  Section F2.
  Variables v1 v2 : f64.
  Hypotheses (Ov1 : okf (phi 0%nat) v1) (Ov2 : okf (phi 0%nat) v2).
  Hypothesis H0 : ss 0%nat = S2 (v1 : T (F64 m)) (v2 : T (F64 m)).
  Let wf (s : st (F64 m)) : f64 := match s with S2 v1 _ => v1 | _ => f0 end.
  Let w : nat -> f64 := fun n => wf (ss (S n)).
  Notation y2 := y.
  Let M := lw Lw.
  Let Lw2 : 2 <= Lw <= L. Proof. rewrite LE, LwE. lra. Qed.
  Let M1 : 1 <= M. Proof. unfold M, lw. assert (1 * 1 <= G * (Lw + 4)) by (apply Rmult_le_compat; lra). lra. Qed.
  Let up v : okf (phi 0%nat) v -> okf (M * phi 0%nat) v.
  Proof. intros H. apply (okf_weak (phi 0%nat)); [exact H|]. pose proof (HP 0%nat). nra. Qed.
  Lemma df2_w : forall n, okf (M * phi n) (w n).
  Proof.
    pose proof (small Lw ltac:(lra)) as SM. pose proof (AM Lw ltac:(lra)) as [AM0 _]. fold M in SM, AM0.
    assert (ST : forall n, (forall i, (i < n)%nat -> okf (M * phi i) (w i)) -> is_finite (w n) = true /\ Rabs (fir 1 a1 a2 (re w) n) <= (Lw + (Lw + 8)) * phi n).
    { intros n H. pose proof (HP n) as Pn. destruct (HX n) as (F0 & Q0).
      destruct (fd_w M v1 w n ltac:(lra) (up _ Ov1) H) as (F3 & Q3). destruct (fd2_w M v1 v2 w n ltac:(lra) (up _ Ov1) (up _ Ov2) H) as (F4 & Q4). destruct Hfin as (Ca1 & Ca2 & _).
      pose proof (fitL Lw n ltac:(lra)) as Fit. fold M in Fit.
      pose proof (cdotw (w n) (x n) (m_a1 b) (fdi v1 w n) (m_a2 b) (fdi v2 (fdi v1 w) n) _ _ _ Ca1 Ca2 F0 F3 F4 Q0 (mul_ok _ _ _ Q3) (mul_ok _ _ _ Q4)) as P.
      fold a1 a2 in P. match type of P with ?s <= _ -> _ => replace s with ((u + 2 * (A * M)) * phi n) in P by (unfold A; ring) end.
      assert (S8 : (u + 2 * (A * M)) * phi n <= (8 * Lw + 16 * (A * M) + 64) * phi n) by (apply Rmult_le_compat_r; lra).
      nums. specialize (P ltac:(lra) (proj1 (w_cevf b x ss y Hrun v1 v2 H0 n))). destruct P as (PF & PE & _). split; [exact PF|].
      assert (PE' : Rabs (B2R (w n) - (B2R (x n) - a1 * B2R (fdi v1 w n) - a2 * B2R (fdi v2 (fdi v1 w) n))) <= ((Lw + 4) / 8 + 1) * phi n).
      { eapply Rle_trans; [exact PE|]. assert (HG1 : g_rel * ((8 * Lw + 16 * (A * M) + 64) * phi n) <= (Lw + 4) / 8 * phi n) by (rewrite <- Rmult_assoc; apply Rmult_le_compat_r; lra).
        pose proof g_abs_tiny. pose proof (Hg n). assert (0 <= (u + 2 * (A * M)) * phi n) by (apply Rmult_le_pos; lra).
        rewrite g_rel_uu in HG1. unfold uu in *. lra. }
      clear PE. rewrite (re_fdi v1 w), (re_fdi2 v1 v2 w) in PE'.
      assert (I1 : Rabs (imp2 (B2R v1, 0) n) <= 2 * phi n /\ Rabs (imp2 (B2R v2, B2R v1) n) <= 2 * phi n).
      { destruct Ov1 as [_ V1], Ov2 as [_ V2]. destruct n as [|[|n]]; cbn [imp2 fst snd]; rewrite ?Rabs_R0; try lra. destruct (HM 0%nat) as [_ Q]. assert (phi 0%nat <= 2 * phi 1%nat) by nra. lra. }
      destruct I1 as [I1 I2]. pose proof (abs_mul_le a1 _ _ I1) as Z3. pose proof (abs_mul_le a2 _ _ I2) as Z4.
      unfold fir. fold (re w n) in PE'.
      match type of PE' with Rabs (?yy - ?rest) <= _ => set (r := yy - rest) in * end.
      replace (1 * re w n + a1 * del (re w) n + a2 * del (del (re w)) n) with (r + B2R (x n) - a1 * imp2 (B2R v1, 0) n - a2 * imp2 (B2R v2, B2R v1) n) by (unfold r; ring).
      eapply Rle_trans; [apply tri4|].
      assert (T : u * phi n + (Rabs a1 * (2 * phi n) + Rabs a2 * (2 * phi n)) <= Lw * phi n).
      { replace (u * phi n + (Rabs a1 * (2 * phi n) + Rabs a2 * (2 * phi n))) with ((u + 2 * A) * phi n) by (unfold A; ring). apply Rmult_le_compat_r; lra. }
      assert (T2 : ((Lw + 4) / 8 + 1) * phi n <= (Lw + 8) * phi n) by (apply Rmult_le_compat_r; lra). lra. }
    apply strong. intros n IH. destruct (ST n IH) as [F _]. split; [exact F|].
    replace (M * phi n) with (2 * G * (Lw + (Lw + 8)) * phi n) by (unfold M, lw; ring).
    apply (gain_w a1 a2 G rho phi Hgain HR HA2 HP HM (re w)); [lra|]. intros i Hi. apply ST. intros j Hj. apply IH. lia.
  Qed.
  Lemma df2_yw n : okf (ob * phi n) (y2 n).
  Proof.
    pose proof (HP n) as Pn. pose proof df2_w as H. destruct (H n) as (F0 & Q0'). assert (Q0 : Rabs (B2R (w n)) <= 2 * M * phi n) by (assert (0 <= M * phi n) by (apply Rmult_le_pos; lra); lra).
    destruct (fd_w M v1 w n ltac:(lra) (up _ Ov1) (fun i _ => H i)) as (F3 & Q3). destruct (fd2_w M v1 v2 w n ltac:(lra) (up _ Ov1) (up _ Ov2) (fun i _ => H i)) as (F4 & Q4). destruct Hfin as (_ & _ & Cb0 & Cb1 & Cb2).
    pose proof (cdot3 (y n) (m_b0 b) (w n) (m_b1 b) (fdi v1 w n) (m_b2 b) (fdi v2 (fdi v1 w) n) _ _ _ Cb0 Cb1 Cb2 F0 F3 F4 (mul_ok _ _ _ Q0) (mul_ok _ _ _ Q3) (mul_ok _ _ _ Q4)) as P.
    fold b0 b1 b2 in P. match type of P with ?s <= _ -> _ => replace s with (2 * (B * M) * phi n) in P by (unfold B; ring) end.
    assert (BM : B * M = 4 * G * (B * Lw + 4 * B)) by (unfold M, lw; ring).
    assert (GB : G * (B * Lw + 4 * B) <= G * (L + 4 * (1 + B))) by (apply Rmult_le_compat_l; [lra|]; rewrite <- LwL; lra).
    assert (GL : 1 <= G * (L + 4 * (1 + B))). { rewrite <- (Rmult_1_l 1). apply Rmult_le_compat; lra. }
    assert (BM0 : 0 <= B * M) by (apply Rmult_le_pos; lra).
    assert (OB : ob * phi n <= 2 ^ 900).
    { eapply Rle_trans; [|exact H2]. assert (ob * phi n <= ob * phi 0%nat) by (apply Rmult_le_compat_l; [unfold ob; lra|apply P0]). assert (0 <= ob * B * phi 0%nat) by (apply Rmult_le_pos; [apply Rmult_le_pos; [unfold ob; lra|lra]|left; apply HP]).
      replace (ob * (1 + B) * phi 0%nat) with (ob * phi 0%nat + ob * B * phi 0%nat) by ring. lra. }
    assert (S1 : 2 * (B * M) * phi n <= ob * phi n) by (apply Rmult_le_compat_r; [lra|]; rewrite BM; unfold ob; lra).
    nums. pose proof pow_ratio. assert (2 ^ 900 <= 2 ^ 46 * 2 ^ 900). { rewrite <- (Rmult_1_l (2 ^ 900)) at 1. apply Rmult_le_compat_r; [apply pow_le; lra|]. simpl. lra. }
    specialize (P ltac:(pose proof p900; lra) (proj2 (w_cevf b x ss y Hrun v1 v2 H0 n))). destruct P as (PF & PE & PB). split; [exact PF|].
    assert (T1 : 8 * uu * (2 * (B * M) * phi n) <= (B * M) * phi n). { assert (0 <= B * M * phi n) by (apply Rmult_le_pos; lra). unfold uu. lra. }
    assert (T2 : 16 * tiny <= 1 * phi n) by (pose proof g_abs_tiny; pose proof (Hg n); lra).
    apply Rle_trans with ((3 * (B * M) + 1) * phi n); [|apply Rmult_le_compat_r; [lra|]; rewrite BM; unfold ob; lra].
    match type of PE with Rabs (_ - ?e) <= _ => pose proof (Rabs_triang_inv (B2R (y2 n)) e) as TI end. lra.
  Qed.
  End F2.

  (** ** Transposed Direct Form II *)
  Section F3.
  Variables s1 s2 r1 r2 : f64.
  Hypotheses (Os1 : okf (phi 0%nat) s1) (Os2 : okf (phi 0%nat) s2).
  Hypothesis H0 : ss 0%nat = S3 (r1 : T (F64 m)) (s1 : T (F64 m)) (r2 : T (F64 m)) (s2 : T (F64 m)).
  Let pf1 (s : st (F64 m)) : f64 := match s with S3 _ s1 _ _ => s1 | _ => f0 end.
  Let pf2 (s : st (F64 m)) : f64 := match s with S3 _ _ _ s2 => s2 | _ => f0 end.
  Let p : nat -> f64 := fun n => pf1 (ss n).
  Let q : nat -> f64 := fun n => pf2 (ss n).
  Notation y3 := y.
  Let M := lw L.
  Let Q := 4 * L + 4 * (A * M).
  Let e := g_rel * (2 * Q + 32) + 1.
  Let AM0 : 0 <= A * M. Proof. destruct (AM L ltac:(lra)) as [H _]. exact H. Qed.
  Let eb : 1 <= e /\ 5 * e <= L + 8.
  Proof. pose proof (small L ltac:(lra)) as SM. fold M in SM. unfold e, Q. assert (0 <= g_rel * (2 * (4 * L + 4 * (A * M)) + 32)) by (apply Rmult_le_pos; lra). split; [lra|].
    assert (g_rel * (2 * (4 * L + 4 * (A * M)) + 32) <= g_rel * (8 * L + 16 * (A * M) + 64)) by (apply Rmult_le_compat_l; lra). lra. Qed.
  Let Kq := 2 * (1 + Rabs b2 * u + Rabs a2 * M) + 2 * e.
  Let Kp := 2 * (1 + Kq + Rabs b1 * u + Rabs a1 * M) + 2 * e.
  Let M1 : 1 <= M. Proof. unfold M, lw. assert (1 * 1 <= G * (L + 4)) by (apply Rmult_le_compat; lra). lra. Qed.
  Let parts : 0 <= Rabs b0 * u /\ 0 <= Rabs b1 * u /\ 0 <= Rabs b2 * u /\ 0 <= Rabs a1 * M /\ 0 <= Rabs a2 * M /\
    B * u = Rabs b0 * u + Rabs b1 * u + Rabs b2 * u /\ A * M = Rabs a1 * M + Rabs a2 * M.
  Proof. repeat split; try (apply Rmult_le_pos; [apply Rabs_pos|lra]); unfold A, B; ring. Qed.
  Let KpQ : Kp + Rabs b0 * u <= 2 * Q + 24 /\ Kq + Rabs b1 * u + Rabs a1 * M <= 2 * Q + 24 /\ Rabs b2 * u + Rabs a2 * M <= Q.
  Proof. destruct parts as (R0 & R1 & R2' & R3 & R4 & EB & EA). destruct eb as [e1 e5]. unfold Kp, Kq, Q. rewrite EA. assert (2 * (1 + B * u) <= L) by (rewrite LE; lra). lra. Qed.
  Let qok n := okf (Kq * phi n) (q n).
  Let pok n := okf (Kp * phi n) (p n).
  Let fitQ n : (2 * Q + 32) * phi n <= big / 2.
  Proof. pose proof (fitL L n ltac:(lra)) as Fit. fold M in Fit. eapply Rle_trans; [|eapply Rle_trans; [exact Fit|]]; [|nums; lra]. apply Rmult_le_compat_r; [left; apply HP|]. unfold Q. lra. Qed.
  Let err n S : 0 <= S -> S <= (2 * Q + 32) * phi n -> 8 * uu * S + 16 * tiny <= e * phi n.
  Proof.
    intros S0 HS. unfold e. pose proof (Hg n). pose proof g_abs_tiny. pose proof tiny_pos.
    assert (g_rel * S <= g_rel * ((2 * Q + 32) * phi n)) by (apply Rmult_le_compat_l; lra). replace ((g_rel * (2 * Q + 32) + 1) * phi n) with (g_rel * ((2 * Q + 32) * phi n) + phi n) by ring.
    rewrite g_rel_uu in *. unfold uu in *. lra.
  Qed.
  Let pc n := p_cevf b x ss y Hrun s1 s2 r1 r2 H0 n.
  Let p0 : p 0 = s1. Proof. unfold p. rewrite H0. reflexivity. Qed.
  Let q0 : q 0 = s2. Proof. unfold q. rewrite H0. reflexivity. Qed.
  Lemma tdf_outw n : pok n -> is_finite (y3 n) = true /\ Rabs (re y3 n - (B2R (p n) + b0 * re x n)) <= e * phi n.
  Proof.
    intros (Fp & Ep). destruct (HX n) as (F0 & X1). destruct Hfin as (_ & _ & Cb0 & _). destruct KpQ as (K1 & _ & _). pose proof (HP n) as Pn. nums.
    pose proof (cdots (y n) (p n) (m_b0 b) (x n) _ _ Fp Cb0 F0 Ep (mul_ok _ _ _ X1)) as P. fold b0 in P.
    match type of P with ?s <= _ -> _ => replace s with ((Kp + Rabs b0 * u) * phi n) in P by ring end.
    assert (S8 : (Kp + Rabs b0 * u) * phi n <= (2 * Q + 32) * phi n) by (apply Rmult_le_compat_r; lra). pose proof (fitQ n).
    destruct P as (PF & PE & _); [lra|exact (proj1 (pc n))|]. split; [exact PF|]. eapply Rle_trans; [exact PE|]. apply err; [|exact S8].
    apply Rmult_le_pos; [|lra]. destruct parts as (R0 & R1 & R2' & R3 & R4 & _). destruct eb. unfold Kp, Kq. lra.
  Qed.
  Lemma half n : phi n <= 2 * phi (S n).
  Proof. destruct (HM n) as [_ H]. pose proof (HP (S n)). nra. Qed.
  Lemma tdf_nextw n : okf (M * phi n) (y3 n) -> qok n ->
    qok (S n) /\ pok (S n) /\ Rabs (B2R (q (S n)) - (b2 * re x n - a2 * re y3 n)) <= e * phi n /\
    Rabs (B2R (p (S n)) - (B2R (q n) + b1 * re x n - a1 * re y3 n)) <= e * phi n.
  Proof.
    intros (Fy & Ey) (Fq & Eq). destruct (HX n) as (F0 & X1). destruct Hfin as (Ca1 & Ca2 & _ & Cb1 & Cb2). destruct KpQ as (_ & K2 & K3). destruct parts as (R0 & R1 & R2' & R3 & R4 & _). destruct eb as [e1 _]. pose proof (HP n) as Pn. pose proof (fitQ n) as Fit. pose proof (half n) as Hh. nums.
    pose proof (cdotxy (q (S n)) (m_b2 b) (x n) (m_a2 b) (y3 n) _ _ Cb2 F0 Ca2 Fy (mul_ok _ _ _ X1) (mul_ok _ _ _ Ey)) as P.
    pose proof (cdotsy (p (S n)) (q n) (m_b1 b) (x n) (m_a1 b) (y3 n) _ _ _ Fq Cb1 F0 Ca1 Fy Eq (mul_ok _ _ _ X1) (mul_ok _ _ _ Ey)) as R.
    fold a2 b2 in P. fold a1 b1 in R.
    match type of P with ?s <= _ -> _ => replace s with ((Rabs b2 * u + Rabs a2 * M) * phi n) in P by ring end.
    match type of R with ?s <= _ -> _ => replace s with ((Kq + Rabs b1 * u + Rabs a1 * M) * phi n) in R by ring end.
    assert (Q0 : 0 <= Q) by lra.
    assert (S1 : (Rabs b2 * u + Rabs a2 * M) * phi n <= (2 * Q + 32) * phi n) by (apply Rmult_le_compat_r; lra).
    assert (S2 : (Kq + Rabs b1 * u + Rabs a1 * M) * phi n <= (2 * Q + 32) * phi n) by (apply Rmult_le_compat_r; lra).
    destruct P as (PF & PE & PB); [lra|exact (proj2 (proj2 (pc n)))|]. destruct R as (RF & RE & RB); [lra|exact (proj1 (proj2 (pc n)))|].
    fold (re x n) (re y3 n) in PE, RE.
    assert (E1 : Rabs (B2R (q (S n)) - (b2 * re x n - a2 * re y3 n)) <= e * phi n).
    { eapply Rle_trans; [exact PE|]. apply err; [apply Rmult_le_pos; lra|exact S1]. }
    assert (Kq0 : 0 <= Kq) by (unfold Kq; lra).
    assert (E2 : Rabs (B2R (p (S n)) - (B2R (q n) + b1 * re x n - a1 * re y3 n)) <= e * phi n).
    { eapply Rle_trans; [exact RE|]. apply err; [apply Rmult_le_pos; lra|exact S2]. }
    repeat split; auto.
    - pose proof (Rabs_triang_inv (B2R (q (S n))) (b2 * re x n - a2 * re y3 n)). fold (re x n) (re y3 n) in PB.
      apply Rle_trans with ((Rabs b2 * u + Rabs a2 * M + e) * phi n); [lra|]. apply Rle_trans with ((Rabs b2 * u + Rabs a2 * M + e) * (2 * phi (S n))); [apply Rmult_le_compat_l; lra|].
      pose proof (HP (S n)). replace ((Rabs b2 * u + Rabs a2 * M + e) * (2 * phi (S n))) with ((2 * (Rabs b2 * u + Rabs a2 * M) + 2 * e) * phi (S n)) by ring. apply Rmult_le_compat_r; [lra|]. unfold Kq. lra.
    - pose proof (Rabs_triang_inv (B2R (p (S n))) (B2R (q n) + b1 * re x n - a1 * re y3 n)). fold (re x n) (re y3 n) in RB.
      apply Rle_trans with ((Kq + Rabs b1 * u + Rabs a1 * M + e) * phi n); [lra|]. apply Rle_trans with ((Kq + Rabs b1 * u + Rabs a1 * M + e) * (2 * phi (S n))); [apply Rmult_le_compat_l; lra|].
      pose proof (HP (S n)). replace ((Kq + Rabs b1 * u + Rabs a1 * M + e) * (2 * phi (S n))) with ((2 * (Kq + Rabs b1 * u + Rabs a1 * M) + 2 * e) * phi (S n)) by ring. apply Rmult_le_compat_r; [lra|]. unfold Kp. lra.
  Qed.
  Lemma tdf_pertw n : (forall i, (i <= n)%nat -> qok i /\ pok i) -> (forall i, (i < n)%nat -> okf (M * phi i) (y3 i)) ->
    Rabs (fir 1 a1 a2 (re y3) n) <= (L + (L + 8)) * phi n.
  Proof.
    intros HS HY. destruct eb as [e1 e5]. destruct (tdf_outw n (proj2 (HS n ltac:(lia)))) as [_ O]. pose proof (HP n) as Pn.
    assert (XB : forall i, Rabs (re x i) <= u * phi i) by (intros i; apply HX).
    assert (LB : 2 * (B * u) + 2 + 5 * e <= L + (L + 8)) by (rewrite LE at 1; lra).
    apply Rle_trans with ((2 * (B * u) + 2 + 5 * e) * phi n); [|apply Rmult_le_compat_r; lra].
    assert (EB : B * u = Rabs b0 * u + Rabs b1 * u + Rabs b2 * u) by apply parts. destruct parts as (R0 & R1 & R2' & _).
    assert (Mu : forall c i (K : R), Rabs (c * re x i) <= Rabs c * u * phi i) by (intros c i _; rewrite Rmult_assoc; apply abs_mul_le, XB).
    destruct n as [|n].
    - unfold fir. cbn [del]. rewrite p0 in O. destruct Os1 as [_ U1]. pose proof (Mu b0 0%nat 0) as B0.
      replace (1 * re y3 0%nat + a1 * 0 + a2 * 0) with (re y3 0%nat - (B2R s1 + b0 * re x 0%nat) + B2R s1 - - (b0 * re x 0%nat) - 0) by ring. eapply Rle_trans; [apply tri4|]. rewrite Rabs_Ropp, Rabs_R0.
      apply Rle_trans with ((e + 1 + Rabs b0 * u) * phi 0%nat); [lra|]. apply Rmult_le_compat_r; lra.
    - destruct (tdf_nextw n (HY n ltac:(lia)) (proj1 (HS n ltac:(lia)))) as (_ & _ & _ & E1). pose proof (half n) as Hh. pose proof (HP n) as Pn'.
      destruct n as [|n].
      + unfold fir. cbn [del]. rewrite q0 in E1. destruct Os2 as [_ U2]. pose proof (Mu b0 1%nat 0) as B0. pose proof (Mu b1 0%nat 0) as B1.
        replace (1 * re y3 1%nat + a1 * re y3 0%nat + a2 * 0) with ((re y3 1%nat - (B2R (p 1%nat) + b0 * re x 1%nat)) + (B2R (p 1%nat) - (B2R s2 + b1 * re x 0%nat - a1 * re y3 0%nat)) - - B2R s2 - - (b0 * re x 1%nat + b1 * re x 0%nat)) by ring.
        eapply Rle_trans; [apply tri4|]. rewrite !Rabs_Ropp. pose proof (Rabs_triang (b0 * re x 1%nat) (b1 * re x 0%nat)) as TR.
        assert (Rabs b1 * u * phi 0%nat <= Rabs b1 * u * (2 * phi 1%nat)) by (apply Rmult_le_compat_l; lra). assert (e * phi 0%nat <= e * (2 * phi 1%nat)) by (apply Rmult_le_compat_l; lra).
        apply Rle_trans with ((e + 2 * e + 2 + (Rabs b0 * u + 2 * (Rabs b1 * u))) * phi 1%nat); [lra|]. apply Rmult_le_compat_r; lra.
      + destruct (tdf_nextw n (HY n ltac:(lia)) (proj1 (HS n ltac:(lia)))) as (_ & _ & E2 & _).
        assert (H4 : phi n <= 2 * phi (S (S n))). { destruct (HM n) as [_ G1]. destruct (HM (S n)) as [_ G2]. apply Rle_trans with (rho ^ 2 * phi (S (S n))); [|apply Rmult_le_compat_r; lra].
          replace (rho ^ 2 * phi (S (S n))) with (rho * (rho * phi (S (S n)))) by ring. apply Rle_trans with (rho * phi (S n)); [lra|]. apply Rmult_le_compat_l; lra. }
        unfold fir. cbn [del]. pose proof (Mu b0 (S (S n)) 0) as B0. pose proof (Mu b1 (S n) 0) as B1. pose proof (Mu b2 n 0) as B2. pose proof (HP n) as Pn2.
        replace (1 * re y3 (S (S n)) + a1 * re y3 (S n) + a2 * re y3 n) with ((re y3 (S (S n)) - (B2R (p (S (S n))) + b0 * re x (S (S n)))) + (B2R (p (S (S n))) - (B2R (q (S n)) + b1 * re x (S n) - a1 * re y3 (S n))) - - (B2R (q (S n)) - (b2 * re x n - a2 * re y3 n)) - - (b0 * re x (S (S n)) + b1 * re x (S n) + b2 * re x n)) by ring.
        eapply Rle_trans; [apply tri4|]. rewrite !Rabs_Ropp. pose proof (Rabs_triang (b0 * re x (S (S n)) + b1 * re x (S n)) (b2 * re x n)) as TR. pose proof (Rabs_triang (b0 * re x (S (S n))) (b1 * re x (S n))) as TR2.
        assert (Rabs b1 * u * phi (S n) <= Rabs b1 * u * (2 * phi (S (S n)))) by (apply Rmult_le_compat_l; lra). assert (Rabs b2 * u * phi n <= Rabs b2 * u * (2 * phi (S (S n)))) by (apply Rmult_le_compat_l; lra).
        assert (e * phi (S n) <= e * (2 * phi (S (S n)))) by (apply Rmult_le_compat_l; lra). assert (e * phi n <= e * (2 * phi (S (S n)))) by (apply Rmult_le_compat_l; lra).
        apply Rle_trans with ((e + 2 * e + 2 * e + (Rabs b0 * u + 2 * (Rabs b1 * u) + 2 * (Rabs b2 * u))) * phi (S (S n))); [lra|]. apply Rmult_le_compat_r; lra.
  Qed.
  Lemma tdf_w : forall n, (qok n /\ pok n) /\ okf (M * phi n) (y3 n).
  Proof.
    apply strong. intros n IH. destruct parts as (R0 & R1 & R2' & R3 & R4 & _). destruct eb as [e1 _].
    assert (SO : qok n /\ pok n).
    { destruct n as [|n].
      - pose proof (HP 0%nat). split; [unfold qok; rewrite q0; apply (okf_weak (phi 0%nat)); [exact Os2|]|unfold pok; rewrite p0; apply (okf_weak (phi 0%nat)); [exact Os1|]]; rewrite <- (Rmult_1_l (phi 0%nat)) at 1; apply Rmult_le_compat_r; try lra; unfold Kp, Kq; lra.
      - destruct (IH n ltac:(lia)) as ((Hq & _) & Hy). destruct (tdf_nextw n Hy Hq) as (A1 & A2 & _). split; assumption. }
    split; [exact SO|]. split; [apply (tdf_outw n (proj2 SO))|].
    replace (M * phi n) with (2 * G * (L + (L + 8)) * phi n) by (unfold M, lw; ring).
    apply (gain_w a1 a2 G rho phi Hgain HR HA2 HP HM (re y3)); [lra|]. intros i Hi. apply tdf_pertw.
    - intros j Hj. destruct (Nat.eq_dec j n) as [->|]; [exact SO|apply IH; lia].
    - intros j Hj. apply IH. lia.
  Qed.
  End F3.

  Lemma cstage_fall s n : ss 0%nat = s -> st_within (phi 0%nat) s -> okf (ob * phi n) (y n).
  Proof.
    assert (LO : lw L * phi n <= ob * phi n). { apply Rmult_le_compat_r; [left; apply HP|]. unfold lw, ob. assert (G * (L + 4) <= G * (L + 4 * (1 + B))) by (apply Rmult_le_compat_l; lra). assert (0 <= G * (L + 4 * (1 + B))) by (apply Rmult_le_pos; lra). lra. }
    destruct s as [x1 x2 w1 w2|v1 v2|r1 s1 r2 s2]; intros E0 W.
    - destruct W as (W1 & W2 & W3 & W4). apply (okf_weak (lw L * phi n)); [|exact LO]. apply (df1_w x1 x2 w1 w2 W1 W2 W3 W4 E0).
    - destruct W as (W1 & W2). apply (df2_yw v1 v2 W1 W2 E0).
    - destruct W as (W1 & W2). apply (okf_weak (lw L * phi n)); [|exact LO]. apply (tdf_w s1 s2 r1 r2 W1 W2 E0).
  Qed.
End Stage.
