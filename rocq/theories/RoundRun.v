(** Proofs: rounding errors of one section over all time, and of cascades. *)
From Coq Require Import ZArith List Bool Reals Lra Lia.
From Flocq Require Import Core.Raux IEEE754.BinarySingleNaN.
From Verif Require Import Num Outcome Biquad State Cascade Float64 FloatSpec Stream SigSpec SigProofs RoundSpec RoundProofs.
Import ListNotations.
Local Open Scope R_scope.

Definition f0 : f64 := B754_zero false.
Definition fdel (x : nat -> f64) : nat -> f64 := fun n => match n with O => f0 | S m => x m end.
Definition re (x : nat -> f64) : nat -> R := fun n => B2R (x n).
Definition okf (M : R) (f : f64) : Prop := is_finite f = true /\ Rabs (B2R f) <= M.
Lemma okf_0 M : 0 <= M -> okf M f0.
Proof. intros H. split; [reflexivity|]. simpl. rewrite Rabs_R0. exact H. Qed.
Lemma fdel_ok M (y : nat -> f64) n : 0 <= M -> (forall i, (i < n)%nat -> okf M (y i)) -> okf M (fdel y n) /\ okf M (fdel (fdel y) n).
Proof.
  intros HM H. destruct n as [|[|n]]; simpl; split; try (apply okf_0; exact HM); apply H; lia.
Qed.
Lemma re_fdel x n : B2R (fdel x n) = del (re x) n.
Proof. destruct n; reflexivity. Qed.
Lemma re_fdel2 x n : B2R (fdel (fdel x) n) = del (del (re x)) n.
Proof. destruct n as [|[|n]]; reflexivity. Qed.
Lemma prev_fir a1 a2 y i : prev y i 0 + a1 * prev y i 1 + a2 * prev y i 2 = fir 1 a1 a2 y i.
Proof. unfold prev, fir. destruct i as [|[|i]]; simpl; rewrite ?Nat.sub_0_r; ring. Qed.
Lemma gain_fir a1 a2 G : rec_gain a1 a2 G -> forall (y : nat -> R) W n, 0 <= W ->
  (forall i, (i <= n)%nat -> Rabs (fir 1 a1 a2 y i) <= W) -> Rabs (y n) <= G * W.
Proof. intros H y W n HW Q. apply (H y W n HW). intros i Hi. rewrite prev_fir. apply Q, Hi. Qed.
Lemma gain_ge1 a1 a2 G : rec_gain a1 a2 G -> 1 <= G.
Proof.
  intros H. pose proof (gain_fir _ _ _ H (fun _ => 1) 1 O ltac:(lra)) as Q. cbv beta in Q. rewrite Rabs_R1 in Q.
  assert (1 <= G * 1); [|lra]. apply Q. intros i Hi. replace i with O by lia. unfold fir. simpl. replace (1 * 1 + a1 * 0 + a2 * 0) with 1 by ring. rewrite Rabs_R1. lra.
Qed.
Lemma mul_ok (c v : f64) M : Rabs (B2R v) <= M -> Rabs (B2R c * B2R v) <= Rabs (B2R c) * M.
Proof. intros H. rewrite Rabs_mult. apply Rmult_le_compat_l; [apply Rabs_pos|exact H]. Qed.
Lemma fir_bd p0 p1 p2 (y : nat -> R) M n : 0 <= M -> (forall i, (i <= n)%nat -> Rabs (y i) <= M) ->
  Rabs (fir p0 p1 p2 y n) <= (Rabs p0 + Rabs p1 + Rabs p2) * M.
Proof.
  intros HM H. unfold fir. assert (Q : Rabs (y n) <= M /\ Rabs (del y n) <= M /\ Rabs (del (del y) n) <= M).
  { destruct n as [|[|n]]; simpl; rewrite ?Rabs_R0; repeat split; try exact HM; apply H; lia. }
  destruct Q as (Q0 & Q1 & Q2). eapply Rle_trans; [apply Rabs_triang|]. eapply Rle_trans; [apply Rplus_le_compat_r, Rabs_triang|].
  rewrite !Rabs_mult. pose proof (Rabs_pos p0). pose proof (Rabs_pos p1). pose proof (Rabs_pos p2). nra.
Qed.
Lemma fir_sub p0 p1 p2 x y n : fir p0 p1 p2 (fun k => x k - y k) n = fir p0 p1 p2 x n - fir p0 p1 p2 y n.
Proof. unfold fir. destruct n as [|[|n]]; simpl; ring. Qed.
Lemma strong (P : nat -> Prop) : (forall n, (forall i, (i < n)%nat -> P i) -> P n) -> forall n, P n.
Proof. intros H n. apply H. induction n as [|n IH]; intros i Hi; [lia|]. apply H. intros j Hj. apply IH. lia. Qed.

(** ** the numbers *)
Lemma pow_ratio : 2 ^ 46 * 2 ^ 900 * 4 <= big.
Proof. unfold big. rewrite !pow2_IZR. rewrite <- !mult_IZR. apply IZR_le. vm_compute. discriminate. Qed.
Lemma g_pos : 0 < g_abs <= 1.
Proof.
  unfold g_abs. split; [apply Rinv_0_lt_compat, pow_lt; lra|]. rewrite <- Rinv_1. apply Rinv_le; [lra|]. rewrite pow2_IZR. apply IZR_le. vm_compute. discriminate.
Qed.
Lemma p900 : 1 <= 2 ^ 900.
Proof. rewrite pow2_IZR. apply IZR_le. vm_compute. discriminate. Qed.

Section Num.
  Variables (G A : R).
  Hypotheses (HG : 1 <= G) (HA : 0 <= A) (H1 : G * A <= 2 ^ 44).
  (** an input level: B X for the direct form I, X for the form II *)
  Variable V : R.
  Hypotheses (HV : 0 <= V) (HV2 : V <= 2 ^ 900).
  Definition lev : R := 2 * G * (V + g_abs).
  Definition dlt : R := g_rel * (V + A * lev) + g_abs.
  Lemma lev_pos : 0 < lev.
  Proof using All. pose proof g_pos. unfold lev. apply Rmult_lt_0_compat; lra. Qed.
  Lemma A_lev : A * lev <= 2 ^ 45 * (V + g_abs).
  Proof using All.
    pose proof g_pos. unfold lev. replace (A * (2 * G * (V + g_abs))) with (2 * (G * A) * (V + g_abs)) by ring.
    apply Rmult_le_compat_r; [lra|]. replace (2 ^ 45) with (2 * 2 ^ 44) by (simpl; ring). lra.
  Qed.
  Lemma A_lev_pos : 0 <= A * lev.
  Proof using All. apply Rmult_le_pos; [exact HA|left; apply lev_pos]. Qed.
  Lemma lev_fits : V + A * lev <= big / 2.
  Proof using All.
    pose proof A_lev. pose proof g_pos. pose proof p900. pose proof pow_ratio.
    assert (2 ^ 45 * (V + g_abs) <= 2 ^ 45 * (2 * 2 ^ 900)) by (apply Rmult_le_compat_l; [apply pow_le; lra|lra]).
    replace (2 ^ 46) with (2 * 2 ^ 45) in * by (simpl; ring). assert (1 * 2 ^ 900 <= 2 ^ 45 * 2 ^ 900). { apply Rmult_le_compat_r; [lra|]. simpl. lra. }
    nra.
  Qed.
  Lemma dlt_half : dlt <= V + 2 * g_abs.
  Proof using All.
    pose proof A_lev. pose proof g_pos. unfold dlt. assert (g_rel * (A * lev) <= (V + g_abs) / 2).
    { eapply Rle_trans; [apply Rmult_le_compat_l; [|exact H]|]; [rewrite g_rel_uu; unfold uu; lra|]. rewrite g_rel_uu; unfold uu. simpl. lra. }
    assert (g_rel * V <= V / 4) by (rewrite g_rel_uu; unfold uu; lra). nra.
  Qed.
  Lemma dlt_pos : 0 < dlt.
  Proof using All. pose proof g_pos. pose proof A_lev_pos. unfold dlt. assert (0 <= g_rel * (V + A * lev)); [|lra]. apply Rmult_le_pos; [rewrite g_rel_uu; unfold uu; lra|lra]. Qed.
  (** the level covers the recursion with its errors *)
  Lemma lev_covers : G * (V + dlt) <= lev.
  Proof using All. pose proof dlt_half. unfold lev. nra. Qed.
End Num.

Section Stage.
  Context {m : libm}.
  Variables (b : biquad (F64 m)) (x : nat -> f64) (G X : R).
  Notation stp := (fun (s : st (F64 m)) (v : T (F64 m)) => st_filter s b v).
  Let a1 := B2R (m_a1 b : f64). Let a2 := B2R (m_a2 b : f64).
  Let b0 := B2R (m_b0 b : f64). Let b1 := B2R (m_b1 b : f64). Let b2 := B2R (m_b2 b : f64).
  Let A := Rabs a1 + Rabs a2. Let B := Rabs b0 + Rabs b1 + Rabs b2.
  Hypotheses (Hfin : fin_coeffs b) (Hgain : rec_gain a1 a2 G) (HX : forall n, okf X (x n))
    (H1 : G * A <= 2 ^ 44) (H2 : X <= 2 ^ 900) (H3 : G * B * (X + 1) <= 2 ^ 900).
  Let HG : 1 <= G := gain_ge1 _ _ _ Hgain.
  Let HA : 0 <= A. Proof. unfold A. pose proof (Rabs_pos a1). pose proof (Rabs_pos a2). lra. Qed.
  Let HB : 0 <= B. Proof. unfold B. pose proof (Rabs_pos b0). pose proof (Rabs_pos b1). pose proof (Rabs_pos b2). lra. Qed.
  Let X0 : 0 <= X. Proof. destruct (HX O) as [_ Q]. pose proof (Rabs_pos (B2R (x O))). lra. Qed.
  Let BX : B * X <= 2 ^ 900.
  Proof. assert (0 <= B * X) by (apply Rmult_le_pos; assumption). assert (B * X <= G * (B * X)) by nra. nra. Qed.
  Let BX0 : 0 <= B * X. Proof. apply Rmult_le_pos; assumption. Qed.

  (** exact response *)
  Variable z : nat -> R.
  Hypothesis Hz : forall n, fir 1 a1 a2 z n = fir b0 b1 b2 (re x) n.

  Let xk n : okf X (x n) /\ okf X (fdel x n) /\ okf X (fdel (fdel x) n).
  Proof. split; [apply HX|]. apply fdel_ok; [exact X0|]. intros; apply HX. Qed.

  (** a signal that satisfies the equation up to errors *)
  Lemma near (y : nat -> R) (D : R) n : 0 <= D ->
    (forall i, (i <= n)%nat -> Rabs (fir 1 a1 a2 y i - fir b0 b1 b2 (re x) i) <= D) ->
    Rabs (y n) <= G * (B * X + D) /\ Rabs (y n - z n) <= G * D.
  Proof.
    intros HD H. split.
    - apply (gain_fir _ _ _ Hgain y); [lra|]. intros i Hi. specialize (H i Hi).
      pose proof (fir_bd b0 b1 b2 (re x) X i X0 (fun j _ => proj2 (HX j))) as Q. fold B in Q.
      revert H Q. unfold Rabs; repeat destruct (Rcase_abs _); lra.
    - apply (gain_fir _ _ _ Hgain (fun k => y k - z k)); [lra|]. intros i Hi. rewrite fir_sub, Hz. apply H, Hi.
  Qed.

  (** ** Direct Form I *)
  Let y1 : nat -> f64 := sout stp (st_init DF1) x.
  Lemma st1 n : sst stp (st_init DF1) x n = S1 (fdel x n : T (F64 m)) (fdel (fdel x) n : T (F64 m)) (fdel y1 n : T (F64 m)) (fdel (fdel y1) n : T (F64 m)).
  Proof.
    induction n as [|n IH]; [reflexivity|]. change (fst (stp (sst stp (st_init DF1) x n) (x n)) = S1 (x n : T (F64 m)) (fdel x n : T (F64 m)) (y1 n : T (F64 m)) (fdel y1 n : T (F64 m))).
    change (y1 n) with (snd (stp (sst stp (st_init DF1) x n) (x n))). rewrite IH. reflexivity.
  Qed.
  Let M1 := lev G (B * X).
  Let D1 := dlt G A (B * X).
  Lemma df1_step n : (forall i, (i < n)%nat -> okf M1 (y1 i)) ->
    is_finite (y1 n) = true /\ Rabs (fir 1 a1 a2 (re y1) n - fir b0 b1 b2 (re x) n) <= D1.
  Proof.
    intros H. pose proof (lev_pos G A HG HA H1 (B * X) BX0 BX) as ML. fold M1 in ML.
    destruct (xk n) as ((F0 & Q0) & (F1 & Q1) & (F2 & Q2)).
    destruct (fdel_ok M1 y1 n ltac:(lra) H) as ((F3 & Q3) & (F4 & Q4)). destruct Hfin as (Ca1 & Ca2 & Cb0 & Cb1 & Cb2).
    pose proof (lev_fits G A HG HA H1 (B * X) BX0 BX) as Fit. fold M1 in Fit.
    pose proof (dot5 (m_b0 b) (x n) (m_b1 b) (fdel x n) (m_b2 b) (fdel (fdel x) n) (m_a1 b) (fdel y1 n) (m_a2 b) (fdel (fdel y1) n)
      _ _ _ _ _ Cb0 Cb1 Cb2 Ca1 Ca2 F0 F1 F2 F3 F4 (mul_ok _ _ _ Q0) (mul_ok _ _ _ Q1) (mul_ok _ _ _ Q2) (mul_ok _ _ _ Q3) (mul_ok _ _ _ Q4)) as P.
    fold a1 a2 b0 b1 b2 in P. replace (Rabs b0 * X + Rabs b1 * X + Rabs b2 * X + Rabs a1 * M1 + Rabs a2 * M1) with (B * X + A * M1) in P by (unfold A, B; ring).
    specialize (P Fit). destruct P as (PF & PE & _).
    match type of PF with is_finite ?t = true => assert (E : y1 n = t) end.
    { unfold y1 at 1, sout. rewrite st1. reflexivity. }
    rewrite <- E in PF, PE. split; [exact PF|].
    rewrite (re_fdel x), (re_fdel2 x), (re_fdel y1), (re_fdel2 y1) in PE. unfold fir. fold (re x n) (re y1 n) in PE.
    eapply Rle_trans; [|eapply Rle_trans; [exact PE|]].
    - right. f_equal. ring.
    - unfold D1, dlt. fold M1. pose proof g_abs_tiny. pose proof tiny_pos. pose proof (A_lev_pos G A HG HA H1 (B * X) BX0 BX) as AL. fold M1 in AL. rewrite g_rel_uu. unfold uu. lra.
  Qed.
  Lemma df1_all : forall n, okf M1 (y1 n) /\ Rabs (fir 1 a1 a2 (re y1) n - fir b0 b1 b2 (re x) n) <= D1.
  Proof.
    apply strong. intros n IH. destruct (df1_step n (fun i Hi => proj1 (IH i Hi))) as [F E]. split; [|exact E]. split; [exact F|].
    pose proof (dlt_pos G A HG HA H1 (B * X) BX0 BX) as DP. fold D1 in DP.
    destruct (near (re y1) D1 n ltac:(lra)) as [Q _].
    { intros i Hi. destruct (Nat.eq_dec i n) as [->|]; [exact E|apply IH; lia]. }
    eapply Rle_trans; [exact Q|]. apply (lev_covers G A HG HA H1 (B * X) BX0 BX).
  Qed.

  (** ** Direct Form II *)
  Let wf (s : st (F64 m)) : f64 := match s with S2 v1 _ => v1 | _ => f0 end.
  Let w : nat -> f64 := fun n => wf (sst stp (st_init DF2) x (S n)).
  Let y2 : nat -> f64 := sout stp (st_init DF2) x.
  Lemma st2 n : sst stp (st_init DF2) x n = S2 (fdel w n : T (F64 m)) (fdel (fdel w) n : T (F64 m)).
  Proof.
    induction n as [|n IH]; [reflexivity|]. change (fst (stp (sst stp (st_init DF2) x n) (x n)) = S2 (w n : T (F64 m)) (fdel w n : T (F64 m))).
    change (w n) with (wf (fst (stp (sst stp (st_init DF2) x n) (x n)))). rewrite IH. reflexivity.
  Qed.
  Let M2 := lev G X.
  Let D2 := dlt G A X.
  Lemma df2_step n : (forall i, (i < n)%nat -> okf M2 (w i)) ->
    is_finite (w n) = true /\ Rabs (fir 1 a1 a2 (re w) n - re x n) <= D2.
  Proof.
    intros H. pose proof (lev_pos G A HG HA H1 X X0 H2) as ML. fold M2 in ML.
    destruct (xk n) as ((F0 & Q0) & _).
    destruct (fdel_ok M2 w n ltac:(lra) H) as ((F3 & Q3) & (F4 & Q4)). destruct Hfin as (Ca1 & Ca2 & _).
    pose proof (lev_fits G A HG HA H1 X X0 H2) as Fit. fold M2 in Fit.
    pose proof (dotw (x n) (m_a1 b) (fdel w n) (m_a2 b) (fdel (fdel w) n) _ _ _ Ca1 Ca2 F0 F3 F4 Q0 (mul_ok _ _ _ Q3) (mul_ok _ _ _ Q4)) as P.
    fold a1 a2 in P. replace (X + Rabs a1 * M2 + Rabs a2 * M2) with (X + A * M2) in P by (unfold A; ring).
    specialize (P Fit). destruct P as (PF & PE & _).
    match type of PF with is_finite ?t = true => assert (E : w n = t) end.
    { unfold w at 1. cbn [sst]. rewrite st2. reflexivity. }
    rewrite <- E in PF, PE. split; [exact PF|].
    rewrite (re_fdel w), (re_fdel2 w) in PE. unfold fir. fold (re x n) (re w n) in PE.
    eapply Rle_trans; [|eapply Rle_trans; [exact PE|]].
    - right. f_equal. ring.
    - unfold D2, dlt. fold M2. pose proof g_abs_tiny. pose proof tiny_pos. pose proof (A_lev_pos G A HG HA H1 X X0 H2) as AL. fold M2 in AL. rewrite g_rel_uu. unfold uu. lra.
  Qed.
  Lemma df2_w : forall n, okf M2 (w n) /\ Rabs (fir 1 a1 a2 (re w) n - re x n) <= D2.
  Proof.
    apply strong. intros n IH. destruct (df2_step n (fun i Hi => proj1 (IH i Hi))) as [F E]. split; [|exact E]. split; [exact F|].
    pose proof (dlt_pos G A HG HA H1 X X0 H2) as DP. fold D2 in DP.
    eapply Rle_trans; [|apply (lev_covers G A HG HA H1 X X0 H2)].
    apply (gain_fir _ _ _ Hgain (re w)); [fold D2; lra|]. intros i Hi. fold D2.
    assert (Q : Rabs (fir 1 a1 a2 (re w) i - re x i) <= D2) by (destruct (Nat.eq_dec i n) as [->|]; [exact E|apply IH; lia]).
    destruct (HX i) as [_ Q']. fold (re x i) in Q'. revert Q Q'. unfold Rabs; repeat destruct (Rcase_abs _); lra.
  Qed.
  Let BM2 : B * M2 <= big / 2.
  Proof.
    unfold M2, lev. pose proof g_pos. pose proof pow_ratio. pose proof p900.
    assert (0 <= G * B) by (apply Rmult_le_pos; lra).
    replace (B * (2 * G * (X + g_abs))) with (2 * (G * B * (X + g_abs))) by ring.
    assert (G * B * (X + g_abs) <= G * B * (X + 1)) by (apply Rmult_le_compat_l; lra).
    assert (1 * 2 ^ 900 <= 2 ^ 46 * 2 ^ 900). { apply Rmult_le_compat_r; [lra|]. simpl. lra. } lra.
  Qed.
  Lemma df2_out n : is_finite (y2 n) = true /\ Rabs (re y2 n - fir b0 b1 b2 (re w) n) <= g_rel * (B * M2) + g_abs.
  Proof.
    pose proof (lev_pos G A HG HA H1 X X0 H2) as ML. fold M2 in ML. destruct (df2_w n) as ((F0 & Q0) & _).
    destruct (fdel_ok M2 w n ltac:(lra) (fun i _ => proj1 (df2_w i))) as ((F3 & Q3) & (F4 & Q4)). destruct Hfin as (_ & _ & Cb0 & Cb1 & Cb2).
    pose proof (dot3 (m_b0 b) (w n) (m_b1 b) (fdel w n) (m_b2 b) (fdel (fdel w) n) _ _ _ Cb0 Cb1 Cb2 F0 F3 F4 (mul_ok _ _ _ Q0) (mul_ok _ _ _ Q3) (mul_ok _ _ _ Q4)) as P.
    fold b0 b1 b2 in P. replace (Rabs b0 * M2 + Rabs b1 * M2 + Rabs b2 * M2) with (B * M2) in P by (unfold B; ring).
    specialize (P BM2). destruct P as (PF & PE & _).
    match type of PF with is_finite ?t = true => assert (E : y2 n = t) end.
    { unfold w at 1. cbn [sst]. unfold y2, sout. rewrite st2. reflexivity. }
    rewrite <- E in PF, PE. split; [exact PF|].
    rewrite (re_fdel w), (re_fdel2 w) in PE. unfold fir. fold (re w n) (re y2 n) in PE. eapply Rle_trans; [exact PE|].
    assert (0 <= B * M2) by (apply Rmult_le_pos; lra). pose proof g_abs_tiny. pose proof tiny_pos. rewrite g_rel_uu. unfold uu. lra.
  Qed.
  Lemma df2_near n : Rabs (fir b0 b1 b2 (re w) n - z n) <= G * (B * D2) /\ Rabs (fir b0 b1 b2 (re w) n) <= B * M2.
  Proof.
    pose proof (dlt_pos G A HG HA H1 X X0 H2) as DP. fold D2 in DP. pose proof (lev_pos G A HG HA H1 X X0 H2) as ML. fold M2 in ML. split.
    - apply (near (fun k => fir b0 b1 b2 (re w) k) (B * D2) n); [apply Rmult_le_pos; lra|]. intros i Hi.
      change (fun k => fir b0 b1 b2 (re w) k) with (fir b0 b1 b2 (re w)). rewrite fir_comm, <- fir_sub.
      apply fir_bd; [lra|]. intros j _. apply df2_w.
    - apply fir_bd; [lra|]. intros i _. apply df2_w.
  Qed.

  (** ** Transposed Direct Form II *)
  Let pf1 (s : st (F64 m)) : f64 := match s with S3 _ s1 _ _ => s1 | _ => f0 end.
  Let pf2 (s : st (F64 m)) : f64 := match s with S3 _ _ _ s2 => s2 | _ => f0 end.
  Let p : nat -> f64 := fun n => pf1 (sst stp (st_init TDF2) x n).
  Let q : nat -> f64 := fun n => pf2 (sst stp (st_init TDF2) x n).
  Let y3 : nat -> f64 := sout stp (st_init TDF2) x.
  Lemma st3 n : exists u v, sst stp (st_init TDF2) x n = S3 u (p n : T (F64 m)) v (q n : T (F64 m)).
  Proof.
    destruct n as [|n]; [exists f0, f0; reflexivity|]. unfold p, q. cbn [sst].
    assert (Q : exists u1 u2 u3 u4, sst stp (st_init TDF2) x n = S3 u1 u2 u3 u4).
    { induction n as [|n (u1 & u2 & u3 & u4 & IH)]; [repeat eexists|]. cbn [sst]. rewrite IH. repeat eexists. }
    destruct Q as (u1 & u2 & u3 & u4 & ->). repeat eexists.
  Qed.
  Lemma y3_eq n : y3 n = fadd (p n) (fmul (m_b0 b) (x n)).
  Proof. unfold y3, sout. destruct (st3 n) as (u & v & ->). reflexivity. Qed.
  Lemma p_eq n : p (S n) = fsub (fadd (q n) (fmul (m_b1 b) (x n))) (fmul (m_a1 b) (y3 n)).
  Proof. rewrite y3_eq. unfold p at 1. cbn [sst]. destruct (st3 n) as (u & v & ->). reflexivity. Qed.
  Lemma q_eq n : q (S n) = fsub (fmul (m_b2 b) (x n)) (fmul (m_a2 b) (y3 n)).
  Proof. rewrite y3_eq. unfold q at 1. cbn [sst]. destruct (st3 n) as (u & v & ->). reflexivity. Qed.
  Let Q := B * X + A * M1.
  Let e := 8 * uu * (2 * Q + 64 * tiny) + 16 * tiny.
  (** the two states and their errors after sample n *)
  Let qok n := is_finite (q n) = true /\ Rabs (B2R (q n)) <= Rabs b2 * X + Rabs a2 * M1 + e.
  Let pok n := is_finite (p n) = true /\ Rabs (B2R (p n)) <= (Rabs b1 + Rabs b2) * X + A * M1 + 2 * e.
  Let Q0 : 0 <= Q. Proof. unfold Q. pose proof (A_lev_pos G A HG HA H1 (B * X) BX0 BX) as AL. fold M1 in AL. lra. Qed.
  Let Qb : Q <= big / 2. Proof. apply (lev_fits G A HG HA H1 (B * X) BX0 BX). Qed.
  Let Qsmall : Q <= big / 4.
  Proof.
    unfold Q, M1. pose proof (A_lev G A HG HA H1 (B * X) BX0 BX). pose proof g_pos. pose proof p900. pose proof pow_ratio.
    assert (2 ^ 45 * (B * X + g_abs) <= 2 ^ 45 * (2 * 2 ^ 900)) by (apply Rmult_le_compat_l; [apply pow_le; lra|lra]).
    replace (2 ^ 46) with (2 * 2 ^ 45) in * by (simpl; ring). assert (1024 * 2 ^ 900 <= 2 ^ 45 * 2 ^ 900). { apply Rmult_le_compat_r; [lra|]. simpl. lra. } nra.
  Qed.
  Let e_small : 0 <= e <= Q / 1024 + 32 * tiny.
  Proof. unfold e. pose proof tiny_pos. unfold uu. lra. Qed.
  Let parts : 0 <= Rabs b0 * X /\ 0 <= Rabs b1 * X /\ 0 <= Rabs b2 * X /\ 0 <= Rabs a1 * M1 /\ 0 <= Rabs a2 * M1 /\
    Q = Rabs b0 * X + Rabs b1 * X + Rabs b2 * X + Rabs a1 * M1 + Rabs a2 * M1.
  Proof.
    pose proof (lev_pos G A HG HA H1 (B * X) BX0 BX) as ML. fold M1 in ML.
    repeat split; try (apply Rmult_le_pos; [apply Rabs_pos|lra]). unfold Q, A, B. ring.
  Qed.
  Lemma tdf_out n : pok n -> is_finite (y3 n) = true /\ Rabs (re y3 n - (B2R (p n) + b0 * re x n)) <= e.
  Proof.
    intros (Fp & Ep). destruct (xk n) as ((F0 & X1) & _). destruct Hfin as (_ & _ & Cb0 & _). destruct parts as (P0 & P1 & P2 & P3 & P4 & PQ). nums.
    pose proof (dots (p n) (m_b0 b) (x n) _ _ Fp Cb0 F0 Ep (mul_ok _ _ _ X1)) as P. fold b0 in P.
    destruct P as (PF & PE & _). { replace ((Rabs b1 + Rabs b2) * X) with (Rabs b1 * X + Rabs b2 * X) by ring. replace (A * M1) with (Rabs a1 * M1 + Rabs a2 * M1) by (unfold A; ring). lra. }
    rewrite <- y3_eq in PF, PE. split; [exact PF|]. eapply Rle_trans; [exact PE|].
    replace ((Rabs b1 + Rabs b2) * X) with (Rabs b1 * X + Rabs b2 * X) by ring. replace (A * M1) with (Rabs a1 * M1 + Rabs a2 * M1) by (unfold A; ring).
    assert (S : Rabs b1 * X + Rabs b2 * X + (Rabs a1 * M1 + Rabs a2 * M1) + 2 * e + Rabs b0 * X <= 2 * Q + 64 * tiny) by lra.
    revert S. unfold e at 3. unfold uu. lra.
  Qed.
  Lemma tdf_next n : okf M1 (y3 n) -> qok n ->
    qok (S n) /\ pok (S n) /\ Rabs (B2R (q (S n)) - (b2 * re x n - a2 * re y3 n)) <= e /\
    Rabs (B2R (p (S n)) - (B2R (q n) + b1 * re x n - a1 * re y3 n)) <= e.
  Proof.
    intros (Fy & Ey) (Fq & Eq). destruct (xk n) as ((F0 & X1) & _). destruct Hfin as (Ca1 & Ca2 & _ & Cb1 & Cb2). destruct parts as (P0 & P1 & P2 & P3 & P4 & PQ). nums.
    pose proof (dotxy (m_b2 b) (x n) (m_a2 b) (y3 n) _ _ Cb2 F0 Ca2 Fy (mul_ok _ _ _ X1) (mul_ok _ _ _ Ey)) as P.
    pose proof (dotsy (q n) (m_b1 b) (x n) (m_a1 b) (y3 n) _ _ _ Fq Cb1 F0 Ca1 Fy Eq (mul_ok _ _ _ X1) (mul_ok _ _ _ Ey)) as R.
    fold a2 b2 in P. fold a1 b1 in R. destruct P as (PF & PE & PB); [lra|]. destruct R as (RF & RE & RB); [lra|].
    rewrite <- q_eq in PF, PE. rewrite <- p_eq in RF, RE. fold (re x n) (re y3 n) in PE, RE.
    assert (E1 : Rabs (B2R (q (S n)) - (b2 * re x n - a2 * re y3 n)) <= e).
    { eapply Rle_trans; [exact PE|]. unfold e, uu. lra. }
    assert (E2 : Rabs (B2R (p (S n)) - (B2R (q n) + b1 * re x n - a1 * re y3 n)) <= e).
    { eapply Rle_trans; [exact RE|]. assert (S : Rabs b2 * X + Rabs a2 * M1 + e + Rabs b1 * X + Rabs a1 * M1 <= 2 * Q + 64 * tiny) by lra. revert S. unfold e at 3. unfold uu. lra. }
    repeat split; auto.
    - pose proof (Rabs_triang_inv (B2R (q (S n))) (b2 * re x n - a2 * re y3 n)). fold (re x n) (re y3 n) in PB. lra.
    - replace ((Rabs b1 + Rabs b2) * X) with (Rabs b1 * X + Rabs b2 * X) by ring. replace (A * M1) with (Rabs a1 * M1 + Rabs a2 * M1) by (unfold A; ring).
      fold (re x n) (re y3 n) in RB. pose proof (Rabs_triang_inv (B2R (p (S n))) (B2R (q n) + b1 * re x n - a1 * re y3 n)). lra.
  Qed.
  Lemma tdf_pert n : (forall i, (i <= n)%nat -> qok i /\ pok i) -> (forall i, (i < n)%nat -> okf M1 (y3 i)) ->
    Rabs (fir 1 a1 a2 (re y3) n - fir b0 b1 b2 (re x) n) <= D1.
  Proof.
    intros HS HY. assert (S3e : 3 * e <= D1).
    { unfold D1, dlt. fold M1. fold Q. unfold e. rewrite g_rel_uu, <- g_abs_tiny. pose proof tiny_pos. unfold uu. lra. }
    destruct (tdf_out n (proj2 (HS n ltac:(lia)))) as [_ O].
    destruct n as [|n].
    - unfold fir. cbn [del]. replace (B2R (p 0)) with 0 in O by reflexivity. pose proof (proj1 e_small) as EP. revert O S3e EP.
      unfold Rabs; repeat destruct (Rcase_abs _); lra.
    - destruct (tdf_next n (HY n ltac:(lia)) (proj1 (HS n ltac:(lia)))) as (_ & _ & _ & E1).
      destruct n as [|n].
      + unfold fir. cbn [del]. replace (B2R (q 0)) with 0 in E1 by reflexivity. revert O E1 S3e.
        unfold Rabs; repeat destruct (Rcase_abs _); lra.
      + destruct (tdf_next n (HY n ltac:(lia)) (proj1 (HS n ltac:(lia)))) as (_ & _ & E2 & _).
        unfold fir. cbn [del]. revert O E1 E2 S3e. unfold Rabs; repeat destruct (Rcase_abs _); lra.
  Qed.
  Lemma tdf_all : forall n, (qok n /\ pok n) /\ okf M1 (y3 n) /\ Rabs (fir 1 a1 a2 (re y3) n - fir b0 b1 b2 (re x) n) <= D1.
  Proof.
    apply strong. intros n IH. destruct parts as (P0 & P1 & P2 & P3 & P4 & PQ). nums.
    assert (SO : qok n /\ pok n).
    { destruct n as [|n].
      - assert (0 <= A * M1) by (replace (A * M1) with (Rabs a1 * M1 + Rabs a2 * M1) by (unfold A; ring); lra).
        split; split; try reflexivity; unfold q, p; cbn; rewrite Rabs_R0; lra.
      - destruct (IH n ltac:(lia)) as ((Hq & _) & Hy & _). destruct (tdf_next n Hy Hq) as (A1 & A2 & _). split; assumption. }
    assert (E : Rabs (fir 1 a1 a2 (re y3) n - fir b0 b1 b2 (re x) n) <= D1).
    { apply tdf_pert.
      - intros i Hi. destruct (Nat.eq_dec i n) as [->|]; [exact SO|apply IH; lia].
      - intros i Hi. apply IH, Hi. }
    split; [exact SO|]. split; [|exact E]. split; [apply (tdf_out n (proj2 SO))|].
    pose proof (dlt_pos G A HG HA H1 (B * X) BX0 BX) as DP. fold D1 in DP.
    destruct (near (re y3) D1 n ltac:(lra)) as [N _].
    { intros i Hi. destruct (Nat.eq_dec i n) as [->|]; [exact E|apply IH; lia]. }
    eapply Rle_trans; [exact N|]. apply (lev_covers G A HG HA H1 (B * X) BX0 BX).
  Qed.

  (** ** all three *)
  Let ob := 4 * G * (B * X + (1 + B) * g_abs).
  Let oe := 3 * G * (g_rel * (1 + 2 * A * G) * (B * X + (1 + B) * g_abs) + (1 + B) * g_abs).
  Let M1_ob : M1 <= ob.
  Proof. unfold M1, lev, ob. pose proof g_pos. assert (0 <= B * g_abs) by nra. nra. Qed.
  Let D1_oe : G * D1 <= oe.
  Proof.
    unfold D1, dlt, lev, oe. pose proof g_pos. assert (0 < g_rel) by (rewrite g_rel_uu; unfold uu; lra).
    set (L := B * X + (1 + B) * g_abs). assert (L1 : B * X + g_abs <= L) by (unfold L; nra).
    assert (0 <= A * G) by nra.
    assert (S1 : g_rel * (B * X + A * (2 * G * (B * X + g_abs))) <= g_rel * (1 + 2 * A * G) * L).
    { rewrite (Rmult_assoc g_rel (1 + 2 * A * G) L). apply Rmult_le_compat_l; [lra|]. nra. }
    assert (0 <= g_rel * (1 + 2 * A * G) * L) by (apply Rmult_le_pos; [apply Rmult_le_pos; nra|lra]).
    assert (g_abs <= (1 + B) * g_abs) by nra. nra.
  Qed.
  Lemma stage_all t n : okf ob (sout stp (st_init t) x n) /\ Rabs (re (sout stp (st_init t) x) n - z n) <= oe.
  Proof.
    pose proof (dlt_pos G A HG HA H1 (B * X) BX0 BX) as DP. fold D1 in DP. destruct t.
    - fold y1. destruct (df1_all n) as ((F & Q') & _). split; [split; [exact F|lra]|].
      destruct (near (re y1) D1 n ltac:(lra) (fun i _ => proj2 (df1_all i))) as [_ E]. lra.
    - fold y2. destruct (df2_out n) as (F & O). destruct (df2_near n) as (N1 & N2). pose proof g_pos.
      assert (0 < g_rel) by (rewrite g_rel_uu; unfold uu; lra). assert (0 <= A * G) by nra.
      assert (BM : B * M2 = 2 * G * (B * X + B * g_abs)) by (unfold M2, lev; ring).
      set (L := B * X + (1 + B) * g_abs). assert (L1 : B * X + B * g_abs <= L) by (unfold L; nra). assert (0 <= B * g_abs) by nra.
      assert (BM0 : 0 <= B * M2) by (rewrite BM; apply Rmult_le_pos; lra).
      split; [split; [exact F|]|].
      + assert (g_rel * (B * M2) <= B * M2) by (rewrite g_rel_uu; unfold uu; lra).
        assert (Rabs (B2R (y2 n)) <= 2 * (B * M2) + g_abs). { fold (re y2 n). revert O N2. unfold Rabs; repeat destruct (Rcase_abs _); lra. }
        unfold ob. rewrite BM in *. nra.
      + assert (TR : Rabs (re y2 n - z n) <= G * (B * D2) + (g_rel * (B * M2) + g_abs)). { revert O N1. unfold Rabs; repeat destruct (Rcase_abs _); lra. }
        eapply Rle_trans; [exact TR|]. rewrite BM. unfold D2, dlt, lev, oe. fold L.
        assert (S1 : B * (g_rel * (X + A * (2 * G * (X + g_abs))) + g_abs) <= g_rel * (1 + 2 * A * G) * L + B * g_abs).
        { replace (B * (g_rel * (X + A * (2 * G * (X + g_abs))) + g_abs)) with (g_rel * (B * X + 2 * A * G * (B * X + B * g_abs)) + B * g_abs) by ring.
          apply Rplus_le_compat_r. rewrite (Rmult_assoc g_rel (1 + 2 * A * G) L). apply Rmult_le_compat_l; [lra|]. nra. }
        assert (S2 : g_rel * (2 * G * (B * X + B * g_abs)) <= 2 * G * (g_rel * (1 + 2 * A * G) * L)).
        { replace (g_rel * (2 * G * (B * X + B * g_abs))) with (2 * G * (g_rel * (B * X + B * g_abs))) by ring. apply Rmult_le_compat_l; [lra|].
          rewrite (Rmult_assoc g_rel (1 + 2 * A * G) L). apply Rmult_le_compat_l; [lra|]. assert (0 <= L) by (unfold L; nra). nra. }
        assert (G * (B * (g_rel * (X + A * (2 * G * (X + g_abs))) + g_abs)) <= G * (g_rel * (1 + 2 * A * G) * L + B * g_abs)) by (apply Rmult_le_compat_l; lra).
        assert (g_abs <= G * g_abs) by nra. assert (0 <= G * (B * g_abs)) by nra. nra.
    - fold y3. destruct (tdf_all n) as (_ & (F & Q') & _). split; [split; [exact F|lra]|].
      destruct (near (re y3) D1 n ltac:(lra) (fun i _ => proj2 (proj2 (tdf_all i)))) as [_ E]. lra.
  Qed.
End Stage.
