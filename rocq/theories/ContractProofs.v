(** Proofs: rounding errors of a section and of cascades under contraction. *)
From Coq Require Import ZArith List Bool Reals Lra Lia.
From Flocq Require Import Core.Raux IEEE754.BinarySingleNaN.
From Verif Require Import Num Outcome Biquad State Cascade Float64 FloatSpec FloatProofs SampleLemmas Stream SigSpec SigProofs RoundSpec RoundProofs RoundRun Contract.
Import ListNotations.
Local Open Scope R_scope.

(** all values of e are near r, and if e is a product, it is that of finite numbers *)
Definition eok (e : fexp) (r S er : R) : Prop :=
  (forall v, cev e v -> ap v r S er) /\ 0 <= er /\
  (forall a b, e = EM a b -> is_finite a = true /\ is_finite b = true /\ B2R a * B2R b = r).
Lemma eok_v x S : is_finite x = true -> Rabs (B2R x) <= S -> eok (EV x) (B2R x) S 0.
Proof. intros F H. split; [|split; [lra|discriminate]]. intros v E. inversion E; subst. apply ap_val; assumption. Qed.
Lemma eok_m c x S : is_finite c = true -> is_finite x = true -> Rabs (B2R c * B2R x) <= S -> S <= big -> eok (EM c x) (B2R c * B2R x) S (uu * S + tiny).
Proof.
  intros F1 F2 H1 H2. assert (0 <= S) by (eapply Rle_trans; [apply Rabs_pos|exact H1]). pose proof tiny_pos. split; [|split; [unfold uu; lra|]].
  - intros v E. inversion E; subst. apply ap_mul; assumption.
  - intros a b E. injection E as -> ->. auto.
Qed.
(** one rounding of a product plus a number *)
Lemma ap_fma a b v r S e p T : is_finite a = true -> is_finite b = true -> B2R a * B2R b = p -> Rabs p <= T -> ap v r S e -> S + T + e <= big ->
  ap (ffma a b v) (p + r) (S + T) (e + uu * (S + T + e) + tiny).
Proof.
  intros Fa Fb Ep Hp (Fv & Ev & Bv) H. pose proof (@Bfma_correct 53 1024 Hprec64 Hemax64 mode_NE a b v Fa Fb Fv) as A. cbv zeta in A. rewrite Ep in A.
  assert (Q : Rabs (p + B2R v) <= S + T + e) by (revert Ev Bv Hp; unfold Rabs; repeat destruct (Rcase_abs _); lra).
  rewrite rnd_fit in A by lra. destruct A as (A1 & A2 & _). unfold ffma. split; [exact A2|]. rewrite A1. split.
  - pose proof (rnd_err (p + B2R v)) as E. assert (uu * Rabs (p + B2R v) <= uu * (S + T + e)) by (unfold uu; lra).
    revert E Ev. generalize (rnd64 (p + B2R v)). intros w E Ev. revert E Ev.
    generalize dependent (uu * Rabs (p + B2R v)). intros z Hz. unfold Rabs; repeat destruct (Rcase_abs _); lra.
  - eapply Rle_trans; [apply Rabs_triang|lra].
Qed.
Lemma ap_eq f r r' S e : ap f r S e -> r = r' -> ap f r' S e. Proof. intros H <-. exact H. Qed.
Lemma fin_opp (x : f64) : is_finite (Bopp x) = is_finite x. Proof. apply is_finite_Bopp. Qed.
Lemma ap_neg f r S e : ap f r S e -> ap (Bopp f) (- r) S e.
Proof.
  intros (A & B & C). split; [rewrite fin_opp; exact A|]. rewrite B2R_Bopp, Rabs_Ropp. split; [|exact C].
  replace (- B2R f - - r) with (- (B2R f - r)) by ring. rewrite Rabs_Ropp. exact B.
Qed.
Lemma eok_S e r S er v : eok e r S er -> cev e v -> Rabs r <= S.
Proof. intros (A & _) H. apply (A v H). Qed.
Lemma eok_a e1 e2 r q S T e d : eok e1 r S e -> eok e2 q T d -> S + T + e + d <= big -> eok (EA e1 e2) (r + q) (S + T) (e + d + uu * (S + T + e + d) + tiny).
Proof.
  intros K1 K2 H. assert (U0 : 0 < uu) by (unfold uu; lra). pose proof tiny_pos. destruct (K1) as (A1 & P1 & M1). destruct (K2) as (A2 & P2 & M2).
  assert (G : forall v, cev (EA e1 e2) v -> ap v (r + q) (S + T) (e + d + uu * (S + T + e + d) + tiny)).
  { intros v E. inversion E; subst.
    - apply ap_add; auto.
    - destruct (M1 a b eq_refl) as (Fa & Fb & Ep). pose proof (proj2 (proj2 (A1 _ (cev_m a b)))) as B1.
      assert (V := A2 _ ltac:(eassumption)). eapply ap_weak; [apply (ap_fma a b v0 q T d r S Fa Fb Ep B1 V); lra|lra|].
      assert (uu * (T + S + d) <= uu * (S + T + e + d)) by (apply Rmult_le_compat_l; lra). lra.
    - destruct (M2 a b eq_refl) as (Fa & Fb & Ep). pose proof (proj2 (proj2 (A2 _ (cev_m a b)))) as B1.
      assert (V := A1 _ ltac:(eassumption)). eapply ap_weak; [eapply ap_eq; [apply (ap_fma a b v0 r S e q T Fa Fb Ep B1 V); lra|ring]|lra|].
      assert (uu * (S + T + e) <= uu * (S + T + e + d)) by (apply Rmult_le_compat_l; lra). lra. }
  split; [exact G|]. split; [|discriminate].
  assert (Hv : forall x : fexp, exists v, cev x v) by (induction x as [x|a b|x1 [v1 ?] x2 [v2 ?]|x1 [v1 ?] x2 [v2 ?]]; eexists; [apply cev_v|apply cev_m|apply cev_a; eassumption|apply cev_s; eassumption]).
  destruct (Hv (EA e1 e2)) as [v E]. eapply Rle_trans; [apply Rabs_pos|exact (proj1 (proj2 (G v E)))].
Qed.
Lemma eok_s e1 e2 r q S T e d : eok e1 r S e -> eok e2 q T d -> S + T + e + d <= big -> eok (ES e1 e2) (r - q) (S + T) (e + d + uu * (S + T + e + d) + tiny).
Proof.
  intros K1 K2 H. assert (U0 : 0 < uu) by (unfold uu; lra). pose proof tiny_pos. destruct (K1) as (A1 & P1 & M1). destruct (K2) as (A2 & P2 & M2).
  assert (G : forall v, cev (ES e1 e2) v -> ap v (r - q) (S + T) (e + d + uu * (S + T + e + d) + tiny)).
  { intros v E. inversion E; subst.
    - apply ap_sub; auto.
    - destruct (M1 a b eq_refl) as (Fa & Fb & Ep). pose proof (proj2 (proj2 (A1 _ (cev_m a b)))) as B1.
      assert (V := A2 _ ltac:(eassumption)). eapply ap_weak; [eapply ap_eq; [apply (ap_fma a b (Bopp v0) (- q) T d r S Fa Fb Ep B1 (ap_neg _ _ _ _ V)); lra|ring]|lra|].
      assert (uu * (T + S + d) <= uu * (S + T + e + d)) by (apply Rmult_le_compat_l; lra). lra.
    - destruct (M2 a b eq_refl) as (Fa & Fb & Ep). pose proof (proj2 (proj2 (A2 _ (cev_m a b)))) as B1.
      assert (V := A1 _ ltac:(eassumption)). eapply ap_weak; [eapply ap_eq; [apply (ap_fma (Bopp a) b v0 r S e (- q) T)|]|lra|].
      + rewrite fin_opp. exact Fa.
      + exact Fb.
      + rewrite B2R_Bopp, <- Ep. ring.
      + rewrite Rabs_Ropp. exact B1.
      + exact V.
      + lra.
      + ring.
      + assert (uu * (S + T + e) <= uu * (S + T + e + d)) by (apply Rmult_le_compat_l; lra). lra. }
  split; [exact G|]. split; [|discriminate].
  assert (Hv : forall x : fexp, exists v, cev x v) by (induction x as [x|a b|x1 [v1 ?] x2 [v2 ?]|x1 [v1 ?] x2 [v2 ?]]; eexists; [apply cev_v|apply cev_m|apply cev_a; eassumption|apply cev_s; eassumption]).
  destruct (Hv (ES e1 e2)) as [v E]. eapply Rle_trans; [apply Rabs_pos|exact (proj1 (proj2 (G v E)))].
Qed.
Ltac cchain := lazymatch goal with
  | |- eok (ES _ _) _ _ _ => eapply eok_s; [cchain|cchain|]
  | |- eok (EA _ _) _ _ _ => eapply eok_a; [cchain|cchain|]
  | |- eok (EM _ _) _ _ _ => eapply eok_m; [eassumption|eassumption|eassumption|]
  | |- eok _ _ _ _ => eapply eok_v; eassumption
  end.
Lemma eok_use e r S er v S' e' : cev e v -> eok e r S er -> S <= S' -> er <= e' -> ap v r S' e'.
Proof. intros H (A & _) H1 H2. eapply ap_weak; [apply A, H|exact H1|exact H2]. Qed.

Lemma cdot5 v c0 x0 c1 x1 c2 x2 c3 x3 c4 x4 S0 S1 S2 S3 S4 :
  is_finite c0 = true -> is_finite c1 = true -> is_finite c2 = true -> is_finite c3 = true -> is_finite c4 = true ->
  is_finite x0 = true -> is_finite x1 = true -> is_finite x2 = true -> is_finite x3 = true -> is_finite x4 = true ->
  Rabs (B2R c0 * B2R x0) <= S0 -> Rabs (B2R c1 * B2R x1) <= S1 -> Rabs (B2R c2 * B2R x2) <= S2 ->
  Rabs (B2R c3 * B2R x3) <= S3 -> Rabs (B2R c4 * B2R x4) <= S4 -> S0 + S1 + S2 + S3 + S4 <= big / 2 ->
  cev (ES (ES (EA (EA (EM c0 x0) (EM c1 x1)) (EM c2 x2)) (EM c3 x3)) (EM c4 x4)) v ->
  ap v
     (B2R c0 * B2R x0 + B2R c1 * B2R x1 + B2R c2 * B2R x2 - B2R c3 * B2R x3 - B2R c4 * B2R x4)
     (S0 + S1 + S2 + S3 + S4) (8 * uu * (S0 + S1 + S2 + S3 + S4) + 16 * tiny).
Proof.
  intros F0 F1 F2 F3 F4 G0 G1 G2 G3 G4 H0 H1 H2 H3 H4 HS HC. nums. absp.
  eapply eok_use; [exact HC|cchain|..]; unfold uu; lra.
Qed.
Lemma cdotw v x c1 v1 c2 v2 S0 S1 S2 :
  is_finite c1 = true -> is_finite c2 = true -> is_finite x = true -> is_finite v1 = true -> is_finite v2 = true ->
  Rabs (B2R x) <= S0 -> Rabs (B2R c1 * B2R v1) <= S1 -> Rabs (B2R c2 * B2R v2) <= S2 -> S0 + S1 + S2 <= big / 2 ->
  cev (ES (ES (EV x) (EM c1 v1)) (EM c2 v2)) v ->
  ap v (B2R x - B2R c1 * B2R v1 - B2R c2 * B2R v2)
     (S0 + S1 + S2) (8 * uu * (S0 + S1 + S2) + 16 * tiny).
Proof.
  intros F1 F2 G0 G1 G2 H0 H1 H2 HS HC. nums. absp.
  eapply eok_use; [exact HC|cchain|..]; unfold uu; lra.
Qed.
Lemma cdot3 v c0 x0 c1 x1 c2 x2 S0 S1 S2 :
  is_finite c0 = true -> is_finite c1 = true -> is_finite c2 = true ->
  is_finite x0 = true -> is_finite x1 = true -> is_finite x2 = true ->
  Rabs (B2R c0 * B2R x0) <= S0 -> Rabs (B2R c1 * B2R x1) <= S1 -> Rabs (B2R c2 * B2R x2) <= S2 -> S0 + S1 + S2 <= big / 2 ->
  cev (EA (EA (EM c0 x0) (EM c1 x1)) (EM c2 x2)) v ->
  ap v (B2R c0 * B2R x0 + B2R c1 * B2R x1 + B2R c2 * B2R x2)
     (S0 + S1 + S2) (8 * uu * (S0 + S1 + S2) + 16 * tiny).
Proof.
  intros F0 F1 F2 G0 G1 G2 H0 H1 H2 HS HC. nums. absp.
  eapply eok_use; [exact HC|cchain|..]; unfold uu; lra.
Qed.
Lemma cdots v s c x S0 S1 :
  is_finite s = true -> is_finite c = true -> is_finite x = true ->
  Rabs (B2R s) <= S0 -> Rabs (B2R c * B2R x) <= S1 -> S0 + S1 <= big / 2 ->
  cev (EA (EV s) (EM c x)) v ->
  ap v (B2R s + B2R c * B2R x) (S0 + S1) (8 * uu * (S0 + S1) + 16 * tiny).
Proof.
  intros F0 F1 F2 H0 H1 HS HC. nums. absp.
  eapply eok_use; [exact HC|cchain|..]; unfold uu; lra.
Qed.
Lemma cdotsy v s c x d y S0 S1 S2 :
  is_finite s = true -> is_finite c = true -> is_finite x = true -> is_finite d = true -> is_finite y = true ->
  Rabs (B2R s) <= S0 -> Rabs (B2R c * B2R x) <= S1 -> Rabs (B2R d * B2R y) <= S2 -> S0 + S1 + S2 <= big / 2 ->
  cev (ES (EA (EV s) (EM c x)) (EM d y)) v ->
  ap v (B2R s + B2R c * B2R x - B2R d * B2R y) (S0 + S1 + S2) (8 * uu * (S0 + S1 + S2) + 16 * tiny).
Proof.
  intros F0 F1 F2 F3 F4 H0 H1 H2 HS HC. nums. absp.
  eapply eok_use; [exact HC|cchain|..]; unfold uu; lra.
Qed.
Lemma cdotxy v c x d y S1 S2 :
  is_finite c = true -> is_finite x = true -> is_finite d = true -> is_finite y = true ->
  Rabs (B2R c * B2R x) <= S1 -> Rabs (B2R d * B2R y) <= S2 -> S1 + S2 <= big / 2 ->
  cev (ES (EM c x) (EM d y)) v ->
  ap v (B2R c * B2R x - B2R d * B2R y) (S1 + S2) (8 * uu * (S1 + S2) + 16 * tiny).
Proof.
  intros F1 F2 F3 F4 H1 H2 HS HC. nums. absp.
  eapply eok_use; [exact HC|cchain|..]; unfold uu; lra.
Qed.

Lemma c_inv1 {m} (b : biquad (F64 m)) (x1 x2 y1 y2 x : f64) s' y : c_filter b (S1 (N := F64 m) x1 x2 y1 y2) x s' y -> s' = S1 (N := F64 m) x x1 y y1 /\
  cev (ES (ES (EA (EA (EM (m_b0 b : f64) x) (EM (m_b1 b : f64) x1)) (EM (m_b2 b : f64) x2)) (EM (m_a1 b : f64) y1)) (EM (m_a2 b : f64) y2)) y.
Proof. intros R. inversion R; subst. split; [reflexivity|assumption]. Qed.
Lemma c_inv2 {m} (b : biquad (F64 m)) (v1 v2 x : f64) s' y : c_filter b (S2 (N := F64 m) v1 v2) x s' y -> exists w, s' = S2 (N := F64 m) w v1 /\
  cev (ES (ES (EV x) (EM (m_a1 b : f64) v1)) (EM (m_a2 b : f64) v2)) w /\
  cev (EA (EA (EM (m_b0 b : f64) w) (EM (m_b1 b : f64) v1)) (EM (m_b2 b : f64) v2)) y.
Proof. intros R. inversion R; subst. eexists. split; [reflexivity|]. split; assumption. Qed.
Lemma c_inv3 {m} (b : biquad (F64 m)) (s1 s1_1 s2 s2_1 x : f64) s' y : c_filter b (S3 (N := F64 m) s1 s1_1 s2 s2_1) x s' y ->
  exists s1' s2', s' = S3 (N := F64 m) s1' s1' s2' s2' /\ cev (EA (EV s1_1) (EM (m_b0 b : f64) x)) y /\
  cev (ES (EA (EV s2_1) (EM (m_b1 b : f64) x)) (EM (m_a1 b : f64) y)) s1' /\ cev (ES (EM (m_b2 b : f64) x) (EM (m_a2 b : f64) y)) s2'.
Proof. intros R. inversion R; subst. do 2 eexists. split; [reflexivity|]. auto. Qed.

Section Stage.
  Context {m : libm}.
  Variables (b : biquad (F64 m)) (x : nat -> f64) (G X : R).
  Let a1 := B2R (m_a1 b : f64). Let a2 := B2R (m_a2 b : f64).
  Let b0 := B2R (m_b0 b : f64). Let b1 := B2R (m_b1 b : f64). Let b2 := B2R (m_b2 b : f64).
  Let A := Rabs a1 + Rabs a2. Let B := Rabs b0 + Rabs b1 + Rabs b2.
  Hypotheses (Hfin : fin_coeffs b) (Hgain : rec_gain a1 a2 G) (HX : forall n, okf X (x n))
    (H1 : G * A <= 2 ^ 44) (H2 : X <= 2 ^ 900) (H3 : G * B * (X + 1) <= 2 ^ 900).
  Let HG : 1 <= G := gain_ge1 _ _ _ Hgain.
  Let HA : 0 <= A. Proof. unfold A. pose proof (Rabs_pos a1). pose proof (Rabs_pos a2). lra. Qed.
  Let HB : 0 <= B. Proof. unfold B. pose proof (Rabs_pos b0). pose proof (Rabs_pos b1). pose proof (Rabs_pos b2). lra. Qed.
  Let X0 : 0 <= X. Proof. destruct (HX O) as [_ Q]. pose proof (Rabs_pos (B2R (x O))). lra. Qed.
  Let BX : B * X <= 2 ^ 900.
  Proof. assert (0 <= B * X) by (apply Rmult_le_pos; assumption). assert (B * X <= G * (B * X)) by nra. nra. Qed.
  Let BX0 : 0 <= B * X. Proof. apply Rmult_le_pos; assumption. Qed.

  (** exact response *)
  Variable z : nat -> R.
  Hypothesis Hz : forall n, fir 1 a1 a2 z n = fir b0 b1 b2 (re x) n.

  Let xk n : okf X (x n) /\ okf X (fdel x n) /\ okf X (fdel (fdel x) n).
  Proof. split; [apply HX|]. apply fdel_ok; [exact X0|]. intros; apply HX. Qed.

  (** a signal that satisfies the equation up to errors *)
  Lemma near (y : nat -> R) (D : R) n : 0 <= D ->
    (forall i, (i <= n)%nat -> Rabs (fir 1 a1 a2 y i - fir b0 b1 b2 (re x) i) <= D) ->
    Rabs (y n) <= G * (B * X + D) /\ Rabs (y n - z n) <= G * D.
  Proof.
    intros HD H. split.
    - apply (gain_fir _ _ _ Hgain y); [lra|]. intros i Hi. specialize (H i Hi).
      pose proof (fir_bd b0 b1 b2 (re x) X i X0 (fun j _ => proj2 (HX j))) as Q. fold B in Q.
      revert H Q. unfold Rabs; repeat destruct (Rcase_abs _); lra.
    - apply (gain_fir _ _ _ Hgain (fun k => y k - z k)); [lra|]. intros i Hi. rewrite fir_sub, Hz. apply H, Hi.
  Qed.

  (** a run under some contraction *)
  Variables (ss : nat -> st (F64 m)) (y : nat -> f64).
  Hypothesis Hrun : forall n, c_filter b (ss n) (x n) (ss (S n)) (y n).

  Let M1 := lev G (B * X).
  Let D1 := dlt G A (B * X).
  (** ** Direct Form I *)
  Section DF1.
  Hypothesis H0 : ss 0%nat = st_init DF1.
  Notation y1 := y.
  Lemma st1 n : ss n = S1 (fdel x n : T (F64 m)) (fdel (fdel x) n : T (F64 m)) (fdel y1 n : T (F64 m)) (fdel (fdel y1) n : T (F64 m)).
  Proof.
    induction n as [|n IH]; [exact H0|]. pose proof (Hrun n) as R. rewrite IH in R. apply c_inv1 in R as [R _]. exact R.
  Qed.
  Lemma df1_step n : (forall i, (i < n)%nat -> okf M1 (y1 i)) ->
    is_finite (y1 n) = true /\ Rabs (fir 1 a1 a2 (re y1) n - fir b0 b1 b2 (re x) n) <= D1.
  Proof.
    intros H. pose proof (lev_pos G A HG HA H1 (B * X) BX0 BX) as ML. fold M1 in ML.
    destruct (xk n) as ((F0 & Q0) & (F1 & Q1) & (F2 & Q2)).
    destruct (fdel_ok M1 y1 n ltac:(lra) H) as ((F3 & Q3) & (F4 & Q4)). destruct Hfin as (Ca1 & Ca2 & Cb0 & Cb1 & Cb2).
    pose proof (lev_fits G A HG HA H1 (B * X) BX0 BX) as Fit. fold M1 in Fit.
    pose proof (cdot5 (y n) (m_b0 b) (x n) (m_b1 b) (fdel x n) (m_b2 b) (fdel (fdel x) n) (m_a1 b) (fdel y1 n) (m_a2 b) (fdel (fdel y1) n)
      _ _ _ _ _ Cb0 Cb1 Cb2 Ca1 Ca2 F0 F1 F2 F3 F4 (mul_ok _ _ _ Q0) (mul_ok _ _ _ Q1) (mul_ok _ _ _ Q2) (mul_ok _ _ _ Q3) (mul_ok _ _ _ Q4)) as P.
    fold a1 a2 b0 b1 b2 in P. replace (Rabs b0 * X + Rabs b1 * X + Rabs b2 * X + Rabs a1 * M1 + Rabs a2 * M1) with (B * X + A * M1) in P by (unfold A, B; ring).
    pose proof (Hrun n) as R. rewrite st1 in R. apply c_inv1 in R as [_ CV].
    specialize (P Fit CV). destruct P as (PF & PE & _). split; [exact PF|].
    rewrite (re_fdel x), (re_fdel2 x), (re_fdel y1), (re_fdel2 y1) in PE. unfold fir. fold (re x n) (re y1 n) in PE.
    eapply Rle_trans; [|eapply Rle_trans; [exact PE|]].
    - right. f_equal. ring.
    - unfold D1, dlt. fold M1. pose proof g_abs_tiny. pose proof tiny_pos. pose proof (A_lev_pos G A HG HA H1 (B * X) BX0 BX) as AL. fold M1 in AL. rewrite g_rel_uu. unfold uu. lra.
  Qed.
  Lemma df1_all : forall n, okf M1 (y1 n) /\ Rabs (fir 1 a1 a2 (re y1) n - fir b0 b1 b2 (re x) n) <= D1.
  Proof.
    apply strong. intros n IH. destruct (df1_step n (fun i Hi => proj1 (IH i Hi))) as [F E]. split; [|exact E]. split; [exact F|].
    pose proof (dlt_pos G A HG HA H1 (B * X) BX0 BX) as DP. fold D1 in DP.
    destruct (near (re y1) D1 n ltac:(lra)) as [Q _].
    { intros i Hi. destruct (Nat.eq_dec i n) as [->|]; [exact E|apply IH; lia]. }
    eapply Rle_trans; [exact Q|]. apply (lev_covers G A HG HA H1 (B * X) BX0 BX).
  Qed.

  End DF1.
  Let wf (s : st (F64 m)) : f64 := match s with S2 v1 _ => v1 | _ => f0 end.
  Let w : nat -> f64 := fun n => wf (ss (S n)).
  Let M2 := lev G X.
  Let D2 := dlt G A X.
  (** ** Direct Form II *)
  Section DF2.
  Hypothesis H0 : ss 0%nat = st_init DF2.
  Notation y2 := y.
  Lemma st2 n : ss n = S2 (fdel w n : T (F64 m)) (fdel (fdel w) n : T (F64 m)).
  Proof.
    induction n as [|n IH]; [exact H0|]. pose proof (Hrun n) as R. rewrite IH in R. apply c_inv2 in R as (w' & R & _). cbn [fdel]. unfold w at 1. rewrite R. reflexivity.
  Qed.
  Lemma w_cev n : cev (ES (ES (EV (x n)) (EM (m_a1 b : f64) (fdel w n))) (EM (m_a2 b : f64) (fdel (fdel w) n))) (w n) /\
    cev (EA (EA (EM (m_b0 b : f64) (w n)) (EM (m_b1 b : f64) (fdel w n))) (EM (m_b2 b : f64) (fdel (fdel w) n))) (y n).
  Proof.
    pose proof (Hrun n) as R. rewrite (st2 n) in R. apply c_inv2 in R as (w' & R & CW & CO).
    assert (E : w n = w') by (unfold w; rewrite R; reflexivity). rewrite E. split; assumption.
  Qed.
  Lemma df2_step n : (forall i, (i < n)%nat -> okf M2 (w i)) ->
    is_finite (w n) = true /\ Rabs (fir 1 a1 a2 (re w) n - re x n) <= D2.
  Proof.
    intros H. pose proof (lev_pos G A HG HA H1 X X0 H2) as ML. fold M2 in ML.
    destruct (xk n) as ((F0 & Q0) & _).
    destruct (fdel_ok M2 w n ltac:(lra) H) as ((F3 & Q3) & (F4 & Q4)). destruct Hfin as (Ca1 & Ca2 & _).
    pose proof (lev_fits G A HG HA H1 X X0 H2) as Fit. fold M2 in Fit.
    pose proof (cdotw (w n) (x n) (m_a1 b) (fdel w n) (m_a2 b) (fdel (fdel w) n) _ _ _ Ca1 Ca2 F0 F3 F4 Q0 (mul_ok _ _ _ Q3) (mul_ok _ _ _ Q4)) as P.
    fold a1 a2 in P. replace (X + Rabs a1 * M2 + Rabs a2 * M2) with (X + A * M2) in P by (unfold A; ring).
    specialize (P Fit (proj1 (w_cev n))). destruct P as (PF & PE & _). split; [exact PF|].
    rewrite (re_fdel w), (re_fdel2 w) in PE. unfold fir. fold (re x n) (re w n) in PE.
    eapply Rle_trans; [|eapply Rle_trans; [exact PE|]].
    - right. f_equal. ring.
    - unfold D2, dlt. fold M2. pose proof g_abs_tiny. pose proof tiny_pos. pose proof (A_lev_pos G A HG HA H1 X X0 H2) as AL. fold M2 in AL. rewrite g_rel_uu. unfold uu. lra.
  Qed.
  Lemma df2_w : forall n, okf M2 (w n) /\ Rabs (fir 1 a1 a2 (re w) n - re x n) <= D2.
  Proof.
    apply strong. intros n IH. destruct (df2_step n (fun i Hi => proj1 (IH i Hi))) as [F E]. split; [|exact E]. split; [exact F|].
    pose proof (dlt_pos G A HG HA H1 X X0 H2) as DP. fold D2 in DP.
    eapply Rle_trans; [|apply (lev_covers G A HG HA H1 X X0 H2)].
    apply (gain_fir _ _ _ Hgain (re w)); [fold D2; lra|]. intros i Hi. fold D2.
    assert (Q : Rabs (fir 1 a1 a2 (re w) i - re x i) <= D2) by (destruct (Nat.eq_dec i n) as [->|]; [exact E|apply IH; lia]).
    destruct (HX i) as [_ Q']. fold (re x i) in Q'. revert Q Q'. unfold Rabs; repeat destruct (Rcase_abs _); lra.
  Qed.
  Let BM2 : B * M2 <= big / 2.
  Proof.
    unfold M2, lev. pose proof g_pos. pose proof pow_ratio. pose proof p900.
    assert (0 <= G * B) by (apply Rmult_le_pos; lra).
    replace (B * (2 * G * (X + g_abs))) with (2 * (G * B * (X + g_abs))) by ring.
    assert (G * B * (X + g_abs) <= G * B * (X + 1)) by (apply Rmult_le_compat_l; lra).
    assert (1 * 2 ^ 900 <= 2 ^ 46 * 2 ^ 900). { apply Rmult_le_compat_r; [lra|]. simpl. lra. } lra.
  Qed.
  Lemma df2_out n : is_finite (y2 n) = true /\ Rabs (re y2 n - fir b0 b1 b2 (re w) n) <= g_rel * (B * M2) + g_abs.
  Proof.
    pose proof (lev_pos G A HG HA H1 X X0 H2) as ML. fold M2 in ML. destruct (df2_w n) as ((F0 & Q0) & _).
    destruct (fdel_ok M2 w n ltac:(lra) (fun i _ => proj1 (df2_w i))) as ((F3 & Q3) & (F4 & Q4)). destruct Hfin as (_ & _ & Cb0 & Cb1 & Cb2).
    pose proof (cdot3 (y n) (m_b0 b) (w n) (m_b1 b) (fdel w n) (m_b2 b) (fdel (fdel w) n) _ _ _ Cb0 Cb1 Cb2 F0 F3 F4 (mul_ok _ _ _ Q0) (mul_ok _ _ _ Q3) (mul_ok _ _ _ Q4)) as P.
    fold b0 b1 b2 in P. replace (Rabs b0 * M2 + Rabs b1 * M2 + Rabs b2 * M2) with (B * M2) in P by (unfold B; ring).
    specialize (P BM2 (proj2 (w_cev n))). destruct P as (PF & PE & _). split; [exact PF|].
    rewrite (re_fdel w), (re_fdel2 w) in PE. unfold fir. fold (re w n) (re y2 n) in PE. eapply Rle_trans; [exact PE|].
    assert (0 <= B * M2) by (apply Rmult_le_pos; lra). pose proof g_abs_tiny. pose proof tiny_pos. rewrite g_rel_uu. unfold uu. lra.
  Qed.
  Lemma df2_near n : Rabs (fir b0 b1 b2 (re w) n - z n) <= G * (B * D2) /\ Rabs (fir b0 b1 b2 (re w) n) <= B * M2.
  Proof.
    pose proof (dlt_pos G A HG HA H1 X X0 H2) as DP. fold D2 in DP. pose proof (lev_pos G A HG HA H1 X X0 H2) as ML. fold M2 in ML. split.
    - apply (near (fun k => fir b0 b1 b2 (re w) k) (B * D2) n); [apply Rmult_le_pos; lra|]. intros i Hi.
      change (fun k => fir b0 b1 b2 (re w) k) with (fir b0 b1 b2 (re w)). rewrite fir_comm, <- fir_sub.
      apply fir_bd; [lra|]. intros j _. apply df2_w.
    - apply fir_bd; [lra|]. intros i _. apply df2_w.
  Qed.

  End DF2.
  (** ** Transposed Direct Form II *)
  Section TDF2.
  Hypothesis H0 : ss 0%nat = st_init TDF2.
  Notation y3 := y.
  Let pf1 (s : st (F64 m)) : f64 := match s with S3 _ s1 _ _ => s1 | _ => f0 end.
  Let pf2 (s : st (F64 m)) : f64 := match s with S3 _ _ _ s2 => s2 | _ => f0 end.
  Let p : nat -> f64 := fun n => pf1 (ss n).
  Let q : nat -> f64 := fun n => pf2 (ss n).
  Lemma st3 n : exists u v, ss n = S3 u (p n : T (F64 m)) v (q n : T (F64 m)).
  Proof.
    assert (Q : exists u1 u2 u3 u4, ss n = S3 u1 u2 u3 u4).
    { induction n as [|n (u1 & u2 & u3 & u4 & IH)]; [rewrite H0; repeat eexists|]. pose proof (Hrun n) as R. rewrite IH in R. apply c_inv3 in R as (s1' & s2' & R & _). rewrite R. repeat eexists. }
    unfold p, q. destruct Q as (u1 & u2 & u3 & u4 & ->). repeat eexists.
  Qed.
  Lemma p_cev n : cev (EA (EV (p n)) (EM (m_b0 b : f64) (x n))) (y n) /\
    cev (ES (EA (EV (q n)) (EM (m_b1 b : f64) (x n))) (EM (m_a1 b : f64) (y n))) (p (S n)) /\
    cev (ES (EM (m_b2 b : f64) (x n)) (EM (m_a2 b : f64) (y n))) (q (S n)).
  Proof.
    pose proof (Hrun n) as R. destruct (st3 n) as (u & v & E). rewrite E in R. apply c_inv3 in R as (s1' & s2' & R & C1 & C2 & C3).
    assert (Ep : p (S n) = s1') by (unfold p; rewrite R; reflexivity).
    assert (Eq : q (S n) = s2') by (unfold q; rewrite R; reflexivity).
    rewrite Ep, Eq. auto.
  Qed.
  Let Q := B * X + A * M1.
  Let e := 8 * uu * (2 * Q + 64 * tiny) + 16 * tiny.
  (** the two states and their errors after sample n *)
  Let qok n := is_finite (q n) = true /\ Rabs (B2R (q n)) <= Rabs b2 * X + Rabs a2 * M1 + e.
  Let pok n := is_finite (p n) = true /\ Rabs (B2R (p n)) <= (Rabs b1 + Rabs b2) * X + A * M1 + 2 * e.
  Let Q0 : 0 <= Q. Proof. unfold Q. pose proof (A_lev_pos G A HG HA H1 (B * X) BX0 BX) as AL. fold M1 in AL. lra. Qed.
  Let Qb : Q <= big / 2. Proof. apply (lev_fits G A HG HA H1 (B * X) BX0 BX). Qed.
  Let Qsmall : Q <= big / 4.
  Proof.
    unfold Q, M1. pose proof (A_lev G A HG HA H1 (B * X) BX0 BX). pose proof g_pos. pose proof p900. pose proof pow_ratio.
    assert (2 ^ 45 * (B * X + g_abs) <= 2 ^ 45 * (2 * 2 ^ 900)) by (apply Rmult_le_compat_l; [apply pow_le; lra|lra]).
    replace (2 ^ 46) with (2 * 2 ^ 45) in * by (simpl; ring). assert (1024 * 2 ^ 900 <= 2 ^ 45 * 2 ^ 900). { apply Rmult_le_compat_r; [lra|]. simpl. lra. } nra.
  Qed.
  Let e_small : 0 <= e <= Q / 1024 + 32 * tiny.
  Proof. unfold e. pose proof tiny_pos. unfold uu. lra. Qed.
  Let parts : 0 <= Rabs b0 * X /\ 0 <= Rabs b1 * X /\ 0 <= Rabs b2 * X /\ 0 <= Rabs a1 * M1 /\ 0 <= Rabs a2 * M1 /\
    Q = Rabs b0 * X + Rabs b1 * X + Rabs b2 * X + Rabs a1 * M1 + Rabs a2 * M1.
  Proof.
    pose proof (lev_pos G A HG HA H1 (B * X) BX0 BX) as ML. fold M1 in ML.
    repeat split; try (apply Rmult_le_pos; [apply Rabs_pos|lra]). unfold Q, A, B. ring.
  Qed.
  Lemma tdf_out n : pok n -> is_finite (y3 n) = true /\ Rabs (re y3 n - (B2R (p n) + b0 * re x n)) <= e.
  Proof.
    intros (Fp & Ep). destruct (xk n) as ((F0 & X1) & _). destruct Hfin as (_ & _ & Cb0 & _). destruct parts as (P0 & P1 & P2 & P3 & P4 & PQ). nums.
    pose proof (cdots (y n) (p n) (m_b0 b) (x n) _ _ Fp Cb0 F0 Ep (mul_ok _ _ _ X1)) as P. fold b0 in P.
    destruct P as (PF & PE & _). { replace ((Rabs b1 + Rabs b2) * X) with (Rabs b1 * X + Rabs b2 * X) by ring. replace (A * M1) with (Rabs a1 * M1 + Rabs a2 * M1) by (unfold A; ring). lra. } { exact (proj1 (p_cev n)). }
    split; [exact PF|]. eapply Rle_trans; [exact PE|].
    replace ((Rabs b1 + Rabs b2) * X) with (Rabs b1 * X + Rabs b2 * X) by ring. replace (A * M1) with (Rabs a1 * M1 + Rabs a2 * M1) by (unfold A; ring).
    assert (S : Rabs b1 * X + Rabs b2 * X + (Rabs a1 * M1 + Rabs a2 * M1) + 2 * e + Rabs b0 * X <= 2 * Q + 64 * tiny) by lra.
    revert S. unfold e at 3. unfold uu. lra.
  Qed.
  Lemma tdf_next n : okf M1 (y3 n) -> qok n ->
    qok (S n) /\ pok (S n) /\ Rabs (B2R (q (S n)) - (b2 * re x n - a2 * re y3 n)) <= e /\
    Rabs (B2R (p (S n)) - (B2R (q n) + b1 * re x n - a1 * re y3 n)) <= e.
  Proof.
    intros (Fy & Ey) (Fq & Eq). destruct (xk n) as ((F0 & X1) & _). destruct Hfin as (Ca1 & Ca2 & _ & Cb1 & Cb2). destruct parts as (P0 & P1 & P2 & P3 & P4 & PQ). nums.
    pose proof (cdotxy (q (S n)) (m_b2 b) (x n) (m_a2 b) (y3 n) _ _ Cb2 F0 Ca2 Fy (mul_ok _ _ _ X1) (mul_ok _ _ _ Ey)) as P.
    pose proof (cdotsy (p (S n)) (q n) (m_b1 b) (x n) (m_a1 b) (y3 n) _ _ _ Fq Cb1 F0 Ca1 Fy Eq (mul_ok _ _ _ X1) (mul_ok _ _ _ Ey)) as R.
    fold a2 b2 in P. fold a1 b1 in R. destruct P as (PF & PE & PB); [lra|exact (proj2 (proj2 (p_cev n)))|]. destruct R as (RF & RE & RB); [lra|exact (proj1 (proj2 (p_cev n)))|].
    fold (re x n) (re y3 n) in PE, RE.
    assert (E1 : Rabs (B2R (q (S n)) - (b2 * re x n - a2 * re y3 n)) <= e).
    { eapply Rle_trans; [exact PE|]. unfold e, uu. lra. }
    assert (E2 : Rabs (B2R (p (S n)) - (B2R (q n) + b1 * re x n - a1 * re y3 n)) <= e).
    { eapply Rle_trans; [exact RE|]. assert (S : Rabs b2 * X + Rabs a2 * M1 + e + Rabs b1 * X + Rabs a1 * M1 <= 2 * Q + 64 * tiny) by lra. revert S. unfold e at 3. unfold uu. lra. }
    repeat split; auto.
    - pose proof (Rabs_triang_inv (B2R (q (S n))) (b2 * re x n - a2 * re y3 n)). fold (re x n) (re y3 n) in PB. lra.
    - replace ((Rabs b1 + Rabs b2) * X) with (Rabs b1 * X + Rabs b2 * X) by ring. replace (A * M1) with (Rabs a1 * M1 + Rabs a2 * M1) by (unfold A; ring).
      fold (re x n) (re y3 n) in RB. pose proof (Rabs_triang_inv (B2R (p (S n))) (B2R (q n) + b1 * re x n - a1 * re y3 n)). lra.
  Qed.
  Lemma tdf_pert n : (forall i, (i <= n)%nat -> qok i /\ pok i) -> (forall i, (i < n)%nat -> okf M1 (y3 i)) ->
    Rabs (fir 1 a1 a2 (re y3) n - fir b0 b1 b2 (re x) n) <= D1.
  Proof.
    intros HS HY. assert (S3e : 3 * e <= D1).
    { unfold D1, dlt. fold M1. fold Q. unfold e. rewrite g_rel_uu, <- g_abs_tiny. pose proof tiny_pos. unfold uu. lra. }
    destruct (tdf_out n (proj2 (HS n ltac:(lia)))) as [_ O].
    destruct n as [|n].
    - unfold fir. cbn [del]. replace (B2R (p 0)) with 0 in O by (unfold p; rewrite H0; reflexivity). pose proof (proj1 e_small) as EP. revert O S3e EP.
      unfold Rabs; repeat destruct (Rcase_abs _); lra.
    - destruct (tdf_next n (HY n ltac:(lia)) (proj1 (HS n ltac:(lia)))) as (_ & _ & _ & E1).
      destruct n as [|n].
      + unfold fir. cbn [del]. replace (B2R (q 0)) with 0 in E1 by (unfold q; rewrite H0; reflexivity). revert O E1 S3e.
        unfold Rabs; repeat destruct (Rcase_abs _); lra.
      + destruct (tdf_next n (HY n ltac:(lia)) (proj1 (HS n ltac:(lia)))) as (_ & _ & E2 & _).
        unfold fir. cbn [del]. revert O E1 E2 S3e. unfold Rabs; repeat destruct (Rcase_abs _); lra.
  Qed.
  Lemma tdf_all : forall n, (qok n /\ pok n) /\ okf M1 (y3 n) /\ Rabs (fir 1 a1 a2 (re y3) n - fir b0 b1 b2 (re x) n) <= D1.
  Proof.
    apply strong. intros n IH. destruct parts as (P0 & P1 & P2 & P3 & P4 & PQ). nums.
    assert (SO : qok n /\ pok n).
    { destruct n as [|n].
      - assert (0 <= A * M1) by (replace (A * M1) with (Rabs a1 * M1 + Rabs a2 * M1) by (unfold A; ring); lra).
        split; split; unfold q, p; rewrite H0; try reflexivity; cbn; rewrite Rabs_R0; lra.
      - destruct (IH n ltac:(lia)) as ((Hq & _) & Hy & _). destruct (tdf_next n Hy Hq) as (A1 & A2 & _). split; assumption. }
    assert (E : Rabs (fir 1 a1 a2 (re y3) n - fir b0 b1 b2 (re x) n) <= D1).
    { apply tdf_pert.
      - intros i Hi. destruct (Nat.eq_dec i n) as [->|]; [exact SO|apply IH; lia].
      - intros i Hi. apply IH, Hi. }
    split; [exact SO|]. split; [|exact E]. split; [apply (tdf_out n (proj2 SO))|].
    pose proof (dlt_pos G A HG HA H1 (B * X) BX0 BX) as DP. fold D1 in DP.
    destruct (near (re y3) D1 n ltac:(lra)) as [N _].
    { intros i Hi. destruct (Nat.eq_dec i n) as [->|]; [exact E|apply IH; lia]. }
    eapply Rle_trans; [exact N|]. apply (lev_covers G A HG HA H1 (B * X) BX0 BX).
  Qed.

  End TDF2.
  (** ** all three *)
  Let ob := 4 * G * (B * X + (1 + B) * g_abs).
  Let oe := 3 * G * (g_rel * (1 + 2 * A * G) * (B * X + (1 + B) * g_abs) + (1 + B) * g_abs).
  Let M1_ob : M1 <= ob.
  Proof. unfold M1, lev, ob. pose proof g_pos. assert (0 <= B * g_abs) by nra. nra. Qed.
  Let D1_oe : G * D1 <= oe.
  Proof.
    unfold D1, dlt, lev, oe. pose proof g_pos. assert (0 < g_rel) by (rewrite g_rel_uu; unfold uu; lra).
    set (L := B * X + (1 + B) * g_abs). assert (L1 : B * X + g_abs <= L) by (unfold L; nra).
    assert (0 <= A * G) by nra.
    assert (S1 : g_rel * (B * X + A * (2 * G * (B * X + g_abs))) <= g_rel * (1 + 2 * A * G) * L).
    { rewrite (Rmult_assoc g_rel (1 + 2 * A * G) L). apply Rmult_le_compat_l; [lra|]. nra. }
    assert (0 <= g_rel * (1 + 2 * A * G) * L) by (apply Rmult_le_pos; [apply Rmult_le_pos; nra|lra]).
    assert (g_abs <= (1 + B) * g_abs) by nra. nra.
  Qed.
  Lemma cstage_all t n : ss 0%nat = st_init t -> okf ob (y n) /\ Rabs (re y n - z n) <= oe.
  Proof.
    intros H0.
    pose proof (dlt_pos G A HG HA H1 (B * X) BX0 BX) as DP. fold D1 in DP. destruct t.
    - destruct (df1_all H0 n) as ((F & Q') & _). split; [split; [exact F|lra]|].
      destruct (near (re y) D1 n ltac:(lra) (fun i _ => proj2 (df1_all H0 i))) as [_ E]. lra.
    - destruct (df2_out H0 n) as (F & O). destruct (df2_near H0 n) as (N1 & N2). pose proof g_pos.
      assert (0 < g_rel) by (rewrite g_rel_uu; unfold uu; lra). assert (0 <= A * G) by nra.
      assert (BM : B * M2 = 2 * G * (B * X + B * g_abs)) by (unfold M2, lev; ring).
      set (L := B * X + (1 + B) * g_abs). assert (L1 : B * X + B * g_abs <= L) by (unfold L; nra). assert (0 <= B * g_abs) by nra.
      assert (BM0 : 0 <= B * M2) by (rewrite BM; apply Rmult_le_pos; lra).
      split; [split; [exact F|]|].
      + assert (g_rel * (B * M2) <= B * M2) by (rewrite g_rel_uu; unfold uu; lra).
        assert (Rabs (B2R (y n)) <= 2 * (B * M2) + g_abs). { fold (re y n). revert O N2. unfold Rabs; repeat destruct (Rcase_abs _); lra. }
        unfold ob. rewrite BM in *. nra.
      + assert (TR : Rabs (re y n - z n) <= G * (B * D2) + (g_rel * (B * M2) + g_abs)). { revert O N1. unfold Rabs; repeat destruct (Rcase_abs _); lra. }
        eapply Rle_trans; [exact TR|]. rewrite BM. unfold D2, dlt, lev, oe. fold L.
        assert (S1 : B * (g_rel * (X + A * (2 * G * (X + g_abs))) + g_abs) <= g_rel * (1 + 2 * A * G) * L + B * g_abs).
        { replace (B * (g_rel * (X + A * (2 * G * (X + g_abs))) + g_abs)) with (g_rel * (B * X + 2 * A * G * (B * X + B * g_abs)) + B * g_abs) by ring.
          apply Rplus_le_compat_r. rewrite (Rmult_assoc g_rel (1 + 2 * A * G) L). apply Rmult_le_compat_l; [lra|]. nra. }
        assert (S2 : g_rel * (2 * G * (B * X + B * g_abs)) <= 2 * G * (g_rel * (1 + 2 * A * G) * L)).
        { replace (g_rel * (2 * G * (B * X + B * g_abs))) with (2 * G * (g_rel * (B * X + B * g_abs))) by ring. apply Rmult_le_compat_l; [lra|].
          rewrite (Rmult_assoc g_rel (1 + 2 * A * G) L). apply Rmult_le_compat_l; [lra|]. assert (0 <= L) by (unfold L; nra). nra. }
        assert (G * (B * (g_rel * (X + A * (2 * G * (X + g_abs))) + g_abs)) <= G * (g_rel * (1 + 2 * A * G) * L + B * g_abs)) by (apply Rmult_le_compat_l; lra).
        assert (g_abs <= G * g_abs) by nra. assert (0 <= G * (B * g_abs)) by nra. nra.
    - destruct (tdf_all H0 n) as (_ & (F & Q') & _). split; [split; [exact F|lra]|].
      destruct (near (re y) D1 n ltac:(lra) (fun i _ => proj2 (proj2 (tdf_all H0 i)))) as [_ E]. lra.
  Qed.
End Stage.
