(** Proofs: second order sections over the reals as linear difference equations. *)
From Coq Require Import ZArith List Bool Reals Lra Lia Permutation FunctionalExtensionality.
From Verif Require Import Num Outcome Types Biquad State Cascade Exact RealNum Stream.
Import ListNotations.
Local Open Scope R_scope.

Notation sig := (nat -> R).
Definition del (x : sig) : sig := fun n => match n with O => 0 | S m => x m end.
Definition fir (p0 p1 p2 : R) (x : sig) : sig := fun n => p0 * x n + p1 * del x n + p2 * del (del x) n.
Definition sadd (x y : sig) : sig := fun n => x n + y n.
Definition sscale (c : R) (x : sig) : sig := fun n => c * x n.

(** ** generic step functions driven by a sequence *)
Section Seq.
  Context {St A B : Type} (stp : St -> A -> St * B).
  Fixpoint sst (s : St) (x : nat -> A) (n : nat) : St :=
    match n with O => s | S m => fst (stp (sst s x m) (x m)) end.
  Definition sout (s : St) (x : nat -> A) (n : nat) : B := snd (stp (sst s x n) (x n)).

  Lemma sst_shift s x n : sst (fst (stp s (x O))) (fun k => x (S k)) n = sst s x (S n).
  Proof. induction n as [|n IH]; simpl; auto. rewrite IH. reflexivity. Qed.
  Lemma grun_seq n : forall s x k, 
    grun stp (sst s x k) (map x (seq k n)) = (sst s x (k + n), map (sout s x) (seq k n)).
  Proof.
    induction n as [|n IH]; intros s x k; simpl.
    - rewrite Nat.add_0_r. reflexivity.
    - destruct (stp (sst s x k) (x k)) as [s' y] eqn:E.
      specialize (IH s x (S k)). simpl in IH. rewrite E in IH. simpl in IH. rewrite IH.
      rewrite Nat.add_succ_r. unfold sout at 2. rewrite E. reflexivity.
  Qed.
  Lemma grun_prefix n s x : snd (grun stp s (map x (seq 0 n))) = map (sout s x) (seq 0 n).
  Proof. change s with (sst s x 0) at 1. rewrite grun_seq. reflexivity. Qed.
End Seq.

(** a list as a sequence *)
Definition seqof (l : list R) : sig := fun n => nth n l 0.
Lemma map_nth_seq (l : list R) : map (seqof l) (seq 0 (length l)) = l.
Proof.
  unfold seqof. induction l as [|a l IH]; simpl; auto. f_equal.
  rewrite <- seq_shift, map_map. exact IH.
Qed.

(** ** one section *)
Definition bout (b : biquad RN) (s : st RN) (x : sig) : sig := sout (fun s x => st_filter s b x) s x.
Lemma bq_run_prefix b s x n : snd (bq_run b s (map x (seq 0 n))) = map (bout b s x) (seq 0 n).
Proof. rewrite bq_run_grun. apply grun_prefix. Qed.

Definition den (b : biquad RN) : sig -> sig := fir 1 (m_a1 b) (m_a2 b).
Definition numr (b : biquad RN) : sig -> sig := fir (m_b0 b) (m_b1 b) (m_b2 b).

Ltac cases4 n := destruct n as [|[|[|[|n]]]].

(** the equation every topology satisfies from every state: the state acts like an extra input
    during the first four samples *)
Section Topo.
  Variables (b : biquad RN) (x : sig).
  Notation stp := (fun s x => st_filter s b x).
  Let a1 := m_a1 b. Let a2 := m_a2 b. Let b0 := m_b0 b. Let b1 := m_b1 b. Let b2 := m_b2 b.

  Definition h1 (z : R) (y : sig) : sig := fun n => match n with O => z | S m => y m end.

  Lemma df1_state x1 x2 y1 y2 n : let y := bout b (@S1 RN x1 x2 y1 y2) x in
    sst stp (@S1 RN x1 x2 y1 y2) x n =
    @S1 RN (h1 x1 x n) (h1 x2 (h1 x1 x) n) (h1 y1 y n) (h1 y2 (h1 y1 y) n).
  Proof.
    intros y. induction n as [|n IH]; [reflexivity|].
    assert (Y : y n = snd (st_filter (sst stp (@S1 RN x1 x2 y1 y2) x n) b (x n))) by reflexivity.
    cbn [sst]. rewrite IH in Y |- *. simpl in *. rewrite Y. reflexivity.
  Qed.
  Lemma df1_eq x1 x2 y1 y2 n : let y := bout b (@S1 RN x1 x2 y1 y2) x in
    y n = b0 * x n + b1 * h1 x1 x n + b2 * h1 x2 (h1 x1 x) n - a1 * h1 y1 y n - a2 * h1 y2 (h1 y1 y) n.
  Proof.
    intros y. unfold y at 1, bout, sout. rewrite df1_state. simpl. reflexivity.
  Qed.

  Definition df2_v (v1 v2 : R) : sig := fun n =>
    match sst stp (@S2 RN v1 v2) x (S n) with S2 v _ => v | _ => 0 end.
  Lemma df2_state v1 v2 n :
    sst stp (@S2 RN v1 v2) x n =
    @S2 RN (h1 v1 (df2_v v1 v2) n) (h1 v2 (h1 v1 (df2_v v1 v2)) n).
  Proof.
    assert (G : forall n, exists u w, sst stp (@S2 RN v1 v2) x n = @S2 RN u w).
    { induction n0 as [|n0 [u [w IH]]]; [simpl; eauto|]. cbn [sst]. rewrite IH. simpl. eauto. }
    induction n as [|n IH]; [reflexivity|].
    destruct (G (S n)) as [u [w E]].
    simpl h1. unfold df2_v at 1. rewrite E. f_equal.
    cbn [sst] in E. rewrite IH in E. simpl in E. inversion E. reflexivity.
  Qed.
  Lemma df2_veq v1 v2 n : let v := df2_v v1 v2 in
    v n = x n - a1 * h1 v1 v n - a2 * h1 v2 (h1 v1 v) n.
  Proof.
    intros v. unfold v at 1, df2_v. cbn [sst]. rewrite df2_state. reflexivity.
  Qed.
  Lemma df2_yeq v1 v2 n : let v := df2_v v1 v2 in
    bout b (@S2 RN v1 v2) x n = b0 * v n + b1 * h1 v1 v n + b2 * h1 v2 (h1 v1 v) n.
  Proof.
    intros v. pose proof (df2_veq v1 v2 n) as V. cbv zeta in V. fold v in V. rewrite V. unfold bout, sout. rewrite df2_state. reflexivity.
  Qed.

  Lemma tdf2_state r1 s1 r2 s2 n : let y := bout b (@S3 RN r1 s1 r2 s2) x in
    exists q1 q2, sst stp (@S3 RN r1 s1 r2 s2) x n =
    @S3 RN q1 (match n with O => s1 | S O => s2 + b1 * x O - a1 * y O
               | S (S m as k) => b2 * x m - a2 * y m + b1 * x k - a1 * y k end)
          q2 (match n with O => s2 | S m => b2 * x m - a2 * y m end).
  Proof.
    intros y. induction n as [|n [q1 [q2 IH]]]; [simpl; eauto|].
    assert (Y : y n = snd (st_filter (sst stp (@S3 RN r1 s1 r2 s2) x n) b (x n))) by reflexivity.
    rewrite IH in Y. simpl in Y.
    cbn [sst]. rewrite IH. simpl. do 2 eexists. f_equal.
    - destruct n as [|n]; simpl in *; rewrite Y; reflexivity.
    - simpl in *. rewrite Y. reflexivity.
  Qed.
  Lemma tdf2_yeq r1 s1 r2 s2 n : let y := bout b (@S3 RN r1 s1 r2 s2) x in
    y n = (match n with O => s1 | S O => s2 + b1 * x O - a1 * y O
               | S (S m as k) => b2 * x m - a2 * y m + b1 * x k - a1 * y k end) + b0 * x n.
  Proof.
    intros y. unfold y at 1, bout, sout. destruct (tdf2_state r1 s1 r2 s2 n) as [q1 [q2 E]].
    rewrite E. simpl. reflexivity.
  Qed.
End Topo.

(** what the state adds to the input: two samples *)
Definition imp2 (e : R * R) : sig := fun n => match n with O => fst e | S O => snd e | _ => 0 end.
Definition kick (b : biquad RN) (s : st RN) : R * R :=
  let '(MkBiquad _ a1 a2 b0 b1 b2) := b in
  match s with
  | S1 x1 x2 y1 y2 => (b1 * x1 + b2 * x2 - a1 * y1 - a2 * y2, b2 * x1 - a2 * y1)
  | S2 v1 v2 => (b0 * (- a1 * v1 - a2 * v2) + b1 * v1 + b2 * v2, - a2 * b0 * v1 - a2 * b1 * v2 + b2 * v1 + a1 * b2 * v2)
  | S3 _ s1 _ s2 => (s1, s2)
  end.

Lemma bout_eq b s x n : den b (bout b s x) n = numr b x n + imp2 (kick b s) n.
Proof.
  destruct s as [x1 x2 y1 y2|v1 v2|r1 s1 r2 s2].
  - unfold den, numr, fir.
    pose proof (df1_eq b x x1 x2 y1 y2 n) as E. destruct b. simpl in E.
    destruct n as [|[|n]]; simpl in *; rewrite E; ring.
  - set (v := df2_v b x v1 v2).
    assert (V : forall n, v n = x n - m_a1 b * h1 v1 v n - m_a2 b * h1 v2 (h1 v1 v) n)
      by (apply (df2_veq b x v1 v2)).
    assert (Y : forall n, bout b (@S2 RN v1 v2) x n =
      m_b0 b * v n + m_b1 b * h1 v1 v n + m_b2 b * h1 v2 (h1 v1 v) n) by (apply (df2_yeq b x v1 v2)).
    clearbody v. unfold den, numr, fir. destruct b as [a0 a1 a2 b0 b1 b2].
    destruct n as [|[|n]]; simpl in *; rewrite !Y; simpl.
    + pose proof (V O) as V0. simpl in V0. rewrite V0. ring.
    + pose proof (V O) as V0. pose proof (V 1%nat) as V1. simpl in *. rewrite V1, V0. ring.
    + pose proof (V (S (S n))) as V2. pose proof (V (S n)) as V1. pose proof (V n) as V0. simpl in *.
      rewrite V2, V1, V0. destruct n as [|n]; simpl; ring.
  - unfold den, numr, fir.
    pose proof (tdf2_yeq b x r1 s1 r2 s2 n) as E. destruct b. simpl in E.
    destruct n as [|[|n]]; simpl in *; rewrite E; ring.
Qed.
Lemma kick_init b t n : imp2 (kick b (st_init t)) n = 0.
Proof. destruct b, t, n as [|[|n]]; simpl; ring. Qed.

(** ** algebra of signals *)
Lemma sig_eq (x y : sig) : (forall n, x n = y n) -> x = y.
Proof. intros H. apply functional_extensionality. exact H. Qed.

Lemma fir_comm p0 p1 p2 q0 q1 q2 x n :
  fir p0 p1 p2 (fir q0 q1 q2 x) n = fir q0 q1 q2 (fir p0 p1 p2 x) n.
Proof. unfold fir. destruct n as [|[|[|[|n]]]]; simpl; ring. Qed.
Lemma fir_lin p0 p1 p2 al be x y n :
  fir p0 p1 p2 (fun k => al * x k + be * y k) n = al * fir p0 p1 p2 x n + be * fir p0 p1 p2 y n.
Proof. unfold fir. destruct n as [|[|n]]; simpl; ring. Qed.
Lemma fir_del p0 p1 p2 x n : fir p0 p1 p2 (del x) n = del (fir p0 p1 p2 x) n.
Proof. unfold fir. destruct n as [|[|n]]; simpl; ring. Qed.
Lemma fir_ext p0 p1 p2 x y : (forall n, x n = y n) -> forall n, fir p0 p1 p2 x n = fir p0 p1 p2 y n.
Proof. intros H n. apply sig_eq in H. subst. reflexivity. Qed.

(** a monic denominator has at most one solution *)
Lemma den_inj a1 a2 (y z : sig) :
  (forall n, fir 1 a1 a2 y n = fir 1 a1 a2 z n) -> forall n, y n = z n.
Proof.
  intros H. assert (G : forall n, y n = z n /\ y (S n) = z (S n)).
  { induction n as [|n [I1 I2]].
    - pose proof (H O) as H0. pose proof (H 1%nat) as H1. unfold fir in *. simpl in *.
      assert (y O = z O) by lra. split; auto. rewrite H2 in H1. lra.
    - split; auto. pose proof (H (S (S n))) as H2. unfold fir in *. simpl in *.
      rewrite I1, I2 in H2. lra. }
  intros n. apply G.
Qed.

(** the zero-state response *)
Definition flt (b : biquad RN) (x : sig) : sig := bout b (st_init DF1) x.
Lemma flt_eq b x n : den b (flt b x) n = numr b x n.
Proof.
  unfold flt. rewrite bout_eq, kick_init. ring.
Qed.
Lemma flt_unique b x y : (forall n, den b y n = numr b x n) -> forall n, y n = flt b x n.
Proof.
  intros H. apply (den_inj (m_a1 b) (m_a2 b)). intros n.
  fold (den b). rewrite H, flt_eq. reflexivity.
Qed.
Lemma bout_init b t x n : bout b (st_init t) x n = flt b x n.
Proof.
  apply flt_unique. intros k. rewrite bout_eq, kick_init. ring.
Qed.

Lemma flt_lin b al be x y n :
  flt b (fun k => al * x k + be * y k) n = al * flt b x n + be * flt b y n.
Proof.
  symmetry. apply (flt_unique b (fun k => al * x k + be * y k) (fun k => al * flt b x k + be * flt b y k)).
  intros k. unfold den, numr. rewrite !fir_lin. fold (den b) (numr b).
  rewrite !flt_eq. reflexivity.
Qed.
Lemma flt_del b x n : flt b (del x) n = del (flt b x) n.
Proof.
  symmetry. apply (flt_unique b (del x) (del (flt b x))). intros k. unfold den, numr.
  rewrite !fir_del. destruct k; simpl; auto. apply flt_eq.
Qed.
Lemma den_den b c x n : den b (den c x) n = den c (den b x) n.
Proof. apply fir_comm. Qed.
Lemma den_num b c x n : den b (numr c x) n = numr c (den b x) n.
Proof. apply fir_comm. Qed.
Lemma num_num b c x n : numr b (numr c x) n = numr c (numr b x) n.
Proof. apply fir_comm. Qed.
Lemma den_ext b x y : (forall n, x n = y n) -> forall n, den b x n = den b y n.
Proof. intros H n. apply fir_ext. exact H. Qed.
Lemma num_ext b x y : (forall n, x n = y n) -> forall n, numr b x n = numr b y n.
Proof. intros H n. apply fir_ext. exact H. Qed.
Lemma flt_comm b c x n : flt b (flt c x) n = flt c (flt b x) n.
Proof.
  symmetry. apply (flt_unique b (flt c x) (flt c (flt b x))).
  apply (den_inj (m_a1 c) (m_a2 c)). intros k.
  change (den c (den b (flt c (flt b x))) k = den c (numr b (flt c x)) k).
  rewrite den_den. rewrite (den_ext b _ _ (flt_eq c (flt b x))).
  rewrite den_num. rewrite (num_ext c _ _ (flt_eq b x)).
  rewrite num_num. rewrite den_num. apply num_ext. intros j. symmetry. apply flt_eq.
Qed.

(** ** cascades *)
Definition couts (bss : list (biquad RN * st RN)) (x : sig) : sig :=
  fold_left (fun x bs => bout (fst bs) (snd bs) x) bss x.
Lemma cs_run_prefix bss x n :
  snd (cs_run (MkCStages (map fst bss) (map snd bss)) (map x (seq 0 n))) = map (couts bss x) (seq 0 n).
Proof.
  revert x. induction bss as [|[b s] bss IH]; intros x; simpl.
  - rewrite cs_run_nil. reflexivity.
  - rewrite cs_run_cons by (rewrite !map_length; reflexivity). simpl.
    rewrite bq_run_prefix. apply IH.
Qed.

Definition flts (bs : list (biquad RN)) (x : sig) : sig := fold_left (fun x b => flt b x) bs x.
Lemma couts_init t bs x : couts (map (fun b => (b, st_init t)) bs) x = flts bs x.
Proof.
  revert x. induction bs as [|b bs IH]; intros x; simpl; auto.
  rewrite IH. f_equal. apply sig_eq. intros n. apply bout_init.
Qed.

Lemma flts_lin bs al be : forall x y,
  flts bs (fun k => al * x k + be * y k) = (fun n => al * flts bs x n + be * flts bs y n).
Proof.
  induction bs as [|b bs IH]; intros x y; simpl; auto.
  rewrite <- IH. f_equal. apply sig_eq. intros n. apply flt_lin.
Qed.
Lemma flts_del bs : forall x, flts bs (del x) = del (flts bs x).
Proof.
  induction bs as [|b bs IH]; intros x; simpl; auto.
  rewrite <- IH. f_equal. apply sig_eq. intros n. apply flt_del.
Qed.
Lemma flts_perm bs bs' : Permutation bs bs' -> forall x, flts bs x = flts bs' x.
Proof.
  induction 1; intros z; simpl; auto.
  - f_equal. apply sig_eq. intros n. apply flt_comm.
  - rewrite IHPermutation1. apply IHPermutation2.
Qed.
