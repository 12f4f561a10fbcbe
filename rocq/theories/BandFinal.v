(** Proofs about designed band filters, shelves and stability of all designs. *)
From Coq Require Import ZArith List Bool Reals Lra Lia.
From Coquelicot Require Import Coquelicot.
From Verif Require Import Num Outcome Types Biquad State Cascade PoleFilter Exact SigSpec ChebSpec History DesignSpec ProtoProofs ProtoBuild DesignProofs DesignLemmas DesignFinal FiltSig BandSpec BandSetup BandLemmas ShelfSpec ShelfLemmas.
Import ListNotations.
Local Open Scope R_scope.

Lemma cheb_ge1 n x : 1 <= Rabs x -> 1 <= cheb n x ^ 2.
Proof.
  intros H. assert (P : forall y, 1 <= y -> 1 <= cheb n y ^ 2).
  { intros y Hy. assert (A : 1 <= fst (cheb2 n y) <= snd (cheb2 n y)).
    { induction n as [|k IH]; cbn [cheb2 fst snd]; [lra|]. destruct (cheb2 k y) as [a b]. cbn [fst snd] in *. nra. }
    unfold cheb. nra. }
  destruct (Rcase_abs x) as [N|N].
  - rewrite Rabs_left in H by exact N. rewrite <- cheb_opp. apply P. exact H.
  - rewrite Rabs_right in H by exact N. apply P, H.
Qed.
Lemma edge_inv db : Rpower 10 (- db / 10) = / Rpower 10 (db / 10).
Proof. replace (- db / 10) with (- (db / 10)) by field. apply Rpower_Ropp. Qed.
Lemma gain2_edge fam n db w : db_ok fam db -> w = 1 \/ w = -1 -> gain2 fam n db (Some w) = edge_gain fam db.
Proof.
  intros Hd Hw. assert (W2 : w * w = 1) by (destruct Hw as [-> | ->]; ring). assert (W0 : w <> 0) by (destruct Hw; lra).
  assert (CW : cheb n w ^ 2 = 1) by (destruct Hw as [-> | ->]; [|replace (-1) with (- (1)) by ring; rewrite cheb_opp]; rewrite cheb_1; ring).
  assert (CI : cheb n (1 / w) ^ 2 = 1) by (replace (1 / w) with w; [exact CW|field_simplify_eq; [lra|exact W0]]).
  destruct fam; cbn [gain2 edge_gain eps2 db_ok] in *.
  - rewrite pow_mult. replace (w ^ 2) with 1 by (simpl; lra). rewrite pow1. lra.
  - rewrite CW, edge_inv. pose proof (rpower_gt1 (db / 10) ltac:(lra)). field_simplify_eq; lra.
  - destruct (Req_EM_T w 0); [contradiction|]. cbv zeta. rewrite CI, edge_inv. pose proof (rpower_gt1 (db / 10) ltac:(lra)). field. lra.
Qed.
Lemma gain2_peak fam n db : (1 <= n)%nat -> db_ok fam db -> gain2 fam n db (Some 0) = peak_gain fam n db.
Proof.
  intros Hn Hd. destruct fam; cbn [gain2 peak_gain eps2 db_ok] in *.
  - rewrite pow_ne_zero by lia. field.
  - rewrite cheb_0, edge_inv. pose proof (rpower_gt1 (db / 10) ltac:(lra)). destruct (Nat.odd n); field_simplify_eq; lra.
  - destruct (Req_EM_T 0 0); [reflexivity|lra].
Qed.
Lemma gain2_null fam n db : db_ok fam db -> gain2 fam n db None = null_gain fam n db.
Proof.
  intros Hd. destruct fam; cbn [gain2 null_gain eps2 db_ok] in *; try reflexivity. cbv zeta.
  rewrite cheb_0, edge_inv. pose proof (rpower_gt1 (db / 10) ltac:(lra)). destruct (Nat.odd n); field; lra.
Qed.
Lemma frac_le a b t : 0 < a -> a <= b -> 0 < t -> t / b <= t / a.
Proof.
  intros A B T. unfold Rdiv. apply Rmult_le_compat_l; [lra|]. apply Rinv_le_contravar; assumption.
Qed.
Lemma mono_t e u v : 0 < e -> 0 <= u <= v -> e * u / (1 + e * u) <= e * v / (1 + e * v).
Proof.
  intros E [U V]. assert (P : forall t, 0 <= t -> e * t / (1 + e * t) = 1 - 1 / (1 + e * t)) by (intros t Ht; field; nra).
  rewrite !P by lra. pose proof (frac_le (1 + e * u) (1 + e * v) 1 ltac:(nra) ltac:(nra) ltac:(lra)). lra.
Qed.
Lemma t_le1 t : 0 <= t -> (let u := t in u / (1 + u)) <= 1.
Proof.
  intros H. cbv zeta. apply (Rmult_le_reg_r (1 + t)); [lra|]. unfold Rdiv. rewrite Rmult_assoc, Rinv_l by lra. lra.
Qed.
Lemma gain2_pass fam n db w : (1 <= n)%nat -> db_ok fam db -> -1 <= w <= 1 -> edge_gain fam db <= gain2 fam n db (Some w) <= 1.
Proof.
  intros Hn Hd Hw. pose proof (gain2_edge fam n db 1 Hd (or_introl eq_refl)) as GE. rewrite <- GE.
  assert (AW : Rabs w <= 1) by (apply Rabs_le; lra).
  destruct fam; cbn [gain2 eps2 db_ok] in *.
  - rewrite pow1. assert (P : 0 <= w ^ (2 * n) <= 1).
    { rewrite pow_mult. assert (Q : 0 <= w ^ 2 <= 1) by (simpl; nra). split; [apply pow_le, Q|]. rewrite <- (pow1 n). apply pow_incr, Q. }
    split; [apply frac_le; lra|]. replace 1 with (1 / 1) at 3 by field. apply frac_le; lra.
  - pose proof (rpower_gt1 (db / 10) ltac:(lra)). pose proof (cheb_le1 n w AW). pose proof (pow2_ge_0 (cheb n w)). rewrite cheb_1.
    split; [apply frac_le; nra|]. replace 1 with (1 / 1) at 4 by field. apply frac_le; nra.
  - pose proof (rpower_gt1 (db / 10) ltac:(lra)) as R1. assert (E0 : 0 < 1 / (Rpower 10 (db / 10) - 1)) by (apply Rdiv_lt_0_compat; lra).
    destruct (Req_EM_T 1 0); [lra|]. destruct (Req_EM_T w 0) as [Z|Z].
    + split; [|lra]. apply t_le1. replace (1 / 1) with 1 by field. rewrite cheb_1. lra.
    + cbv zeta. replace (1 / 1) with 1 by field. rewrite cheb_1.
      assert (G : 1 <= cheb n (1 / w) ^ 2).
      { apply cheb_ge1. unfold Rdiv. rewrite Rmult_1_l, Rabs_inv. rewrite <- Rinv_1. apply Rinv_le_contravar; [apply Rabs_pos_lt, Z|exact AW]. }
      split; [apply mono_t; [exact E0|lra]|]. apply t_le1. apply Rmult_le_pos; [lra|apply pow2_ge_0].
Qed.
Lemma gain2_nonneg_none fam n db : db_ok fam db -> 0 <= gain2 fam n db None <= edge_gain fam db.
Proof.
  intros Hd. rewrite gain2_null by exact Hd. destruct fam; cbn [null_gain edge_gain db_ok] in *; try lra.
  - split; [lra|]. left. apply exp_pos.
  - destruct (Nat.odd n); split; try lra; left; apply exp_pos.
Qed.
Lemma gain2_stop fam n db w : (1 <= n)%nat -> db_ok fam db -> w <= -1 \/ 1 <= w -> 0 <= gain2 fam n db (Some w) <= edge_gain fam db.
Proof.
  intros Hn Hd Hw. pose proof (gain2_edge fam n db 1 Hd (or_introl eq_refl)) as GE. rewrite <- GE.
  assert (AW : 1 <= Rabs w) by (destruct Hw; [rewrite Rabs_left by lra|rewrite Rabs_right by lra]; lra).
  assert (W0 : w <> 0) by (destruct Hw; lra).
  destruct fam; cbn [gain2 eps2 db_ok] in *.
  - rewrite pow1. assert (P : 1 <= w ^ (2 * n)).
    { rewrite pow_mult. assert (Q : 1 <= w ^ 2) by (simpl; destruct Hw; nra). apply pow_R1_Rle, Q. }
    split; [left; apply Rdiv_lt_0_compat; lra|apply frac_le; lra].
  - pose proof (rpower_gt1 (db / 10) ltac:(lra)). pose proof (cheb_ge1 n w AW). rewrite cheb_1.
    split; [left; apply Rdiv_lt_0_compat; nra|apply frac_le; nra].
  - pose proof (rpower_gt1 (db / 10) ltac:(lra)) as R1. assert (E0 : 0 < 1 / (Rpower 10 (db / 10) - 1)) by (apply Rdiv_lt_0_compat; lra).
    destruct (Req_EM_T 1 0); [lra|]. destruct (Req_EM_T w 0) as [Z|Z]; [contradiction|]. cbv zeta. replace (1 / 1) with 1 by field. rewrite cheb_1.
    pose proof (pow2_ge_0 (cheb n (1 / w))) as C0.
    assert (G : cheb n (1 / w) ^ 2 <= 1).
    { apply cheb_le1. unfold Rdiv. rewrite Rmult_1_l, Rabs_inv. rewrite <- Rinv_1. apply Rinv_le_contravar; lra. }
    split; [|apply mono_t; [exact E0|lra]]. apply Rmult_le_pos; [nra|]. left. apply Rinv_0_lt_compat. nra.
Qed.

Section Maps.
  Variables (w1 w2 : R).
  Hypotheses (H : 0 < w2 < w1) (H' : w1 < PI).
  Let d := (w1 - w2) / 2.
  Let m := (w1 + w2) / 2.
  Lemma bp_W_out w : 0 <= w <= w2 \/ w1 <= w <= PI ->
    bp_W w1 w2 w = None \/ exists r, bp_W w1 w2 w = Some r /\ (r <= -1 \/ 1 <= r).
  Proof.
    intros Hw. destruct (edge_facts w1 w2 H H') as (C0 & S0 & T0 & _). fold d in C0, S0, T0.
    unfold bp_W. cbv zeta. fold d m. destruct (Req_EM_T (sin w) 0) as [Z|Z]; [left; reflexivity|right].
    eexists. split; [reflexivity|].
    assert (SW : 0 < sin w) by (pose proof (sin_ge_0 w ltac:(lra) ltac:(lra)); lra).
    assert (P : 0 < sin d * sin w) by (apply Rmult_lt_0_compat; assumption).
    destruct Hw as [Hw|Hw]; [left|right].
    - assert (L : cos m <= cos (w + d)) by (apply cos_decr_1; unfold d, m in *; lra). rewrite cos_plus in L.
      apply (Rmult_le_reg_r (sin d * sin w)); [exact P|]. unfold Rdiv. rewrite Rmult_assoc, Rinv_l by lra. lra.
    - assert (L : cos (w - d) <= cos m) by (apply cos_decr_1; unfold d, m in *; lra). rewrite cos_minus in L.
      apply (Rmult_le_reg_r (sin d * sin w)); [exact P|]. unfold Rdiv. rewrite Rmult_assoc, Rinv_l by lra. lra.
  Qed.
  Lemma bs_W_in w : w2 <= w <= w1 ->
    bs_W w1 w2 w = None \/ exists r, bs_W w1 w2 w = Some r /\ (r <= -1 \/ 1 <= r).
  Proof.
    intros Hw. destruct (bp_W_in w1 w2 H H' w Hw) as (r & E & B). destruct (edge_facts w1 w2 H H') as (C0 & S0 & T0 & _). fold d in C0, S0, T0.
    assert (SW : 0 < sin w) by (apply sin_gt_0; lra). assert (P : 0 < sin d * sin w) by (apply Rmult_lt_0_compat; assumption).
    unfold bp_W in E. unfold bs_W. cbv zeta in *. fold d m in E |- *. destruct (Req_EM_T (sin w) 0); [lra|]. injection E as E.
    destruct (Req_EM_T (cos d * cos w) (cos m)) as [Z|Z]; [left; reflexivity|right]. eexists. split; [reflexivity|].
    set (x := cos m - cos d * cos w) in *. replace (cos d * cos w - cos m) with (- x) by (unfold x; ring).
    assert (X0 : x <> 0) by (unfold x; lra). set (p := sin d * sin w) in *. assert (X : x = r * p) by (rewrite <- E; field; lra).
    assert (R0 : r <> 0) by (intros ->; apply X0; lra).
    rewrite X. replace (p / - (r * p)) with (- / r) by (field; split; lra).
    destruct (Rlt_dec 0 r).
    - left. assert (1 <= / r) by (rewrite <- Rinv_1; apply Rinv_le_contravar; lra). lra.
    - right. assert (R1 : 1 <= / - r) by (rewrite <- Rinv_1 at 1; apply Rinv_le_contravar; lra). rewrite Rinv_opp in R1. lra.
  Qed.
End Maps.

Section Final.
  Context {strict : bool}.
  Notation XS := (X strict).
  Lemma to_pmdb fam db (q : params XS) : (fam <> Bw -> q_db q = XR db) -> pmdb fam db q.
  Proof. intros H. destruct fam; simpl; [exact I|apply H; discriminate|apply H; discriminate]. Qed.

  Lemma c35_bp fam t n FO req fc fw db (q : params XS) : (1 <= n)%nat -> (Z.of_nat n <= FO)%Z -> in_int (2 * Z.of_nat n) = true ->
    requested FO req n -> q_fc q = XR fc -> q_fw q = XR fw -> in_range BP fc fw -> db_ok fam db -> (fam <> Bw -> q_db q = XR db) ->
    ~ (Nat.odd n = true /\ 1 / tan ((edge_hi fc fw - edge_lo fc fw) / 2) = real_pole fam n db) ->
    exists fl, filt_setupN (N := XS) (fam, BP) FO req q (filt_init t (fam, BP) FO) = Ok fl tt /\
      forall f, 0 <= f <= 1 / 2 -> responds fl f (gain2 fam n db (bp_W (edge_hi fc fw) (edge_lo fc fw) (2 * PI * f))).
  Proof.
    intros Hn HF HI HR EF EW [Hf He] Hd Hq NE.
    destruct (f_bp fam t n FO req fc fw db q Hn HF HI HR EF EW Hf Hd (to_pmdb fam db q Hq) He NE) as (fl & F1 & _ & F2).
    exists fl. split; [exact F1|exact F2].
  Qed.
  Lemma c35_bs fam t n FO req fc fw db (q : params XS) : (1 <= n)%nat -> (Z.of_nat n <= FO)%Z -> in_int (2 * Z.of_nat n) = true ->
    requested FO req n -> q_fc q = XR fc -> q_fw q = XR fw -> in_range BS fc fw -> db_ok fam db -> (fam <> Bw -> q_db q = XR db) ->
    ~ (Nat.odd n = true /\ tan ((edge_hi fc fw - edge_lo fc fw) / 2) = real_pole fam n db) ->
    exists fl, filt_setupN (N := XS) (fam, BS) FO req q (filt_init t (fam, BS) FO) = Ok fl tt /\
      forall f, 0 <= f <= 1 / 2 -> responds fl f (gain2 fam n db (bs_W (edge_hi fc fw) (edge_lo fc fw) (2 * PI * f))).
  Proof.
    intros Hn HF HI HR EF EW [Hf He] Hd Hq NE.
    destruct (f_bs fam t n FO req fc fw db q Hn HF HI HR EF EW Hf Hd (to_pmdb fam db q Hq) He NE) as (fl & F1 & _ & F2).
    exists fl. split; [exact F1|exact F2].
  Qed.
  Lemma ang w : 2 * PI * (w / (2 * PI)) = w.
  Proof. pose proof PI_RGT_0. field. lra. Qed.
  Lemma ang_in w : 0 <= w <= PI -> 0 <= w / (2 * PI) <= 1 / 2.
  Proof.
    intros Hw. pose proof PI_RGT_0. split.
    - apply Rmult_le_pos; [lra|]. left. apply Rinv_0_lt_compat. lra.
    - apply (Rmult_le_reg_r (2 * PI)); [lra|]. unfold Rdiv at 1. rewrite Rmult_assoc, Rinv_l by lra. lra.
  Qed.
  Lemma f_in f : 0 <= 2 * PI * f <= PI -> 0 <= f <= 1 / 2.
  Proof.
    intros [A B]. pose proof PI_RGT_0. split; apply (Rmult_le_reg_l (2 * PI)); lra.
  Qed.
  Lemma c35_bp_points fam t n FO req fc fw db (q : params XS) : (1 <= n)%nat -> (Z.of_nat n <= FO)%Z -> in_int (2 * Z.of_nat n) = true ->
    requested FO req n -> q_fc q = XR fc -> q_fw q = XR fw -> in_range BP fc fw -> db_ok fam db -> (fam <> Bw -> q_db q = XR db) ->
    ~ (Nat.odd n = true /\ 1 / tan ((edge_hi fc fw - edge_lo fc fw) / 2) = real_pole fam n db) ->
    let lo := edge_lo fc fw / (2 * PI) in let hi := edge_hi fc fw / (2 * PI) in
    exists fl, filt_setupN (N := XS) (fam, BP) FO req q (filt_init t (fam, BP) FO) = Ok fl tt /\
      responds fl lo (edge_gain fam db) /\ responds fl hi (edge_gain fam db) /\
      responds fl (centre (edge_hi fc fw) (edge_lo fc fw) / (2 * PI)) (peak_gain fam n db) /\
      responds fl 0 (null_gain fam n db) /\ responds fl (1 / 2) (null_gain fam n db) /\
      (forall f, lo <= f <= hi -> exists m, responds fl f m /\ edge_gain fam db <= m <= 1) /\
      (forall f, 0 <= f <= lo \/ hi <= f <= 1 / 2 -> exists m, responds fl f m /\ 0 <= m <= edge_gain fam db).
  Proof.
    intros Hn HF HI HR EF EW Hr Hd Hq NE lo hi. destruct (c35_bp fam t n FO req fc fw db q Hn HF HI HR EF EW Hr Hd Hq NE) as (fl & F1 & F2).
    exists fl. split; [exact F1|]. destruct (edges_in fc fw) as [E1 E2]. destruct Hr as [Hf He]. subst lo hi. set (w1 := edge_hi fc fw) in *. set (w2 := edge_lo fc fw) in *.
    pose proof PI_RGT_0 as HPI. pose proof (conj E1 He) as H.
    destruct (centre_facts w1 w2 H E2) as (K1 & _).
    assert (TP : forall f a, a / (2 * PI) <= f <-> a <= 2 * PI * f).
    { intros f a. split; intros Q.
      - apply (Rmult_le_compat_l (2 * PI)) in Q; [|lra]. rewrite ang in Q. exact Q.
      - apply (Rmult_le_reg_l (2 * PI)); [lra|]. rewrite ang. exact Q. }
    assert (TP' : forall f a, f <= a / (2 * PI) <-> 2 * PI * f <= a).
    { intros f a. split; intros Q.
      - apply (Rmult_le_compat_l (2 * PI)) in Q; [|lra]. rewrite ang in Q. exact Q.
      - apply (Rmult_le_reg_l (2 * PI)); [lra|]. rewrite ang. exact Q. }
    split; [|split; [|split; [|split; [|split; [|split]]]]].
    - specialize (F2 (w2 / (2 * PI)) (ang_in w2 ltac:(lra))). rewrite ang, bp_W_lo, gain2_edge in F2 by (auto || lra). exact F2.
    - specialize (F2 (w1 / (2 * PI)) (ang_in w1 ltac:(lra))). rewrite ang, bp_W_hi, gain2_edge in F2 by (auto || lra). exact F2.
    - specialize (F2 (centre w1 w2 / (2 * PI)) (ang_in (centre w1 w2) ltac:(lra))). rewrite ang, bp_W_centre, gain2_peak in F2 by (auto || lra). exact F2.
    - specialize (F2 0 ltac:(lra)). rewrite Rmult_0_r, bp_W_end, gain2_null in F2 by (auto using sin_0 || lra). exact F2.
    - specialize (F2 (1 / 2) ltac:(lra)). replace (2 * PI * (1 / 2)) with PI in F2 by field. rewrite bp_W_end, gain2_null in F2 by (auto using sin_PI || lra). exact F2.
    - intros f [Q1 Q2]. apply TP in Q1. apply TP' in Q2. assert (H0 : 0 <= f <= 1 / 2) by (apply f_in; lra). specialize (F2 f H0).
      destruct (bp_W_in w1 w2 H E2 (2 * PI * f) ltac:(lra)) as (r & ER & B). rewrite ER in F2. eexists. split; [exact F2|]. apply gain2_pass; auto.
    - intros f Q. assert (Q' : 0 <= 2 * PI * f <= w2 \/ w1 <= 2 * PI * f <= PI).
      { destruct Q as [[Q1 Q2]|[Q1 Q2]]; [left; apply TP' in Q2; split; [apply Rmult_le_pos; lra|lra]|right; apply TP in Q1; split; [lra|]; apply (Rmult_le_compat_l (2 * PI)) in Q2; lra]. }
      assert (H0 : 0 <= f <= 1 / 2) by (apply f_in; lra). specialize (F2 f H0).
      destruct (bp_W_out w1 w2 H E2 (2 * PI * f) Q') as [ER|(r & ER & B)]; rewrite ER in F2; (eexists; split; [exact F2|]); [apply gain2_nonneg_none|apply gain2_stop]; auto.
  Qed.
  Lemma c35_bs_points fam t n FO req fc fw db (q : params XS) : (1 <= n)%nat -> (Z.of_nat n <= FO)%Z -> in_int (2 * Z.of_nat n) = true ->
    requested FO req n -> q_fc q = XR fc -> q_fw q = XR fw -> in_range BS fc fw -> db_ok fam db -> (fam <> Bw -> q_db q = XR db) ->
    ~ (Nat.odd n = true /\ tan ((edge_hi fc fw - edge_lo fc fw) / 2) = real_pole fam n db) ->
    let lo := edge_lo fc fw / (2 * PI) in let hi := edge_hi fc fw / (2 * PI) in
    exists fl, filt_setupN (N := XS) (fam, BS) FO req q (filt_init t (fam, BS) FO) = Ok fl tt /\
      responds fl lo (edge_gain fam db) /\ responds fl hi (edge_gain fam db) /\
      responds fl (centre (edge_hi fc fw) (edge_lo fc fw) / (2 * PI)) (null_gain fam n db) /\
      responds fl 0 (peak_gain fam n db) /\ responds fl (1 / 2) (peak_gain fam n db) /\
      (forall f, lo <= f <= hi -> exists m, responds fl f m /\ 0 <= m <= edge_gain fam db) /\
      (forall f, 0 <= f <= lo \/ hi <= f <= 1 / 2 -> exists m, responds fl f m /\ edge_gain fam db <= m <= 1).
  Proof.
    intros Hn HF HI HR EF EW Hr Hd Hq NE lo hi. destruct (c35_bs fam t n FO req fc fw db q Hn HF HI HR EF EW Hr Hd Hq NE) as (fl & F1 & F2).
    exists fl. split; [exact F1|]. destruct (edges_in fc fw) as [E1 E2]. destruct Hr as [Hf He]. subst lo hi. set (w1 := edge_hi fc fw) in *. set (w2 := edge_lo fc fw) in *.
    pose proof PI_RGT_0 as HPI. pose proof (conj E1 He) as H.
    destruct (centre_facts w1 w2 H E2) as (K1 & _).
    assert (TP : forall f a, a / (2 * PI) <= f <-> a <= 2 * PI * f).
    { intros f a. split; intros Q.
      - apply (Rmult_le_compat_l (2 * PI)) in Q; [|lra]. rewrite ang in Q. exact Q.
      - apply (Rmult_le_reg_l (2 * PI)); [lra|]. rewrite ang. exact Q. }
    assert (TP' : forall f a, f <= a / (2 * PI) <-> 2 * PI * f <= a).
    { intros f a. split; intros Q.
      - apply (Rmult_le_compat_l (2 * PI)) in Q; [|lra]. rewrite ang in Q. exact Q.
      - apply (Rmult_le_reg_l (2 * PI)); [lra|]. rewrite ang. exact Q. }
    split; [|split; [|split; [|split; [|split; [|split]]]]].
    - specialize (F2 (w2 / (2 * PI)) (ang_in w2 ltac:(lra))). rewrite ang, bs_W_lo, gain2_edge in F2 by (auto || lra). exact F2.
    - specialize (F2 (w1 / (2 * PI)) (ang_in w1 ltac:(lra))). rewrite ang, bs_W_hi, gain2_edge in F2 by (auto || lra). exact F2.
    - specialize (F2 (centre w1 w2 / (2 * PI)) (ang_in (centre w1 w2) ltac:(lra))). rewrite ang, bs_W_centre, gain2_null in F2 by (auto || lra). exact F2.
    - specialize (F2 0 ltac:(lra)). rewrite Rmult_0_r, bs_W_end, gain2_peak in F2 by (auto using sin_0 || lra). exact F2.
    - specialize (F2 (1 / 2) ltac:(lra)). replace (2 * PI * (1 / 2)) with PI in F2 by field. rewrite bs_W_end, gain2_peak in F2 by (auto using sin_PI || lra). exact F2.
    - intros f [Q1 Q2]. apply TP in Q1. apply TP' in Q2. assert (H0 : 0 <= f <= 1 / 2) by (apply f_in; lra). specialize (F2 f H0).
      destruct (bs_W_in w1 w2 H E2 (2 * PI * f) ltac:(lra)) as [ER|(r & ER & B)]; rewrite ER in F2; (eexists; split; [exact F2|]); [apply gain2_nonneg_none|apply gain2_stop]; auto.
    - intros f Q. assert (Q' : 0 <= 2 * PI * f <= w2 \/ w1 <= 2 * PI * f <= PI).
      { destruct Q as [[Q1 Q2]|[Q1 Q2]]; [left; apply TP' in Q2; split; [apply Rmult_le_pos; lra|lra]|right; apply TP in Q1; split; [lra|]; apply (Rmult_le_compat_l (2 * PI)) in Q2; lra]. }
      assert (H0 : 0 <= f <= 1 / 2) by (apply f_in; lra). specialize (F2 f H0).
      destruct (bs_W_out w1 w2 H E2 (2 * PI * f) Q') as (r & ER & B). rewrite ER in F2. eexists. split; [exact F2|]. apply gain2_pass; auto.
  Qed.
  (** edges away from the clamps *)
  Lemma c35_edges fc fw : 1 / 100000000 <= 2 * PI * (fc - fw / 2) -> 2 * PI * (fc + fw / 2) <= PI - 1 / 100000000 ->
    edge_lo fc fw / (2 * PI) = fc - fw / 2 /\ edge_hi fc fw / (2 * PI) = fc + fw / 2.
  Proof.
    intros A B. unfold edge_lo, edge_hi. rewrite Rmax_left, Rmin_left by lra. pose proof PI_RGT_0. split; field; lra.
  Qed.

  (** ** setups that throw *)
  Lemma c44_bp fam t n FO req fc fw db (q : params XS) : (1 <= n)%nat -> (Z.of_nat n <= FO)%Z -> in_int (2 * Z.of_nat n) = true ->
    requested FO req n -> q_fc q = XR fc -> q_fw q = XR fw -> in_range BP fc fw -> db_ok fam db -> (fam <> Bw -> q_db q = XR db) ->
    Nat.odd n = true -> 1 / tan ((edge_hi fc fw - edge_lo fc fw) / 2) = real_pole fam n db ->
    exists e fl, filt_setupN (N := XS) (fam, BP) FO req q (filt_init t (fam, BP) FO) = Throw e fl.
  Proof. intros Hn HF HI HR EF EW [Hf He] Hd Hq. apply (f_bp_throws fam t n FO req fc fw db q); auto. apply to_pmdb, Hq. Qed.
  Lemma c44_bs fam t n FO req fc fw db (q : params XS) : (1 <= n)%nat -> (Z.of_nat n <= FO)%Z -> in_int (2 * Z.of_nat n) = true ->
    requested FO req n -> q_fc q = XR fc -> q_fw q = XR fw -> in_range BS fc fw -> db_ok fam db -> (fam <> Bw -> q_db q = XR db) ->
    Nat.odd n = true -> tan ((edge_hi fc fw - edge_lo fc fw) / 2) = real_pole fam n db ->
    exists e fl, filt_setupN (N := XS) (fam, BS) FO req q (filt_init t (fam, BS) FO) = Throw e fl.
  Proof. intros Hn HF HI HR EF EW [Hf He] Hd Hq. apply (f_bs_throws fam t n FO req fc fw db q); auto. apply to_pmdb, Hq. Qed.
  Lemma quarter_edges : 1 / 100000000 <= 2 * PI * (1 / 4 - (1 / 4) / 2) /\ 2 * PI * (1 / 4 + (1 / 4) / 2) <= PI - 1 / 100000000.
  Proof. pose proof PI2_1. split; lra. Qed.
  Lemma quarter_tan : tan ((edge_hi (1 / 4) (1 / 4) - edge_lo (1 / 4) (1 / 4)) / 2) = 1.
  Proof.
    destruct quarter_edges as [A B]. unfold edge_lo, edge_hi. rewrite Rmax_left, Rmin_left by lra.
    replace ((2 * PI * (1 / 4 + 1 / 4 / 2) - 2 * PI * (1 / 4 - 1 / 4 / 2)) / 2) with (PI / 4) by field. apply tan_PI4.
  Qed.
  Lemma quarter_range : in_range BP (1 / 4) (1 / 4) /\ in_range BS (1 / 4) (1 / 4).
  Proof.
    destruct quarter_edges as [A B]. unfold in_range, edge_lo, edge_hi. rewrite Rmax_left, Rmin_left by lra. pose proof PI_RGT_0. repeat split; lra.
  Qed.
  Lemma c44_quarter s t n FO req (q : params XS) : s = BP \/ s = BS -> (1 <= n)%nat -> (Z.of_nat n <= FO)%Z -> in_int (2 * Z.of_nat n) = true ->
    requested FO req n -> q_fc q = XR (1 / 4) -> q_fw q = XR (1 / 4) -> Nat.odd n = true ->
    exists e fl, filt_setupN (N := XS) (Bw, s) FO req q (filt_init t (Bw, s) FO) = Throw e fl.
  Proof.
    intros Hs Hn HF HI HR EF EW HO. destruct quarter_range as [Q1 Q2].
    destruct Hs as [-> | ->]; [apply (c44_bp Bw t n FO req (1 / 4) (1 / 4) 1 q)|apply (c44_bs Bw t n FO req (1 / 4) (1 / 4) 1 q)]; auto; cbn [db_ok real_pole]; try exact I; try congruence; rewrite quarter_tan; lra.
  Qed.

  (** ** C36 *)
  Lemma c36 fam s t n FO req fc fw db (q : params XS) : is_shelf s = false -> (1 <= n)%nat -> (Z.of_nat n <= FO)%Z -> in_int (2 * Z.of_nat n) = true ->
    requested FO req n -> q_fc q = XR fc -> q_fw q = XR fw -> in_range s fc fw -> db_ok fam db -> (fam <> Bw -> q_db q = XR db) ->
    match filt_setupN (N := XS) (fam, s) FO req q (filt_init t (fam, s) FO) with
    | Ok fl _ => stable_filter fl
    | Throw _ _ => s = BP \/ s = BS
    | UB => False
    end.
  Proof.
    intros Hs Hn HF HI HR EF EW Hr Hd Hq. pose proof (to_pmdb fam db q Hq) as Hp. destruct s; try discriminate Hs; cbn [in_range] in Hr.
    - destruct (lowpass fam t n FO req fc db q Hn HF HI HR EF Hr Hd Hp) as (fl & E & S & _). rewrite E. exact S.
    - destruct (highpass fam t n FO req fc db q Hn HF HI HR EF Hr Hd Hp) as (fl & E & S & _). rewrite E. exact S.
    - destruct Hr as [Hf He].
      destruct (Req_dec (1 / tan ((edge_hi fc fw - edge_lo fc fw) / 2)) (real_pole fam n db)) as [Z|Z].
      + destruct (Nat.odd n) eqn:O.
        * destruct (f_bp_throws fam t n FO req fc fw db q Hn HF HI HR EF EW Hf Hd Hp He O Z) as (e & fl & E). rewrite E. auto.
        * destruct (f_bp fam t n FO req fc fw db q Hn HF HI HR EF EW Hf Hd Hp He ltac:(intros [Q _]; congruence)) as (fl & E & [S _] & _). rewrite E. exact S.
      + destruct (f_bp fam t n FO req fc fw db q Hn HF HI HR EF EW Hf Hd Hp He ltac:(intros [_ Q]; contradiction)) as (fl & E & [S _] & _). rewrite E. exact S.
    - destruct Hr as [Hf He].
      destruct (Req_dec (tan ((edge_hi fc fw - edge_lo fc fw) / 2)) (real_pole fam n db)) as [Z|Z].
      + destruct (Nat.odd n) eqn:O.
        * destruct (f_bs_throws fam t n FO req fc fw db q Hn HF HI HR EF EW Hf Hd Hp He O Z) as (e & fl & E). rewrite E. auto.
        * destruct (f_bs fam t n FO req fc fw db q Hn HF HI HR EF EW Hf Hd Hp He ltac:(intros [Q _]; congruence)) as (fl & E & [S _] & _). rewrite E. exact S.
      + destruct (f_bs fam t n FO req fc fw db q Hn HF HI HR EF EW Hf Hd Hp He ltac:(intros [_ Q]; contradiction)) as (fl & E & [S _] & _). rewrite E. exact S.
  Qed.
End Final.

(** a successful setup of a new filter object leaves its delay lines zero, and is a history *)
Notation X0 := (X false).
Lemma setup_states t k FO req (q : params X0) fl : filt_setupN (N := X0) k FO req q (filt_init t k FO) = Ok fl tt -> List.Forall fin_st (fl_states fl).
Proof.
  unfold filt_setupN, on_pf, zoom, filt_init. cbn [fl_pf fl_states]. destruct (setupN k FO req q (pf_init k FO)) as [p []|e p|]; try discriminate.
  intros [= <-]. cbn [fl_states]. clear. induction (Z.to_nat (maxStagesOf (snd k) FO)); cbn [repeat]; constructor; [|exact IHn].
  destruct t; vm_compute; repeat split; eexists; reflexivity.
Qed.
Lemma setup_reachable t k FO n req (q : params X0) fl : in_int (2 * Z.of_nat n) = true -> requested FO req n ->
  filt_setupN (N := X0) k FO req q (filt_init t k FO) = Ok fl tt -> reachable_ok t k FO fl.
Proof.
  intros HI HR E. exists [OpSetupN req q]. split.
  - constructor; [|constructor]. cbn [op_ok order_ok]. destruct req; cbn [requested order_ok] in *; [subst; exact HI|exact I].
  - cbn [steps step after]. rewrite E. reflexivity.
Qed.
Lemma c36_bounded fam s t n FO req fc fw db (q : params X0) fl : is_shelf s = false -> (1 <= n)%nat -> (Z.of_nat n <= FO)%Z -> in_int (2 * FO) = true ->
  requested FO req n -> q_fc q = XR fc -> q_fw q = XR fw -> in_range s fc fw -> db_ok fam db -> (fam <> Bw -> q_db q = XR db) ->
  filt_setupN (N := X0) (fam, s) FO req q (filt_init t (fam, s) FO) = Ok fl tt ->
  (exists K K0, forall M xs, 0 <= M -> List.Forall (fun x => Rabs x <= M) xs ->
    exists ys, snd (filt_run fl (xr xs)) = xr ys /\ List.Forall (fun y => Rabs y <= K * M + K0) ys) /\
  (forall x : nat -> R, is_lim_seq x 0 ->
    exists y : nat -> R, (forall i, snd (filt_run fl (xr (prefix i x))) = xr (prefix i y)) /\ is_lim_seq y 0) /\
  (forall fr phi, 0 <= fr <= 1 / 2 -> exists (y : nat -> R) (h : C),
    filt_response fl (XR fr) = Val (xc h) /\
    (forall i, snd (filt_run fl (xr (prefix i (fun i => cos (2 * PI * fr * INR i + phi))))) = xr (prefix i y)) /\
    is_lim_seq (fun i => y i - fst (h * cis (2 * PI * fr * INR i + phi))%C) 0).
Proof.
  intros Hs Hn HF HI HR EF EW Hr Hd Hq E.
  assert (HI' : in_int (2 * Z.of_nat n) = true) by (unfold in_int, int_min, int_max in *; apply andb_true_iff in HI; apply andb_true_iff; rewrite !Z.leb_le in *; lia).
  pose proof (c36 fam s t n FO req fc fw db q Hs Hn HF HI' HR EF EW Hr Hd Hq) as S. rewrite E in S. destruct S as [S1 S2].
  pose proof (setup_states _ _ _ _ _ _ E) as S3. pose proof (setup_reachable t _ FO n req q fl HI' HR E) as R. assert (F1 : (1 <= FO)%Z) by lia.
  split; [|split].
  - exact (filt_c11 t _ FO fl F1 HI R S1 S2 S3).
  - intros x. exact (filt_c12 t _ FO fl x F1 HI R S1 S2 S3).
  - intros fr phi. exact (filt_c13 t _ FO fl fr phi F1 HI R S1 S2 S3).
Qed.

(** ** C37 *)
Lemma shelf2_points n G : (1 <= n)%nat ->
  shelf2 n G (Some 0) = Rpower 10 (G / 10) /\ shelf2 n G (Some 1) = Rpower 10 (G / 20) /\ shelf2 n G (Some (-1)) = Rpower 10 (G / 20) /\ shelf2 n G None = 1.
Proof.
  intros Hn. unfold shelf2. set (g := Rpower 10 (G / 20)). assert (g0 : 0 < g) by apply exp_pos.
  rewrite pow_ne_zero by lia. rewrite pow1. rewrite pow_mult. replace ((-1) ^ 2) with 1 by ring. rewrite pow1.
  repeat split.
  - replace (G / 10) with (G / 20 + G / 20) by field. rewrite Rpower_plus. fold g. field. lra.
  - field. lra.
  - field. lra.
Qed.
Lemma c37_low t n FO req fc G (q : params X0) : (1 <= n)%nat -> (Z.of_nat n <= FO)%Z -> in_int (2 * Z.of_nat n) = true ->
  requested FO req n -> q_fc q = XR fc -> in_range LSh fc 0 -> q_gain q = XR G ->
  exists fl, filt_setupN (N := X0) (Bw, LSh) FO req q (filt_init t (Bw, LSh) FO) = Ok fl tt /\ stable_filter fl /\
    (forall f, 0 <= f < 1 / 2 -> responds fl f (shelf2 n G (Some (tan (PI * f) / tan (PI * fc))))) /\
    responds fl 0 (Rpower 10 (G / 10)) /\ responds fl fc (Rpower 10 (G / 20)) /\ responds fl (1 / 2) 1.
Proof.
  intros Hn HF HI HR EF Hf EG. cbn [in_range] in Hf. destruct (shelf2_points n G Hn) as (P0 & P1 & _ & PN). destruct (tan_half fc Hf) as (_ & _ & T).
  destruct (sh_low t n FO req fc G q Hn HF HI HR EF Hf EG) as (fl & E & [S _] & R & RN). exists fl. split; [exact E|]. split; [exact S|]. split; [exact R|].
  split; [|split].
  - pose proof (R 0 ltac:(lra)) as R0. rewrite Rmult_0_r, tan_0 in R0. replace (0 / tan (PI * fc)) with 0 in R0 by (field; lra). rewrite P0 in R0. exact R0.
  - pose proof (R fc ltac:(lra)) as R0. replace (tan (PI * fc) / tan (PI * fc)) with 1 in R0 by (field; lra). rewrite P1 in R0. exact R0.
  - rewrite PN in RN. exact RN.
Qed.
Lemma c37_high t n FO req fc G (q : params X0) : (1 <= n)%nat -> (Z.of_nat n <= FO)%Z -> in_int (2 * Z.of_nat n) = true ->
  requested FO req n -> q_fc q = XR fc -> in_range HSh fc 0 -> q_gain q = XR G ->
  exists fl, filt_setupN (N := X0) (Bw, HSh) FO req q (filt_init t (Bw, HSh) FO) = Ok fl tt /\ stable_filter fl /\
    (forall f, 0 < f < 1 / 2 -> responds fl f (shelf2 n G (Some (tan (PI * fc) / tan (PI * f))))) /\
    responds fl 0 1 /\ responds fl fc (Rpower 10 (G / 20)) /\ responds fl (1 / 2) (Rpower 10 (G / 10)).
Proof.
  intros Hn HF HI HR EF Hf EG. cbn [in_range] in Hf. destruct (shelf2_points n G Hn) as (P0 & P1 & _ & PN). destruct (tan_half fc Hf) as (_ & _ & T).
  destruct (sh_high t n FO req fc G q Hn HF HI HR EF Hf EG) as (fl & E & [S _] & R & RN & R2). exists fl. split; [exact E|]. split; [exact S|]. split; [exact R|].
  rewrite PN in RN. rewrite P0 in R2. split; [exact RN|]. split; [|exact R2].
  pose proof (R fc ltac:(lra)) as R0. replace (tan (PI * fc) / tan (PI * fc)) with 1 in R0 by (field; lra). rewrite P1 in R0. exact R0.
Qed.
Lemma c37_band t n FO req fc fw G (q : params X0) : (1 <= n)%nat -> (Z.of_nat n <= FO)%Z -> in_int (2 * Z.of_nat n) = true ->
  requested FO req n -> q_fc q = XR fc -> q_fw q = XR fw -> in_range BSh fc fw -> q_gain q = XR G ->
  let w1 := edge_hi fc fw in let w2 := edge_lo fc fw in
  ~ (Nat.odd n = true /\ (tan ((w1 - w2) / 2) ^ (2 * n) = Rpower 10 (G / 20) \/ tan ((w1 - w2) / 2) ^ (2 * n) = Rpower 10 (- G / 20))) ->
  exists fl, filt_setupN (N := X0) (Bw, BSh) FO req q (filt_init t (Bw, BSh) FO) = Ok fl tt /\ stable_filter fl /\
    (forall f, 0 <= f <= 1 / 2 -> responds fl f (shelf2 n G (bp_W w1 w2 (2 * PI * f)))) /\
    responds fl (centre w1 w2 / (2 * PI)) (Rpower 10 (G / 10)) /\
    responds fl (w1 / (2 * PI)) (Rpower 10 (G / 20)) /\ responds fl (w2 / (2 * PI)) (Rpower 10 (G / 20)) /\
    responds fl 0 1 /\ responds fl (1 / 2) 1.
Proof.
  intros Hn HF HI HR EF EW [Hf He] EG w1 w2 NE. destruct (shelf2_points n G Hn) as (P0 & P1 & P2 & PN).
  destruct (sh_band t n FO req fc fw G q Hn HF HI HR EF EW Hf EG He NE) as (fl & E & [S _] & F2). exists fl. split; [exact E|]. split; [exact S|]. split; [exact F2|].
  destruct (edges_in fc fw) as [E1 E2]. fold w1 w2 in He, E1, E2, F2. pose proof PI_RGT_0 as HPI. pose proof (conj E1 He) as H.
  destruct (centre_facts w1 w2 H E2) as (K1 & _). split; [|split; [|split; [|split]]].
  - specialize (F2 (centre w1 w2 / (2 * PI)) (ang_in (centre w1 w2) ltac:(lra))). rewrite ang, bp_W_centre, P0 in F2 by (auto || lra). exact F2.
  - specialize (F2 (w1 / (2 * PI)) (ang_in w1 ltac:(lra))). rewrite ang, bp_W_hi, P1 in F2 by (auto || lra). exact F2.
  - specialize (F2 (w2 / (2 * PI)) (ang_in w2 ltac:(lra))). rewrite ang, bp_W_lo, P2 in F2 by (auto || lra). exact F2.
  - specialize (F2 0 ltac:(lra)). rewrite Rmult_0_r, bp_W_end, PN in F2 by (auto using sin_0 || lra). exact F2.
  - specialize (F2 (1 / 2) ltac:(lra)). replace (2 * PI * (1 / 2)) with PI in F2 by field. rewrite bp_W_end, PN in F2 by (auto using sin_PI || lra). exact F2.
Qed.

(** ** a concrete non-exceptional case: order 3, centre 1/4, width 1/6 *)
Lemma ex_band_edges : edge_lo (1 / 4) (1 / 6) = PI / 3 /\ edge_hi (1 / 4) (1 / 6) = 2 * PI / 3.
Proof. pose proof PI2_1. unfold edge_lo, edge_hi. rewrite Rmax_left, Rmin_left by lra. split; field. Qed.
Lemma ex_band_range s : in_range s (1 / 4) (1 / 6).
Proof. pose proof PI_RGT_0. destruct ex_band_edges as [E1 E2]. destruct s; cbn [in_range]; rewrite ?E1, ?E2; repeat split; lra. Qed.
Lemma ex_band_tan : tan ((edge_hi (1 / 4) (1 / 6) - edge_lo (1 / 4) (1 / 6)) / 2) = 1 / sqrt 3.
Proof. destruct ex_band_edges as [-> ->]. replace ((2 * PI / 3 - PI / 3) / 2) with (PI / 6) by field. apply tan_PI6. Qed.
Lemma sqrt3_gt1 : 1 < sqrt 3.
Proof. rewrite <- sqrt_1 at 1. apply sqrt_lt_1; lra. Qed.
Lemma ex_band_bp : ~ (Nat.odd 3 = true /\ 1 / tan ((edge_hi (1 / 4) (1 / 6) - edge_lo (1 / 4) (1 / 6)) / 2) = real_pole Bw 3 1).
Proof.
  intros [_ Q]. rewrite ex_band_tan in Q. cbn [real_pole] in Q. pose proof sqrt3_gt1. assert (E : 1 / (1 / sqrt 3) = sqrt 3) by (field; lra). rewrite E in Q. lra.
Qed.
Lemma ex_band_bs : ~ (Nat.odd 3 = true /\ tan ((edge_hi (1 / 4) (1 / 6) - edge_lo (1 / 4) (1 / 6)) / 2) = real_pole Bw 3 1).
Proof.
  intros [_ Q]. rewrite ex_band_tan in Q. cbn [real_pole] in Q. pose proof sqrt3_gt1. assert (1 / sqrt 3 < 1); [|lra].
  apply (Rmult_lt_reg_r (sqrt 3)); [lra|]. unfold Rdiv. rewrite Rmult_assoc, Rinv_l by lra. lra.
Qed.
Lemma ex_band_ok strict : exists q : params (X strict), q_fc q = XR (1 / 4) /\ q_fw q = XR (1 / 6) /\ q_gain q = XR 6 /\ q_db q = XR 1.
Proof. exists (MkParams (N := X strict) (XR (1 / 4)) (XR (1 / 6)) (XR 6) (XR 1)). repeat split. Qed.
