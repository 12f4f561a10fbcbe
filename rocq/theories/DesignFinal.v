(** Lemmas: the low and high pass statements in terms of tan. *)
From Coq Require Import ZArith List Bool Reals Lra Lia.
From Coquelicot Require Import Coquelicot.
From Verif Require Import Num Outcome Types Biquad State Cascade PoleFilter Exact SigSpec ChebSpec DesignSpec
  RespProofs ProtoBuild DesignProofs DesignLemmas.
Import ListNotations.
Local Open Scope R_scope.

Lemma ratio_some x y : y <> 0 -> ratio x y = Some (x / y).
Proof. intros H. unfold ratio. destruct (Req_EM_T y 0); [contradiction|reflexivity]. Qed.
Lemma ratio_none x : ratio x 0 = None.
Proof. unfold ratio. destruct (Req_EM_T 0 0); [reflexivity|congruence]. Qed.
Lemma cos_half f : 0 <= f < 1 / 2 -> 0 < cos (PI * f).
Proof. intros H. pose proof PI_RGT_0. apply cos_gt_0; nra. Qed.
Lemma half_pi : PI * (1 / 2) = PI / 2. Proof. field. Qed.
Lemma gain2_opp fam n db w : gain2 fam n db (Some (- w)) = gain2 fam n db (Some w).
Proof.
  destruct fam; cbn [gain2].
  - do 2 f_equal. rewrite !pow_mult. f_equal. ring.
  - rewrite cheb_opp. reflexivity.
  - destruct (Req_EM_T (- w) 0), (Req_EM_T w 0); try lra. cbv zeta.
    replace (1 / - w) with (- (1 / w)) by (field; lra). rewrite cheb_opp. reflexivity.
Qed.
Lemma lp_ratio f fc : 0 <= f < 1 / 2 -> 0 < fc < 1 / 2 ->
  ratio (sin (PI * f)) (tan (PI * fc) * cos (PI * f)) = Some (tan (PI * f) / tan (PI * fc)).
Proof.
  intros Hf Hc. pose proof (cos_half f Hf). destruct (tan_half fc Hc) as (_ & _ & T).
  rewrite ratio_some by (apply Rgt_not_eq, Rmult_lt_0_compat; assumption). f_equal. unfold tan at 2. field. lra.
Qed.
Lemma hp_gain fam n db f fc : 0 < f < 1 / 2 -> 0 < fc < 1 / 2 ->
  gain2 fam n db (ratio (- cos (PI * f)) (1 / tan (PI * fc) * sin (PI * f))) = gain2 fam n db (Some (tan (PI * fc) / tan (PI * f))).
Proof.
  intros Hf Hc. destruct (tan_half f Hf) as (C & S & T'). destruct (tan_half fc Hc) as (_ & _ & T).
  rewrite ratio_some.
  - replace (- cos (PI * f) / (1 / tan (PI * fc) * sin (PI * f))) with (- (tan (PI * fc) / tan (PI * f))).
    + apply gain2_opp.
    + unfold tan at 2. field. repeat split; lra.
  - apply Rgt_not_eq, Rmult_lt_0_compat; [apply Rdiv_lt_0_compat; lra|assumption].
Qed.

Section Final.
  Context {strict : bool}.
  Notation XS := (X strict).

  Lemma lowpass fam t n FO req fc db (q : params XS) : (1 <= n)%nat -> (Z.of_nat n <= FO)%Z -> in_int (2 * Z.of_nat n) = true ->
    requested FO req n -> q_fc q = XR fc -> 0 < fc < 1 / 2 -> db_ok fam db -> pmdb fam db q ->
    exists fl, filt_setupN (N := XS) (fam, LP) FO req q (filt_init t (fam, LP) FO) = Ok fl tt /\ stable_filter fl /\
      (forall f, 0 <= f < 1 / 2 -> responds fl f (gain2 fam n db (Some (tan (PI * f) / tan (PI * fc))))) /\
      responds fl (1 / 2) (gain2 fam n db None).
  Proof.
    intros Hn HF HI HR EF Hf Hd Hq. destruct (f_lp fam t n FO req fc db q Hn HF HI HR EF Hf Hd Hq) as (fl & E & [S _] & R).
    exists fl. split; [exact E|]. split; [exact S|]. split.
    - intros f H. rewrite <- lp_ratio by assumption. apply R. lra.
    - specialize (R (1 / 2) ltac:(lra)). rewrite half_pi, cos_PI2, Rmult_0_r, ratio_none in R. exact R.
  Qed.
  Lemma highpass fam t n FO req fc db (q : params XS) : (1 <= n)%nat -> (Z.of_nat n <= FO)%Z -> in_int (2 * Z.of_nat n) = true ->
    requested FO req n -> q_fc q = XR fc -> 0 < fc < 1 / 2 -> db_ok fam db -> pmdb fam db q ->
    exists fl, filt_setupN (N := XS) (fam, HP) FO req q (filt_init t (fam, HP) FO) = Ok fl tt /\ stable_filter fl /\
      (forall f, 0 < f < 1 / 2 -> responds fl f (gain2 fam n db (Some (tan (PI * fc) / tan (PI * f))))) /\
      responds fl 0 (gain2 fam n db None) /\ responds fl (1 / 2) (gain2 fam n db (Some 0)).
  Proof.
    intros Hn HF HI HR EF Hf Hd Hq. destruct (f_hp fam t n FO req fc db q Hn HF HI HR EF Hf Hd Hq) as (fl & E & [S _] & R).
    exists fl. split; [exact E|]. split; [exact S|]. split; [|split].
    - intros f H. rewrite <- hp_gain by assumption. apply R. lra.
    - specialize (R 0 ltac:(lra)). rewrite Rmult_0_r, sin_0, Rmult_0_r, ratio_none in R. exact R.
    - specialize (R (1 / 2) ltac:(lra)). rewrite half_pi, cos_PI2, sin_PI2 in R. destruct (tan_half fc Hf) as (_ & _ & T).
      rewrite ratio_some in R by (rewrite Rmult_1_r; apply Rgt_not_eq, Rdiv_lt_0_compat; lra).
      replace (- 0 / (1 / tan (PI * fc) * 1)) with 0 in R; [exact R|]. field. lra.
  Qed.

  (** ** C32 *)
  Lemma c32_low t n FO req fc (q : params XS) : (1 <= n)%nat -> (Z.of_nat n <= FO)%Z -> in_int (2 * Z.of_nat n) = true ->
    requested FO req n -> q_fc q = XR fc -> 0 < fc < 1 / 2 ->
    exists fl, filt_setupN (N := XS) (Bw, LP) FO req q (filt_init t (Bw, LP) FO) = Ok fl tt /\
      (forall f, 0 <= f < 1 / 2 -> responds fl f (1 / (1 + (tan (PI * f) / tan (PI * fc)) ^ (2 * n)))) /\
      responds fl (1 / 2) 0.
  Proof.
    intros Hn HF HI HR EF Hf. destruct (lowpass Bw t n FO req fc 0 q Hn HF HI HR EF Hf I I) as (fl & E & _ & R1 & R2).
    exists fl. split; [exact E|]. split; assumption.
  Qed.
  Lemma c32_high t n FO req fc (q : params XS) : (1 <= n)%nat -> (Z.of_nat n <= FO)%Z -> in_int (2 * Z.of_nat n) = true ->
    requested FO req n -> q_fc q = XR fc -> 0 < fc < 1 / 2 ->
    exists fl, filt_setupN (N := XS) (Bw, HP) FO req q (filt_init t (Bw, HP) FO) = Ok fl tt /\
      (forall f, 0 < f < 1 / 2 -> responds fl f (1 / (1 + (tan (PI * fc) / tan (PI * f)) ^ (2 * n)))) /\
      responds fl 0 0 /\ responds fl (1 / 2) 1.
  Proof.
    intros Hn HF HI HR EF Hf. destruct (highpass Bw t n FO req fc 0 q Hn HF HI HR EF Hf I I) as (fl & E & _ & R1 & R2 & R3).
    exists fl. split; [exact E|]. split; [exact R1|]. split; [exact R2|]. cbn [gain2] in R3. rewrite pow_i in R3 by lia.
    replace (1 / (1 + 0)) with 1 in R3 by field. exact R3.
  Qed.
  (** the edges: gain 1 at 0, half the power at the cutoff, never rising *)
  Lemma c32_edges t n FO req fc (q : params XS) : (1 <= n)%nat -> (Z.of_nat n <= FO)%Z -> in_int (2 * Z.of_nat n) = true ->
    requested FO req n -> q_fc q = XR fc -> 0 < fc < 1 / 2 ->
    (exists fl, filt_setupN (N := XS) (Bw, LP) FO req q (filt_init t (Bw, LP) FO) = Ok fl tt /\
      responds fl 0 1 /\ responds fl fc (1 / 2) /\
      forall f f', 0 <= f < f' -> f' < 1 / 2 -> exists m m', responds fl f m /\ responds fl f' m' /\ m' < m) /\
    (exists fl, filt_setupN (N := XS) (Bw, HP) FO req q (filt_init t (Bw, HP) FO) = Ok fl tt /\
      responds fl (1 / 2) 1 /\ responds fl fc (1 / 2) /\
      forall f f', 0 < f < f' -> f' < 1 / 2 -> exists m m', responds fl f m /\ responds fl f' m' /\ m < m').
  Proof.
    intros Hn HF HI HR EF Hf. destruct (tan_half fc Hf) as (_ & _ & T).
    assert (MONO : forall a b, 0 <= a < b -> 1 / (1 + b ^ (2 * n)) < 1 / (1 + a ^ (2 * n))).
    { intros a b H. assert (a ^ (2 * n) < b ^ (2 * n)).
      { destruct (2 * n)%nat as [|m] eqn:M; [lia|]. clear M. simpl.
        destruct (Req_dec a 0) as [->|Z].
        - rewrite Rmult_0_l. apply Rmult_lt_0_compat; [lra|]. apply pow_lt. lra.
        - assert (P : 0 < a ^ m) by (apply pow_lt; lra). assert (a ^ m <= b ^ m) by (apply pow_incr; lra). nra. }
      pose proof (pow_even_nonneg a n). unfold Rdiv. rewrite !Rmult_1_l. apply Rinv_lt_contravar; [|lra]. nra. }
    assert (TI : forall f f', 0 <= f < f' -> f' < 1 / 2 -> 0 <= tan (PI * f) < tan (PI * f')).
    { intros f f' H H'. pose proof PI_RGT_0. split.
      - destruct (Req_dec f 0) as [->|Z]; [rewrite Rmult_0_r, tan_0; lra|]. destruct (tan_half f ltac:(lra)) as (_ & _ & ?). lra.
      - apply tan_increasing; nra. }
    assert (R1 : (tan (PI * fc) / tan (PI * fc)) ^ (2 * n) = 1) by (replace (tan (PI * fc) / tan (PI * fc)) with 1 by (field; lra); apply pow1).
    split.
    - destruct (c32_low t n FO req fc q Hn HF HI HR EF Hf) as (fl & E & R & _). exists fl. split; [exact E|]. split; [|split].
      + specialize (R 0 ltac:(lra)). rewrite Rmult_0_r, tan_0 in R. unfold Rdiv in R at 2. rewrite Rmult_0_l, pow_i in R by lia.
        replace (1 / (1 + 0)) with 1 in R by field. exact R.
      + specialize (R fc ltac:(lra)). rewrite R1 in R. replace (1 / (1 + 1)) with (1 / 2) in R by field. exact R.
      + intros f f' H H'. exists (1 / (1 + (tan (PI * f) / tan (PI * fc)) ^ (2 * n))), (1 / (1 + (tan (PI * f') / tan (PI * fc)) ^ (2 * n))).
        split; [apply R; lra|]. split; [apply R; lra|]. apply MONO. destruct (TI f f' H H') as [P1 P2].
        pose proof (Rinv_0_lt_compat _ T). unfold Rdiv. split; [apply Rmult_le_pos; lra|]. apply Rmult_lt_compat_r; lra.
    - destruct (c32_high t n FO req fc q Hn HF HI HR EF Hf) as (fl & E & R & _ & R3). exists fl. split; [exact E|]. split; [exact R3|]. split.
      + specialize (R fc ltac:(lra)). rewrite R1 in R. replace (1 / (1 + 1)) with (1 / 2) in R by field. exact R.
      + intros f f' H H'. exists (1 / (1 + (tan (PI * fc) / tan (PI * f)) ^ (2 * n))), (1 / (1 + (tan (PI * fc) / tan (PI * f')) ^ (2 * n))).
        split; [apply R; lra|]. split; [apply R; lra|]. apply MONO. destruct (TI f f' ltac:(lra) H') as [P1 P2].
        destruct (tan_half f ltac:(lra)) as (_ & _ & P0). unfold Rdiv. split.
        * apply Rmult_le_pos; [lra|]. left. apply Rinv_0_lt_compat. lra.
        * apply Rmult_lt_compat_l; [lra|]. apply Rinv_lt_contravar; [nra|lra].
  Qed.

  (** ** C33 *)
  Lemma c33_low t n FO req fc db (q : params XS) : (1 <= n)%nat -> (Z.of_nat n <= FO)%Z -> in_int (2 * Z.of_nat n) = true ->
    requested FO req n -> q_fc q = XR fc -> 0 < fc < 1 / 2 -> q_db q = XR db -> 0 < db ->
    exists fl, filt_setupN (N := XS) (Ch1, LP) FO req q (filt_init t (Ch1, LP) FO) = Ok fl tt /\
      (forall f, 0 <= f < 1 / 2 -> responds fl f (1 / (1 + (Rpower 10 (db / 10) - 1) * cheb n (tan (PI * f) / tan (PI * fc)) ^ 2))) /\
      responds fl (1 / 2) 0.
  Proof.
    intros Hn HF HI HR EF Hf ED Hd. destruct (lowpass Ch1 t n FO req fc db q Hn HF HI HR EF Hf Hd ED) as (fl & E & _ & R1 & R2).
    exists fl. split; [exact E|]. split; assumption.
  Qed.
  Lemma c33_high t n FO req fc db (q : params XS) : (1 <= n)%nat -> (Z.of_nat n <= FO)%Z -> in_int (2 * Z.of_nat n) = true ->
    requested FO req n -> q_fc q = XR fc -> 0 < fc < 1 / 2 -> q_db q = XR db -> 0 < db ->
    exists fl, filt_setupN (N := XS) (Ch1, HP) FO req q (filt_init t (Ch1, HP) FO) = Ok fl tt /\
      (forall f, 0 < f < 1 / 2 -> responds fl f (1 / (1 + (Rpower 10 (db / 10) - 1) * cheb n (tan (PI * fc) / tan (PI * f)) ^ 2))) /\
      responds fl 0 0 /\ responds fl (1 / 2) (1 / (1 + (Rpower 10 (db / 10) - 1) * cheb n 0 ^ 2)).
  Proof.
    intros Hn HF HI HR EF Hf ED Hd. destruct (highpass Ch1 t n FO req fc db q Hn HF HI HR EF Hf Hd ED) as (fl & E & _ & R1 & R2 & R3).
    exists fl. split; [exact E|]. split; [exact R1|]. split; assumption.
  Qed.
  Lemma w_le1 a b : 0 <= a <= b -> 0 < b -> Rabs (a / b) <= 1.
  Proof.
    intros H Hb. rewrite Rabs_right.
    - apply Rmult_le_reg_r with b; [exact Hb|]. replace (a / b * b) with a by (field; lra). lra.
    - apply Rle_ge. apply Rmult_le_pos; [lra|]. left. apply Rinv_0_lt_compat, Hb.
  Qed.
  Lemma tan_mono f f' : 0 <= f <= f' -> f' < 1 / 2 -> 0 <= tan (PI * f) <= tan (PI * f').
  Proof.
    intros H H'. pose proof PI_RGT_0. split.
    - destruct (Req_dec f 0) as [->|Z]; [rewrite Rmult_0_r, tan_0; lra|]. destruct (tan_half f ltac:(lra)) as (_ & _ & ?). lra.
    - destruct (Req_dec f f') as [->|Z]; [lra|]. left. apply tan_increasing; nra.
  Qed.
  Lemma ripple_bound db (t : R) : 0 < db -> 0 <= t <= 1 ->
    Rpower 10 (- db / 10) <= 1 / (1 + (Rpower 10 (db / 10) - 1) * t) <= 1.
  Proof.
    intros Hd Ht. pose proof (rpower_gt1 (db / 10) ltac:(lra)) as R1. set (r := Rpower 10 (db / 10)) in *.
    replace (Rpower 10 (- db / 10)) with (/ r) by (unfold r; rewrite <- Rpower_Ropp; f_equal; field).
    assert (0 <= (r - 1) * t <= r - 1) by (split; [apply Rmult_le_pos; lra|nra]). unfold Rdiv. rewrite Rmult_1_l. split.
    - apply Rinv_le_contravar; lra.
    - rewrite <- Rinv_1. apply Rinv_le_contravar; lra.
  Qed.
  (** pass band ripple at most db, reached at the cutoff *)
  Lemma c33_ripple t n FO req fc db (q : params XS) : (1 <= n)%nat -> (Z.of_nat n <= FO)%Z -> in_int (2 * Z.of_nat n) = true ->
    requested FO req n -> q_fc q = XR fc -> 0 < fc < 1 / 2 -> q_db q = XR db -> 0 < db ->
    (exists fl, filt_setupN (N := XS) (Ch1, LP) FO req q (filt_init t (Ch1, LP) FO) = Ok fl tt /\
      responds fl fc (Rpower 10 (- db / 10)) /\
      forall f, 0 <= f <= fc -> exists m, responds fl f m /\ Rpower 10 (- db / 10) <= m <= 1) /\
    (exists fl, filt_setupN (N := XS) (Ch1, HP) FO req q (filt_init t (Ch1, HP) FO) = Ok fl tt /\
      responds fl fc (Rpower 10 (- db / 10)) /\
      forall f, fc <= f <= 1 / 2 -> exists m, responds fl f m /\ Rpower 10 (- db / 10) <= m <= 1).
  Proof.
    intros Hn HF HI HR EF Hf ED Hd. destruct (tan_half fc Hf) as (_ & _ & T).
    assert (R1 : tan (PI * fc) / tan (PI * fc) = 1) by (field; lra).
    assert (V : 1 / (1 + (Rpower 10 (db / 10) - 1) * cheb n 1 ^ 2) = Rpower 10 (- db / 10)).
    { rewrite cheb_1. replace (- db / 10) with (- (db / 10)) by field. rewrite Rpower_Ropp. field. apply Rgt_not_eq, exp_pos. }
    split.
    - destruct (c33_low t n FO req fc db q Hn HF HI HR EF Hf ED Hd) as (fl & E & R & _). exists fl. split; [exact E|]. split.
      + specialize (R fc ltac:(lra)). rewrite R1, V in R. exact R.
      + intros f H. eexists. split; [apply R; lra|]. apply ripple_bound; [exact Hd|]. split; [apply pow2_ge_0|].
        apply cheb_le1, w_le1; [apply tan_mono; lra|exact T].
    - destruct (c33_high t n FO req fc db q Hn HF HI HR EF Hf ED Hd) as (fl & E & R & _ & R3). exists fl. split; [exact E|]. split.
      + specialize (R fc ltac:(lra)). rewrite R1, V in R. exact R.
      + intros f H. destruct (Req_dec f (1 / 2)) as [->|Z].
        * eexists. split; [exact R3|]. apply ripple_bound; [exact Hd|]. split; [apply pow2_ge_0|].
          apply cheb_le1. rewrite Rabs_R0. lra.
        * eexists. split; [apply R; lra|]. apply ripple_bound; [exact Hd|]. split; [apply pow2_ge_0|].
          pose proof (tan_mono fc f ltac:(lra) ltac:(lra)). apply cheb_le1, w_le1; lra.
  Qed.

  (** ** C34 *)
  Lemma rej2_eq n db w : 0 < db -> (let t := eps2 Ch2 db * cheb n w ^ 2 in t / (1 + t)) = rej2 n db w.
  Proof.
    intros Hd. pose proof (rpower_gt1 (db / 10) ltac:(lra)). pose proof (pow2_ge_0 (cheb n w)). unfold eps2, rej2. cbv zeta.
    field. split; [lra|]. lra.
  Qed.
  Lemma gain2_c2 n db w : 0 < db -> w <> 0 -> gain2 Ch2 n db (Some w) = rej2 n db (1 / w).
  Proof. intros Hd Hw. cbn [gain2]. destruct (Req_EM_T w 0); [contradiction|]. apply rej2_eq. exact Hd. Qed.
  Lemma rej2_bound n db w : 0 < db -> Rabs w <= 1 -> 0 <= rej2 n db w <= Rpower 10 (- db / 10).
  Proof.
    intros Hd Hw. pose proof (rpower_gt1 (db / 10) ltac:(lra)) as R1. pose proof (cheb_le1 n w Hw) as C1. pose proof (pow2_ge_0 (cheb n w)) as C0.
    unfold rej2. set (r := Rpower 10 (db / 10)) in *. set (t := cheb n w ^ 2) in *.
    replace (Rpower 10 (- db / 10)) with (/ r) by (unfold r; rewrite <- Rpower_Ropp; f_equal; field).
    assert (P : 0 < r - 1 + t) by lra. split; [apply Rmult_le_pos; [lra|]; left; apply Rinv_0_lt_compat; exact P|].
    apply Rmult_le_reg_r with (r * (r - 1 + t)); [nra|].
    replace (t / (r - 1 + t) * (r * (r - 1 + t))) with (t * r) by (field; lra).
    replace (/ r * (r * (r - 1 + t))) with (r - 1 + t) by (field; lra). nra.
  Qed.
  Lemma rej2_edge n db : 0 < db -> rej2 n db 1 = Rpower 10 (- db / 10).
  Proof.
    intros Hd. unfold rej2. rewrite cheb_1. replace (- db / 10) with (- (db / 10)) by field. rewrite Rpower_Ropp.
    pose proof (rpower_gt1 (db / 10) ltac:(lra)). field. lra.
  Qed.
  Lemma c34_low t n FO req fc db (q : params XS) : (1 <= n)%nat -> (Z.of_nat n <= FO)%Z -> in_int (2 * Z.of_nat n) = true ->
    requested FO req n -> q_fc q = XR fc -> 0 < fc < 1 / 2 -> q_db q = XR db -> 0 < db ->
    exists fl, filt_setupN (N := XS) (Ch2, LP) FO req q (filt_init t (Ch2, LP) FO) = Ok fl tt /\
      (forall f, 0 < f < 1 / 2 -> responds fl f (rej2 n db (tan (PI * fc) / tan (PI * f)))) /\
      responds fl 0 1 /\ responds fl (1 / 2) (rej2 n db 0).
  Proof.
    intros Hn HF HI HR EF Hf ED Hd. destruct (lowpass Ch2 t n FO req fc db q Hn HF HI HR EF Hf Hd ED) as (fl & E & _ & R1 & R2).
    destruct (tan_half fc Hf) as (_ & _ & T).
    exists fl. split; [exact E|]. split; [|split].
    - intros f H. specialize (R1 f ltac:(lra)). destruct (tan_half f H) as (_ & _ & T').
      rewrite gain2_c2 in R1 by (try exact Hd; apply Rgt_not_eq, Rdiv_lt_0_compat; assumption).
      replace (1 / (tan (PI * f) / tan (PI * fc))) with (tan (PI * fc) / tan (PI * f)) in R1 by (field; lra). exact R1.
    - specialize (R1 0 ltac:(lra)). rewrite Rmult_0_r, tan_0 in R1. replace (0 / tan (PI * fc)) with 0 in R1 by (field; lra).
      cbn [gain2] in R1. destruct (Req_EM_T 0 0); [exact R1|congruence].
    - cbn [gain2] in R2. rewrite rej2_eq in R2 by exact Hd. exact R2.
  Qed.
  Lemma c34_high t n FO req fc db (q : params XS) : (1 <= n)%nat -> (Z.of_nat n <= FO)%Z -> in_int (2 * Z.of_nat n) = true ->
    requested FO req n -> q_fc q = XR fc -> 0 < fc < 1 / 2 -> q_db q = XR db -> 0 < db ->
    exists fl, filt_setupN (N := XS) (Ch2, HP) FO req q (filt_init t (Ch2, HP) FO) = Ok fl tt /\
      (forall f, 0 <= f < 1 / 2 -> responds fl f (rej2 n db (tan (PI * f) / tan (PI * fc)))) /\
      responds fl (1 / 2) 1.
  Proof.
    intros Hn HF HI HR EF Hf ED Hd. destruct (highpass Ch2 t n FO req fc db q Hn HF HI HR EF Hf Hd ED) as (fl & E & _ & R1 & R2 & R3).
    destruct (tan_half fc Hf) as (_ & _ & T).
    exists fl. split; [exact E|]. split.
    - intros f H. destruct (Req_dec f 0) as [->|Z].
      + rewrite Rmult_0_r, tan_0. replace (0 / tan (PI * fc)) with 0 by (field; lra). cbn [gain2] in R2.
        rewrite rej2_eq in R2 by exact Hd. exact R2.
      + specialize (R1 f ltac:(lra)). destruct (tan_half f ltac:(lra)) as (_ & _ & T').
        rewrite gain2_c2 in R1 by (try exact Hd; apply Rgt_not_eq, Rdiv_lt_0_compat; assumption).
        replace (1 / (tan (PI * fc) / tan (PI * f))) with (tan (PI * f) / tan (PI * fc)) in R1 by (field; lra). exact R1.
    - cbn [gain2] in R3. destruct (Req_EM_T 0 0); [exact R3|congruence].
  Qed.
  (** the rejection holds from the cutoff on, with equality at the cutoff *)
  Lemma c34_rejection t n FO req fc db (q : params XS) : (1 <= n)%nat -> (Z.of_nat n <= FO)%Z -> in_int (2 * Z.of_nat n) = true ->
    requested FO req n -> q_fc q = XR fc -> 0 < fc < 1 / 2 -> q_db q = XR db -> 0 < db ->
    (exists fl, filt_setupN (N := XS) (Ch2, LP) FO req q (filt_init t (Ch2, LP) FO) = Ok fl tt /\
      responds fl fc (Rpower 10 (- db / 10)) /\
      forall f, fc <= f <= 1 / 2 -> exists m, responds fl f m /\ 0 <= m <= Rpower 10 (- db / 10)) /\
    (exists fl, filt_setupN (N := XS) (Ch2, HP) FO req q (filt_init t (Ch2, HP) FO) = Ok fl tt /\
      responds fl fc (Rpower 10 (- db / 10)) /\
      forall f, 0 <= f <= fc -> exists m, responds fl f m /\ 0 <= m <= Rpower 10 (- db / 10)).
  Proof.
    intros Hn HF HI HR EF Hf ED Hd. destruct (tan_half fc Hf) as (_ & _ & T).
    assert (R1 : tan (PI * fc) / tan (PI * fc) = 1) by (field; lra). split.
    - destruct (c34_low t n FO req fc db q Hn HF HI HR EF Hf ED Hd) as (fl & E & R & _ & R3). exists fl. split; [exact E|]. split.
      + specialize (R fc ltac:(lra)). rewrite R1, rej2_edge in R by exact Hd. exact R.
      + intros f H. destruct (Req_dec f (1 / 2)) as [->|Z].
        * eexists. split; [exact R3|]. apply rej2_bound; [exact Hd|]. rewrite Rabs_R0. lra.
        * eexists. split; [apply R; lra|]. apply rej2_bound; [exact Hd|].
          pose proof (tan_mono fc f ltac:(lra) ltac:(lra)). apply w_le1; lra.
    - destruct (c34_high t n FO req fc db q Hn HF HI HR EF Hf ED Hd) as (fl & E & R & _). exists fl. split; [exact E|]. split.
      + specialize (R fc ltac:(lra)). rewrite R1, rej2_edge in R by exact Hd. exact R.
      + intros f H. eexists. split; [apply R; lra|]. apply rej2_bound; [exact Hd|].
        pose proof (tan_mono f fc ltac:(lra) ltac:(lra)). apply w_le1; lra.
  Qed.
End Final.
