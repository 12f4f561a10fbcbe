(** Proofs: default arguments and resonance of the RBJ filters. *)
From Coq Require Import ZArith List Bool Reals Lra Lia Psatz.
From Coquelicot Require Import Coquelicot.
From Verif Require Import Num Outcome Types Biquad State Cascade PoleFilter RBJ RBJDefaults
  Exact RealNum SigSpec RBJSpec RBJProtoSpec PZSpec SigProofs StabProofs RespProofs SigLemmas LayoutProofs PZProofs CoefLemmas RBJProofs RBJProto
  ChebSpec DesignSpec DesignFinal.
Import ListNotations.
Local Open Scope R_scope.

Lemma cmod2 (x y : R) : Cmod (x, y) ^ 2 = x * x + y * y.
Proof. unfold Cmod. cbn [fst snd]. replace (x ^ 2 + y ^ 2) with (x * x + y * y) by ring. cbn [pow]. rewrite Rmult_1_r. apply sqrt_sqrt. nra. Qed.
Lemma cmod_div2 (a b : C) : b <> RtoC 0 -> Cmod (a / b)%C ^ 2 = Cmod a ^ 2 / Cmod b ^ 2.
Proof. intros H. rewrite Cmod_div by exact H. assert (Cmod b <> 0) by (intros E; apply Cmod_eq_0 in E; contradiction). field. assumption. Qed.
(** the denominator of the low pass at i v *)
Definition res_den (q v : R) : R := (1 - v * v) * (1 - v * v) + v * v / (q * q).
Lemma den_mod q v : q <> 0 -> Cmod (sq (0, v) + (0, v) / RtoC q + RtoC 1)%C ^ 2 = res_den q v.
Proof.
  intros H. replace (sq (0, v) + (0, v) / RtoC q + RtoC 1)%C with ((1 - v * v, v / q) : C).
  - rewrite cmod2. unfold res_den. field. exact H.
  - unfold sq, Cdiv. rewrite <- RtoC_inv by exact H. apply injective_projections; cbn; field; exact H.
Qed.
Lemma res_den_pos q v : q <> 0 -> 0 < res_den q v.
Proof.
  intros H. unfold res_den. assert (E : v * v / (q * q) = (v / q) * (v / q)) by (field; exact H). rewrite E.
  destruct (Req_dec v 0) as [->|V]; [nra|]. assert (v / q <> 0) by (apply Rmult_integral_contrapositive_currified; [exact V|apply Rinv_neq_0_compat; exact H]). set (w := v / q) in *. assert (0 < w * w) by nra. pose proof (Rle_0_sqr (1 - v * v)) as P. unfold Rsqr in P. lra.
Qed.

Section Peak.
  Context {strict : bool}.
  Notation XS := (X strict).
  Notation gain2 b f m := (exists h : C, RBJSpec.responds b f h /\ Cmod h ^ 2 = m).
  Lemma lp_gain f g q (old : biquad XS) : 0 < f < 1 / 2 -> 0 < q ->
    exists b, rbj_setupN (N := XS) R_LowPass (XR f) (XR g) (XR q) old = Ok b tt /\
      (forall f', 0 <= f' < 1 / 2 -> gain2 b f' (1 / res_den q (tan (PI * f') / tan (PI * f)))) /\ gain2 b (1 / 2) 0.
  Proof.
    intros Hf Hq. destruct (c56 R_LowPass f g q old ltac:(discriminate) ltac:(repeat split; lra)) as (b & E & A & B). exists b. split; [exact E|]. split.
    - intros f' H. destruct (A f' H) as [D R]. eexists. split; [exact R|]. rewrite cmod_div2 by exact D. unfold ana_num, ana_den, cook_Q, warp.
      rewrite den_mod by lra. rewrite Cmod_1. f_equal. ring.
    - eexists. split; [exact B|]. cbn [ana_inf]. rewrite Cmod_R, Rabs_R0. ring.
  Qed.
  Lemma hp_gain f g q (old : biquad XS) : 0 < f < 1 / 2 -> 0 < q ->
    exists b, rbj_setupN (N := XS) R_HighPass (XR f) (XR g) (XR q) old = Ok b tt /\
      (forall f', 0 < f' < 1 / 2 -> gain2 b f' (1 / res_den q (tan (PI * f) / tan (PI * f')))) /\ gain2 b 0 0 /\ gain2 b (1 / 2) 1.
  Proof.
    intros Hf Hq. destruct (c56 R_HighPass f g q old ltac:(discriminate) ltac:(repeat split; lra)) as (b & E & A & B). exists b. split; [exact E|].
    destruct (tan_half f Hf) as [HT _]. split; [|split].
    - intros f' H. destruct (A f' ltac:(lra)) as [D R]. eexists. split; [exact R|]. rewrite cmod_div2 by exact D. unfold ana_num, ana_den, cook_Q, warp.
      rewrite den_mod by lra. destruct (tan_half f' H) as [HT' _]. set (T := tan (PI * f)) in *. set (T' := tan (PI * f')) in *.
      assert (N : Cmod (sq (0, T' / T)) ^ 2 = (T' / T) ^ 4) by (unfold sq; rewrite Cmod_mult, Rpow_mult_distr, cmod2; ring). rewrite N.
      pose proof (res_den_pos q (T' / T) ltac:(lra)) as P1. pose proof (res_den_pos q (T / T') ltac:(lra)) as P2.
      assert (M : (T' / T) ^ 4 * res_den q (T / T') = res_den q (T' / T)) by (unfold res_den; field; lra).
rewrite <- M. assert (R4 : 0 < (T' / T) ^ 4) by (apply pow_lt, div_pos; assumption). set (r := (T' / T) ^ 4) in *. set (d := res_den q (T / T')) in *. field. lra.
    - destruct (A 0 ltac:(lra)) as [D R]. eexists. split; [exact R|]. rewrite cmod_div2 by exact D. unfold ana_num, warp.
      rewrite Rmult_0_r, tan_0. unfold sq. replace (0 / tan (PI * f)) with 0 by (field; lra). rewrite Cmod_mult, Rpow_mult_distr, cmod2. unfold Rdiv. ring.
    - eexists. split; [exact B|]. cbn [ana_inf]. rewrite Cmod_1. ring.
  Qed.

  (** C58: resonance *)
  Lemma inv_le a b : 0 < a -> a <= b -> 1 / b <= 1 / a.
  Proof. intros A B. unfold Rdiv. rewrite !Rmult_1_l. apply Rinv_le_contravar; assumption. Qed.
  Lemma sq_half q : 0 < q -> (1 / sqrt 2 < q <-> 1 < 2 * (q * q)).
  Proof.
    intros H. assert (S : 0 < sqrt 2) by (apply sqrt_lt_R0; lra). pose proof (sqrt_sqrt 2 ltac:(lra)) as SS.
    assert (E : 1 / sqrt 2 < q <-> 1 < q * sqrt 2).
    { split; intros L.
      - apply Rmult_lt_reg_r with (/ sqrt 2); [apply Rinv_0_lt_compat; exact S|]. rewrite Rmult_assoc, Rinv_r by lra. lra.
      - apply Rmult_lt_reg_r with (sqrt 2); [exact S|]. unfold Rdiv. rewrite Rmult_assoc, Rinv_l by lra. lra. }
    rewrite E. replace (2 * (q * q)) with ((q * sqrt 2) * (q * sqrt 2)) by (rewrite <- SS at 3; ring). assert (0 < q * sqrt 2) by nra. split; intros; nra.
  Qed.
  Lemma res_flat q v : 0 < q -> 2 * (q * q) <= 1 -> 1 <= res_den q v.
  Proof.
    intros Hq H. unfold res_den. assert (E : v * v * 2 <= v * v / (q * q)).
    { apply Rmult_le_reg_r with (q * q); [nra|]. replace (v * v / (q * q) * (q * q)) with (v * v) by (field; lra). assert (0 <= v * v) by nra. nra. }
    assert (0 <= v * v) by nra. nra.
  Qed.
  Lemma res_peak q v : 0 < q -> res_den q v = (4 * (q * q) - 1) / (4 * q ^ 4) + (v * v - (1 - 1 / (2 * (q * q)))) * (v * v - (1 - 1 / (2 * (q * q)))).
  Proof. intros H. unfold res_den. field. lra. Qed.
  (** a frequency with a given ratio of tangents *)
  Lemma find_freq f v : 0 < f < 1 / 2 -> 0 < v -> exists f', 0 < f' < 1 / 2 /\ tan (PI * f') / tan (PI * f) = v.
  Proof.
    intros Hf Hv. destruct (tan_half f Hf) as [HT _]. pose proof PI_RGT_0 as P. exists (atan (v * tan (PI * f)) / PI).
    replace (PI * (atan (v * tan (PI * f)) / PI)) with (atan (v * tan (PI * f))) by (field; lra). split.
    - pose proof (atan_bound (v * tan (PI * f))) as B. assert (0 < v * tan (PI * f)) by (apply Rmult_lt_0_compat; assumption).
      pose proof (atan_increasing 0 _ H) as B2. rewrite atan_0 in B2. split; [apply div_pos; assumption|].
      apply Rmult_lt_reg_r with PI; [exact P|]. unfold Rdiv at 1. rewrite Rmult_assoc, Rinv_l by lra. lra.
    - rewrite tan_atan. field. lra.
  Qed.
  Notation peak2 q := (4 * q ^ 4 / (4 * (q * q) - 1)).
  Lemma peak_inv q v : 0 < q -> 1 < 2 * (q * q) -> 1 / res_den q v <= peak2 q.
  Proof.
    intros Hq H. replace (peak2 q) with (1 / ((4 * (q * q) - 1) / (4 * q ^ 4))) by (field; split; [lra|nra]).
    apply inv_le; [apply div_pos; [lra|apply Rmult_lt_0_compat; [lra|apply pow_lt; exact Hq]]|]. rewrite res_peak by exact Hq. pose proof (Rle_0_sqr (v * v - (1 - 1 / (2 * (q * q))))) as P. unfold Rsqr in P. lra.
  Qed.
  Lemma peak_at q v : 0 < q -> 1 < 2 * (q * q) -> v * v = 1 - 1 / (2 * (q * q)) -> 1 / res_den q v = peak2 q.
  Proof. intros Hq H E. rewrite res_peak by exact Hq. rewrite E. replace (_ + _ * _) with ((4 * (q * q) - 1) / (4 * q ^ 4)) by ring. field. split; [nra|lra]. Qed.
  Lemma peak_v q : 0 < q -> 1 < 2 * (q * q) -> exists v, 0 < v /\ v * v = 1 - 1 / (2 * (q * q)).
  Proof.
    intros Hq H. assert (P : 0 < 1 - 1 / (2 * (q * q))).
    { assert (1 / (2 * (q * q)) < 1); [|lra]. apply Rmult_lt_reg_r with (2 * (q * q)); [lra|]. unfold Rdiv. rewrite Rmult_assoc, Rinv_l by nra. lra. }
    exists (sqrt (1 - 1 / (2 * (q * q)))). split; [apply sqrt_lt_R0; exact P|apply sqrt_sqrt; lra].
  Qed.
  Lemma gain_fun (b : biquad XS) f m m' : gain2 b f m -> gain2 b f m' -> m = m'.
  Proof. intros (h & R & E) (h' & R' & E'). unfold RBJSpec.responds in *. rewrite R in R'. inversion R'. assert (h = h') by (apply injective_projections; assumption). congruence. Qed.
  Lemma c58 k f g q (old : biquad XS) : k = R_LowPass \/ k = R_HighPass -> 0 < f < 1 / 2 -> 0 < q ->
    exists b, rbj_setupN (N := XS) k (XR f) (XR g) (XR q) old = Ok b tt /\
      (q <= 1 / sqrt 2 -> forall f', 0 <= f' <= 1 / 2 -> exists m, gain2 b f' m /\ m <= 1) /\
      (1 / sqrt 2 < q -> (forall f', 0 <= f' <= 1 / 2 -> exists m, gain2 b f' m /\ m <= peak2 q) /\
        (exists f', 0 < f' < 1 / 2 /\ gain2 b f' (peak2 q)) /\ 1 < peak2 q).
  Proof.
    intros Hk Hf Hq.
    assert (PP : 1 < 2 * (q * q) -> 1 < peak2 q).
    { intros H. apply Rmult_lt_reg_r with (4 * (q * q) - 1); [lra|]. replace (peak2 q * (4 * (q * q) - 1)) with (4 * (q * q) * (q * q)) by (field; lra). nra. }
    pose proof (sq_half q Hq) as SH. pose proof (tan_half f Hf) as [HT _].
    destruct Hk as [-> | ->].
    - destruct (lp_gain f g q old Hf Hq) as (b & E & A & B). exists b. split; [exact E|]. split.
      + intros L f' H. assert (L' : 2 * (q * q) <= 1) by (apply Rnot_lt_le; rewrite <- SH; lra).
        destruct (Rlt_dec f' (1 / 2)) as [H'|H']; [|assert (f' = 1 / 2) as -> by lra; exists 0; split; [exact B|lra]].
        eexists. split; [apply A; lra|]. pose proof (res_flat q (tan (PI * f') / tan (PI * f)) Hq L') as F. replace 1 with (1 / 1) at 2 by field. apply inv_le; lra.
      + intros L. apply SH in L. split; [|split; [|exact (PP L)]].
        * intros f' H. destruct (Rlt_dec f' (1 / 2)) as [H'|H']; [|assert (f' = 1 / 2) as -> by lra; exists 0; split; [exact B|specialize (PP L); lra]].
          eexists. split; [apply A; lra|]. apply peak_inv; assumption.
        * destruct (peak_v q Hq L) as (v & V & EV). destruct (find_freq f v Hf V) as (f' & H & EF). exists f'. split; [exact H|].
          specialize (A f' ltac:(lra)). rewrite EF in A. rewrite (peak_at q v Hq L EV) in A. exact A.
    - destruct (hp_gain f g q old Hf Hq) as (b & E & A & B0 & B). exists b. split; [exact E|]. split.
      + intros L f' H. assert (L' : 2 * (q * q) <= 1) by (apply Rnot_lt_le; rewrite <- SH; lra).
        destruct (Req_dec f' 0) as [->|N0]; [exists 0; split; [exact B0|lra]|].
        destruct (Rlt_dec f' (1 / 2)) as [H'|H']; [|assert (f' = 1 / 2) as -> by lra; exists 1; split; [exact B|lra]].
        eexists. split; [apply A; lra|]. pose proof (res_flat q (tan (PI * f) / tan (PI * f')) Hq L') as F. replace 1 with (1 / 1) at 2 by field. apply inv_le; lra.
      + intros L. apply SH in L. specialize (PP L). split; [|split; [|exact PP]].
        * intros f' H. destruct (Req_dec f' 0) as [->|N0]; [exists 0; split; [exact B0|lra]|].
          destruct (Rlt_dec f' (1 / 2)) as [H'|H']; [|assert (f' = 1 / 2) as -> by lra; exists 1; split; [exact B|lra]].
          eexists. split; [apply A; lra|]. apply peak_inv; assumption.
        * destruct (peak_v q Hq L) as (v & V & EV). destruct (find_freq f (/ v) Hf ltac:(apply Rinv_0_lt_compat; exact V)) as (f' & H & EF). exists f'. split; [exact H|].
          specialize (A f' H). destruct (tan_half f' H) as [HT' _]. replace (tan (PI * f) / tan (PI * f')) with v in A.
          { rewrite (peak_at q v Hq L EV) in A. exact A. }
          replace (tan (PI * f) / tan (PI * f')) with (/ (tan (PI * f') / tan (PI * f))) by (field; lra). rewrite EF. rewrite Rinv_involutive by lra. reflexivity.
  Qed.

  (** C57: default arguments *)
  Lemma onesqrt2_x : onesqrt2 (N := XS) = XR (1 / sqrt 2).
  Proof. unfold onesqrt2. cbn [ndiv nsqrt nofZ X]. rewrite xsqrt_fin by lra. apply xdiv_fin. pose proof (sqrt_lt_R0 2). lra. Qed.
  Lemma c57_ok k f g (old : biquad XS) : rbj_default (N := XS) k <> None -> 0 < f < 1 / 2 ->
    exists b, rbj_setupN_default (N := XS) k (XR f) (XR g) old = Ok b tt /\ fin_bq b /\ stable_bq b.
  Proof.
    intros Hk Hf. unfold rbj_setupN_default. pose proof (sqrt_lt_R0 2 ltac:(lra)) as S2. assert (Q : 0 < 1 / sqrt 2) by (apply div_pos; lra).
    assert (SE : 0 < shelf_E g 1) by (unfold shelf_E; rewrite Rinv_1; replace (1 - 1) with 0 by ring; rewrite Rmult_0_r; lra).
    destruct k; cbn [rbj_default] in *; try congruence; rewrite ?onesqrt2_x; cbn [nofZ X]; apply c29; (split; [exact Hf|split; [lra|first [exact I|exact SE]]]).
  Qed.
  Lemma res_bw v : res_den (1 / sqrt 2) v = 1 + v ^ (2 * 2).
  Proof.
    unfold res_den. pose proof (sqrt_lt_R0 2 ltac:(lra)) as S2. pose proof (sqrt_sqrt 2 ltac:(lra)) as SS.
    replace (v * v / (1 / sqrt 2 * (1 / sqrt 2))) with (v * v * (sqrt 2 * sqrt 2)) by (field; lra). rewrite SS. change (2 * 2)%nat with 4%nat. ring.
  Qed.
  Lemma c57_bw t (kp : rkind * kind) FO f g (q : params XS) (old : biquad XS) : kp = (R_LowPass, (Bw, LP)) \/ kp = (R_HighPass, (Bw, HP)) ->
    (2 <= FO)%Z -> q_fc q = XR f -> 0 < f < 1 / 2 ->
    exists b fl, rbj_setupN_default (N := XS) (fst kp) (XR f) (XR g) old = Ok b tt /\
      filt_setupN (snd kp) FO (Some 2%Z) q (filt_init t (snd kp) FO) = Ok fl tt /\
      forall f', 0 <= f' <= 1 / 2 -> exists h h', bq_response b (XR f') = Val (xc h) /\ filt_response fl (XR f') = Val (xc h') /\ Cmod h = Cmod h'.
  Proof.
    intros Hk HF Eq Hf. pose proof (sqrt_lt_R0 2 ltac:(lra)) as S2. assert (Q : 0 < 1 / sqrt 2) by (apply div_pos; lra).
    assert (SQ : forall h h' : C, Cmod h ^ 2 = Cmod h' ^ 2 -> Cmod h = Cmod h').
    { intros h h' E. pose proof (Cmod_ge_0 h). pose proof (Cmod_ge_0 h'). nra. }
    assert (W : forall (b : biquad XS) (fl : filt XS) f' m, gain2 b f' m -> DesignSpec.responds fl f' m ->
      exists h h', bq_response b (XR f') = Val (xc h) /\ filt_response fl (XR f') = Val (xc h') /\ Cmod h = Cmod h').
    { intros b fl f' m (h & R & E) (h' & R' & E'). exists h, h'. split; [exact R|]. split; [exact R'|]. apply SQ. congruence. }
    destruct Hk as [-> | ->]; cbn [fst snd]; unfold rbj_setupN_default; cbn [rbj_default]; rewrite onesqrt2_x.
    - destruct (lp_gain f g (1 / sqrt 2) old Hf Q) as (b & E & A & B).
      destruct (c32_low t 2%nat FO (Some 2%Z) f q ltac:(lia) ltac:(lia) eq_refl eq_refl Eq Hf) as (fl & E' & A' & B').
      exists b, fl. split; [exact E|]. split; [exact E'|]. intros f' H.
      destruct (Rlt_dec f' (1 / 2)) as [H'|H']; [|assert (f' = 1 / 2) as -> by lra; exact (W _ _ _ _ B B')].
      eapply W; [apply A; lra|]. rewrite res_bw. apply A'. lra.
    - destruct (hp_gain f g (1 / sqrt 2) old Hf Q) as (b & E & A & B0 & B).
      destruct (c32_high t 2%nat FO (Some 2%Z) f q ltac:(lia) ltac:(lia) eq_refl eq_refl Eq Hf) as (fl & E' & A' & B0' & B').
      exists b, fl. split; [exact E|]. split; [exact E'|]. intros f' H.
      destruct (Req_dec f' 0) as [->|N0]; [exact (W _ _ _ _ B0 B0')|].
      destruct (Rlt_dec f' (1 / 2)) as [H'|H']; [|assert (f' = 1 / 2) as -> by lra; exact (W _ _ _ _ B B')].
      eapply W; [apply A; lra|]. rewrite res_bw. apply A'. lra.
  Qed.
End Peak.
