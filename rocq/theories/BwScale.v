(** Proofs: the scale factor of Butterworth low and high pass designs in binary64. *)
From Coq Require Import ZArith List Bool Reals Lra Lia Floats.SpecFloat.
From Coquelicot Require Import Coquelicot.
From Flocq Require Import Core.Zaux Core.Raux Core.Defs Core.Generic_fmt IEEE754.BinarySingleNaN.
From Verif Require Import Num Outcome Types Biquad Cascade Transforms Butterworth PoleFilter Float64 FloatSpec FloatProofs SampleLemmas SigSpec StabProofs
  RoundSpec RoundProofs DblPi DblSpec DblProofs DblLemmas LayoutProofs BuildProofs BuildAny BwDblSpec CplxDbl BwDbl BwDbl2 BwDbl3 BwDblLemmas.
Import ListNotations.
Local Open Scope R_scope.

Lemma mul1_r (x : f64) : is_finite x = true -> is_finite (fmul x (fofZ 1)) = true /\ B2R (fmul x (fofZ 1)) = B2R x.
Proof.
  intros F. destruct (fofZ_val 1 ltac:(lia)) as [V1 V2].
  pose proof (@Bmult_correct 53 1024 Hprec64 Hemax64 mode_NE x (fofZ 1)) as A.
  rewrite V1, Rmult_1_r in A.
  rewrite round_generic in A by (auto with typeclass_instances; apply generic_format_B2R).
  rewrite Rlt_bool_true in A by apply abs_B2R_lt_emax. destruct A as (A1 & A2 & _). split; [rewrite F, V2 in A2; exact A2|exact A1].
Qed.
Lemma coef_one (x a0 : f64) : is_finite x = true -> a0 = fofZ 1 -> is_finite (fdiv (fmul x a0) a0) = true /\ B2R (fdiv (fmul x a0) a0) = B2R x.
Proof. intros F ->. destruct (mul1_r x F) as [A B]. destruct (fdiv_one _ A) as [C D]. split; [exact C|]. rewrite D. exact B. Qed.

(** complex numbers near a positive real number, relative error *)
Definition rap (c : cpx f64) (x d : R) : Prop := cfin c /\ Cmod (c2c c - RtoC x)%C <= d * x.
Lemma rap_mod c x d : 0 < x -> rap c x d -> x * (1 - d) <= Cmod (c2c c) <= x * (1 + d).
Proof.
  intros Hx [_ H]. pose proof (Cmod_triangle (c2c c - RtoC x) (RtoC x))%C as T1. replace (c2c c - RtoC x + RtoC x)%C with (c2c c) in T1 by ring.
  pose proof (Cmod_triangle (c2c c) (- (c2c c - RtoC x)))%C as T2. replace (c2c c + - (c2c c - RtoC x))%C with (RtoC x) in T2 by ring.
  rewrite Cmod_opp in T2. rewrite !Cmod_R, !Rabs_pos_eq in * by lra. lra.
Qed.

Section Scale.
  Variable m : libm.
  Notation FN := (F64 m).

  (** 1 + r1 z + r2, z = 1 or -1 *)
  Lemma poly_ap (v0 v1 v2 : f64) (z1 z2 : cpx f64) r0 r1 r2 z e : (z = 1 \/ z = -1) -> 0 <= e <= / 2 ^ 20 ->
    ap v0 r0 1 0 -> ap v1 r1 2 e -> ap v2 r2 1 e ->
    cap z1 (RtoC z) (16 * uu) -> cap z2 (RtoC 1) (16 * uu) ->
    cap (addmul (N := FN) (addmul (N := FN) (c_of (N := FN) v0) v1 z1) v2 z2) (RtoC (r0 + z * r1 + r2)) (201 / 100 * e + 130 * uu).
  Proof.
    intros Hz He A0 A1 A2 Z1 Z2. pose proof tiny_uu as TU. pose proof tiny_pos as TP. pose proof big_big as BB.
    pose proof (cap_re _ _ _ Z1) as X1. pose proof (cap_im _ _ _ Z1) as Y1. pose proof (cap_re _ _ _ Z2) as X2. pose proof (cap_im _ _ _ Z2) as Y2.
    cbn [fst snd RtoC] in *.
    assert (X1' : ap (re z1) z 1 (16 * uu)). { destruct X1 as (B1 & B2 & _). split; [exact B1|]. split; [exact B2|]. destruct Hz as [-> | ->]; [rewrite Rabs_R1|rewrite Rabs_left]; lra. }
    assert (X2' : ap (re z2) 1 1 (16 * uu)). { destruct X2 as (B1 & B2 & _). split; [exact B1|]. split; [exact B2|]. rewrite Rabs_R1; lra. }
    assert (Y1' : ap (im z1) 0 0 (16 * uu)). { destruct Y1 as (B1 & B2 & _). split; [exact B1|]. split; [exact B2|]. rewrite Rabs_R0; lra. }
    assert (Y2' : ap (im z2) 0 0 (16 * uu)). { destruct Y2 as (B1 & B2 & _). split; [exact B1|]. split; [exact B2|]. rewrite Rabs_R0; lra. }
    assert (ZZ : ap (fofZ 0) 0 0 0). { apply (ap_ofZ 0 0); [lia|rewrite Rabs_R0; lra]. }
    assert (UE : uu * e <= uu * / 2 ^ 20) by (apply Rmult_le_compat_l; unfold uu; lra).
    assert (UU : 0 < uu <= / 2 ^ 50) by (unfold uu; lra).
    assert (M1 : ap (fmul v1 (re z1)) (r1 * z) 2 (1001 / 1000 * e + 35 * uu)).
    { eapply ap_weak; [apply (ap_mul2 _ _ _ _ _ _ _ _ A1 X1')|lra|]; unfold uu in *; lra. }
    assert (M2 : ap (fmul v2 (re z2)) (r2 * 1) 1 (1001 / 1000 * e + 18 * uu)).
    { eapply ap_weak; [apply (ap_mul2 _ _ _ _ _ _ _ _ A2 X2')|lra|]; unfold uu in *; lra. }
    assert (N1 : ap (fmul v1 (im z1)) (r1 * 0) 0 (33 * uu)).
    { eapply ap_weak; [apply (ap_mul2 _ _ _ _ _ _ _ _ A1 Y1')|lra|]; unfold uu in *; lra. }
    assert (N2 : ap (fmul v2 (im z2)) (r2 * 0) 0 (17 * uu)).
    { eapply ap_weak; [apply (ap_mul2 _ _ _ _ _ _ _ _ A2 Y2')|lra|]; unfold uu in *; lra. }
    assert (S1 : ap (fadd v0 (fmul v1 (re z1))) (r0 + r1 * z) 3 (1002 / 1000 * e + 39 * uu)).
    { eapply ap_weak; [apply (ap_add _ _ _ _ _ _ _ _ A0 M1)|lra|]; unfold uu in *; lra. }
    assert (S2 : ap (fadd (fadd v0 (fmul v1 (re z1))) (fmul v2 (re z2))) (r0 + r1 * z + r2 * 1) 4 (201 / 100 * e + 63 * uu)).
    { eapply ap_weak; [apply (ap_add _ _ _ _ _ _ _ _ S1 M2)|lra|]; unfold uu in *; lra. }
    assert (I1 : ap (fadd (fofZ 0) (fmul v1 (im z1))) (0 + r1 * 0) 0 (34 * uu)).
    { eapply ap_weak; [apply (ap_add _ _ _ _ _ _ _ _ ZZ N1)|lra|]; unfold uu in *; lra. }
    assert (I2 : ap (fadd (fadd (fofZ 0) (fmul v1 (im z1))) (fmul v2 (im z2))) (0 + r1 * 0 + r2 * 0) 0 (53 * uu)).
    { eapply ap_weak; [apply (ap_add _ _ _ _ _ _ _ _ I1 N2)|lra|]; unfold uu in *; lra. }
    destruct S2 as (F1 & E1 & _), I2 as (F2 & E2 & _).
    split; [split; [exact F1|exact F2]|]. unfold c2c, addmul, c_of. cbn [re im nadd nmul n0 nofZ F64].
    match goal with |- Cmod (Cminus (?x, ?y) _) <= _ => apply Rle_trans with (Rabs (x - (r0 + z * r1 + r2)) + Rabs (y - 0)) end.
    - match goal with |- Cmod (Cminus (?x, ?y) (RtoC ?r)) <= _ => replace (Cminus (x, y) (RtoC r)) with (Cplus (RtoC (x - r)) (Cmult (0, 1) (RtoC (y - 0)))) end.
      + eapply Rle_trans; [apply Cmod_triangle|]. rewrite Cmod_mult, !Cmod_R. apply Rplus_le_compat_l.
        replace (Cmod (0, 1)) with 1; [lra|]. unfold Cmod. cbn [fst snd]. replace (0 ^ 2 + 1 ^ 2) with 1 by ring. symmetry. apply sqrt_1.
      + unfold Cminus, Cplus, Cmult, Copp, RtoC. cbn [fst snd]. f_equal; ring.
    - replace (r0 + r1 * z + r2 * 1) with (r0 + z * r1 + r2) in E1 by ring. replace (0 + r1 * 0 + r2 * 0) with 0 in E2 by ring. eapply Rle_trans; [apply Rplus_le_compat; [exact E1|exact E2]|]. unfold uu in *. lra.
  Qed.

  Hypothesis HR : libm_response m.
  Lemma rap_mul a b x y al be : 0 < x -> 0 < y -> rap a x al -> rap b y be -> 0 <= al <= / 8 -> 0 <= be <= / 8 -> x <= 2 ^ 300 -> y <= 2 ^ 300 -> / 2 ^ 800 <= x * y ->
    rap (lm_cmul m a b) (x * y) (al + 9 / 8 * be + / 2 ^ 46).
  Proof.
    intros Hx Hy A B Ha Hb X3 Y3 L. pose proof (rap_mod _ _ _ Hx A) as MA. pose proof (rap_mod _ _ _ Hy B) as MB. destruct A as [Fa Ea], B as [Fb Eb].
    assert (P3 : 2 ^ 300 * (9 / 8) <= 2 ^ 400). { assert (2 ^ 301 <= 2 ^ 400) by (apply Rle_pow; [lra|lia]). rewrite (pow_add 2 300 1 : 2 ^ 301 = _) in H. assert (0 < 2 ^ 300) by (apply pow_lt; lra). lra. }
    assert (MA2 : Cmod (c2c a) <= x * (9 / 8)) by (eapply Rle_trans; [apply MA|apply Rmult_le_compat_l; lra]).
    assert (MB2 : Cmod (c2c b) <= y * (9 / 8)) by (eapply Rle_trans; [apply MB|apply Rmult_le_compat_l; lra]).
    destruct HR as [HC _]. destruct (HC a b Fa Fb ltac:(lra) ltac:(lra)) as [F E]. split; [exact F|].
    replace (c2c (lm_cmul m a b) - RtoC (x * y))%C with ((c2c (lm_cmul m a b) - c2c a * c2c b) + ((c2c a - RtoC x) * RtoC y + c2c a * (c2c b - RtoC y)))%C by (rewrite RtoC_mult; ring).
    eapply Rle_trans; [apply Cmod_triangle|]. eapply Rle_trans; [apply Rplus_le_compat; [exact E|apply Cmod_triangle]|]. rewrite !Cmod_mult, Cmod_R, (Rabs_pos_eq y) by lra.
    pose proof (Cmod_ge_0 (c2c a)) as A0. pose proof (Cmod_ge_0 (c2c b)) as B0.
    assert (T1 : Cmod (c2c a - RtoC x)%C * y <= al * x * y) by (apply Rmult_le_compat_r; lra).
    assert (T2 : Cmod (c2c a) * Cmod (c2c b - RtoC y)%C <= x * (9 / 8) * (be * y)) by (apply Rmult_le_compat; auto using Cmod_ge_0).
    assert (T3 : Cmod (c2c a) * Cmod (c2c b) <= x * (9 / 8) * (y * (9 / 8))) by (apply Rmult_le_compat; auto).
    assert (T4 : / 2 ^ 900 <= / 2 ^ 50 * (x * y)). { apply Rle_trans with (/ 2 ^ 50 * / 2 ^ 800); [|apply Rmult_le_compat_l; lra]. rewrite <- Rinv_mult, <- pow_add. apply Rinv_le; [apply pow_lt; lra|apply Rle_pow; [lra|lia]]. }
    assert (T5 : 0 < x * y) by (apply Rmult_lt_0_compat; assumption).
    unfold Rdiv in *. lra.
  Qed.

  Notation rprod l := (fold_right Rmult 1 l).
  (** the loop of Cascade::response *)
  Lemma loop_rap z1 z2 d (Hd : 0 <= d <= / 8) : forall (bs : list (biquad FN)) (l : list (R * R)) rest,
    Forall2 (fun b tb => rap (stage_top (N := FN) z1 z2 b) (fst tb) d /\ rap (stage_bot (N := FN) z1 z2 b) (snd tb) d /\
      / 2 ^ 28 <= fst tb <= 4 /\ / 2 ^ 28 <= snd tb <= 4) bs l ->
    forall ch cb x y al L U, rap ch x al -> rap cb y al -> 0 <= al -> al + INR (length bs) * (9 / 8 * d + / 2 ^ 46) <= / 8 ->
    0 < L -> L <= x <= U -> L <= y <= U -> U * 4 ^ length bs <= 2 ^ 300 -> / 2 ^ 800 <= L * (/ 2 ^ 28) ^ length bs ->
    exists ch' cb', resp_loop (N := FN) z1 z2 (bs ++ rest) (length bs) ch cb = Val (ch', cb') /\
      rap ch' (x * rprod (map fst l)) (al + INR (length bs) * (9 / 8 * d + / 2 ^ 46)) /\
      rap cb' (y * rprod (map snd l)) (al + INR (length bs) * (9 / 8 * d + / 2 ^ 46)) /\
      L * (/ 2 ^ 28) ^ length bs <= x * rprod (map fst l) <= U * 4 ^ length bs /\
      L * (/ 2 ^ 28) ^ length bs <= y * rprod (map snd l) <= U * 4 ^ length bs.
  Proof.
    assert (P28 : 0 < / 2 ^ 28 < 1) by lra.
    intros bs l rest F. induction F as [|b [t u] bs l (H1 & H2 & H3 & H4) F IH]; intros ch cb x y al L U A B Ha HS HL HX HY HU HLo.
    - exists ch, cb. cbn [length map fold_right app resp_loop INR] in *. rewrite !(pow_O 4), !(pow_O (/ 2 ^ 28)) in *. rewrite !Rmult_1_r, Rmult_0_l, Rplus_0_r in *. split; [destruct rest; reflexivity|]. split; [exact A|]. split; [exact B|]. split; assumption.
    - cbn [app length resp_loop map fold_right fst snd] in *. change (ncmul FN) with (lm_cmul m).
      set (D := 9 / 8 * d + / 2 ^ 46) in *. assert (D0 : 0 < D) by (unfold D; lra).
      rewrite S_INR in HS. pose proof (pos_INR (length bs)) as I0. assert (ID : 0 <= INR (length bs) * D) by (apply Rmult_le_pos; lra).
      rewrite <- (tech_pow_Rmult 4) in HU; rewrite <- (tech_pow_Rmult (/ 2 ^ 28)) in HLo. assert (P4 : 1 <= 4 ^ length bs) by (apply pow_R1_Rle; lra). assert (PL : 0 < (/ 2 ^ 28) ^ length bs <= 1).
      { split; [apply pow_lt; lra|]. rewrite <- (pow1 (length bs)). apply pow_incr. lra. }
      assert (U4 : U <= 2 ^ 300). { apply Rle_trans with (U * (4 * 4 ^ length bs)); [|exact HU]. rewrite <- (Rmult_1_r U) at 1. apply Rmult_le_compat_l; lra. }
      assert (L28 : / 2 ^ 800 <= L * / 2 ^ 28). { eapply Rle_trans; [exact HLo|]. apply Rmult_le_compat_l; [lra|]. apply Rle_trans with (/ 2 ^ 28 * 1); [apply Rmult_le_compat_l; lra|lra]. }
      assert (F4 : 4 <= 2 ^ 300). { apply Rle_trans with (2 ^ 2); [lra|apply Rle_pow; [lra|lia]]. }
      assert (XT : L * / 2 ^ 28 <= x * t <= U * 4) by (split; apply Rmult_le_compat; lra).
      assert (YU : L * / 2 ^ 28 <= y * u <= U * 4) by (split; apply Rmult_le_compat; lra).
      pose proof (rap_mul ch (stage_top (N := FN) z1 z2 b) x t al d ltac:(lra) ltac:(lra) A H1 ltac:(lra) Hd ltac:(lra) ltac:(lra) ltac:(lra)) as A'.
      pose proof (rap_mul cb (stage_bot (N := FN) z1 z2 b) y u al d ltac:(lra) ltac:(lra) B H2 ltac:(lra) Hd ltac:(lra) ltac:(lra) ltac:(lra)) as B'.
      replace (al + 9 / 8 * d + / 2 ^ 46) with (al + D) in A', B' by (unfold D; ring).
      destruct (IH (lm_cmul m ch (stage_top (N := FN) z1 z2 b)) (lm_cmul m cb (stage_bot (N := FN) z1 z2 b)) (x * t) (y * u) (al + D) (L * / 2 ^ 28) (U * 4) A' B') as (ch' & cb' & E & R1 & R2 & R3 & R4); try lra.
      exists ch', cb'. split; [exact E|]. rewrite S_INR. rewrite <- (tech_pow_Rmult 4), <- (tech_pow_Rmult (/ 2 ^ 28)).
      replace (al + (INR (length bs) + 1) * D) with (al + D + INR (length bs) * D) by ring.
      rewrite <- !Rmult_assoc. split; [exact R1|]. split; [exact R2|]. split; assumption.
  Qed.

  Hypothesis HD : cdiv_close (lm_cdiv m).
  (** the gain of the prototype over the modulus of the response *)
  Lemma scale_final_g G g p ch cb x y al : rap ch x al -> rap cb y al -> 0 <= al <= / 32 -> / 2 ^ 340 <= x <= 2 ^ 30 -> / 2 ^ 340 <= y <= 2 ^ 30 ->
    ap G g g (p * g) -> / 2 ^ 30 <= g <= 1 -> 0 <= p <= / 2 ^ 40 ->
    ap (fdiv G (lm_cabs m (lm_cdiv m ch cb))) (g * (y / x)) (g * (y / x)) ((247 / 100 * al + 2 * p + 100 * uu) * (g * (y / x))).
  Proof.
    intros A B Ha Hx Hy AG Hg Hp. pose proof tiny_uu as TU. pose proof tiny_pos as TP. pose proof big_big as BB.
    assert (U0 : 0 < uu <= / 2 ^ 53) by (unfold uu; lra).
    assert (C0 : 0 < / 2 ^ 340) by (apply Rinv_0_lt_compat, pow_lt; lra).
    assert (X0 : 0 < x) by lra. assert (Y0 : 0 < y) by lra.
    set (Q := x / y). assert (Q0 : 0 < Q) by (unfold Q; apply Rdiv_lt_0_compat; lra).
    assert (CP : 2 ^ 340 * 2 ^ 30 = 2 ^ 370) by (rewrite <- pow_add; reflexivity).
    assert (IY : / y <= 2 ^ 340). { rewrite <- (Rinv_inv (2 ^ 340)). apply Rinv_le; lra. }
    assert (IX : / x <= 2 ^ 340). { rewrite <- (Rinv_inv (2 ^ 340)). apply Rinv_le; lra. }
    assert (IY0 : 0 < / y) by (apply Rinv_0_lt_compat; lra). assert (IX0 : 0 < / x) by (apply Rinv_0_lt_compat; lra).
    assert (QU : Q <= 2 ^ 370). { unfold Q, Rdiv. rewrite <- CP, (Rmult_comm (2 ^ 340)). apply Rmult_le_compat; lra. }
    assert (IQ : / Q = y / x) by (unfold Q; field; lra).
    assert (QI : / Q <= 2 ^ 370). { rewrite IQ. unfold Rdiv. rewrite <- CP, (Rmult_comm (2 ^ 340)). apply Rmult_le_compat; lra. }
    assert (IQ0 : 0 < / Q) by (apply Rinv_0_lt_compat; lra).
    assert (TQ : / 2 ^ 900 <= / 2 ^ 60 * Q).
    { apply Rle_trans with (/ 2 ^ 60 * / 2 ^ 370); [rewrite <- Rinv_mult, <- pow_add; apply Rinv_le; [apply pow_lt; lra|apply Rle_pow; [lra|lia]]|].
      apply Rmult_le_compat_l; [lra|]. rewrite <- (Rinv_inv Q). apply Rinv_le; lra. }
    assert (TQ' : tiny <= / 2 ^ 60 * / Q).
    { unfold tiny. apply Rle_trans with (/ 2 ^ 60 * / 2 ^ 370); [rewrite <- Rinv_mult, <- pow_add; apply Rinv_le; [apply pow_lt; lra|apply Rle_pow; [lra|lia]]|].
      apply Rmult_le_compat_l; [lra|]. apply Rinv_le; lra. }
    assert (W400 : 2 ^ 30 * 2 <= 2 ^ 400). { replace (2 ^ 30 * 2) with (2 ^ 31) by ring. apply Rle_pow; [lra|lia]. }
    assert (X400 : 2 ^ 370 * 2 <= 2 ^ 400). { replace (2 ^ 370 * 2) with (2 ^ 371) by (rewrite (pow_add 2 370 1 : 2 ^ 371 = _); ring). apply Rle_pow; [lra|lia]. }
    assert (CM : forall r, 0 < r -> Cmod (RtoC r) = r) by (intros r Hr; rewrite Cmod_R, Rabs_pos_eq; lra).
    assert (AX : al * x <= / 32 * x) by (apply Rmult_le_compat_r; lra). assert (AY : al * y <= / 32 * y) by (apply Rmult_le_compat_r; lra).
    assert (L400 : / 2 ^ 400 <= / 2 * / 2 ^ 340). { rewrite <- (pow_1 2) at 2. rewrite <- Rinv_mult, <- pow_add. apply Rinv_le; [apply pow_lt; lra|apply Rle_pow; [lra|lia]]. }
    assert (QE : (RtoC x / RtoC y)%C = RtoC Q) by (unfold Q; rewrite RtoC_div by lra; reflexivity).
    pose proof (cap_div m ch cb (RtoC x) (RtoC y) (al * x) (al * y) y Q (16 / 7 * al * Q) HD A B ltac:(rewrite CM; lra) ltac:(lra) ltac:(lra) ltac:(rewrite CM; lra) ltac:(rewrite CM; lra)
      ltac:(rewrite QE, CM; lra)) as DV.
    rewrite QE in DV. specialize (DV ltac:(unfold Q; replace (16 / 7 * al * (x / y) * (y - al * y)) with (16 / 7 * (al * x) * (1 - al)) by (field; lra);
      replace (al * x + x / y * (al * y)) with (2 * (al * x)) by (field; lra); replace (16 / 7 * (al * x) * (1 - al)) with ((al * x) * (16 / 7 * (1 - al))) by ring; rewrite (Rmult_comm 2); apply Rmult_le_compat_l; [apply Rmult_le_pos; lra|lra])).
    set (q := lm_cdiv m ch cb) in *. destruct DV as [Fq Eq].
    assert (AQ : 0 <= al * Q <= / 32 * Q) by (split; [apply Rmult_le_pos; lra|apply Rmult_le_compat_r; lra]).
    assert (UQ : 0 < uu * Q) by (apply Rmult_lt_0_compat; lra).
    assert (E1 : Cmod (c2c q - RtoC Q)%C <= (16 / 7 * al + 43 * uu) * Q).
    { eapply Rle_trans; [exact Eq|]. assert (uu * (al * Q) <= uu * (/ 32 * Q)) by (apply Rmult_le_compat_l; lra). unfold uu in *. lra. }
    assert (RQ : rap q Q (16 / 7 * al + 43 * uu)) by (split; assumption).
    pose proof (rap_mod _ _ _ Q0 RQ) as MQ. set (e1 := 16 / 7 * al + 43 * uu) in *. assert (E1B : 0 <= e1 <= / 13) by (unfold e1; unfold uu; lra).
    assert (MQ2 : Cmod (c2c q) <= Q * (14 / 13)) by (eapply Rle_trans; [apply MQ|apply Rmult_le_compat_l; lra]).
    destruct HR as [_ HA]. destruct (HA q Fq ltac:(lra)) as [Fh Eh]. set (h := lm_cabs m q) in *.
    set (e2 := 16 / 7 * al + 90 * uu).
    assert (AH : ap h Q Q (e2 * Q)).
    { split; [exact Fh|]. split; [|rewrite Rabs_pos_eq; lra]. replace (B2R h - Q) with ((B2R h - Cmod (c2c q)) + (Cmod (c2c q) - Q)) by ring.
      eapply Rle_trans; [apply Rabs_triang|]. assert (Rabs (Cmod (c2c q) - Q) <= e1 * Q) by (apply Rabs_le; lra). unfold e2. unfold e1 in *. unfold uu in *. lra. }
    assert (E2B : 0 < e2 <= 72 / 1000) by (unfold e2; unfold uu in *; lra).
    assert (EQ2 : e2 * Q <= / 13 * Q) by (apply Rmult_le_compat_r; lra).
    assert (NE : 0 < 1 - e2) by lra. set (W := g * / Q). assert (PI9 : 0 < / 2 ^ 30) by lra. assert (W0 : 0 < W) by (unfold W; apply Rmult_lt_0_compat; lra).
    assert (WQ : W <= / Q) by (unfold W; rewrite <- (Rmult_1_l (/ Q)) at 2; apply Rmult_le_compat_r; lra).
    assert (WT : tiny <= / 2 ^ 60 * W).
    { unfold W. apply Rle_trans with (/ 2 ^ 60 * (/ 2 ^ 30 * / 2 ^ 370)); [|apply Rmult_le_compat_l; [lra|]; apply Rmult_le_compat; [lra|left; apply Rinv_0_lt_compat, pow_lt; lra|lra|apply Rinv_le; lra]].
      unfold tiny. rewrite <- !Rinv_mult, <- !pow_add. apply Rinv_le; [apply pow_lt; lra|apply Rle_pow; [lra|lia]]. }
    assert (K : (p + e2) / (1 - e2) <= 108 / 100 * (p + e2)). { apply Rmult_le_reg_r with (1 - e2); [lra|]. unfold Rdiv. rewrite Rmult_assoc, Rinv_l, Rmult_1_r by lra.
      replace (108 * / 100 * (p + e2) * (1 - e2)) with ((p + e2) * (108 / 100 * (1 - e2))) by (unfold Rdiv; ring). rewrite <- (Rmult_1_r (p + e2)) at 1. apply Rmult_le_compat_l; lra. }
    assert (K1 : 0 <= (p + e2) / (1 - e2)) by (apply Rdiv_le_0_compat; lra).
    destruct (ap_div2 G h g Q g Q (p * g) (e2 * Q) Q W ((p + e2) / (1 - e2) * W)) as (F1 & F2 & F3).
    - exact AG.
    - exact AH.
    - rewrite Rabs_pos_eq; lra.
    - lra.
    - unfold Rdiv. fold W. rewrite Rabs_pos_eq; lra.
    - right. unfold W. field. lra.
    - assert ((p + e2) / (1 - e2) * W <= 1 * W) by (apply Rmult_le_compat_r; lra). assert (2 ^ 400 <= big) by (unfold big; apply Rle_pow; [lra|lia]). lra.
    - split; [exact F1|]. replace (g / Q) with W in F2 by reflexivity. rewrite <- IQ. fold W. split; [|rewrite Rabs_pos_eq; lra]. eapply Rle_trans; [exact F2|].
      assert (K2 : (p + e2) / (1 - e2) * W <= 108 / 100 * (p + e2) * W) by (apply Rmult_le_compat_r; lra).
      assert (K4 : uu * (W + (p + e2) / (1 - e2) * W) <= uu * (2 * W)). { apply Rmult_le_compat_l; [lra|]. assert ((p + e2) / (1 - e2) * W <= 1 * W) by (apply Rmult_le_compat_r; lra). lra. }
      assert (K5 : 0 <= al * W) by (apply Rmult_le_pos; lra). assert (K6 : 0 <= p * W) by (apply Rmult_le_pos; lra).
      unfold e2 in *. unfold uu in *. lra.
  Qed.
  Lemma scale_final ch cb x y al : rap ch x al -> rap cb y al -> 0 <= al <= / 32 -> / 2 ^ 340 <= x <= 2 ^ 30 -> / 2 ^ 340 <= y <= 2 ^ 30 ->
    ap (fdiv (fofZ 1) (lm_cabs m (lm_cdiv m ch cb))) (y / x) (y / x) ((247 / 100 * al + 100 * uu) * (y / x)).
  Proof.
    intros A B Ha Hx Hy. pose proof (scale_final_g (fofZ 1) 1 0 ch cb x y al A B Ha Hx Hy) as S. rewrite !Rmult_1_l, !Rmult_0_r, Rplus_0_r in S.
    replace (0 * 1) with 0 in S by ring. apply S; [|lra|lra]. apply (ap_ofZ 1 1); [lia|rewrite Rabs_R1; lra].
  Qed.
End Scale.
