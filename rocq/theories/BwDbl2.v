(** Proofs: Butterworth low and high pass designs in binary64, prewarping, angles and sections. *)
From Coq Require Import ZArith List Bool Reals Lra Lia.
From Coquelicot Require Import Coquelicot.
From Flocq Require Import Core.Raux Core.Defs Core.Generic_fmt IEEE754.BinarySingleNaN.
From Verif Require Import Num Outcome Types Biquad Cascade Transforms Butterworth PoleFilter Float64 FloatSpec FloatProofs SampleLemmas SigSpec StabProofs
  RoundSpec RoundProofs DblPi DblSpec DblProofs DblLemmas LayoutProofs BuildProofs BuildAny BwDblSpec CplxDbl BwDbl.
Import ListNotations.
Local Open Scope R_scope.

Lemma sin_pi_low f : 0 <= f <= 1 / 2 -> f <= sin (PI * f).
Proof.
  intros H. pose proof pi_bounds as P. destruct (Rle_lt_dec (PI * f) 1) as [L|L].
  - pose proof (sin_half (PI * f) ltac:(nra)). nra.
  - pose proof (sin_half 1 ltac:(lra)). apply Rle_trans with (sin 1); [lra|]. apply sin_incr_1; nra.
Qed.
Lemma cos_pi_low f : 0 <= f <= 1 / 2 -> 1 / 2 - f <= cos (PI * f).
Proof. intros H. rewrite cos_sin. replace (PI / 2 + PI * f) with (PI - PI * (1 / 2 - f)) by field. rewrite sin_PI_x. apply sin_pi_low. lra. Qed.
Lemma tan_diff a b : cos a <> 0 -> cos b <> 0 -> tan a - tan b = sin (a - b) / (cos a * cos b).
Proof. intros. rewrite sin_minus. unfold tan. field. auto. Qed.

(** the range of cutoffs *)
Definition cut_ok (f : R) : Prop := / 2 ^ 14 <= f <= 1 / 2 - / 2 ^ 14.
Lemma tan_range f : cut_ok f -> / 2 ^ 14 <= tan (PI * f) <= 2 ^ 14.
Proof.
  intros H. unfold cut_ok in H. assert (E : / 2 ^ 14 = / 16384) by lra. rewrite E in *.
  pose proof (sin_pi_low f ltac:(lra)). pose proof (cos_pi_low f ltac:(lra)). pose proof (SIN_bound (PI * f)). pose proof (COS_bound (PI * f)).
  unfold tan. split; apply Rmult_le_reg_r with (cos (PI * f)); try lra; unfold Rdiv; rewrite ?Rmult_assoc, ?Rinv_l by lra; nra.
Qed.

Section Par.
  Variable m : libm.
  Notation FN := (F64 m).
  Hypothesis HM : libm_design m.

  Section Cut.
  Variable fc : f64.
  Hypothesis Ff : is_finite fc = true.
  Hypothesis Hf : cut_ok (B2R fc).
  Notation t := (tan (PI * B2R fc)).
  Notation v := (uu / (1 - 2 * B2R fc)).
  Lemma v_low : uu <= v <= uu * 8192 .
  Proof.
    unfold cut_ok in Hf. unfold Rdiv. assert (1 <= / (1 - 2 * B2R fc)). { rewrite <- Rinv_1 at 1. apply Rinv_le; lra. }
    assert (/ (1 - 2 * B2R fc) <= / (/ 8192)) by (apply Rinv_le; lra). unfold uu. lra.
  Qed.
  Definition warp : f64 := lm_tan m (fmul (fnorm 7074237752028440 (-51)) fc).
  Lemma warp_ap : ap warp t t (203 / 10 * v * t).
  Proof.
    unfold cut_ok in Hf. pose proof pi_bounds as PB. pose proof tiny_uu as TU. pose proof tiny_pos as TP. pose proof big_big as BB. pose proof v_low as VL.
    set (f := B2R fc) in *. set (V := uu / (1 - 2 * f)) in *. assert (EV : V * (1 - 2 * f) = uu) by (unfold V; field; lra). clearbody V. set (x := PI * f). set (h := 1 / 2 - f).
    assert (A : ap (fmul (fnorm 7074237752028440 (-51)) fc) x 4 (6 * uu * f)).
    { destruct (ap_mul2 _ _ _ _ _ _ _ _ ap_pi (ap_val fc f Ff ltac:(rewrite Rabs_pos_eq; unfold f in *; lra)) ltac:(unfold uu in *; lra)) as (A1 & A2 & A3).
      split; [exact A1|]. split; [|eapply Rle_trans; [exact A3|lra]]. eapply Rle_trans; [exact A2|]. unfold uu in *. lra. }
    destruct A as (A1 & A2 & _). set (xh := B2R (fmul (fnorm 7074237752028440 (-51)) fc)) in *.
    assert (D : Rabs (xh - x) <= 6 * uu * f) by exact A2. set (dl := 6 * uu * f) in *. assert (D0 : 0 < dl <= 6 * uu * / 2) by (unfold dl, uu in *; lra).
    assert (XR : / 2 ^ 15 <= xh <= PI / 2 - / 2 ^ 15).
    { assert (XB : x - dl <= xh <= x + dl) by (revert D; unfold Rabs; destruct (Rcase_abs _); lra).
      assert (X1 : 3 * / 16384 <= x) by (unfold x; apply Rmult_le_compat; lra).
      assert (X2 : x <= PI / 2 - 3 * / 16384). { unfold x. apply Rle_trans with (PI * (1 / 2 - / 16384)); [apply Rmult_le_compat_l; lra|]. lra. }
      unfold uu in *. lra. }
    destruct HM as (HT & _ & _). destruct (HT _ A1 XR) as [T1 T2]. fold xh in T2.
    pose proof (cos_pi_low f ltac:(lra)) as C1. pose proof (sin_pi_low f ltac:(lra)) as S1. fold x in C1, S1. fold h in C1.
    assert (HH : / 16384 <= h) by (unfold h; lra).
    assert (C2 : h * (1 - / 1000000) <= cos xh).
    { pose proof (cos_lip xh x) as CL. assert (cos x - dl <= cos xh) by (revert CL; unfold Rabs at 1; destruct (Rcase_abs _); lra). unfold uu in *. lra. }
    assert (TD : Rabs (tan xh - tan x) <= tan x * (1201 / 100 * V)).
    { rewrite tan_diff by lra. unfold Rdiv. rewrite Rabs_mult.
      assert (S2 : Rabs (sin (xh - x)) <= dl). { pose proof (sin_lip (xh - x) 0) as SL. rewrite sin_0, !Rminus_0_r in SL. lra. }
      assert (CC : 0 < cos xh * cos x) by (apply Rmult_lt_0_compat; lra). rewrite (Rabs_pos_eq (/ _)) by (left; apply Rinv_0_lt_compat; exact CC).
      apply Rle_trans with (dl * / (cos xh * cos x)); [apply Rmult_le_compat_r; [left; apply Rinv_0_lt_compat; exact CC|exact S2]|].
      apply Rmult_le_reg_r with (cos xh * cos x); [exact CC|]. rewrite Rmult_assoc, Rinv_l, Rmult_1_r by lra.
      unfold tan, Rdiv at 1. replace (sin x * / cos x * (1201 * / 100 * V) * (cos xh * cos x)) with (sin x * (1201 / 100 * (V * cos xh))) by (field; lra).
      assert (VH : uu * (1 - / 1000000) / 2 <= V * cos xh).
      { apply Rle_trans with (V * (h * (1 - / 1000000))); [|apply Rmult_le_compat_l; [unfold uu in *; lra|exact C2]].
        rewrite <- EV. unfold h. right. field. }
      unfold dl. apply Rle_trans with (f * (6 * uu)); [lra|]. apply Rmult_le_compat; unfold uu in *; lra. }
    assert (TP2 : 0 < tan x) by (unfold tan, Rdiv; apply Rmult_lt_0_compat; [lra|apply Rinv_0_lt_compat; lra]).
    assert (TV : tan x * (1201 / 100 * V) <= tan x * / 1000) by (apply Rmult_le_compat_l; [lra|unfold uu in *; lra]).
    split; [exact T1|]. split; [|rewrite Rabs_pos_eq; [right; reflexivity|lra]].
    unfold warp. replace (B2R (lm_tan m (fmul (fnorm 7074237752028440 (-51)) fc)) - tan x) with ((B2R (lm_tan m (fmul (fnorm 7074237752028440 (-51)) fc)) - tan xh) + (tan xh - tan x)) by ring.
    eapply Rle_trans; [apply Rabs_triang|].
    assert (TX : tan xh <= tan x + tan x * / 1000) by (revert TD; unfold Rabs; destruct (Rcase_abs _); lra).
    assert (U8 : tan xh / 2 ^ 50 <= tan x * (82 / 10 * uu)) by (unfold uu; lra).
    assert (U9 : tan x * (82 / 10 * uu) <= tan x * (82 / 10 * V)) by (apply Rmult_le_compat_l; lra). assert (0 <= tan x * V) by (apply Rmult_le_pos; unfold uu in *; lra). lra.
  Qed.
  Lemma t_rng : / 16384 <= t <= 16384.
  Proof. pose proof (tan_range _ Hf). lra. Qed.
  Definition warp1 : f64 := fdiv (fofZ 1) warp.
  Lemma warp1_ap : ap warp1 (/ t) (/ t) (22 * v * / t).
  Proof.
    pose proof warp_ap as WA. pose proof t_rng as TR. pose proof v_low as VL. set (V := uu / (1 - 2 * B2R fc)) in *. clearbody V. set (ti := tan (PI * B2R fc)) in *. pose proof tiny_uu as TU. pose proof big_big as BB.
    assert (IT : / 16384 <= / ti) by (apply Rinv_le; lra). assert (IT2 : / ti <= / / 16384) by (apply Rinv_le; lra). rewrite Rinv_inv in IT2.
    destruct (ap_div2 (fofZ 1) warp 1 ti 1 ti 0 (203 / 10 * V * ti) ti (/ ti) (204 / 10 * V * / ti)) as (A1 & A2 & A3).
    - apply (ap_ofZ 1 1); [lia|rewrite Rabs_pos_eq; lra].
    - exact WA.
    - rewrite Rabs_pos_eq; lra.
    - assert (203 / 10 * V * ti <= 1 / 1000 * ti) by (apply Rmult_le_compat_r; unfold uu in *; lra). lra.
    - unfold Rdiv. rewrite Rmult_1_l, Rabs_pos_eq; lra.
    - replace (0 + / ti * (203 / 10 * V * ti)) with (203 / 10 * V) by (field; lra).
      replace (204 / 10 * V * / ti * (ti - 203 / 10 * V * ti)) with (204 / 10 * V * (1 - 203 / 10 * V)) by (field; lra).
      assert (0 <= V * (1 / 10 - 204 / 10 * (203 / 10 * V))) by (apply Rmult_le_pos; unfold uu in *; lra). lra.
    - assert (204 / 10 * V * / ti <= 1 * / ti) by (apply Rmult_le_compat_r; unfold uu in *; lra). lra.
    - split; [exact A1|]. unfold Rdiv in A2. rewrite Rmult_1_l in A2. split; [|rewrite Rabs_pos_eq; lra]. eapply Rle_trans; [exact A2|].
      assert (V1 : V * / ti <= 1 / 1000 * / ti) by (apply Rmult_le_compat_r; unfold uu in *; lra).
      assert (V2 : uu * / ti <= V * / ti) by (apply Rmult_le_compat_r; lra).
      unfold uu in *. lra.
  Qed.
  End Cut.

  (** angles *)
  Lemma pi2_ap : ap (fnorm 7074237752028440 (-52)) (PI / 2) (8 / 5) uu.
  Proof.
    destruct (fnorm_exact 7074237752028440 (-52) ltac:(lia) ltac:(lia)) as [A B]. split; [exact B|]. rewrite A. unfold F2R. cbn [Fnum Fexp].
    change (bpow Zaux.radix2 (-52)) with (/ IZR (Z.pow_pos 2 52)). pose proof pi_bounds as P. change (Z.pow_pos 2 52) with 4503599627370496%Z.
    unfold uu. split; apply Rabs_le; lra.
  Qed.
  Lemma angle_ap n i : (Z.of_nat n <= 32768)%Z -> (i < n / 2)%nat ->
    ap (fadd (fnorm 7074237752028440 (-52)) (fdiv (fmul (fofZ (2 * Z.of_nat i + 1)) (fnorm 7074237752028440 (-51))) (fofZ (2 * Z.of_nat n)))) (bw_angle n i) 4 (10 * uu).
  Proof.
    intros Hn Hi. pose proof pi_bounds as PB. pose proof tiny_uu as TU. pose proof tiny_pos as TP. pose proof big_big as BB.
    assert (HI : (2 * i + 1 <= n)%nat). { pose proof (Nat.div_mod n 2 ltac:(lia)). lia. }
    set (k := 2 * INR i + 1). set (d := 2 * INR n).
    assert (EK : IZR (2 * Z.of_nat i + 1) = k) by (rewrite plus_IZR, mult_IZR, <- INR_IZR_INZ; reflexivity).
    assert (ED : IZR (2 * Z.of_nat n) = d) by (rewrite mult_IZR, <- INR_IZR_INZ; reflexivity).
    assert (I0 : 0 <= INR i) by apply pos_INR. assert (KD : 1 <= k <= d / 2).
    { unfold k, d. apply le_INR in HI. rewrite plus_INR, mult_INR in HI. simpl in HI. split; lra. }
    assert (DB : d <= 65536). { unfold d. rewrite INR_IZR_INZ. apply IZR_le in Hn. lra. }
    assert (A1 : ap (fmul (fofZ (2 * Z.of_nat i + 1)) (fnorm 7074237752028440 (-51))) (k * PI) (k * (7 / 2)) (6 * uu * k)).
    { assert (AK : ap (fofZ (2 * Z.of_nat i + 1)) (IZR (2 * Z.of_nat i + 1)) k 0).
      { apply ap_ofZ; [clear - Hn HI; lia|]. rewrite EK, Rabs_pos_eq; lra. }
      rewrite EK in AK. destruct (ap_mul2 _ _ _ _ _ _ _ _ AK ap_pi ltac:(unfold uu; lra)) as (B1 & B2 & B3).
      split; [exact B1|]. split; [|exact B3]. eapply Rle_trans; [exact B2|]. unfold uu in *. lra. }
    assert (AD : ap (fofZ (2 * Z.of_nat n)) d d 0).
    { rewrite <- ED at 1. apply ap_ofZ; [clear - Hn; lia|]. rewrite ED, Rabs_pos_eq; lra. }
    assert (A2 : ap (fdiv (fmul (fofZ (2 * Z.of_nat i + 1)) (fnorm 7074237752028440 (-51))) (fofZ (2 * Z.of_nat n))) (k * PI / d) 2 (52 / 10 * uu)).
    { eapply ap_weak; [eapply (ap_div2 _ _ _ _ _ d _ 0 d 2 (3 * uu)); [exact A1|exact AD|..]|..].
      - rewrite Rabs_pos_eq; lra.
      - lra.
      - unfold Rdiv. rewrite Rabs_pos_eq.
        + apply Rmult_le_reg_r with d; [lra|]. rewrite Rmult_assoc, Rinv_l by lra. nra.
        + apply Rmult_le_pos; [nra|left; apply Rinv_0_lt_compat; lra].
      - unfold uu. lra.
      - unfold uu. lra.
      - lra.
      - unfold uu in *. lra. }
    unfold bw_angle. fold k d. eapply ap_weak; [eapply ap_add; [exact pi2_ap|exact A2|]|..]; unfold uu in *; lra.
  Qed.
  Lemma cis_lip a b : Cmod ((cos a, sin a) - (cos b, sin b))%C <= 2 * Rabs (a - b).
  Proof.
    eapply Rle_trans; [apply (Cmod_dom _ _ 0%C 0 (Rabs (a - b)))|]; cbn [fst snd]; try lra; try apply Rabs_pos.
    - rewrite Rmult_0_l, Rplus_0_l. apply cos_lip.
    - rewrite Rmult_0_l, Rplus_0_l. apply sin_lip.
  Qed.
  Lemma bw_pt_ap n i : (Z.of_nat n <= 32768)%Z -> (i < n / 2)%nat -> exists c, bw_pt (N := FN) n i = Some c /\ cap c (cos (bw_angle n i), sin (bw_angle n i)) (28 * uu).
  Proof.
    intros Hn Hi. destruct (angle_ap n i Hn Hi) as (A1 & A2 & A3). destruct HM as (_ & HP & _).
    unfold bw_pt. cbn [npolar nofZ nadd ndiv nmul npi npi_2 F64].
    set (th := fadd _ _) in *. destruct (HP th A1) as (c & E & F & G).
    { replace (B2R th) with ((B2R th - bw_angle n i) + bw_angle n i) by ring. eapply Rle_trans; [apply Rabs_triang|]. unfold uu in *. lra. }
    exists c. split; [exact E|]. eapply cap_weak; [apply (cap_trans _ _ _ _ (2 * (10 * uu)) (conj F G))|].
    - eapply Rle_trans; [apply cis_lip|]. lra.
    - unfold uu. lra.
  Qed.
End Par.

(** poles of the ideal sections *)
Lemma bil_val x y : (1 - x) ^ 2 + y ^ 2 <> 0 -> let d := (1 - x) ^ 2 + y ^ 2 in
  ((1 + (x, y)) / (1 - (x, y)))%C = ((1 - x ^ 2 - y ^ 2) / d, 2 * y / d).
Proof. intros H d. unfold d. unfold Cdiv, Cinv, Cmult, Cplus, Cminus, Copp, RtoC. cbn [fst snd]. f_equal; unfold Cplus; cbn [fst snd].
  field; intro Q; apply H; rewrite <- Q; ring.
  field; intro Q; apply H; rewrite <- Q; ring. Qed.
Lemma section_val t c s : 0 < t -> c ^ 2 + s ^ 2 = 1 -> c < 0 -> let w := (t * c, t * s) in let d := 1 + t ^ 2 - 2 * t * c in
  let p := ((1 + w) / (1 - w))%C in
  0 < d /\ - 2 * fst p = 2 * (t ^ 2 - 1) / d /\ Cmod p ^ 2 = (1 + t ^ 2 + 2 * t * c) / d /\ Cmod w = t.
Proof.
  intros Ht H Hc w d p. assert (D : 0 < d) by (unfold d; nra).
  assert (E : (1 - t * c) ^ 2 + (t * s) ^ 2 = d). { unfold d. replace ((1 - t * c) ^ 2 + (t * s) ^ 2) with (1 - 2 * t * c + t ^ 2 * (c ^ 2 + s ^ 2)) by ring. rewrite H. ring. }
  assert (X : 1 - (t * c) ^ 2 - (t * s) ^ 2 = 1 - t ^ 2) by (replace ((t * c) ^ 2) with (t ^ 2 * c ^ 2) by ring; replace ((t * s) ^ 2) with (t ^ 2 * s ^ 2) by ring; nra).
  assert (P : p = ((1 - t ^ 2) / d, 2 * (t * s) / d)). { unfold p, w. rewrite bil_val by (rewrite E; lra). cbn zeta. rewrite E, X. reflexivity. }
  split; [exact D|]. split; [|split].
  - rewrite P. cbn [fst]. field. lra.
  - rewrite Cmod_sq, P. cbn [fst snd].
    assert (Y : (1 - t ^ 2) ^ 2 + (2 * (t * s)) ^ 2 = (1 + t ^ 2 + 2 * t * c) * d).
    { unfold d. replace ((2 * (t * s)) ^ 2) with (4 * t ^ 2 * s ^ 2) by ring. replace (s ^ 2) with (1 - c ^ 2) by lra. ring. }
    replace (((1 - t ^ 2) / d) ^ 2 + (2 * (t * s) / d) ^ 2) with (((1 - t ^ 2) ^ 2 + (2 * (t * s)) ^ 2) / d / d) by (field; lra). rewrite Y. field. lra.
  - apply Rle_antisym; (apply sq_le; [try apply Cmod_ge_0; lra|]); rewrite Cmod_sq; cbn [w fst snd]; nra.
Qed.
Lemma angle_cos n i : (Z.of_nat n <= 32768)%Z -> (i < n / 2)%nat -> cos (bw_angle n i) <= - (3 / 4) / INR n /\ cos (bw_angle n i) ^ 2 + sin (bw_angle n i) ^ 2 = 1.
Proof.
  intros Hn Hi. split; [|pose proof (sin2_cos2 (bw_angle n i)) as Q; unfold Rsqr in Q; nra]. pose proof pi_bounds as PB.
  assert (HI : (2 * i + 2 <= n)%nat). { pose proof (Nat.div_mod n 2 ltac:(lia)). lia. }
  apply le_INR in HI. rewrite plus_INR, mult_INR in HI. simpl in HI. pose proof (pos_INR i) as I0. assert (N2 : 2 <= INR n) by lra.
  unfold bw_angle. rewrite <- (Ropp_involutive (cos _)), <- sin_cos. set (ph := (2 * INR i + 1) * PI / (2 * INR n)).
  assert (L : PI / (2 * INR n) <= ph <= PI / 2).
  { unfold ph, Rdiv. split.
    - apply Rmult_le_compat_r; [left; apply Rinv_0_lt_compat; lra|nra].
    - apply Rmult_le_reg_r with (2 * INR n); [lra|]. rewrite Rmult_assoc, Rinv_l by lra. nra. }
  assert (P0 : 0 < PI / (2 * INR n) <= 1).
  { unfold Rdiv. split; [apply Rmult_lt_0_compat; [lra|apply Rinv_0_lt_compat; lra]|]. apply Rmult_le_reg_r with (2 * INR n); [lra|]. rewrite Rmult_assoc, Rinv_l by lra. lra. }
  assert (S : sin (PI / (2 * INR n)) <= sin ph) by (apply sin_incr_1; lra). pose proof (sin_half _ (conj (Rlt_le _ _ (proj1 P0)) (proj2 P0))) as SH.
  assert (3 / 4 / INR n <= PI / (2 * INR n) / 2). { unfold Rdiv. apply Rmult_le_reg_r with (INR n); [lra|]. rewrite Rmult_assoc, Rinv_l by lra. replace (PI * / (2 * INR n) * / 2 * INR n) with (PI / 4) by (field; lra). lra. }
  replace (- (3 / 4) / INR n) with (- (3 / 4 / INR n)) by (field; lra). lra.
Qed.
