(** Proofs: response () in binary64. *)
From Coq Require Import ZArith List Bool Reals Lra Lia Floats.SpecFloat.
From Coquelicot Require Import Coquelicot.
From Flocq Require Import Core.Zaux Core.Raux Core.Defs Core.Generic_fmt IEEE754.BinarySingleNaN.
From Verif Require Import Num Outcome Types Biquad Cascade Float64 FloatSpec FloatProofs SampleLemmas SigSpec RespProofs
  RoundSpec RoundProofs DblPi DblSpec DblProofs BwDblSpec CplxDbl BwDbl BwDbl2 RespDblSpec.
Import ListNotations.
Local Open Scope R_scope.

Lemma small_tiny : tiny * 2 ^ 100 <= / 2 ^ 970.
Proof.
  unfold tiny. replace (2 ^ 1070) with (2 ^ 970 * 2 ^ 100) by (rewrite <- pow_add; reflexivity). assert (0 < 2 ^ 970) by (apply pow_lt; lra). assert (0 < 2 ^ 100) by (apply pow_lt; lra).
  rewrite Rinv_mult. right. field.
Qed.
Lemma p100_big : 2 ^ 9 * 2 ^ 100 * 4 <= big.
Proof. replace (2 ^ 9 * 2 ^ 100 * 4) with (2 ^ 111). { unfold big. apply Rle_pow; [lra|lia]. } replace 4 with (2 ^ 2) by lra. rewrite <- !pow_add. reflexivity. Qed.
Lemma tiny_970 : tiny <= / 2 ^ 970.
Proof. unfold tiny. apply Rinv_le; [apply pow_lt; lra|apply Rle_pow; [lra|lia]]. Qed.

(** getB1 () / getA0 (): the stored coefficient up to two roundings *)
Lemma coef_any (x a0 : f64) : is_finite x = true -> is_finite a0 = true -> / 2 ^ 100 <= Rabs (B2R a0) <= 2 ^ 100 -> Rabs (B2R x) <= 2 ^ 9 ->
  is_finite (fdiv (fmul x a0) a0) = true /\ Rabs (B2R (fdiv (fmul x a0) a0) - B2R x) <= 3 * uu * Rabs (B2R x) + / 2 ^ 969.
Proof.
  intros Fx Fa Ha Hx. pose proof small_tiny as ST. pose proof tiny_970 as T9. pose proof p100_big as PB. pose proof tiny_pos as TP.
  set (X := Rabs (B2R x)) in *. set (A := Rabs (B2R a0)) in *. assert (X0 : 0 <= X) by apply Rabs_pos.
  assert (P0 : 0 < / 2 ^ 100) by (apply Rinv_0_lt_compat, pow_lt; lra). assert (A0 : 0 < A) by lra. assert (P1 : 0 < 2 ^ 100) by (apply pow_lt; lra).
  assert (XA : 0 <= X * A <= 2 ^ 9 * 2 ^ 100) by (split; [apply Rmult_le_pos; lra|apply Rmult_le_compat; lra]).
  assert (BG : 0 < 2 ^ 9 * 2 ^ 100) by lra.
  pose proof (ap_mul x a0 (X * A) Fx Fa ltac:(rewrite Rabs_mult; fold X A; lra) ltac:(lra)) as M.
  pose proof (ap_val a0 A Fa ltac:(unfold A; lra)) as V.
  assert (NA : B2R a0 <> 0). { intros Z. unfold A in A0. rewrite Z, Rabs_R0 in A0. lra. }
  assert (E0 : B2R x * B2R a0 / B2R a0 = B2R x) by (field; exact NA).
  assert (IA : / A <= 2 ^ 100). { rewrite <- (Rinv_inv (2 ^ 100)). apply Rinv_le; lra. }
  assert (TA : tiny / A <= / 2 ^ 970). { eapply Rle_trans; [|exact ST]. unfold Rdiv. apply Rmult_le_compat_l; lra. }
  assert (TA0 : 0 < tiny / A) by (apply Rdiv_lt_0_compat; lra).
  assert (P970 : 0 < / 2 ^ 970 < 1). { split; [apply Rinv_0_lt_compat, pow_lt; lra|]. rewrite <- Rinv_1. apply Rinv_lt_contravar; [rewrite Rmult_1_l; apply pow_lt; lra|apply Rlt_pow_R1; [lra|lia]]. }
  destruct M as (M1 & M2 & M3).
  destruct (ap_div2 (fmul x a0) a0 (B2R x * B2R a0) (B2R a0) (X * A) A (uu * (X * A) + tiny) 0 A X (uu * X + tiny / A)) as (D1 & D2 & _).
  - split; [exact M1|]. split; [|rewrite Rabs_mult; fold X A; lra]. eapply Rle_trans; [exact M2|]. lra.
  - exact V.
  - unfold A. lra.
  - exact A0.
  - rewrite E0. unfold X. lra.
  - right. field. lra.
  - assert (2 ^ 9 <= 2 ^ 9 * 2 ^ 100). { rewrite <- (Rmult_1_r (2 ^ 9)) at 1. apply Rmult_le_compat_l; [lra|]. apply pow_R1_Rle; lra. } unfold uu. lra.
  - rewrite E0 in D2. split; [exact D1|]. eapply Rle_trans; [exact D2|]. replace (/ 2 ^ 969) with (2 * / 2 ^ 970).
    2:{ rewrite (pow_add 2 969 1 : 2 ^ 970 = _). field. }
    fold X. set (w := / 2 ^ 970) in *. clearbody w.
    unfold uu. lra.
Qed.

(** the arguments of std::polar *)
Lemma polar_at m (f : f64) : polar_close (lm_polar m) -> is_finite f = true -> 0 <= B2R f <= 1 / 2 ->
  exists z1 z2, lm_polar m (fofZ 1) (Bopp (fmul (fmul (fofZ 2) (fnorm 7074237752028440 (-51))) f)) = Some z1 /\ cap z1 (z_inv (B2R f)) (32 * uu) /\
    lm_polar m (fofZ 1) (fmul (fofZ (-2)) (fmul (fmul (fofZ 2) (fnorm 7074237752028440 (-51))) f)) = Some z2 /\ cap z2 (z_inv (B2R f) * z_inv (B2R f))%C (64 * uu).
Proof.
  intros HP Ff Hf. pose proof ap_pi as AP. pose proof pi_bounds as PB. pose proof tiny_uu as TU. pose proof tiny_pos as TP. pose proof big_big as BB.
  assert (A2 : ap (fofZ 2) 2 2 0) by (apply (ap_ofZ 2 2); [lia|rewrite Rabs_pos_eq; lra]).
  assert (A2' : ap (fofZ (-2)) (-2) 2 0) by (apply (ap_ofZ (-2) 2); [lia|rewrite Rabs_left; lra]).
  assert (AF : ap f (B2R f) (/ 2) 0) by (apply ap_val; [exact Ff|rewrite Rabs_pos_eq; lra]).
  assert (W1 : ap (fmul (fofZ 2) (fnorm 7074237752028440 (-51))) (2 * PI) 7 (12 * uu)).
  { eapply ap_weak; [apply (ap_mul2 _ _ _ _ _ _ _ _ A2 AP)|lra|]; unfold uu in *; lra. }
  assert (W2 : ap (fmul (fmul (fofZ 2) (fnorm 7074237752028440 (-51))) f) (2 * PI * B2R f) (7 / 2) (10 * uu)).
  { eapply ap_weak; [apply (ap_mul2 _ _ _ _ _ _ _ _ W1 AF)|lra|]; unfold uu in *; lra. }
  assert (W3 : ap (fmul (fofZ (-2)) (fmul (fmul (fofZ 2) (fnorm 7074237752028440 (-51))) f)) (-2 * (2 * PI * B2R f)) 7 (28 * uu)).
  { eapply ap_weak; [apply (ap_mul2 _ _ _ _ _ _ _ _ A2' W2)|lra|]; unfold uu in *; lra. }
  pose proof (ap_opp _ _ _ _ W2) as W4.
  set (x1 := Bopp (fmul (fmul (fofZ 2) (fnorm 7074237752028440 (-51))) f)) in *. set (x2 := fmul (fofZ (-2)) (fmul (fmul (fofZ 2) (fnorm 7074237752028440 (-51))) f)) in *.
  clearbody x1 x2.
  assert (PF : 0 <= PI * B2R f <= 1.6). { split; [apply Rmult_le_pos; lra|]. apply Rle_trans with (PI * (1 / 2)); [apply Rmult_le_compat_l; lra|lra]. }
  assert (G : forall (x : f64) th z e, is_finite x = true -> Rabs (B2R x - th) <= e * uu -> 0 <= e <= 28 -> Rabs th <= 6.4 -> (cos th, sin th) = z ->
    exists c, lm_polar m (fofZ 1) x = Some c /\ cap c z ((2 * e + 8) * uu)).
  { intros x th z e Fx Ex He Bx Ec. assert (EU : e * uu <= 28 * uu) by (apply Rmult_le_compat_r; unfold uu; lra).
    assert (B7 : Rabs (B2R x) <= 7). { replace (B2R x) with ((B2R x - th) + th) by ring. eapply Rle_trans; [apply Rabs_triang|]. unfold uu in *. lra. }
    destruct (HP x Fx B7) as (c & Ez & Fz & Cz). exists c. split; [exact Ez|]. split; [exact Fz|].
    replace (c2c c - z)%C with ((c2c c - (cos (B2R x), sin (B2R x))) + ((cos (B2R x), sin (B2R x)) - (cos th, sin th)))%C by (rewrite Ec; ring).
    eapply Rle_trans; [apply Cmod_triangle|]. pose proof (cis_lip (B2R x) th). unfold uu in *. lra. }
  destruct W4 as (F1 & E1 & B1), W3 as (F2 & E2 & B2).
  destruct (G x1 (- (2 * PI * B2R f)) (z_inv (B2R f)) 10 F1 E1 ltac:(lra) ltac:(apply Rabs_le; lra)) as (z1 & Z1 & C1).
  { reflexivity. }
  destruct (G x2 (-2 * (2 * PI * B2R f)) (z_inv (B2R f) * z_inv (B2R f))%C 28 F2 E2 ltac:(lra) ltac:(apply Rabs_le; lra)) as (z2 & Z2 & C2).
  { unfold z_inv. rewrite <- cis_add. unfold cis. set (w := 2 * PI * B2R f). replace (-2 * w) with (- w + - w) by ring. reflexivity. }
  exists z1, z2. split; [exact Z1|]. split; [eapply cap_weak; [exact C1|unfold uu; lra]|]. split; [exact Z2|]. eapply cap_weak; [exact C2|unfold uu; lra].
Qed.
Lemma z_inv_mod f : Cmod (z_inv f) = 1.
Proof. apply cis_mod. Qed.

Section Resp.
  Variable m : libm.
  Notation FN := (F64 m).

  (** r0 + r1 u + r2 u^2 *)
  Lemma poly_cap (v0 v1 v2 : f64) (z1 z2 : cpx f64) r0 r1 r2 u w S e : Cmod u = 1 -> Cmod w = 1 -> 0 <= S <= 256 -> 0 <= e <= 256 ->
    Rabs r0 + Rabs r1 + Rabs r2 <= S -> ap v0 r0 (Rabs r0) e -> ap v1 r1 (Rabs r1) e -> ap v2 r2 (Rabs r2) e ->
    cap z1 u (32 * uu) -> cap z2 w (64 * uu) ->
    cap (addmul (N := FN) (addmul (N := FN) (c_of (N := FN) v0) v1 z1) v2 z2) (RtoC r0 + RtoC r1 * u + RtoC r2 * w)%C (61 / 10 * e + 220 * uu * S + 16 * tiny).
  Proof.
    intros Mu Mw HS He HR A0 A1 A2 Z1 Z2. pose proof tiny_uu as TU. pose proof tiny_pos as TP. pose proof big_big as BB.
    pose proof (cap_re _ _ _ Z1) as X1. pose proof (cap_im _ _ _ Z1) as Y1. pose proof (cap_re _ _ _ Z2) as X2. pose proof (cap_im _ _ _ Z2) as Y2.
    rewrite Mu in X1, Y1. rewrite Mw in X2, Y2.
    pose proof (Rabs_pos r0) as P0. pose proof (Rabs_pos r1) as P1. pose proof (Rabs_pos r2) as P2.
    assert (ZZ : ap (fofZ 0) 0 0 0). { apply (ap_ofZ 0 0); [lia|rewrite Rabs_R0; lra]. }
    assert (B : 2 ^ 20 <= big) by (unfold big; apply Rle_pow; [lra|lia]).
    assert (M : forall v r z c k, ap v r (Rabs r) e -> Rabs r <= 256 -> 0 <= k <= 64 -> ap z c 1 (k * uu) -> ap (fmul v z) (r * c) (Rabs r) (1001 / 1000 * e + (k + 2) * uu * Rabs r + tiny)).
    { intros v r z c k Av Hr Hk Az. pose proof (Rabs_pos r) as PR. assert (KU : 0 <= k * uu <= 64 * uu) by (unfold uu in *; split; [apply Rmult_le_pos|apply Rmult_le_compat_r]; lra).
      assert (KE : e * (k * uu) <= e * (64 * uu)) by (apply Rmult_le_compat_l; lra). assert (KE0 : 0 <= e * (k * uu)) by (apply Rmult_le_pos; lra).
      assert (KR : Rabs r * (k * uu) <= Rabs r * (64 * uu)) by (apply Rmult_le_compat_l; lra). assert (KR0 : 0 <= Rabs r * (k * uu)) by (apply Rmult_le_pos; lra).
      replace ((k + 2) * uu * Rabs r) with (Rabs r * (k * uu) + 2 * uu * Rabs r) by ring.
      eapply ap_weak; [apply (ap_mul2 _ _ _ _ _ _ _ _ Av Az)|lra|].
      - replace ((Rabs r + e) * (1 + k * uu)) with (Rabs r + e + Rabs r * (k * uu) + e * (k * uu)) by ring. unfold uu in *. lra.
      - replace ((Rabs r + e) * (1 + k * uu)) with (Rabs r + e + Rabs r * (k * uu) + e * (k * uu)) by ring. unfold uu in *. lra. }
    pose proof (M _ _ _ _ 32 A1 ltac:(lra) ltac:(lra) X1) as M1. pose proof (M _ _ _ _ 32 A1 ltac:(lra) ltac:(lra) Y1) as N1.
    pose proof (M _ _ _ _ 64 A2 ltac:(lra) ltac:(lra) X2) as M2. pose proof (M _ _ _ _ 64 A2 ltac:(lra) ltac:(lra) Y2) as N2. clear M.
    pose proof (ap_add _ _ _ _ _ _ _ _ A0 M1 ltac:(unfold uu in *; lra)) as S1.
    pose proof (ap_add _ _ _ _ _ _ _ _ S1 M2 ltac:(unfold uu in *; lra)) as S2.
    pose proof (ap_add _ _ _ _ _ _ _ _ ZZ N1 ltac:(unfold uu in *; lra)) as I1.
    pose proof (ap_add _ _ _ _ _ _ _ _ I1 N2 ltac:(unfold uu in *; lra)) as I2.
    destruct S2 as (F1 & E1 & _), I2 as (F2 & E2 & _).
    split; [split; [exact F1|exact F2]|]. unfold c2c, addmul, c_of. cbn [re im nadd nmul n0 nofZ F64].
    match goal with |- Cmod (Cminus (?x, ?y) _) <= _ => apply Rle_trans with (Rabs (x - (r0 + r1 * fst u + r2 * fst w)) + Rabs (y - (0 + r1 * snd u + r2 * snd w))); set (xx := x) in *; set (yy := y) in * end.
    - replace (Cminus (xx, yy) (RtoC r0 + RtoC r1 * u + RtoC r2 * w)%C) with (Cplus (RtoC (xx - (r0 + r1 * fst u + r2 * fst w))) (Cmult (0, 1) (RtoC (yy - (0 + r1 * snd u + r2 * snd w))))).
      + eapply Rle_trans; [apply Cmod_triangle|]. rewrite Cmod_mult, !Cmod_R. apply Rplus_le_compat_l.
        replace (Cmod (0, 1)) with 1; [lra|]. unfold Cmod. cbn [fst snd]. replace (0 ^ 2 + 1 ^ 2) with 1 by ring. symmetry. apply sqrt_1.
      + unfold Cminus, Cplus, Cmult, Copp, RtoC. cbn [fst snd]. f_equal; ring.
    - eapply Rle_trans; [apply Rplus_le_compat; [exact E1|exact E2]|]. unfold uu in *. lra.
  Qed.
  Lemma sec_coef (x a0 : f64) r e S : is_finite x = true -> is_finite a0 = true -> / 2 ^ 100 <= Rabs (B2R a0) <= 2 ^ 100 -> Rabs r <= S -> S <= 256 -> 0 <= e <= / 2 ^ 10 ->
    Rabs (B2R x - r) <= e * S -> ap (fdiv (fmul x a0) a0) r (Rabs r) ((e + 4 * uu) * S + / 2 ^ 969).
  Proof.
    intros Fx Fa Ha Hr HS He Hx. pose proof (Rabs_pos r) as R0.
    assert (ES : 0 <= e * S <= / 2 ^ 10 * S) by (split; [apply Rmult_le_pos|apply Rmult_le_compat_r]; lra).
    assert (XB : Rabs (B2R x) <= 1001 / 1000 * S). { replace (B2R x) with ((B2R x - r) + r) by ring. eapply Rle_trans; [apply Rabs_triang|]. lra. }
    destruct (coef_any x a0 Fx Fa Ha ltac:(lra)) as [F E]. split; [exact F|]. split; [|lra].
    replace (B2R (fdiv (fmul x a0) a0) - r) with ((B2R (fdiv (fmul x a0) a0) - B2R x) + (B2R x - r)) by ring. eapply Rle_trans; [apply Rabs_triang|].
    set (w := / 2 ^ 969) in *. clearbody w. unfold uu in *. lra.
  Qed.
  Lemma p969 : 0 < / 2 ^ 969 <= / 2 ^ 60 /\ 16 * tiny <= / 2 ^ 969 /\ 8 * / 2 ^ 969 = / 2 ^ 966.
  Proof.
    split; [split; [apply Rinv_0_lt_compat, pow_lt; lra|apply Rinv_le; [lra|apply Rle_pow; [lra|lia]]]|]. split.
    - pose proof tiny_970 as T. unfold tiny. replace (2 ^ 1070) with (2 ^ 969 * 2 ^ 101) by (rewrite <- pow_add; reflexivity). rewrite Rinv_mult.
      assert (0 < / 2 ^ 969) by (apply Rinv_0_lt_compat, pow_lt; lra). assert (/ 2 ^ 101 <= / 16) by (apply Rinv_le; [lra|]; replace 16 with (2 ^ 4) by ring; apply Rle_pow; [lra|lia]).
      apply Rle_trans with (16 * (/ 2 ^ 969 * / 16)); [|lra]. apply Rmult_le_compat_l; [lra|]. apply Rmult_le_compat_l; lra.
    - rewrite (pow_add 2 966 3 : 2 ^ 969 = _). rewrite Rinv_mult. lra.
  Qed.
  (** one section: error 8 e + 2^-45, relative to the sum of the absolute values *)
  Lemma sec_cap e (b : biquad FN) d f z1 z2 : 0 <= e <= / 2 ^ 10 -> near_section e b d -> cap z1 (z_inv f) (32 * uu) -> cap z2 (z_inv f * z_inv f)%C (64 * uu) ->
    cap (stage_top (N := FN) z1 z2 b) (i_num f d) ((8 * e + / 2 ^ 45) * num_abs d + / 2 ^ 966) /\
    cap (stage_bot (N := FN) z1 z2 b) (i_den f d) ((8 * e + / 2 ^ 45) * den_abs d + / 2 ^ 966).
  Proof.
    intros He (F0 & H0 & Fa1 & Fa2 & Fb0 & Fb1 & Fb2 & A1 & A2 & B0 & B1 & B2 & NB & DB) Z1 Z2.
    pose proof p969 as (P1 & P2 & P3). pose proof (z_inv_mod f) as MU. assert (MW : Cmod (z_inv f * z_inv f)%C = 1) by (rewrite Cmod_mult, MU; ring).
    assert (U0 : 0 < uu) by (unfold uu; lra).
    pose proof (Rabs_pos (i_b0 d)) as R0. pose proof (Rabs_pos (i_b1 d)) as R1. pose proof (Rabs_pos (i_b2 d)) as R2. pose proof (Rabs_pos (i_a1 d)) as R3. pose proof (Rabs_pos (i_a2 d)) as R4.
    assert (EE : forall S, 0 <= S <= 256 -> 0 <= (e + 4 * uu) * S <= / 2 ^ 9 * S) by (intros S HS; split; [apply Rmult_le_pos|apply Rmult_le_compat_r]; unfold uu in *; lra).
    assert (KS : forall S, 0 <= S <= 256 -> 61 / 10 * ((e + 4 * uu) * S + / 2 ^ 969) + 220 * uu * S + 16 * tiny <= (8 * e + / 2 ^ 45) * S + / 2 ^ 966).
    { intros S HS. rewrite <- P3. set (p := / 2 ^ 969) in *. clearbody p. assert (0 <= e * S) by (apply Rmult_le_pos; lra).
      replace ((e + 4 * uu) * S) with (e * S + 4 * uu * S) by ring. replace ((8 * e + / 2 ^ 45) * S) with (8 * (e * S) + / 2 ^ 45 * S) by ring. unfold uu. lra. }
    split.
    - unfold num_abs in *. set (S := Rabs (i_b0 d) + Rabs (i_b1 d) + Rabs (i_b2 d)) in *. assert (S0 : 0 <= S <= 256) by (unfold S in *; lra).
      specialize (EE S S0). assert (E0 : 0 <= (e + 4 * uu) * S + / 2 ^ 969 <= 256) by (set (p := / 2 ^ 969) in *; clearbody p; lra). eapply cap_weak; [|apply (KS S S0)]. unfold stage_top, getB0, getB1, getB2, getA0. cbn [nmul ndiv F64]. unfold i_num, poly2.
      apply poly_cap; try assumption; try (unfold S; lra); apply sec_coef; try assumption; unfold S; lra.
    - unfold den_abs in *. set (S := 1 + Rabs (i_a1 d) + Rabs (i_a2 d)) in *. assert (S0 : 0 <= S <= 256) by (unfold S in *; lra).
      specialize (EE S S0). assert (E0 : 0 <= (e + 4 * uu) * S + / 2 ^ 969 <= 256) by (set (p := / 2 ^ 969) in *; clearbody p; lra). eapply cap_weak; [|apply (KS S S0)]. unfold stage_bot, getA1, getA2, getA0. cbn [nmul ndiv nofZ F64]. unfold i_den, poly2.
      assert (ES : e <= e * S). { rewrite <- (Rmult_1_r e) at 1. apply Rmult_le_compat_l; unfold S; lra. }
      destruct (fofZ_val 1 ltac:(lia)) as [V1 V2].
      change (RtoC 1) with (RtoC 1). apply poly_cap; try assumption; try (unfold S; lra).
      + rewrite Rabs_R1. unfold S; lra.
      + split; [exact V2|]. rewrite V1, Rabs_R1. replace (1 - 1) with 0 by ring. rewrite Rabs_R0. lra.
      + apply sec_coef; try assumption; unfold S in *; lra.
      + apply sec_coef; try assumption; unfold S in *; lra.
  Qed.
  Lemma num_le f d : Cmod (i_num f d) <= num_abs d.
  Proof.
    unfold i_num, poly2, num_abs. pose proof (z_inv_mod f) as MU. eapply Rle_trans; [apply Cmod_triangle|]. eapply Rle_trans; [apply Rplus_le_compat_r, Cmod_triangle|].
    rewrite !Cmod_mult, MU, !Cmod_R. lra.
  Qed.
  Lemma den_le f d : Cmod (i_den f d) <= den_abs d.
  Proof.
    unfold i_den, poly2, den_abs. pose proof (z_inv_mod f) as MU. eapply Rle_trans; [apply Cmod_triangle|]. eapply Rle_trans; [apply Rplus_le_compat_r, Cmod_triangle|].
    rewrite !Cmod_mult, MU, !Cmod_R, Rabs_R1. lra.
  Qed.

  Hypothesis HM : cmul_close (lm_cmul m).
  (** one product *)
  Lemma prod_cap (c1 c2 : cpx f64) P t A S eta rho tau : cap c1 P (eta * A + tau) -> cap c2 t (rho * S + / 2 ^ 966) -> Cmod P <= A -> Cmod t <= S -> 0 <= S <= 256 -> 0 <= A -> A * 256 <= 2 ^ 260 ->
    0 <= eta <= / 8 -> 0 <= rho <= / 8 -> / 2 ^ 670 <= tau <= 1 ->
    cap (lm_cmul m c1 c2) (P * t)%C ((eta + 9 / 8 * rho + / 2 ^ 47) * (A * S) + 2 ^ 10 * tau).
  Proof.
    intros C1 C2 HP Ht HS HA HA2 He Hr Htau.
    pose proof (cap_mod _ _ _ C1) as M1. pose proof (cap_mod _ _ _ C2) as M2. destruct C1 as [F1 E1], C2 as [F2 E2].
    assert (T0 : 0 < / 2 ^ 966) by (apply Rinv_0_lt_compat, pow_lt; lra). assert (T1 : / 2 ^ 966 <= / 2 ^ 20) by (apply Rinv_le; [lra|apply Rle_pow; [lra|lia]]).
    assert (TT : 2 ^ 260 * / 2 ^ 966 <= / 2 ^ 670). { rewrite (pow_add 2 260 706 : 2 ^ 966 = _), Rinv_mult, <- Rmult_assoc, Rinv_r, Rmult_1_l by (apply Rgt_not_eq, pow_lt; lra). apply Rinv_le; [apply pow_lt; lra|apply Rle_pow; [lra|lia]]. }
    assert (T9 : / 2 ^ 900 <= / 2 ^ 670) by (apply Rinv_le; [apply pow_lt; lra|apply Rle_pow; [lra|lia]]).
    assert (A4 : 2 ^ 260 * 4 <= 2 ^ 400). { replace 4 with (2 ^ 2) by ring. rewrite <- pow_add. apply Rle_pow; [lra|lia]. }
    assert (B4 : 2 ^ 10 <= 2 ^ 400) by (apply Rle_pow; [lra|lia]).
    set (tz := / 2 ^ 966) in *. set (b4 := 2 ^ 400) in *. set (b26 := 2 ^ 260) in *. set (t67 := / 2 ^ 670) in *. set (t9 := / 2 ^ 900) in *.
    assert (EA : eta * A <= / 8 * A) by (apply Rmult_le_compat_r; lra). assert (RS : 0 <= rho * S <= / 8 * S) by (split; [apply Rmult_le_pos|apply Rmult_le_compat_r]; lra).
    assert (B0 : 1 <= b26) by (apply pow_R1_Rle; lra).
    pose proof (Cmod_ge_0 (c2c c1)) as G1. pose proof (Cmod_ge_0 (c2c c2)) as G2.
    destruct (HM c1 c2 F1 F2 ltac:(fold b4; lra) ltac:(fold b4; lra)) as [F E]. fold t9 in E. split; [exact F|].
    replace (c2c (lm_cmul m c1 c2) - P * t)%C with ((c2c (lm_cmul m c1 c2) - c2c c1 * c2c c2) + ((c2c c1 - P) * t + c2c c1 * (c2c c2 - t)))%C by ring.
    eapply Rle_trans; [apply Cmod_triangle|]. eapply Rle_trans; [apply Rplus_le_compat; [exact E|apply Cmod_triangle]|]. rewrite !Cmod_mult.
    assert (Q1 : Cmod (c2c c1 - P)%C * Cmod t <= (eta * A + tau) * S) by (apply Rmult_le_compat; auto using Cmod_ge_0).
    assert (Q2 : Cmod (c2c c1) * Cmod (c2c c2 - t)%C <= (9 / 8 * A + tau) * (rho * S + tz)) by (apply Rmult_le_compat; auto using Cmod_ge_0; lra).
    assert (Q3 : Cmod (c2c c1) * Cmod (c2c c2) <= (9 / 8 * A + tau) * (9 / 8 * S + tz)) by (apply Rmult_le_compat; auto; lra).
    assert (R1 : A * tz <= t67). { apply Rle_trans with (b26 * tz); [apply Rmult_le_compat_r; lra|exact TT]. }
    assert (R2 : 0 <= A * tz) by (apply Rmult_le_pos; lra). assert (R3 : tau * tz <= tau * / 2 ^ 20) by (apply Rmult_le_compat_l; lra). assert (R4 : tau * S <= tau * 256) by (apply Rmult_le_compat_l; lra).
    assert (R5 : tau * (rho * S) <= tau * (/ 8 * 256)) by (apply Rmult_le_compat_l; lra).
    assert (R6 : 0 <= A * S) by (apply Rmult_le_pos; lra).
    replace ((eta * A + tau) * S) with (eta * (A * S) + tau * S) in Q1 by ring.
    replace ((9 / 8 * A + tau) * (rho * S + tz)) with (9 / 8 * (rho * (A * S)) + tau * (rho * S) + 9 / 8 * (A * tz) + tau * tz) in Q2 by ring.
    replace ((9 / 8 * A + tau) * (9 / 8 * S + tz)) with (81 / 64 * (A * S) + 9 / 8 * (tau * S) + 9 / 8 * (A * tz) + tau * tz) in Q3 by field.
    replace ((eta + 9 / 8 * rho + / 2 ^ 47) * (A * S)) with (eta * (A * S) + 9 / 8 * (rho * (A * S)) + / 2 ^ 47 * (A * S)) by ring.
    set (x := A * S) in *. set (p1 := eta * x) in *. set (p2 := rho * x) in *. set (p3 := A * tz) in *. set (p4 := tau * tz) in *. set (p5 := tau * S) in *. set (p6 := tau * (rho * S)) in *.
    unfold Rdiv in *. lra.
  Qed.

  Notation rprod l := (fold_right Rmult 1 l).
  Lemma loop_cap z1 z2 f rho (Hr : 0 <= rho <= / 8) : forall (bs : list (biquad FN)) (ds : list ideal) rest,
    List.Forall2 (fun b d => cap (stage_top (N := FN) z1 z2 b) (i_num f d) (rho * num_abs d + / 2 ^ 966) /\ cap (stage_bot (N := FN) z1 z2 b) (i_den f d) (rho * den_abs d + / 2 ^ 966) /\
      num_abs d <= 256 /\ den_abs d <= 256) bs ds ->
    forall ch cb P Q A B eta tau, cap ch P (eta * A + tau) -> cap cb Q (eta * B + tau) -> Cmod P <= A -> Cmod Q <= B ->
    0 <= eta -> eta + INR (length bs) * (9 / 8 * rho + / 2 ^ 47) <= / 8 -> / 2 ^ 670 <= tau -> tau * (2 ^ 10) ^ length bs <= 1 ->
    A * 256 ^ length bs <= 2 ^ 260 -> B * 256 ^ length bs <= 2 ^ 260 ->
    exists ch' cb', resp_loop (N := FN) z1 z2 (bs ++ rest) (length bs) ch cb = Val (ch', cb') /\
      cap ch' (P * cprod (map (i_num f) ds))%C ((eta + INR (length bs) * (9 / 8 * rho + / 2 ^ 47)) * (A * rprod (map num_abs ds)) + tau * (2 ^ 10) ^ length bs) /\
      cap cb' (Q * cprod (map (i_den f) ds))%C ((eta + INR (length bs) * (9 / 8 * rho + / 2 ^ 47)) * (B * rprod (map den_abs ds)) + tau * (2 ^ 10) ^ length bs).
  Proof.
    unfold cprod. intros bs ds rest F. induction F as [|b d bs ds (H1 & H2 & H3 & H4) F IH]; intros ch cb P Q A B eta tau CP CQ HP HQ He HS Ht1 Ht2 HA HB.
    - exists ch, cb. cbn [length map fold_right app resp_loop INR]. rewrite !pow_O, !Rmult_1_r, !Rmult_0_l, !Rplus_0_r, !Cmult_1_r. split; [destruct rest; reflexivity|]. split; assumption.
    - cbn [app length resp_loop map fold_right] in *. change (ncmul FN) with (lm_cmul m).
      set (D := 9 / 8 * rho + / 2 ^ 47) in *. assert (D0 : 0 < D) by (unfold D; lra).
      rewrite S_INR in *. pose proof (pos_INR (length bs)) as I0. assert (ID : 0 <= INR (length bs) * D) by (apply Rmult_le_pos; lra).
      rewrite <- (tech_pow_Rmult (2 ^ 10) (length bs)) in *. rewrite <- (tech_pow_Rmult 256 (length bs)) in *. set (p10 := (2 ^ 10) ^ length bs) in *. set (p256 := 256 ^ length bs) in *.
      assert (P10 : 1 <= p10) by (apply pow_R1_Rle; lra). assert (P256 : 1 <= p256) by (apply pow_R1_Rle; lra).
      assert (T67 : 0 < / 2 ^ 670) by (apply Rinv_0_lt_compat, pow_lt; lra). set (t67 := / 2 ^ 670) in *.
      pose proof (Cmod_ge_0 P) as GP. pose proof (Cmod_ge_0 Q) as GQ. assert (A0 : 0 <= A) by lra. assert (B0 : 0 <= B) by lra.
      pose proof (Rle_trans _ _ _ (Cmod_ge_0 _) (num_le f d)) as N0. pose proof (Rle_trans _ _ _ (Cmod_ge_0 _) (den_le f d)) as N1.
      assert (TK : tau * 2 ^ 10 <= tau * 2 ^ 10 * p10). { rewrite <- (Rmult_1_r (tau * 2 ^ 10)) at 1. apply Rmult_le_compat_l; lra. }
      assert (KM : forall X, 0 <= X -> X * (256 * p256) <= 2 ^ 260 -> X * 256 <= 2 ^ 260). { intros X X0 HX. eapply Rle_trans; [|exact HX]. replace (X * (256 * p256)) with (X * 256 * p256) by ring. rewrite <- (Rmult_1_r (X * 256)) at 1. apply Rmult_le_compat_l; lra. }
      assert (KN : forall X a, 0 <= X -> 0 <= a <= 256 -> X * (256 * p256) <= 2 ^ 260 -> X * a * p256 <= 2 ^ 260). { intros X a X0 Ha HX. eapply Rle_trans; [|exact HX]. replace (X * (256 * p256)) with (X * 256 * p256) by ring. apply Rmult_le_compat_r; [lra|]. apply Rmult_le_compat_l; lra. }
      assert (TB : t67 <= tau <= 1). { split; [exact Ht1|]. lra. }
      pose proof (prod_cap _ _ _ _ A (num_abs d) eta rho tau CP H1 HP (num_le f d) ltac:(lra) A0 (KM A A0 HA) ltac:(lra) Hr TB) as C1.
      pose proof (prod_cap _ _ _ _ B (den_abs d) eta rho tau CQ H2 HQ (den_le f d) ltac:(lra) B0 (KM B B0 HB) ltac:(lra) Hr TB) as C2.
      replace (eta + 9 / 8 * rho + / 2 ^ 47) with (eta + D) in C1, C2 by (unfold D; ring).
      rewrite (Rmult_comm (2 ^ 10) tau) in C1, C2.
      destruct (IH (lm_cmul m ch (stage_top (N := FN) z1 z2 b)) (lm_cmul m cb (stage_bot (N := FN) z1 z2 b)) (P * i_num f d)%C (Q * i_den f d)%C (A * num_abs d) (B * den_abs d) (eta + D) (tau * 2 ^ 10)) as (ch' & cb' & E & R1 & R2); try assumption; try lra.
      + rewrite Cmod_mult. apply Rmult_le_compat; auto. apply Cmod_ge_0. apply num_le.
      + rewrite Cmod_mult. apply Rmult_le_compat; auto. apply Cmod_ge_0. apply den_le.
      + apply KN; lra.
      + apply KN; lra.
      + exists ch', cb'. split; [exact E|].
        replace (eta + (INR (length bs) + 1) * D) with (eta + D + INR (length bs) * D) by ring.
        rewrite !Cmult_assoc, <- !Rmult_assoc. rewrite <- !Rmult_assoc in R1, R2. split; [exact R1|exact R2].
  Qed.
End Resp.
