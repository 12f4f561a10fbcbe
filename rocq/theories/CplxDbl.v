(** Proofs: errors of complex operations in binary64. *)
From Coq Require Import ZArith List Bool Reals Lra Lia.
From Coquelicot Require Import Coquelicot.
From Flocq Require Import Core.Raux Core.Defs IEEE754.BinarySingleNaN.
From Verif Require Import Num Outcome Types Biquad Transforms Float64 FloatSpec FloatProofs SampleLemmas RoundSpec RoundProofs DblSpec DblProofs BwDblSpec.
Import ListNotations.
Local Open Scope R_scope.

(** c is a complex number, z within e of its value *)
Definition cap (c : cpx f64) (z : C) (e : R) : Prop := cfin c /\ Cmod (c2c c - z)%C <= e.

Lemma Cmod_sq (z : C) : Cmod z ^ 2 = fst z ^ 2 + snd z ^ 2.
Proof. unfold Cmod. rewrite pow2_sqrt; [reflexivity|]. apply Rplus_le_le_0_compat; apply pow2_ge_0. Qed.
Lemma re_Cmod (z : C) : Rabs (fst z) <= Cmod z.
Proof. apply Rsqr_le_abs_0 || idtac. rewrite <- (Rabs_pos_eq (Cmod z)) by apply Cmod_ge_0. apply Rsqr_le_abs_0. rewrite !Rsqr_pow2, Cmod_sq. pose proof (pow2_ge_0 (snd z)). lra. Qed.
Lemma im_Cmod (z : C) : Rabs (snd z) <= Cmod z.
Proof. rewrite <- (Rabs_pos_eq (Cmod z)) by apply Cmod_ge_0. apply Rsqr_le_abs_0. rewrite !Rsqr_pow2, Cmod_sq. pose proof (pow2_ge_0 (fst z)). lra. Qed.
Lemma Cmod_mono (x y X Y : R) : Rabs x <= X -> Rabs y <= Y -> Cmod (x, y) <= Cmod (X, Y).
Proof.
  intros H1 H2. pose proof (Rabs_pos x). pose proof (Rabs_pos y). apply sqrt_le_1_alt. cbn [fst snd].
  rewrite <- (pow2_abs x), <- (pow2_abs y). apply Rplus_le_compat; apply pow_incr; lra.
Qed.
Lemma Cmod_dom (x y : R) (z : C) u t : 0 <= u -> 0 <= t -> Rabs x <= u * Rabs (fst z) + t -> Rabs y <= u * Rabs (snd z) + t ->
  Cmod (x, y) <= u * Cmod z + 2 * t.
Proof.
  intros Hu Ht H1 H2. eapply Rle_trans; [apply (Cmod_mono _ _ _ _ H1 H2)|].
  assert (E : (u * Rabs (fst z) + t, u * Rabs (snd z) + t) = (RtoC u * (Rabs (fst z), Rabs (snd z)) + (t, t))%C).
  { unfold Cplus, Cmult, RtoC. cbn [fst snd]. f_equal; ring. }
  rewrite E. eapply Rle_trans; [apply Cmod_triangle|]. rewrite Cmod_mult, Cmod_R, (Rabs_pos_eq u) by exact Hu.
  apply Rplus_le_compat.
  - apply Rmult_le_compat_l; [exact Hu|]. destruct z as [a b]. cbn [fst snd]. unfold Cmod. cbn [fst snd]. rewrite !pow2_abs. lra.
  - apply Rsqr_incr_0; [|apply Cmod_ge_0|lra]. rewrite !Rsqr_pow2, Cmod_sq. cbn [fst snd]. pose proof (pow2_ge_0 t). lra.
Qed.

(** components *)
Lemma cap_re c z e : cap c z e -> ap (re c) (fst z) (Cmod z) e.
Proof.
  intros [[F1 F2] E]. split; [exact F1|]. split; [|apply re_Cmod]. eapply Rle_trans; [|exact E].
  apply (re_Cmod (c2c c - z)%C).
Qed.
Lemma cap_im c z e : cap c z e -> ap (im c) (snd z) (Cmod z) e.
Proof.
  intros [[F1 F2] E]. split; [exact F2|]. split; [|apply im_Cmod]. eapply Rle_trans; [|exact E].
  apply (im_Cmod (c2c c - z)%C).
Qed.
Lemma cap_weak c z e e' : cap c z e -> e <= e' -> cap c z e'.
Proof. intros [F E] H. split; [exact F|lra]. Qed.
Lemma cap_self c : cfin c -> cap c (c2c c) 0.
Proof. intros H. split; [exact H|]. replace (c2c c - c2c c)%C with (RtoC 0) by ring. rewrite Cmod_0. lra. Qed.
Lemma cap_trans c z z' e d : cap c z e -> Cmod (z - z')%C <= d -> cap c z' (e + d).
Proof.
  intros [F E] H. split; [exact F|]. replace (c2c c - z')%C with ((c2c c - z) + (z - z'))%C by ring.
  eapply Rle_trans; [apply Cmod_triangle|lra].
Qed.
Lemma cap_mod c z e : cap c z e -> Cmod (c2c c) <= Cmod z + e.
Proof. intros [_ E]. replace (c2c c) with (z + (c2c c - z))%C by ring. eapply Rle_trans; [apply Cmod_triangle|lra]. Qed.
Lemma cap_mod_low c z e : cap c z e -> Cmod z - e <= Cmod (c2c c).
Proof.
  intros [_ E]. pose proof (Cmod_triangle (c2c c) (z - c2c c)%C) as T. replace (c2c c + (z - c2c c))%C with z in T by ring.
  replace (z - c2c c)%C with (- (c2c c - z))%C in T by ring. rewrite Cmod_opp in T. lra.
Qed.

Section Ops.
  Variable m : libm.
  Notation FN := (F64 m).

  Lemma cap_scale (f : f64) c : is_finite f = true -> cfin c -> Cmod (RtoC (B2R f) * c2c c)%C <= big ->
    cap (c_scale (N := FN) f c) (RtoC (B2R f) * c2c c)%C (uu * Cmod (RtoC (B2R f) * c2c c)%C + 2 * tiny).
  Proof.
    intros Ff [F1 F2] H. destruct c as [x y]. cbn [re im] in *. unfold c_scale. cbn [nmul F64 re im].
    assert (E : (RtoC (B2R f) * c2c (Cx x y))%C = (B2R x * B2R f, B2R y * B2R f)) by (unfold c2c, Cmult, RtoC; cbn [fst snd re im]; f_equal; ring).
    rewrite E in *. pose proof (re_Cmod (B2R x * B2R f, B2R y * B2R f)) as R1. pose proof (im_Cmod (B2R x * B2R f, B2R y * B2R f)) as R2. cbn [fst snd] in *.
    destruct (ap_mul x f (Rabs (B2R x * B2R f)) F1 Ff ltac:(lra) ltac:(lra)) as (A1 & A2 & _).
    destruct (ap_mul y f (Rabs (B2R y * B2R f)) F2 Ff ltac:(lra) ltac:(lra)) as (B1 & B2 & _).
    split; [split; assumption|]. unfold c2c, Cminus, Cplus, Copp. cbn [fst snd re im].
    pose proof tiny_pos. apply Cmod_dom; [unfold uu; lra|lra|exact A2|exact B2].
  Qed.
  Lemma cap_addr c z e : cap c z e -> Cmod z + e + 1 <= big ->
    cap (c_addr (N := FN) c (fofZ 1)) (1 + z)%C (e + uu * (Cmod (1 + z)%C + e) + 2 * tiny).
  Proof.
    intros A H. pose proof (cap_mod _ _ _ A) as MC. destruct A as [[F1 F2] E]. destruct (fofZ_val 1 ltac:(lia)) as [V1 V2]. pose proof big_big. pose proof tiny_pos.
    destruct c as [x y]. cbn [re im] in *. pose proof (re_Cmod (c2c (Cx x y))) as R1. cbn [c2c fst re im] in R1.
    assert (S : Rabs (B2R x + B2R (fofZ 1)) <= big). { rewrite V1. eapply Rle_trans; [apply Rabs_triang|]. rewrite (Rabs_pos_eq 1) by lra. lra. }
    pose proof (@Bplus_correct 53 1024 Hprec64 Hemax64 mode_NE x (fofZ 1) F1 V2) as P. rewrite rnd_fit in P by exact S. destruct P as (P1 & P2 & _).
    split; [split; [exact P2|exact F2]|].
    assert (Q : Cmod (c2c (c_addr (N := FN) (Cx x y) (fofZ 1)) - (1 + c2c (Cx x y)))%C <= uu * Cmod (1 + c2c (Cx x y))%C + 2 * tiny).
    { unfold c_addr. cbn [nadd F64 re im]. unfold c2c, Cminus, Cplus, Copp, RtoC. cbn [fst snd re im].
      assert (E1 : B2R (fadd x (fofZ 1)) = rnd64 (B2R x + B2R (fofZ 1))) by exact P1. rewrite E1, V1.
      apply Cmod_dom; [unfold uu; lra|lra| |]; cbn [fst snd].
      - replace (rnd64 (B2R x + 1) + - (1 + B2R x)) with (rnd64 (B2R x + 1) - (B2R x + 1)) by ring. rewrite (Rplus_comm 1). apply rnd_err.
      - replace (B2R y + - (0 + B2R y)) with 0 by ring. rewrite Rabs_R0. pose proof (Rabs_pos (0 + B2R y)). unfold uu. lra. }
    replace (c2c (c_addr (N := FN) (Cx x y) (fofZ 1)) - (1 + z))%C with ((c2c (c_addr (N := FN) (Cx x y) (fofZ 1)) - (1 + c2c (Cx x y))) + (c2c (Cx x y) - z))%C by ring.
    eapply Rle_trans; [apply Cmod_triangle|].
    assert (Cmod (1 + c2c (Cx x y))%C <= Cmod (1 + z)%C + e).
    { replace (1 + c2c (Cx x y))%C with ((1 + z) + (c2c (Cx x y) - z))%C by ring. eapply Rle_trans; [apply Cmod_triangle|lra]. }
    unfold uu in *. lra.
  Qed.
  Lemma cap_rsub c z e : cap c z e -> Cmod z + e + 1 <= big ->
    cap (c_rsub (N := FN) (fofZ 1) c) (1 - z)%C (e + uu * (Cmod (1 - z)%C + e) + 2 * tiny).
  Proof.
    intros A H. pose proof (cap_mod _ _ _ A) as MC. destruct A as [[F1 F2] E]. destruct (fofZ_val 1 ltac:(lia)) as [V1 V2]. pose proof big_big. pose proof tiny_pos.
    destruct c as [x y]. cbn [re im] in *. pose proof (re_Cmod (c2c (Cx x y))) as R1. cbn [c2c fst re im] in R1.
    assert (S : Rabs (B2R (fofZ 1) - B2R x) <= big). { rewrite V1. unfold Rminus. eapply Rle_trans; [apply Rabs_triang|]. rewrite Rabs_Ropp, (Rabs_pos_eq 1) by lra. lra. }
    pose proof (@Bminus_correct 53 1024 Hprec64 Hemax64 mode_NE (fofZ 1) x V2 F1) as P. rewrite rnd_fit in P by exact S. destruct P as (P1 & P2 & _).
    split; [split; [exact P2|cbn [c_rsub im nopp F64]; rewrite is_finite_Bopp; exact F2]|].
    assert (Q : Cmod (c2c (c_rsub (N := FN) (fofZ 1) (Cx x y)) - (1 - c2c (Cx x y)))%C <= uu * Cmod (1 - c2c (Cx x y))%C + 2 * tiny).
    { unfold c_rsub. cbn [nsub nopp F64 re im]. unfold c2c, Cminus, Cplus, Copp, RtoC. cbn [fst snd re im].
      assert (E1 : B2R (fsub (fofZ 1) x) = rnd64 (B2R (fofZ 1) - B2R x)) by exact P1. rewrite E1, V1.
      apply Cmod_dom; [unfold uu; lra|lra| |]; cbn [fst snd].
      - replace (rnd64 (1 - B2R x) + - (1 + - B2R x)) with (rnd64 (1 - B2R x) - (1 - B2R x)) by ring. apply rnd_err.
      - rewrite B2R_Bopp. replace (- B2R y + - (0 + - B2R y)) with 0 by ring. rewrite Rabs_R0. pose proof (Rabs_pos (0 + - B2R y)). unfold uu. lra. }
    replace (c2c (c_rsub (N := FN) (fofZ 1) (Cx x y)) - (1 - z))%C with ((c2c (c_rsub (N := FN) (fofZ 1) (Cx x y)) - (1 - c2c (Cx x y))) - (c2c (Cx x y) - z))%C by ring.
    unfold Cminus at 1. eapply Rle_trans; [apply Cmod_triangle|]. rewrite Cmod_opp.
    assert (Cmod (1 - c2c (Cx x y))%C <= Cmod (1 - z)%C + e).
    { replace (1 - c2c (Cx x y))%C with ((1 - z) + - (c2c (Cx x y) - z))%C by ring. eapply Rle_trans; [apply Cmod_triangle|]. rewrite Cmod_opp. lra. }
    unfold uu in *. lra.
  Qed.
  Lemma cap_copp c z e : cap c z e -> cap (c_opp (N := FN) c) (- z)%C e.
  Proof.
    intros [[F1 F2] E]. split; [split; cbn [c_opp re im nopp F64]; rewrite is_finite_Bopp; assumption|].
    replace (c2c (c_opp (N := FN) c) - - z)%C with (- (c2c c - z))%C; [rewrite Cmod_opp; exact E|].
    destruct c as [x y]. unfold c2c, c_opp. cbn [nopp F64 re im]. rewrite !B2R_Bopp. unfold Cminus, Cplus, Copp. cbn [fst snd]. f_equal; ring.
  Qed.
  Lemma Cmod_quot (a b : C) : b <> 0%C -> Cmod (a / b)%C = Cmod a / Cmod b.
  Proof. intros H. apply Cmod_div. exact H. Qed.
  Lemma cap_div a b z w e d L Q E : cdiv_close (lm_cdiv m) -> cap a z e -> cap b w d -> L <= Cmod w -> d < L ->
    / 2 ^ 400 <= L - d -> Cmod w + d <= 2 ^ 400 -> Cmod z + e <= 2 ^ 400 -> Cmod (z / w)%C <= Q -> e + Q * d <= E * (L - d) ->
    cap (lm_cdiv m a b) (z / w)%C (E + 32 * uu * (Q + E) + / 2 ^ 900).
  Proof.
    intros HD A B HL Hd HL2 HW HZ HQ HE. pose proof (cap_mod _ _ _ A) as MA. pose proof (cap_mod _ _ _ B) as MB. pose proof (cap_mod_low _ _ _ B) as LB.
    destruct A as [Fa Ea], B as [Fb Eb]. destruct (HD a b Fa Fb ltac:(lra) ltac:(lra)) as (Fq & Eq & _).
    assert (Wn : w <> 0%C). { intros Z. rewrite Z, Cmod_0 in HL. pose proof (Cmod_ge_0 (c2c b - w)%C). lra. }
    assert (Bn : c2c b <> 0%C). { intros Z. rewrite Z, Cmod_0 in LB. lra. }
    assert (PB : 0 < Cmod (c2c b)) by lra.
    assert (N : Cmod (c2c a / c2c b - z / w)%C <= E).
    { replace (c2c a / c2c b - z / w)%C with (((c2c a - z) - z / w * (c2c b - w)) / c2c b)%C by (field; auto).
      rewrite Cmod_div by exact Bn. apply Rmult_le_reg_r with (Cmod (c2c b)); [exact PB|]. unfold Rdiv. rewrite Rmult_assoc, Rinv_l, Rmult_1_r by lra.
      assert (Z : Cmod (c2c a - z - z / w * (c2c b - w))%C <= e + Q * d).
      { unfold Cminus at 1. eapply Rle_trans; [apply Cmod_triangle|]. rewrite Cmod_opp, Cmod_mult. apply Rplus_le_compat; [exact Ea|].
        apply Rmult_le_compat; auto using Cmod_ge_0. }
      assert (0 <= E). { pose proof (Cmod_ge_0 (c2c a - z - z / w * (c2c b - w))%C). apply Rmult_le_reg_r with (L - d); lra. }
      eapply Rle_trans; [exact Z|]. eapply Rle_trans; [exact HE|]. apply Rmult_le_compat_l; lra. }
    split; [exact Fq|].
    replace (c2c (lm_cdiv m a b) - z / w)%C with ((c2c (lm_cdiv m a b) - c2c a / c2c b) + (c2c a / c2c b - z / w))%C by ring.
    eapply Rle_trans; [apply Cmod_triangle|].
    assert (M : Cmod (c2c a) / Cmod (c2c b) <= Q + E).
    { rewrite <- Cmod_div by exact Bn. replace (c2c a / c2c b)%C with (z / w + (c2c a / c2c b - z / w))%C by ring.
      eapply Rle_trans; [apply Cmod_triangle|lra]. }
    assert (Cmod (c2c a) / Cmod (c2c b) / 2 ^ 48 <= 32 * uu * (Q + E)). { unfold uu. lra. }
    lra.
  Qed.
End Ops.
