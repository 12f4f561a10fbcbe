(** Proofs: rounding errors of the operations and of the sums of products in State.h. *)
From Coq Require Import ZArith List Bool Reals Lra Lia.
From Flocq Require Relative.
From Flocq Require Import Core.Raux Core.Defs Core.Generic_fmt Core.Round_NE Core.FLT IEEE754.BinarySingleNaN.
From Verif Require Import Num Outcome Biquad State Cascade Float64 FloatSpec FloatProofs RoundSpec.
Import ListNotations.
Local Open Scope R_scope.

Definition uu : R := / 9007199254740992.
Definition tiny : R := / 2 ^ 1070.
Definition big : R := 2 ^ 1000.
Lemma pow2_IZR n : 2 ^ n = IZR (2 ^ Z.of_nat n).
Proof. rewrite <- pow_IZR. reflexivity. Qed.
Lemma tiny_pos : 0 < tiny. Proof. apply Rinv_0_lt_compat, pow_lt; lra. Qed.
Lemma tiny_1 : tiny <= 1.
Proof. unfold tiny. rewrite <- Rinv_1. apply Rinv_le; [lra|]. rewrite pow2_IZR. apply IZR_le. vm_compute. discriminate. Qed.
Lemma big_big : 1048576 <= big.
Proof. unfold big. rewrite pow2_IZR. apply IZR_le. vm_compute. discriminate. Qed.
Lemma big_max : 4 * big < bpow Zaux.radix2 1024.
Proof.
  unfold big. rewrite pow2_IZR, <- mult_IZR. change (bpow Zaux.radix2 1024) with (IZR (Z.pow_pos 2 1024)). apply IZR_lt. vm_compute. reflexivity.
Qed.
Lemma g_abs_tiny : 1024 * tiny = g_abs.
Proof.
  unfold tiny, g_abs. replace 1070%nat with (10 + 1060)%nat by reflexivity. rewrite pow_add.
  assert (0 < 2 ^ 1060) by (apply pow_lt; lra). generalize dependent (2 ^ 1060). intros p Hp. field. lra.
Qed.
Lemma g_rel_uu : g_rel = 128 * uu.
Proof. unfold g_rel, uu. lra. Qed.

Lemma rnd_err r : Rabs (rnd64 r - r) <= uu * Rabs r + tiny.
Proof.
  destruct (@Relative.error_N_FLT Zaux.radix2 (-1074) 53 ltac:(lia) (fun x => negb (Z.even x)) r) as (e & t & He & Ht & _ & E).
  change (round Zaux.radix2 (FLT_exp (-1074) 53) (Znearest (fun x => negb (Z.even x))) r) with (rnd64 r) in E.
  rewrite E. replace (r * (1 + e) + t - r) with (r * e + t) by ring.
  assert (He' : Rabs e <= uu). { eapply Rle_trans; [exact He|]. unfold uu. simpl. lra. }
  assert (Ht' : Rabs t <= tiny).
  { eapply Rle_trans; [exact Ht|]. unfold tiny. rewrite pow2_IZR. change (bpow Zaux.radix2 (-1074)) with (/ IZR (Z.pow_pos 2 1074)).
    apply Rle_trans with (/ IZR (Z.pow_pos 2 1074)).
    - assert (0 < / IZR (Z.pow_pos 2 1074)) by (apply Rinv_0_lt_compat, IZR_lt; vm_compute; reflexivity). lra.
    - apply Rinv_le; [apply IZR_lt; vm_compute; reflexivity|apply IZR_le; vm_compute; discriminate]. }
  pose proof (Rabs_pos r). pose proof (Rabs_triang (r * e) t) as Q. rewrite Rabs_mult in Q. nra.
Qed.
Lemma rnd_fit r : Rabs r <= big -> Rlt_bool (Rabs (rnd64 r)) (bpow Zaux.radix2 1024) = true.
Proof.
  intros H. apply Rlt_bool_true. eapply Rle_lt_trans; [|exact big_max]. pose proof (rnd_err r) as Q. pose proof tiny_1. pose proof big_big.
  pose proof (Rabs_triang_inv (rnd64 r) r). assert (uu * Rabs r <= Rabs r). { pose proof (Rabs_pos r). unfold uu. lra. } lra.
Qed.

(** f is a number, r within e of its value and S a bound of |r| *)
Definition ap (f : f64) (r S e : R) : Prop := is_finite f = true /\ Rabs (B2R f - r) <= e /\ Rabs r <= S.
Lemma ap_val f S : is_finite f = true -> Rabs (B2R f) <= S -> ap f (B2R f) S 0.
Proof. intros A B. split; [exact A|]. split; [|exact B]. rewrite Rminus_diag_eq, Rabs_R0 by reflexivity. lra. Qed.
Lemma ap_mul c x S : is_finite c = true -> is_finite x = true -> Rabs (B2R c * B2R x) <= S -> S <= big ->
  ap (fmul c x) (B2R c * B2R x) S (uu * S + tiny).
Proof.
  intros Fc Fx H HS. pose proof (@Bmult_correct 53 1024 Hprec64 Hemax64 mode_NE c x) as A. rewrite rnd_fit in A by lra.
  destruct A as (A1 & A2 & _). unfold fmul. split; [rewrite A2, Fc, Fx; reflexivity|]. split; [|exact H]. rewrite A1.
  eapply Rle_trans; [apply rnd_err|]. unfold uu. lra.
Qed.
Lemma ap_add f g r q S T e d : ap f r S e -> ap g q T d -> S + T + e + d <= big ->
  ap (fadd f g) (r + q) (S + T) (e + d + uu * (S + T + e + d) + tiny).
Proof.
  intros (Ff & Ef & Bf) (Fg & Eg & Bg) H. pose proof (@Bplus_correct 53 1024 Hprec64 Hemax64 mode_NE f g Ff Fg) as A.
  assert (Q : Rabs (B2R f + B2R g) <= S + T + e + d) by (revert Ef Bf Eg Bg; unfold Rabs; repeat destruct (Rcase_abs _); lra).
  rewrite rnd_fit in A by lra. destruct A as (A1 & A2 & _). unfold fadd. split; [exact A2|]. rewrite A1. split.
  - pose proof (rnd_err (B2R f + B2R g)) as E. assert (uu * Rabs (B2R f + B2R g) <= uu * (S + T + e + d)) by (unfold uu; lra).
    revert E Ef Eg. generalize (rnd64 (B2R f + B2R g)). intros w E Ef Eg. revert E Ef Eg.
    generalize dependent (uu * Rabs (B2R f + B2R g)). intros z Hz. unfold Rabs; repeat destruct (Rcase_abs _); lra.
  - eapply Rle_trans; [apply Rabs_triang|lra].
Qed.
Lemma ap_sub f g r q S T e d : ap f r S e -> ap g q T d -> S + T + e + d <= big ->
  ap (fsub f g) (r - q) (S + T) (e + d + uu * (S + T + e + d) + tiny).
Proof.
  intros (Ff & Ef & Bf) (Fg & Eg & Bg) H. pose proof (@Bminus_correct 53 1024 Hprec64 Hemax64 mode_NE f g Ff Fg) as A.
  assert (Q : Rabs (B2R f - B2R g) <= S + T + e + d) by (revert Ef Bf Eg Bg; unfold Rabs; repeat destruct (Rcase_abs _); lra).
  rewrite rnd_fit in A by lra. destruct A as (A1 & A2 & _). unfold fsub. split; [exact A2|]. rewrite A1. split.
  - pose proof (rnd_err (B2R f - B2R g)) as E. assert (uu * Rabs (B2R f - B2R g) <= uu * (S + T + e + d)) by (unfold uu; lra).
    revert E Ef Eg. generalize (rnd64 (B2R f - B2R g)). intros w E Ef Eg. revert E Ef Eg.
    generalize dependent (uu * Rabs (B2R f - B2R g)). intros z Hz. unfold Rabs; repeat destruct (Rcase_abs _); lra.
  - unfold Rminus. eapply Rle_trans; [apply Rabs_triang|]. rewrite Rabs_Ropp. lra.
Qed.
Lemma ap_weak f r S e S' e' : ap f r S e -> S <= S' -> e <= e' -> ap f r S' e'.
Proof. intros (A & B & C) H1 H2. split; [exact A|]. split; lra. Qed.

Ltac nums := pose proof tiny_pos; pose proof tiny_1; pose proof big_big.
Ltac absp := repeat match goal with H : Rabs ?r <= ?S |- _ => lazymatch goal with _ : 0 <= S |- _ => fail | _ => assert (0 <= S) by (eapply Rle_trans; [apply (Rabs_pos r)|exact H]) end end.

Ltac chain := lazymatch goal with
  | |- ap (fsub _ _) _ _ _ => eapply ap_sub; [chain|chain|]
  | |- ap (fadd _ _) _ _ _ => eapply ap_add; [chain|chain|]
  | |- ap (fmul _ _) _ _ _ => eapply ap_mul; [eassumption|eassumption|eassumption|]
  | |- ap _ _ _ _ => eapply ap_val; eassumption
  end.

(** the sums in the three filter functions (State.h:70-75, 112-115, 145-150) *)
Lemma dot5 c0 x0 c1 x1 c2 x2 c3 x3 c4 x4 S0 S1 S2 S3 S4 :
  is_finite c0 = true -> is_finite c1 = true -> is_finite c2 = true -> is_finite c3 = true -> is_finite c4 = true ->
  is_finite x0 = true -> is_finite x1 = true -> is_finite x2 = true -> is_finite x3 = true -> is_finite x4 = true ->
  Rabs (B2R c0 * B2R x0) <= S0 -> Rabs (B2R c1 * B2R x1) <= S1 -> Rabs (B2R c2 * B2R x2) <= S2 ->
  Rabs (B2R c3 * B2R x3) <= S3 -> Rabs (B2R c4 * B2R x4) <= S4 -> S0 + S1 + S2 + S3 + S4 <= big / 2 ->
  ap (fsub (fsub (fadd (fadd (fmul c0 x0) (fmul c1 x1)) (fmul c2 x2)) (fmul c3 x3)) (fmul c4 x4))
     (B2R c0 * B2R x0 + B2R c1 * B2R x1 + B2R c2 * B2R x2 - B2R c3 * B2R x3 - B2R c4 * B2R x4)
     (S0 + S1 + S2 + S3 + S4) (8 * uu * (S0 + S1 + S2 + S3 + S4) + 16 * tiny).
Proof.
  intros F0 F1 F2 F3 F4 G0 G1 G2 G3 G4 H0 H1 H2 H3 H4 HS. nums. absp.
  eapply ap_weak; [chain|..]; unfold uu; lra.
Qed.
Lemma dotw x c1 v1 c2 v2 S0 S1 S2 :
  is_finite c1 = true -> is_finite c2 = true -> is_finite x = true -> is_finite v1 = true -> is_finite v2 = true ->
  Rabs (B2R x) <= S0 -> Rabs (B2R c1 * B2R v1) <= S1 -> Rabs (B2R c2 * B2R v2) <= S2 -> S0 + S1 + S2 <= big / 2 ->
  ap (fsub (fsub x (fmul c1 v1)) (fmul c2 v2)) (B2R x - B2R c1 * B2R v1 - B2R c2 * B2R v2)
     (S0 + S1 + S2) (8 * uu * (S0 + S1 + S2) + 16 * tiny).
Proof.
  intros F1 F2 G0 G1 G2 H0 H1 H2 HS. nums. absp.
  eapply ap_weak; [chain|..]; unfold uu; lra.
Qed.
Lemma dot3 c0 x0 c1 x1 c2 x2 S0 S1 S2 :
  is_finite c0 = true -> is_finite c1 = true -> is_finite c2 = true ->
  is_finite x0 = true -> is_finite x1 = true -> is_finite x2 = true ->
  Rabs (B2R c0 * B2R x0) <= S0 -> Rabs (B2R c1 * B2R x1) <= S1 -> Rabs (B2R c2 * B2R x2) <= S2 -> S0 + S1 + S2 <= big / 2 ->
  ap (fadd (fadd (fmul c0 x0) (fmul c1 x1)) (fmul c2 x2)) (B2R c0 * B2R x0 + B2R c1 * B2R x1 + B2R c2 * B2R x2)
     (S0 + S1 + S2) (8 * uu * (S0 + S1 + S2) + 16 * tiny).
Proof.
  intros F0 F1 F2 G0 G1 G2 H0 H1 H2 HS. nums. absp.
  eapply ap_weak; [chain|..]; unfold uu; lra.
Qed.
Lemma dots s c x S0 S1 :
  is_finite s = true -> is_finite c = true -> is_finite x = true ->
  Rabs (B2R s) <= S0 -> Rabs (B2R c * B2R x) <= S1 -> S0 + S1 <= big / 2 ->
  ap (fadd s (fmul c x)) (B2R s + B2R c * B2R x) (S0 + S1) (8 * uu * (S0 + S1) + 16 * tiny).
Proof.
  intros F0 F1 F2 H0 H1 HS. nums. absp.
  eapply ap_weak; [chain|..]; unfold uu; lra.
Qed.
Lemma dotsy s c x d y S0 S1 S2 :
  is_finite s = true -> is_finite c = true -> is_finite x = true -> is_finite d = true -> is_finite y = true ->
  Rabs (B2R s) <= S0 -> Rabs (B2R c * B2R x) <= S1 -> Rabs (B2R d * B2R y) <= S2 -> S0 + S1 + S2 <= big / 2 ->
  ap (fsub (fadd s (fmul c x)) (fmul d y)) (B2R s + B2R c * B2R x - B2R d * B2R y) (S0 + S1 + S2) (8 * uu * (S0 + S1 + S2) + 16 * tiny).
Proof.
  intros F0 F1 F2 F3 F4 H0 H1 H2 HS. nums. absp.
  eapply ap_weak; [chain|..]; unfold uu; lra.
Qed.
Lemma dotxy c x d y S1 S2 :
  is_finite c = true -> is_finite x = true -> is_finite d = true -> is_finite y = true ->
  Rabs (B2R c * B2R x) <= S1 -> Rabs (B2R d * B2R y) <= S2 -> S1 + S2 <= big / 2 ->
  ap (fsub (fmul c x) (fmul d y)) (B2R c * B2R x - B2R d * B2R y) (S1 + S2) (8 * uu * (S1 + S2) + 16 * tiny).
Proof.
  intros F1 F2 F3 F4 H1 H2 HS. nums. absp.
  eapply ap_weak; [chain|..]; unfold uu; lra.
Qed.
