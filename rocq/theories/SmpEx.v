(** Concrete cases for PropsSmpRound.v: 16 bit samples in the 4th order Butterworth low pass of Examples.v; a gain of 3 that overflows. *)
From Coq Require Import ZArith List Bool Reals Lra Lia.
From Flocq Require Import Core.Raux Core.Defs IEEE754.BinarySingleNaN.
From Verif Require Import Num Outcome Types Biquad State Cascade PoleFilter History Float64 RefLibm FloatSpec Examples FloatExamples
  SigSpec SigProofs SampleLemmas StabProofs RoundSpec RoundProofs RoundRun RoundLemmas RoundExample RunOnEx BwDbl3 BwOut.
Import ListNotations.
Local Open Scope R_scope.

Lemma ex_smp : sects_ok ex_sects 32768 /\ total_error ex_sects 32768 0 <= 1 / 10 ^ 4 /\ last_bound ex_sects 32768 <= 2 ^ 23.
Proof.
  pose proof ex_inr as H. unfold ex_sects, ex_ranges in *. destruct (fl_stages ex_filt) as [|u [|v [|]]]; cbn [all2] in H; rewrite ?andb_false_r in H; try discriminate H.
  rewrite andb_true_r in H. unfold cfs in H. apply andb_prop in H. destruct H as [H1 H2]. cbn [all2] in H1, H2.
  repeat (apply andb_prop in H1; let h := fresh "U" in destruct H1 as [h H1]). repeat (apply andb_prop in H2; let h := fresh "V" in destruct H2 as [h H2]).
  repeat match goal with h : inr _ _ = true |- _ => apply inr_ok in h; [|lia|lia] end.
  cbn [combine map fst snd sects_ok total_error last_bound].
  set (s1 := mk_sect u 25). set (s2 := mk_sect v (25 / 4)).
  assert (G1 : s_G s1 = 25) by reflexivity. assert (G2 : s_G s2 = 25 / 4) by reflexivity.
  assert (A1 : 0 <= s_A s1 <= 2). { unfold s_A, s1, mk_sect. cbn [s_a1 s_a2]. unfold Rabs; repeat destruct (Rcase_abs _); lra. }
  assert (A2 : 0 <= s_A s2 <= 2). { unfold s_A, s2, mk_sect. cbn [s_a1 s_a2]. unfold Rabs; repeat destruct (Rcase_abs _); lra. }
  assert (B1 : 0 <= s_B s1 <= 2 / 100). { unfold s_B, s1, mk_sect. cbn [s_b0 s_b1 s_b2]. unfold Rabs; repeat destruct (Rcase_abs _); lra. }
  assert (B2 : 0 <= s_B s2 <= 4001 / 1000). { unfold s_B, s2, mk_sect. cbn [s_b0 s_b1 s_b2]. unfold Rabs; repeat destruct (Rcase_abs _); lra. }
  assert (R1 : rec_gain (s_a1 s1) (s_a2 s1) 25).
  { replace 25 with (/ (1 - 8 / 10) ^ 2) by field. apply gain_within; [|lra]. apply jury_within; [lra| |]; unfold s1, mk_sect; cbn [s_a1 s_a2]; unfold Rabs; repeat destruct (Rcase_abs _); lra. }
  assert (R2 : rec_gain (s_a1 s2) (s_a2 s2) (25 / 4)).
  { replace (25 / 4) with (/ (1 - 6 / 10) ^ 2) by field. apply gain_within; [|lra]. apply jury_within; [lra| |]; unfold s2, mk_sect; cbn [s_a1 s_a2]; unfold Rabs; repeat destruct (Rcase_abs _); lra. }
  pose proof g_pos as GP. assert (GT : g_abs <= / 10 ^ 20).
  { unfold g_abs. apply Rle_trans with (/ 2 ^ 70); [apply Rinv_le_contravar; [apply pow_lt; lra|apply Rle_pow; [lra|lia]]|lra]. }
  assert (P44 : 1000000 <= 2 ^ 44) by (simpl; lra).
  assert (P9 : 10 ^ 12 <= 2 ^ 900) by (rewrite pow2_IZR; apply Rle_trans with (IZR 1000000000000); [lra|apply IZR_le; vm_compute; discriminate]).
  assert (W1 : 0 <= (1 + s_B s1) * g_abs <= 2 * / 10 ^ 20) by (apply mulb; lra). assert (W2 : 0 <= (1 + s_B s2) * g_abs <= 6 * / 10 ^ 20) by (apply mulb; lra).
  assert (X1 : 0 <= s_B s1 * 32768 <= 2 / 100 * 32768) by (apply mulb; lra).
  assert (O1 : 0 <= out_bound s1 32768 <= 65600). { unfold out_bound. rewrite G1. lra. }
  assert (X2 : 0 <= s_B s2 * out_bound s1 32768 <= 4001 / 1000 * 65600) by (apply mulb; lra).
  assert (O2 : 0 <= out_bound s2 (out_bound s1 32768) <= 2 ^ 23). { unfold out_bound at 1 3. rewrite G2. lra. }
  assert (E1 : 0 <= own_error s1 32768 <= 8 / 10 ^ 7).
  { unfold own_error. rewrite G1, g_rel_uu. unfold uu. assert (K : 0 <= (1 + 2 * s_A s1 * 25) * (s_B s1 * 32768 + (1 + s_B s1) * g_abs) <= 101 * 656) by (apply mulb; lra). lra. }
  assert (E2 : 0 <= own_error s2 (out_bound s1 32768) <= 4 / 10 ^ 6).
  { unfold own_error. rewrite G2, g_rel_uu. unfold uu. assert (K : 0 <= (1 + 2 * s_A s2 * (25 / 4)) * (s_B s2 * out_bound s1 32768 + (1 + s_B s2) * g_abs) <= 26 * 262600) by (apply mulb; lra). lra. }
  assert (Y1 : 0 <= s_G s1 * s_B s1 <= 25 * (2 / 100)) by (apply mulb; lra). assert (Y2 : 0 <= s_G s2 * s_B s2 <= 25 / 4 * (4001 / 1000)) by (apply mulb; lra).
  assert (Y3 : 0 <= s_G s1 * s_B s1 * (32768 + 1) <= 25 * (2 / 100) * 32769) by (apply mulb; lra). assert (Y4 : 0 <= s_G s2 * s_B s2 * (out_bound s1 32768 + 1) <= 25 / 4 * (4001 / 1000) * 65601) by (apply mulb; lra).
  assert (Z1 : 0 <= s_G s1 * s_A s1 <= 25 * 2) by (apply mulb; lra). assert (Z2 : 0 <= s_G s2 * s_A s2 <= 25 / 4 * 2) by (apply mulb; lra).
  split; [|split].
  - split; [split; [rewrite G1; exact R1|repeat split; lra]|split; [split; [rewrite G2; exact R2|repeat split; lra]|exact I]].
  - assert (Q : 0 <= s_G s2 * s_B s2 * (s_G s1 * s_B s1 * 0 + own_error s1 32768) <= 25 / 4 * (4001 / 1000) * (8 / 10 ^ 7)) by (apply mulb; lra). lra.
  - lra.
Qed.

(** a gain of 3 *)
Definition gain3 : sect := Sect 0 0 3 0 0 1.
Lemma ex_clip : fin_coeffs ex_gain3 /\ sect_of ex_gain3 gain3 /\ sects_ok [gain3] 20000 /\ exact_out [gain3] (map IZR [20000%Z]) [60000] /\ total_error [gain3] 20000 0 <= 1 /\
  List.Exists (fun z => z <= IZR (-32768) - 1 - total_error [gain3] 20000 0 \/ IZR 32767 + 1 + total_error [gain3] 20000 0 <= z) [60000].
Proof.
  pose proof g_pos as GP. assert (GT : g_abs <= / 10 ^ 20).
  { unfold g_abs. apply Rle_trans with (/ 2 ^ 70); [apply Rinv_le_contravar; [apply pow_lt; lra|apply Rle_pow; [lra|lia]]|lra]. }
  assert (P9 : 1000000 <= 2 ^ 900) by (rewrite pow2_IZR; apply IZR_le; vm_compute; discriminate).
  assert (A : s_A gain3 = 0) by (unfold s_A, gain3; cbn [s_a1 s_a2]; rewrite Rabs_R0; ring). assert (B : s_B gain3 = 3) by (unfold s_B, gain3; cbn [s_b0 s_b1 s_b2]; rewrite Rabs_R0, Rabs_pos_eq by lra; ring).
  assert (E : 0 <= total_error [gain3] 20000 0 <= 1). { cbn [total_error]. unfold own_error. rewrite A, B. cbn [gain3 s_G]. rewrite g_rel_uu. unfold uu. lra. }
  split; [repeat split; reflexivity|]. split; [|split; [|split; [|split; [apply E|]]]].
  - assert (Z0 : B2R (d 0 1 : f64) = 0) by (rewrite (sf_val (d 0 1 : f64) _ (ltac:(vm_compute; reflexivity) : _ = SpecFloat.S754_zero false)); reflexivity).
    assert (T3 : B2R (d 3 1 : f64) = 3). { rewrite (sf_val (d 3 1 : f64) _ (ltac:(vm_compute; reflexivity) : _ = SpecFloat.S754_finite false 6755399441055744 (-51))). unfold SF2R, Defs.F2R. cbn. lra. }
    repeat split; assumption || (symmetry; assumption).
  - split; [|exact I]. split; [exact gain_one|]. rewrite A, B. cbn [gain3 s_G]. lra.
  - exists [60000]. split; [|reflexivity]. split; [reflexivity|]. intros [|n] Hn; [|cbn in Hn; lia]. cbn. lra.
  - left. right. lra.
Qed.
Lemma ex_float3 : fin_coeffs ex_gain3 /\ sect_of ex_gain3 gain3 /\ sects_ok [gain3] 1 /\ exact_out [gain3] [1] [3] /\ Rabs 3 <= 2 ^ 128 - 2 ^ 104 - total_error [gain3] 1 0.
Proof.
  destruct ex_clip as (F & S & _). split; [exact F|]. split; [exact S|]. pose proof g_pos as GP.
  assert (P9 : 1000000 <= 2 ^ 900) by (rewrite pow2_IZR; apply IZR_le; vm_compute; discriminate).
  assert (A : s_A gain3 = 0) by (unfold s_A, gain3; cbn [s_a1 s_a2]; rewrite Rabs_R0; ring). assert (B : s_B gain3 = 3) by (unfold s_B, gain3; cbn [s_b0 s_b1 s_b2]; rewrite Rabs_R0, Rabs_pos_eq by lra; ring).
  split; [|split].
  - split; [|exact I]. split; [exact gain_one|]. rewrite A, B. cbn [gain3 s_G]. lra.
  - exists [3]. split; [|reflexivity]. split; [reflexivity|]. intros [|n] Hn; [|cbn in Hn; lia]. cbn. lra.
  - cbn [total_error]. unfold own_error. rewrite A, B, Rabs_pos_eq by lra. cbn [gain3 s_G]. rewrite g_rel_uu. unfold uu. lra.
Qed.
