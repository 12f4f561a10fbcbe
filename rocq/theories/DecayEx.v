(** A concrete case for PropsDecay.v: the used 4th order Butterworth low pass of Examples.v falls silent. *)
From Coq Require Import ZArith List Bool Reals Lra Lia.
From Flocq Require Import Core.Raux Core.Defs IEEE754.BinarySingleNaN.
From Verif Require Import Num Outcome Types Biquad State Cascade PoleFilter History Float64 RefLibm FloatSpec Examples
  SampleLemmas RoundSpec RoundProofs RoundRun RoundLemmas RoundExample RunOnSpec RunOn RunOnLemmas RunOnEx DecaySpec.
Import ListNotations.
Local Open Scope R_scope.

Lemma ranges_fall (bs : list (biquad D)) c : all2 (fun r b => all2 inr r (cfs b)) ex_ranges bs = true -> 0 <= c <= 300000 ->
  fall_ok (257 / 256) c (sects_ex bs) 0 /\ 0 <= fall (sects_ex bs) 0 <= 14000000.
Proof.
  intros H Hc. destruct (ranges_ok bs c H Hc) as (_ & _ & HOK & HR & _). unfold sects_ex, ex_ranges in *. destruct bs as [|u [|v [|]]]; cbn [all2] in H; rewrite ?andb_false_r in H; try discriminate H.
  rewrite andb_true_r in H. unfold cfs in H. apply andb_prop in H. destruct H as [H1 H2]. cbn [all2] in H1, H2.
  repeat (apply andb_prop in H1; let h := fresh "U" in destruct H1 as [h H1]). repeat (apply andb_prop in H2; let h := fresh "V" in destruct H2 as [h H2]).
  repeat match goal with h : inr _ _ = true |- _ => apply inr_ok in h; [|lia|lia] end.
  cbn [combine map fst snd ok_from fall_ok fall] in *. set (s1 := mk_sect u 25) in *. set (s2 := mk_sect v (25 / 4)) in *.
  assert (G1 : s_G s1 = 25) by reflexivity. assert (G2 : s_G s2 = 25 / 4) by reflexivity.
  assert (A1 : 0 <= s_A s1 <= 2). { unfold s_A, s1, mk_sect. cbn [s_a1 s_a2]. unfold Rabs; repeat destruct (Rcase_abs _); lra. }
  assert (A2 : 0 <= s_A s2 <= 2). { unfold s_A, s2, mk_sect. cbn [s_a1 s_a2]. unfold Rabs; repeat destruct (Rcase_abs _); lra. }
  assert (B1 : 0 <= s_B s1 <= 2 / 100). { unfold s_B, s1, mk_sect. cbn [s_b0 s_b1 s_b2]. unfold Rabs; repeat destruct (Rcase_abs _); lra. }
  assert (B2 : 0 <= s_B s2 <= 4001 / 1000). { unfold s_B, s2, mk_sect. cbn [s_b0 s_b1 s_b2]. unfold Rabs; repeat destruct (Rcase_abs _); lra. }
  clear U U0 U1 U2 U3 V V0 V1 V2 V3 H1 H2. destruct HOK as ((RG1 & _) & (RG2 & _) & _). destruct HR as (_ & HR). inversion HR as [|? ? HR1 HR']. inversion HR' as [|? ? HR2 _]. subst. clear HR HR'.
  assert (P36 : 1000000 <= 2 ^ 36) by (simpl; lra).
  assert (P9 : 10 ^ 20 <= 2 ^ 900). { rewrite pow2_IZR. rewrite ten20. apply IZR_le. vm_compute. discriminate. }
  assert (Q1 : 0 <= (1 + s_A s1) * (1 + s_B s1) <= 3 * (102 / 100)) by (apply mulb; lra). assert (Q2 : 0 <= (1 + s_A s2) * (1 + s_B s2) <= 3 * (5001 / 1000)) by (apply mulb; lra).
  set (q1 := (1 + s_A s1) * (1 + s_B s1)) in *. set (q2 := (1 + s_A s2) * (1 + s_B s2)) in *.
  assert (F1E : fall_out s1 0 = 16 * 25 * (2 * q1 + 4 * (1 + s_B s1))) by (unfold fall_out, q1; rewrite G1; ring). set (o1 := fall_out s1 0) in *.
  assert (F1 : 0 <= o1 <= 4100) by lra.
  assert (QO : 0 <= q2 * (o1 + 1) <= 3 * (5001 / 1000) * 4101) by (apply mulb; lra).
  assert (F2E : fall_out s2 o1 = 16 * (25 / 4) * (2 * (q2 * (o1 + 1)) + 4 * (1 + s_B s2))) by (unfold fall_out, q2; rewrite G2; ring). set (o2 := fall_out s2 o1) in *.
  assert (F2 : 0 <= o2 <= 14000000) by lra.
  assert (W1 : 0 <= o1 * (1 + s_B s1) <= 4100 * (102 / 100)) by (apply mulb; lra). assert (W2 : 0 <= o2 * (1 + s_B s2) <= 14000000 * (5001 / 1000)) by (apply mulb; lra).
  assert (Z1 : 0 <= o1 * (1 + s_B s1) * (c + 1) <= 4100 * (102 / 100) * 300001) by (apply mulb; lra). assert (Z2 : 0 <= o2 * (1 + s_B s2) * (c + 1) <= 14000000 * (5001 / 1000) * 300001) by (apply mulb; lra).
  split; [|exact F2]. unfold fall_ok1. fold o1 o2. rewrite G1, G2 in *. repeat split; try assumption; lra.
Qed.
Lemma ex_falls : 1 < 257 / 256 /\ (257 / 256) ^ 2 <= 2 /\ fall_ok (257 / 256) 2 (sects_ex (fl_stages ex_filt)) 0 /\
  fall_ok (257 / 256) (held (sects_ex (fl_stages ex_filt)) 2 1) (sects_ex (fl_stages ex_filt)) 0 /\ 2 * fall (sects_ex (fl_stages ex_filt)) 0 * g_abs <= / 2 ^ 1035.
Proof.
  destruct (ranges_ok (fl_stages ex_filt) 2 ex_inr ltac:(lra)) as (_ & _ & C & _ & _ & _ & G & _).
  pose proof (held_ge _ _ _ C ltac:(lra) ltac:(lra)) as HG.
  destruct (ranges_fall (fl_stages ex_filt) 2 ex_inr ltac:(lra)) as [A B]. destruct (ranges_fall (fl_stages ex_filt) (held (sects_ex (fl_stages ex_filt)) 2 1) ex_inr ltac:(lra)) as [A' _].
  split; [lra|]. split; [simpl; lra|]. split; [exact A|]. split; [exact A'|].
  assert (E : / 2 ^ 1035 = 2 ^ 25 * g_abs).
  { unfold g_abs. replace (2 ^ 1060) with (2 ^ 25 * 2 ^ 1035) by (rewrite <- pow_add; reflexivity). assert (0 < 2 ^ 1035) by (apply pow_lt; lra). set (p := 2 ^ 1035) in *. assert (0 < 2 ^ 25) by (apply pow_lt; lra). field. lra. }
  rewrite E. pose proof g_pos. apply Rmult_le_compat_r; [lra|]. replace (2 ^ 25) with 33554432 by (simpl; ring). lra.
Qed.
