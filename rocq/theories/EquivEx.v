(** A concrete case for PropsEquiv.v: the 4th order Butterworth low pass of Examples.v, its two stages in both orders. *)
From Coq Require Import ZArith List Bool Reals Lra Lia.
From Flocq Require Import Core.Raux Core.Defs IEEE754.BinarySingleNaN.
From Verif Require Import Num Outcome Types Biquad State Cascade PoleFilter History Float64 RefLibm FloatSpec Examples
  SampleLemmas RoundSpec RoundProofs RoundRun RoundLemmas RoundExample RunOnEx.
Import ListNotations.
Local Open Scope R_scope.

Lemma ex_equiv X : 0 <= X <= 2 -> List.Forall fin_coeffs (fl_stages ex_filt) /\ List.Forall2 sect_of (fl_stages ex_filt) ex_sects /\ List.Forall2 sect_of (rev (fl_stages ex_filt)) (rev ex_sects) /\
  sects_ok ex_sects X /\ sects_ok (rev ex_sects) X.
Proof.
  intros HX. destruct ex_round as (EF & E2 & EOK & _). split; [exact EF|]. split; [exact E2|]. pose proof ex_inr as H. clear EF E2. unfold ex_sects, ex_ranges in *.
  destruct (fl_stages ex_filt) as [|u [|v [|]]]; cbn [all2] in H; rewrite ?andb_false_r in H; try discriminate H.
  rewrite andb_true_r in H. unfold cfs in H. apply andb_prop in H. destruct H as [H1 H2]. cbn [all2] in H1, H2.
  repeat (apply andb_prop in H1; let h := fresh "U" in destruct H1 as [h H1]). repeat (apply andb_prop in H2; let h := fresh "V" in destruct H2 as [h H2]).
  repeat match goal with h : inr _ _ = true |- _ => apply inr_ok in h; [|lia|lia] end.
  cbn [combine map fst snd sects_ok rev app] in *. split; [repeat constructor|].
  set (s1 := mk_sect u 25) in *. set (s2 := mk_sect v (25 / 4)) in *.
  assert (G1 : s_G s1 = 25) by reflexivity. assert (G2 : s_G s2 = 25 / 4) by reflexivity.
  assert (A1 : 0 <= s_A s1 <= 2). { unfold s_A, s1, mk_sect. cbn [s_a1 s_a2]. unfold Rabs; repeat destruct (Rcase_abs _); lra. }
  assert (A2 : 0 <= s_A s2 <= 2). { unfold s_A, s2, mk_sect. cbn [s_a1 s_a2]. unfold Rabs; repeat destruct (Rcase_abs _); lra. }
  assert (B1 : 0 <= s_B s1 <= 2 / 100). { unfold s_B, s1, mk_sect. cbn [s_b0 s_b1 s_b2]. unfold Rabs; repeat destruct (Rcase_abs _); lra. }
  assert (B2 : 0 <= s_B s2 <= 4001 / 1000). { unfold s_B, s2, mk_sect. cbn [s_b0 s_b1 s_b2]. unfold Rabs; repeat destruct (Rcase_abs _); lra. }
  destruct EOK as ((R1 & _) & (R2 & _) & _). pose proof g_pos as GP.
  assert (P44 : 1000000 <= 2 ^ 44) by (simpl; lra). assert (P9 : 1000000 <= 2 ^ 900) by (rewrite pow2_IZR; apply IZR_le; vm_compute; discriminate).
  assert (OB : forall s x, 0 <= s_B s <= 4001 / 1000 -> 0 <= s_G s <= 25 -> 0 <= x <= 2000 -> 0 <= out_bound s x <= 100 * (4001 / 1000 * x + 6)).
  { intros s x HB HG Hx. unfold out_bound. assert (0 <= s_B s * x <= 4001 / 1000 * x) by (split; [apply Rmult_le_pos; lra|apply Rmult_le_compat_r; lra]). assert (0 <= (1 + s_B s) * g_abs <= 5001 / 1000 * 1) by (apply mulb; lra).
    assert (0 <= 4 * s_G s * (s_B s * x + (1 + s_B s) * g_abs) <= 100 * (4001 / 1000 * x + 6)) by (apply mulb; lra). lra. }
  assert (OKS : forall s x, rec_gain (s_a1 s) (s_a2 s) (s_G s) -> 0 <= s_A s <= 2 -> 0 <= s_B s <= 4001 / 1000 -> 0 <= s_G s <= 25 -> 0 <= x <= 2000 -> sect_ok s x).
  { intros s x HR HA HB HG Hx. split; [exact HR|]. assert (0 <= s_G s * s_A s <= 25 * 2) by (apply mulb; lra). assert (0 <= s_G s * s_B s <= 25 * (4001 / 1000)) by (apply mulb; lra).
    assert (0 <= s_G s * s_B s * (x + 1) <= 25 * (4001 / 1000) * 2001) by (apply mulb; lra). lra. }
  pose proof (OB s1 X ltac:(lra) ltac:(lra) ltac:(lra)) as O1. pose proof (OB s2 X ltac:(lra) ltac:(lra) ltac:(lra)) as O2.
  split; (split; [apply OKS; try assumption; lra|split; [apply OKS; try assumption; lra|exact I]]).
Qed.
