(** A concrete case for PropsRound.v: the 4th order Butterworth low pass of Examples.v. *)
From Coq Require Import ZArith List Bool Reals Lra Lia.
From Flocq Require Import Core.Raux Core.Defs IEEE754.BinarySingleNaN.
From Verif Require Import Num Outcome Types Biquad State Cascade PoleFilter History Float64 RefLibm FloatSpec Examples
  SampleLemmas RoundSpec RoundProofs RoundRun RoundLemmas.
Import ListNotations.
Local Open Scope R_scope.

(** the coefficients, in units of 2^-20 *)
Definition ex_ranges : list (list (Z * Z)) :=
  [[(-1385081, -1385074); (663470, 663477); (5055, 5062); (10113, 10120); (5055, 5062)];
   [(-1099539, -1099532); (310522, 310529); (1048573, 1048579); (2097149, 2097155); (1048573, 1048579)]]%Z.
Definition inr (r : Z * Z) (x : f64) : bool := Bleb (fnorm (fst r) (-20)) x && Bleb x (fnorm (snd r) (-20)) && is_finite x.
Fixpoint all2 {A B} (f : A -> B -> bool) (l : list A) (l' : list B) : bool :=
  match l, l' with [], [] => true | a :: l, b :: l' => f a b && all2 f l l' | _, _ => false end.
Definition cfs (b : biquad D) : list f64 := [m_a1 b : f64; m_a2 b : f64; m_b0 b : f64; m_b1 b : f64; m_b2 b : f64].
Lemma ex_inr : all2 (fun r b => all2 inr r (cfs b)) ex_ranges (fl_stages ex_filt) = true.
Proof. vm_compute. reflexivity. Qed.
Lemma inr_ok p q x : (Z.abs p < 2 ^ 53)%Z -> (Z.abs q < 2 ^ 53)%Z -> inr (p, q) x = true -> IZR p / 1048576 <= B2R x <= IZR q / 1048576.
Proof.
  intros Hp Hq H. unfold inr in H. cbn [fst snd] in H. apply andb_prop in H. destruct H as [H F]. apply andb_prop in H. destruct H as [A B].
  destruct (fnorm_exact p (-20) Hp ltac:(lia)) as [P1 P2]. destruct (fnorm_exact q (-20) Hq ltac:(lia)) as [Q1 Q2].
  rewrite Bleb_correct in A, B by assumption. destruct (Rle_bool_spec (B2R (fnorm p (-20))) (B2R x)) as [A'|]; [|discriminate].
  destruct (Rle_bool_spec (B2R x) (B2R (fnorm q (-20)))) as [B'|]; [|discriminate]. rewrite P1 in A'. rewrite Q1 in B'. unfold F2R in *. cbn in A', B'. lra.
Qed.
Definition mk_sect (b : biquad D) (G : R) : sect :=
  Sect (B2R (m_a1 b : f64)) (B2R (m_a2 b : f64)) (B2R (m_b0 b : f64)) (B2R (m_b1 b : f64)) (B2R (m_b2 b : f64)) G.
(** gains for the pole radii 0.8 and 0.6 *)
Definition ex_sects : list sect := map (fun p => mk_sect (fst p) (snd p)) (combine (fl_stages ex_filt) [25; 25 / 4]).

Lemma ex_round : List.Forall fin_coeffs (fl_stages ex_filt) /\ List.Forall2 sect_of (fl_stages ex_filt) ex_sects /\
  sects_ok ex_sects 1 /\ total_error ex_sects 1 0 <= 1 / 10 ^ 9 /\ last_bound ex_sects 1 <= 202.
Proof.
  pose proof ex_inr as H. unfold ex_sects, ex_ranges in *. destruct (fl_stages ex_filt) as [|u [|v [|]]]; cbn [all2] in H; rewrite ?andb_false_r in H; try discriminate H.
  rewrite andb_true_r in H. unfold cfs in H. apply andb_prop in H. destruct H as [H1 H2]. cbn [all2] in H1, H2.
  repeat (apply andb_prop in H1; let h := fresh "U" in destruct H1 as [h H1]). repeat (apply andb_prop in H2; let h := fresh "V" in destruct H2 as [h H2]).
  assert (F : List.Forall fin_coeffs [u; v]).
  { assert (Q : forall r (x : f64), inr r x = true -> is_fin x) by (intros r x h; unfold inr in h; apply andb_prop in h; exact (proj2 h)).
    constructor; [|constructor; [|constructor]]; repeat split; eapply Q; eassumption. }
  repeat match goal with h : inr _ _ = true |- _ => apply inr_ok in h; [|lia|lia] end.
  split; [exact F|]. split; [repeat constructor|]. cbn [combine map fst snd sects_ok total_error last_bound].
  set (s1 := mk_sect u 25). set (s2 := mk_sect v (25 / 4)).
  assert (G1 : s_G s1 = 25) by reflexivity. assert (G2 : s_G s2 = 25 / 4) by reflexivity.
  assert (A1 : 0 <= s_A s1 <= 2). { unfold s_A, s1, mk_sect. cbn [s_a1 s_a2]. unfold Rabs; repeat destruct (Rcase_abs _); lra. }
  assert (A2 : 0 <= s_A s2 <= 2). { unfold s_A, s2, mk_sect. cbn [s_a1 s_a2]. unfold Rabs; repeat destruct (Rcase_abs _); lra. }
  assert (B1 : 0 <= s_B s1 <= 2 / 100). { unfold s_B, s1, mk_sect. cbn [s_b0 s_b1 s_b2]. unfold Rabs; repeat destruct (Rcase_abs _); lra. }
  assert (B2 : 0 <= s_B s2 <= 4001 / 1000). { unfold s_B, s2, mk_sect. cbn [s_b0 s_b1 s_b2]. unfold Rabs; repeat destruct (Rcase_abs _); lra. }
  assert (R1 : rec_gain (s_a1 s1) (s_a2 s1) 25).
  { replace 25 with (/ (1 - 8 / 10) ^ 2) by field. apply gain_within; [|lra]. apply jury_within; [lra| |]; unfold s1, mk_sect; cbn [s_a1 s_a2]; unfold Rabs; repeat destruct (Rcase_abs _); lra. }
  assert (R2 : rec_gain (s_a1 s2) (s_a2 s2) (25 / 4)).
  { replace (25 / 4) with (/ (1 - 6 / 10) ^ 2) by field. apply gain_within; [|lra]. apply jury_within; [lra| |]; unfold s2, mk_sect; cbn [s_a1 s_a2]; unfold Rabs; repeat destruct (Rcase_abs _); lra. }
  pose proof g_pos as GP. assert (GT : g_abs <= / 10 ^ 20).
  { unfold g_abs. apply Rinv_le; [lra|]. rewrite pow2_IZR. replace (10 ^ 20) with (IZR (10 ^ 20)) by (cbn; lra). apply IZR_le. vm_compute. discriminate. }
  assert (P44 : 1000000 <= 2 ^ 44) by (simpl; lra).
  assert (P9 : 1000000 <= 2 ^ 900) by (rewrite pow2_IZR; apply IZR_le; vm_compute; discriminate).
  assert (O1 : 0 <= out_bound s1 1 <= 201 / 100). { unfold out_bound. rewrite G1. assert (0 <= (1 + s_B s1) * g_abs <= 2 * / 10 ^ 20) by (split; nra). lra. }
  assert (O2 : 0 <= out_bound s2 (out_bound s1 1) <= 202). { unfold out_bound at 1 3. rewrite G2. assert (0 <= (1 + s_B s2) * g_abs <= 6 * / 10 ^ 20) by (split; nra). assert (0 <= s_B s2 * out_bound s1 1 <= 4001 / 1000 * (201 / 100)) by (split; nra). lra. }
  assert (E1 : 0 <= own_error s1 1 <= / 10 ^ 11).
  { unfold own_error. rewrite G1, g_rel_uu. unfold uu. assert (N : 0 <= (1 + s_B s1) * g_abs <= 2 * / 10 ^ 20) by (split; nra).
    assert (K : 0 <= (1 + 2 * s_A s1 * 25) * (s_B s1 * 1 + (1 + s_B s1) * g_abs) <= 101 * (3 / 100)) by (split; nra). lra. }
  assert (E2 : 0 <= own_error s2 (out_bound s1 1) <= / 10 ^ 10).
  { unfold own_error. rewrite G2, g_rel_uu. unfold uu. assert (N : 0 <= (1 + s_B s2) * g_abs <= 6 * / 10 ^ 20) by (split; nra).
    assert (M : 0 <= s_B s2 * out_bound s1 1 <= 4001 / 1000 * (201 / 100)) by (split; nra).
    assert (K : 0 <= (1 + 2 * s_A s2 * (25 / 4)) * (s_B s2 * out_bound s1 1 + (1 + s_B s2) * g_abs) <= 26 * 9) by (split; nra). lra. }
  split; [|split].
  - repeat split; rewrite ?G1, ?G2; try assumption; try lra; nra.
  - rewrite G1, G2. assert (25 / 4 * s_B s2 * (25 * s_B s1 * 0 + own_error s1 1) <= 26 * / 10 ^ 11) by nra. lra.
  - lra.
Qed.
(** double pole 1/2 *)
Lemma ex_gain : roots_within (-1) (1 / 4) (1 / 2) /\ rec_gain (-1) (1 / 4) 4.
Proof.
  assert (R : roots_within (-1) (1 / 4) (1 / 2)) by (apply jury_within; [lra| |]; unfold Rabs; repeat destruct (Rcase_abs _); lra).
  split; [exact R|]. pose proof (gain_within _ _ _ R ltac:(lra)) as Q. replace (/ (1 - 1 / 2) ^ 2) with 4 in Q by field. exact Q.
Qed.
