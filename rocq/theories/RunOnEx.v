(** A concrete case for PropsRunOn.v: the used 4th order Butterworth low pass of Examples.v (its delay lines are not empty). *)
From Coq Require Import ZArith List Bool Reals Lra Lia.
From Flocq Require Import Core.Raux Core.Defs IEEE754.BinarySingleNaN.
From Verif Require Import Num Outcome Types Biquad State Cascade PoleFilter History Float64 RefLibm FloatSpec Examples
  SampleLemmas RoundSpec RoundProofs RoundRun RoundLemmas RoundExample RunOnSpec RunOn RunOnLemmas.
Import ListNotations.
Local Open Scope R_scope.

Definition sects_ex (bs : list (biquad D)) : list sect := map (fun p => mk_sect (fst p) (snd p)) (combine bs [25; 25 / 4]).
Lemma ten20 : 10 ^ 20 = IZR (10 ^ 20).
Proof. rewrite pow_IZR. reflexivity. Qed.
Lemma mulb a b A B : 0 <= a <= A -> 0 <= b <= B -> 0 <= a * b <= A * B.
Proof. intros. split; [apply Rmult_le_pos; lra|apply Rmult_le_compat; lra]. Qed.
(** everything about two stages in the given ranges, delay lines up to c <= 300000 *)
Lemma ranges_ok (bs : list (biquad D)) c : all2 (fun r b => all2 inr r (cfs b)) ex_ranges bs = true -> 0 <= c <= 300000 ->
  List.Forall fin_coeffs bs /\ List.Forall2 sect_of bs (sects_ex bs) /\ ok_from (sects_ex bs) c 1 /\ rate_ok (257 / 256) (sects_ex bs) /\
  bound_from (sects_ex bs) c 1 <= 400 + 32000 * c /\ error_from (sects_ex bs) c 1 0 <= (2 + 100 * c) / 10 ^ 9 /\
  held (sects_ex bs) c 1 <= 1000 + 120000 * c /\ fade (257 / 256) (sects_ex bs) c 0 <= 20000 * c.
Proof.
  intros H Hc. unfold sects_ex, ex_ranges in *. destruct bs as [|u [|v [|]]]; cbn [all2] in H; rewrite ?andb_false_r in H; try discriminate H.
  rewrite andb_true_r in H. unfold cfs in H. apply andb_prop in H. destruct H as [H1 H2]. cbn [all2] in H1, H2.
  repeat (apply andb_prop in H1; let h := fresh "U" in destruct H1 as [h H1]). repeat (apply andb_prop in H2; let h := fresh "V" in destruct H2 as [h H2]).
  assert (F : List.Forall fin_coeffs [u; v]).
  { assert (Q : forall r (x : f64), inr r x = true -> is_fin x) by (intros r x h; unfold inr in h; apply andb_prop in h; exact (proj2 h)).
    constructor; [|constructor; [|constructor]]; repeat split; eapply Q; eassumption. }
  repeat match goal with h : inr _ _ = true |- _ => apply inr_ok in h; [|lia|lia] end.
  split; [exact F|]. split; [repeat constructor|]. cbn [combine map fst snd ok_from error_from bound_from held fade].
  set (s1 := mk_sect u 25). set (s2 := mk_sect v (25 / 4)).
  assert (G1 : s_G s1 = 25) by reflexivity. assert (G2 : s_G s2 = 25 / 4) by reflexivity.
  assert (A1 : 0 <= s_A s1 <= 2). { unfold s_A, s1, mk_sect. cbn [s_a1 s_a2]. unfold Rabs; repeat destruct (Rcase_abs _); lra. }
  assert (A2 : 0 <= s_A s2 <= 2). { unfold s_A, s2, mk_sect. cbn [s_a1 s_a2]. unfold Rabs; repeat destruct (Rcase_abs _); lra. }
  assert (B1 : 0 <= s_B s1 <= 2 / 100). { unfold s_B, s1, mk_sect. cbn [s_b0 s_b1 s_b2]. unfold Rabs; repeat destruct (Rcase_abs _); lra. }
  assert (B2 : 0 <= s_B s2 <= 4001 / 1000). { unfold s_B, s2, mk_sect. cbn [s_b0 s_b1 s_b2]. unfold Rabs; repeat destruct (Rcase_abs _); lra. }
  assert (R1 : rec_gain (s_a1 s1) (s_a2 s1) 25).
  { replace 25 with (/ (1 - 8 / 10) ^ 2) by field. apply gain_within; [|lra]. apply jury_within; [lra| |]; unfold s1, mk_sect; cbn [s_a1 s_a2]; unfold Rabs; repeat destruct (Rcase_abs _); lra. }
  assert (R2 : rec_gain (s_a1 s2) (s_a2 s2) (25 / 4)).
  { replace (25 / 4) with (/ (1 - 6 / 10) ^ 2) by field. apply gain_within; [|lra]. apply jury_within; [lra| |]; unfold s2, mk_sect; cbn [s_a1 s_a2]; unfold Rabs; repeat destruct (Rcase_abs _); lra. }
  pose proof g_pos as GP. assert (GT : g_abs <= / 10 ^ 20).
  { unfold g_abs. apply Rinv_le; [lra|]. rewrite pow2_IZR. rewrite ten20. apply IZR_le. vm_compute. discriminate. }
  assert (P44 : 1000000 <= 2 ^ 44) by (simpl; lra).
  assert (P9 : 10 ^ 20 <= 2 ^ 900). { rewrite pow2_IZR. rewrite ten20. apply IZR_le. vm_compute. discriminate. }
  assert (N1 : 0 <= (1 + s_B s1) * g_abs <= (1 + 2 / 100) * / 10 ^ 20) by (apply mulb; lra). assert (N2 : 0 <= (1 + s_B s2) * g_abs <= (1 + 4001 / 1000) * / 10 ^ 20) by (apply mulb; lra).
  set (n1 := (1 + s_B s1) * g_abs) in *. set (n2 := (1 + s_B s2) * g_abs) in *.
  assert (AB1 : 0 <= (1 + s_A s1) * (1 + s_B s1) <= 3 * (102 / 100)) by (apply mulb; lra). assert (AB2 : 0 <= (1 + s_A s2) * (1 + s_B s2) <= 3 * (5001 / 1000)) by (apply mulb; lra).
  set (q1 := (1 + s_A s1) * (1 + s_B s1)) in *. set (q2 := (1 + s_A s2) * (1 + s_B s2)) in *.
  assert (Q1 : 0 <= q1 * c <= 306 / 100 * c) by (split; [apply Rmult_le_pos|apply Rmult_le_compat_r]; lra).
  assert (Q2 : 0 <= q2 * c <= 1501 / 100 * c) by (split; [apply Rmult_le_pos|apply Rmult_le_compat_r]; lra).
  set (l1 := lvl s1 c 1). assert (L1 : 0 <= l1 <= 2 / 100 + 306 / 100 * c) by (unfold l1, lvl; fold q1; lra).
  set (o1 := out_from s1 c 1). assert (O1 : 0 <= o1 <= 201 / 100 + 306 * c) by (unfold o1, out_from; fold l1 n1; rewrite G1; lra).
  assert (BO : 0 <= s_B s2 * o1 <= 4001 / 1000 * (201 / 100 + 306 * c)) by (apply mulb; lra).
  set (l2 := lvl s2 c o1). assert (L2 : 0 <= l2 <= 81 / 10 + 1240 * c) by (unfold l2, lvl; fold q2; lra).
  assert (AC1 : 0 <= (1 + s_A s1) * c <= 3 * 300000) by (apply mulb; lra). assert (AC2 : 0 <= (1 + s_A s2) * c <= 3 * 300000) by (apply mulb; lra).
  assert (K1 : 0 <= (1 + 2 * s_A s1 * 25) * (l1 + n1) <= 101 * (3 / 100 + 306 / 100 * c)) by (apply mulb; lra).
  assert (K2 : 0 <= (1 + 2 * s_A s2 * (25 / 4)) * (l2 + n2) <= 26 * (82 / 10 + 1240 * c)) by (apply mulb; lra).
  assert (BE : 0 <= s_B s2 * err_from s1 c 1 <= 4001 / 1000 * (/ 10 ^ 9 * (1 / 20 + c / 2))).
  { apply mulb; [lra|]. unfold err_from. fold l1 n1. rewrite G1, g_rel_uu. unfold uu. rewrite !Rmult_assoc. rewrite (Rmult_assoc 2 (s_A s1) 25) in K1. lra. }
  assert (E2 : 0 <= err_from s2 c o1 <= / 10 ^ 9 * (1 / 10 + 10 * c)).
  { unfold err_from. fold l2 n2. rewrite G2, g_rel_uu. unfold uu. rewrite !Rmult_assoc. rewrite (Rmult_assoc 2 (s_A s2)) in K2. lra. }
  assert (BF : 0 <= s_B s2 * (2 * 25 * (257 / 256) ^ 2 * (s_B s1 * 0 + 2 * (q1 * c))) <= 4001 / 1000 * (51 * (2 * (306 / 100 * c)))) by (apply mulb; [lra|simpl; lra]).
  split; [|split; [|split; [|split; [|split]]]].
  - unfold sect_ok_from. fold l1 l2. rewrite G1, G2. repeat split; try assumption; lra.
  - split; [lra|]. repeat constructor; rewrite ?G1, ?G2; simpl; lra.
  - unfold out_from. fold l2 n2. rewrite G2. lra.
  - rewrite G1, G2. rewrite Rmult_0_r, Rplus_0_l. rewrite Rmult_assoc. lra.
  - unfold hold_from. fold l1 l2. rewrite G1, G2.
    assert (T1 : 0 <= (1 + s_A s1) * (1 + l1 + g_abs) <= 3 * (2 + 306 / 100 * c)) by (apply mulb; lra).
    assert (T2 : 0 <= (1 + s_A s2) * (o1 + l2 + g_abs) <= 3 * (11 + 1546 * c)) by (apply mulb; lra).
    apply Rmax_lub; [|apply Rmax_lub]; lra.
  - rewrite G1, G2. replace (2 * (1 + s_A s1) * (1 + s_B s1) * c) with (2 * (q1 * c)) by (unfold q1; ring). replace (2 * (1 + s_A s2) * (1 + s_B s2) * c) with (2 * (q2 * c)) by (unfold q2; ring).
    assert (R : (257 / 256) ^ 2 = 66049 / 65536) by (simpl; field). rewrite R in *. lra.
Qed.
(** the used filter *)
Definition in1 (v : f64) : bool := Bleb (fnorm (-2) 0) v && Bleb v (fnorm 2 0) && is_finite v.
Lemma in1_ok v : in1 v = true -> within 2 v.
Proof.
  intros H. unfold in1 in H. apply andb_prop in H. destruct H as [H F]. apply andb_prop in H. destruct H as [A B].
  destruct (fnorm_exact (-2) 0 ltac:(lia) ltac:(lia)) as [P1 P2]. destruct (fnorm_exact 2 0 ltac:(lia) ltac:(lia)) as [Q1 Q2].
  rewrite Bleb_correct in A, B by assumption. destruct (Rle_bool_spec (B2R (fnorm (-2) 0)) (B2R v)) as [A'|]; [|discriminate].
  destruct (Rle_bool_spec (B2R v) (B2R (fnorm 2 0))) as [B'|]; [|discriminate]. rewrite P1 in A'. rewrite Q1 in B'. unfold F2R in *. cbn in A', B'.
  split; [exact F|]. apply Rabs_le. lra.
Qed.
Definition st_in1 (s : st D) : bool := match s with S1 a b c d => in1 a && in1 b && in1 c && in1 d | S2 a b => in1 a && in1 b | S3 _ a _ b => in1 a && in1 b end.
Lemma st_in1_ok s : st_in1 s = true -> st_within 2 s.
Proof.
  destruct s; cbn [st_in1 st_within]; rewrite !andb_true_iff; intros H; decompose [and] H; repeat (split; [apply in1_ok; assumption|]); apply in1_ok; assumption.
Qed.
Lemma ex_states : List.Forall (st_within 2) (fl_states ex_filt).
Proof.
  assert (H : forallb st_in1 (fl_states ex_filt) = true) by (vm_compute; reflexivity). rewrite forallb_forall in H.
  apply List.Forall_forall. intros s Hs. apply st_in1_ok, H, Hs.
Qed.
(** it has something in its delay lines *)
Definition busy (s : st D) : bool := match s with S2 a b => negb (Beqb a f0) | _ => false end.
Lemma ex_busy : forallb busy (fl_states ex_filt) = true.
Proof. vm_compute. reflexivity. Qed.
(** a second setup (), cutoff 0.1 + 10^-7, after two more samples *)
Definition ex_more : list f64 := [d 1 2; d (-1) 3].
Definition ex_par3 : params D := pz (d 1000001 10000000) (d 1 20) (d 3 1) (d 2 1).
Definition ex_f2 : filt D := match filt_setupN (Bw, LP) 4 None ex_par3 (fst (filt_run ex_filt ex_more)) with Ok f _ => f | _ => ex_filt end.
Lemma ex_switch_ok : filt_setupN (Bw, LP) 4 None ex_par3 (fst (filt_run ex_filt ex_more)) = Ok ex_f2 tt.
Proof.
  assert (H : match filt_setupN (Bw, LP) 4 None ex_par3 (fst (filt_run ex_filt ex_more)) with Ok _ _ => true | _ => false end = true) by (vm_compute; reflexivity).
  unfold ex_f2. destruct (filt_setupN (Bw, LP) 4 None ex_par3 (fst (filt_run ex_filt ex_more))) as [g []|e g|]; try discriminate H. reflexivity.
Qed.
Lemma ex_inr2 : all2 (fun r b => all2 inr r (cfs b)) ex_ranges (fl_stages ex_f2) = true.
Proof. vm_compute. reflexivity. Qed.
Lemma ex_more_ok : List.Forall (fun x : f64 => FloatSpec.is_fin x /\ Rabs (B2R x) <= 1) ex_more.
Proof.
  assert (H : forallb (fun v => Bleb (fnorm (-1) 0) v && Bleb v (fnorm 1 0) && is_finite v) ex_more = true) by (vm_compute; reflexivity).
  rewrite forallb_forall in H. apply List.Forall_forall. intros v Hv. specialize (H v Hv). apply andb_prop in H. destruct H as [H F]. apply andb_prop in H. destruct H as [A B].
  destruct (fnorm_exact (-1) 0 ltac:(lia) ltac:(lia)) as [P1 P2]. destruct (fnorm_exact 1 0 ltac:(lia) ltac:(lia)) as [Q1 Q2].
  rewrite Bleb_correct in A, B by assumption. destruct (Rle_bool_spec (B2R (fnorm (-1) 0)) (B2R v)) as [A'|]; [|discriminate].
  destruct (Rle_bool_spec (B2R v) (B2R (fnorm 1 0))) as [B'|]; [|discriminate]. rewrite P1 in A'. rewrite Q1 in B'. unfold F2R in *. cbn in A', B'.
  split; [exact F|]. apply Rabs_le. lra.
Qed.
Lemma ex_run_on : forallb busy (fl_states ex_filt) = true /\ List.Forall (st_within 2) (fl_states ex_filt) /\ reachable_ok DF2 (Bw, LP) 4 ex_filt /\
  List.Forall fin_coeffs (fl_stages ex_filt) /\ List.Forall2 sect_of (fl_stages ex_filt) (sects_ex (fl_stages ex_filt)) /\
  ok_from (sects_ex (fl_stages ex_filt)) 2 1 /\ rate_ok (257 / 256) (sects_ex (fl_stages ex_filt)) /\
  error_from (sects_ex (fl_stages ex_filt)) 2 1 0 <= / 10 ^ 6 /\ fade (257 / 256) (sects_ex (fl_stages ex_filt)) 2 0 <= 40000.
Proof.
  destruct (ranges_ok (fl_stages ex_filt) 2 ex_inr ltac:(lra)) as (A & B & C & D & E & F & G & H).
  split; [exact ex_busy|]. split; [exact ex_states|]. split; [exact ex_filt_reachable_ok|]. split; [exact A|]. split; [exact B|]. split; [exact C|]. split; [exact D|]. split; lra.
Qed.
Lemma ex_run_switch : List.Forall (fun x : f64 => FloatSpec.is_fin x /\ Rabs (B2R x) <= 1) ex_more /\ filt_setupN (Bw, LP) 4 None ex_par3 (fst (filt_run ex_filt ex_more)) = Ok ex_f2 tt /\
  List.Forall fin_coeffs (fl_stages ex_f2) /\ List.Forall2 sect_of (fl_stages ex_f2) (sects_ex (fl_stages ex_f2)) /\
  ok_from (sects_ex (fl_stages ex_f2)) (held (sects_ex (fl_stages ex_filt)) 2 1) 1 /\ rate_ok (257 / 256) (sects_ex (fl_stages ex_f2)).
Proof.
  destruct (ranges_ok (fl_stages ex_filt) 2 ex_inr ltac:(lra)) as (A & B & C & D & E & F & G & H).
  pose proof (held_ge _ _ _ C ltac:(lra) ltac:(lra)) as HG.
  destruct (ranges_ok (fl_stages ex_f2) (held (sects_ex (fl_stages ex_filt)) 2 1) ex_inr2 ltac:(lra)) as (A' & B' & C' & D' & _).
  split; [exact ex_more_ok|]. split; [exact ex_switch_ok|]. split; [exact A'|]. split; [exact B'|]. split; [exact C'|exact D'].
Qed.
