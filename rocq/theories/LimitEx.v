(** A stable filter that never comes to rest: the 4th order Butterworth low pass with cutoff 0.1. *)
From Coq Require Import ZArith List Bool Reals Lra Lia.
From Flocq Require Import Core.Raux IEEE754.BinarySingleNaN.
From Verif Require Import Num Outcome Types Biquad State Cascade PoleFilter History Float64 RefLibm FloatSpec FloatLemmas Stream Examples
  SampleLemmas RoundSpec RoundProofs RoundRun RoundLemmas RoundExample RunOnSpec RunOn RunOnLemmas RunOnEx DecaySpec DecayEx LimitLemmas.
Import ListNotations.

(** set up, not used yet *)
Definition ex_new : filt D := match filt_setupN (Bw, LP) 4 None ex_params (filt_init (N := D) DF2 (Bw, LP) 4) with Ok f _ => f | _ => filt_init (N := D) DF2 (Bw, LP) 4 end.
Lemma ex_new_ok : filt_setupN (Bw, LP) 4 None ex_params (filt_init DF2 (Bw, LP) 4) = Ok ex_new tt.
Proof.
  assert (H : match filt_setupN (Bw, LP) 4 None ex_params (filt_init (N := D) DF2 (Bw, LP) 4) with Ok _ _ => true | _ => false end = true) by (vm_compute; reflexivity).
  unfold ex_new. destruct (filt_setupN (Bw, LP) 4 None ex_params (filt_init DF2 (Bw, LP) 4)) as [g []|e g|]; try discriminate H. reflexivity.
Qed.
Lemma ex_new_inr : all2 (fun r b => all2 inr r (cfs b)) ex_ranges (fl_stages ex_new) = true.
Proof. vm_compute. reflexivity. Qed.
(** its impulse response, 3400 samples on *)
Definition ex_imp : list (T D) := d 1 1 :: repeat f0 3399.
Definition ex_late : cstages D := fst (cs_run (fl_cs ex_new) ex_imp).
Lemma ex_late_eq : ex_late = fst (cs_run (fl_cs ex_new) (d 1 1 :: repeat f0 3399)).
Proof. unfold ex_late, ex_imp. reflexivity. Qed.
Definition code (s : st D) : list Z := match s with S1 a b c e => [1%Z; enc a; enc b; enc c; enc e] | S2 a b => [2%Z; enc a; enc b] | S3 a b c e => [3%Z; enc a; enc b; enc c; enc e] end.
Lemma code_inj s t : code s = code t -> s = t.
Proof. destruct s, t; cbn [code]; intros H; try discriminate H; injection H; intros; f_equal; apply enc_inj; assumption. Qed.
Lemma codes_inj : forall l k, map code l = map code k -> l = k.
Proof. induction l as [|a l IH]; intros [|b k] H; try discriminate H; [reflexivity|]. cbn [map] in H. injection H. intros E F. f_equal; [apply code_inj, F|apply IH, E]. Qed.
(** six samples of silence bring the delay lines back, all outputs are negative *)
Definition neg (y : f64) : Prop := is_finite y = true /\ (B2R y < 0)%R.
Definition negb64 (y : f64) : bool := Bltb y f0 && is_finite y.
Fixpoint same (u v : list (list Z)) : bool := match u, v with [], [] => true | a :: u, b :: v => (if list_eq_dec Z.eq_dec a b then true else false) && same u v | _, _ => false end.
Definition stuck (c : cstages D) : bool := let r := cs_run c (repeat f0 6) in same (map code (cs_states (fst r))) (map code (cs_states c)) && forallb negb64 (snd r).
Lemma ex_stuck : stuck ex_late = true.
Proof. vm_compute. reflexivity. Qed.
Lemma same_ok : forall u v, same u v = true -> u = v.
Proof.
  induction u as [|a l IH]; intros [|b k] H; try discriminate H; [reflexivity|]. cbn [same] in H.
  apply andb_prop in H. destruct H as [H1 H2]. destruct (list_eq_dec Z.eq_dec a b) as [->|]; [|discriminate]. f_equal. apply IH, H2.
Qed.
Lemma neg_ok y : negb64 y = true -> neg y.
Proof.
  unfold negb64. rewrite andb_true_iff. intros [L F]. split; [exact F|]. rewrite Bltb_correct in L by (exact F || reflexivity). destruct (Rlt_bool_spec (B2R y) (B2R f0)) as [Q|]; [|discriminate]. exact Q.
Qed.
Lemma stuck_ok c : stuck c = true -> forall k, List.Forall neg (snd (cs_run c (repeat f0 k))).
Proof.
  unfold stuck. rewrite andb_true_iff. intros [H L]. set (r := cs_run c (repeat f0 6)) in *.
  assert (RC : fst r = c).
  { pose proof (proj1 (cs_run_shape (N := D) (repeat f0 6) c)) as Q. fold r in Q. apply same_ok, codes_inj in H. destruct (fst r) as [u1 u2], c as [w1 w2]. cbn [cs_stages cs_states] in *. congruence. }
  assert (NG : List.Forall neg (snd r)). { rewrite forallb_forall in L. apply List.Forall_forall. intros y Hy. apply neg_ok, L, Hy. }
  assert (ALL : forall j, List.Forall neg (snd (cs_run c (repeat f0 (j * 6))))).
  { induction j as [|j IH]; [destruct c; constructor|]. replace (S j * 6)%nat with (6 + j * 6)%nat by lia. rewrite repeat_app, (cs_run_app (N := D)). fold r. rewrite RC. apply List.Forall_app. split; [exact NG|exact IH]. }
  intros k. specialize (ALL k). replace (k * 6)%nat with (k + 5 * k)%nat in ALL by lia. rewrite repeat_app, (cs_run_app (N := D)) in ALL. apply List.Forall_app in ALL. apply ALL.
Qed.
Lemma late_run (f : filt D) xs k : snd (filt_run f (xs ++ repeat f0 k)) = snd (cs_run (fl_cs f) xs) ++ snd (cs_run (fst (cs_run (fl_cs f) xs)) (repeat f0 k)).
Proof. rewrite filt_run_cs. cbn [snd]. apply (cs_run_app (N := D)). Qed.
Lemma late_list (a : T D) k : (3400 <= k)%nat -> a :: repeat f0 (k - 1) = (a :: repeat f0 3399) ++ repeat f0 (k - 3400).
Proof. intros H. rewrite <- app_comm_cons. f_equal. rewrite <- repeat_app. f_equal. lia. Qed.
Lemma run_len (c : cstages D) (l : list (T D)) : length (snd (cs_run c l)) = length l.
Proof. rewrite cs_run_grun. apply grun_length. Qed.
Lemma forall_nth_app {A} (P : A -> Prop) (u v : list A) n a k z : length u = a -> length v = (k - a)%nat -> List.Forall P v -> (a <= n < k)%nat -> P (nth n (u ++ v) z).
Proof. intros L Lv H Hn. rewrite app_nth2 by lia. rewrite List.Forall_forall in H. apply H. apply nth_In. lia. Qed.
Lemma late_nth (f : filt D) a c : let xs := a :: repeat f0 3399 in c = fst (cs_run (fl_cs f) xs) -> (forall k, List.Forall neg (snd (cs_run c (repeat f0 k)))) ->
  forall k n, (3400 <= n < k)%nat -> neg (nth n (snd (filt_run f (a :: repeat f0 (k - 1)))) f0).
Proof.
  intros xs E H k n Hn. subst c. rewrite late_list by lia. fold xs. rewrite late_run.
  assert (L : length (snd (cs_run (fl_cs f) xs)) = 3400%nat) by (rewrite run_len; unfold xs; cbn [length]; rewrite repeat_length; reflexivity).
  specialize (H (k - 3400)%nat). assert (Lv : length (snd (cs_run (fst (cs_run (fl_cs f) xs)) (repeat f0 (k - 3400)))) = (k - 3400)%nat) by (rewrite run_len; apply repeat_length).
  exact (forall_nth_app (A := f64) neg _ _ n 3400 k f0 L Lv H Hn).
Qed.
Lemma c89_stuck : (1 < 257 / 256)%R /\ filt_setupN (Bw, LP) 4 None ex_params (filt_init DF2 (Bw, LP) 4) = Ok ex_new tt /\
  List.Forall2 sect_of (fl_stages ex_new) (sects_ex (fl_stages ex_new)) /\ fall_ok (257 / 256) 0 (sects_ex (fl_stages ex_new)) 0 /\
  forall k n, (3400 <= n < k)%nat -> let ys := snd (filt_run ex_new (d 1 1 :: repeat f0 (k - 1))) : list f64 in is_finite (nth n ys f0) = true /\ B2R (nth n ys f0) <> 0%R.
Proof.
  destruct (ranges_ok (fl_stages ex_new) 0 ex_new_inr ltac:(lra)) as (_ & A & _). destruct (ranges_fall (fl_stages ex_new) 0 ex_new_inr ltac:(lra)) as (B & _).
  split; [lra|]. split; [exact ex_new_ok|]. split; [exact A|]. split; [exact B|]. clear A B.
  intros k n Hn ys. destruct (late_nth ex_new (d 1 1) ex_late ex_late_eq (stuck_ok ex_late ex_stuck) k n Hn) as [F Y]. split; [exact F|]. apply Rlt_not_eq. exact Y.
Qed.
