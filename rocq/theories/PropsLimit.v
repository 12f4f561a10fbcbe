(** Property theorems: how silence and periodic signals end in binary64 (C89). *)
From Coq Require Import ZArith List Bool Reals.
From Flocq Require Import IEEE754.BinarySingleNaN.
From Verif Require Import Num Outcome Types Biquad State Cascade PoleFilter RBJ History Float64 RefLibm FloatSpec Examples
  SigSpec RoundSpec RunOnEx DecaySpec LimitLemmas LimitEx.
Import ListNotations.

(** C89: the 4th order Butterworth low pass with cutoff 0.1 (stable, poles as in C88_example) answers an impulse with numbers that never become zero *)
Theorem C89_silence_refuted : (1 < 257 / 256)%R /\ filt_setupN (Bw, LP) 4 None ex_params (filt_init DF2 (Bw, LP) 4) = Ok ex_new tt /\
  List.Forall2 sect_of (fl_stages ex_new) (sects_ex (fl_stages ex_new)) /\ fall_ok (257 / 256) 0 (sects_ex (fl_stages ex_new)) 0 /\
  forall k n, (3400 <= n < k)%nat -> let ys := snd (filt_run ex_new (d 1 1 :: repeat f0 (k - 1))) : list f64 in is_finite (nth n ys f0) = true /\ B2R (nth n ys f0) <> 0%R.
Proof. exact c89_stuck. Qed.
Print Assumptions C89_silence_refuted.
(** what is true: in binary64 the answer of every cascade to a periodic signal (silence: period 1) becomes exactly periodic, whatever the coefficients and the delay lines *)
Theorem C89_periodic_partial : forall m (c : cstages (F64 m)) (x : nat -> f64) q, (0 < q)%nat -> (forall n, x (n + q)%nat = x n) ->
  exists i p, (0 < p)%nat /\ forall k n, (i <= n)%nat -> (n + p < k)%nat ->
  let ys := snd (cs_run c (map x (seq 0 k))) : list f64 in nth (n + p) ys f0 = nth n ys f0.
Proof. exact c89_cs. Qed.
Print Assumptions C89_periodic_partial.
Theorem C89_periodic_filter_partial : forall m (f : filt (F64 m)) (x : nat -> f64) q, (0 < q)%nat -> (forall n, x (n + q)%nat = x n) ->
  exists i p, (0 < p)%nat /\ forall k n, (i <= n)%nat -> (n + p < k)%nat ->
  let ys := snd (filt_run f (map x (seq 0 k))) : list f64 in nth (n + p) ys f0 = nth n ys f0.
Proof. exact c89_filt. Qed.
Print Assumptions C89_periodic_filter_partial.
Theorem C89_periodic_rbj_partial : forall m (f : rbj (F64 m)) (x : nat -> f64) q, (0 < q)%nat -> (forall n, x (n + q)%nat = x n) ->
  exists i p, (0 < p)%nat /\ forall k n, (i <= n)%nat -> (n + p < k)%nat ->
  let ys := snd (rbj_run f (map x (seq 0 k))) : list f64 in nth (n + p) ys f0 = nth n ys f0.
Proof. exact c89_rbj. Qed.
Print Assumptions C89_periodic_rbj_partial.
(** a signal of period 2 *)
Example C89_example : (0 < 2)%nat /\ forall n, (fun n => if Nat.even n then d 1 1 : f64 else d (-1) 1) (n + 2)%nat = (fun n => if Nat.even n then d 1 1 : f64 else d (-1) 1) n.
Proof. split; [repeat constructor|]. intros n. cbv beta. rewrite Nat.even_add. destruct (Nat.even n); reflexivity. Qed.
