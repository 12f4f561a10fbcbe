(** Concrete filters, run in binary64 with the library of RefLibm.v. *)
From Coq Require Import ZArith List Bool.
From Flocq Require Import IEEE754.BinarySingleNaN.
From Verif Require Import Num Outcome Types Biquad State Cascade PoleFilter RBJ Custom Float64 RefLibm
  History World WorldHistory Spec.
Import ListNotations.

Lemma D_polar_total : forall r th, npolar D r th <> None.
Proof. discriminate. Qed.

Definition d (p : Z) (q : positive) : T D := flit p q.
Definition pz (fc fw g db : T D) : params D := MkParams fc fw g db.
(** cutoff/centre 0.1, width 0.05, gain 6 dB, ripple 1 dB *)
Definition ex_params : params D := pz (d 1 10) (d 1 20) (d 6 1) (d 1 1).
Definition ex_params2 : params D := pz (d 1 5) (d 1 20) (d 3 1) (d 2 1).
(** cutoff 0.7 *)
Definition ex_bad : params D := pz (d 7 10) (d 1 20) (d 6 1) (d 1 1).
Definition ex_x : list (T D) := [d 1 1; d (-1) 2; d 3 1; d 0 1; d 7 3].

Definition bq6 (b : biquad D) : list (option Z) :=
  map micro [m_a0 b; m_a1 b; m_a2 b; m_b0 b; m_b1 b; m_b2 b].

(** a history: two designs of a Butterworth<4> low pass, a sample, a rejected order and a rejected
    cutoff, an assignment, another sample *)
Definition ex_ops : list (op D) :=
  [OpSetupN (Some 3%Z) ex_params; OpFilter (d 1 1); OpSetup (Some 9%Z) (d 2 1) ex_params;
   OpSetupN None ex_bad; OpSetup None (d 2 1) ex_params2; OpFilter (d 1 2)].
Lemma ex_ops_ok : Forall op_ok ex_ops.
Proof. repeat constructor. Qed.
Definition ex_filt : filt D :=
  match steps (Bw, LP) 4 ex_ops (filt_init DF2 (Bw, LP) 4) with
  | Some f => f | None => filt_init DF2 (Bw, LP) 4 end.
Lemma ex_filt_reachable_ok : reachable_ok DF2 (Bw, LP) 4 ex_filt.
Proof.
  exists ex_ops. split; [exact ex_ops_ok|]. unfold ex_filt.
  destruct (steps (Bw, LP) 4 ex_ops (filt_init DF2 (Bw, LP) 4)) eqn:E; auto.
  exfalso. assert (H : match steps (Bw, LP) 4 ex_ops (filt_init DF2 (Bw, LP) 4) with
    Some _ => true | None => false end = true) by (vm_compute; reflexivity).
  rewrite E in H. discriminate.
Qed.
Lemma ex_filt_reachable : reachable DF2 (Bw, LP) 4 ex_filt.
Proof. destruct ex_filt_reachable_ok as [os [_ H]]. exists os. exact H. Qed.
(** it really is the 4th order low pass with cutoff 0.1 *)
Lemma ex_filt_coeffs : map bq6 (fl_stages ex_filt) =
  [[Some 1000000; Some (-1320913); Some 632738; Some 4824; Some 9648; Some 4824];
   [Some 1000000; Some (-1048599); Some 296140; Some 1000000; Some 2000000; Some 1000000]]%Z.
Proof. vm_compute. reflexivity. Qed.

(** another filter with the same coefficients that never filtered *)
Definition ex_quiet : list (op D) := [OpSetup None (d 2 1) ex_params2].
Definition ex_quiet_filt : filt D :=
  match steps (Bw, LP) 4 ex_quiet (filt_init DF2 (Bw, LP) 4) with
  | Some f => f | None => filt_init DF2 (Bw, LP) 4 end.
Lemma ex_quiet_steps : steps (Bw, LP) 4 ex_quiet (filt_init DF2 (Bw, LP) 4) = Some ex_quiet_filt.
Proof.
  unfold ex_quiet_filt.
  destruct (steps (Bw, LP) 4 ex_quiet (filt_init DF2 (Bw, LP) 4)) eqn:E; auto.
  exfalso. assert (H : match steps (Bw, LP) 4 ex_quiet (filt_init DF2 (Bw, LP) 4) with
    Some _ => true | None => false end = true) by (vm_compute; reflexivity).
  rewrite E in H. discriminate.
Qed.
Definition bq_sf (b : biquad D) := map B2SF [m_a0 b; m_a1 b; m_a2 b; m_b0 b; m_b1 b; m_b2 b].
Lemma bq_sf_inj l : forall l', map bq_sf l = map bq_sf l' -> l = l'.
Proof.
  induction l as [|b l IH]; intros [|b' l'] H; try discriminate; auto.
  destruct b as [a0 a1 a2 b0 b1 b2], b' as [c0 c1 c2 e0 e1 e2].
  unfold bq_sf in H. cbn [map m_a0 m_a1 m_a2 m_b0 m_b1 m_b2] in H.
  injection H. intros H0 H6 H5 H4 H3 H2 H1.
  apply B2SF_inj in H1, H2, H3, H4, H5, H6. subst. f_equal. apply IH. exact H0.
Qed.
Lemma ex_quiet_stages : fl_stages ex_quiet_filt = fl_stages ex_filt.
Proof. apply bq_sf_inj. vm_compute. reflexivity. Qed.

(** an RBJ low pass, cutoff 0.1, q = 0.7 *)
Definition ex_rbj : rbj D :=
  match rbj_obj_setupN R_LowPass (d 1 10) (d 0 1) (d 7 10) rbj_init with
  | Ok r _ => r | _ => rbj_init end.
Lemma ex_rbj_coeffs : bq6 (r_bq ex_rbj) =
  [Some 1419846; Some (-1139583); Some 408602; Some 67254; Some 134509; Some 67254]%Z.
Proof. vm_compute. reflexivity. Qed.

Definition ex_nan : T D := B754_nan.
(** scipy.signal.butter(4, 0.2, output='sos') *)
Definition ex_sos : list (sosrow D) :=
  [(d 4824343358 1000000000000, d 9648686716 1000000000000, d 4824343358 1000000000000,
    d 1 1, d (-1048599576) 1000000000, d 296140357 1000000000);
   (d 1 1, d 2 1, d 1 1, d 1 1, d (-1320913430) 1000000000, d 632738792 1000000000)]%Z.
Definition ex_sos_bad : list (sosrow D) :=
  [(d 1 1, d 2 1, d 1 1, d 2 1, d (-1) 1, d 1 2); (d 1 1, ex_nan, d 1 1, d 1 1, d (-1) 1, d 1 2);
   (d 3 1, d 2 1, d 1 1, d 1 1, d (-1) 1, d 1 2)]%Z.

(** worlds: one second order Butterworth low pass, a copy of it, a redesign of the copy *)
Definition ex_w1 : world D :=
  match wsteps [WCreate DF1 (Bw, LP) 2; WCall 0 (OpSetupN None ex_params)] [] with Some w => w | None => [] end.
Definition ex_w2 : world D := match wstep (WCopy 0) ex_w1 with Some w => w | None => [] end.
Definition ex_w3 : world D :=
  match wstep (WCall 1 (OpSetupN None ex_params2)) ex_w2 with Some w => w | None => [] end.
(** what filtering the sample 1 with object i returns *)
Definition ex_out (i : nat) (w : world D) : option Z :=
  match w_filter i (d 1 1) w with Ok _ y => micro y | _ => None end.
Lemma ex_copy_outputs :
  ex_out 0 ex_w2 = Some 67455%Z /\ ex_out 1 ex_w2 = Some 67455%Z /\
  ex_out 0 ex_w3 = Some 206572%Z /\ ex_out 1 ex_w3 = Some 67455%Z.
Proof. vm_compute. auto. Qed.

Definition ex_hist : list (wop D) :=
  [WCreate DF1 (Bw, LP) 2; WCreate TDF2 (Bw, HP) 3; WCall 1 (OpSetupN None ex_params);
   WCall 0 (OpSetupN (Some 1%Z) ex_params2); WCall 1 (OpFilter (d 1 1)); WCreate DF2 (Bw, BP) 1; WDestroy 2;
   WCall 0 (OpFilter (d 1 1))].
Definition ex_hist_w : world D := match wsteps ex_hist [] with Some w => w | None => [] end.
Lemma ex_hist_runs : wsteps ex_hist [] = Some ex_hist_w /\ live ex_hist_w 0 <> None /\
  live ex_hist_w 1 <> None /\ live ex_hist_w 2 = None.
Proof.
  assert (H : match wsteps ex_hist [] with Some w => match live w 0, live w 1, live w 2 with
    Some _, Some _, None => true | _, _, _ => false end | None => false end = true) by (vm_compute; reflexivity).
  unfold ex_hist_w. destruct (wsteps ex_hist []) as [w|]; [|discriminate].
  destruct (live w 0), (live w 1), (live w 2); try discriminate. repeat split; discriminate.
Qed.
Definition st_is_zero (s : st D) : bool :=
  match s with
  | S1 x2 y2 x1 y1 => neqb D x2 (d 0 1) && neqb D y2 (d 0 1) && neqb D x1 (d 0 1) && neqb D y1 (d 0 1)
  | S2 v1 v2 => neqb D v1 (d 0 1) && neqb D v2 (d 0 1)
  | S3 s1 s1_1 s2 s2_1 => neqb D s1_1 (d 0 1) && neqb D s2_1 (d 0 1)
  end.
