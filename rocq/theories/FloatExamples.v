(** Concrete cases for PropsFloat.v. *)
From Coq Require Import ZArith List Bool Reals Lia.
From Flocq Require Import Core.Raux IEEE754.BinarySingleNaN.
From Verif Require Import Num Outcome Types Biquad State Cascade PoleFilter RBJ History Float64 RefLibm
  Samples FloatSpec Stream FloatProofs FloatLemmas SampleLemmas Examples.
Import ListNotations.

Definition fin_coeffs_b (b : biquad D) : bool :=
  is_finite (m_a1 b : f64) && is_finite (m_a2 b : f64) && is_finite (m_b0 b : f64) && is_finite (m_b1 b : f64) && is_finite (m_b2 b : f64).
Lemma fin_coeffs_ok (b : biquad D) : fin_coeffs_b b = true -> fin_coeffs b.
Proof. unfold fin_coeffs_b, fin_coeffs, is_fin. intros H. repeat (apply andb_prop in H; destruct H as [H ?]). repeat split; assumption. Qed.
Lemma ex_filt_fin : Forall fin_coeffs (fl_stages ex_filt).
Proof. eapply Forall_impl; [exact fin_coeffs_ok|]; apply Forall_forall; apply forallb_forall; vm_compute. reflexivity. Qed.
Lemma ex_rbj_fin : fin_coeffs (r_bq ex_rbj).
Proof. apply fin_coeffs_ok. vm_compute. reflexivity. Qed.
Lemma ex_zeros : Forall is_zero [B754_zero false; B754_zero true].
Proof. repeat constructor; eexists; reflexivity. Qed.
Lemma ex_c08 : (forall r th, npolar D r th <> None) /\ reachable_ok DF2 (Bw, LP) 4 ex_filt /\ fl_stages ex_filt <> [] /\
  map micro (snd (filt_run ex_filt [d 1 1; ex_nan; d 0 1])) = [Some 162562; None; None]%Z /\
  map micro (snd (filt_run (filt_reset (fst (filt_run ex_filt [ex_nan]))) [d 1 1])) = [Some 4824]%Z.
Proof.
  split; [exact D_polar_total|]. split; [exact ex_filt_reachable_ok|]. split.
  - intros H. pose proof ex_filt_coeffs as Q. rewrite H in Q. discriminate.
  - split; vm_compute; reflexivity.
Qed.

(** order 1 requested of a class of order 4 *)
Definition ex_low_ops : list (op D) := [OpSetupN None ex_params; OpFilter (d 1 1); OpSetupN (Some 1%Z) ex_params2].
Definition ex_low : filt D :=
  match steps (Bw, LP) 4 ex_low_ops (filt_init DF2 (Bw, LP) 4) with Some f => f | None => filt_init DF2 (Bw, LP) 4 end.
Lemma ex_low_reachable_ok : reachable_ok DF2 (Bw, LP) 4 ex_low.
Proof.
  exists ex_low_ops. split; [repeat constructor|]. unfold ex_low.
  destruct (steps (Bw, LP) 4 ex_low_ops (filt_init DF2 (Bw, LP) 4)) eqn:E; auto.
  exfalso. assert (H : match steps (Bw, LP) 4 ex_low_ops (filt_init DF2 (Bw, LP) 4) with
    Some _ => true | None => false end = true) by (vm_compute; reflexivity).
  rewrite E in H. discriminate.
Qed.
Definition identity_b (b : biquad D) : bool :=
  Beqb (m_b0 b : f64) (fofZ 1) && Beqb (m_b1 b : f64) (fofZ 0) && Beqb (m_b2 b : f64) (fofZ 0) && Beqb (m_a1 b : f64) (fofZ 0) && Beqb (m_a2 b : f64) (fofZ 0).
Lemma eqb_zero (x : f64) : Beqb x (fofZ 0) = true -> is_zero x.
Proof.
  change (fofZ 0) with (B754_zero false : f64). destruct x as [s|s| |s mx ex H]; intros Q.
  - exists s. reflexivity.
  - destruct s; discriminate.
  - discriminate.
  - destruct s; discriminate.
Qed.
Lemma eqb_one (x : f64) : Beqb x (fofZ 1) = true -> B2R x = 1%R.
Proof.
  intros H. destruct (fofZ_exact 1 ltac:(lia)) as [A B]. assert (F : is_finite x = true).
  { destruct x as [s|s| |s mx ex Q]; [reflexivity| | |reflexivity]; [destruct s; vm_compute in H; discriminate|vm_compute in H; discriminate]. }
  rewrite Beqb_correct in H by assumption. destruct (Req_bool_spec (B2R x) (B2R (fofZ 1))) as [E|]; [|discriminate]. rewrite E. exact A.
Qed.
Lemma identity_ok (b : biquad D) : identity_b b = true -> identity_coeffs b.
Proof.
  unfold identity_b, identity_coeffs. intros H. repeat (apply andb_prop in H; destruct H as [H ?]). repeat split; [apply eqb_one|apply eqb_zero..]; assumption.
Qed.
Lemma ex_c09 : reachable_ok DF2 (Bw, LP) 4 ex_low /\ filt_numStages ex_low = 1%Z /\ length (fl_stages ex_low) = 2%nat /\
  (let active := firstn 1 (fl_stages ex_low) in Forall is_fin (snd (cs_run (MkCStages active (repeat (st_init DF2) 1)) ex_x))) /\
  Forall identity_coeffs (skipn 1 (fl_stages ex_low)).
Proof.
  split; [exact ex_low_reachable_ok|]. split; [vm_compute; reflexivity|]. split; [vm_compute; reflexivity|]. split.
  - cbv zeta. unfold is_fin. apply Forall_forall. intros x Hx.
    assert (Q : forallb (@is_finite 53 1024) (snd (cs_run (MkCStages (firstn 1 (fl_stages ex_low)) (repeat (st_init DF2) 1)) ex_x)) = true) by (vm_compute; reflexivity).
    rewrite forallb_forall in Q. apply Q, Hx.
  - eapply Forall_impl; [exact identity_ok|]; apply Forall_forall; apply forallb_forall; vm_compute. reflexivity.
Qed.
Lemma ex_c10 :
  map micro (snd (rbj_run (rbj_reset ex_rbj) (map (@Bopp 53 1024) ex_x))) = map (option_map Z.opp) (map micro (snd (rbj_run (rbj_reset ex_rbj) ex_x))) /\
  f_same (B754_zero true) (B754_zero false).
Proof. split; [vm_compute; reflexivity|]. left. reflexivity. Qed.

(** y = 3 x *)
Definition ex_gain3 : biquad D := @MkBiquad D (d 1 1) (d 0 1) (d 0 1) (d 3 1) (d 0 1) (d 0 1).
Lemma ex_c41 : identity_coeffs (biquad0 : biquad D) /\
  Forall (fun x => -2147483648 <= x <= 2147483647)%Z [2147483647; -2147483648; 7]%Z /\
  match cs_filter_as (smp_int ref_libm (-2147483648) 2147483647) 1000000000%Z (MkCStages [ex_gain3] [st_init TDF2]) with UB => true | _ => false end = true /\
  match cs_filter_as (smp_int ref_libm (-2147483648) 2147483647) (-5)%Z (MkCStages [ex_gain3] [st_init TDF2]) with Ok _ z => z | _ => 0%Z end = (-15)%Z.
Proof.
  split; [apply identity_ok; vm_compute; reflexivity|]. split; [repeat constructor; lia|]. split; vm_compute; reflexivity.
Qed.
Definition ex_flt_max : f32 := @binary_normalize 24 128 Hprec32 Hemax32 mode_NE 16777215 104 false.
Lemma ex_c45 : identity_coeffs (biquad0 : biquad D) /\ is_finite ex_flt_max = true /\
  (match cs_filter_as (smp_float ref_libm) ex_flt_max (MkCStages [biquad0] [st_init DF1]) with Ok _ z => Beqb z ex_flt_max | _ => false end) = true /\
  match cs_filter_as (smp_float ref_libm) ex_flt_max (MkCStages [ex_gain3] [st_init DF1]) with UB => true | _ => false end = true.
Proof.
  split; [apply identity_ok; vm_compute; reflexivity|]. split; [vm_compute; reflexivity|]. split; vm_compute; reflexivity.
Qed.
