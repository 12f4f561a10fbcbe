(** Lemmas in exactly the form of the theorems of PropsClasses.v. *)
From Coq Require Import ZArith List Bool Lia.
From Verif Require Import Num Outcome Types Biquad State Cascade Transforms Butterworth Chebyshev
  PoleFilter RBJ Classes ClassesProofs.
Import ListNotations.

Lemma order_guard {N : num} (FO o : Z) (m : M (pf N) unit) p : (FO < o)%Z ->
  (throw_if (FO <? o)%Z E_order ;; m) p = Throw E_order p.
Proof. intros H. apply Z.ltb_lt in H. unfold bind, throw_if. rewrite H. reflexivity. Qed.

Lemma setup_is_setupN_butterworth : forall N : num,
  (forall FO sampleRate cutoffFrequency p, bw_LowPass_setup (N := N) FO sampleRate cutoffFrequency p = bw_LowPass_setupN FO (ndiv N cutoffFrequency sampleRate) p) /\
  (forall FO reqOrder sampleRate cutoffFrequency p, bw_LowPass_setup_order (N := N) FO reqOrder sampleRate cutoffFrequency p = bw_LowPass_setupN_order FO reqOrder (ndiv N cutoffFrequency sampleRate) p) /\
  (forall FO sampleRate cutoffFrequency p, bw_HighPass_setup (N := N) FO sampleRate cutoffFrequency p = bw_HighPass_setupN FO (ndiv N cutoffFrequency sampleRate) p) /\
  (forall FO reqOrder sampleRate cutoffFrequency p, bw_HighPass_setup_order (N := N) FO reqOrder sampleRate cutoffFrequency p = bw_HighPass_setupN_order FO reqOrder (ndiv N cutoffFrequency sampleRate) p) /\
  (forall FO sampleRate centerFrequency widthFrequency p, bw_BandPass_setup (N := N) FO sampleRate centerFrequency widthFrequency p = bw_BandPass_setupN FO (ndiv N centerFrequency sampleRate) (ndiv N widthFrequency sampleRate) p) /\
  (forall FO reqOrder sampleRate centerFrequency widthFrequency p, bw_BandPass_setup_order (N := N) FO reqOrder sampleRate centerFrequency widthFrequency p = bw_BandPass_setupN_order FO reqOrder (ndiv N centerFrequency sampleRate) (ndiv N widthFrequency sampleRate) p) /\
  (forall FO sampleRate centerFrequency widthFrequency p, bw_BandStop_setup (N := N) FO sampleRate centerFrequency widthFrequency p = bw_BandStop_setupN FO (ndiv N centerFrequency sampleRate) (ndiv N widthFrequency sampleRate) p) /\
  (forall FO reqOrder sampleRate centerFrequency widthFrequency p, bw_BandStop_setup_order (N := N) FO reqOrder sampleRate centerFrequency widthFrequency p = bw_BandStop_setupN_order FO reqOrder (ndiv N centerFrequency sampleRate) (ndiv N widthFrequency sampleRate) p) /\
  (forall FO sampleRate cutoffFrequency gainDb p, bw_LowShelf_setup (N := N) FO sampleRate cutoffFrequency gainDb p = bw_LowShelf_setupN FO (ndiv N cutoffFrequency sampleRate) gainDb p) /\
  (forall FO reqOrder sampleRate cutoffFrequency gainDb p, bw_LowShelf_setup_order (N := N) FO reqOrder sampleRate cutoffFrequency gainDb p = bw_LowShelf_setupN_order FO reqOrder (ndiv N cutoffFrequency sampleRate) gainDb p) /\
  (forall FO sampleRate cutoffFrequency gainDb p, bw_HighShelf_setup (N := N) FO sampleRate cutoffFrequency gainDb p = bw_HighShelf_setupN FO (ndiv N cutoffFrequency sampleRate) gainDb p) /\
  (forall FO reqOrder sampleRate cutoffFrequency gainDb p, bw_HighShelf_setup_order (N := N) FO reqOrder sampleRate cutoffFrequency gainDb p = bw_HighShelf_setupN_order FO reqOrder (ndiv N cutoffFrequency sampleRate) gainDb p) /\
  (forall FO sampleRate centerFrequency widthFrequency gainDb p, bw_BandShelf_setup (N := N) FO sampleRate centerFrequency widthFrequency gainDb p = bw_BandShelf_setupN FO (ndiv N centerFrequency sampleRate) (ndiv N widthFrequency sampleRate) gainDb p) /\
  (forall FO reqOrder sampleRate centerFrequency widthFrequency gainDb p, bw_BandShelf_setup_order (N := N) FO reqOrder sampleRate centerFrequency widthFrequency gainDb p = bw_BandShelf_setupN_order FO reqOrder (ndiv N centerFrequency sampleRate) (ndiv N widthFrequency sampleRate) gainDb p).
Proof. intros N. repeat split. Qed.

Lemma order_rejected_butterworth : forall N : num,
  (forall FO reqOrder sampleRate cutoffFrequency p, (FO < reqOrder)%Z -> bw_LowPass_setup_order (N := N) FO reqOrder sampleRate cutoffFrequency p = Throw E_order p) /\
  (forall FO reqOrder cutoffFrequency p, (FO < reqOrder)%Z -> bw_LowPass_setupN_order (N := N) FO reqOrder cutoffFrequency p = Throw E_order p) /\
  (forall FO reqOrder sampleRate cutoffFrequency p, (FO < reqOrder)%Z -> bw_HighPass_setup_order (N := N) FO reqOrder sampleRate cutoffFrequency p = Throw E_order p) /\
  (forall FO reqOrder cutoffFrequency p, (FO < reqOrder)%Z -> bw_HighPass_setupN_order (N := N) FO reqOrder cutoffFrequency p = Throw E_order p) /\
  (forall FO reqOrder sampleRate centerFrequency widthFrequency p, (FO < reqOrder)%Z -> bw_BandPass_setup_order (N := N) FO reqOrder sampleRate centerFrequency widthFrequency p = Throw E_order p) /\
  (forall FO reqOrder centerFrequency widthFrequency p, (FO < reqOrder)%Z -> bw_BandPass_setupN_order (N := N) FO reqOrder centerFrequency widthFrequency p = Throw E_order p) /\
  (forall FO reqOrder sampleRate centerFrequency widthFrequency p, (FO < reqOrder)%Z -> bw_BandStop_setup_order (N := N) FO reqOrder sampleRate centerFrequency widthFrequency p = Throw E_order p) /\
  (forall FO reqOrder centerFrequency widthFrequency p, (FO < reqOrder)%Z -> bw_BandStop_setupN_order (N := N) FO reqOrder centerFrequency widthFrequency p = Throw E_order p) /\
  (forall FO reqOrder sampleRate cutoffFrequency gainDb p, (FO < reqOrder)%Z -> bw_LowShelf_setup_order (N := N) FO reqOrder sampleRate cutoffFrequency gainDb p = Throw E_order p) /\
  (forall FO reqOrder cutoffFrequency gainDb p, (FO < reqOrder)%Z -> bw_LowShelf_setupN_order (N := N) FO reqOrder cutoffFrequency gainDb p = Throw E_order p) /\
  (forall FO reqOrder sampleRate cutoffFrequency gainDb p, (FO < reqOrder)%Z -> bw_HighShelf_setup_order (N := N) FO reqOrder sampleRate cutoffFrequency gainDb p = Throw E_order p) /\
  (forall FO reqOrder cutoffFrequency gainDb p, (FO < reqOrder)%Z -> bw_HighShelf_setupN_order (N := N) FO reqOrder cutoffFrequency gainDb p = Throw E_order p) /\
  (forall FO reqOrder sampleRate centerFrequency widthFrequency gainDb p, (FO < reqOrder)%Z -> bw_BandShelf_setup_order (N := N) FO reqOrder sampleRate centerFrequency widthFrequency gainDb p = Throw E_order p) /\
  (forall FO reqOrder centerFrequency widthFrequency gainDb p, (FO < reqOrder)%Z -> bw_BandShelf_setupN_order (N := N) FO reqOrder centerFrequency widthFrequency gainDb p = Throw E_order p).
Proof. intros N. repeat split; intros; apply order_guard; assumption. Qed.

Lemma classes_are_instances_butterworth : forall N : num,
  (forall FO sampleRate cutoffFrequency fw g db p, bw_LowPass_setup (N := N) FO sampleRate cutoffFrequency p = setup (Bw, LP) FO None sampleRate (MkParams cutoffFrequency fw g db) p) /\
  (forall FO reqOrder sampleRate cutoffFrequency fw g db p, bw_LowPass_setup_order (N := N) FO reqOrder sampleRate cutoffFrequency p = setup (Bw, LP) FO (Some reqOrder) sampleRate (MkParams cutoffFrequency fw g db) p) /\
  (forall FO cutoffFrequency fw g db p, bw_LowPass_setupN (N := N) FO cutoffFrequency p = setupN (Bw, LP) FO None (MkParams cutoffFrequency fw g db) p) /\
  (forall FO reqOrder cutoffFrequency fw g db p, bw_LowPass_setupN_order (N := N) FO reqOrder cutoffFrequency p = setupN (Bw, LP) FO (Some reqOrder) (MkParams cutoffFrequency fw g db) p) /\
  (forall FO sampleRate cutoffFrequency fw g db p, bw_HighPass_setup (N := N) FO sampleRate cutoffFrequency p = setup (Bw, HP) FO None sampleRate (MkParams cutoffFrequency fw g db) p) /\
  (forall FO reqOrder sampleRate cutoffFrequency fw g db p, bw_HighPass_setup_order (N := N) FO reqOrder sampleRate cutoffFrequency p = setup (Bw, HP) FO (Some reqOrder) sampleRate (MkParams cutoffFrequency fw g db) p) /\
  (forall FO cutoffFrequency fw g db p, bw_HighPass_setupN (N := N) FO cutoffFrequency p = setupN (Bw, HP) FO None (MkParams cutoffFrequency fw g db) p) /\
  (forall FO reqOrder cutoffFrequency fw g db p, bw_HighPass_setupN_order (N := N) FO reqOrder cutoffFrequency p = setupN (Bw, HP) FO (Some reqOrder) (MkParams cutoffFrequency fw g db) p) /\
  (forall FO sampleRate centerFrequency widthFrequency g db p, bw_BandPass_setup (N := N) FO sampleRate centerFrequency widthFrequency p = setup (Bw, BP) FO None sampleRate (MkParams centerFrequency widthFrequency g db) p) /\
  (forall FO reqOrder sampleRate centerFrequency widthFrequency g db p, bw_BandPass_setup_order (N := N) FO reqOrder sampleRate centerFrequency widthFrequency p = setup (Bw, BP) FO (Some reqOrder) sampleRate (MkParams centerFrequency widthFrequency g db) p) /\
  (forall FO centerFrequency widthFrequency g db p, bw_BandPass_setupN (N := N) FO centerFrequency widthFrequency p = setupN (Bw, BP) FO None (MkParams centerFrequency widthFrequency g db) p) /\
  (forall FO reqOrder centerFrequency widthFrequency g db p, bw_BandPass_setupN_order (N := N) FO reqOrder centerFrequency widthFrequency p = setupN (Bw, BP) FO (Some reqOrder) (MkParams centerFrequency widthFrequency g db) p) /\
  (forall FO sampleRate centerFrequency widthFrequency g db p, bw_BandStop_setup (N := N) FO sampleRate centerFrequency widthFrequency p = setup (Bw, BS) FO None sampleRate (MkParams centerFrequency widthFrequency g db) p) /\
  (forall FO reqOrder sampleRate centerFrequency widthFrequency g db p, bw_BandStop_setup_order (N := N) FO reqOrder sampleRate centerFrequency widthFrequency p = setup (Bw, BS) FO (Some reqOrder) sampleRate (MkParams centerFrequency widthFrequency g db) p) /\
  (forall FO centerFrequency widthFrequency g db p, bw_BandStop_setupN (N := N) FO centerFrequency widthFrequency p = setupN (Bw, BS) FO None (MkParams centerFrequency widthFrequency g db) p) /\
  (forall FO reqOrder centerFrequency widthFrequency g db p, bw_BandStop_setupN_order (N := N) FO reqOrder centerFrequency widthFrequency p = setupN (Bw, BS) FO (Some reqOrder) (MkParams centerFrequency widthFrequency g db) p) /\
  (forall FO sampleRate cutoffFrequency gainDb fw db p, bw_LowShelf_setup (N := N) FO sampleRate cutoffFrequency gainDb p = setup (Bw, LSh) FO None sampleRate (MkParams cutoffFrequency fw gainDb db) p) /\
  (forall FO reqOrder sampleRate cutoffFrequency gainDb fw db p, bw_LowShelf_setup_order (N := N) FO reqOrder sampleRate cutoffFrequency gainDb p = setup (Bw, LSh) FO (Some reqOrder) sampleRate (MkParams cutoffFrequency fw gainDb db) p) /\
  (forall FO cutoffFrequency gainDb fw db p, bw_LowShelf_setupN (N := N) FO cutoffFrequency gainDb p = setupN (Bw, LSh) FO None (MkParams cutoffFrequency fw gainDb db) p) /\
  (forall FO reqOrder cutoffFrequency gainDb fw db p, bw_LowShelf_setupN_order (N := N) FO reqOrder cutoffFrequency gainDb p = setupN (Bw, LSh) FO (Some reqOrder) (MkParams cutoffFrequency fw gainDb db) p) /\
  (forall FO sampleRate cutoffFrequency gainDb fw db p, bw_HighShelf_setup (N := N) FO sampleRate cutoffFrequency gainDb p = setup (Bw, HSh) FO None sampleRate (MkParams cutoffFrequency fw gainDb db) p) /\
  (forall FO reqOrder sampleRate cutoffFrequency gainDb fw db p, bw_HighShelf_setup_order (N := N) FO reqOrder sampleRate cutoffFrequency gainDb p = setup (Bw, HSh) FO (Some reqOrder) sampleRate (MkParams cutoffFrequency fw gainDb db) p) /\
  (forall FO cutoffFrequency gainDb fw db p, bw_HighShelf_setupN (N := N) FO cutoffFrequency gainDb p = setupN (Bw, HSh) FO None (MkParams cutoffFrequency fw gainDb db) p) /\
  (forall FO reqOrder cutoffFrequency gainDb fw db p, bw_HighShelf_setupN_order (N := N) FO reqOrder cutoffFrequency gainDb p = setupN (Bw, HSh) FO (Some reqOrder) (MkParams cutoffFrequency fw gainDb db) p) /\
  (forall FO sampleRate centerFrequency widthFrequency gainDb db p, bw_BandShelf_setup (N := N) FO sampleRate centerFrequency widthFrequency gainDb p = setup (Bw, BSh) FO None sampleRate (MkParams centerFrequency widthFrequency gainDb db) p) /\
  (forall FO reqOrder sampleRate centerFrequency widthFrequency gainDb db p, bw_BandShelf_setup_order (N := N) FO reqOrder sampleRate centerFrequency widthFrequency gainDb p = setup (Bw, BSh) FO (Some reqOrder) sampleRate (MkParams centerFrequency widthFrequency gainDb db) p) /\
  (forall FO centerFrequency widthFrequency gainDb db p, bw_BandShelf_setupN (N := N) FO centerFrequency widthFrequency gainDb p = setupN (Bw, BSh) FO None (MkParams centerFrequency widthFrequency gainDb db) p) /\
  (forall FO reqOrder centerFrequency widthFrequency gainDb db p, bw_BandShelf_setupN_order (N := N) FO reqOrder centerFrequency widthFrequency gainDb p = setupN (Bw, BSh) FO (Some reqOrder) (MkParams centerFrequency widthFrequency gainDb db) p).
Proof.
  intros N. repeat apply conj; intros.
  - apply bw_LowPass_setup_eq.
  - apply bw_LowPass_setup_order_eq.
  - apply bw_LowPass_setupN_eq.
  - apply bw_LowPass_setupN_order_eq.
  - apply bw_HighPass_setup_eq.
  - apply bw_HighPass_setup_order_eq.
  - apply bw_HighPass_setupN_eq.
  - apply bw_HighPass_setupN_order_eq.
  - apply bw_BandPass_setup_eq.
  - apply bw_BandPass_setup_order_eq.
  - apply bw_BandPass_setupN_eq.
  - apply bw_BandPass_setupN_order_eq.
  - apply bw_BandStop_setup_eq.
  - apply bw_BandStop_setup_order_eq.
  - apply bw_BandStop_setupN_eq.
  - apply bw_BandStop_setupN_order_eq.
  - apply bw_LowShelf_setup_eq.
  - apply bw_LowShelf_setup_order_eq.
  - apply bw_LowShelf_setupN_eq.
  - apply bw_LowShelf_setupN_order_eq.
  - apply bw_HighShelf_setup_eq.
  - apply bw_HighShelf_setup_order_eq.
  - apply bw_HighShelf_setupN_eq.
  - apply bw_HighShelf_setupN_order_eq.
  - apply bw_BandShelf_setup_eq.
  - apply bw_BandShelf_setup_order_eq.
  - apply bw_BandShelf_setupN_eq.
  - apply bw_BandShelf_setupN_order_eq.
Qed.

Lemma setup_is_setupN_chebyshev1 : forall N : num,
  (forall FO sampleRate cutoffFrequency rippleDb p, c1_LowPass_setup (N := N) FO sampleRate cutoffFrequency rippleDb p = c1_LowPass_setupN FO (ndiv N cutoffFrequency sampleRate) rippleDb p) /\
  (forall FO reqOrder sampleRate cutoffFrequency rippleDb p, c1_LowPass_setup_order (N := N) FO reqOrder sampleRate cutoffFrequency rippleDb p = c1_LowPass_setupN_order FO reqOrder (ndiv N cutoffFrequency sampleRate) rippleDb p) /\
  (forall FO sampleRate cutoffFrequency rippleDb p, c1_HighPass_setup (N := N) FO sampleRate cutoffFrequency rippleDb p = c1_HighPass_setupN FO (ndiv N cutoffFrequency sampleRate) rippleDb p) /\
  (forall FO reqOrder sampleRate cutoffFrequency rippleDb p, c1_HighPass_setup_order (N := N) FO reqOrder sampleRate cutoffFrequency rippleDb p = c1_HighPass_setupN_order FO reqOrder (ndiv N cutoffFrequency sampleRate) rippleDb p) /\
  (forall FO sampleRate centerFrequency widthFrequency rippleDb p, c1_BandPass_setup (N := N) FO sampleRate centerFrequency widthFrequency rippleDb p = c1_BandPass_setupN FO (ndiv N centerFrequency sampleRate) (ndiv N widthFrequency sampleRate) rippleDb p) /\
  (forall FO reqOrder sampleRate centerFrequency widthFrequency rippleDb p, c1_BandPass_setup_order (N := N) FO reqOrder sampleRate centerFrequency widthFrequency rippleDb p = c1_BandPass_setupN_order FO reqOrder (ndiv N centerFrequency sampleRate) (ndiv N widthFrequency sampleRate) rippleDb p) /\
  (forall FO sampleRate centerFrequency widthFrequency rippleDb p, c1_BandStop_setup (N := N) FO sampleRate centerFrequency widthFrequency rippleDb p = c1_BandStop_setupN FO (ndiv N centerFrequency sampleRate) (ndiv N widthFrequency sampleRate) rippleDb p) /\
  (forall FO reqOrder sampleRate centerFrequency widthFrequency rippleDb p, c1_BandStop_setup_order (N := N) FO reqOrder sampleRate centerFrequency widthFrequency rippleDb p = c1_BandStop_setupN_order FO reqOrder (ndiv N centerFrequency sampleRate) (ndiv N widthFrequency sampleRate) rippleDb p) /\
  (forall FO sampleRate cutoffFrequency gainDb rippleDb p, c1_LowShelf_setup (N := N) FO sampleRate cutoffFrequency gainDb rippleDb p = c1_LowShelf_setupN FO (ndiv N cutoffFrequency sampleRate) gainDb rippleDb p) /\
  (forall FO reqOrder sampleRate cutoffFrequency gainDb rippleDb p, c1_LowShelf_setup_order (N := N) FO reqOrder sampleRate cutoffFrequency gainDb rippleDb p = c1_LowShelf_setupN_order FO reqOrder (ndiv N cutoffFrequency sampleRate) gainDb rippleDb p) /\
  (forall FO sampleRate cutoffFrequency gainDb rippleDb p, c1_HighShelf_setup (N := N) FO sampleRate cutoffFrequency gainDb rippleDb p = c1_HighShelf_setupN FO (ndiv N cutoffFrequency sampleRate) gainDb rippleDb p) /\
  (forall FO reqOrder sampleRate cutoffFrequency gainDb rippleDb p, c1_HighShelf_setup_order (N := N) FO reqOrder sampleRate cutoffFrequency gainDb rippleDb p = c1_HighShelf_setupN_order FO reqOrder (ndiv N cutoffFrequency sampleRate) gainDb rippleDb p) /\
  (forall FO sampleRate centerFrequency widthFrequency gainDb rippleDb p, c1_BandShelf_setup (N := N) FO sampleRate centerFrequency widthFrequency gainDb rippleDb p = c1_BandShelf_setupN FO (ndiv N centerFrequency sampleRate) (ndiv N widthFrequency sampleRate) gainDb rippleDb p) /\
  (forall FO reqOrder sampleRate centerFrequency widthFrequency gainDb rippleDb p, c1_BandShelf_setup_order (N := N) FO reqOrder sampleRate centerFrequency widthFrequency gainDb rippleDb p = c1_BandShelf_setupN_order FO reqOrder (ndiv N centerFrequency sampleRate) (ndiv N widthFrequency sampleRate) gainDb rippleDb p).
Proof. intros N. repeat split. Qed.

Lemma order_rejected_chebyshev1 : forall N : num,
  (forall FO reqOrder sampleRate cutoffFrequency rippleDb p, (FO < reqOrder)%Z -> c1_LowPass_setup_order (N := N) FO reqOrder sampleRate cutoffFrequency rippleDb p = Throw E_order p) /\
  (forall FO reqOrder cutoffFrequency rippleDb p, (FO < reqOrder)%Z -> c1_LowPass_setupN_order (N := N) FO reqOrder cutoffFrequency rippleDb p = Throw E_order p) /\
  (forall FO reqOrder sampleRate cutoffFrequency rippleDb p, (FO < reqOrder)%Z -> c1_HighPass_setup_order (N := N) FO reqOrder sampleRate cutoffFrequency rippleDb p = Throw E_order p) /\
  (forall FO reqOrder cutoffFrequency rippleDb p, (FO < reqOrder)%Z -> c1_HighPass_setupN_order (N := N) FO reqOrder cutoffFrequency rippleDb p = Throw E_order p) /\
  (forall FO reqOrder sampleRate centerFrequency widthFrequency rippleDb p, (FO < reqOrder)%Z -> c1_BandPass_setup_order (N := N) FO reqOrder sampleRate centerFrequency widthFrequency rippleDb p = Throw E_order p) /\
  (forall FO reqOrder centerFrequency widthFrequency rippleDb p, (FO < reqOrder)%Z -> c1_BandPass_setupN_order (N := N) FO reqOrder centerFrequency widthFrequency rippleDb p = Throw E_order p) /\
  (forall FO reqOrder sampleRate centerFrequency widthFrequency rippleDb p, (FO < reqOrder)%Z -> c1_BandStop_setup_order (N := N) FO reqOrder sampleRate centerFrequency widthFrequency rippleDb p = Throw E_order p) /\
  (forall FO reqOrder centerFrequency widthFrequency rippleDb p, (FO < reqOrder)%Z -> c1_BandStop_setupN_order (N := N) FO reqOrder centerFrequency widthFrequency rippleDb p = Throw E_order p) /\
  (forall FO reqOrder sampleRate cutoffFrequency gainDb rippleDb p, (FO < reqOrder)%Z -> c1_LowShelf_setup_order (N := N) FO reqOrder sampleRate cutoffFrequency gainDb rippleDb p = Throw E_order p) /\
  (forall FO reqOrder cutoffFrequency gainDb rippleDb p, (FO < reqOrder)%Z -> c1_LowShelf_setupN_order (N := N) FO reqOrder cutoffFrequency gainDb rippleDb p = Throw E_order p) /\
  (forall FO reqOrder sampleRate cutoffFrequency gainDb rippleDb p, (FO < reqOrder)%Z -> c1_HighShelf_setup_order (N := N) FO reqOrder sampleRate cutoffFrequency gainDb rippleDb p = Throw E_order p) /\
  (forall FO reqOrder cutoffFrequency gainDb rippleDb p, (FO < reqOrder)%Z -> c1_HighShelf_setupN_order (N := N) FO reqOrder cutoffFrequency gainDb rippleDb p = Throw E_order p) /\
  (forall FO reqOrder sampleRate centerFrequency widthFrequency gainDb rippleDb p, (FO < reqOrder)%Z -> c1_BandShelf_setup_order (N := N) FO reqOrder sampleRate centerFrequency widthFrequency gainDb rippleDb p = Throw E_order p) /\
  (forall FO reqOrder centerFrequency widthFrequency gainDb rippleDb p, (FO < reqOrder)%Z -> c1_BandShelf_setupN_order (N := N) FO reqOrder centerFrequency widthFrequency gainDb rippleDb p = Throw E_order p).
Proof. intros N. repeat split; intros; apply order_guard; assumption. Qed.

Lemma classes_are_instances_chebyshev1 : forall N : num,
  (forall FO sampleRate cutoffFrequency rippleDb fw g p, c1_LowPass_setup (N := N) FO sampleRate cutoffFrequency rippleDb p = setup (Ch1, LP) FO None sampleRate (MkParams cutoffFrequency fw g rippleDb) p) /\
  (forall FO reqOrder sampleRate cutoffFrequency rippleDb fw g p, c1_LowPass_setup_order (N := N) FO reqOrder sampleRate cutoffFrequency rippleDb p = setup (Ch1, LP) FO (Some reqOrder) sampleRate (MkParams cutoffFrequency fw g rippleDb) p) /\
  (forall FO cutoffFrequency rippleDb fw g p, c1_LowPass_setupN (N := N) FO cutoffFrequency rippleDb p = setupN (Ch1, LP) FO None (MkParams cutoffFrequency fw g rippleDb) p) /\
  (forall FO reqOrder cutoffFrequency rippleDb fw g p, c1_LowPass_setupN_order (N := N) FO reqOrder cutoffFrequency rippleDb p = setupN (Ch1, LP) FO (Some reqOrder) (MkParams cutoffFrequency fw g rippleDb) p) /\
  (forall FO sampleRate cutoffFrequency rippleDb fw g p, c1_HighPass_setup (N := N) FO sampleRate cutoffFrequency rippleDb p = setup (Ch1, HP) FO None sampleRate (MkParams cutoffFrequency fw g rippleDb) p) /\
  (forall FO reqOrder sampleRate cutoffFrequency rippleDb fw g p, c1_HighPass_setup_order (N := N) FO reqOrder sampleRate cutoffFrequency rippleDb p = setup (Ch1, HP) FO (Some reqOrder) sampleRate (MkParams cutoffFrequency fw g rippleDb) p) /\
  (forall FO cutoffFrequency rippleDb fw g p, c1_HighPass_setupN (N := N) FO cutoffFrequency rippleDb p = setupN (Ch1, HP) FO None (MkParams cutoffFrequency fw g rippleDb) p) /\
  (forall FO reqOrder cutoffFrequency rippleDb fw g p, c1_HighPass_setupN_order (N := N) FO reqOrder cutoffFrequency rippleDb p = setupN (Ch1, HP) FO (Some reqOrder) (MkParams cutoffFrequency fw g rippleDb) p) /\
  (forall FO sampleRate centerFrequency widthFrequency rippleDb g p, c1_BandPass_setup (N := N) FO sampleRate centerFrequency widthFrequency rippleDb p = setup (Ch1, BP) FO None sampleRate (MkParams centerFrequency widthFrequency g rippleDb) p) /\
  (forall FO reqOrder sampleRate centerFrequency widthFrequency rippleDb g p, c1_BandPass_setup_order (N := N) FO reqOrder sampleRate centerFrequency widthFrequency rippleDb p = setup (Ch1, BP) FO (Some reqOrder) sampleRate (MkParams centerFrequency widthFrequency g rippleDb) p) /\
  (forall FO centerFrequency widthFrequency rippleDb g p, c1_BandPass_setupN (N := N) FO centerFrequency widthFrequency rippleDb p = setupN (Ch1, BP) FO None (MkParams centerFrequency widthFrequency g rippleDb) p) /\
  (forall FO reqOrder centerFrequency widthFrequency rippleDb g p, c1_BandPass_setupN_order (N := N) FO reqOrder centerFrequency widthFrequency rippleDb p = setupN (Ch1, BP) FO (Some reqOrder) (MkParams centerFrequency widthFrequency g rippleDb) p) /\
  (forall FO sampleRate centerFrequency widthFrequency rippleDb g p, c1_BandStop_setup (N := N) FO sampleRate centerFrequency widthFrequency rippleDb p = setup (Ch1, BS) FO None sampleRate (MkParams centerFrequency widthFrequency g rippleDb) p) /\
  (forall FO reqOrder sampleRate centerFrequency widthFrequency rippleDb g p, c1_BandStop_setup_order (N := N) FO reqOrder sampleRate centerFrequency widthFrequency rippleDb p = setup (Ch1, BS) FO (Some reqOrder) sampleRate (MkParams centerFrequency widthFrequency g rippleDb) p) /\
  (forall FO centerFrequency widthFrequency rippleDb g p, c1_BandStop_setupN (N := N) FO centerFrequency widthFrequency rippleDb p = setupN (Ch1, BS) FO None (MkParams centerFrequency widthFrequency g rippleDb) p) /\
  (forall FO reqOrder centerFrequency widthFrequency rippleDb g p, c1_BandStop_setupN_order (N := N) FO reqOrder centerFrequency widthFrequency rippleDb p = setupN (Ch1, BS) FO (Some reqOrder) (MkParams centerFrequency widthFrequency g rippleDb) p) /\
  (forall FO sampleRate cutoffFrequency gainDb rippleDb fw p, c1_LowShelf_setup (N := N) FO sampleRate cutoffFrequency gainDb rippleDb p = setup (Ch1, LSh) FO None sampleRate (MkParams cutoffFrequency fw gainDb rippleDb) p) /\
  (forall FO reqOrder sampleRate cutoffFrequency gainDb rippleDb fw p, c1_LowShelf_setup_order (N := N) FO reqOrder sampleRate cutoffFrequency gainDb rippleDb p = setup (Ch1, LSh) FO (Some reqOrder) sampleRate (MkParams cutoffFrequency fw gainDb rippleDb) p) /\
  (forall FO cutoffFrequency gainDb rippleDb fw p, c1_LowShelf_setupN (N := N) FO cutoffFrequency gainDb rippleDb p = setupN (Ch1, LSh) FO None (MkParams cutoffFrequency fw gainDb rippleDb) p) /\
  (forall FO reqOrder cutoffFrequency gainDb rippleDb fw p, c1_LowShelf_setupN_order (N := N) FO reqOrder cutoffFrequency gainDb rippleDb p = setupN (Ch1, LSh) FO (Some reqOrder) (MkParams cutoffFrequency fw gainDb rippleDb) p) /\
  (forall FO sampleRate cutoffFrequency gainDb rippleDb fw p, c1_HighShelf_setup (N := N) FO sampleRate cutoffFrequency gainDb rippleDb p = setup (Ch1, HSh) FO None sampleRate (MkParams cutoffFrequency fw gainDb rippleDb) p) /\
  (forall FO reqOrder sampleRate cutoffFrequency gainDb rippleDb fw p, c1_HighShelf_setup_order (N := N) FO reqOrder sampleRate cutoffFrequency gainDb rippleDb p = setup (Ch1, HSh) FO (Some reqOrder) sampleRate (MkParams cutoffFrequency fw gainDb rippleDb) p) /\
  (forall FO cutoffFrequency gainDb rippleDb fw p, c1_HighShelf_setupN (N := N) FO cutoffFrequency gainDb rippleDb p = setupN (Ch1, HSh) FO None (MkParams cutoffFrequency fw gainDb rippleDb) p) /\
  (forall FO reqOrder cutoffFrequency gainDb rippleDb fw p, c1_HighShelf_setupN_order (N := N) FO reqOrder cutoffFrequency gainDb rippleDb p = setupN (Ch1, HSh) FO (Some reqOrder) (MkParams cutoffFrequency fw gainDb rippleDb) p) /\
  (forall FO sampleRate centerFrequency widthFrequency gainDb rippleDb p, c1_BandShelf_setup (N := N) FO sampleRate centerFrequency widthFrequency gainDb rippleDb p = setup (Ch1, BSh) FO None sampleRate (MkParams centerFrequency widthFrequency gainDb rippleDb) p) /\
  (forall FO reqOrder sampleRate centerFrequency widthFrequency gainDb rippleDb p, c1_BandShelf_setup_order (N := N) FO reqOrder sampleRate centerFrequency widthFrequency gainDb rippleDb p = setup (Ch1, BSh) FO (Some reqOrder) sampleRate (MkParams centerFrequency widthFrequency gainDb rippleDb) p) /\
  (forall FO centerFrequency widthFrequency gainDb rippleDb p, c1_BandShelf_setupN (N := N) FO centerFrequency widthFrequency gainDb rippleDb p = setupN (Ch1, BSh) FO None (MkParams centerFrequency widthFrequency gainDb rippleDb) p) /\
  (forall FO reqOrder centerFrequency widthFrequency gainDb rippleDb p, c1_BandShelf_setupN_order (N := N) FO reqOrder centerFrequency widthFrequency gainDb rippleDb p = setupN (Ch1, BSh) FO (Some reqOrder) (MkParams centerFrequency widthFrequency gainDb rippleDb) p).
Proof.
  intros N. repeat apply conj; intros.
  - apply c1_LowPass_setup_eq.
  - apply c1_LowPass_setup_order_eq.
  - apply c1_LowPass_setupN_eq.
  - apply c1_LowPass_setupN_order_eq.
  - apply c1_HighPass_setup_eq.
  - apply c1_HighPass_setup_order_eq.
  - apply c1_HighPass_setupN_eq.
  - apply c1_HighPass_setupN_order_eq.
  - apply c1_BandPass_setup_eq.
  - apply c1_BandPass_setup_order_eq.
  - apply c1_BandPass_setupN_eq.
  - apply c1_BandPass_setupN_order_eq.
  - apply c1_BandStop_setup_eq.
  - apply c1_BandStop_setup_order_eq.
  - apply c1_BandStop_setupN_eq.
  - apply c1_BandStop_setupN_order_eq.
  - apply c1_LowShelf_setup_eq.
  - apply c1_LowShelf_setup_order_eq.
  - apply c1_LowShelf_setupN_eq.
  - apply c1_LowShelf_setupN_order_eq.
  - apply c1_HighShelf_setup_eq.
  - apply c1_HighShelf_setup_order_eq.
  - apply c1_HighShelf_setupN_eq.
  - apply c1_HighShelf_setupN_order_eq.
  - apply c1_BandShelf_setup_eq.
  - apply c1_BandShelf_setup_order_eq.
  - apply c1_BandShelf_setupN_eq.
  - apply c1_BandShelf_setupN_order_eq.
Qed.

Lemma setup_is_setupN_chebyshev2 : forall N : num,
  (forall FO sampleRate cutoffFrequency stopBandDb p, c2_LowPass_setup (N := N) FO sampleRate cutoffFrequency stopBandDb p = c2_LowPass_setupN FO (ndiv N cutoffFrequency sampleRate) stopBandDb p) /\
  (forall FO reqOrder sampleRate cutoffFrequency stopBandDb p, c2_LowPass_setup_order (N := N) FO reqOrder sampleRate cutoffFrequency stopBandDb p = c2_LowPass_setupN_order FO reqOrder (ndiv N cutoffFrequency sampleRate) stopBandDb p) /\
  (forall FO sampleRate cutoffFrequency stopBandDb p, c2_HighPass_setup (N := N) FO sampleRate cutoffFrequency stopBandDb p = c2_HighPass_setupN FO (ndiv N cutoffFrequency sampleRate) stopBandDb p) /\
  (forall FO reqOrder sampleRate cutoffFrequency stopBandDb p, c2_HighPass_setup_order (N := N) FO reqOrder sampleRate cutoffFrequency stopBandDb p = c2_HighPass_setupN_order FO reqOrder (ndiv N cutoffFrequency sampleRate) stopBandDb p) /\
  (forall FO sampleRate centerFrequency widthFrequency stopBandDb p, c2_BandPass_setup (N := N) FO sampleRate centerFrequency widthFrequency stopBandDb p = c2_BandPass_setupN FO (ndiv N centerFrequency sampleRate) (ndiv N widthFrequency sampleRate) stopBandDb p) /\
  (forall FO reqOrder sampleRate centerFrequency widthFrequency stopBandDb p, c2_BandPass_setup_order (N := N) FO reqOrder sampleRate centerFrequency widthFrequency stopBandDb p = c2_BandPass_setupN_order FO reqOrder (ndiv N centerFrequency sampleRate) (ndiv N widthFrequency sampleRate) stopBandDb p) /\
  (forall FO sampleRate centerFrequency widthFrequency stopBandDb p, c2_BandStop_setup (N := N) FO sampleRate centerFrequency widthFrequency stopBandDb p = c2_BandStop_setupN FO (ndiv N centerFrequency sampleRate) (ndiv N widthFrequency sampleRate) stopBandDb p) /\
  (forall FO reqOrder sampleRate centerFrequency widthFrequency stopBandDb p, c2_BandStop_setup_order (N := N) FO reqOrder sampleRate centerFrequency widthFrequency stopBandDb p = c2_BandStop_setupN_order FO reqOrder (ndiv N centerFrequency sampleRate) (ndiv N widthFrequency sampleRate) stopBandDb p) /\
  (forall FO sampleRate cutoffFrequency gainDb stopBandDb p, c2_LowShelf_setup (N := N) FO sampleRate cutoffFrequency gainDb stopBandDb p = c2_LowShelf_setupN FO (ndiv N cutoffFrequency sampleRate) gainDb stopBandDb p) /\
  (forall FO reqOrder sampleRate cutoffFrequency gainDb stopBandDb p, c2_LowShelf_setup_order (N := N) FO reqOrder sampleRate cutoffFrequency gainDb stopBandDb p = c2_LowShelf_setupN_order FO reqOrder (ndiv N cutoffFrequency sampleRate) gainDb stopBandDb p) /\
  (forall FO sampleRate cutoffFrequency gainDb stopBandDb p, c2_HighShelf_setup (N := N) FO sampleRate cutoffFrequency gainDb stopBandDb p = c2_HighShelf_setupN FO (ndiv N cutoffFrequency sampleRate) gainDb stopBandDb p) /\
  (forall FO reqOrder sampleRate cutoffFrequency gainDb stopBandDb p, c2_HighShelf_setup_order (N := N) FO reqOrder sampleRate cutoffFrequency gainDb stopBandDb p = c2_HighShelf_setupN_order FO reqOrder (ndiv N cutoffFrequency sampleRate) gainDb stopBandDb p) /\
  (forall FO sampleRate centerFrequency widthFrequency gainDb stopBandDb p, c2_BandShelf_setup (N := N) FO sampleRate centerFrequency widthFrequency gainDb stopBandDb p = c2_BandShelf_setupN FO (ndiv N centerFrequency sampleRate) (ndiv N widthFrequency sampleRate) gainDb stopBandDb p) /\
  (forall FO reqOrder sampleRate centerFrequency widthFrequency gainDb stopBandDb p, c2_BandShelf_setup_order (N := N) FO reqOrder sampleRate centerFrequency widthFrequency gainDb stopBandDb p = c2_BandShelf_setupN_order FO reqOrder (ndiv N centerFrequency sampleRate) (ndiv N widthFrequency sampleRate) gainDb stopBandDb p).
Proof. intros N. repeat split. Qed.

Lemma order_rejected_chebyshev2 : forall N : num,
  (forall FO reqOrder sampleRate cutoffFrequency stopBandDb p, (FO < reqOrder)%Z -> c2_LowPass_setup_order (N := N) FO reqOrder sampleRate cutoffFrequency stopBandDb p = Throw E_order p) /\
  (forall FO reqOrder cutoffFrequency stopBandDb p, (FO < reqOrder)%Z -> c2_LowPass_setupN_order (N := N) FO reqOrder cutoffFrequency stopBandDb p = Throw E_order p) /\
  (forall FO reqOrder sampleRate cutoffFrequency stopBandDb p, (FO < reqOrder)%Z -> c2_HighPass_setup_order (N := N) FO reqOrder sampleRate cutoffFrequency stopBandDb p = Throw E_order p) /\
  (forall FO reqOrder cutoffFrequency stopBandDb p, (FO < reqOrder)%Z -> c2_HighPass_setupN_order (N := N) FO reqOrder cutoffFrequency stopBandDb p = Throw E_order p) /\
  (forall FO reqOrder sampleRate centerFrequency widthFrequency stopBandDb p, (FO < reqOrder)%Z -> c2_BandPass_setup_order (N := N) FO reqOrder sampleRate centerFrequency widthFrequency stopBandDb p = Throw E_order p) /\
  (forall FO reqOrder centerFrequency widthFrequency stopBandDb p, (FO < reqOrder)%Z -> c2_BandPass_setupN_order (N := N) FO reqOrder centerFrequency widthFrequency stopBandDb p = Throw E_order p) /\
  (forall FO reqOrder sampleRate centerFrequency widthFrequency stopBandDb p, (FO < reqOrder)%Z -> c2_BandStop_setup_order (N := N) FO reqOrder sampleRate centerFrequency widthFrequency stopBandDb p = Throw E_order p) /\
  (forall FO reqOrder centerFrequency widthFrequency stopBandDb p, (FO < reqOrder)%Z -> c2_BandStop_setupN_order (N := N) FO reqOrder centerFrequency widthFrequency stopBandDb p = Throw E_order p) /\
  (forall FO reqOrder sampleRate cutoffFrequency gainDb stopBandDb p, (FO < reqOrder)%Z -> c2_LowShelf_setup_order (N := N) FO reqOrder sampleRate cutoffFrequency gainDb stopBandDb p = Throw E_order p) /\
  (forall FO reqOrder cutoffFrequency gainDb stopBandDb p, (FO < reqOrder)%Z -> c2_LowShelf_setupN_order (N := N) FO reqOrder cutoffFrequency gainDb stopBandDb p = Throw E_order p) /\
  (forall FO reqOrder sampleRate cutoffFrequency gainDb stopBandDb p, (FO < reqOrder)%Z -> c2_HighShelf_setup_order (N := N) FO reqOrder sampleRate cutoffFrequency gainDb stopBandDb p = Throw E_order p) /\
  (forall FO reqOrder cutoffFrequency gainDb stopBandDb p, (FO < reqOrder)%Z -> c2_HighShelf_setupN_order (N := N) FO reqOrder cutoffFrequency gainDb stopBandDb p = Throw E_order p) /\
  (forall FO reqOrder sampleRate centerFrequency widthFrequency gainDb stopBandDb p, (FO < reqOrder)%Z -> c2_BandShelf_setup_order (N := N) FO reqOrder sampleRate centerFrequency widthFrequency gainDb stopBandDb p = Throw E_order p) /\
  (forall FO reqOrder centerFrequency widthFrequency gainDb stopBandDb p, (FO < reqOrder)%Z -> c2_BandShelf_setupN_order (N := N) FO reqOrder centerFrequency widthFrequency gainDb stopBandDb p = Throw E_order p).
Proof. intros N. repeat split; intros; apply order_guard; assumption. Qed.

Lemma classes_are_instances_chebyshev2 : forall N : num,
  (forall FO sampleRate cutoffFrequency stopBandDb fw g p, c2_LowPass_setup (N := N) FO sampleRate cutoffFrequency stopBandDb p = setup (Ch2, LP) FO None sampleRate (MkParams cutoffFrequency fw g stopBandDb) p) /\
  (forall FO reqOrder sampleRate cutoffFrequency stopBandDb fw g p, c2_LowPass_setup_order (N := N) FO reqOrder sampleRate cutoffFrequency stopBandDb p = setup (Ch2, LP) FO (Some reqOrder) sampleRate (MkParams cutoffFrequency fw g stopBandDb) p) /\
  (forall FO cutoffFrequency stopBandDb fw g p, c2_LowPass_setupN (N := N) FO cutoffFrequency stopBandDb p = setupN (Ch2, LP) FO None (MkParams cutoffFrequency fw g stopBandDb) p) /\
  (forall FO reqOrder cutoffFrequency stopBandDb fw g p, c2_LowPass_setupN_order (N := N) FO reqOrder cutoffFrequency stopBandDb p = setupN (Ch2, LP) FO (Some reqOrder) (MkParams cutoffFrequency fw g stopBandDb) p) /\
  (forall FO sampleRate cutoffFrequency stopBandDb fw g p, c2_HighPass_setup (N := N) FO sampleRate cutoffFrequency stopBandDb p = setup (Ch2, HP) FO None sampleRate (MkParams cutoffFrequency fw g stopBandDb) p) /\
  (forall FO reqOrder sampleRate cutoffFrequency stopBandDb fw g p, c2_HighPass_setup_order (N := N) FO reqOrder sampleRate cutoffFrequency stopBandDb p = setup (Ch2, HP) FO (Some reqOrder) sampleRate (MkParams cutoffFrequency fw g stopBandDb) p) /\
  (forall FO cutoffFrequency stopBandDb fw g p, c2_HighPass_setupN (N := N) FO cutoffFrequency stopBandDb p = setupN (Ch2, HP) FO None (MkParams cutoffFrequency fw g stopBandDb) p) /\
  (forall FO reqOrder cutoffFrequency stopBandDb fw g p, c2_HighPass_setupN_order (N := N) FO reqOrder cutoffFrequency stopBandDb p = setupN (Ch2, HP) FO (Some reqOrder) (MkParams cutoffFrequency fw g stopBandDb) p) /\
  (forall FO sampleRate centerFrequency widthFrequency stopBandDb g p, c2_BandPass_setup (N := N) FO sampleRate centerFrequency widthFrequency stopBandDb p = setup (Ch2, BP) FO None sampleRate (MkParams centerFrequency widthFrequency g stopBandDb) p) /\
  (forall FO reqOrder sampleRate centerFrequency widthFrequency stopBandDb g p, c2_BandPass_setup_order (N := N) FO reqOrder sampleRate centerFrequency widthFrequency stopBandDb p = setup (Ch2, BP) FO (Some reqOrder) sampleRate (MkParams centerFrequency widthFrequency g stopBandDb) p) /\
  (forall FO centerFrequency widthFrequency stopBandDb g p, c2_BandPass_setupN (N := N) FO centerFrequency widthFrequency stopBandDb p = setupN (Ch2, BP) FO None (MkParams centerFrequency widthFrequency g stopBandDb) p) /\
  (forall FO reqOrder centerFrequency widthFrequency stopBandDb g p, c2_BandPass_setupN_order (N := N) FO reqOrder centerFrequency widthFrequency stopBandDb p = setupN (Ch2, BP) FO (Some reqOrder) (MkParams centerFrequency widthFrequency g stopBandDb) p) /\
  (forall FO sampleRate centerFrequency widthFrequency stopBandDb g p, c2_BandStop_setup (N := N) FO sampleRate centerFrequency widthFrequency stopBandDb p = setup (Ch2, BS) FO None sampleRate (MkParams centerFrequency widthFrequency g stopBandDb) p) /\
  (forall FO reqOrder sampleRate centerFrequency widthFrequency stopBandDb g p, c2_BandStop_setup_order (N := N) FO reqOrder sampleRate centerFrequency widthFrequency stopBandDb p = setup (Ch2, BS) FO (Some reqOrder) sampleRate (MkParams centerFrequency widthFrequency g stopBandDb) p) /\
  (forall FO centerFrequency widthFrequency stopBandDb g p, c2_BandStop_setupN (N := N) FO centerFrequency widthFrequency stopBandDb p = setupN (Ch2, BS) FO None (MkParams centerFrequency widthFrequency g stopBandDb) p) /\
  (forall FO reqOrder centerFrequency widthFrequency stopBandDb g p, c2_BandStop_setupN_order (N := N) FO reqOrder centerFrequency widthFrequency stopBandDb p = setupN (Ch2, BS) FO (Some reqOrder) (MkParams centerFrequency widthFrequency g stopBandDb) p) /\
  (forall FO sampleRate cutoffFrequency gainDb stopBandDb fw p, c2_LowShelf_setup (N := N) FO sampleRate cutoffFrequency gainDb stopBandDb p = setup (Ch2, LSh) FO None sampleRate (MkParams cutoffFrequency fw gainDb stopBandDb) p) /\
  (forall FO reqOrder sampleRate cutoffFrequency gainDb stopBandDb fw p, c2_LowShelf_setup_order (N := N) FO reqOrder sampleRate cutoffFrequency gainDb stopBandDb p = setup (Ch2, LSh) FO (Some reqOrder) sampleRate (MkParams cutoffFrequency fw gainDb stopBandDb) p) /\
  (forall FO cutoffFrequency gainDb stopBandDb fw p, c2_LowShelf_setupN (N := N) FO cutoffFrequency gainDb stopBandDb p = setupN (Ch2, LSh) FO None (MkParams cutoffFrequency fw gainDb stopBandDb) p) /\
  (forall FO reqOrder cutoffFrequency gainDb stopBandDb fw p, c2_LowShelf_setupN_order (N := N) FO reqOrder cutoffFrequency gainDb stopBandDb p = setupN (Ch2, LSh) FO (Some reqOrder) (MkParams cutoffFrequency fw gainDb stopBandDb) p) /\
  (forall FO sampleRate cutoffFrequency gainDb stopBandDb fw p, c2_HighShelf_setup (N := N) FO sampleRate cutoffFrequency gainDb stopBandDb p = setup (Ch2, HSh) FO None sampleRate (MkParams cutoffFrequency fw gainDb stopBandDb) p) /\
  (forall FO reqOrder sampleRate cutoffFrequency gainDb stopBandDb fw p, c2_HighShelf_setup_order (N := N) FO reqOrder sampleRate cutoffFrequency gainDb stopBandDb p = setup (Ch2, HSh) FO (Some reqOrder) sampleRate (MkParams cutoffFrequency fw gainDb stopBandDb) p) /\
  (forall FO cutoffFrequency gainDb stopBandDb fw p, c2_HighShelf_setupN (N := N) FO cutoffFrequency gainDb stopBandDb p = setupN (Ch2, HSh) FO None (MkParams cutoffFrequency fw gainDb stopBandDb) p) /\
  (forall FO reqOrder cutoffFrequency gainDb stopBandDb fw p, c2_HighShelf_setupN_order (N := N) FO reqOrder cutoffFrequency gainDb stopBandDb p = setupN (Ch2, HSh) FO (Some reqOrder) (MkParams cutoffFrequency fw gainDb stopBandDb) p) /\
  (forall FO sampleRate centerFrequency widthFrequency gainDb stopBandDb p, c2_BandShelf_setup (N := N) FO sampleRate centerFrequency widthFrequency gainDb stopBandDb p = setup (Ch2, BSh) FO None sampleRate (MkParams centerFrequency widthFrequency gainDb stopBandDb) p) /\
  (forall FO reqOrder sampleRate centerFrequency widthFrequency gainDb stopBandDb p, c2_BandShelf_setup_order (N := N) FO reqOrder sampleRate centerFrequency widthFrequency gainDb stopBandDb p = setup (Ch2, BSh) FO (Some reqOrder) sampleRate (MkParams centerFrequency widthFrequency gainDb stopBandDb) p) /\
  (forall FO centerFrequency widthFrequency gainDb stopBandDb p, c2_BandShelf_setupN (N := N) FO centerFrequency widthFrequency gainDb stopBandDb p = setupN (Ch2, BSh) FO None (MkParams centerFrequency widthFrequency gainDb stopBandDb) p) /\
  (forall FO reqOrder centerFrequency widthFrequency gainDb stopBandDb p, c2_BandShelf_setupN_order (N := N) FO reqOrder centerFrequency widthFrequency gainDb stopBandDb p = setupN (Ch2, BSh) FO (Some reqOrder) (MkParams centerFrequency widthFrequency gainDb stopBandDb) p).
Proof.
  intros N. repeat apply conj; intros.
  - apply c2_LowPass_setup_eq.
  - apply c2_LowPass_setup_order_eq.
  - apply c2_LowPass_setupN_eq.
  - apply c2_LowPass_setupN_order_eq.
  - apply c2_HighPass_setup_eq.
  - apply c2_HighPass_setup_order_eq.
  - apply c2_HighPass_setupN_eq.
  - apply c2_HighPass_setupN_order_eq.
  - apply c2_BandPass_setup_eq.
  - apply c2_BandPass_setup_order_eq.
  - apply c2_BandPass_setupN_eq.
  - apply c2_BandPass_setupN_order_eq.
  - apply c2_BandStop_setup_eq.
  - apply c2_BandStop_setup_order_eq.
  - apply c2_BandStop_setupN_eq.
  - apply c2_BandStop_setupN_order_eq.
  - apply c2_LowShelf_setup_eq.
  - apply c2_LowShelf_setup_order_eq.
  - apply c2_LowShelf_setupN_eq.
  - apply c2_LowShelf_setupN_order_eq.
  - apply c2_HighShelf_setup_eq.
  - apply c2_HighShelf_setup_order_eq.
  - apply c2_HighShelf_setupN_eq.
  - apply c2_HighShelf_setupN_order_eq.
  - apply c2_BandShelf_setup_eq.
  - apply c2_BandShelf_setup_order_eq.
  - apply c2_BandShelf_setupN_eq.
  - apply c2_BandShelf_setupN_order_eq.
Qed.

Lemma rbj_setup_is_setupN : forall N : num,
  (forall sampleRate f g q b, rbj_LowPass_setup (N := N) sampleRate f q b = rbj_setupN R_LowPass (ndiv N f sampleRate) g q b) /\
  (forall sampleRate f g q b, rbj_HighPass_setup (N := N) sampleRate f q b = rbj_setupN R_HighPass (ndiv N f sampleRate) g q b) /\
  (forall sampleRate f g q b, rbj_BandPass1_setup (N := N) sampleRate f q b = rbj_setupN R_BandPass1 (ndiv N f sampleRate) g q b) /\
  (forall sampleRate f g q b, rbj_BandPass2_setup (N := N) sampleRate f q b = rbj_setupN R_BandPass2 (ndiv N f sampleRate) g q b) /\
  (forall sampleRate f g q b, rbj_BandStop_setup (N := N) sampleRate f q b = rbj_setupN R_BandStop (ndiv N f sampleRate) g q b) /\
  (forall sampleRate f g q b, rbj_IIRNotch_setup (N := N) sampleRate f q b = rbj_setupN R_IIRNotch (ndiv N f sampleRate) g q b) /\
  (forall sampleRate f g q b, rbj_LowShelf_setup (N := N) sampleRate f g q b = rbj_setupN R_LowShelf (ndiv N f sampleRate) g q b) /\
  (forall sampleRate f g q b, rbj_HighShelf_setup (N := N) sampleRate f g q b = rbj_setupN R_HighShelf (ndiv N f sampleRate) g q b) /\
  (forall sampleRate f g q b, rbj_BandShelf_setup (N := N) sampleRate f g q b = rbj_setupN R_BandShelf (ndiv N f sampleRate) g q b) /\
  (forall sampleRate f g q b, rbj_AllPass_setup (N := N) sampleRate f q b = rbj_setupN R_AllPass (ndiv N f sampleRate) g q b).
Proof. intros N. repeat split. Qed.
