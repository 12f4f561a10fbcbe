(** Proofs: every class of Classes.v is an instance of the parametric [setup] / [setupN]. *)
From Coq Require Import ZArith List Bool.
From Verif Require Import Num Outcome Types Biquad State Cascade Transforms Butterworth Chebyshev
  PoleFilter Classes.
Import ListNotations.

Section ClassesProofs.
  Context {N : num}.
  Local Open Scope num_scope.

  Lemma bsh_eq (m : M (pf N) unit) (a : pf N -> M (layout N) unit) (b : M (layout N) unit)
    (k : M (pf N) unit) (p : pf N) :
    (m ;; do f <- get; on_dig (a f) ;; on_dig b ;; k) p =
    (m ;; do f <- get; on_dig (a f ;; b) ;; k) p.
  Proof.
    unfold on_dig, zoom, bind, get. simpl. destruct (m p) as [q u|e q|]; auto.
    destruct (a q (pf_dig q)); reflexivity.
  Qed.

  Lemma throw_cong (c : bool) (e : err) (m m' : M (pf N) unit) (p : pf N) :
    m p = m' p -> (throw_if c e ;; m) p = (throw_if c e ;; m') p.
  Proof. intros H. unfold bind, throw_if. destruct c; simpl; auto. Qed.

  Lemma bw_LowPass_setup_eq FO sampleRate cutoffFrequency fw g db (p : pf N) :
    bw_LowPass_setup FO sampleRate cutoffFrequency p = setup (Bw, LP) FO None sampleRate (MkParams cutoffFrequency fw g db) p.
  Proof. reflexivity. Qed.

  Lemma bw_LowPass_setup_order_eq FO reqOrder sampleRate cutoffFrequency fw g db (p : pf N) :
    bw_LowPass_setup_order FO reqOrder sampleRate cutoffFrequency p = setup (Bw, LP) FO (Some reqOrder) sampleRate (MkParams cutoffFrequency fw g db) p.
  Proof. reflexivity. Qed.

  Lemma bw_LowPass_setupN_eq FO cutoffFrequency fw g db (p : pf N) :
    bw_LowPass_setupN FO cutoffFrequency p = setupN (Bw, LP) FO None (MkParams cutoffFrequency fw g db) p.
  Proof. reflexivity. Qed.

  Lemma bw_LowPass_setupN_order_eq FO reqOrder cutoffFrequency fw g db (p : pf N) :
    bw_LowPass_setupN_order FO reqOrder cutoffFrequency p = setupN (Bw, LP) FO (Some reqOrder) (MkParams cutoffFrequency fw g db) p.
  Proof. reflexivity. Qed.

  Lemma bw_HighPass_setup_eq FO sampleRate cutoffFrequency fw g db (p : pf N) :
    bw_HighPass_setup FO sampleRate cutoffFrequency p = setup (Bw, HP) FO None sampleRate (MkParams cutoffFrequency fw g db) p.
  Proof. reflexivity. Qed.

  Lemma bw_HighPass_setup_order_eq FO reqOrder sampleRate cutoffFrequency fw g db (p : pf N) :
    bw_HighPass_setup_order FO reqOrder sampleRate cutoffFrequency p = setup (Bw, HP) FO (Some reqOrder) sampleRate (MkParams cutoffFrequency fw g db) p.
  Proof. reflexivity. Qed.

  Lemma bw_HighPass_setupN_eq FO cutoffFrequency fw g db (p : pf N) :
    bw_HighPass_setupN FO cutoffFrequency p = setupN (Bw, HP) FO None (MkParams cutoffFrequency fw g db) p.
  Proof. reflexivity. Qed.

  Lemma bw_HighPass_setupN_order_eq FO reqOrder cutoffFrequency fw g db (p : pf N) :
    bw_HighPass_setupN_order FO reqOrder cutoffFrequency p = setupN (Bw, HP) FO (Some reqOrder) (MkParams cutoffFrequency fw g db) p.
  Proof. reflexivity. Qed.

  Lemma bw_BandPass_setup_eq FO sampleRate centerFrequency widthFrequency g db (p : pf N) :
    bw_BandPass_setup FO sampleRate centerFrequency widthFrequency p = setup (Bw, BP) FO None sampleRate (MkParams centerFrequency widthFrequency g db) p.
  Proof. reflexivity. Qed.

  Lemma bw_BandPass_setup_order_eq FO reqOrder sampleRate centerFrequency widthFrequency g db (p : pf N) :
    bw_BandPass_setup_order FO reqOrder sampleRate centerFrequency widthFrequency p = setup (Bw, BP) FO (Some reqOrder) sampleRate (MkParams centerFrequency widthFrequency g db) p.
  Proof. reflexivity. Qed.

  Lemma bw_BandPass_setupN_eq FO centerFrequency widthFrequency g db (p : pf N) :
    bw_BandPass_setupN FO centerFrequency widthFrequency p = setupN (Bw, BP) FO None (MkParams centerFrequency widthFrequency g db) p.
  Proof. reflexivity. Qed.

  Lemma bw_BandPass_setupN_order_eq FO reqOrder centerFrequency widthFrequency g db (p : pf N) :
    bw_BandPass_setupN_order FO reqOrder centerFrequency widthFrequency p = setupN (Bw, BP) FO (Some reqOrder) (MkParams centerFrequency widthFrequency g db) p.
  Proof. reflexivity. Qed.

  Lemma bw_BandStop_setup_eq FO sampleRate centerFrequency widthFrequency g db (p : pf N) :
    bw_BandStop_setup FO sampleRate centerFrequency widthFrequency p = setup (Bw, BS) FO None sampleRate (MkParams centerFrequency widthFrequency g db) p.
  Proof. reflexivity. Qed.

  Lemma bw_BandStop_setup_order_eq FO reqOrder sampleRate centerFrequency widthFrequency g db (p : pf N) :
    bw_BandStop_setup_order FO reqOrder sampleRate centerFrequency widthFrequency p = setup (Bw, BS) FO (Some reqOrder) sampleRate (MkParams centerFrequency widthFrequency g db) p.
  Proof. reflexivity. Qed.

  Lemma bw_BandStop_setupN_eq FO centerFrequency widthFrequency g db (p : pf N) :
    bw_BandStop_setupN FO centerFrequency widthFrequency p = setupN (Bw, BS) FO None (MkParams centerFrequency widthFrequency g db) p.
  Proof. reflexivity. Qed.

  Lemma bw_BandStop_setupN_order_eq FO reqOrder centerFrequency widthFrequency g db (p : pf N) :
    bw_BandStop_setupN_order FO reqOrder centerFrequency widthFrequency p = setupN (Bw, BS) FO (Some reqOrder) (MkParams centerFrequency widthFrequency g db) p.
  Proof. reflexivity. Qed.

  Lemma bw_LowShelf_setup_eq FO sampleRate cutoffFrequency gainDb fw db (p : pf N) :
    bw_LowShelf_setup FO sampleRate cutoffFrequency gainDb p = setup (Bw, LSh) FO None sampleRate (MkParams cutoffFrequency fw gainDb db) p.
  Proof. reflexivity. Qed.

  Lemma bw_LowShelf_setup_order_eq FO reqOrder sampleRate cutoffFrequency gainDb fw db (p : pf N) :
    bw_LowShelf_setup_order FO reqOrder sampleRate cutoffFrequency gainDb p = setup (Bw, LSh) FO (Some reqOrder) sampleRate (MkParams cutoffFrequency fw gainDb db) p.
  Proof. reflexivity. Qed.

  Lemma bw_LowShelf_setupN_eq FO cutoffFrequency gainDb fw db (p : pf N) :
    bw_LowShelf_setupN FO cutoffFrequency gainDb p = setupN (Bw, LSh) FO None (MkParams cutoffFrequency fw gainDb db) p.
  Proof. reflexivity. Qed.

  Lemma bw_LowShelf_setupN_order_eq FO reqOrder cutoffFrequency gainDb fw db (p : pf N) :
    bw_LowShelf_setupN_order FO reqOrder cutoffFrequency gainDb p = setupN (Bw, LSh) FO (Some reqOrder) (MkParams cutoffFrequency fw gainDb db) p.
  Proof. reflexivity. Qed.

  Lemma bw_HighShelf_setup_eq FO sampleRate cutoffFrequency gainDb fw db (p : pf N) :
    bw_HighShelf_setup FO sampleRate cutoffFrequency gainDb p = setup (Bw, HSh) FO None sampleRate (MkParams cutoffFrequency fw gainDb db) p.
  Proof. reflexivity. Qed.

  Lemma bw_HighShelf_setup_order_eq FO reqOrder sampleRate cutoffFrequency gainDb fw db (p : pf N) :
    bw_HighShelf_setup_order FO reqOrder sampleRate cutoffFrequency gainDb p = setup (Bw, HSh) FO (Some reqOrder) sampleRate (MkParams cutoffFrequency fw gainDb db) p.
  Proof. reflexivity. Qed.

  Lemma bw_HighShelf_setupN_eq FO cutoffFrequency gainDb fw db (p : pf N) :
    bw_HighShelf_setupN FO cutoffFrequency gainDb p = setupN (Bw, HSh) FO None (MkParams cutoffFrequency fw gainDb db) p.
  Proof. reflexivity. Qed.

  Lemma bw_HighShelf_setupN_order_eq FO reqOrder cutoffFrequency gainDb fw db (p : pf N) :
    bw_HighShelf_setupN_order FO reqOrder cutoffFrequency gainDb p = setupN (Bw, HSh) FO (Some reqOrder) (MkParams cutoffFrequency fw gainDb db) p.
  Proof. reflexivity. Qed.

  Lemma bw_BandShelf_setup_eq FO sampleRate centerFrequency widthFrequency gainDb db (p : pf N) :
    bw_BandShelf_setup FO sampleRate centerFrequency widthFrequency gainDb p = setup (Bw, BSh) FO None sampleRate (MkParams centerFrequency widthFrequency gainDb db) p.
  Proof. unfold bw_BandShelf_setup. apply bsh_eq. Qed.

  Lemma bw_BandShelf_setup_order_eq FO reqOrder sampleRate centerFrequency widthFrequency gainDb db (p : pf N) :
    bw_BandShelf_setup_order FO reqOrder sampleRate centerFrequency widthFrequency gainDb p = setup (Bw, BSh) FO (Some reqOrder) sampleRate (MkParams centerFrequency widthFrequency gainDb db) p.
  Proof. unfold bw_BandShelf_setup_order. apply throw_cong. apply bsh_eq. Qed.

  Lemma bw_BandShelf_setupN_eq FO centerFrequency widthFrequency gainDb db (p : pf N) :
    bw_BandShelf_setupN FO centerFrequency widthFrequency gainDb p = setupN (Bw, BSh) FO None (MkParams centerFrequency widthFrequency gainDb db) p.
  Proof. unfold bw_BandShelf_setupN. apply bsh_eq. Qed.

  Lemma bw_BandShelf_setupN_order_eq FO reqOrder centerFrequency widthFrequency gainDb db (p : pf N) :
    bw_BandShelf_setupN_order FO reqOrder centerFrequency widthFrequency gainDb p = setupN (Bw, BSh) FO (Some reqOrder) (MkParams centerFrequency widthFrequency gainDb db) p.
  Proof. unfold bw_BandShelf_setupN_order. apply throw_cong. apply bsh_eq. Qed.

  Lemma c1_LowPass_setup_eq FO sampleRate cutoffFrequency rippleDb fw g (p : pf N) :
    c1_LowPass_setup FO sampleRate cutoffFrequency rippleDb p = setup (Ch1, LP) FO None sampleRate (MkParams cutoffFrequency fw g rippleDb) p.
  Proof. reflexivity. Qed.

  Lemma c1_LowPass_setup_order_eq FO reqOrder sampleRate cutoffFrequency rippleDb fw g (p : pf N) :
    c1_LowPass_setup_order FO reqOrder sampleRate cutoffFrequency rippleDb p = setup (Ch1, LP) FO (Some reqOrder) sampleRate (MkParams cutoffFrequency fw g rippleDb) p.
  Proof. reflexivity. Qed.

  Lemma c1_LowPass_setupN_eq FO cutoffFrequency rippleDb fw g (p : pf N) :
    c1_LowPass_setupN FO cutoffFrequency rippleDb p = setupN (Ch1, LP) FO None (MkParams cutoffFrequency fw g rippleDb) p.
  Proof. reflexivity. Qed.

  Lemma c1_LowPass_setupN_order_eq FO reqOrder cutoffFrequency rippleDb fw g (p : pf N) :
    c1_LowPass_setupN_order FO reqOrder cutoffFrequency rippleDb p = setupN (Ch1, LP) FO (Some reqOrder) (MkParams cutoffFrequency fw g rippleDb) p.
  Proof. reflexivity. Qed.

  Lemma c1_HighPass_setup_eq FO sampleRate cutoffFrequency rippleDb fw g (p : pf N) :
    c1_HighPass_setup FO sampleRate cutoffFrequency rippleDb p = setup (Ch1, HP) FO None sampleRate (MkParams cutoffFrequency fw g rippleDb) p.
  Proof. reflexivity. Qed.

  Lemma c1_HighPass_setup_order_eq FO reqOrder sampleRate cutoffFrequency rippleDb fw g (p : pf N) :
    c1_HighPass_setup_order FO reqOrder sampleRate cutoffFrequency rippleDb p = setup (Ch1, HP) FO (Some reqOrder) sampleRate (MkParams cutoffFrequency fw g rippleDb) p.
  Proof. reflexivity. Qed.

  Lemma c1_HighPass_setupN_eq FO cutoffFrequency rippleDb fw g (p : pf N) :
    c1_HighPass_setupN FO cutoffFrequency rippleDb p = setupN (Ch1, HP) FO None (MkParams cutoffFrequency fw g rippleDb) p.
  Proof. reflexivity. Qed.

  Lemma c1_HighPass_setupN_order_eq FO reqOrder cutoffFrequency rippleDb fw g (p : pf N) :
    c1_HighPass_setupN_order FO reqOrder cutoffFrequency rippleDb p = setupN (Ch1, HP) FO (Some reqOrder) (MkParams cutoffFrequency fw g rippleDb) p.
  Proof. reflexivity. Qed.

  Lemma c1_BandPass_setup_eq FO sampleRate centerFrequency widthFrequency rippleDb g (p : pf N) :
    c1_BandPass_setup FO sampleRate centerFrequency widthFrequency rippleDb p = setup (Ch1, BP) FO None sampleRate (MkParams centerFrequency widthFrequency g rippleDb) p.
  Proof. reflexivity. Qed.

  Lemma c1_BandPass_setup_order_eq FO reqOrder sampleRate centerFrequency widthFrequency rippleDb g (p : pf N) :
    c1_BandPass_setup_order FO reqOrder sampleRate centerFrequency widthFrequency rippleDb p = setup (Ch1, BP) FO (Some reqOrder) sampleRate (MkParams centerFrequency widthFrequency g rippleDb) p.
  Proof. reflexivity. Qed.

  Lemma c1_BandPass_setupN_eq FO centerFrequency widthFrequency rippleDb g (p : pf N) :
    c1_BandPass_setupN FO centerFrequency widthFrequency rippleDb p = setupN (Ch1, BP) FO None (MkParams centerFrequency widthFrequency g rippleDb) p.
  Proof. reflexivity. Qed.

  Lemma c1_BandPass_setupN_order_eq FO reqOrder centerFrequency widthFrequency rippleDb g (p : pf N) :
    c1_BandPass_setupN_order FO reqOrder centerFrequency widthFrequency rippleDb p = setupN (Ch1, BP) FO (Some reqOrder) (MkParams centerFrequency widthFrequency g rippleDb) p.
  Proof. reflexivity. Qed.

  Lemma c1_BandStop_setup_eq FO sampleRate centerFrequency widthFrequency rippleDb g (p : pf N) :
    c1_BandStop_setup FO sampleRate centerFrequency widthFrequency rippleDb p = setup (Ch1, BS) FO None sampleRate (MkParams centerFrequency widthFrequency g rippleDb) p.
  Proof. reflexivity. Qed.

  Lemma c1_BandStop_setup_order_eq FO reqOrder sampleRate centerFrequency widthFrequency rippleDb g (p : pf N) :
    c1_BandStop_setup_order FO reqOrder sampleRate centerFrequency widthFrequency rippleDb p = setup (Ch1, BS) FO (Some reqOrder) sampleRate (MkParams centerFrequency widthFrequency g rippleDb) p.
  Proof. reflexivity. Qed.

  Lemma c1_BandStop_setupN_eq FO centerFrequency widthFrequency rippleDb g (p : pf N) :
    c1_BandStop_setupN FO centerFrequency widthFrequency rippleDb p = setupN (Ch1, BS) FO None (MkParams centerFrequency widthFrequency g rippleDb) p.
  Proof. reflexivity. Qed.

  Lemma c1_BandStop_setupN_order_eq FO reqOrder centerFrequency widthFrequency rippleDb g (p : pf N) :
    c1_BandStop_setupN_order FO reqOrder centerFrequency widthFrequency rippleDb p = setupN (Ch1, BS) FO (Some reqOrder) (MkParams centerFrequency widthFrequency g rippleDb) p.
  Proof. reflexivity. Qed.

  Lemma c1_LowShelf_setup_eq FO sampleRate cutoffFrequency gainDb rippleDb fw (p : pf N) :
    c1_LowShelf_setup FO sampleRate cutoffFrequency gainDb rippleDb p = setup (Ch1, LSh) FO None sampleRate (MkParams cutoffFrequency fw gainDb rippleDb) p.
  Proof. reflexivity. Qed.

  Lemma c1_LowShelf_setup_order_eq FO reqOrder sampleRate cutoffFrequency gainDb rippleDb fw (p : pf N) :
    c1_LowShelf_setup_order FO reqOrder sampleRate cutoffFrequency gainDb rippleDb p = setup (Ch1, LSh) FO (Some reqOrder) sampleRate (MkParams cutoffFrequency fw gainDb rippleDb) p.
  Proof. reflexivity. Qed.

  Lemma c1_LowShelf_setupN_eq FO cutoffFrequency gainDb rippleDb fw (p : pf N) :
    c1_LowShelf_setupN FO cutoffFrequency gainDb rippleDb p = setupN (Ch1, LSh) FO None (MkParams cutoffFrequency fw gainDb rippleDb) p.
  Proof. reflexivity. Qed.

  Lemma c1_LowShelf_setupN_order_eq FO reqOrder cutoffFrequency gainDb rippleDb fw (p : pf N) :
    c1_LowShelf_setupN_order FO reqOrder cutoffFrequency gainDb rippleDb p = setupN (Ch1, LSh) FO (Some reqOrder) (MkParams cutoffFrequency fw gainDb rippleDb) p.
  Proof. reflexivity. Qed.

  Lemma c1_HighShelf_setup_eq FO sampleRate cutoffFrequency gainDb rippleDb fw (p : pf N) :
    c1_HighShelf_setup FO sampleRate cutoffFrequency gainDb rippleDb p = setup (Ch1, HSh) FO None sampleRate (MkParams cutoffFrequency fw gainDb rippleDb) p.
  Proof. reflexivity. Qed.

  Lemma c1_HighShelf_setup_order_eq FO reqOrder sampleRate cutoffFrequency gainDb rippleDb fw (p : pf N) :
    c1_HighShelf_setup_order FO reqOrder sampleRate cutoffFrequency gainDb rippleDb p = setup (Ch1, HSh) FO (Some reqOrder) sampleRate (MkParams cutoffFrequency fw gainDb rippleDb) p.
  Proof. reflexivity. Qed.

  Lemma c1_HighShelf_setupN_eq FO cutoffFrequency gainDb rippleDb fw (p : pf N) :
    c1_HighShelf_setupN FO cutoffFrequency gainDb rippleDb p = setupN (Ch1, HSh) FO None (MkParams cutoffFrequency fw gainDb rippleDb) p.
  Proof. reflexivity. Qed.

  Lemma c1_HighShelf_setupN_order_eq FO reqOrder cutoffFrequency gainDb rippleDb fw (p : pf N) :
    c1_HighShelf_setupN_order FO reqOrder cutoffFrequency gainDb rippleDb p = setupN (Ch1, HSh) FO (Some reqOrder) (MkParams cutoffFrequency fw gainDb rippleDb) p.
  Proof. reflexivity. Qed.

  Lemma c1_BandShelf_setup_eq FO sampleRate centerFrequency widthFrequency gainDb rippleDb  (p : pf N) :
    c1_BandShelf_setup FO sampleRate centerFrequency widthFrequency gainDb rippleDb p = setup (Ch1, BSh) FO None sampleRate (MkParams centerFrequency widthFrequency gainDb rippleDb) p.
  Proof. unfold c1_BandShelf_setup. apply bsh_eq. Qed.

  Lemma c1_BandShelf_setup_order_eq FO reqOrder sampleRate centerFrequency widthFrequency gainDb rippleDb  (p : pf N) :
    c1_BandShelf_setup_order FO reqOrder sampleRate centerFrequency widthFrequency gainDb rippleDb p = setup (Ch1, BSh) FO (Some reqOrder) sampleRate (MkParams centerFrequency widthFrequency gainDb rippleDb) p.
  Proof. unfold c1_BandShelf_setup_order. apply throw_cong. apply bsh_eq. Qed.

  Lemma c1_BandShelf_setupN_eq FO centerFrequency widthFrequency gainDb rippleDb  (p : pf N) :
    c1_BandShelf_setupN FO centerFrequency widthFrequency gainDb rippleDb p = setupN (Ch1, BSh) FO None (MkParams centerFrequency widthFrequency gainDb rippleDb) p.
  Proof. unfold c1_BandShelf_setupN. apply bsh_eq. Qed.

  Lemma c1_BandShelf_setupN_order_eq FO reqOrder centerFrequency widthFrequency gainDb rippleDb  (p : pf N) :
    c1_BandShelf_setupN_order FO reqOrder centerFrequency widthFrequency gainDb rippleDb p = setupN (Ch1, BSh) FO (Some reqOrder) (MkParams centerFrequency widthFrequency gainDb rippleDb) p.
  Proof. unfold c1_BandShelf_setupN_order. apply throw_cong. apply bsh_eq. Qed.

  Lemma c2_LowPass_setup_eq FO sampleRate cutoffFrequency stopBandDb fw g (p : pf N) :
    c2_LowPass_setup FO sampleRate cutoffFrequency stopBandDb p = setup (Ch2, LP) FO None sampleRate (MkParams cutoffFrequency fw g stopBandDb) p.
  Proof. reflexivity. Qed.

  Lemma c2_LowPass_setup_order_eq FO reqOrder sampleRate cutoffFrequency stopBandDb fw g (p : pf N) :
    c2_LowPass_setup_order FO reqOrder sampleRate cutoffFrequency stopBandDb p = setup (Ch2, LP) FO (Some reqOrder) sampleRate (MkParams cutoffFrequency fw g stopBandDb) p.
  Proof. reflexivity. Qed.

  Lemma c2_LowPass_setupN_eq FO cutoffFrequency stopBandDb fw g (p : pf N) :
    c2_LowPass_setupN FO cutoffFrequency stopBandDb p = setupN (Ch2, LP) FO None (MkParams cutoffFrequency fw g stopBandDb) p.
  Proof. reflexivity. Qed.

  Lemma c2_LowPass_setupN_order_eq FO reqOrder cutoffFrequency stopBandDb fw g (p : pf N) :
    c2_LowPass_setupN_order FO reqOrder cutoffFrequency stopBandDb p = setupN (Ch2, LP) FO (Some reqOrder) (MkParams cutoffFrequency fw g stopBandDb) p.
  Proof. reflexivity. Qed.

  Lemma c2_HighPass_setup_eq FO sampleRate cutoffFrequency stopBandDb fw g (p : pf N) :
    c2_HighPass_setup FO sampleRate cutoffFrequency stopBandDb p = setup (Ch2, HP) FO None sampleRate (MkParams cutoffFrequency fw g stopBandDb) p.
  Proof. reflexivity. Qed.

  Lemma c2_HighPass_setup_order_eq FO reqOrder sampleRate cutoffFrequency stopBandDb fw g (p : pf N) :
    c2_HighPass_setup_order FO reqOrder sampleRate cutoffFrequency stopBandDb p = setup (Ch2, HP) FO (Some reqOrder) sampleRate (MkParams cutoffFrequency fw g stopBandDb) p.
  Proof. reflexivity. Qed.

  Lemma c2_HighPass_setupN_eq FO cutoffFrequency stopBandDb fw g (p : pf N) :
    c2_HighPass_setupN FO cutoffFrequency stopBandDb p = setupN (Ch2, HP) FO None (MkParams cutoffFrequency fw g stopBandDb) p.
  Proof. reflexivity. Qed.

  Lemma c2_HighPass_setupN_order_eq FO reqOrder cutoffFrequency stopBandDb fw g (p : pf N) :
    c2_HighPass_setupN_order FO reqOrder cutoffFrequency stopBandDb p = setupN (Ch2, HP) FO (Some reqOrder) (MkParams cutoffFrequency fw g stopBandDb) p.
  Proof. reflexivity. Qed.

  Lemma c2_BandPass_setup_eq FO sampleRate centerFrequency widthFrequency stopBandDb g (p : pf N) :
    c2_BandPass_setup FO sampleRate centerFrequency widthFrequency stopBandDb p = setup (Ch2, BP) FO None sampleRate (MkParams centerFrequency widthFrequency g stopBandDb) p.
  Proof. reflexivity. Qed.

  Lemma c2_BandPass_setup_order_eq FO reqOrder sampleRate centerFrequency widthFrequency stopBandDb g (p : pf N) :
    c2_BandPass_setup_order FO reqOrder sampleRate centerFrequency widthFrequency stopBandDb p = setup (Ch2, BP) FO (Some reqOrder) sampleRate (MkParams centerFrequency widthFrequency g stopBandDb) p.
  Proof. reflexivity. Qed.

  Lemma c2_BandPass_setupN_eq FO centerFrequency widthFrequency stopBandDb g (p : pf N) :
    c2_BandPass_setupN FO centerFrequency widthFrequency stopBandDb p = setupN (Ch2, BP) FO None (MkParams centerFrequency widthFrequency g stopBandDb) p.
  Proof. reflexivity. Qed.

  Lemma c2_BandPass_setupN_order_eq FO reqOrder centerFrequency widthFrequency stopBandDb g (p : pf N) :
    c2_BandPass_setupN_order FO reqOrder centerFrequency widthFrequency stopBandDb p = setupN (Ch2, BP) FO (Some reqOrder) (MkParams centerFrequency widthFrequency g stopBandDb) p.
  Proof. reflexivity. Qed.

  Lemma c2_BandStop_setup_eq FO sampleRate centerFrequency widthFrequency stopBandDb g (p : pf N) :
    c2_BandStop_setup FO sampleRate centerFrequency widthFrequency stopBandDb p = setup (Ch2, BS) FO None sampleRate (MkParams centerFrequency widthFrequency g stopBandDb) p.
  Proof. reflexivity. Qed.

  Lemma c2_BandStop_setup_order_eq FO reqOrder sampleRate centerFrequency widthFrequency stopBandDb g (p : pf N) :
    c2_BandStop_setup_order FO reqOrder sampleRate centerFrequency widthFrequency stopBandDb p = setup (Ch2, BS) FO (Some reqOrder) sampleRate (MkParams centerFrequency widthFrequency g stopBandDb) p.
  Proof. reflexivity. Qed.

  Lemma c2_BandStop_setupN_eq FO centerFrequency widthFrequency stopBandDb g (p : pf N) :
    c2_BandStop_setupN FO centerFrequency widthFrequency stopBandDb p = setupN (Ch2, BS) FO None (MkParams centerFrequency widthFrequency g stopBandDb) p.
  Proof. reflexivity. Qed.

  Lemma c2_BandStop_setupN_order_eq FO reqOrder centerFrequency widthFrequency stopBandDb g (p : pf N) :
    c2_BandStop_setupN_order FO reqOrder centerFrequency widthFrequency stopBandDb p = setupN (Ch2, BS) FO (Some reqOrder) (MkParams centerFrequency widthFrequency g stopBandDb) p.
  Proof. reflexivity. Qed.

  Lemma c2_LowShelf_setup_eq FO sampleRate cutoffFrequency gainDb stopBandDb fw (p : pf N) :
    c2_LowShelf_setup FO sampleRate cutoffFrequency gainDb stopBandDb p = setup (Ch2, LSh) FO None sampleRate (MkParams cutoffFrequency fw gainDb stopBandDb) p.
  Proof. reflexivity. Qed.

  Lemma c2_LowShelf_setup_order_eq FO reqOrder sampleRate cutoffFrequency gainDb stopBandDb fw (p : pf N) :
    c2_LowShelf_setup_order FO reqOrder sampleRate cutoffFrequency gainDb stopBandDb p = setup (Ch2, LSh) FO (Some reqOrder) sampleRate (MkParams cutoffFrequency fw gainDb stopBandDb) p.
  Proof. reflexivity. Qed.

  Lemma c2_LowShelf_setupN_eq FO cutoffFrequency gainDb stopBandDb fw (p : pf N) :
    c2_LowShelf_setupN FO cutoffFrequency gainDb stopBandDb p = setupN (Ch2, LSh) FO None (MkParams cutoffFrequency fw gainDb stopBandDb) p.
  Proof. reflexivity. Qed.

  Lemma c2_LowShelf_setupN_order_eq FO reqOrder cutoffFrequency gainDb stopBandDb fw (p : pf N) :
    c2_LowShelf_setupN_order FO reqOrder cutoffFrequency gainDb stopBandDb p = setupN (Ch2, LSh) FO (Some reqOrder) (MkParams cutoffFrequency fw gainDb stopBandDb) p.
  Proof. reflexivity. Qed.

  Lemma c2_HighShelf_setup_eq FO sampleRate cutoffFrequency gainDb stopBandDb fw (p : pf N) :
    c2_HighShelf_setup FO sampleRate cutoffFrequency gainDb stopBandDb p = setup (Ch2, HSh) FO None sampleRate (MkParams cutoffFrequency fw gainDb stopBandDb) p.
  Proof. reflexivity. Qed.

  Lemma c2_HighShelf_setup_order_eq FO reqOrder sampleRate cutoffFrequency gainDb stopBandDb fw (p : pf N) :
    c2_HighShelf_setup_order FO reqOrder sampleRate cutoffFrequency gainDb stopBandDb p = setup (Ch2, HSh) FO (Some reqOrder) sampleRate (MkParams cutoffFrequency fw gainDb stopBandDb) p.
  Proof. reflexivity. Qed.

  Lemma c2_HighShelf_setupN_eq FO cutoffFrequency gainDb stopBandDb fw (p : pf N) :
    c2_HighShelf_setupN FO cutoffFrequency gainDb stopBandDb p = setupN (Ch2, HSh) FO None (MkParams cutoffFrequency fw gainDb stopBandDb) p.
  Proof. reflexivity. Qed.

  Lemma c2_HighShelf_setupN_order_eq FO reqOrder cutoffFrequency gainDb stopBandDb fw (p : pf N) :
    c2_HighShelf_setupN_order FO reqOrder cutoffFrequency gainDb stopBandDb p = setupN (Ch2, HSh) FO (Some reqOrder) (MkParams cutoffFrequency fw gainDb stopBandDb) p.
  Proof. reflexivity. Qed.

  Lemma c2_BandShelf_setup_eq FO sampleRate centerFrequency widthFrequency gainDb stopBandDb  (p : pf N) :
    c2_BandShelf_setup FO sampleRate centerFrequency widthFrequency gainDb stopBandDb p = setup (Ch2, BSh) FO None sampleRate (MkParams centerFrequency widthFrequency gainDb stopBandDb) p.
  Proof. unfold c2_BandShelf_setup. apply bsh_eq. Qed.

  Lemma c2_BandShelf_setup_order_eq FO reqOrder sampleRate centerFrequency widthFrequency gainDb stopBandDb  (p : pf N) :
    c2_BandShelf_setup_order FO reqOrder sampleRate centerFrequency widthFrequency gainDb stopBandDb p = setup (Ch2, BSh) FO (Some reqOrder) sampleRate (MkParams centerFrequency widthFrequency gainDb stopBandDb) p.
  Proof. unfold c2_BandShelf_setup_order. apply throw_cong. apply bsh_eq. Qed.

  Lemma c2_BandShelf_setupN_eq FO centerFrequency widthFrequency gainDb stopBandDb  (p : pf N) :
    c2_BandShelf_setupN FO centerFrequency widthFrequency gainDb stopBandDb p = setupN (Ch2, BSh) FO None (MkParams centerFrequency widthFrequency gainDb stopBandDb) p.
  Proof. unfold c2_BandShelf_setupN. apply bsh_eq. Qed.

  Lemma c2_BandShelf_setupN_order_eq FO reqOrder centerFrequency widthFrequency gainDb stopBandDb  (p : pf N) :
    c2_BandShelf_setupN_order FO reqOrder centerFrequency widthFrequency gainDb stopBandDb p = setupN (Ch2, BSh) FO (Some reqOrder) (MkParams centerFrequency widthFrequency gainDb stopBandDb) p.
  Proof. unfold c2_BandShelf_setupN_order. apply throw_cong. apply bsh_eq. Qed.

End ClassesProofs.
