(** Proof: a band pass setup that throws in binary64. *)
From Coq Require Import ZArith List Bool.
From Verif Require Import Num Outcome Types Biquad State Cascade PoleFilter Float64 RefLibm.

Lemma c44_double :
  exists fl, filt_setupN (N := D) (Bw, BP) 3 None (MkParams (N := D) (flit 1 4) (flit 1 4) (flit 0 1) (flit 0 1)) (filt_init DF2 (Bw, BP) 3) = Throw E_lay_poles_conj fl.
Proof.
  destruct (filt_setupN (N := D) (Bw, BP) 3 None (MkParams (N := D) (flit 1 4) (flit 1 4) (flit 0 1) (flit 0 1)) (filt_init DF2 (Bw, BP) 3)) as [f u|e f|] eqn:E.
  3: exfalso.
  1: exfalso.
  2: exists f; f_equal.
  all: assert (H : match filt_setupN (N := D) (Bw, BP) 3 None (MkParams (N := D) (flit 1 4) (flit 1 4) (flit 0 1) (flit 0 1)) (filt_init DF2 (Bw, BP) 3) with
    Throw E_lay_poles_conj _ => true | _ => false end = true) by (vm_compute; reflexivity); rewrite E in H; try discriminate H.
  destruct e; (discriminate H || reflexivity).
Qed.
