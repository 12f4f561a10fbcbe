(** Proofs: Chebyshev shelves in binary64 whose gain is not the requested one. *)
From Coq Require Import ZArith List Bool.
From Verif Require Import Num Outcome Types Biquad State Cascade PoleFilter Float64 RefLibm.
Import ListNotations.

Definition sh_run (k : kind) (FO : Z) (gain db : Z) : res (filt D) unit :=
  filt_setupN (N := D) k FO None (MkParams (N := D) (flit 1 10) (flit 1 20) (flit gain 1) (flit db 1)) (filt_init DF2 k FO).
Lemma c47_double_gain : exists fl c, sh_run (Ch1, LSh) 1 6 6 = Ok fl tt /\ filt_response fl (flit 0 1) = Val c /\ nltb D (re c) (flit (-9) 1) = true.
Proof.
  assert (H : match sh_run (Ch1, LSh) 1 6 6 with
    Ok fl _ => match filt_response fl (flit 0 1) with Val c => nltb D (re c) (flit (-9) 1) | _ => false end | _ => false end = true) by (vm_compute; reflexivity).
  destruct (sh_run (Ch1, LSh) 1 6 6) as [fl []|e f|]; try discriminate H.
  exists fl. destruct (filt_response fl (flit 0 1)) as [c|e|]; try discriminate H. exists c. auto.
Qed.
Lemma c47_double_zero : forall k FO, In k [(Ch1, LSh); (Ch1, HSh); (Ch1, BSh); (Ch2, LSh); (Ch2, HSh); (Ch2, BSh)] -> In FO [1; 2; 3; 4]%Z ->
  exists fl, sh_run k FO 0 1 = Throw E_pole_nan fl.
Proof.
  assert (H : forallb (fun k => forallb (fun FO => match sh_run k FO 0 1 with Throw E_pole_nan _ => true | _ => false end) [1; 2; 3; 4]%Z)
    [(Ch1, LSh); (Ch1, HSh); (Ch1, BSh); (Ch2, LSh); (Ch2, HSh); (Ch2, BSh)] = true) by (vm_compute; reflexivity).
  intros k FO Hk HF. rewrite forallb_forall in H. specialize (H k Hk). rewrite forallb_forall in H. specialize (H FO HF).
  destruct (sh_run k FO 0 1) as [fl u|e fl|]; try discriminate H. exists fl. f_equal. destruct e; (discriminate H || reflexivity).
Qed.
