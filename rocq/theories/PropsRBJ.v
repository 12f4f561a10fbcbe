(** Property theorems about the RBJ filters, exact arithmetic. *)
From Coq Require Import ZArith List Bool Reals Lra.
From Coquelicot Require Import Coquelicot.
From Verif Require Import Num Outcome Types Biquad State RBJ Exact RealNum SigSpec RBJSpec RBJProofs.
Import ListNotations.
Local Open Scope R_scope.

(** C29 *)
Theorem C29_rbj_stable : forall strict k f g q (old : biquad (X strict)), rbj_range k f g q ->
  exists b, rbj_setupN (N := X strict) k (XR f) (XR g) (XR q) old = Ok b tt /\ fin_bq b /\ stable_bq b.
Proof. exact @c29. Qed.
Print Assumptions C29_rbj_stable.
(** the range is inhabited for each of the ten classes *)
Example C29_example : forall k, rbj_range k (1 / 10) (-6) 1.
Proof.
  intros k. split; [lra|]. split; [lra|]. destruct k; try exact I; unfold shelf_E;
    rewrite Rinv_1; replace (1 - 1) with 0 by ring; rewrite Rmult_0_r; lra.
Qed.

(** C30.  Lists of (frequency, complex gain); (0, q) is i q.  The ranges are those of [C29_example]. *)
Theorem C30_lowpass : forall strict f g q (old : biquad (X strict)), 0 < f < 1 / 2 -> 0 < q ->
  exists b, rbj_setupN (N := X strict) R_LowPass (XR f) (XR g) (XR q) old = Ok b tt /\
    List.Forall (fun fh : R * C => responds b (fst fh) (snd fh))
      ([(0, RtoC 1); (1 / 2, RtoC 0); (f, (0, - q))]).
Proof. exact @c30_lowpass. Qed.
Print Assumptions C30_lowpass.
Theorem C30_highpass : forall strict f g q (old : biquad (X strict)), 0 < f < 1 / 2 -> 0 < q ->
  exists b, rbj_setupN (N := X strict) R_HighPass (XR f) (XR g) (XR q) old = Ok b tt /\
    List.Forall (fun fh : R * C => responds b (fst fh) (snd fh))
      ([(0, RtoC 0); (1 / 2, RtoC 1); (f, (0, q))]).
Proof. exact @c30_highpass. Qed.
Print Assumptions C30_highpass.
Theorem C30_bandpass1 : forall strict f g q (old : biquad (X strict)), 0 < f < 1 / 2 -> 0 < q ->
  exists b, rbj_setupN (N := X strict) R_BandPass1 (XR f) (XR g) (XR q) old = Ok b tt /\
    List.Forall (fun fh : R * C => responds b (fst fh) (snd fh))
      ([(0, RtoC 0); (1 / 2, RtoC 0); (f, RtoC q)]).
Proof. exact @c30_bandpass1. Qed.
Print Assumptions C30_bandpass1.
Theorem C30_bandpass2 : forall strict f g q (old : biquad (X strict)), 0 < f < 1 / 2 -> 0 < q ->
  exists b, rbj_setupN (N := X strict) R_BandPass2 (XR f) (XR g) (XR q) old = Ok b tt /\
    List.Forall (fun fh : R * C => responds b (fst fh) (snd fh))
      ([(0, RtoC 0); (1 / 2, RtoC 0); (f, RtoC 1)]).
Proof. exact @c30_bandpass2. Qed.
Print Assumptions C30_bandpass2.
Theorem C30_bandstop : forall strict f g q (old : biquad (X strict)), 0 < f < 1 / 2 -> 0 < q ->
  exists b, rbj_setupN (N := X strict) R_BandStop (XR f) (XR g) (XR q) old = Ok b tt /\
    List.Forall (fun fh : R * C => responds b (fst fh) (snd fh))
      ([(0, RtoC 1); (1 / 2, RtoC 1); (f, RtoC 0)]).
Proof. exact @c30_bandstop. Qed.
Print Assumptions C30_bandstop.
Theorem C30_iirnotch : forall strict f g q (old : biquad (X strict)), 0 < f < 1 / 2 -> 0 < q ->
  exists b, rbj_setupN (N := X strict) R_IIRNotch (XR f) (XR g) (XR q) old = Ok b tt /\
    List.Forall (fun fh : R * C => responds b (fst fh) (snd fh))
      ((f, RtoC 0) :: nil).
Proof. exact @c30_notch. Qed.
Print Assumptions C30_iirnotch.
Theorem C30_lowshelf : forall strict f g q (old : biquad (X strict)), 0 < f < 1 / 2 -> 0 < q -> 0 < shelf_E g q ->
  exists b, rbj_setupN (N := X strict) R_LowShelf (XR f) (XR g) (XR q) old = Ok b tt /\
    List.Forall (fun fh : R * C => responds b (fst fh) (snd fh))
      ([(0, RtoC (Rpower 10 (g / 20))); (1 / 2, RtoC 1)]).
Proof. exact @c30_lowshelf. Qed.
Print Assumptions C30_lowshelf.
Theorem C30_highshelf : forall strict f g q (old : biquad (X strict)), 0 < f < 1 / 2 -> 0 < q -> 0 < shelf_E g q ->
  exists b, rbj_setupN (N := X strict) R_HighShelf (XR f) (XR g) (XR q) old = Ok b tt /\
    List.Forall (fun fh : R * C => responds b (fst fh) (snd fh))
      ([(0, RtoC 1); (1 / 2, RtoC (Rpower 10 (g / 20)))]).
Proof. exact @c30_highshelf. Qed.
Print Assumptions C30_highshelf.
Theorem C30_bandshelf : forall strict f g q (old : biquad (X strict)), 0 < f < 1 / 2 -> 0 < q ->
  exists b, rbj_setupN (N := X strict) R_BandShelf (XR f) (XR g) (XR q) old = Ok b tt /\
    List.Forall (fun fh : R * C => responds b (fst fh) (snd fh))
      ([(0, RtoC 1); (1 / 2, RtoC 1); (f, RtoC (Rpower 10 (g / 20)))]).
Proof. exact @c30_bandshelf. Qed.
Print Assumptions C30_bandshelf.
Theorem C30_allpass : forall strict f g q (old : biquad (X strict)), 0 < f < 1 / 2 -> 0 < q ->
  exists b, rbj_setupN (N := X strict) R_AllPass (XR f) (XR g) (XR q) old = Ok b tt /\
    forall f', exists h, responds b f' h /\ Cmod h = 1.
Proof. exact @c30_allpass. Qed.
Print Assumptions C30_allpass.
Example C30_example : 0 < 1 / 10 < 1 / 2 /\ 0 < 7 / 10 /\ 0 < shelf_E 12 1.
Proof. unfold shelf_E. rewrite Rinv_1. replace (1 - 1) with 0 by ring. rewrite Rmult_0_r. lra. Qed.
