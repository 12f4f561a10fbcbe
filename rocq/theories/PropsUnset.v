(** Property theorems about filters that have not been set up (C74). *)
From Coq Require Import ZArith List Bool.
From Verif Require Import Num Outcome Types Biquad State Cascade Transforms Custom PoleFilter RBJ History Float64 FloatSpec RefLibm UnsetSpec UnsetLemmas.
Import ListNotations.

(** C74: a Butterworth or Chebyshev filter that was only run, reset or assigned to reports no section, no poles and
    the response 1/1 at every frequency it accepts, and indexing it throws *)
Theorem C74_before_setup : forall (N : num) t k FO (os : list (op N)) (f : filt N), Forall no_setup os -> steps k FO os (filt_init t k FO) = Some f ->
  filt_numStages f = 0%Z /\ (forall i, filt_index f i = Exc E_index) /\ filt_getPoleZeros f = Val [] /\
  (forall x, (forall r th, npolar N r th <> None) -> nltb N (nlit N 1 2) x = false -> nltb N x (nofZ N 0) = false ->
     filt_response f x = Val (ncdiv N (c_of (nofZ N 1)) (c_of (nofZ N 1)))).
Proof. exact @c74. Qed.
Print Assumptions C74_before_setup.
(** it returns every finite double sample unchanged (compared with ==) *)
Theorem C74_pass_through : forall m t k FO (xs : list f64), Forall is_fin xs -> Forall2 f_same (snd (filt_run (N := F64 m) (filt_init t k FO) xs)) xs.
Proof. exact c74_pass. Qed.
Print Assumptions C74_pass_through.
(** and so do RBJ filters and SOSCascade *)
Theorem C74_pass_through_rbj : forall m (xs : list f64), Forall is_fin xs -> Forall2 f_same (snd (rbj_run (N := F64 m) rbj_init xs)) xs.
Proof. exact c74_rbj. Qed.
Print Assumptions C74_pass_through_rbj.
Theorem C74_pass_through_sos : forall m t n (xs : list f64), Forall is_fin xs -> Forall2 f_same (snd (cs_run (N := F64 m) (sos_init t n) xs)) xs.
Proof. exact c74_sos. Qed.
Print Assumptions C74_pass_through_sos.
(** two samples and a reset *)
Example C74_example : exists f : filt D, Forall no_setup [OpFilter (fofZ 3 : T D); OpFilter (fofZ 5 : T D); OpReset] /\
  steps (Bw, BP) 4 [OpFilter (fofZ 3 : T D); OpFilter (fofZ 5 : T D); OpReset] (filt_init DF2 (Bw, BP) 4) = Some f /\ length (fl_stages f) = 4%nat /\
  nltb D (nlit D 1 2) (fnorm 1 (-2)) = false /\ nltb D (fnorm 1 (-2)) (nofZ D 0) = false /\ Forall is_fin [fofZ 3; fofZ 5].
Proof. exact ex_c74. Qed.
