(** Property theorems: query calls on one object among many, frame of the public base-class calls, samples of type double. *)
From Coq Require Import ZArith List Bool.
From Flocq Require Import IEEE754.BinarySingleNaN.
From Verif Require Import Num Outcome Types Biquad State Cascade PoleFilter RBJ History Public World WorldHistory Float64 Samples RefLibm Spec Examples QueryProofs.
Import ListNotations.

(** C43: response(), operator[] and getPoleZeros() of a live object depend on its own state only *)
Theorem C43_queries : forall (N : num) (h : list (wop N)) w i o,
  forallb no_copy h = true -> wsteps h [] = Some w -> live w i = Some o ->
  (forall x, w_response i x w = filt_response (filt_of o) x) /\
  (forall j, w_index i j w = filt_index (filt_of o) j) /\
  w_getPoleZeros i w = filt_getPoleZeros (filt_of o).
Proof. exact @queries. Qed.
Print Assumptions C43_queries.
Example C43_queries_example : forallb no_copy ex_hist = true /\ wsteps ex_hist [] = Some ex_hist_w /\ live ex_hist_w 1 <> None.
Proof. exact (conj eq_refl (conj (proj1 ex_hist_runs) (proj1 (proj2 (proj2 ex_hist_runs))))). Qed.

(** C45: with double samples the template member filter is the chain of double filters, and never undefined *)
Theorem C45_double : forall m xs (c : cstages (F64 m)),
  run_as (cs_filter_as (smp_double m)) xs c = Ok (fst (cs_run c xs)) (snd (cs_run c xs)).
Proof. exact double_run. Qed.
Print Assumptions C45_double.
Theorem C45_double_rbj : forall m xs (r : rbj (F64 m)),
  run_as (rbj_filter_as (smp_double m)) xs r = Ok (fst (rbj_run r xs)) (snd (rbj_run r xs)).
Proof. exact double_run_rbj. Qed.
Print Assumptions C45_double_rbj.

(** C52: the base-class calls leave the delay lines and the reported poles and zeros alone; only setLayout and
    setCascadeStorage change the number of active sections *)
Theorem C52_frame : forall (N : num) k FO (o : pop N) (f f' : filt N),
  match o with PCall _ => False | _ => True end -> pstep k FO o f = Some f' ->
  fl_states f' = fl_states f /\ filt_getPoleZeros f' = filt_getPoleZeros f /\
  match o with
  | PScale _ | PSos _ => filt_numStages f' = filt_numStages f
  | PStorage => filt_numStages f' = 0%Z /\ fl_stages f' = fl_stages f
  | _ => True
  end.
Proof. exact @frame. Qed.
Print Assumptions C52_frame.
Example C52_frame_example :
  (match pstep (Bw, LP) 4 (PScale (nofZ D 2)) ex_filt with Some f' => filt_numStages f' | None => 0%Z end) = 2%Z /\
  (match pstep (Bw, LP) 4 PStorage ex_filt with Some f' => filt_numStages f' | None => 1%Z end) = 0%Z.
Proof. vm_compute. split; reflexivity. Qed.

(** C52: what applyScale and CascadeStages::setup do to a filter's sections *)
Theorem C52_scale : forall (N : num) k FO s (f f' : filt N), pstep k FO (PScale s) f = Some f' ->
  ((filt_numStages f < 1)%Z -> fl_stages f' = fl_stages f) /\
  (forall b bs, (1 <= filt_numStages f)%Z -> fl_stages f = b :: bs ->
     fl_stages f' = MkBiquad (m_a0 b) (m_a1 b) (m_a2 b) (nmul N (m_b0 b) s) (nmul N (m_b1 b) s) (nmul N (m_b2 b) s) :: bs).
Proof. exact @scale_effect. Qed.
Print Assumptions C52_scale.
Theorem C52_sos : forall (N : num) k FO rows (f f' : filt N), length rows = length (fl_stages f) ->
  Forall (fun r => row_nan r = false) rows -> pstep k FO (PSos rows) f = Some f' -> fl_stages f' = map row_bq rows.
Proof. exact @sos_effect. Qed.
Print Assumptions C52_sos.
Example C52_effect_example : filt_numStages ex_filt = 2%Z /\ length (fl_stages ex_filt) = 2%nat /\
  (match pstep (Bw, LP) 4 (PScale (nofZ D 2)) ex_filt with Some _ => true | None => false end) = true /\
  (let r := (nofZ D 1, nofZ D 0, nofZ D 0, nofZ D 1, nofZ D 0, nofZ D 0) in row_nan r = false /\
   (match pstep (Bw, LP) 4 (PSos [r; r]) ex_filt with Some _ => true | None => false end) = true).
Proof. vm_compute. repeat split; reflexivity. Qed.

(** C18: for a section with two poles or two zeros nothing that getPoleZeros returns is NaN, in any arithmetic *)
Theorem C18_no_nan : forall (N : num) (b : biquad N) p, bq_getPoleZeros b = Val [p] ->
  neqb N (getA2 b) (nofZ N 0) = false \/ neqb N (getB2 b) (nofZ N 0) = false ->
  Forall (fun z => neqb N (re z) (re z) = true /\ neqb N (im z) (im z) = true)
    [cfst (poles p); csnd (poles p); cfst (zeros p); csnd (zeros p)].
Proof. exact @pz_no_nan. Qed.
Print Assumptions C18_no_nan.
Example C18_no_nan_example : let b := MkBiquad (N := D) (nofZ D 1) (nofZ D (-1)) (ndiv D (nofZ D 1) (nofZ D 2)) (nofZ D 1) (nofZ D 2) (nofZ D 1) in
  (match bq_getPoleZeros b with Val [_] => true | _ => false end) = true /\ neqb D (getA2 b) (nofZ D 0) = false.
Proof. vm_compute. split; reflexivity. Qed.
