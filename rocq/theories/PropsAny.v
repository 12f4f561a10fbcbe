(** Property theorems that hold for every arithmetic ([N : num] is arbitrary). *)
From Coq Require Import ZArith List Bool.
From Verif Require Import Num Outcome Types Biquad State Cascade PoleFilter RBJ Custom History
  World WorldHistory Spec RefLibm Stream AnyLemmas Examples.
Import ListNotations.

(** C05: causal, one output per input, and insensitive to how the signal is cut into chunks;
    Butterworth/Chebyshev filters, bare cascades (SOSCascade) and RBJ filters. *)
Theorem C05_streaming : forall N : num,
  streaming (filt_run (N := N)) /\ streaming (cs_run (N := N)) /\ streaming (rbj_run (N := N)).
Proof. exact (fun N => conj filt_streaming (conj cs_streaming rbj_streaming)). Qed.
Print Assumptions C05_streaming.
Example C05_example :
  map micro (snd (feed rbj_run ex_rbj [[d 1 1; d 2 1]; []; [d 3 1]])) = [Some 67254; Some 345661; Some 904468]%Z.
Proof. vm_compute. reflexivity. Qed.

(** C06: after reset() a filter with any history gives the outputs of a filter that has the same
    coefficients and was never fed a sample; and reset() leaves the design alone. *)
Theorem C06_reset_restores_fresh_behaviour : forall (N : num) t k FO (f g : filt N) os,
  reachable t k FO f ->
  steps k FO os (filt_init t k FO) = Some g -> forallb (fun o => negb (is_filter_op o)) os = true ->
  fl_stages g = fl_stages f ->
  forall xs, snd (filt_run (filt_reset f) xs) = snd (filt_run g xs).
Proof. exact @reset_like_new. Qed.
Print Assumptions C06_reset_restores_fresh_behaviour.
Example C06_example : reachable DF2 (Bw, LP) 4 ex_filt /\
  steps (Bw, LP) 4 ex_quiet (filt_init DF2 (Bw, LP) 4) = Some ex_quiet_filt /\
  forallb (fun o => negb (is_filter_op o)) ex_quiet = true /\ fl_stages ex_quiet_filt = fl_stages ex_filt.
Proof. exact (conj ex_filt_reachable (conj ex_quiet_steps (conj eq_refl ex_quiet_stages))). Qed.

Theorem C06_reset_keeps_the_design : forall (N : num) (f : filt N),
  fl_stages (filt_reset f) = fl_stages f /\
  (forall x, filt_response (filt_reset f) x = filt_response f x) /\
  filt_getPoleZeros (filt_reset f) = filt_getPoleZeros f /\
  filt_numStages (filt_reset f) = filt_numStages f.
Proof. exact @reset_keeps. Qed.
Print Assumptions C06_reset_keeps_the_design.

Theorem C06_reset_rbj : forall (N : num) (r : rbj N) xs, st_topo (r_st r) = DF1 ->
  rbj_run (rbj_reset r) xs = rbj_run (MkRbj (r_bq r) (r_st rbj_init)) xs.
Proof. exact @rbj_reset_like_new. Qed.
Print Assumptions C06_reset_rbj.
Example C06_rbj_example : st_topo (r_st (fst (rbj_run ex_rbj ex_x))) = DF1.
Proof. vm_compute. reflexivity. Qed.

Theorem C06_reset_sos : forall (N : num) t (c : cstages N) xs,
  Forall (fun s => st_topo s = t) (cs_states c) ->
  cs_run (cs_reset c) xs =
  cs_run (MkCStages (cs_stages c) (cs_states (sos_init t (length (cs_states c))))) xs.
Proof. exact @sos_reset_like_new. Qed.
Print Assumptions C06_reset_sos.

(** C07, first half: the cascade is the chain of its stages *)
Theorem C07_cascade_is_chain : forall (N : num) (bss : list (biquad N * st N)) xs,
  snd (cs_run (MkCStages (map fst bss) (map snd bss)) xs) =
  series (map (fun bs sig => snd (bq_run (fst bs) (snd bs) sig)) bss) xs.
Proof. exact @chain_series. Qed.
Print Assumptions C07_cascade_is_chain.
Example C07_example :
  map micro (series (map (fun b sig => snd (bq_run b (st_init TDF2) sig)) (fl_stages ex_filt)) [d 1 1; d 0 1]) =
  [Some 4824; Some 30728]%Z.
Proof. vm_compute. reflexivity. Qed.

(** C14: response() throws above 1/2 and below 0 and returns a value otherwise *)
Theorem C14_response_domain : forall N : num, (forall r th, npolar N r th <> None) ->
  forall t k FO, (1 <= FO)%Z -> in_int (2 * FO) = true ->
  forall (f : filt N) x, reachable_ok t k FO f ->
  (nltb N (nlit N 1 2) x = true -> exists e, filt_response f x = Exc e) /\
  (nltb N x (nofZ N 0) = true -> exists e, filt_response f x = Exc e) /\
  (nltb N (nlit N 1 2) x = false -> nltb N x (nofZ N 0) = false -> exists c, filt_response f x = Val c).
Proof. exact @response_domain. Qed.
Print Assumptions C14_response_domain.
Example C14_example : reachable_ok DF2 (Bw, LP) 4 ex_filt /\
  nltb D (nlit D 1 2) (d 3 5) = true /\ nltb D (d (-1) 9) (nofZ D 0) = true /\
  nltb D (nlit D 1 2) (d 1 5) = false /\ nltb D (d 1 5) (nofZ D 0) = false.
Proof. exact (conj ex_filt_reachable_ok (conj eq_refl (conj eq_refl (conj eq_refl eq_refl)))). Qed.

(** C21: whatever the math library returns, no history of calls leaves the reserved storage
    ([Undef] and [None] are undefined behaviour) *)
Theorem C21_no_out_of_bounds : forall N : num, (forall r th, npolar N r th <> None) ->
  forall t k FO, (1 <= FO)%Z -> in_int (2 * FO) = true ->
  forall os : list (op N), Forall op_ok os ->
  exists f : filt N, steps k FO os (filt_init t k FO) = Some f /\
    (forall x, filt_response f x <> Undef) /\ (forall i, filt_index f i <> Undef) /\
    filt_getPoleZeros f <> Undef /\
    length (fl_stages f) = Z.to_nat (maxStagesOf (snd k) FO) /\
    length (fl_states f) = Z.to_nat (maxStagesOf (snd k) FO) /\
    (0 <= filt_numStages f <= maxStagesOf (snd k) FO)%Z.
Proof. exact @no_oob. Qed.
Print Assumptions C21_no_out_of_bounds.
Example C21_example : (forall r th, npolar D r th <> None) /\ Forall op_ok ex_ops /\
  in_int (2 * 4) = true /\ map bq6 (fl_stages ex_filt) =
  [[Some 1000000; Some (-1320913); Some 632738; Some 4824; Some 9648; Some 4824];
   [Some 1000000; Some (-1048599); Some 296140; Some 1000000; Some 2000000; Some 1000000]]%Z.
Proof. exact (conj D_polar_total (conj ex_ops_ok (conj eq_refl ex_filt_coeffs))). Qed.

(** C22 for the parametric setup; PropsClasses.v has it class by class *)
Theorem C22_order_too_high : forall (N : num) k FO o q (f : filt N), (FO < o)%Z ->
  filt_setupN k FO (Some o) q f = Throw E_order f /\
  (forall sr, filt_setup k FO (Some o) sr q f = Throw E_order f).
Proof. exact @order_rejected. Qed.
Print Assumptions C22_order_too_high.

(** C23: every cutoff that is not < 1/2 (NaN included) or that is < 0 *)
Theorem C23_cutoff_rejected : forall N : num, (forall r th, npolar N r th <> None) ->
  forall t k FO, (1 <= FO)%Z -> in_int (2 * FO) = true ->
  forall (f : filt N) r q, reachable_ok t k FO f -> order_ok r ->
  nltb N (q_fc q) (nlit N 1 2) = false \/ nltb N (q_fc q) (nofZ N 0) = true ->
  exists e f', filt_setupN k FO r q f = Throw e f' /\ looks_same f f'.
Proof. exact @cutoff_rejected. Qed.
Print Assumptions C23_cutoff_rejected.
Example C23_example : reachable_ok DF2 (Bw, LP) 4 ex_filt /\ order_ok (Some 3%Z) /\
  nltb D (q_fc ex_bad) (nlit D 1 2) = false /\
  nltb D (q_fc (pz ex_nan (d 1 20) (d 6 1) (d 1 1))) (nlit D 1 2) = false.
Proof. exact (conj ex_filt_reachable_ok (conj eq_refl (conj eq_refl eq_refl))). Qed.

(** C25 *)
Theorem C25_setup_keeps_delay_lines : forall (N : num) k FO r q sr (f f' : filt N),
  (after (filt_setupN k FO r q f) = Some f' -> fl_states f' = fl_states f) /\
  (after (filt_setup k FO r sr q f) = Some f' -> fl_states f' = fl_states f).
Proof. exact @setup_keeps_states. Qed.
Print Assumptions C25_setup_keeps_delay_lines.
Example C25_example :
  match after (filt_setupN (Bw, LP) 4 (Some 2%Z) ex_params2 ex_filt) with
  | Some f => (Nat.eqb (length (fl_states f)) 2 && negb (st_is_zero (nth 0 (fl_states f) (st_init DF2))))%bool
  | None => false end = true.
Proof. vm_compute. reflexivity. Qed.

(** C26 is false.  (a) A copy holds pointers into the filter it was copied from: once that one is
    destroyed, response(), getPoleZeros() and setup() of the copy are undefined behaviour.
    (b) setup on the copy changes the output of the original and not that of the copy. *)
Theorem C26_copy_dangles_refuted : forall (N : num) t k FO (w : world N),
  let i := length w in
  exists w1 w2, w_copy i (w_create t k FO w) = Ok w1 tt /\ w_destroy i w1 = Ok w2 tt /\
    live w2 (S i) <> None /\
    (forall x, w_response (S i) x w2 = Undef) /\
    w_getPoleZeros (S i) w2 = Undef /\
    (forall r q, w_setupN (S i) r q w2 = UB).
Proof. exact @copy_dangles. Qed.
Print Assumptions C26_copy_dangles_refuted.

Theorem C26_setup_on_copy_hits_original_refuted : forall (N : num) (w w1 : world N) i o j r q,
  own w i o -> w_copy i w = Ok w1 tt -> j = length w ->
  forall w2, after (w_setupN j r q w1) = Some w2 ->
  exists oi oj f', live w2 i = Some oi /\ live w2 j = Some oj /\
    o_stages oj = o_stages o /\ o_states oj = o_states o /\
    o_states oi = o_states o /\
    after (filt_setupN (o_kind o) (o_FO o) r q (filt_of o)) = Some f' /\
    o_stages oi = fl_stages f'.
Proof. exact @setup_on_copy. Qed.
Print Assumptions C26_setup_on_copy_hits_original_refuted.
(** object 0 is the original, object 1 the copy; ex_w3 is ex_w2 after setup on object 1 *)
Example C26_witness :
  ex_out 0 ex_w2 = Some 67455%Z /\ ex_out 1 ex_w2 = Some 67455%Z /\
  ex_out 0 ex_w3 = Some 206572%Z /\ ex_out 1 ex_w3 = Some 67455%Z.
Proof. exact ex_copy_outputs. Qed.

(** C27: a = b clears a's delay lines, keeps a's coefficients and changes nothing else *)
Theorem C27_assignment : forall (N : num) (w : world N) i j o, live w i = Some o ->
  exists w', w_assign i j w = Ok w' tt /\
    (exists o', live w' i = Some o' /\ o_stages o' = o_stages o /\
       o_states o' = map st_reset (o_states o)) /\
    (forall n, n <> i -> live w' n = live w n) /\
    (forall n x, w_response n x w' = w_response n x w) /\
    (forall n, w_getPoleZeros n w' = w_getPoleZeros n w).
Proof. exact @assign_spec. Qed.
Print Assumptions C27_assignment.

(** C28 *)
Theorem C28_sos_installs_rows : forall (N : num) t (rows : list (sosrow N)) c,
  length rows = length (cs_stages c) -> Forall (fun r => row_nan r = false) rows ->
  sos_setup rows c = Ok (MkCStages (map row_bq rows) (cs_states c)) tt /\
  sos_construct t rows = Ok (MkCStages (map row_bq rows) (repeat (st_init t) (length rows))) tt.
Proof. exact @sos_ok. Qed.
Print Assumptions C28_sos_installs_rows.
Example C28_example : Forall (fun r => row_nan r = false) ex_sos.
Proof. repeat constructor. Qed.

Theorem C28_sos_nan_row : forall (N : num) good bad rest (c : cstages N),
  length (good ++ bad :: rest) = length (cs_stages c) ->
  Forall (fun r => row_nan r = false) good -> row_nan bad = true ->
  exists e, sos_setup (good ++ bad :: rest) c =
    Throw e (MkCStages (map row_bq good ++ skipn (length good) (cs_stages c)) (cs_states c)).
Proof. exact @sos_bad. Qed.
Print Assumptions C28_sos_nan_row.
Example C28_nan_example : map (row_nan (N := D)) ex_sos_bad = [false; true; false].
Proof. vm_compute. reflexivity. Qed.

(** C42 *)
Theorem C42_indexing : forall N : num, (forall r th, npolar N r th <> None) ->
  forall t k FO, (1 <= FO)%Z -> in_int (2 * FO) = true ->
  forall (f : filt N) i, reachable_ok t k FO f ->
  ((0 <= i < filt_numStages f)%Z ->
     exists b, nth_error (fl_stages f) (Z.to_nat i) = Some b /\ filt_index f i = Val b) /\
  (~ (0 <= i < filt_numStages f)%Z -> filt_index f i = Exc E_index).
Proof. exact @index_domain. Qed.
Print Assumptions C42_indexing.
Example C42_example : reachable_ok DF2 (Bw, LP) 4 ex_filt /\ filt_numStages ex_filt = 2%Z.
Proof. split; [exact ex_filt_reachable_ok|vm_compute; reflexivity]. Qed.

(** C43: filters that are never copied are independent of each other: after any history on any
    number of objects each live object is what its own calls alone make of it *)
Theorem C43_objects_independent : forall (N : num) (h : list (wop N)) w i o,
  forallb no_copy h = true -> wsteps h [] = Some w -> live w i = Some o ->
  exists t k FO, nth_error (creates h) i = Some (t, k, FO) /\
    steps k FO (calls_of i h) (filt_init t k FO) = Some (filt_of o).
Proof. exact @objects_independent. Qed.
Print Assumptions C43_objects_independent.
Example C43_example : forallb no_copy ex_hist = true /\ wsteps ex_hist [] = Some ex_hist_w /\
  live ex_hist_w 0 <> None /\ live ex_hist_w 1 <> None /\ live ex_hist_w 2 = None.
Proof. exact (conj eq_refl ex_hist_runs). Qed.
