(** Property theorems: a stable filter compiled with fused multiply-add that is no longer fed falls silent (C100). *)
From Coq Require Import ZArith List Bool Reals.
From Flocq Require Import IEEE754.BinarySingleNaN.
From Verif Require Import Num Outcome Types Biquad State Cascade PoleFilter History Float64 RefLibm FloatSpec Examples
  SigSpec RoundSpec RunOnSpec RunOnEx DecaySpec DecayEx Contract ContractLemmas FmaFallSpec FmaFallLemmas.
Import ListNotations.
Local Open Scope R_scope.

(** C100: the bounds of C88 for every choice of fused and separate operations: inputs that fall like c / rho^n down to 2^-1060 give outputs that fall in the same way, from any delay lines up to c *)
Theorem C100_falls : forall m (bs : list (biquad (F64 m))) (l : list sect) (ss : list (st (F64 m))) (xs ys : list f64) rho c u,
  List.Forall fin_coeffs bs -> List.Forall2 sect_of bs l -> 1 <= rho -> rho ^ 2 <= 2 -> fall_ok rho c l u -> 0 <= u -> 0 <= c -> length ss = length bs -> List.Forall (st_within c) ss ->
  (forall n, (n < length xs)%nat -> FloatSpec.is_fin (nth n xs f0) /\ Rabs (B2R (nth n xs f0)) <= u * falling rho c n) -> c_run bs ss xs ys ->
  length ys = length xs /\ forall n, (n < length xs)%nat -> FloatSpec.is_fin (nth n ys f0) /\ Rabs (B2R (nth n ys f0)) <= fall l u * falling rho c n.
Proof. exact c100_falls. Qed.
Print Assumptions C100_falls.
(** without input the outputs fall geometrically until they are below 2 * fall l 0 * 2^-1060, and stay there, whatever the choices; N depends on rho and c only *)
Theorem C100_silence : forall rho c, 1 < rho -> rho ^ 2 <= 2 -> 0 <= c -> exists N, forall m (bs : list (biquad (F64 m))) (l : list sect) (ss : list (st (F64 m))) k (ys : list f64),
  List.Forall fin_coeffs bs -> List.Forall2 sect_of bs l -> fall_ok rho c l 0 -> length ss = length bs -> List.Forall (st_within c) ss -> c_run bs ss (repeat f0 k) ys ->
  length ys = k /\ (forall n, (n < k)%nat -> FloatSpec.is_fin (nth n ys f0) /\ Rabs (B2R (nth n ys f0)) <= fall l 0 * falling rho c n) /\
  forall n, (N <= n < k)%nat -> Rabs (B2R (nth n ys f0)) <= 2 * fall l 0 * g_abs.
Proof. exact c100_silence. Qed.
Print Assumptions C100_silence.
(** the delay lines a contracted run leaves behind are finite and bounded, as in C87, so a contracted filter can run on from them *)
Theorem C100_states : forall m (bs : list (biquad (F64 m))) (l : list sect) (ss ss' : list (st (F64 m))) (xs ys : list f64) c X,
  List.Forall fin_coeffs bs -> List.Forall2 sect_of bs l -> ok_from l c X -> 0 <= X -> 0 <= c -> length ss = length bs -> List.Forall (st_within c) ss ->
  List.Forall (fun x => FloatSpec.is_fin x /\ Rabs (B2R x) <= X) xs -> c_to bs ss xs ss' ys -> length ss' = length bs /\ List.Forall (st_within (held l c X)) ss'.
Proof. exact c100_states. Qed.
Print Assumptions C100_states.
(** a signal, then silence: the part of the output after the signal falls silent *)
Theorem C100_after : forall m (bs : list (biquad (F64 m))) (l : list sect) (ss : list (st (F64 m))) (xs : list f64) c X rho,
  List.Forall fin_coeffs bs -> List.Forall2 sect_of bs l -> ok_from l c X -> 0 <= X -> 0 <= c -> length ss = length bs -> List.Forall (st_within c) ss ->
  List.Forall (fun x => FloatSpec.is_fin x /\ Rabs (B2R x) <= X) xs -> 1 < rho -> rho ^ 2 <= 2 -> fall_ok rho (held l c X) l 0 ->
  exists N, forall k (ys : list f64), c_run bs ss (xs ++ repeat f0 k) ys ->
  length ys = (length xs + k)%nat /\
  (forall n, (n < k)%nat -> FloatSpec.is_fin (nth (length xs + n) ys f0) /\ Rabs (B2R (nth (length xs + n) ys f0)) <= fall l 0 * falling rho (held l c X) n) /\
  forall n, (N <= n < k)%nat -> Rabs (B2R (nth (length xs + n) ys f0)) <= 2 * fall l 0 * g_abs.
Proof. exact c100_after. Qed.
Print Assumptions C100_after.
(** the same for a filter object after any history of calls *)
Theorem C100_filter : forall m, (forall r th, npolar (F64 m) r th <> None) -> forall t k FO (f : filt (F64 m)) (l : list sect) (xs : list f64) c X rho,
  (1 <= FO)%Z -> in_int (2 * FO) = true -> reachable_ok t k FO f ->
  List.Forall fin_coeffs (fl_stages f) -> List.Forall2 sect_of (fl_stages f) l -> ok_from l c X -> 0 <= X -> 0 <= c -> List.Forall (st_within c) (fl_states f) ->
  List.Forall (fun x => FloatSpec.is_fin x /\ Rabs (B2R x) <= X) xs -> 1 < rho -> rho ^ 2 <= 2 -> fall_ok rho (held l c X) l 0 ->
  exists N, forall z (ys : list f64), c_run (fl_stages f) (fl_states f) (xs ++ repeat f0 z) ys ->
  length ys = (length xs + z)%nat /\
  (forall n, (n < z)%nat -> FloatSpec.is_fin (nth (length xs + n) ys f0) /\ Rabs (B2R (nth (length xs + n) ys f0)) <= fall l 0 * falling rho (held l c X) n) /\
  forall n, (N <= n < z)%nat -> Rabs (B2R (nth (length xs + n) ys f0)) <= 2 * fall l 0 * g_abs.
Proof. exact c100_filter. Qed.
Print Assumptions C100_filter.
(** the used Butterworth low pass of Examples.v, order 4, cutoff 0.1 (delay lines not empty, see C87_example); for every input there is an output *)
Example C100_example : ((forall r th, npolar D r th <> None) /\ List.Forall (st_within 2) (fl_states ex_filt) /\ reachable_ok DF2 (Bw, LP) 4 ex_filt /\
  List.Forall fin_coeffs (fl_stages ex_filt) /\ List.Forall2 sect_of (fl_stages ex_filt) (sects_ex (fl_stages ex_filt)) /\ ok_from (sects_ex (fl_stages ex_filt)) 2 1 /\
  1 < 257 / 256 /\ (257 / 256) ^ 2 <= 2 /\ fall_ok (257 / 256) 2 (sects_ex (fl_stages ex_filt)) 0 /\
  fall_ok (257 / 256) (held (sects_ex (fl_stages ex_filt)) 2 1) (sects_ex (fl_stages ex_filt)) 0 /\ 2 * fall (sects_ex (fl_stages ex_filt)) 0 * g_abs <= / 2 ^ 1035) /\
  (forall xs, exists ss' ys, c_to (fl_stages ex_filt) (fl_states ex_filt) xs ss' ys) /\ (forall xs, exists ys, c_run (fl_stages ex_filt) (fl_states ex_filt) xs ys).
Proof.
  assert (R : forall xs, exists ys, c_run (fl_stages ex_filt) (fl_states ex_filt) xs ys) by (intros xs; eexists; apply c_plain_run; vm_compute; reflexivity).
  split; [|split; [|exact R]].
  - exact (let r := ex_run_on in conj D_polar_total (conj (proj1 (proj2 r)) (conj (proj1 (proj2 (proj2 r))) (conj (proj1 (proj2 (proj2 (proj2 r)))) (conj (proj1 (proj2 (proj2 (proj2 (proj2 r)))))
    (conj (proj1 (proj2 (proj2 (proj2 (proj2 (proj2 r)))))) ex_falls)))))).
  - intros xs. destruct (R xs) as (ys & H). destruct (run_to _ _ _ _ H) as (s & T). exists s, ys. exact T.
Qed.
