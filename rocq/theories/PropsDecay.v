(** Property theorems: a stable filter that is no longer fed falls silent in binary64 (C88). *)
From Coq Require Import ZArith List Bool Reals.
From Flocq Require Import IEEE754.BinarySingleNaN.
From Verif Require Import Num Outcome Types Biquad State Cascade PoleFilter History Float64 RefLibm FloatSpec Examples
  SigSpec RoundSpec RunOnSpec RunOnEx DecaySpec DecayLemmas DecayEx.
Import ListNotations.
Local Open Scope R_scope.

(** C88: inputs that fall like c / rho^n down to 2^-1060 give outputs that fall in the same way, from any delay lines up to c *)
Theorem C88_falls : forall m (bs : list (biquad (F64 m))) (l : list sect) (ss : list (st (F64 m))) (xs : list f64) rho c u,
  List.Forall fin_coeffs bs -> List.Forall2 sect_of bs l -> 1 <= rho -> rho ^ 2 <= 2 -> fall_ok rho c l u -> 0 <= u -> 0 <= c -> length ss = length bs -> List.Forall (st_within c) ss ->
  (forall n, (n < length xs)%nat -> FloatSpec.is_fin (nth n xs f0) /\ Rabs (B2R (nth n xs f0)) <= u * falling rho c n) ->
  let ys := snd (cs_run (MkCStages bs ss) xs) : list f64 in
  length ys = length xs /\ forall n, (n < length xs)%nat -> FloatSpec.is_fin (nth n ys f0) /\ Rabs (B2R (nth n ys f0)) <= fall l u * falling rho c n.
Proof. exact c88_falls. Qed.
Print Assumptions C88_falls.
(** without input the outputs fall geometrically until they are below 2 * fall l 0 * 2^-1060, and stay there: no audible limit cycle *)
Theorem C88_silence : forall rho c, 1 < rho -> rho ^ 2 <= 2 -> 0 <= c -> exists N, forall m (bs : list (biquad (F64 m))) (l : list sect) (ss : list (st (F64 m))) k,
  List.Forall fin_coeffs bs -> List.Forall2 sect_of bs l -> fall_ok rho c l 0 -> length ss = length bs -> List.Forall (st_within c) ss ->
  let ys := snd (cs_run (MkCStages bs ss) (repeat f0 k)) : list f64 in
  length ys = k /\ (forall n, (n < k)%nat -> FloatSpec.is_fin (nth n ys f0) /\ Rabs (B2R (nth n ys f0)) <= fall l 0 * falling rho c n) /\
  forall n, (N <= n < k)%nat -> Rabs (B2R (nth n ys f0)) <= 2 * fall l 0 * g_abs.
Proof. exact c88_silence. Qed.
Print Assumptions C88_silence.
(** a filter object after any history, fed with a signal and then with silence *)
Theorem C88_filter : forall m, (forall r th, npolar (F64 m) r th <> None) -> forall t k FO (f : filt (F64 m)) (l : list sect) (xs : list f64) c X rho,
  (1 <= FO)%Z -> in_int (2 * FO) = true -> reachable_ok t k FO f ->
  List.Forall fin_coeffs (fl_stages f) -> List.Forall2 sect_of (fl_stages f) l -> ok_from l c X -> 0 <= X -> 0 <= c -> List.Forall (st_within c) (fl_states f) ->
  List.Forall (fun x => FloatSpec.is_fin x /\ Rabs (B2R x) <= X) xs -> 1 < rho -> rho ^ 2 <= 2 -> fall_ok rho (held l c X) l 0 ->
  exists N, forall z, let ys := snd (filt_run (fst (filt_run f xs)) (repeat f0 z)) : list f64 in
  length ys = z /\ (forall n, (n < z)%nat -> FloatSpec.is_fin (nth n ys f0) /\ Rabs (B2R (nth n ys f0)) <= fall l 0 * falling rho (held l c X) n) /\
  forall n, (N <= n < z)%nat -> Rabs (B2R (nth n ys f0)) <= 2 * fall l 0 * g_abs.
Proof. exact c88_filter. Qed.
Print Assumptions C88_filter.
(** the used Butterworth low pass of Examples.v, order 4, cutoff 0.1 (delay lines not empty, see C87_example): it ends below 2^-1035, which is subnormal *)
Example C88_example : (forall r th, npolar D r th <> None) /\ List.Forall (st_within 2) (fl_states ex_filt) /\ reachable_ok DF2 (Bw, LP) 4 ex_filt /\
  List.Forall fin_coeffs (fl_stages ex_filt) /\ List.Forall2 sect_of (fl_stages ex_filt) (sects_ex (fl_stages ex_filt)) /\ ok_from (sects_ex (fl_stages ex_filt)) 2 1 /\
  1 < 257 / 256 /\ (257 / 256) ^ 2 <= 2 /\ fall_ok (257 / 256) 2 (sects_ex (fl_stages ex_filt)) 0 /\
  fall_ok (257 / 256) (held (sects_ex (fl_stages ex_filt)) 2 1) (sects_ex (fl_stages ex_filt)) 0 /\ 2 * fall (sects_ex (fl_stages ex_filt)) 0 * g_abs <= / 2 ^ 1035.
Proof.
  exact (let r := ex_run_on in conj D_polar_total (conj (proj1 (proj2 r)) (conj (proj1 (proj2 (proj2 r))) (conj (proj1 (proj2 (proj2 (proj2 r)))) (conj (proj1 (proj2 (proj2 (proj2 (proj2 r)))))
    (conj (proj1 (proj2 (proj2 (proj2 (proj2 (proj2 r)))))) ex_falls)))))).
Qed.
