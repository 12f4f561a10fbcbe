(** Property theorems: filters that run on without reset (), in binary64 (C87). *)
From Coq Require Import ZArith List Bool Reals.
From Flocq Require Import IEEE754.BinarySingleNaN.
From Verif Require Import Num Outcome Types Biquad State Cascade PoleFilter History RealNum Float64 RefLibm FloatSpec Examples
  SigSpec RoundSpec RunOnSpec RunOnLemmas RunOnEx.
Import ListNotations.
Local Open Scope R_scope.

(** C87: whatever finite numbers the delay lines hold, the outputs stay near those of the same cascade over the real numbers, and the delay lines stay bounded *)
Theorem C87_running_on : forall m (bs : list (biquad (F64 m))) (l : list sect) (ss : list (st (F64 m))) (xs : list f64) c X,
  List.Forall fin_coeffs bs -> List.Forall2 sect_of bs l -> ok_from l c X -> 0 <= X -> 0 <= c -> length ss = length bs -> List.Forall (st_within c) ss ->
  List.Forall (fun x => FloatSpec.is_fin x /\ Rabs (B2R x) <= X) xs ->
  let r := cs_run (MkCStages bs ss) xs in let ys := snd r : list f64 in
  let zs := snd (cs_run (MkCStages (map real_bq bs) (map real_st ss)) (map B2R xs)) : list R in
  length ys = length xs /\ List.Forall (fun y => FloatSpec.is_fin y /\ Rabs (B2R y) <= bound_from l c X) ys /\
  List.Forall2 (fun y z => Rabs (B2R y - z) <= error_from l c X 0) ys zs /\ List.Forall (st_within (held l c X)) (cs_states (fst r)).
Proof. exact c87_cs. Qed.
Print Assumptions C87_running_on.
(** the real cascade solves the difference equations of its sections with two extra inputs, and nothing else does *)
Theorem C87_exact : forall m (bs : list (biquad (F64 m))) (l : list sect) (ss : list (st (F64 m))) xs zs, length ss = length bs -> List.Forall2 sect_of bs l ->
  exact_from l (lefts bs ss) xs zs <-> zs = snd (cs_run (MkCStages (map real_bq bs) (map real_st ss)) xs).
Proof. exact c87_exact. Qed.
Print Assumptions C87_exact.
(** what was in the delay lines is forgotten at a geometric rate, up to rounding *)
Theorem C87_forgets : forall m (bs : list (biquad (F64 m))) (l : list sect) (ss ss' : list (st (F64 m))) (xs : list f64) c X rho,
  List.Forall fin_coeffs bs -> List.Forall2 sect_of bs l -> ok_from l c X -> 0 <= X -> 0 <= c -> rate_ok rho l ->
  length ss = length bs -> List.Forall (st_within c) ss -> length ss' = length bs -> List.Forall (st_within c) ss' ->
  List.Forall (fun x => FloatSpec.is_fin x /\ Rabs (B2R x) <= X) xs ->
  let ys := snd (cs_run (MkCStages bs ss) xs) : list f64 in let ys' := snd (cs_run (MkCStages bs ss') xs) : list f64 in
  forall n, (n < length xs)%nat -> Rabs (B2R (nth n ys f0) - B2R (nth n ys' f0)) <= 2 * error_from l c X 0 + fade rho l c 0 / rho ^ n.
Proof. exact c87_forgets. Qed.
Print Assumptions C87_forgets.
(** the same against the exact output of the cascade started at rest *)
Theorem C87_settles : forall m (bs : list (biquad (F64 m))) (l : list sect) (ss : list (st (F64 m))) (xs : list f64) zs c X rho,
  List.Forall fin_coeffs bs -> List.Forall2 sect_of bs l -> ok_from l c X -> 0 <= X -> 0 <= c -> rate_ok rho l ->
  length ss = length bs -> List.Forall (st_within c) ss -> List.Forall (fun x => FloatSpec.is_fin x /\ Rabs (B2R x) <= X) xs -> exact_out l (map B2R xs) zs ->
  let ys := snd (cs_run (MkCStages bs ss) xs) : list f64 in
  forall n, (n < length xs)%nat -> Rabs (B2R (nth n ys f0) - nth n zs 0) <= error_from l c X 0 + fade rho l c 0 / rho ^ n.
Proof. exact c87_settles. Qed.
Print Assumptions C87_settles.
(** a filter object after any history *)
Theorem C87_filter : forall m, (forall r th, npolar (F64 m) r th <> None) -> forall t k FO (f : filt (F64 m)) (l : list sect) (xs : list f64) c X rho,
  (1 <= FO)%Z -> in_int (2 * FO) = true -> reachable_ok t k FO f ->
  List.Forall fin_coeffs (fl_stages f) -> List.Forall2 sect_of (fl_stages f) l -> ok_from l c X -> 0 <= X -> 0 <= c -> List.Forall (st_within c) (fl_states f) ->
  List.Forall (fun x => FloatSpec.is_fin x /\ Rabs (B2R x) <= X) xs ->
  let r := filt_run f xs in let ys := snd r : list f64 in
  length ys = length xs /\ List.Forall (fun y => FloatSpec.is_fin y /\ Rabs (B2R y) <= bound_from l c X) ys /\ List.Forall (st_within (held l c X)) (fl_states (fst r)) /\
  List.Forall2 (fun y z => Rabs (B2R y - z) <= error_from l c X 0) ys (snd (cs_run (MkCStages (map real_bq (fl_stages f)) (map real_st (fl_states f))) (map B2R xs)) : list R) /\
  forall zs, rate_ok rho l -> exact_out l (map B2R xs) zs -> forall n, (n < length xs)%nat -> Rabs (B2R (nth n ys f0) - nth n zs 0) <= error_from l c X 0 + fade rho l c 0 / rho ^ n.
Proof. exact c87_filt. Qed.
Print Assumptions C87_filter.
(** parameters changed in the middle of a signal, without reset (): no overflow, and the output approaches that of the new design started at rest *)
Theorem C87_switch : forall m, (forall r th, npolar (F64 m) r th <> None) -> forall t k FO (f f2 : filt (F64 m)) (l l2 : list sect) (xs xs2 : list f64) r q c X rho zs,
  (1 <= FO)%Z -> in_int (2 * FO) = true -> reachable_ok t k FO f -> order_ok r ->
  List.Forall fin_coeffs (fl_stages f) -> List.Forall2 sect_of (fl_stages f) l -> ok_from l c X -> 0 <= X -> 0 <= c -> List.Forall (st_within c) (fl_states f) ->
  List.Forall (fun x => FloatSpec.is_fin x /\ Rabs (B2R x) <= X) xs -> filt_setupN k FO r q (fst (filt_run f xs)) = Ok f2 tt ->
  List.Forall fin_coeffs (fl_stages f2) -> List.Forall2 sect_of (fl_stages f2) l2 -> let c2 := held l c X in ok_from l2 c2 X -> rate_ok rho l2 ->
  List.Forall (fun x => FloatSpec.is_fin x /\ Rabs (B2R x) <= X) xs2 -> exact_out l2 (map B2R xs2) zs ->
  let ys := snd (filt_run f2 xs2) : list f64 in
  length ys = length xs2 /\ List.Forall (fun y => FloatSpec.is_fin y /\ Rabs (B2R y) <= bound_from l2 c2 X) ys /\
  forall n, (n < length xs2)%nat -> Rabs (B2R (nth n ys f0) - nth n zs 0) <= error_from l2 c2 X 0 + fade rho l2 c2 0 / rho ^ n.
Proof. exact c87_switch. Qed.
Print Assumptions C87_switch.
(** the used Butterworth low pass of Examples.v, order 4, cutoff 0.1: its delay lines are not empty, hold numbers up to 2, and are forgotten like 40000 (256/257)^n up to 10^-6 *)
Example C87_example : (forall r th, npolar D r th <> None) /\ forallb busy (fl_states ex_filt) = true /\ List.Forall (st_within 2) (fl_states ex_filt) /\ reachable_ok DF2 (Bw, LP) 4 ex_filt /\
  List.Forall fin_coeffs (fl_stages ex_filt) /\ List.Forall2 sect_of (fl_stages ex_filt) (sects_ex (fl_stages ex_filt)) /\
  ok_from (sects_ex (fl_stages ex_filt)) 2 1 /\ rate_ok (257 / 256) (sects_ex (fl_stages ex_filt)) /\
  error_from (sects_ex (fl_stages ex_filt)) 2 1 0 <= / 10 ^ 6 /\ fade (257 / 256) (sects_ex (fl_stages ex_filt)) 2 0 <= 40000.
Proof. exact (conj D_polar_total ex_run_on). Qed.
(** a second setup () in the middle of the signal *)
Example C87_example_switch : List.Forall (fun x : f64 => FloatSpec.is_fin x /\ Rabs (B2R x) <= 1) ex_more /\ filt_setupN (Bw, LP) 4 None ex_par3 (fst (filt_run ex_filt ex_more)) = Ok ex_f2 tt /\
  List.Forall fin_coeffs (fl_stages ex_f2) /\ List.Forall2 sect_of (fl_stages ex_f2) (sects_ex (fl_stages ex_f2)) /\
  ok_from (sects_ex (fl_stages ex_f2)) (held (sects_ex (fl_stages ex_filt)) 2 1) 1 /\ rate_ok (257 / 256) (sects_ex (fl_stages ex_f2)).
Proof. exact ex_run_switch. Qed.
