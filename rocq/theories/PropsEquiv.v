(** Property theorems: state structures, order of the stages and linearity in binary64 (C90). *)
From Coq Require Import ZArith List Bool Reals Permutation.
From Flocq Require Import IEEE754.BinarySingleNaN.
From Verif Require Import Num Outcome Types Biquad State Cascade PoleFilter History Float64 RefLibm FloatSpec Examples
  SigSpec RoundSpec RoundExample EquivLemmas EquivEx.
Import ListNotations.
Local Open Scope R_scope.

(** C90: the three state structures give outputs within twice the rounding bound of C54 of each other *)
Theorem C90_topologies : forall m (bs : list (biquad (F64 m))) (l : list sect) t t' (xs : list f64) X,
  List.Forall fin_coeffs bs -> List.Forall2 sect_of bs l -> sects_ok l X -> 0 <= X -> List.Forall (fun x => FloatSpec.is_fin x /\ Rabs (B2R x) <= X) xs ->
  let ys := snd (cs_run (MkCStages bs (repeat (st_init t) (length bs))) xs) : list f64 in let ys' := snd (cs_run (MkCStages bs (repeat (st_init t') (length bs))) xs) : list f64 in
  List.Forall2 (fun y y' => Rabs (B2R y - B2R y') <= 2 * total_error l X 0) ys ys'.
Proof. exact c90_topologies. Qed.
Print Assumptions C90_topologies.
(** the stages in another order *)
Theorem C90_order : forall m (bs bs' : list (biquad (F64 m))) (l l' : list sect) t t' (xs : list f64) X,
  List.Forall fin_coeffs bs -> List.Forall2 sect_of bs l -> List.Forall2 sect_of bs' l' -> Permutation bs bs' -> sects_ok l X -> sects_ok l' X -> 0 <= X ->
  List.Forall (fun x => FloatSpec.is_fin x /\ Rabs (B2R x) <= X) xs ->
  let ys := snd (cs_run (MkCStages bs (repeat (st_init t) (length bs))) xs) : list f64 in let ys' := snd (cs_run (MkCStages bs' (repeat (st_init t') (length bs'))) xs) : list f64 in
  List.Forall2 (fun y y' => Rabs (B2R y - B2R y') <= total_error l X 0 + total_error l' X 0) ys ys'.
Proof. exact c90_order. Qed.
Print Assumptions C90_order.
(** superposition: ws is al x + be u, sample by sample, up to e *)
Theorem C90_linear : forall m (bs : list (biquad (F64 m))) (l : list sect) t (xs us ws : list f64) al be e X U W,
  List.Forall fin_coeffs bs -> List.Forall2 sect_of bs l -> sects_ok l X -> sects_ok l U -> sects_ok l W -> 0 <= X -> 0 <= U -> 0 <= W -> 0 <= e ->
  List.Forall (fun x => FloatSpec.is_fin x /\ Rabs (B2R x) <= X) xs -> List.Forall (fun x => FloatSpec.is_fin x /\ Rabs (B2R x) <= U) us -> List.Forall (fun x => FloatSpec.is_fin x /\ Rabs (B2R x) <= W) ws ->
  length us = length xs -> length ws = length xs ->
  (forall n, (n < length xs)%nat -> Rabs (B2R (nth n ws f0) - (al * B2R (nth n xs f0) + be * B2R (nth n us f0))) <= e) ->
  let run (v : list f64) := snd (cs_run (MkCStages bs (repeat (st_init t) (length bs))) v) : list f64 in
  forall n, (n < length xs)%nat -> Rabs (B2R (nth n (run ws) f0) - (al * B2R (nth n (run xs) f0) + be * B2R (nth n (run us) f0))) <=
    total_error l W e + Rabs al * total_error l X 0 + Rabs be * total_error l U 0.
Proof. exact c90_linear. Qed.
Print Assumptions C90_linear.
(** the order 4 Butterworth low pass of Examples.v with inputs up to 2 (total error for inputs up to 1: C54_example) *)
Example C90_example : (forall X, 0 <= X <= 2 -> List.Forall fin_coeffs (fl_stages ex_filt) /\ List.Forall2 sect_of (fl_stages ex_filt) ex_sects /\ List.Forall2 sect_of (rev (fl_stages ex_filt)) (rev ex_sects) /\
  sects_ok ex_sects X /\ sects_ok (rev ex_sects) X) /\ Permutation (fl_stages ex_filt) (rev (fl_stages ex_filt)) /\ total_error ex_sects 1 0 <= 1 / 10 ^ 9.
Proof. exact (conj ex_equiv (conj (Permutation_rev _) (proj1 (proj2 (proj2 (proj2 ex_round)))))). Qed.
