(** Property theorems about rounding errors in IEEE-754 binary64 (C54). *)
From Coq Require Import ZArith List Bool Reals.
From Coquelicot Require Import Coquelicot.
From Flocq Require Import IEEE754.BinarySingleNaN.
From Verif Require Import Num Outcome Types Biquad State Cascade PoleFilter History Float64 RefLibm FloatSpec Examples
  SigSpec RoundSpec RoundLemmas RoundExample.
Import ListNotations.
Local Open Scope R_scope.

(** C54: for all time, the outputs computed in double are finite and stay near the exact outputs of
    the filter with the same coefficients; [exact_out] is the cascade of difference equations. *)
Theorem C54_rounding : forall m (bs : list (biquad (F64 m))) (l : list sect) t (xs : list f64) X zs,
  List.Forall fin_coeffs bs -> List.Forall2 sect_of bs l -> sects_ok l X ->
  0 <= X -> List.Forall (fun x => FloatSpec.is_fin x /\ Rabs (B2R x) <= X) xs -> exact_out l (map B2R xs) zs ->
  let ys := snd (cs_run (MkCStages bs (repeat (st_init t) (length bs))) xs) : list f64 in
  length ys = length xs /\ length zs = length xs /\
  List.Forall (fun y => FloatSpec.is_fin y /\ Rabs (B2R y) <= last_bound l X) ys /\
  List.Forall2 (fun y z => Rabs (B2R y - z) <= total_error l X 0) ys zs.
Proof. exact @c54_cs. Qed.
Print Assumptions C54_rounding.
Theorem C54_rounding_filter : forall m, (forall r th, npolar (F64 m) r th <> None) ->
  forall t k FO (f : filt (F64 m)) (l : list sect) (xs : list f64) X zs,
  (1 <= FO)%Z -> in_int (2 * FO) = true -> reachable_ok t k FO f ->
  List.Forall fin_coeffs (fl_stages f) -> List.Forall2 sect_of (fl_stages f) l -> sects_ok l X ->
  0 <= X -> List.Forall (fun x => FloatSpec.is_fin x /\ Rabs (B2R x) <= X) xs -> exact_out l (map B2R xs) zs ->
  let ys := snd (filt_run (filt_reset f) xs) : list f64 in
  length ys = length xs /\ length zs = length xs /\
  List.Forall (fun y => FloatSpec.is_fin y /\ Rabs (B2R y) <= last_bound l X) ys /\
  List.Forall2 (fun y z => Rabs (B2R y - z) <= total_error l X 0) ys zs.
Proof. exact c54_filt. Qed.
Print Assumptions C54_rounding_filter.
(** there always is such an exact output, and only one *)
Theorem C54_exact_output : forall l xs, exists zs, exact_out l xs zs /\ forall zs', exact_out l xs zs' -> zs' = zs.
Proof. exact exact_exists. Qed.
Print Assumptions C54_exact_output.
(** Butterworth low pass, order 4, cutoff 0.1 of the sampling rate, inputs in [-1,1]: never further than 10^-9 away *)
Example C54_example : (forall r th, npolar D r th <> None) /\ reachable_ok DF2 (Bw, LP) 4 ex_filt /\
  List.Forall fin_coeffs (fl_stages ex_filt) /\ List.Forall2 sect_of (fl_stages ex_filt) ex_sects /\
  sects_ok ex_sects 1 /\ total_error ex_sects 1 0 <= 1 / 10 ^ 9 /\ last_bound ex_sects 1 <= 202.
Proof. exact (conj D_polar_total (conj ex_filt_reachable_ok ex_round)). Qed.

(** the gain bound that C54 needs follows from the poles *)
Theorem C54_gain_from_radius : forall a1 a2 r, roots_within a1 a2 r -> r < 1 -> rec_gain a1 a2 (/ (1 - r) ^ 2).
Proof. exact gain_within. Qed.
Print Assumptions C54_gain_from_radius.
Theorem C54_stable_has_gain : forall a1 a2, stable_poly a1 a2 -> exists G, rec_gain a1 a2 G.
Proof. exact gain_stable. Qed.
Print Assumptions C54_stable_has_gain.
Example C54_gain_example : roots_within (-1) (1 / 4) (1 / 2) /\ rec_gain (-1) (1 / 4) 4.
Proof. exact ex_gain. Qed.
