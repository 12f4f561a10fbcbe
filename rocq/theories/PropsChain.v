(** Property theorems about cascades that are designed and run in IEEE-754 binary64, against the ideal cascade. *)
From Coq Require Import ZArith List Bool Reals.
From Coquelicot Require Import Coquelicot.
From Flocq Require Import IEEE754.BinarySingleNaN.
From Verif Require Import Num Outcome Types Biquad State Cascade PoleFilter Float64 FloatSpec SigSpec RoundSpec DblSpec BwDblSpec BwDblFinal ChainSpec ChainLemmas BwOut.
Import ListNotations.
Local Open Scope R_scope.

(** C66: a Butterworth low or high pass, set up and run in double, stays near the exact output of the ideal filter (C63) for all time *)
Theorem C66_butterworth_output : forall m (hp : bool) (q : params (F64 m)) n FO t, libm_design m -> libm_response m -> FloatSpec.is_fin (q_fc q : f64) ->
  / 2 ^ 14 <= B2R (q_fc q : f64) <= 1 / 2 - / 2 ^ 14 -> (1 <= n <= 24)%nat -> (Z.of_nat n <= FO)%Z ->
  let k := (Bw, if hp then HP else LP) in let f := B2R (q_fc q : f64) in
  bw_scale_error hp f n <= / 8 ->
  exists fl, filt_setupN (N := F64 m) k FO (Some (Z.of_nat n)) q (filt_init t k FO) = Ok fl tt /\
    forall X (xs : list f64) zs, 0 <= X -> chain_ok (bw_chain hp f n) X -> List.Forall (fun x => FloatSpec.is_fin x /\ Rabs (B2R x) <= X) xs ->
    ideal_out (bw_cascade hp f n) (map B2R xs) zs ->
    let ys := snd (filt_run fl xs) : list f64 in
    length ys = length xs /\ List.Forall (fun y => FloatSpec.is_fin y /\ Rabs (B2R y) <= chain_bound (bw_chain hp f n) X) ys /\
    List.Forall2 (fun y z => Rabs (B2R y - z) <= chain_error (bw_chain hp f n) X 0) ys zs.
Proof. exact c66. Qed.
Print Assumptions C66_butterworth_output.
(** the gains used by [bw_chain] are gains of the recursions *)
Theorem C66_gain : forall hp f n i, 0 < f < 1 / 2 -> (i < bw_sections n)%nat ->
  rec_gain (i_a1 (bw_section hp f n i)) (i_a2 (bw_section hp f n i)) (bw_gain f n i).
Proof. exact c66_gain. Qed.
Print Assumptions C66_gain.
(** third order low pass at a quarter of the sampling rate, inputs in [-1,1]: never further than 10^-8 from the ideal filter *)
Example C66_example : libm_design design_libm /\ libm_response design_libm /\ B2R (fnorm 1 (-2)) = 1 / 4 /\ bw_scale_error false (1 / 4) 3 <= / 8 /\
  chain_ok (bw_chain false (1 / 4) 3) 1 /\ chain_error (bw_chain false (1 / 4) 3) 1 0 <= 1 / 10 ^ 8.
Proof. exact ex_c66. Qed.

(** any cascade whose stored coefficients are near ideal ones *)
Theorem C66_cascade_output : forall m (bs : list (biquad (F64 m))) (l : list dsect) t (xs : list f64) X zs,
  List.Forall fin_coeffs bs -> List.Forall2 stored_near bs l -> chain_ok l X ->
  0 <= X -> List.Forall (fun x => FloatSpec.is_fin x /\ Rabs (B2R x) <= X) xs -> ideal_out (map d_id l) (map B2R xs) zs ->
  let ys := snd (cs_run (MkCStages bs (repeat (st_init t) (length bs))) xs) : list f64 in
  length ys = length xs /\ length zs = length xs /\
  List.Forall (fun y => FloatSpec.is_fin y /\ Rabs (B2R y) <= chain_bound l X) ys /\
  List.Forall2 (fun y z => Rabs (B2R y - z) <= chain_error l X 0) ys zs.
Proof. exact c66_chain. Qed.
Print Assumptions C66_cascade_output.
(** a stored identity section, seen as an ideal one with an error bound of 1/1000 *)
Example C66_cascade_example : let d := DSect (Ideal 0 0 1 0 0) 1 (1 / 1000) (1 / 1000) in
  fin_coeffs (biquad0 : biquad (F64 design_libm)) /\ stored_near (biquad0 : biquad (F64 design_libm)) d /\ chain_ok [d] 1.
Proof. exact ex_c66_cascade. Qed.
