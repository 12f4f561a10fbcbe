(** Property theorems about the filter functions when the compiler fuses multiplications and additions (C68). *)
From Coq Require Import ZArith List Bool Reals.
From Coquelicot Require Import Coquelicot.
From Flocq Require Import IEEE754.BinarySingleNaN.
From Verif Require Import Num Outcome Types Biquad State Cascade PoleFilter History Float64 RefLibm FloatSpec Examples SigSpec RoundSpec RoundExample DblSpec BwDblSpec ChainSpec Contract ContractLemmas ContractBw.
Import ListNotations.
Local Open Scope R_scope.

(** C68: the rounding error bound of C54 holds for every choice of fused and separate operations, at every operation of every sample *)
Theorem C68_contraction : forall m (bs : list (biquad (F64 m))) (l : list sect) t (xs ys : list f64) X zs,
  List.Forall fin_coeffs bs -> List.Forall2 sect_of bs l -> sects_ok l X ->
  0 <= X -> List.Forall (fun x => FloatSpec.is_fin x /\ Rabs (B2R x) <= X) xs -> exact_out l (map B2R xs) zs ->
  c_run bs (repeat (st_init t) (length bs)) xs ys ->
  length ys = length xs /\ length zs = length xs /\
  List.Forall (fun y => FloatSpec.is_fin y /\ Rabs (B2R y) <= last_bound l X) ys /\
  List.Forall2 (fun y z => Rabs (B2R y - z) <= total_error l X 0) ys zs.
Proof. exact @c68. Qed.
Print Assumptions C68_contraction.
Theorem C68_contraction_filter : forall m, (forall r th, npolar (F64 m) r th <> None) ->
  forall t k FO (f : filt (F64 m)) (l : list sect) (xs ys : list f64) X zs,
  (1 <= FO)%Z -> in_int (2 * FO) = true -> reachable_ok t k FO f ->
  List.Forall fin_coeffs (fl_stages f) -> List.Forall2 sect_of (fl_stages f) l -> sects_ok l X ->
  0 <= X -> List.Forall (fun x => FloatSpec.is_fin x /\ Rabs (B2R x) <= X) xs -> exact_out l (map B2R xs) zs ->
  c_run (fl_stages f) (fl_states (filt_reset f)) xs ys ->
  length ys = length xs /\ length zs = length xs /\
  List.Forall (fun y => FloatSpec.is_fin y /\ Rabs (B2R y) <= last_bound l X) ys /\
  List.Forall2 (fun y z => Rabs (B2R y - z) <= total_error l X 0) ys zs.
Proof. exact c68_filt. Qed.
Print Assumptions C68_contraction_filter.
(** and so does the bound of C66 for stored coefficients near ideal ones *)
Theorem C68_contraction_ideal : forall m (bs : list (biquad (F64 m))) (l : list dsect) t (xs ys : list f64) X zs,
  List.Forall fin_coeffs bs -> List.Forall2 stored_near bs l -> chain_ok l X ->
  0 <= X -> List.Forall (fun x => FloatSpec.is_fin x /\ Rabs (B2R x) <= X) xs -> ideal_out (map d_id l) (map B2R xs) zs ->
  c_run bs (repeat (st_init t) (length bs)) xs ys ->
  length ys = length xs /\ length zs = length xs /\
  List.Forall (fun y => FloatSpec.is_fin y /\ Rabs (B2R y) <= chain_bound l X) ys /\
  List.Forall2 (fun y z => Rabs (B2R y - z) <= chain_error l X 0) ys zs.
Proof. exact @c68_ideal. Qed.
Print Assumptions C68_contraction_ideal.
(** Butterworth filters, set up without and run with fused operations *)
Theorem C68_contraction_butterworth : forall m (hp : bool) (q : params (F64 m)) n FO t, libm_design m -> libm_response m -> FloatSpec.is_fin (q_fc q : f64) ->
  / 2 ^ 14 <= B2R (q_fc q : f64) <= 1 / 2 - / 2 ^ 14 -> (1 <= n <= 24)%nat -> (Z.of_nat n <= FO)%Z ->
  let k := (Bw, if hp then HP else LP) in let f := B2R (q_fc q : f64) in
  bw_scale_error hp f n <= / 8 ->
  exists fl, filt_setupN (N := F64 m) k FO (Some (Z.of_nat n)) q (filt_init t k FO) = Ok fl tt /\
    forall X (xs ys : list f64) zs, 0 <= X -> chain_ok (bw_chain hp f n) X -> List.Forall (fun x => FloatSpec.is_fin x /\ Rabs (B2R x) <= X) xs ->
    ideal_out (bw_cascade hp f n) (map B2R xs) zs ->
    c_run (fl_stages fl) (fl_states fl) xs ys ->
    length ys = length xs /\ List.Forall (fun y => FloatSpec.is_fin y /\ Rabs (B2R y) <= chain_bound (bw_chain hp f n) X) ys /\
    List.Forall2 (fun y z => Rabs (B2R y - z) <= chain_error (bw_chain hp f n) X 0) ys zs.
Proof. exact c68_bw. Qed.
Print Assumptions C68_contraction_butterworth.
(** the model without fused operations is one of the choices *)
Theorem C68_no_contraction : forall m (bs : list (biquad (F64 m))) (xs : list f64) ss, length ss = length bs ->
  c_run bs ss xs (snd (cs_run (MkCStages bs ss) xs) : list f64).
Proof. exact @c_plain_run. Qed.
Print Assumptions C68_no_contraction.
(** a section for which the hypotheses of [C68_contraction] hold, and for which fused operations change the output *)
Example C68_example : fin_coeffs ex_c /\ sect_of ex_c ex_cs /\ sects_ok [ex_cs] 1 /\
  List.Forall (fun x => FloatSpec.is_fin x /\ Rabs (B2R x) <= 1) ex_cx /\ total_error [ex_cs] 1 0 <= 1 / 10 ^ 12 /\
  forall t, exists ys, c_run [ex_c] [st_init t] ex_cx ys /\ ys <> (snd (cs_run (MkCStages [ex_c] [st_init t]) ex_cx) : list f64).
Proof. exact ex_c68. Qed.
