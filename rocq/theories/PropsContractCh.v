(** Property theorems: Chebyshev and RBJ filters designed in binary64 and run by code in which the compiler may fuse
    multiplications and additions in the filter functions ([c_run] of Contract.v: any choice at every operation and sample). *)
From Coq Require Import ZArith List Bool Reals.
From Coquelicot Require Import Coquelicot.
From Flocq Require Import IEEE754.BinarySingleNaN.
From Verif Require Import Num Outcome Types Biquad State Cascade RBJ PoleFilter Float64 FloatSpec Stream SigSpec RoundSpec DblSpec RBJSpec RbjShSpec BwDblSpec ChainSpec Contract
  ChCoefSpec ChDblSpec ChDblEx ChScaleSpec ChOut RespDblSpec RbjRespSpec RbjResp ContractCh.
Import ListNotations.
Local Open Scope R_scope.

(** C80: the bound of C76 for Chebyshev low and high passes holds for every contraction *)
Theorem C80_contraction_chebyshev : forall m (second hp : bool) (q : params (F64 m)) n FO t, libm_design m -> libm_response m -> libm_cheb m -> libm_pow10 m -> FloatSpec.is_fin (q_fc q : f64) -> FloatSpec.is_fin (q_db q : f64) ->
  ch_cut_ok (B2R (q_fc q : f64)) -> ch_db_ok second (B2R (q_db q : f64)) -> (1 <= n <= 24)%nat -> (Z.of_nat n <= FO)%Z ->
  let k := (if second then Ch2 else Ch1, if hp then HP else LP) in let f := B2R (q_fc q : f64) in let db := B2R (q_db q : f64) in
  ch_scale_error second hp f db n <= / 8 ->
  exists fl, filt_setupN (N := F64 m) k FO (Some (Z.of_nat n)) q (filt_init t k FO) = Ok fl tt /\
    forall X (xs ys : list f64) zs, 0 <= X -> chain_ok (ch_chain second hp f db n) X -> List.Forall (fun x => FloatSpec.is_fin x /\ Rabs (B2R x) <= X) xs ->
    ideal_out (ch_cascade second hp f db n) (map B2R xs) zs ->
    c_run (fl_stages fl) (fl_states fl) xs ys ->
    length ys = length xs /\ List.Forall (fun y => FloatSpec.is_fin y /\ Rabs (B2R y) <= chain_bound (ch_chain second hp f db n) X) ys /\
    List.Forall2 (fun y z => Rabs (B2R y - z) <= chain_error (ch_chain second hp f db n) X 0) ys zs.
Proof. exact c80_ch. Qed.
Print Assumptions C80_contraction_chebyshev.
(** every RBJ filter, set up and then reset *)
Theorem C80_contraction_rbj : forall m (f g q : f64) k (r : rbj (F64 m)), rbj_libm k m -> FloatSpec.is_fin f -> FloatSpec.is_fin g -> FloatSpec.is_fin q -> rbj_args k (B2R f) (B2R g) (B2R q) ->
  let i := rbj_ideal k (B2R f) (B2R g) (B2R q) in let e := rbj_coef_error k (B2R q) in
  exists r', rbj_obj_setupN (N := F64 m) k f g q r = Ok r' tt /\
    forall G X (xs ys : list f64) zs, let l := [DSect i G e e] in 0 <= X -> chain_ok l X -> List.Forall (fun x => FloatSpec.is_fin x /\ Rabs (B2R x) <= X) xs ->
    diffeq 1 (i_a1 i) (i_a2 i) (i_b0 i) (i_b1 i) (i_b2 i) (map B2R xs) zs ->
    c_run [r_bq r'] [r_st (rbj_reset r')] xs ys ->
    length ys = length xs /\ List.Forall (fun y => FloatSpec.is_fin y /\ Rabs (B2R y) <= chain_bound l X) ys /\ List.Forall2 (fun y z => Rabs (B2R y - z) <= chain_error l X 0) ys zs.
Proof. exact c80_rbj. Qed.
Print Assumptions C80_contraction_rbj.
(** low pass at a quarter of the sampling rate with q = 1 and inputs in [-1,1]: within 10^-9; Chebyshev II as in C76 *)
Example C80_example : (rbj_libm R_LowPass resp_libm /\ rbj_args R_LowPass (1 / 4) 0 1 /\
  let i := rbj_ideal R_LowPass (1 / 4) 0 1 in let e := rbj_coef_error R_LowPass 1 in let l := [DSect i 9 e e] in chain_ok l 1 /\ chain_error l 1 0 <= 1 / 10 ^ 9) /\
  (libm_design cheb_libm /\ libm_response cheb_libm /\ libm_cheb cheb_libm /\ libm_pow10 cheb_libm /\ ch_cut_ok (1 / 4) /\ ch_db_ok true 10 /\ ch_scale_error true false (1 / 4) 10 2 <= / 2 ^ 28 /\
   chain_ok (ch_chain true false (1 / 4) 10 2) 1).
Proof. split; [pose proof ex_c79; pose proof ex_c80; tauto|pose proof ex_c76; tauto]. Qed.
