(** Property theorems: what filters in binary64 settle on when the compiler fuses multiplications and additions (C98).
    The mathematical library is arbitrary but must be accurate ([libm_design], [libm_response], ...). *)
From Coq Require Import ZArith List Bool Reals.
From Coquelicot Require Import Coquelicot.
From Flocq Require Import IEEE754.BinarySingleNaN.
From Verif Require Import Num Outcome Types Biquad State Cascade RBJ PoleFilter Float64 FloatSpec Stream SigSpec RoundSpec DblSpec BwDblSpec BwDblFinal ChainSpec BwOut Contract ContractProofs ContractLemmas ContractBw
  ChCoefSpec ChDblSpec ChDblEx ChScaleSpec ChOut RespDblSpec RbjRespSpec RbjResp ShelfDblSpec ShelfOut ShelfEx ContractCh SettleSpec Settle SettleResp SettleFma.
Import ListNotations.
Local Open Scope R_scope.

(** C98: the settling of C93 with the same bound for every choice of fused and separate operations, at every operation of every sample; N does not depend on the choices; any cascade whose stored coefficients are near ideal ones *)
Theorem C98_cascade : forall (l : list dsect) X e fr (A : C) eps, chain_ok l X -> 0 <= X -> 0 <= e -> 0 < eps -> exists N, forall m (bs : list (biquad (F64 m))) t (xs ys : list f64),
  List.Forall fin_coeffs bs -> List.Forall2 stored_near bs l -> follows A fr e X xs -> c_run bs (repeat (st_init t) (length bs)) xs ys ->
  length ys = length xs /\ settles N (i_resp (map d_id l) fr * A)%C fr (chain_error l X e + eps) ys.
Proof. exact c98_cascade. Qed.
Print Assumptions C98_cascade.
(** Butterworth low and high pass, set up without and run with fused operations *)
Theorem C98_butterworth : forall m (hp : bool) (q : params (F64 m)) n FO t, libm_design m -> libm_response m -> FloatSpec.is_fin (q_fc q : f64) ->
  / 2 ^ 14 <= B2R (q_fc q : f64) <= 1 / 2 - / 2 ^ 14 -> (1 <= n <= 24)%nat -> (Z.of_nat n <= FO)%Z ->
  let k := (Bw, if hp then HP else LP) in let f := B2R (q_fc q : f64) in let l := bw_chain hp f n in
  bw_scale_error hp f n <= / 8 ->
  exists fl, filt_setupN (N := F64 m) k FO (Some (Z.of_nat n)) q (filt_init t k FO) = Ok fl tt /\
    forall X e fr (A : C) eps, chain_ok l X -> 0 <= X -> 0 <= e -> 0 < eps -> exists N, forall xs ys : list f64, follows A fr e X xs -> c_run (fl_stages fl) (fl_states fl) xs ys ->
    length ys = length xs /\ settles N (i_resp (bw_cascade hp f n) fr * A)%C fr (chain_error l X e + eps) ys.
Proof. exact c98_butterworth. Qed.
Print Assumptions C98_butterworth.
(** the filter and input of C93_example; an output exists (C68_no_contraction), and fused operations can change it (C68_example) *)
Example C98_example : libm_design design_libm /\ libm_response design_libm /\ bw_scale_error false (1 / 4) 3 <= / 8 /\ chain_ok (bw_chain false (1 / 4) 3) 1 /\ chain_error (bw_chain false (1 / 4) 3) 1 0 <= 1 / 10 ^ 8 /\
  (forall n, length (quarter_wave n) = n /\ follows (RtoC 1) (1 / 4) 0 1 (quarter_wave n)) /\
  (forall m (bs : list (biquad (F64 m))) t xs, exists ys, c_run bs (repeat (st_init t) (length bs)) xs ys).
Proof. destruct ex_c93 as (H1 & H2 & _ & H4 & H5 & H6 & _ & H8). repeat (split; [assumption|]). intros m bs t xs. eexists. apply c_plain_run. apply repeat_length. Qed.
(** Chebyshev low and high pass, types I and II *)
Theorem C98_chebyshev : forall m (second hp : bool) (q : params (F64 m)) n FO t, libm_design m -> libm_response m -> libm_cheb m -> libm_pow10 m -> FloatSpec.is_fin (q_fc q : f64) -> FloatSpec.is_fin (q_db q : f64) ->
  ch_cut_ok (B2R (q_fc q : f64)) -> ch_db_ok second (B2R (q_db q : f64)) -> (1 <= n <= 24)%nat -> (Z.of_nat n <= FO)%Z ->
  let k := (if second then Ch2 else Ch1, if hp then HP else LP) in let f := B2R (q_fc q : f64) in let db := B2R (q_db q : f64) in let l := ch_chain second hp f db n in
  ch_scale_error second hp f db n <= / 8 ->
  exists fl, filt_setupN (N := F64 m) k FO (Some (Z.of_nat n)) q (filt_init t k FO) = Ok fl tt /\
    forall X e fr (A : C) eps, chain_ok l X -> 0 <= X -> 0 <= e -> 0 < eps -> exists N, forall xs ys : list f64, follows A fr e X xs -> c_run (fl_stages fl) (fl_states fl) xs ys ->
    length ys = length xs /\ settles N (i_resp (ch_cascade second hp f db n) fr * A)%C fr (chain_error l X e + eps) ys.
Proof. exact c98_chebyshev. Qed.
Print Assumptions C98_chebyshev.
(** Butterworth low and high shelf *)
Theorem C98_shelf : forall m (hs : bool) (q : params (F64 m)) n FO t, libm_design m -> libm_response m -> libm_bwshelf m -> FloatSpec.is_fin (q_fc q : f64) -> FloatSpec.is_fin (q_gain q : f64) ->
  sh_cut_ok (B2R (q_fc q : f64)) -> sh_gain_ok (B2R (q_gain q : f64)) -> (1 <= n <= 24)%nat -> (Z.of_nat n <= FO)%Z ->
  let k := (Bw, if hs then HSh else LSh) in let f := B2R (q_fc q : f64) in let ga := B2R (q_gain q : f64) in let l := sh_chain hs f ga n in
  sh_scale_error hs f ga n <= / 8 ->
  exists fl, filt_setupN (N := F64 m) k FO (Some (Z.of_nat n)) q (filt_init t k FO) = Ok fl tt /\
    forall X e fr (A : C) eps, chain_ok l X -> 0 <= X -> 0 <= e -> 0 < eps -> exists N, forall xs ys : list f64, follows A fr e X xs -> c_run (fl_stages fl) (fl_states fl) xs ys ->
    length ys = length xs /\ settles N (i_resp (sh_cascade hs f ga n) fr * A)%C fr (chain_error l X e + eps) ys.
Proof. exact c98_shelf. Qed.
Print Assumptions C98_shelf.
(** the ten RBJ filters, set up and then reset *)
Theorem C98_rbj : forall m (f g q : f64) k (r : rbj (F64 m)), rbj_libm k m -> FloatSpec.is_fin f -> FloatSpec.is_fin g -> FloatSpec.is_fin q -> rbj_args k (B2R f) (B2R g) (B2R q) ->
  let i := rbj_ideal k (B2R f) (B2R g) (B2R q) in let er := rbj_coef_error k (B2R q) in
  exists r', rbj_obj_setupN (N := F64 m) k f g q r = Ok r' tt /\
    forall G X e fr (A : C) eps, let l := [DSect i G er er] in chain_ok l X -> 0 <= X -> 0 <= e -> 0 < eps -> exists N, forall xs ys : list f64, follows A fr e X xs -> c_run [r_bq r'] [r_st (rbj_reset r')] xs ys ->
    length ys = length xs /\ settles N (i_resp [i] fr * A)%C fr (chain_error l X e + eps) ys.
Proof. exact c98_rbj. Qed.
Print Assumptions C98_rbj.
(** the filters of C76_example, C85_example and C80_example *)
Example C98_others_example : (ch_scale_error true false (1 / 4) 10 2 <= / 2 ^ 28 /\ chain_ok (ch_chain true false (1 / 4) 10 2) 1) /\ (sh_scale_error false (1 / 4) 20 2 <= / 2 ^ 35 /\ chain_ok (sh_chain false (1 / 4) 20 2) 1) /\
  (let i := rbj_ideal R_LowPass (1 / 4) 0 1 in let e := rbj_coef_error R_LowPass 1 in chain_ok [DSect i 9 e e] 1).
Proof. split; [pose proof ex_c76; tauto|split; [pose proof ex_c85; tauto|exact (proj1 ex_c80)]]. Qed.
