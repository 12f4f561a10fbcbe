(** Property theorems: filters designed in binary64 fall silent (C91). *)
From Coq Require Import ZArith List Bool Reals.
From Coquelicot Require Import Coquelicot.
From Flocq Require Import IEEE754.BinarySingleNaN.
From Verif Require Import Num Outcome Types Biquad State Cascade RBJ PoleFilter Float64 RefLibm FloatSpec Stream SigSpec RoundSpec DblSpec BwDblSpec BwDblFinal ChainSpec BwOut
  ChCoefSpec ChDblSpec ChDblEx ChScaleSpec ChOut RbjRespSpec RbjResp ShelfDblSpec ShelfEx RunOnSpec DecaySpec DecayLemmas DesFallSpec DesFall DesFallEx.
Import ListNotations.
Local Open Scope R_scope.

(** C91: a Butterworth low or high pass set up in double, with any finite delay lines up to c (also those of spare stages): inputs that fall like c / rho^n, silence for instance, give outputs that fall in the same way *)
Theorem C91_butterworth : forall m (hp : bool) (q : params (F64 m)) n FO t, libm_design m -> libm_response m -> FloatSpec.is_fin (q_fc q : f64) ->
  / 2 ^ 14 <= B2R (q_fc q : f64) <= 1 / 2 - / 2 ^ 14 -> (1 <= n <= 24)%nat -> (Z.of_nat n <= FO)%Z ->
  let k := (Bw, if hp then HP else LP) in let f := B2R (q_fc q : f64) in
  bw_scale_error hp f n <= / 8 ->
  exists fl, filt_setupN (N := F64 m) k FO (Some (Z.of_nat n)) q (filt_init t k FO) = Ok fl tt /\
    forall (ss : list (st (F64 m))) (xs : list f64) rho c u, let l := padded (bw_chain hp f n) (maxStagesOf (snd k) FO) in
    length ss = Z.to_nat (maxStagesOf (snd k) FO) -> List.Forall (st_within c) ss -> 0 <= c -> 0 <= u -> 1 <= rho -> rho ^ 2 <= 2 -> dfall_ok rho c l u ->
    (forall i, (i < length xs)%nat -> FloatSpec.is_fin (nth i xs f0) /\ Rabs (B2R (nth i xs f0)) <= u * falling rho c i) ->
    let ys := snd (filt_run (MkFilt (fl_pf fl) ss) xs) : list f64 in
    length ys = length xs /\ forall i, (i < length xs)%nat -> FloatSpec.is_fin (nth i ys f0) /\ Rabs (B2R (nth i ys f0)) <= dfall l u * falling rho c i.
Proof. exact c91_butterworth. Qed.
Print Assumptions C91_butterworth.
(** third order low pass at a quarter of the sampling rate in a filter of order 4, delay lines up to 2 *)
Example C91_example : libm_design design_libm /\ libm_response design_libm /\ B2R (fnorm 1 (-2)) = 1 / 4 /\ bw_scale_error false (1 / 4) 3 <= / 8 /\
  1 <= 129 / 128 /\ (129 / 128) ^ 2 <= 2 /\
  dfall_ok (129 / 128) 2 (padded (bw_chain false (1 / 4) 3) (maxStagesOf LP 4)) 1 /\ dfall (padded (bw_chain false (1 / 4) 3) (maxStagesOf LP 4)) 1 <= 2 ^ 23.
Proof. exact ex_c91. Qed.

(** Chebyshev low and high pass, types I and II *)
Theorem C91_chebyshev : forall m (second hp : bool) (q : params (F64 m)) n FO t, libm_design m -> libm_response m -> libm_cheb m -> libm_pow10 m -> FloatSpec.is_fin (q_fc q : f64) -> FloatSpec.is_fin (q_db q : f64) ->
  ch_cut_ok (B2R (q_fc q : f64)) -> ch_db_ok second (B2R (q_db q : f64)) -> (1 <= n <= 24)%nat -> (Z.of_nat n <= FO)%Z ->
  let k := (if second then Ch2 else Ch1, if hp then HP else LP) in let f := B2R (q_fc q : f64) in let db := B2R (q_db q : f64) in
  ch_scale_error second hp f db n <= / 8 ->
  exists fl, filt_setupN (N := F64 m) k FO (Some (Z.of_nat n)) q (filt_init t k FO) = Ok fl tt /\
    forall (ss : list (st (F64 m))) (xs : list f64) rho c u, let l := padded (ch_chain second hp f db n) (maxStagesOf (snd k) FO) in
    length ss = Z.to_nat (maxStagesOf (snd k) FO) -> List.Forall (st_within c) ss -> 0 <= c -> 0 <= u -> 1 <= rho -> rho ^ 2 <= 2 -> dfall_ok rho c l u ->
    (forall i, (i < length xs)%nat -> FloatSpec.is_fin (nth i xs f0) /\ Rabs (B2R (nth i xs f0)) <= u * falling rho c i) ->
    let ys := snd (filt_run (MkFilt (fl_pf fl) ss) xs) : list f64 in
    length ys = length xs /\ forall i, (i < length xs)%nat -> FloatSpec.is_fin (nth i ys f0) /\ Rabs (B2R (nth i ys f0)) <= dfall l u * falling rho c i.
Proof. exact c91_chebyshev. Qed.
Print Assumptions C91_chebyshev.
(** the filter of C76_example *)
Example C91_chebyshev_example : ch_scale_error true false (1 / 4) 10 2 <= / 2 ^ 28 /\ dfall_ok (257 / 256) 2 (padded (ch_chain true false (1 / 4) 10 2) (maxStagesOf LP 2)) 1 /\ dfall (padded (ch_chain true false (1 / 4) 10 2) (maxStagesOf LP 2)) 1 <= 2 ^ 15.
Proof. exact ex_c91_ch. Qed.

(** Butterworth low and high shelf *)
Theorem C91_shelf : forall m (hs : bool) (q : params (F64 m)) n FO t, libm_design m -> libm_response m -> libm_bwshelf m -> FloatSpec.is_fin (q_fc q : f64) -> FloatSpec.is_fin (q_gain q : f64) ->
  sh_cut_ok (B2R (q_fc q : f64)) -> sh_gain_ok (B2R (q_gain q : f64)) -> (1 <= n <= 24)%nat -> (Z.of_nat n <= FO)%Z ->
  let k := (Bw, if hs then HSh else LSh) in let f := B2R (q_fc q : f64) in let ga := B2R (q_gain q : f64) in
  sh_scale_error hs f ga n <= / 8 ->
  exists fl, filt_setupN (N := F64 m) k FO (Some (Z.of_nat n)) q (filt_init t k FO) = Ok fl tt /\
    forall (ss : list (st (F64 m))) (xs : list f64) rho c u, let l := padded (sh_chain hs f ga n) (maxStagesOf (snd k) FO) in
    length ss = Z.to_nat (maxStagesOf (snd k) FO) -> List.Forall (st_within c) ss -> 0 <= c -> 0 <= u -> 1 <= rho -> rho ^ 2 <= 2 -> dfall_ok rho c l u ->
    (forall i, (i < length xs)%nat -> FloatSpec.is_fin (nth i xs f0) /\ Rabs (B2R (nth i xs f0)) <= u * falling rho c i) ->
    let ys := snd (filt_run (MkFilt (fl_pf fl) ss) xs) : list f64 in
    length ys = length xs /\ forall i, (i < length xs)%nat -> FloatSpec.is_fin (nth i ys f0) /\ Rabs (B2R (nth i ys f0)) <= dfall l u * falling rho c i.
Proof. exact c91_shelf. Qed.
Print Assumptions C91_shelf.
(** the filter of C85_example *)
Example C91_shelf_example : sh_scale_error false (1 / 4) 20 2 <= / 2 ^ 35 /\ dfall_ok (257 / 256) 2 (padded (sh_chain false (1 / 4) 20 2) (maxStagesOf LSh 2)) 1 /\ dfall (padded (sh_chain false (1 / 4) 20 2) (maxStagesOf LSh 2)) 1 <= 2 ^ 15.
Proof. exact ex_c91_sh. Qed.

(** the ten RBJ filters, which keep their delay lines in setup *)
Theorem C91_rbj : forall m (f g q : f64) k (r : rbj (F64 m)), rbj_libm k m -> FloatSpec.is_fin f -> FloatSpec.is_fin g -> FloatSpec.is_fin q -> rbj_args k (B2R f) (B2R g) (B2R q) ->
  let i := rbj_ideal k (B2R f) (B2R g) (B2R q) in let e := rbj_coef_error k (B2R q) in
  exists r', rbj_obj_setupN (N := F64 m) k f g q r = Ok r' tt /\
    forall G (xs : list f64) rho c u, let l := [DSect i G e e] in
    st_within c (r_st r) -> 0 <= c -> 0 <= u -> 1 <= rho -> rho ^ 2 <= 2 -> dfall_ok rho c l u ->
    (forall i, (i < length xs)%nat -> FloatSpec.is_fin (nth i xs f0) /\ Rabs (B2R (nth i xs f0)) <= u * falling rho c i) ->
    let ys := snd (rbj_run r' xs) : list f64 in
    length ys = length xs /\ forall i, (i < length xs)%nat -> FloatSpec.is_fin (nth i ys f0) /\ Rabs (B2R (nth i ys f0)) <= dfall l u * falling rho c i.
Proof. exact c91_rbj. Qed.
Print Assumptions C91_rbj.
(** the filter of C80_example *)
Example C91_rbj_example : let i := rbj_ideal R_LowPass (1 / 4) 0 1 in let e := rbj_coef_error R_LowPass 1 in dfall_ok (257 / 256) 2 [DSect i 9 e e] 1 /\ dfall [DSect i 9 e e] 1 <= 2 ^ 15.
Proof. exact ex_dfall_rbj. Qed.

(** what these levels come to: after some time, less than 2^-1059 for ever *)
Theorem C91_level : forall rho c, 1 < rho -> 0 <= c -> exists N, forall n, (N <= n)%nat -> falling rho c n <= 2 * g_abs.
Proof. exact falling_limit. Qed.
Print Assumptions C91_level.
Example C91_level_example : 1 < 129 / 128 /\ 0 <= 2 /\ falling (129 / 128) 2 0 > 1.
Proof. exact ex_falling. Qed.
