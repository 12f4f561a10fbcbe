(** Property theorems: filters that have been used before (earlier setups, thrown exceptions, samples) and are set up again. *)
From Coq Require Import ZArith List Bool Reals.
From Coquelicot Require Import Coquelicot.
From Flocq Require Import IEEE754.BinarySingleNaN.
From Verif Require Import Num Outcome Types Biquad State Cascade PoleFilter History CallSpec Float64 FloatSpec
  SigSpec RoundSpec DblSpec BwDblSpec BwDblFinal ChainSpec ChCoefSpec ChDblSpec ChScaleSpec RespDblSpec ReuseLemmas.
Import ListNotations.
Local Open Scope R_scope.

(** C81: setup () and then reset () on a filter with a past gives what the same setup () gives on a new filter: response, poles and zeros,
    coefficients, delay lines and all later outputs. [calm]: no earlier setup for the same analog prototype threw a design error (needed: C24). *)
Theorem C81_setup_then_reset : forall N : num, (forall r th, npolar N r th <> None) -> forall t k FO os (f fl0 : filt N) r q,
  (1 <= FO)%Z -> in_int (2 * FO) = true -> List.Forall op_ok os -> order_ok r -> (1 <= order_of FO r)%Z ->
  (is_shelf (snd k) = true -> exact_param (q_gain q)) -> (fst k <> Bw -> exact_param (q_db q)) ->
  steps k FO os (filt_init t k FO) = Some f -> calm k FO r q os (filt_init t k FO) ->
  filt_setupN k FO r q (filt_init t k FO) = Ok fl0 tt ->
  exists fl, filt_setupN k FO r q f = Ok fl tt /\ looks_same fl0 (filt_reset fl).
Proof. exact c81. Qed.
Print Assumptions C81_setup_then_reset.
(** a Butterworth low or high pass in binary64, however it was used before: output (after reset) and response () as in C66 and C78 *)
Theorem C81_butterworth_used : forall m, (forall r th, lm_polar m r th <> None) -> libm_design m -> libm_response m -> forall (hp : bool) (q : params (F64 m)) n FO t os (f0 : filt (F64 m)),
  FloatSpec.is_fin (q_fc q : f64) ->
    / 2 ^ 14 <= B2R (q_fc q : f64) <= 1 / 2 - / 2 ^ 14 -> (1 <= n <= 24)%nat -> (Z.of_nat n <= FO)%Z -> in_int (2 * FO) = true ->
    let k := (Bw, if hp then HP else LP) in let f := B2R (q_fc q : f64) in let e := bw_scale_error hp f n in let ds := bw_cascade hp f n in let l := bw_chain hp f n in
    e <= / 2 ^ 10 -> List.Forall op_ok os -> steps k FO os (filt_init t k FO) = Some f0 -> calm k FO (Some (Z.of_nat n)) q os (filt_init t k FO) ->
    exists fl, filt_setupN (N := F64 m) k FO (Some (Z.of_nat n)) q f0 = Ok fl tt /\
      (forall X (xs : list f64) zs, 0 <= X -> chain_ok l X -> List.Forall (fun x => FloatSpec.is_fin x /\ Rabs (B2R x) <= X) xs ->
       ideal_out ds (map B2R xs) zs -> let ys := snd (filt_run (filt_reset fl) xs) : list f64 in
       length ys = length xs /\ List.Forall (fun y => FloatSpec.is_fin y /\ Rabs (B2R y) <= chain_bound l X) ys /\
       List.Forall2 (fun y z => Rabs (B2R y - z) <= chain_error l X 0) ys zs) /\
      forall x : f64, FloatSpec.is_fin x -> 0 <= B2R x <= 1 / 2 -> resp_rel e (bw_sections n) * i_cond ds (B2R x) <= / 4 ->
      exists h, filt_response fl x = Val h /\ cfin h /\ Cmod (c2c h - i_resp ds (B2R x))%C <= resp_error e ds (B2R x).
Proof. exact c81_bw. Qed.
Print Assumptions C81_butterworth_used.
(** the same for Chebyshev filters *)
Theorem C81_chebyshev_used : forall m, (forall r th, lm_polar m r th <> None) -> libm_design m -> libm_response m -> libm_cheb m -> libm_pow10 m -> forall (second hp : bool) (q : params (F64 m)) n FO t os (f0 : filt (F64 m)),
  FloatSpec.is_fin (q_fc q : f64) -> FloatSpec.is_fin (q_db q : f64) ->
    ch_cut_ok (B2R (q_fc q : f64)) -> ch_db_ok second (B2R (q_db q : f64)) -> (1 <= n <= 24)%nat -> (Z.of_nat n <= FO)%Z -> in_int (2 * FO) = true ->
    let k := (if second then Ch2 else Ch1, if hp then HP else LP) in let f := B2R (q_fc q : f64) in let db := B2R (q_db q : f64) in
    let e := ch_scale_error second hp f db n in let ds := ch_cascade second hp f db n in let l := ch_chain second hp f db n in
    e <= / 2 ^ 10 -> List.Forall op_ok os -> steps k FO os (filt_init t k FO) = Some f0 -> calm k FO (Some (Z.of_nat n)) q os (filt_init t k FO) ->
    exists fl, filt_setupN (N := F64 m) k FO (Some (Z.of_nat n)) q f0 = Ok fl tt /\
      (forall X (xs : list f64) zs, 0 <= X -> chain_ok l X -> List.Forall (fun x => FloatSpec.is_fin x /\ Rabs (B2R x) <= X) xs ->
       ideal_out ds (map B2R xs) zs -> let ys := snd (filt_run (filt_reset fl) xs) : list f64 in
       length ys = length xs /\ List.Forall (fun y => FloatSpec.is_fin y /\ Rabs (B2R y) <= chain_bound l X) ys /\
       List.Forall2 (fun y z => Rabs (B2R y - z) <= chain_error l X 0) ys zs) /\
      forall x : f64, FloatSpec.is_fin x -> 0 <= B2R x <= 1 / 2 -> resp_rel e (bw_sections n) * i_cond ds (B2R x) <= / 4 ->
      exists h, filt_response fl x = Val h /\ cfin h /\ Cmod (c2c h - i_resp ds (B2R x))%C <= resp_error e ds (B2R x).
Proof. exact c81_ch. Qed.
Print Assumptions C81_chebyshev_used.
(** first order design, three samples, an order that is too large (throws); then a third order design *)
Example C81_example : (forall r th, lm_polar design_libm r th <> None) /\ libm_design design_libm /\ libm_response design_libm /\ FloatSpec.is_fin (q_fc used_q : f64) /\ B2R (q_fc used_q : f64) = 1 / 4 /\
  bw_scale_error false (1 / 4) 3 <= / 2 ^ 10 /\ List.Forall op_ok used_calls /\
  exists f0, steps (Bw, LP) 4 used_calls (filt_init DF2 (Bw, LP) 4) = Some f0 /\ calm (Bw, LP) 4 (Some 3%Z) used_q used_calls (filt_init DF2 (Bw, LP) 4) /\ filt_numStages f0 = 1%Z.
Proof. exact ex_c81. Qed.
