(** Property theorems: Butterworth low and high shelves designed and run in binary64. The mathematical library is arbitrary but must be
    accurate ([libm_design], [libm_response], [libm_bwshelf]; the last asks polar () with a negative radius to behave as libstdc++ does). *)
From Coq Require Import ZArith List Bool Reals Lra.
From Coquelicot Require Import Coquelicot.
From Flocq Require Import IEEE754.BinarySingleNaN.
From Verif Require Import Num Outcome Types Biquad State Cascade PoleFilter History CallSpec Float64 FloatSpec Stream SigSpec StabProofs RoundSpec DblSpec BwDblSpec ChainSpec ChCoefSpec ChDblSpec ChDblEx ChScaleSpec
  RespDblSpec DesignSpec ShelfSpec RespOutSpec Contract ShelfDblSpec ShelfDbl2 ShelfScale ShelfOut ShelfEx.
Import ListNotations.
Local Open Scope R_scope.

(** C83: setup () succeeds; the feedback coefficients of every section, and the feedforward ones of every section but the first, are within
    sh_error of the exact design (C82), and every section is stable *)
Theorem C83_shelf_in_double : forall m (hs : bool) (q : params (F64 m)) n FO, libm_design m -> libm_bwshelf m -> FloatSpec.is_fin (q_fc q : f64) -> FloatSpec.is_fin (q_gain q : f64) ->
  sh_cut_ok (B2R (q_fc q : f64)) -> sh_gain_ok (B2R (q_gain q : f64)) -> (1 <= n <= 32)%nat -> (Z.of_nat n <= FO)%Z ->
  let k := (Bw, if hs then HSh else LSh) in let f := B2R (q_fc q : f64) in let gain := B2R (q_gain q : f64) in
  exists p, setupN (N := F64 m) k FO (Some (Z.of_nat n)) q (pf_init k FO) = Ok p tt /\
    c_numStages (pf_cas p) = Z.of_nat (bw_sections n) /\
    forall i, (i < bw_sections n)%nat -> let d := sh_ideal hs f gain n i in exists b, cas_index (pf_cas p) (Z.of_nat i) = Val b /\
      FloatSpec.is_fin (m_a1 b : f64) /\ FloatSpec.is_fin (m_a2 b : f64) /\
      Rabs (B2R (m_a1 b : f64) - i_a1 d) <= sh_error f /\ Rabs (B2R (m_a2 b : f64) - i_a2 d) <= sh_error f /\
      stable_poly (B2R (m_a1 b : f64)) (B2R (m_a2 b : f64)) /\
      (i <> 0%nat -> FloatSpec.is_fin (m_b0 b : f64) /\ FloatSpec.is_fin (m_b1 b : f64) /\ FloatSpec.is_fin (m_b2 b : f64) /\
        B2R (m_b0 b : f64) = 1 /\ Rabs (B2R (m_b1 b : f64) - i_b1 d) <= sh_error f /\ Rabs (B2R (m_b2 b : f64) - i_b2 d) <= sh_error f).
Proof. exact c83. Qed.
Print Assumptions C83_shelf_in_double.
Example C83_example : libm_design cheb_libm /\ libm_bwshelf cheb_libm /\ FloatSpec.is_fin (fnorm 1 (-2)) /\ B2R (fnorm 1 (-2)) = 1 / 4 /\ sh_cut_ok (1 / 4) /\
  FloatSpec.is_fin (fofZ 20) /\ B2R (fofZ 20) = 20 /\ sh_gain_ok 20 /\ sh_error (1 / 4) <= 2 / 10 ^ 13.
Proof. pose proof ex_c85. split; [tauto|]. split; [tauto|]. split; [tauto|]. split; [tauto|]. split; [tauto|]. split; [tauto|]. split; [tauto|]. split; [tauto|]. rewrite shx_err. lra. Qed.

(** C84: the feedforward coefficients of the first section, which carry the scale factor, are within a relative error of the ideal ones *)
Theorem C84_shelf_scale_in_double : forall m (hs : bool) (q : params (F64 m)) n FO, libm_design m -> libm_response m -> libm_bwshelf m -> FloatSpec.is_fin (q_fc q : f64) -> FloatSpec.is_fin (q_gain q : f64) ->
  sh_cut_ok (B2R (q_fc q : f64)) -> sh_gain_ok (B2R (q_gain q : f64)) -> (1 <= n <= 24)%nat -> (Z.of_nat n <= FO)%Z ->
  let k := (Bw, if hs then HSh else LSh) in let f := B2R (q_fc q : f64) in let gain := B2R (q_gain q : f64) in
  sh_scale_error hs f gain n <= / 8 ->
  exists p b, setupN (N := F64 m) k FO (Some (Z.of_nat n)) q (pf_init k FO) = Ok p tt /\ cas_index (pf_cas p) 0 = Val b /\
    let d := sh_ideal hs f gain n 0 in let s := sh_scale hs f gain n in
    FloatSpec.is_fin (m_b0 b : f64) /\ FloatSpec.is_fin (m_b1 b : f64) /\ FloatSpec.is_fin (m_b2 b : f64) /\
    Rabs (B2R (m_b0 b : f64) - i_b0 d * s) <= sh_scale_error hs f gain n * s /\
    Rabs (B2R (m_b1 b : f64) - i_b1 d * s) <= sh_scale_error hs f gain n * s /\
    Rabs (B2R (m_b2 b : f64) - i_b2 d * s) <= sh_scale_error hs f gain n * s.
Proof. exact c84. Qed.
Print Assumptions C84_shelf_scale_in_double.
Example C84_example : libm_design cheb_libm /\ libm_response cheb_libm /\ libm_bwshelf cheb_libm /\
  FloatSpec.is_fin (fnorm 1 (-2)) /\ B2R (fnorm 1 (-2)) = 1 / 4 /\ sh_cut_ok (1 / 4) /\ FloatSpec.is_fin (fofZ 20) /\ B2R (fofZ 20) = 20 /\ sh_gain_ok 20 /\
  sh_scale_error false (1 / 4) 20 2 <= / 2 ^ 35 /\ sh_scale false (1 / 4) 20 2 = sqrt 10.
Proof. pose proof ex_c85. pose proof shx_scale. unfold shx_q in *. tauto. Qed.

(** C85: a shelf, set up and run in double, stays near the exact output of the ideal shelf for all time *)
Theorem C85_shelf_output : forall m (hs : bool) (q : params (F64 m)) n FO t, libm_design m -> libm_response m -> libm_bwshelf m -> FloatSpec.is_fin (q_fc q : f64) -> FloatSpec.is_fin (q_gain q : f64) ->
  sh_cut_ok (B2R (q_fc q : f64)) -> sh_gain_ok (B2R (q_gain q : f64)) -> (1 <= n <= 24)%nat -> (Z.of_nat n <= FO)%Z ->
  let k := (Bw, if hs then HSh else LSh) in let f := B2R (q_fc q : f64) in let ga := B2R (q_gain q : f64) in let l := sh_chain hs f ga n in
  sh_scale_error hs f ga n <= / 8 ->
  exists fl, filt_setupN (N := F64 m) k FO (Some (Z.of_nat n)) q (filt_init t k FO) = Ok fl tt /\
    forall X (xs : list f64) zs, 0 <= X -> chain_ok l X -> List.Forall (fun x => FloatSpec.is_fin x /\ Rabs (B2R x) <= X) xs ->
    ideal_out (sh_cascade hs f ga n) (map B2R xs) zs ->
    let ys := snd (filt_run fl xs) : list f64 in
    length ys = length xs /\ List.Forall (fun y => FloatSpec.is_fin y /\ Rabs (B2R y) <= chain_bound l X) ys /\
    List.Forall2 (fun y z => Rabs (B2R y - z) <= chain_error l X 0) ys zs.
Proof. exact c85. Qed.
Print Assumptions C85_shelf_output.
(** the gain bound used for the sections in [sh_chain] is a gain of the ideal recursions *)
Theorem C85_gain : forall hs f ga n i, 0 < f < 1 / 2 -> (1 <= n)%nat -> (i < bw_sections n)%nat ->
  rec_gain (i_a1 (sh_section hs f ga n i)) (i_a2 (sh_section hs f ga n i)) (sh_gain_bound hs f ga n i).
Proof. exact c85_gain. Qed.
Print Assumptions C85_gain.
(** the same when the compiler contracts products and sums to fused multiply-adds anywhere in the sample loop *)
Theorem C85_contraction : forall m (hs : bool) (q : params (F64 m)) n FO t, libm_design m -> libm_response m -> libm_bwshelf m -> FloatSpec.is_fin (q_fc q : f64) -> FloatSpec.is_fin (q_gain q : f64) ->
  sh_cut_ok (B2R (q_fc q : f64)) -> sh_gain_ok (B2R (q_gain q : f64)) -> (1 <= n <= 24)%nat -> (Z.of_nat n <= FO)%Z ->
  let k := (Bw, if hs then HSh else LSh) in let f := B2R (q_fc q : f64) in let ga := B2R (q_gain q : f64) in let l := sh_chain hs f ga n in
  sh_scale_error hs f ga n <= / 8 ->
  exists fl, filt_setupN (N := F64 m) k FO (Some (Z.of_nat n)) q (filt_init t k FO) = Ok fl tt /\
    forall X (xs ys : list f64) zs, 0 <= X -> chain_ok l X -> List.Forall (fun x => FloatSpec.is_fin x /\ Rabs (B2R x) <= X) xs ->
    ideal_out (sh_cascade hs f ga n) (map B2R xs) zs -> c_run (fl_stages fl) (fl_states fl) xs ys ->
    length ys = length xs /\ List.Forall (fun y => FloatSpec.is_fin y /\ Rabs (B2R y) <= chain_bound l X) ys /\
    List.Forall2 (fun y z => Rabs (B2R y - z) <= chain_error l X 0) ys zs.
Proof. exact c85_c. Qed.
Print Assumptions C85_contraction.
(** the same for a shelf that was used before, set up again and reset *)
Theorem C85_shelf_used : forall m, (forall r th, lm_polar m r th <> None) -> forall (hs : bool) (q : params (F64 m)) n FO t os (f0 : filt (F64 m)), libm_design m -> libm_response m -> libm_bwshelf m -> FloatSpec.is_fin (q_fc q : f64) -> FloatSpec.is_fin (q_gain q : f64) ->
  sh_cut_ok (B2R (q_fc q : f64)) -> sh_gain_ok (B2R (q_gain q : f64)) -> B2R (q_gain q : f64) <> 0 -> (1 <= n <= 24)%nat -> (Z.of_nat n <= FO)%Z -> in_int (2 * FO) = true ->
  let k := (Bw, if hs then HSh else LSh) in let f := B2R (q_fc q : f64) in let ga := B2R (q_gain q : f64) in let l := sh_chain hs f ga n in
  sh_scale_error hs f ga n <= / 8 ->
  List.Forall op_ok os -> steps k FO os (filt_init t k FO) = Some f0 -> calm k FO (Some (Z.of_nat n)) q os (filt_init t k FO) ->
  exists fl, filt_setupN (N := F64 m) k FO (Some (Z.of_nat n)) q f0 = Ok fl tt /\
    forall X (xs : list f64) zs, 0 <= X -> chain_ok l X -> List.Forall (fun x => FloatSpec.is_fin x /\ Rabs (B2R x) <= X) xs ->
    ideal_out (sh_cascade hs f ga n) (map B2R xs) zs -> let ys := snd (filt_run (filt_reset fl) xs) : list f64 in
    length ys = length xs /\ List.Forall (fun y => FloatSpec.is_fin y /\ Rabs (B2R y) <= chain_bound l X) ys /\
    List.Forall2 (fun y z => Rabs (B2R y - z) <= chain_error l X 0) ys zs.
Proof. exact c85_used. Qed.
Print Assumptions C85_shelf_used.
(** second order, 20 dB at a quarter of the sampling rate, inputs in [-1,1]: within 10^-8 *)
Example C85_example : libm_design cheb_libm /\ libm_response cheb_libm /\ libm_bwshelf cheb_libm /\
  FloatSpec.is_fin (fnorm 1 (-2)) /\ B2R (fnorm 1 (-2)) = 1 / 4 /\ sh_cut_ok (1 / 4) /\ FloatSpec.is_fin (fofZ 20) /\ B2R (fofZ 20) = 20 /\ sh_gain_ok 20 /\
  sh_scale_error false (1 / 4) 20 2 <= / 2 ^ 35 /\
  chain_ok (sh_chain false (1 / 4) 20 2) 1 /\ chain_error (sh_chain false (1 / 4) 20 2) 1 0 <= 1 / 10 ^ 8.
Proof. exact ex_c85. Qed.
(** a shelf with a past: a successful setup, three samples, an order that is too large *)
Example C85_example_used : (forall r th, lm_polar cheb_libm r th <> None) /\ List.Forall op_ok shx_calls /\
  exists f0, steps (Bw, LSh) 4 shx_calls (filt_init DF2 (Bw, LSh) 4) = Some f0 /\ calm (Bw, LSh) 4 (Some 2%Z) shx_p shx_calls (filt_init DF2 (Bw, LSh) 4) /\ filt_numStages f0 = 1%Z.
Proof. exact ex_c85_used. Qed.

(** C86: the value of response () on a shelf designed in double is near the response of the ideal shelf ... *)
Theorem C86_shelf_response : forall m (hs : bool) (q : params (F64 m)) n FO t, libm_design m -> libm_response m -> libm_bwshelf m -> FloatSpec.is_fin (q_fc q : f64) -> FloatSpec.is_fin (q_gain q : f64) ->
  sh_cut_ok (B2R (q_fc q : f64)) -> -80 <= B2R (q_gain q : f64) <= 36 -> (1 <= n <= 24)%nat -> (Z.of_nat n <= FO)%Z ->
  let k := (Bw, if hs then HSh else LSh) in let f := B2R (q_fc q : f64) in let ga := B2R (q_gain q : f64) in
  let e := sh_scale_error hs f ga n in let ds := sh_cascade hs f ga n in
  e <= / 2 ^ 10 ->
  exists fl, filt_setupN (N := F64 m) k FO (Some (Z.of_nat n)) q (filt_init t k FO) = Ok fl tt /\
    forall x : f64, FloatSpec.is_fin x -> 0 <= B2R x <= 1 / 2 -> resp_rel e (bw_sections n) * i_cond ds (B2R x) <= / 4 ->
    exists h, filt_response fl x = Val h /\ cfin h /\ Cmod (c2c h - i_resp ds (B2R x))%C <= resp_error e ds (B2R x).
Proof. exact c85_resp. Qed.
Print Assumptions C86_shelf_response.
(** ... whose gain is the Butterworth shelf curve: half the gain (in dB) at the cutoff, the full gain at the end of the shelf, 1 at the other end *)
Theorem C86_shelf_ideal : forall (hs : bool) f ga n, (1 <= n)%nat -> in_int (2 * Z.of_nat n) = true -> 0 < f < 1 / 2 ->
    let ds := sh_cascade hs f ga n in
    (forall x, 0 <= x <= 1 / 2 -> cprod (map (i_den x) ds) <> 0%C) /\
    (forall x, 0 < x < 1 / 2 -> Cmod (i_resp ds x) ^ 2 = shelf2 n ga (Some (lh_freq hs f x))) /\
    Cmod (i_resp ds f) ^ 2 = Rpower 10 (ga / 20) /\
    Cmod (i_resp ds (if hs then 1 / 2 else 0)) ^ 2 = Rpower 10 (ga / 10) /\
    Cmod (i_resp ds (if hs then 0 else 1 / 2)) ^ 2 = 1.
Proof. exact c85_ideal. Qed.
Print Assumptions C86_shelf_ideal.
Example C86_example : let e := sh_scale_error false (1 / 4) 20 2 in let ds := sh_cascade false (1 / 4) 20 2 in
  e <= / 2 ^ 10 /\ resp_rel e 1 * i_cond ds (1 / 4) <= / 4 /\ resp_error e ds (1 / 4) <= 1 / 10 ^ 6 /\ Cmod (i_resp ds (1 / 4)) ^ 2 = 10.
Proof. exact ex_c85_resp. Qed.
