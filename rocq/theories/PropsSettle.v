(** Property theorems: what filters in binary64 settle on (C93), and that response () tells it (C94).
    The mathematical library is arbitrary but must be accurate ([libm_design], [libm_response], ...). *)
From Coq Require Import ZArith List Bool Reals.
From Coquelicot Require Import Coquelicot.
From Flocq Require Import IEEE754.BinarySingleNaN.
From Verif Require Import Num Outcome Types Biquad State Cascade RBJ PoleFilter Float64 FloatSpec Stream SigSpec RoundSpec DblSpec BwDblSpec BwDblFinal ChainSpec BwOut
  ChCoefSpec ChDblSpec ChDblEx ChScaleSpec ChOut RespDblSpec RespOutSpec RespOut2 RbjRespSpec RbjResp ShelfDblSpec ShelfOut ShelfEx ContractCh SettleSpec Settle SettleResp.
Import ListNotations.
Local Open Scope R_scope.

(** C93: any cascade whose stored coefficients are near ideal ones, fed with samples that follow a sinusoid up to e: from sample N on the output follows the sinusoid that the ideal response predicts, up to the bound of C66 and any eps.
    N depends on the ideal sections, the sinusoid and eps, not on the stored coefficients, the state structure, the samples or their number *)
Theorem C93_cascade : forall (l : list dsect) X e fr (A : C) eps, chain_ok l X -> 0 <= X -> 0 <= e -> 0 < eps -> exists N, forall m (bs : list (biquad (F64 m))) t (xs : list f64),
  List.Forall fin_coeffs bs -> List.Forall2 stored_near bs l -> follows A fr e X xs ->
  let ys := snd (cs_run (MkCStages bs (repeat (st_init t) (length bs))) xs) : list f64 in
  length ys = length xs /\ settles N (i_resp (map d_id l) fr * A)%C fr (chain_error l X e + eps) ys.
Proof. exact c93_cascade. Qed.
Print Assumptions C93_cascade.
(** a Butterworth low or high pass set up in double; |i_resp| is the Butterworth curve by C78_ideal_gain *)
Theorem C93_butterworth : forall m (hp : bool) (q : params (F64 m)) n FO t, libm_design m -> libm_response m -> FloatSpec.is_fin (q_fc q : f64) ->
  / 2 ^ 14 <= B2R (q_fc q : f64) <= 1 / 2 - / 2 ^ 14 -> (1 <= n <= 24)%nat -> (Z.of_nat n <= FO)%Z ->
  let k := (Bw, if hp then HP else LP) in let f := B2R (q_fc q : f64) in let l := bw_chain hp f n in
  bw_scale_error hp f n <= / 8 ->
  exists fl, filt_setupN (N := F64 m) k FO (Some (Z.of_nat n)) q (filt_init t k FO) = Ok fl tt /\
    forall X e fr (A : C) eps, chain_ok l X -> 0 <= X -> 0 <= e -> 0 < eps -> exists N, forall xs : list f64, follows A fr e X xs ->
    let ys := snd (filt_run fl xs) : list f64 in
    length ys = length xs /\ settles N (i_resp (bw_cascade hp f n) fr * A)%C fr (chain_error l X e + eps) ys.
Proof. exact c93_butterworth. Qed.
Print Assumptions C93_butterworth.
(** third order low pass at a quarter of the sampling rate fed with 1, 0, -1, 0, ...: within 10^-8 + eps of a sinusoid of amplitude 1 / sqrt 2 *)
Example C93_example : libm_design design_libm /\ libm_response design_libm /\ B2R (fnorm 1 (-2)) = 1 / 4 /\ bw_scale_error false (1 / 4) 3 <= / 8 /\
  chain_ok (bw_chain false (1 / 4) 3) 1 /\ chain_error (bw_chain false (1 / 4) 3) 1 0 <= 1 / 10 ^ 8 /\ Cmod (i_resp (bw_cascade false (1 / 4) 3) (1 / 4)) ^ 2 = 1 / 2 /\
  (forall n, length (quarter_wave n) = n /\ follows (RtoC 1) (1 / 4) 0 1 (quarter_wave n)).
Proof. exact ex_c93. Qed.
(** Chebyshev low and high pass, types I and II *)
Theorem C93_chebyshev : forall m (second hp : bool) (q : params (F64 m)) n FO t, libm_design m -> libm_response m -> libm_cheb m -> libm_pow10 m -> FloatSpec.is_fin (q_fc q : f64) -> FloatSpec.is_fin (q_db q : f64) ->
  ch_cut_ok (B2R (q_fc q : f64)) -> ch_db_ok second (B2R (q_db q : f64)) -> (1 <= n <= 24)%nat -> (Z.of_nat n <= FO)%Z ->
  let k := (if second then Ch2 else Ch1, if hp then HP else LP) in let f := B2R (q_fc q : f64) in let db := B2R (q_db q : f64) in let l := ch_chain second hp f db n in
  ch_scale_error second hp f db n <= / 8 ->
  exists fl, filt_setupN (N := F64 m) k FO (Some (Z.of_nat n)) q (filt_init t k FO) = Ok fl tt /\
    forall X e fr (A : C) eps, chain_ok l X -> 0 <= X -> 0 <= e -> 0 < eps -> exists N, forall xs : list f64, follows A fr e X xs ->
    let ys := snd (filt_run fl xs) : list f64 in
    length ys = length xs /\ settles N (i_resp (ch_cascade second hp f db n) fr * A)%C fr (chain_error l X e + eps) ys.
Proof. exact c93_chebyshev. Qed.
Print Assumptions C93_chebyshev.
(** Butterworth low and high shelf *)
Theorem C93_shelf : forall m (hs : bool) (q : params (F64 m)) n FO t, libm_design m -> libm_response m -> libm_bwshelf m -> FloatSpec.is_fin (q_fc q : f64) -> FloatSpec.is_fin (q_gain q : f64) ->
  sh_cut_ok (B2R (q_fc q : f64)) -> sh_gain_ok (B2R (q_gain q : f64)) -> (1 <= n <= 24)%nat -> (Z.of_nat n <= FO)%Z ->
  let k := (Bw, if hs then HSh else LSh) in let f := B2R (q_fc q : f64) in let ga := B2R (q_gain q : f64) in let l := sh_chain hs f ga n in
  sh_scale_error hs f ga n <= / 8 ->
  exists fl, filt_setupN (N := F64 m) k FO (Some (Z.of_nat n)) q (filt_init t k FO) = Ok fl tt /\
    forall X e fr (A : C) eps, chain_ok l X -> 0 <= X -> 0 <= e -> 0 < eps -> exists N, forall xs : list f64, follows A fr e X xs ->
    let ys := snd (filt_run fl xs) : list f64 in
    length ys = length xs /\ settles N (i_resp (sh_cascade hs f ga n) fr * A)%C fr (chain_error l X e + eps) ys.
Proof. exact c93_shelf. Qed.
Print Assumptions C93_shelf.
(** the ten RBJ filters, set up and then reset *)
Theorem C93_rbj : forall m (f g q : f64) k (r : rbj (F64 m)), rbj_libm k m -> FloatSpec.is_fin f -> FloatSpec.is_fin g -> FloatSpec.is_fin q -> rbj_args k (B2R f) (B2R g) (B2R q) ->
  let i := rbj_ideal k (B2R f) (B2R g) (B2R q) in let er := rbj_coef_error k (B2R q) in
  exists r', rbj_obj_setupN (N := F64 m) k f g q r = Ok r' tt /\
    forall G X e fr (A : C) eps, let l := [DSect i G er er] in chain_ok l X -> 0 <= X -> 0 <= e -> 0 < eps -> exists N, forall xs : list f64, follows A fr e X xs ->
    let ys := snd (rbj_run (rbj_reset r') xs) : list f64 in
    length ys = length xs /\ settles N (i_resp [i] fr * A)%C fr (chain_error l X e + eps) ys.
Proof. exact c93_rbj. Qed.
Print Assumptions C93_rbj.
(** the filters of C76_example, C85_example and C80_example *)
Example C93_others_example : (ch_scale_error true false (1 / 4) 10 2 <= / 2 ^ 28 /\ chain_ok (ch_chain true false (1 / 4) 10 2) 1) /\ (sh_scale_error false (1 / 4) 20 2 <= / 2 ^ 35 /\ chain_ok (sh_chain false (1 / 4) 20 2) 1) /\
  (let i := rbj_ideal R_LowPass (1 / 4) 0 1 in let e := rbj_coef_error R_LowPass 1 in chain_ok [DSect i 9 e e] 1).
Proof. split; [pose proof ex_c76; tauto|split; [pose proof ex_c85; tauto|exact (proj1 ex_c80)]]. Qed.
(** a gain bound, which [chain_ok] asks for, is possible for stable recursions only *)
Theorem C93_gain_stable : forall a1 a2 G, rec_gain a1 a2 G -> stable_poly a1 a2.
Proof. exact gain_stable. Qed.
Print Assumptions C93_gain_stable.
Example C93_gain_example : rec_gain (-1 / 2) (1 / 4) (64 / 9).
Proof. exact ex_gain. Qed.

(** C94: the value h that response (x) returns in double is the factor by which filter () in double scales and shifts a sinusoid of frequency x; any stored coefficients *)
Theorem C94_stored : forall m (bs : list (biquad (F64 m))) (Gs : list R) t mx (x : f64) X e (A : C) eps, libm_design m -> libm_response m -> List.Forall tame_coeffs bs -> (length bs <= 32)%nat -> length Gs = length bs ->
  FloatSpec.is_fin x -> 0 <= B2R x <= 1 / 2 -> let l := as_stored bs Gs in let ds := map stored bs in
  chain_ok l X -> 0 <= X -> 0 <= e -> 0 < eps -> resp_rel 0 (length bs) * i_cond ds (B2R x) <= / 4 ->
  exists h N, cas_response (N := F64 m) (MkCascade (Z.of_nat (length bs)) mx bs) x = Val h /\ cfin h /\
    forall xs : list f64, follows A (B2R x) e X xs -> let ys := snd (cs_run (MkCStages bs (repeat (st_init t) (length bs))) xs) : list f64 in
    length ys = length xs /\ settles N (c2c h * A)%C (B2R x) (chain_error l X e + eps + resp_error 0 ds (B2R x) * Cmod A) ys.
Proof. exact c94_stored. Qed.
Print Assumptions C94_stored.
(** the section of C77_example *)
Example C94_example : let b := @MkBiquad (F64 design_libm) (fofZ 1) (fnorm (-1) (-1)) (fnorm 1 (-2)) (fofZ 1) (fofZ 2) (fofZ 1) in
  tame_coeffs b /\ resp_rel 0 1 * i_cond [stored b] (1 / 4) <= / 4 /\ chain_ok (as_stored [b] [64 / 9]) 1 /\ chain_error (as_stored [b] [64 / 9]) 1 0 <= 1 / 10 ^ 9 /\ resp_error 0 [stored b] (1 / 4) <= 1 / 10 ^ 10.
Proof. intros b. pose proof ex_c77 as H. pose proof ex_c94 as H'. cbv zeta in H, H'. fold b in H, H'. tauto. Qed.
Theorem C94_butterworth : forall m (hp : bool) (q : params (F64 m)) n FO t, libm_design m -> libm_response m -> FloatSpec.is_fin (q_fc q : f64) ->
  / 2 ^ 14 <= B2R (q_fc q : f64) <= 1 / 2 - / 2 ^ 14 -> (1 <= n <= 24)%nat -> (Z.of_nat n <= FO)%Z ->
  let k := (Bw, if hp then HP else LP) in let f := B2R (q_fc q : f64) in let l := bw_chain hp f n in let er := bw_scale_error hp f n in let ds := bw_cascade hp f n in
  er <= / 2 ^ 10 ->
  exists fl, filt_setupN (N := F64 m) k FO (Some (Z.of_nat n)) q (filt_init t k FO) = Ok fl tt /\
    forall (x : f64) X e (A : C) eps, FloatSpec.is_fin x -> 0 <= B2R x <= 1 / 2 -> resp_rel er (bw_sections n) * i_cond ds (B2R x) <= / 4 -> chain_ok l X -> 0 <= X -> 0 <= e -> 0 < eps ->
    exists h N, filt_response fl x = Val h /\ cfin h /\ forall xs : list f64, follows A (B2R x) e X xs ->
    let ys := snd (filt_run fl xs) : list f64 in length ys = length xs /\ settles N (c2c h * A)%C (B2R x) (chain_error l X e + eps + resp_error er ds (B2R x) * Cmod A) ys.
Proof. exact c94_butterworth. Qed.
Print Assumptions C94_butterworth.
Theorem C94_chebyshev : forall m (second hp : bool) (q : params (F64 m)) n FO t, libm_design m -> libm_response m -> libm_cheb m -> libm_pow10 m -> FloatSpec.is_fin (q_fc q : f64) -> FloatSpec.is_fin (q_db q : f64) ->
  ch_cut_ok (B2R (q_fc q : f64)) -> ch_db_ok second (B2R (q_db q : f64)) -> (1 <= n <= 24)%nat -> (Z.of_nat n <= FO)%Z ->
  let k := (if second then Ch2 else Ch1, if hp then HP else LP) in let f := B2R (q_fc q : f64) in let db := B2R (q_db q : f64) in let l := ch_chain second hp f db n in
  let er := ch_scale_error second hp f db n in let ds := ch_cascade second hp f db n in
  er <= / 2 ^ 10 ->
  exists fl, filt_setupN (N := F64 m) k FO (Some (Z.of_nat n)) q (filt_init t k FO) = Ok fl tt /\
    forall (x : f64) X e (A : C) eps, FloatSpec.is_fin x -> 0 <= B2R x <= 1 / 2 -> resp_rel er (bw_sections n) * i_cond ds (B2R x) <= / 4 -> chain_ok l X -> 0 <= X -> 0 <= e -> 0 < eps ->
    exists h N, filt_response fl x = Val h /\ cfin h /\ forall xs : list f64, follows A (B2R x) e X xs ->
    let ys := snd (filt_run fl xs) : list f64 in length ys = length xs /\ settles N (c2c h * A)%C (B2R x) (chain_error l X e + eps + resp_error er ds (B2R x) * Cmod A) ys.
Proof. exact c94_chebyshev. Qed.
Print Assumptions C94_chebyshev.
Theorem C94_shelf : forall m (hs : bool) (q : params (F64 m)) n FO t, libm_design m -> libm_response m -> libm_bwshelf m -> FloatSpec.is_fin (q_fc q : f64) -> FloatSpec.is_fin (q_gain q : f64) ->
  sh_cut_ok (B2R (q_fc q : f64)) -> -80 <= B2R (q_gain q : f64) <= 36 -> (1 <= n <= 24)%nat -> (Z.of_nat n <= FO)%Z ->
  let k := (Bw, if hs then HSh else LSh) in let f := B2R (q_fc q : f64) in let ga := B2R (q_gain q : f64) in let l := sh_chain hs f ga n in
  let er := sh_scale_error hs f ga n in let ds := sh_cascade hs f ga n in
  er <= / 2 ^ 10 ->
  exists fl, filt_setupN (N := F64 m) k FO (Some (Z.of_nat n)) q (filt_init t k FO) = Ok fl tt /\
    forall (x : f64) X e (A : C) eps, FloatSpec.is_fin x -> 0 <= B2R x <= 1 / 2 -> resp_rel er (bw_sections n) * i_cond ds (B2R x) <= / 4 -> chain_ok l X -> 0 <= X -> 0 <= e -> 0 < eps ->
    exists h N, filt_response fl x = Val h /\ cfin h /\ forall xs : list f64, follows A (B2R x) e X xs ->
    let ys := snd (filt_run fl xs) : list f64 in length ys = length xs /\ settles N (c2c h * A)%C (B2R x) (chain_error l X e + eps + resp_error er ds (B2R x) * Cmod A) ys.
Proof. exact c94_shelf. Qed.
Print Assumptions C94_shelf.
Theorem C94_rbj : forall m (f g q : f64) k (r : rbj (F64 m)), libm_design m -> libm_response m -> rbj_libm k m -> FloatSpec.is_fin f -> FloatSpec.is_fin g -> FloatSpec.is_fin q -> rbj_args k (B2R f) (B2R g) (B2R q) ->
  let i := rbj_ideal k (B2R f) (B2R g) (B2R q) in let ec := rbj_coef_error k (B2R q) in let er := rbj_rel_error k (B2R f) (B2R g) (B2R q) in er <= / 2 ^ 10 ->
  exists r', rbj_obj_setupN (N := F64 m) k f g q r = Ok r' tt /\
    forall (x : f64) G X e (A : C) eps, let l := [DSect i G ec ec] in FloatSpec.is_fin x -> 0 <= B2R x <= 1 / 2 -> resp_rel er 1 * i_cond [i] (B2R x) <= / 4 -> chain_ok l X -> 0 <= X -> 0 <= e -> 0 < eps ->
    exists h N, bq_response (r_bq r') x = Val h /\ cfin h /\ forall xs : list f64, follows A (B2R x) e X xs ->
    let ys := snd (rbj_run (rbj_reset r') xs) : list f64 in length ys = length xs /\ settles N (c2c h * A)%C (B2R x) (chain_error l X e + eps + resp_error er [i] (B2R x) * Cmod A) ys.
Proof. exact c94_rbj. Qed.
Print Assumptions C94_rbj.
(** the filters of C78_example, C86_example and C79_example; Chebyshev as in C76_example *)
Example C94_designs_example : (bw_scale_error false (1 / 4) 3 <= / 2 ^ 10 /\ resp_rel (bw_scale_error false (1 / 4) 3) 2 * i_cond (bw_cascade false (1 / 4) 3) (1 / 4) <= / 4 /\ chain_ok (bw_chain false (1 / 4) 3) 1) /\
  (let e := sh_scale_error false (1 / 4) 20 2 in e <= / 2 ^ 10 /\ resp_rel e 1 * i_cond (sh_cascade false (1 / 4) 20 2) (1 / 4) <= / 4 /\ chain_ok (sh_chain false (1 / 4) 20 2) 1) /\
  (let i := rbj_ideal R_LowPass (1 / 4) 0 1 in let e := rbj_rel_error R_LowPass (1 / 4) 0 1 in e <= / 2 ^ 10 /\ resp_rel e 1 * i_cond [i] (1 / 4) <= / 4).
Proof. split; [pose proof ex_c78; pose proof ex_c66; tauto|split; [pose proof ex_c85 as H; pose proof ex_c85_resp as H'; cbv zeta in H, H' |- *; tauto|pose proof ex_c79 as H; cbv zeta in H |- *; tauto]]. Qed.
