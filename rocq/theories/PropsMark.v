(** Property theorem: what filters in binary64 settle on at the frequencies where their gain is documented (C96). *)
From Coq Require Import ZArith List Bool Reals.
From Coquelicot Require Import Coquelicot.
From Flocq Require Import IEEE754.BinarySingleNaN.
From Verif Require Import Num Outcome Types Biquad State Cascade RBJ PoleFilter Float64 FloatSpec Stream SigSpec RoundSpec DblSpec BwDblSpec BwDblFinal ChainSpec BwOut
  RespDblSpec RespOut2 RbjRespSpec SettleSpec Settle SettleResp MarkSpec Mark MarkEx.
Import ListNotations.
Local Open Scope R_scope.

(** C96: an RBJ filter set up in double, fed with samples that follow a sinusoid (or a constant) at a frequency with a documented gain h *)
Theorem C96_rbj : forall m (f g q : f64) k (r : rbj (F64 m)), rbj_libm k m -> FloatSpec.is_fin f -> FloatSpec.is_fin g -> FloatSpec.is_fin q -> rbj_args k (B2R f) (B2R g) (B2R q) ->
  let i := rbj_ideal k (B2R f) (B2R g) (B2R q) in let er := rbj_coef_error k (B2R q) in
  exists r', rbj_obj_setupN (N := F64 m) k f g q r = Ok r' tt /\
    forall fr (h : C), In (fr, h) (landmarks k (B2R f) (B2R g) (B2R q)) ->
    forall G X e (A : C) eps, let l := [DSect i G er er] in chain_ok l X -> 0 <= X -> 0 <= e -> 0 < eps -> exists N, forall xs : list f64, follows A fr e X xs ->
    let ys := snd (rbj_run (rbj_reset r') xs) : list f64 in
    length ys = length xs /\ settles N (h * A)%C fr (chain_error l X e + eps) ys.
Proof. exact c96_rbj. Qed.
Print Assumptions C96_rbj.
(** the notch at a quarter of the sampling rate removes 1, 0, -1, 0, ... up to 10^-9 + eps *)
Example C96_example : B2R (fnorm 1 (-2)) = 1 / 4 /\ rbj_args R_IIRNotch (1 / 4) 0 1 /\ In (1 / 4, RtoC 0) (landmarks R_IIRNotch (1 / 4) 0 1) /\
  (let i := rbj_ideal R_IIRNotch (1 / 4) 0 1 in let e := rbj_coef_error R_IIRNotch 1 in let l := [DSect i 16 e e] in chain_ok l 1 /\ chain_error l 1 0 <= 1 / 10 ^ 9) /\
  (forall n, length (quarter_wave n) = n /\ follows (RtoC 1) (1 / 4) 0 1 (quarter_wave n)).
Proof. destruct ex_c93 as (_ & _ & B & _ & _ & _ & _ & W). exact (conj B (conj ex_c96_args (conj (or_introl eq_refl) (conj ex_c96 W)))). Qed.
(** a Butterworth low or high pass set up in double: at the end of the pass band (frequency 0 for the low pass, 1/2 for the high pass) signals pass unchanged, at the other end they vanish *)
Theorem C96_butterworth : forall m (hp : bool) (q : params (F64 m)) n FO t, libm_design m -> libm_response m -> FloatSpec.is_fin (q_fc q : f64) ->
  / 2 ^ 14 <= B2R (q_fc q : f64) <= 1 / 2 - / 2 ^ 14 -> (1 <= n <= 24)%nat -> (Z.of_nat n <= FO)%Z ->
  let k := (Bw, if hp then HP else LP) in let f := B2R (q_fc q : f64) in let l := bw_chain hp f n in
  bw_scale_error hp f n <= / 8 ->
  exists fl, filt_setupN (N := F64 m) k FO (Some (Z.of_nat n)) q (filt_init t k FO) = Ok fl tt /\
    forall (pass : bool) X e (A : C) eps, chain_ok l X -> 0 <= X -> 0 <= e -> 0 < eps -> let fr := if eqb pass hp then 1 / 2 else 0 in exists N, forall xs : list f64, follows A fr e X xs ->
    let ys := snd (filt_run fl xs) : list f64 in
    length ys = length xs /\ settles N ((if pass then RtoC 1 else RtoC 0) * A)%C fr (chain_error l X e + eps) ys.
Proof. exact c96_butterworth. Qed.
Print Assumptions C96_butterworth.
(** the filter of C93_example fed with the constant 1 *)
Example C96_butterworth_example : libm_design design_libm /\ libm_response design_libm /\ B2R (fnorm 1 (-2)) = 1 / 4 /\ bw_scale_error false (1 / 4) 3 <= / 8 /\
  chain_ok (bw_chain false (1 / 4) 3) 1 /\ chain_error (bw_chain false (1 / 4) 3) 1 0 <= 1 / 10 ^ 8 /\ (forall n, follows (RtoC 1) 0 0 1 (repeat (fofZ 1) n)).
Proof. destruct ex_c93 as (A & B & C & E & F & G & _). exact (conj A (conj B (conj C (conj E (conj F (conj G const_follows)))))). Qed.
