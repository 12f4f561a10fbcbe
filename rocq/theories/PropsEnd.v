(** Property theorems about constant, alternating and sinusoidal inputs of designed filters, exact arithmetic.
    The input may also only approach such a signal, and the delay lines may hold any finite values. *)
From Coq Require Import ZArith List Bool Reals Lra.
From Coquelicot Require Import Coquelicot.
From Verif Require Import Num Outcome Types Biquad State Cascade PoleFilter RBJ Exact History Stream SigSpec DesignSpec BandSpec ShelfSpec ChShelfSpec BandFinal
  RBJSpec RBJProtoSpec FiltSig EndSpec EndLemmas RBJSettle.
Import ListNotations.
Local Open Scope R_scope.

(** C59: the response at frequency 0 and at the Nyquist frequency is a known real number >= 0 *)
Theorem C59_end_gains : forall fam s t n FO req fc fw G db (q : params (X false)),
  (1 <= n)%nat -> (Z.of_nat n <= FO)%Z -> in_int (2 * Z.of_nat n) = true -> requested FO req n ->
  q_fc q = XR fc -> q_fw q = XR fw -> q_gain q = XR G -> (fam <> Bw -> q_db q = XR db) ->
  in_range s fc fw -> levels_ok fam s G db -> no_clash fam s n fc fw G db ->
  exists fl, filt_setupN (fam, s) FO req q (filt_init t (fam, s) FO) = Ok fl tt /\
    filt_response fl (XR 0) = Val (Cx (XR (dc_level fam s n G db)) (XR 0)) /\
    filt_response fl (XR (1 / 2)) = Val (Cx (XR (nyquist_level fam s n G db)) (XR 0)).
Proof. exact c59. Qed.
Print Assumptions C59_end_gains.
(** so a converging input converges to that multiple of its limit, and likewise a signal that ends up alternating in sign *)
Theorem C59_settles : forall fam s t n FO req fc fw G db (q : params (X false)),
  (1 <= n)%nat -> (Z.of_nat n <= FO)%Z -> in_int (2 * FO) = true -> requested FO req n ->
  q_fc q = XR fc -> q_fw q = XR fw -> q_gain q = XR G -> (fam <> Bw -> q_db q = XR db) ->
  in_range s fc fw -> levels_ok fam s G db -> no_clash fam s n fc fw G db ->
  exists fl, filt_setupN (fam, s) FO req q (filt_init t (fam, s) FO) = Ok fl tt /\
    forall sts x c, List.Forall fin_st sts -> length sts = length (fl_stages fl) ->
    (is_lim_seq x (Finite c) ->
      exists y, (forall m, snd (filt_run (MkFilt (fl_pf fl) sts) (xr (prefix m x))) = xr (prefix m y)) /\
        is_lim_seq y (Finite (dc_level fam s n G db * c))) /\
    (is_lim_seq (fun i => (-1) ^ i * x i) (Finite c) ->
      exists y, (forall m, snd (filt_run (MkFilt (fl_pf fl) sts) (xr (prefix m x))) = xr (prefix m y)) /\
        is_lim_seq (fun i => (-1) ^ i * y i) (Finite (nyquist_level fam s n G db * c))).
Proof. exact c59_settles. Qed.
Print Assumptions C59_settles.
(** band stop filters whose gain reaches 0 remove a sinusoid at the centre of their band *)
Theorem C59_band_stop_centre : forall fam t n FO req fc fw db (q : params (X false)),
  (1 <= n)%nat -> (Z.of_nat n <= FO)%Z -> in_int (2 * FO) = true -> requested FO req n ->
  q_fc q = XR fc -> q_fw q = XR fw -> (fam <> Bw -> q_db q = XR db) -> in_range BS fc fw -> db_ok fam db -> no_clash fam BS n fc fw 0 db ->
  stop_level fam n db = 0 ->
  exists fl, filt_setupN (fam, BS) FO req q (filt_init t (fam, BS) FO) = Ok fl tt /\
    forall sts x A, List.Forall fin_st sts -> length sts = length (fl_stages fl) ->
      is_lim_seq (fun i => x i - fst (A * cis (centre (edge_hi fc fw) (edge_lo fc fw) * INR i))%C) 0 ->
      exists y, (forall m, snd (filt_run (MkFilt (fl_pf fl) sts) (xr (prefix m x))) = xr (prefix m y)) /\ is_lim_seq y 0.
Proof. exact c59_centre. Qed.
Print Assumptions C59_band_stop_centre.
(** C13 for inputs that approach a sinusoid; every reachable filter *)
Theorem C59_steady_state : forall t k FO (f : filt (X false)) sts fr,
  (1 <= FO)%Z -> in_int (2 * FO) = true -> reachable_ok t k FO f ->
  List.Forall fin_bq (fl_stages f) -> List.Forall stable_bq (fl_stages f) -> List.Forall fin_st sts -> length sts = length (fl_stages f) ->
  0 <= fr <= 1 / 2 ->
  exists h : C, filt_response f (XR fr) = Val (xc h) /\
    forall x A, is_lim_seq (fun i => x i - fst (A * cis (2 * PI * fr * INR i))%C) 0 ->
    exists y : nat -> R, (forall n, snd (filt_run (MkFilt (fl_pf f) sts) (xr (prefix n x))) = xr (prefix n y)) /\
      is_lim_seq (fun i => y i - fst (h * A * cis (2 * PI * fr * INR i))%C) 0.
Proof. exact filt_c13g. Qed.
Print Assumptions C59_steady_state.
(** order 4 at centre 1/4, width 1/6, gain 6 dB, ripple 1 dB: all 21 classes at once *)
Example C59_example : (exists q : params (X false), q_fc q = XR (1 / 4) /\ q_fw q = XR (1 / 6) /\ q_gain q = XR 6 /\ q_db q = XR 1) /\
  (forall s, in_range s (1 / 4) (1 / 6)) /\ (forall fam s, levels_ok fam s 6 1) /\
  (forall fam s, no_clash fam s 4 (1 / 4) (1 / 6) 6 1) /\ requested 4 None 4 /\ in_int (2 * 4) = true /\
  dc_level Bw LP 4 6 1 = 1 /\ nyquist_level Bw LP 4 6 1 = 0 /\ dc_level Ch1 LP 4 6 1 = Rpower 10 (- (1) / 20) /\ stop_level Ch1 4 1 = 0.
Proof.
  split; [apply ex_band_ok|]. split; [exact ex_band_range|].
  split; [intros [] []; cbn; try exact I; rewrite ?Rabs_right by lra; lra|].
  split; [intros fam s H; discriminate H|]. repeat split.
Qed.

(** C60: the same for the RBJ filters, with the analogue prototypes of C56; [r] is an object in any state *)
Theorem C60_sinusoid : forall strict k f g q (r : rbj (X strict)), k <> R_IIRNotch -> rbj_range k f g q -> fin_st (r_st r) ->
  exists r', rbj_obj_setupN (N := X strict) k (XR f) (XR g) (XR q) r = Ok r' tt /\
    forall x A f', 0 <= f' < 1 / 2 -> is_lim_seq (fun i => x i - fst (A * cis (2 * PI * f' * INR i))%C) 0 ->
    exists y : nat -> R, (forall m, snd (rbj_run r' (xr (prefix m x))) = xr (prefix m y)) /\
      is_lim_seq (fun i => y i - fst (ana_num k (Rpower 10 (g / 40)) (cook_Q k f g q) (warp f' f) /
                                      ana_den k (Rpower 10 (g / 40)) (cook_Q k f g q) (warp f' f) * A * cis (2 * PI * f' * INR i))%C) 0.
Proof. exact @c60. Qed.
Print Assumptions C60_sinusoid.
Theorem C60_settles : forall strict k f g q (r : rbj (X strict)), k <> R_IIRNotch -> rbj_range k f g q -> fin_st (r_st r) ->
  exists r', rbj_obj_setupN (N := X strict) k (XR f) (XR g) (XR q) r = Ok r' tt /\
    forall x c,
    (is_lim_seq x (Finite c) -> exists y : nat -> R, (forall m, snd (rbj_run r' (xr (prefix m x))) = xr (prefix m y)) /\
      is_lim_seq y (Finite (rbj_dc k g * c))) /\
    (is_lim_seq (fun i => (-1) ^ i * x i) (Finite c) -> exists y : nat -> R, (forall m, snd (rbj_run r' (xr (prefix m x))) = xr (prefix m y)) /\
      is_lim_seq (fun i => (-1) ^ i * y i) (Finite (rbj_nyquist k g * c))).
Proof. exact @c60_settles. Qed.
Print Assumptions C60_settles.
Theorem C60_notch : forall strict k f g q (r : rbj (X strict)), k = R_BandStop \/ k = R_IIRNotch -> 0 < f < 1 / 2 -> 0 < q -> fin_st (r_st r) ->
  exists r', rbj_obj_setupN (N := X strict) k (XR f) (XR g) (XR q) r = Ok r' tt /\
    forall x A, is_lim_seq (fun i => x i - fst (A * cis (2 * PI * f * INR i))%C) 0 ->
    exists y : nat -> R, (forall m, snd (rbj_run r' (xr (prefix m x))) = xr (prefix m y)) /\ is_lim_seq y 0.
Proof. exact @c60_notch. Qed.
Print Assumptions C60_notch.
Example C60_example : (forall k, rbj_range k (1 / 10) (-6) 1) /\
  fin_st (r_st (MkRbj (N := X false) biquad0 (S1 (N := X false) (XR 1) (XR 2) (XR 3) (XR 4)))).
Proof.
  split; [|repeat split; eexists; reflexivity].
  intros k. split; [lra|]. split; [lra|]. destruct k; try exact I; unfold shelf_E;
    rewrite Rinv_1; replace (1 - 1) with 0 by ring; rewrite Rmult_0_r; lra.
Qed.
