(** Property theorems C35-C37, C40 (positive part) and C44: Butterworth and Chebyshev band filters,
    Butterworth shelves, stability of the designs; exact arithmetic ([X strict]; with [strict] = true
    a violated precondition of std::polar is undefined behaviour). Gains are squared absolute values
    of response(f). *)
From Coq Require Import ZArith List Bool Reals Lra Lia.
From Coquelicot Require Import Coquelicot.
From Verif Require Import Num Outcome Types Biquad State Cascade PoleFilter Exact SigSpec ChebSpec DesignSpec BandSpec ShelfSpec BandFinal Float64 RefLibm BandDouble.
Import ListNotations.
Local Open Scope R_scope.

(** C35. The excluded case (odd order, edges placed so that the transform divides by zero) throws: C44. *)
Theorem C35_bandpass : forall strict fam t n FO req fc fw db (q : params (X strict)),
  (1 <= n)%nat -> (Z.of_nat n <= FO)%Z -> in_int (2 * Z.of_nat n) = true -> requested FO req n ->
  q_fc q = XR fc -> q_fw q = XR fw -> in_range BP fc fw -> db_ok fam db -> (fam <> Bw -> q_db q = XR db) ->
  ~ (Nat.odd n = true /\ 1 / tan ((edge_hi fc fw - edge_lo fc fw) / 2) = real_pole fam n db) ->
  exists fl, filt_setupN (fam, BP) FO req q (filt_init t (fam, BP) FO) = Ok fl tt /\
    forall f, 0 <= f <= 1 / 2 -> responds fl f (gain2 fam n db (bp_W (edge_hi fc fw) (edge_lo fc fw) (2 * PI * f))).
Proof. exact @c35_bp. Qed.
Print Assumptions C35_bandpass.
Theorem C35_bandstop : forall strict fam t n FO req fc fw db (q : params (X strict)),
  (1 <= n)%nat -> (Z.of_nat n <= FO)%Z -> in_int (2 * Z.of_nat n) = true -> requested FO req n ->
  q_fc q = XR fc -> q_fw q = XR fw -> in_range BS fc fw -> db_ok fam db -> (fam <> Bw -> q_db q = XR db) ->
  ~ (Nat.odd n = true /\ tan ((edge_hi fc fw - edge_lo fc fw) / 2) = real_pole fam n db) ->
  exists fl, filt_setupN (fam, BS) FO req q (filt_init t (fam, BS) FO) = Ok fl tt /\
    forall f, 0 <= f <= 1 / 2 -> responds fl f (gain2 fam n db (bs_W (edge_hi fc fw) (edge_lo fc fw) (2 * PI * f))).
Proof. exact @c35_bs. Qed.
Print Assumptions C35_bandstop.
(** order 3, centre 1/4, width 1/6 of a filter with FilterOrder 4 *)
Example C35_example : forall strict, (exists q : params (X strict), q_fc q = XR (1 / 4) /\ q_fw q = XR (1 / 6) /\ q_gain q = XR 6 /\ q_db q = XR 1) /\
  (forall s, in_range s (1 / 4) (1 / 6)) /\ (1 <= 3)%nat /\ (Z.of_nat 3 <= 4)%Z /\ in_int (2 * Z.of_nat 3) = true /\ requested 4 (Some 3%Z) 3 /\
  ~ (Nat.odd 3 = true /\ 1 / tan ((edge_hi (1 / 4) (1 / 6) - edge_lo (1 / 4) (1 / 6)) / 2) = real_pole Bw 3 1) /\
  ~ (Nat.odd 3 = true /\ tan ((edge_hi (1 / 4) (1 / 6) - edge_lo (1 / 4) (1 / 6)) / 2) = real_pole Bw 3 1).
Proof. intros s. split; [apply ex_band_ok|]. split; [exact ex_band_range|]. repeat (split; [lia || reflexivity|]). split; [exact ex_band_bp|exact ex_band_bs]. Qed.
(** values at the edges, at the centre and at 0 and Nyquist; bounds inside and outside of the band *)
Theorem C35_bandpass_limits : forall strict fam t n FO req fc fw db (q : params (X strict)),
  (1 <= n)%nat -> (Z.of_nat n <= FO)%Z -> in_int (2 * Z.of_nat n) = true -> requested FO req n ->
  q_fc q = XR fc -> q_fw q = XR fw -> in_range BP fc fw -> db_ok fam db -> (fam <> Bw -> q_db q = XR db) ->
  ~ (Nat.odd n = true /\ 1 / tan ((edge_hi fc fw - edge_lo fc fw) / 2) = real_pole fam n db) ->
  let lo := edge_lo fc fw / (2 * PI) in let hi := edge_hi fc fw / (2 * PI) in
  exists fl, filt_setupN (fam, BP) FO req q (filt_init t (fam, BP) FO) = Ok fl tt /\
    responds fl lo (edge_gain fam db) /\ responds fl hi (edge_gain fam db) /\
    responds fl (centre (edge_hi fc fw) (edge_lo fc fw) / (2 * PI)) (peak_gain fam n db) /\
    responds fl 0 (null_gain fam n db) /\ responds fl (1 / 2) (null_gain fam n db) /\
    (forall f, lo <= f <= hi -> exists m, responds fl f m /\ edge_gain fam db <= m <= 1) /\
    (forall f, 0 <= f <= lo \/ hi <= f <= 1 / 2 -> exists m, responds fl f m /\ 0 <= m <= edge_gain fam db).
Proof. exact @c35_bp_points. Qed.
Print Assumptions C35_bandpass_limits.
Theorem C35_bandstop_limits : forall strict fam t n FO req fc fw db (q : params (X strict)),
  (1 <= n)%nat -> (Z.of_nat n <= FO)%Z -> in_int (2 * Z.of_nat n) = true -> requested FO req n ->
  q_fc q = XR fc -> q_fw q = XR fw -> in_range BS fc fw -> db_ok fam db -> (fam <> Bw -> q_db q = XR db) ->
  ~ (Nat.odd n = true /\ tan ((edge_hi fc fw - edge_lo fc fw) / 2) = real_pole fam n db) ->
  let lo := edge_lo fc fw / (2 * PI) in let hi := edge_hi fc fw / (2 * PI) in
  exists fl, filt_setupN (fam, BS) FO req q (filt_init t (fam, BS) FO) = Ok fl tt /\
    responds fl lo (edge_gain fam db) /\ responds fl hi (edge_gain fam db) /\
    responds fl (centre (edge_hi fc fw) (edge_lo fc fw) / (2 * PI)) (null_gain fam n db) /\
    responds fl 0 (peak_gain fam n db) /\ responds fl (1 / 2) (peak_gain fam n db) /\
    (forall f, lo <= f <= hi -> exists m, responds fl f m /\ 0 <= m <= edge_gain fam db) /\
    (forall f, 0 <= f <= lo \/ hi <= f <= 1 / 2 -> exists m, responds fl f m /\ edge_gain fam db <= m <= 1).
Proof. exact @c35_bs_points. Qed.
Print Assumptions C35_bandstop_limits.
(** lo and hi above are fc -+ fw/2 unless these come within 1e-8 of 0 or pi *)
Theorem C35_edges : forall fc fw, 1 / 100000000 <= 2 * PI * (fc - fw / 2) -> 2 * PI * (fc + fw / 2) <= PI - 1 / 100000000 ->
  edge_lo fc fw / (2 * PI) = fc - fw / 2 /\ edge_hi fc fw / (2 * PI) = fc + fw / 2.
Proof. exact @c35_edges. Qed.
Print Assumptions C35_edges.
Example C35_edges_example : 1 / 100000000 <= 2 * PI * (1 / 4 - (1 / 4) / 2) /\ 2 * PI * (1 / 4 + (1 / 4) / 2) <= PI - 1 / 100000000.
Proof. exact quarter_edges. Qed.

(** C36; also: no undefined behaviour, and only band filters can throw *)
Theorem C36_designs_are_stable : forall strict fam s t n FO req fc fw db (q : params (X strict)),
  is_shelf s = false -> (1 <= n)%nat -> (Z.of_nat n <= FO)%Z -> in_int (2 * Z.of_nat n) = true -> requested FO req n ->
  q_fc q = XR fc -> q_fw q = XR fw -> in_range s fc fw -> db_ok fam db -> (fam <> Bw -> q_db q = XR db) ->
  match filt_setupN (fam, s) FO req q (filt_init t (fam, s) FO) with
  | Ok fl _ => stable_filter fl
  | Throw _ _ => s = BP \/ s = BS
  | UB => False
  end.
Proof. exact @c36. Qed.
Print Assumptions C36_designs_are_stable.
Theorem C36_bounded_relaxing_steady : forall fam s t n FO req fc fw db (q : params (X false)) fl,
  is_shelf s = false -> (1 <= n)%nat -> (Z.of_nat n <= FO)%Z -> in_int (2 * FO) = true -> requested FO req n ->
  q_fc q = XR fc -> q_fw q = XR fw -> in_range s fc fw -> db_ok fam db -> (fam <> Bw -> q_db q = XR db) ->
  filt_setupN (fam, s) FO req q (filt_init t (fam, s) FO) = Ok fl tt ->
  (exists K K0, forall M xs, 0 <= M -> List.Forall (fun x => Rabs x <= M) xs ->
    exists ys, snd (filt_run fl (xr xs)) = xr ys /\ List.Forall (fun y => Rabs y <= K * M + K0) ys) /\
  (forall x : nat -> R, is_lim_seq x 0 ->
    exists y : nat -> R, (forall i, snd (filt_run fl (xr (prefix i x))) = xr (prefix i y)) /\ is_lim_seq y 0) /\
  (forall fr phi, 0 <= fr <= 1 / 2 -> exists (y : nat -> R) (h : C),
    filt_response fl (XR fr) = Val (xc h) /\
    (forall i, snd (filt_run fl (xr (prefix i (fun i => cos (2 * PI * fr * INR i + phi))))) = xr (prefix i y)) /\
    is_lim_seq (fun i => y i - fst (h * cis (2 * PI * fr * INR i + phi))%C) 0).
Proof. exact @c36_bounded. Qed.
Print Assumptions C36_bounded_relaxing_steady.
Example C36_example : is_shelf LP = false /\ db_ok Ch1 1 /\ (forall s, in_range s (1 / 4) (1 / 6)) /\ in_int (2 * 4) = true /\
  exists q : params (X false), q_fc q = XR (1 / 4) /\ q_fw q = XR (1 / 6) /\ q_gain q = XR 6 /\ q_db q = XR 1.
Proof. repeat split; try (cbn; lra); [exact ex_band_range|apply ex_band_ok]. Qed.

(** C37; also stable *)
Theorem C37_lowshelf : forall t n FO req fc G (q : params (X false)),
  (1 <= n)%nat -> (Z.of_nat n <= FO)%Z -> in_int (2 * Z.of_nat n) = true -> requested FO req n ->
  q_fc q = XR fc -> in_range LSh fc 0 -> q_gain q = XR G ->
  exists fl, filt_setupN (Bw, LSh) FO req q (filt_init t (Bw, LSh) FO) = Ok fl tt /\ stable_filter fl /\
    (forall f, 0 <= f < 1 / 2 -> responds fl f (shelf2 n G (Some (tan (PI * f) / tan (PI * fc))))) /\
    responds fl 0 (Rpower 10 (G / 10)) /\ responds fl fc (Rpower 10 (G / 20)) /\ responds fl (1 / 2) 1.
Proof. exact c37_low. Qed.
Print Assumptions C37_lowshelf.
Theorem C37_highshelf : forall t n FO req fc G (q : params (X false)),
  (1 <= n)%nat -> (Z.of_nat n <= FO)%Z -> in_int (2 * Z.of_nat n) = true -> requested FO req n ->
  q_fc q = XR fc -> in_range HSh fc 0 -> q_gain q = XR G ->
  exists fl, filt_setupN (Bw, HSh) FO req q (filt_init t (Bw, HSh) FO) = Ok fl tt /\ stable_filter fl /\
    (forall f, 0 < f < 1 / 2 -> responds fl f (shelf2 n G (Some (tan (PI * fc) / tan (PI * f))))) /\
    responds fl 0 1 /\ responds fl fc (Rpower 10 (G / 20)) /\ responds fl (1 / 2) (Rpower 10 (G / 10)).
Proof. exact c37_high. Qed.
Print Assumptions C37_highshelf.
Theorem C37_bandshelf : forall t n FO req fc fw G (q : params (X false)),
  (1 <= n)%nat -> (Z.of_nat n <= FO)%Z -> in_int (2 * Z.of_nat n) = true -> requested FO req n ->
  q_fc q = XR fc -> q_fw q = XR fw -> in_range BSh fc fw -> q_gain q = XR G ->
  let w1 := edge_hi fc fw in let w2 := edge_lo fc fw in
  ~ (Nat.odd n = true /\ (tan ((w1 - w2) / 2) ^ (2 * n) = Rpower 10 (G / 20) \/ tan ((w1 - w2) / 2) ^ (2 * n) = Rpower 10 (- G / 20))) ->
  exists fl, filt_setupN (Bw, BSh) FO req q (filt_init t (Bw, BSh) FO) = Ok fl tt /\ stable_filter fl /\
    (forall f, 0 <= f <= 1 / 2 -> responds fl f (shelf2 n G (bp_W w1 w2 (2 * PI * f)))) /\
    responds fl (centre w1 w2 / (2 * PI)) (Rpower 10 (G / 10)) /\
    responds fl (w1 / (2 * PI)) (Rpower 10 (G / 20)) /\ responds fl (w2 / (2 * PI)) (Rpower 10 (G / 20)) /\
    responds fl 0 1 /\ responds fl (1 / 2) 1.
Proof. exact c37_band. Qed.
Print Assumptions C37_bandshelf.
(** order 4 at centre 1/4, width 1/6, gain 6 dB *)
Example C37_example : (exists q : params (X false), q_fc q = XR (1 / 4) /\ q_fw q = XR (1 / 6) /\ q_gain q = XR 6 /\ q_db q = XR 1) /\
  (forall s, in_range s (1 / 4) (1 / 6)) /\ in_range LSh (1 / 4) 0 /\ Nat.odd 4 <> true /\ requested 4 None 4 /\ in_int (2 * Z.of_nat 4) = true.
Proof. split; [apply ex_band_ok|]. split; [exact ex_band_range|]. repeat split; (lra || discriminate). Qed.

(** C44: documented parameters for which setup throws *)
Theorem C44_bandpass_throws_refuted : forall strict fam t n FO req fc fw db (q : params (X strict)),
  (1 <= n)%nat -> (Z.of_nat n <= FO)%Z -> in_int (2 * Z.of_nat n) = true -> requested FO req n ->
  q_fc q = XR fc -> q_fw q = XR fw -> in_range BP fc fw -> db_ok fam db -> (fam <> Bw -> q_db q = XR db) ->
  Nat.odd n = true -> 1 / tan ((edge_hi fc fw - edge_lo fc fw) / 2) = real_pole fam n db ->
  exists e fl, filt_setupN (fam, BP) FO req q (filt_init t (fam, BP) FO) = Throw e fl.
Proof. exact @c44_bp. Qed.
Print Assumptions C44_bandpass_throws_refuted.
Theorem C44_bandstop_throws_refuted : forall strict fam t n FO req fc fw db (q : params (X strict)),
  (1 <= n)%nat -> (Z.of_nat n <= FO)%Z -> in_int (2 * Z.of_nat n) = true -> requested FO req n ->
  q_fc q = XR fc -> q_fw q = XR fw -> in_range BS fc fw -> db_ok fam db -> (fam <> Bw -> q_db q = XR db) ->
  Nat.odd n = true -> tan ((edge_hi fc fw - edge_lo fc fw) / 2) = real_pole fam n db ->
  exists e fl, filt_setupN (fam, BS) FO req q (filt_init t (fam, BS) FO) = Throw e fl.
Proof. exact @c44_bs. Qed.
Print Assumptions C44_bandstop_throws_refuted.
(** the smallest witness: any odd order Butterworth band filter at centre 1/4 with width 1/4 *)
Theorem C44_quarter_refuted : forall strict s t n FO req (q : params (X strict)),
  s = BP \/ s = BS -> (1 <= n)%nat -> (Z.of_nat n <= FO)%Z -> in_int (2 * Z.of_nat n) = true -> requested FO req n ->
  q_fc q = XR (1 / 4) -> q_fw q = XR (1 / 4) -> Nat.odd n = true ->
  exists e fl, filt_setupN (Bw, s) FO req q (filt_init t (Bw, s) FO) = Throw e fl.
Proof. exact @c44_quarter. Qed.
Print Assumptions C44_quarter_refuted.
Example C44_example : in_range BP (1 / 4) (1 / 4) /\ in_range BS (1 / 4) (1 / 4) /\ Nat.odd 3 = true /\ requested 3 None 3 /\
  tan ((edge_hi (1 / 4) (1 / 4) - edge_lo (1 / 4) (1 / 4)) / 2) = real_pole Bw 3 1 /\
  q_fw (N := X true) (MkParams (N := X true) (XR (1 / 4)) (XR (1 / 4)) (XR 0) (XR 0)) = XR (1 / 4).
Proof. destruct quarter_range. split; [assumption|]. split; [assumption|]. split; [reflexivity|]. split; [reflexivity|]. split; [exact quarter_tan|reflexivity]. Qed.
(** and in binary64 with the reference library of RefLibm.v, where the offending pole also comes out as 0 *)
Theorem C44_double_refuted :
  exists fl, filt_setupN (N := D) (Bw, BP) 3 None (MkParams (N := D) (flit 1 4) (flit 1 4) (flit 0 1) (flit 0 1)) (filt_init DF2 (Bw, BP) 3) = Throw E_lay_poles_conj fl.
Proof. exact c44_double. Qed.
Print Assumptions C44_double_refuted.
