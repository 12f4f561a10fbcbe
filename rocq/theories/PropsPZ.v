(** Property theorems about getPoleZeros of designed filters, exact arithmetic. *)
From Coq Require Import ZArith List Bool Reals Lra.
From Coquelicot Require Import Coquelicot.
From Verif Require Import Num Outcome Types Biquad State Cascade PoleFilter Exact SigSpec PZSpec DesignSpec BandSpec ShelfSpec ChShelfSpec BandFinal PZFinal.
Import ListNotations.
Local Open Scope R_scope.

(** C50 *)
Theorem C50_poles_and_zeros : forall strict fam s t n FO req fc fw db (q : params (X strict)),
  is_shelf s = false -> (1 <= n)%nat -> (Z.of_nat n <= FO)%Z -> in_int (2 * Z.of_nat n) = true -> requested FO req n ->
  q_fc q = XR fc -> q_fw q = XR fw -> in_range s fc fw -> db_ok fam db -> (fam <> Bw -> q_db q = XR db) ->
  match filt_setupN (fam, s) FO req q (filt_init t (fam, s) FO) with
  | Ok fl _ => reports fl on_circle
  | Throw _ _ => s = BP \/ s = BS
  | UB => False
  end.
Proof. exact @c50. Qed.
Print Assumptions C50_poles_and_zeros.
Theorem C50_butterworth_shelves : forall s t n FO req fc fw G (q : params (X false)),
  is_shelf s = true -> (1 <= n)%nat -> (Z.of_nat n <= FO)%Z -> in_int (2 * Z.of_nat n) = true -> requested FO req n ->
  q_fc q = XR fc -> q_fw q = XR fw -> in_range s fc fw -> q_gain q = XR G ->
  let td := tan ((edge_hi fc fw - edge_lo fc fw) / 2) in
  ~ (s = BSh /\ Nat.odd n = true /\ (td ^ (2 * n) = Rpower 10 (G / 20) \/ td ^ (2 * n) = Rpower 10 (- G / 20))) ->
  exists fl, filt_setupN (Bw, s) FO req q (filt_init t (Bw, s) FO) = Ok fl tt /\ reports fl in_circle.
Proof. exact c50_bw. Qed.
Print Assumptions C50_butterworth_shelves.
Theorem C50_chebyshev_shelves : forall strict fam s t n FO req fc fw G db (q : params (X strict)),
  fam = Ch1 \/ fam = Ch2 -> is_shelf s = true ->
  (1 <= n)%nat -> (Z.of_nat n <= FO)%Z -> in_int (2 * Z.of_nat n) = true -> requested FO req n ->
  q_fc q = XR fc -> q_fw q = XR fw -> in_range s fc fw -> 0 < db < Rabs G -> q_gain q = XR G -> q_db q = XR db ->
  let td := 1 / tan ((edge_hi fc fw - edge_lo fc fw) / 2) in
  ~ (s = BSh /\ Nat.odd n = true /\ (td = cs_real_pole n G db \/ td = cs_real_zero n G db)) ->
  exists fl, filt_setupN (fam, s) FO req q (filt_init t (fam, s) FO) = Ok fl tt /\ reports fl in_circle.
Proof. exact @c50_ch. Qed.
Print Assumptions C50_chebyshev_shelves.
(** order 4 at centre 1/4, width 1/6, gain 6 dB, ripple 1 dB *)
Example C50_example : (exists q : params (X false), q_fc q = XR (1 / 4) /\ q_fw q = XR (1 / 6) /\ q_gain q = XR 6 /\ q_db q = XR 1) /\
  (forall s, in_range s (1 / 4) (1 / 6)) /\ (forall fam, db_ok fam 1) /\ 0 < 1 < Rabs 6 /\ Nat.odd 4 <> true /\ requested 4 None 4 /\
  in_int (2 * Z.of_nat 4) = true.
Proof.
  split; [apply ex_band_ok|]. split; [exact ex_band_range|]. split; [intros []; cbn; lra || exact I|].
  rewrite Rabs_right by lra. repeat split; (lra || discriminate).
Qed.
