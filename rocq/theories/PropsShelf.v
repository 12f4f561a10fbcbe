(** Properties of the Chebyshev shelves in exact arithmetic, and their exceptions. *)
From Coq Require Import ZArith List Bool Reals Lra Lia.
From Coquelicot Require Import Coquelicot.
From Verif Require Import Num Outcome Types Biquad State Cascade PoleFilter Exact DesignSpec BandSpec ChShelfSpec Float64 RefLibm
  BandFinal ChShelfFinal ChShelfDouble.
Import ListNotations.
Local Open Scope R_scope.

(** C46; also stable *)
Theorem C46_lowshelf : forall strict fam t n FO req fc G db (q : params (X strict)), fam = Ch1 \/ fam = Ch2 ->
  (1 <= n)%nat -> (Z.of_nat n <= FO)%Z -> in_int (2 * Z.of_nat n) = true -> requested FO req n ->
  q_fc q = XR fc -> in_range LSh fc 0 -> 0 < db < Rabs G -> q_gain q = XR G -> q_db q = XR db ->
  exists fl, filt_setupN (fam, LSh) FO req q (filt_init t (fam, LSh) FO) = Ok fl tt /\ stable_filter fl /\
    (forall f, 0 <= f < 1 / 2 -> responds fl f (cshelf2 n G db (Some (tan (PI * f) / tan (PI * fc))))) /\
    responds fl 0 (cs_dc2 n G db) /\ responds fl fc (edge2 G db) /\ responds fl (1 / 2) 1 /\
    (forall f, 0 <= f <= fc -> exists m, responds fl f m /\ Rmin (edge2 G db) (top2 G) <= m <= Rmax (edge2 G db) (top2 G)).
Proof. exact @c46_low. Qed.
Print Assumptions C46_lowshelf.
Theorem C46_highshelf : forall strict fam t n FO req fc G db (q : params (X strict)), fam = Ch1 \/ fam = Ch2 ->
  (1 <= n)%nat -> (Z.of_nat n <= FO)%Z -> in_int (2 * Z.of_nat n) = true -> requested FO req n ->
  q_fc q = XR fc -> in_range HSh fc 0 -> 0 < db < Rabs G -> q_gain q = XR G -> q_db q = XR db ->
  exists fl, filt_setupN (fam, HSh) FO req q (filt_init t (fam, HSh) FO) = Ok fl tt /\ stable_filter fl /\
    (forall f, 0 < f < 1 / 2 -> responds fl f (cshelf2 n G db (Some (tan (PI * fc) / tan (PI * f))))) /\
    responds fl 0 1 /\ responds fl fc (edge2 G db) /\ responds fl (1 / 2) (cs_dc2 n G db) /\
    (forall f, fc <= f <= 1 / 2 -> exists m, responds fl f m /\ Rmin (edge2 G db) (top2 G) <= m <= Rmax (edge2 G db) (top2 G)).
Proof. exact @c46_high. Qed.
Print Assumptions C46_highshelf.
Theorem C46_bandshelf : forall strict fam t n FO req fc fw G db (q : params (X strict)), fam = Ch1 \/ fam = Ch2 ->
  (1 <= n)%nat -> (Z.of_nat n <= FO)%Z -> in_int (2 * Z.of_nat n) = true -> requested FO req n ->
  q_fc q = XR fc -> q_fw q = XR fw -> in_range BSh fc fw -> 0 < db < Rabs G -> q_gain q = XR G -> q_db q = XR db ->
  let w1 := edge_hi fc fw in let w2 := edge_lo fc fw in
  ~ (Nat.odd n = true /\ (1 / tan ((w1 - w2) / 2) = cs_real_pole n G db \/ 1 / tan ((w1 - w2) / 2) = cs_real_zero n G db)) ->
  exists fl, filt_setupN (fam, BSh) FO req q (filt_init t (fam, BSh) FO) = Ok fl tt /\ stable_filter fl /\
    (forall f, 0 <= f <= 1 / 2 -> responds fl f (cshelf2 n G db (bp_W w1 w2 (2 * PI * f)))) /\
    responds fl (centre w1 w2 / (2 * PI)) (cs_dc2 n G db) /\
    responds fl (w1 / (2 * PI)) (edge2 G db) /\ responds fl (w2 / (2 * PI)) (edge2 G db) /\
    responds fl 0 1 /\ responds fl (1 / 2) 1 /\
    (forall f, w2 <= 2 * PI * f <= w1 -> exists m, responds fl f m /\ Rmin (edge2 G db) (top2 G) <= m <= Rmax (edge2 G db) (top2 G)).
Proof. exact @c46_band. Qed.
Print Assumptions C46_bandshelf.
(** order 4 at centre 1/4, width 1/6, gain 6 dB, ripple 1 dB *)
Example C46_example : (exists q : params (X false), q_fc q = XR (1 / 4) /\ q_fw q = XR (1 / 6) /\ q_gain q = XR 6 /\ q_db q = XR 1) /\
  (forall s, in_range s (1 / 4) (1 / 6)) /\ in_range LSh (1 / 4) 0 /\ 0 < 1 < Rabs 6 /\ Nat.odd 4 <> true /\ requested 4 None 4 /\
  in_int (2 * Z.of_nat 4) = true.
Proof. split; [apply ex_band_ok|]. split; [exact ex_band_range|]. rewrite Rabs_right by lra. repeat split; (lra || discriminate). Qed.

(** C47: once the ripple is not below the gain, an attenuating shelf of odd order attenuates less than asked for *)
Theorem C47_ripple_refuted : forall strict fam t n FO req fc G db (q : params (X strict)), fam = Ch1 \/ fam = Ch2 ->
  (1 <= n)%nat -> (Z.of_nat n <= FO)%Z -> in_int (2 * Z.of_nat n) = true -> requested FO req n ->
  q_fc q = XR fc -> in_range LSh fc 0 -> G < 0 -> - G <= db -> q_gain q = XR G -> q_db q = XR db -> Nat.odd n = true ->
  exists fl m, filt_setupN (fam, LSh) FO req q (filt_init t (fam, LSh) FO) = Ok fl tt /\ responds fl 0 m /\ top2 G < m.
Proof. exact @c47_dc. Qed.
Print Assumptions C47_ripple_refuted.
Example C47_example : requested 3 None 3 /\ in_range LSh (1 / 10) 0 /\ -6 < 0 /\ - -6 <= 6 /\ Nat.odd 3 = true /\ in_int (2 * Z.of_nat 3) = true.
Proof. repeat split; cbn; lra. Qed.
(** binary64: a 6 dB shelf with 6 dB ripple has the gain -9.4 (19.5 dB, inverted) at frequency 0 *)
Theorem C47_gain_double_refuted : exists fl c,
  filt_setupN (N := D) (Ch1, LSh) 1 None (MkParams (N := D) (flit 1 10) (flit 1 20) (flit 6 1) (flit 6 1)) (filt_init DF2 (Ch1, LSh) 1) = Ok fl tt /\
  filt_response fl (flit 0 1) = Val c /\ nltb D (re c) (flit (-9) 1) = true.
Proof. exact c47_double_gain. Qed.
Print Assumptions C47_gain_double_refuted.
(** binary64: a shelf of gain 0 dB throws *)
Theorem C47_zero_double_refuted : forall k FO,
  In k [(Ch1, LSh); (Ch1, HSh); (Ch1, BSh); (Ch2, LSh); (Ch2, HSh); (Ch2, BSh)] -> In FO [1; 2; 3; 4]%Z -> exists fl,
  filt_setupN (N := D) k FO None (MkParams (N := D) (flit 1 10) (flit 1 20) (flit 0 1) (flit 1 1)) (filt_init DF2 k FO) = Throw E_pole_nan fl.
Proof. exact c47_double_zero. Qed.
Print Assumptions C47_zero_double_refuted.
