(** Property theorems C32-C34: Butterworth and Chebyshev low and high pass filters in exact
    arithmetic ([X strict]; [strict] = true counts a violated precondition of std::polar as
    undefined behaviour, so these theorems also say that the designs do not violate it).
    Gains are squared absolute values of response(f). *)
From Coq Require Import ZArith List Bool Reals Lra Lia.
From Coquelicot Require Import Coquelicot.
From Verif Require Import Num Outcome Types Biquad State Cascade PoleFilter Exact SigSpec ChebSpec DesignSpec DesignFinal.
Import ListNotations.
Local Open Scope R_scope.

(** order 3 (and 4, by the overload without order) of a filter with FilterOrder 4 *)
Definition ex_params (strict : bool) : params (X strict) := MkParams (N := X strict) (XR (1 / 10)) (XR 0) (XR 0) (XR 1).
Lemma ex_hyps strict : ((1 <= 3)%nat /\ (Z.of_nat 3 <= 4)%Z /\ in_int (2 * Z.of_nat 3) = true /\ requested 4 (Some 3%Z) 3 /\ requested 4 None 4) /\
  (q_fc (ex_params strict) = XR (1 / 10) /\ 0 < 1 / 10 < 1 / 2) /\ (q_db (ex_params strict) = XR 1 /\ 0 < 1).
Proof. repeat split; try lra; try lia. Qed.

(** C32 *)
Theorem C32_butterworth_lowpass : forall strict t n FO req fc (q : params (X strict)),
  (1 <= n)%nat -> (Z.of_nat n <= FO)%Z -> in_int (2 * Z.of_nat n) = true -> requested FO req n ->
  q_fc q = XR fc -> 0 < fc < 1 / 2 ->
  exists fl, filt_setupN (Bw, LP) FO req q (filt_init t (Bw, LP) FO) = Ok fl tt /\
    (forall f, 0 <= f < 1 / 2 -> responds fl f (1 / (1 + (tan (PI * f) / tan (PI * fc)) ^ (2 * n)))) /\
    responds fl (1 / 2) 0.
Proof. exact @c32_low. Qed.
Print Assumptions C32_butterworth_lowpass.
Example C32_example : forall strict, ((1 <= 3)%nat /\ (Z.of_nat 3 <= 4)%Z /\ in_int (2 * Z.of_nat 3) = true /\
    requested 4 (Some 3%Z) 3 /\ requested 4 None 4) /\
  (q_fc (ex_params strict) = XR (1 / 10) /\ 0 < 1 / 10 < 1 / 2) /\ (q_db (ex_params strict) = XR 1 /\ 0 < 1).
Proof. exact ex_hyps. Qed.
Theorem C32_butterworth_highpass : forall strict t n FO req fc (q : params (X strict)),
  (1 <= n)%nat -> (Z.of_nat n <= FO)%Z -> in_int (2 * Z.of_nat n) = true -> requested FO req n ->
  q_fc q = XR fc -> 0 < fc < 1 / 2 ->
  exists fl, filt_setupN (Bw, HP) FO req q (filt_init t (Bw, HP) FO) = Ok fl tt /\
    (forall f, 0 < f < 1 / 2 -> responds fl f (1 / (1 + (tan (PI * fc) / tan (PI * f)) ^ (2 * n)))) /\
    responds fl 0 0 /\ responds fl (1 / 2) 1.
Proof. exact @c32_high. Qed.
Print Assumptions C32_butterworth_highpass.
Theorem C32_butterworth_edges : forall strict t n FO req fc (q : params (X strict)),
  (1 <= n)%nat -> (Z.of_nat n <= FO)%Z -> in_int (2 * Z.of_nat n) = true -> requested FO req n ->
  q_fc q = XR fc -> 0 < fc < 1 / 2 ->
  (exists fl, filt_setupN (Bw, LP) FO req q (filt_init t (Bw, LP) FO) = Ok fl tt /\
    responds fl 0 1 /\ responds fl fc (1 / 2) /\
    forall f f', 0 <= f < f' -> f' < 1 / 2 -> exists m m', responds fl f m /\ responds fl f' m' /\ m' < m) /\
  (exists fl, filt_setupN (Bw, HP) FO req q (filt_init t (Bw, HP) FO) = Ok fl tt /\
    responds fl (1 / 2) 1 /\ responds fl fc (1 / 2) /\
    forall f f', 0 < f < f' -> f' < 1 / 2 -> exists m m', responds fl f m /\ responds fl f' m' /\ m < m').
Proof. exact @c32_edges. Qed.
Print Assumptions C32_butterworth_edges.

(** C33; hypotheses met as in [C32_example] *)
Theorem C33_chebyshev1_lowpass : forall strict t n FO req fc db (q : params (X strict)),
  (1 <= n)%nat -> (Z.of_nat n <= FO)%Z -> in_int (2 * Z.of_nat n) = true -> requested FO req n ->
  q_fc q = XR fc -> 0 < fc < 1 / 2 -> q_db q = XR db -> 0 < db ->
  exists fl, filt_setupN (Ch1, LP) FO req q (filt_init t (Ch1, LP) FO) = Ok fl tt /\
    (forall f, 0 <= f < 1 / 2 ->
       responds fl f (1 / (1 + (Rpower 10 (db / 10) - 1) * cheb n (tan (PI * f) / tan (PI * fc)) ^ 2))) /\
    responds fl (1 / 2) 0.
Proof. exact @c33_low. Qed.
Print Assumptions C33_chebyshev1_lowpass.
Example C33_example : forall strict, q_db (ex_params strict) = XR 1 /\ cheb 3 2 = 26.
Proof. intros s. split; [reflexivity|unfold cheb; simpl; ring]. Qed.
Theorem C33_chebyshev1_highpass : forall strict t n FO req fc db (q : params (X strict)),
  (1 <= n)%nat -> (Z.of_nat n <= FO)%Z -> in_int (2 * Z.of_nat n) = true -> requested FO req n ->
  q_fc q = XR fc -> 0 < fc < 1 / 2 -> q_db q = XR db -> 0 < db ->
  exists fl, filt_setupN (Ch1, HP) FO req q (filt_init t (Ch1, HP) FO) = Ok fl tt /\
    (forall f, 0 < f < 1 / 2 ->
       responds fl f (1 / (1 + (Rpower 10 (db / 10) - 1) * cheb n (tan (PI * fc) / tan (PI * f)) ^ 2))) /\
    responds fl 0 0 /\ responds fl (1 / 2) (1 / (1 + (Rpower 10 (db / 10) - 1) * cheb n 0 ^ 2)).
Proof. exact @c33_high. Qed.
Print Assumptions C33_chebyshev1_highpass.
Theorem C33_chebyshev1_ripple : forall strict t n FO req fc db (q : params (X strict)),
  (1 <= n)%nat -> (Z.of_nat n <= FO)%Z -> in_int (2 * Z.of_nat n) = true -> requested FO req n ->
  q_fc q = XR fc -> 0 < fc < 1 / 2 -> q_db q = XR db -> 0 < db ->
  (exists fl, filt_setupN (Ch1, LP) FO req q (filt_init t (Ch1, LP) FO) = Ok fl tt /\
    responds fl fc (Rpower 10 (- db / 10)) /\
    forall f, 0 <= f <= fc -> exists m, responds fl f m /\ Rpower 10 (- db / 10) <= m <= 1) /\
  (exists fl, filt_setupN (Ch1, HP) FO req q (filt_init t (Ch1, HP) FO) = Ok fl tt /\
    responds fl fc (Rpower 10 (- db / 10)) /\
    forall f, fc <= f <= 1 / 2 -> exists m, responds fl f m /\ Rpower 10 (- db / 10) <= m <= 1).
Proof. exact @c33_ripple. Qed.
Print Assumptions C33_chebyshev1_ripple.

(** C34; hypotheses met as in [C32_example] *)
Theorem C34_chebyshev2_lowpass : forall strict t n FO req fc db (q : params (X strict)),
  (1 <= n)%nat -> (Z.of_nat n <= FO)%Z -> in_int (2 * Z.of_nat n) = true -> requested FO req n ->
  q_fc q = XR fc -> 0 < fc < 1 / 2 -> q_db q = XR db -> 0 < db ->
  exists fl, filt_setupN (Ch2, LP) FO req q (filt_init t (Ch2, LP) FO) = Ok fl tt /\
    (forall f, 0 < f < 1 / 2 -> responds fl f (rej2 n db (tan (PI * fc) / tan (PI * f)))) /\
    responds fl 0 1 /\ responds fl (1 / 2) (rej2 n db 0).
Proof. exact @c34_low. Qed.
Print Assumptions C34_chebyshev2_lowpass.
Theorem C34_chebyshev2_highpass : forall strict t n FO req fc db (q : params (X strict)),
  (1 <= n)%nat -> (Z.of_nat n <= FO)%Z -> in_int (2 * Z.of_nat n) = true -> requested FO req n ->
  q_fc q = XR fc -> 0 < fc < 1 / 2 -> q_db q = XR db -> 0 < db ->
  exists fl, filt_setupN (Ch2, HP) FO req q (filt_init t (Ch2, HP) FO) = Ok fl tt /\
    (forall f, 0 <= f < 1 / 2 -> responds fl f (rej2 n db (tan (PI * f) / tan (PI * fc)))) /\
    responds fl (1 / 2) 1.
Proof. exact @c34_high. Qed.
Print Assumptions C34_chebyshev2_highpass.
Example C34_example : rej2 3 40 2 = 676 / (Rpower 10 (40 / 10) - 1 + 676).
Proof. unfold rej2. replace (cheb 3 2) with 26 by (unfold cheb; simpl; ring). replace (26 ^ 2) with 676 by ring. reflexivity. Qed.
Theorem C34_chebyshev2_rejection : forall strict t n FO req fc db (q : params (X strict)),
  (1 <= n)%nat -> (Z.of_nat n <= FO)%Z -> in_int (2 * Z.of_nat n) = true -> requested FO req n ->
  q_fc q = XR fc -> 0 < fc < 1 / 2 -> q_db q = XR db -> 0 < db ->
  (exists fl, filt_setupN (Ch2, LP) FO req q (filt_init t (Ch2, LP) FO) = Ok fl tt /\
    responds fl fc (Rpower 10 (- db / 10)) /\
    forall f, fc <= f <= 1 / 2 -> exists m, responds fl f m /\ 0 <= m <= Rpower 10 (- db / 10)) /\
  (exists fl, filt_setupN (Ch2, HP) FO req q (filt_init t (Ch2, HP) FO) = Ok fl tt /\
    responds fl fc (Rpower 10 (- db / 10)) /\
    forall f, 0 <= f <= fc -> exists m, responds fl f m /\ 0 <= m <= Rpower 10 (- db / 10)).
Proof. exact @c34_rejection. Qed.
Print Assumptions C34_chebyshev2_rejection.
