(** Property theorems about the coefficients of Chebyshev low and high pass filters (C72). *)
From Coq Require Import ZArith List Bool Reals.
From Verif Require Import Num Outcome Types Biquad Cascade PoleFilter Exact DblSpec BwDblSpec ChCoefSpec ChExact.
Local Open Scope R_scope.

(** C72: in exact arithmetic every coefficient of every section, including the scale factor of the first one, has a closed form *)
Theorem C72_chebyshev_coefficients : forall strict (second hp : bool) (q : params (X strict)) f db n FO,
  q_fc q = XR f -> q_db q = XR db -> 0 < f < 1 / 2 -> 0 < db -> (1 <= n)%nat -> in_int (2 * Z.of_nat n) = true -> (Z.of_nat n <= FO)%Z ->
  let k := (if second then Ch2 else Ch1, if hp then HP else LP) in
  exists p, setupN (N := X strict) k FO (Some (Z.of_nat n)) q (pf_init k FO) = Ok p tt /\
    c_numStages (pf_cas p) = Z.of_nat (bw_sections n) /\
    forall i, (i < bw_sections n)%nat ->
    cas_index (N := X strict) (pf_cas p) (Z.of_nat i) =
      Val (xsection (ch_ideal second hp f db n i) (if Nat.eqb i 0 then ch_scale second hp f db n else 1)).
Proof. exact @ch_exact. Qed.
Print Assumptions C72_chebyshev_coefficients.
(** order 2 at a quarter of the sampling rate.  Ripple 10 log10 (4/3): sqrt 3 / 6 (1 + z^-1)^2 / (1 + z^-2 / 3).
    Rejection 10 log10 4: 1/2 (1 + 2/3 z^-1 + z^-2) / (1 + z^-2 / 3). *)
Example C72_example : (forall b : bool, 0 < ex_db b) /\ 0 < 1 / 4 < 1 / 2 /\ in_int (2 * Z.of_nat 2) = true /\ bw_sections 2 = 1%nat /\
  (let d := ch_ideal false false (1 / 4) (ex_db false) 2 0 in i_a1 d = 0 /\ i_a2 d = 1 / 3 /\ i_b1 d = 2) /\ ch_scale false false (1 / 4) (ex_db false) 2 = sqrt 3 / 6 /\
  (let d := ch_ideal true false (1 / 4) (ex_db true) 2 0 in i_a1 d = 0 /\ i_a2 d = 1 / 3 /\ i_b1 d = 2 / 3) /\ ch_scale true false (1 / 4) (ex_db true) 2 = 1 / 2.
Proof. exact ex_ch2. Qed.
