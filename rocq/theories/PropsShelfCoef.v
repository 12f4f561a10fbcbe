(** Property theorems about the coefficients of Butterworth shelves (C82). *)
From Coq Require Import ZArith List Bool Reals.
From Verif Require Import Num Outcome Types Biquad Cascade PoleFilter Exact DblSpec BwDblSpec ChCoefSpec ShelfDblSpec ShelfExact.
Local Open Scope R_scope.

(** C82: in exact arithmetic every coefficient of every section of a Butterworth shelf, including the scale factor of the first one, has a closed form.
    [X false]: std::polar of a negative radius, undefined by the C++ standard, is evaluated. *)
Theorem C82_shelf_coefficients : forall (hs : bool) (q : params (X false)) f gain n FO,
  q_fc q = XR f -> q_gain q = XR gain -> 0 < f < 1 / 2 -> (1 <= n)%nat -> in_int (2 * Z.of_nat n) = true -> (Z.of_nat n <= FO)%Z ->
  let k := (Bw, if hs then HSh else LSh) in
  exists p, setupN (N := X false) k FO (Some (Z.of_nat n)) q (pf_init k FO) = Ok p tt /\
    c_numStages (pf_cas p) = Z.of_nat (bw_sections n) /\
    forall i, (i < bw_sections n)%nat ->
    cas_index (N := X false) (pf_cas p) (Z.of_nat i) =
      Val (xsection (sh_ideal hs f gain n i) (if Nat.eqb i 0 then sh_scale hs f gain n else 1)).
Proof. exact shelf_exact. Qed.
Print Assumptions C82_shelf_coefficients.
(** 12.04 dB at a quarter of the sampling rate.  Order 1, low shelf: 2 (1 + z^-1/3) / (1 - z^-1/3), high shelf: 2 (1 - z^-1/3) / (1 + z^-1/3);
    order 2, low shelf: 2 (1 + 2/5 z^-1 + z^-2/5) / (1 - 2/5 z^-1 + z^-2/5) *)
Example C82_example : 0 < 1 / 4 < 1 / 2 /\ in_int (2 * Z.of_nat 2) = true /\ bw_sections 1 = 1%nat /\ bw_sections 2 = 1%nat /\
  sh_ideal false (1 / 4) ex_shelf_gain 1 0 = Ideal (- 1 / 3) 0 1 (1 / 3) 0 /\ sh_scale false (1 / 4) ex_shelf_gain 1 = 2 /\
  sh_ideal true (1 / 4) ex_shelf_gain 1 0 = Ideal (1 / 3) 0 1 (- 1 / 3) 0 /\ sh_scale true (1 / 4) ex_shelf_gain 1 = 2 /\
  sh_ideal false (1 / 4) ex_shelf_gain 2 0 = Ideal (- 2 / 5) (1 / 5) 1 (2 / 5) (1 / 5) /\ sh_scale false (1 / 4) ex_shelf_gain 2 = 2.
Proof. exact ex_shelf. Qed.
