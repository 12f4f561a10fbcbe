(** Specification: coefficients of Chebyshev low and high pass filters. *)
From Coq Require Import ZArith List Bool Reals.
From Verif Require Import PoleFilter DblSpec BwDblSpec.
Import ListNotations.
Local Open Scope R_scope.

(** A pair of analogue poles with real part g and squared modulus m, and zeros at infinity or at +- i w, under
    z = (1 + u s)/(1 - u s) with u = t (low pass) or z = -(1 + u s)/(1 - u s) with u = 1/t (high pass). *)
Definition an_pair (hp : bool) (t g m : R) (w : option R) : ideal :=
  let u := if hp then / t else t in
  let z := if hp then -1 else 1 in
  let d := 1 - 2 * u * g + u ^ 2 * m in
  let c := match w with None => -1 | Some w => (1 - u ^ 2 * w ^ 2) / (1 + u ^ 2 * w ^ 2) end in
  Ideal (2 * z * (u ^ 2 * m - 1) / d) ((1 + 2 * u * g + u ^ 2 * m) / d) 1 (-2 * z * c) 1.
(** a real pole g and a zero at infinity *)
Definition an_single (hp : bool) (t g : R) : ideal :=
  let u := if hp then / t else t in
  let z := if hp then -1 else 1 in
  Ideal (z * (- 1 - u * g) / (1 - u * g)) 0 1 z 0.

(** arsinh (1/eps) / n with eps = sqrt (10^(db/10) - 1) for type I and its inverse for type II *)
Definition ch_width (second : bool) (n : nat) (db : R) : R :=
  let e := sqrt (Rpower 10 (db / 10) - 1) in arcsinh (if second then e else 1 / e) / INR n.
Definition ch_angle (n i : nat) : R := (2 * INR i + 1) * PI / (2 * INR n).
(** section i before the scale factor is applied.  Type I: poles - sinh v sin a +- i cosh v cos a; type II: the inverses of
    these, zeros +- i / cos a; an odd order ends with the pole - sinh v, or its inverse *)
Definition ch_ideal (second hp : bool) (f db : R) (n i : nat) : ideal :=
  let t := tan (PI * f) in
  let v := ch_width second n db in
  let a := ch_angle n i in
  let m := (sinh v * sin a) ^ 2 + (cosh v * cos a) ^ 2 in
  if Nat.ltb i (n / 2)
  then if second then an_pair hp t (- (sinh v * sin a) / m) (/ m) (Some (/ cos a))
       else an_pair hp t (- (sinh v * sin a)) m None
  else an_single hp t (if second then - / sinh v else - sinh v).
(** the response at the middle of the pass band: 1, or the lower end of the ripple for even orders of type I *)
Definition ch_level (second : bool) (db : R) (n : nat) : R :=
  if second then 1 else if Nat.odd n then 1 else Rpower 10 (- db / 20).
Definition ch_scale (second hp : bool) (f db : R) (n : nat) : R :=
  ch_level second db n * fold_right Rmult 1 (map (fun i => peak_inv hp (ch_ideal second hp f db n i)) (seq 0 (bw_sections n))).
