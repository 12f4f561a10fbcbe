(** Specification: the band edges that band filters realise and the frequency map between them. *)
From Coq Require Import ZArith List Bool Reals.
From Verif Require Import PoleFilter ChebSpec.
Local Open Scope R_scope.

(** band edges (angles), kept 1e-8 away from 0 and pi *)
Definition edge_lo (fc fw : R) : R := Rmax (2 * PI * (fc - fw / 2)) (1 / 100000000).
Definition edge_hi (fc fw : R) : R := Rmin (2 * PI * (fc + fw / 2)) (PI - 1 / 100000000).

(** low pass frequency that the angle w of a band pass with edges w2 < w1 stands for;
    None is infinity.  It is -1 at w2, 1 at w1 and 0 at the centre. *)
Definition bp_W (w1 w2 w : R) : option R :=
  let d := (w1 - w2) / 2 in
  if Req_EM_T (sin w) 0 then None
  else Some ((cos ((w1 + w2) / 2) - cos d * cos w) / (sin d * sin w)).
(** and of a band stop: the reciprocal *)
Definition bs_W (w1 w2 w : R) : option R :=
  let d := (w1 - w2) / 2 in
  if Req_EM_T (cos d * cos w) (cos ((w1 + w2) / 2)) then None
  else Some (sin d * sin w / (cos d * cos w - cos ((w1 + w2) / 2))).

(** distance from 0 of the real pole that the low pass prototype of an odd order has *)
Definition real_pole (fam : family) (n : nat) (db : R) : R :=
  match fam with
  | Bw => 1
  | Ch1 => sinh (arcsinh (1 / sqrt (Rpower 10 (db / 10) - 1)) / INR n)
  | Ch2 => 1 / sinh (arcsinh (sqrt (Rpower 10 (db / 10) - 1)) / INR n)
  end.

(** squared gains at a band edge, at the best frequency and at the worst frequency *)
Definition edge_gain (fam : family) (db : R) : R := match fam with Bw => 1 / 2 | _ => Rpower 10 (- db / 10) end.
Definition peak_gain (fam : family) (n : nat) (db : R) : R :=
  match fam with Ch1 => if Nat.odd n then 1 else Rpower 10 (- db / 10) | _ => 1 end.
Definition null_gain (fam : family) (n : nat) (db : R) : R :=
  match fam with Ch2 => if Nat.odd n then 0 else Rpower 10 (- db / 10) | _ => 0 end.
(** centre of the band: tan(centre/2) is the geometric mean of tan(w1/2) and tan(w2/2) *)
Definition centre (w1 w2 : R) : R := 2 * atan (sqrt (tan (w1 / 2) * tan (w2 / 2))).
(** parameters in the documented range; a band must not be narrower than its clamped edges allow *)
Definition in_range (s : shape) (fc fw : R) : Prop :=
  match s with
  | LP | HP | LSh | HSh => 0 < fc < 1 / 2
  | BP | BS | BSh => 0 <= fc < 1 / 2 /\ edge_lo fc fw < edge_hi fc fw
  end.
