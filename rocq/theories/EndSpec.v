(** Specification: the gains of designed filters at frequency 0 and at the Nyquist frequency, and when a setup succeeds. *)
From Coq Require Import ZArith List Bool Reals.
From Coquelicot Require Import Coquelicot.
From Verif Require Import Num Types PoleFilter RBJ DesignSpec BandSpec ShelfSpec ChShelfSpec.
Local Open Scope R_scope.

(** gain (an amplitude, not squared) in the middle of the pass band: even order Chebyshev I filters have their ripple there *)
Definition pass_level (fam : family) (n : nat) (db : R) : R :=
  match fam with Ch1 => if Nat.odd n then 1 else Rpower 10 (- db / 20) | _ => 1 end.
(** gain infinitely far from the pass band: even order Chebyshev II filters have their rejection there *)
Definition stop_level (fam : family) (n : nat) (db : R) : R :=
  match fam with Ch2 => if Nat.odd n then 0 else Rpower 10 (- db / 20) | _ => 0 end.
(** gain in the middle of the shelf: even order Chebyshev shelves fall [db] short of their gain G there *)
Definition shelf_level (fam : family) (n : nat) (G db : R) : R :=
  match fam with
  | Bw => Rpower 10 (G / 20)
  | _ => if Nat.odd n then Rpower 10 (G / 20) else Rpower 10 ((if Rlt_dec G 0 then G + db else G - db) / 20)
  end.
Definition dc_level (fam : family) (s : shape) (n : nat) (G db : R) : R :=
  match s with
  | LP | BS => pass_level fam n db
  | HP | BP => stop_level fam n db
  | LSh => shelf_level fam n G db
  | HSh | BSh => 1
  end.
Definition nyquist_level (fam : family) (s : shape) (n : nat) (G db : R) : R :=
  match s with
  | HP | BS => pass_level fam n db
  | LP | BP => stop_level fam n db
  | HSh => shelf_level fam n G db
  | LSh | BSh => 1
  end.

(** ripple and gain arguments that the designs are made for *)
Definition levels_ok (fam : family) (s : shape) (G db : R) : Prop :=
  match fam with Bw => True | _ => if is_shelf s then 0 < db < Rabs G else 0 < db end.
(** not one of the odd order band designs that throw (C44) *)
Definition no_clash (fam : family) (s : shape) (n : nat) (fc fw G db : R) : Prop :=
  let d := tan ((edge_hi fc fw - edge_lo fc fw) / 2) in
  Nat.odd n = true ->
  match s with
  | BP => 1 / d <> real_pole fam n db
  | BS => d <> real_pole fam n db
  | BSh => match fam with
           | Bw => d ^ (2 * n) <> Rpower 10 (G / 20) /\ d ^ (2 * n) <> Rpower 10 (- G / 20)
           | _ => 1 / d <> cs_real_pole n G db /\ 1 / d <> cs_real_zero n G db
           end
  | _ => True
  end.

(** gains of the RBJ filters (the notch excepted) at frequency 0 and at the Nyquist frequency *)
Definition rbj_dc (k : rkind) (g : R) : R :=
  match k with
  | R_HighPass | R_BandPass1 | R_BandPass2 => 0
  | R_LowShelf => Rpower 10 (g / 20)
  | _ => 1
  end.
Definition rbj_nyquist (k : rkind) (g : R) : R :=
  match k with
  | R_LowPass | R_BandPass1 | R_BandPass2 => 0
  | R_HighShelf => Rpower 10 (g / 20)
  | _ => 1
  end.
