(** Property theorems: streams of integer and float samples in binary64, against the exact output of the cascade (C92). *)
From Coq Require Import ZArith List Bool Reals.
From Flocq Require Import IEEE754.BinarySingleNaN.
From Verif Require Import Num Outcome Types Biquad State Cascade PoleFilter History Float64 RefLibm FloatSpec Examples FloatExamples Samples
  SigSpec RoundSpec RoundExample SmpRound SmpEx.
Import ListNotations.
Local Open Scope R_scope.

(** C92: if the exact output keeps e away from the first numbers outside the type, no conversion is undefined, and every output is less than 1 + e from the exact one *)
Theorem C92_integers : forall m lo hi (bs : list (biquad (F64 m))) (l : list sect) t (xs : list Z) X zs,
  List.Forall fin_coeffs bs -> List.Forall2 sect_of bs l -> sects_ok l X -> (lo <= 0 <= hi)%Z -> 0 <= X -> List.Forall (fun x => (Z.abs x < 2 ^ 53)%Z /\ Rabs (IZR x) <= X) xs -> exact_out l (map IZR xs) zs ->
  List.Forall (fun z => IZR lo - 1 + total_error l X 0 < z < IZR hi + 1 - total_error l X 0) zs ->
  exists c' vs, run_as (cs_filter_as (smp_int m lo hi)) xs (MkCStages bs (repeat (st_init t) (length bs))) = Ok c' vs /\ List.Forall2 (fun v z => Rabs (IZR v - z) < 1 + total_error l X 0) vs zs.
Proof. exact c92_integers. Qed.
Print Assumptions C92_integers.
(** whatever the samples, if the bound of C54 on the outputs is inside the type *)
Theorem C92_never_clips : forall m lo hi (bs : list (biquad (F64 m))) (l : list sect) t (xs : list Z) X zs,
  List.Forall fin_coeffs bs -> List.Forall2 sect_of bs l -> sects_ok l X -> (lo <= 0 <= hi)%Z -> 0 <= X -> List.Forall (fun x => (Z.abs x < 2 ^ 53)%Z /\ Rabs (IZR x) <= X) xs -> exact_out l (map IZR xs) zs ->
  last_bound l X < IZR hi + 1 -> last_bound l X < 1 - IZR lo ->
  exists c' vs, run_as (cs_filter_as (smp_int m lo hi)) xs (MkCStages bs (repeat (st_init t) (length bs))) = Ok c' vs /\ List.Forall2 (fun v z => Rabs (IZR v - z) < 1 + total_error l X 0) vs zs.
Proof. exact c92_never_clips. Qed.
Print Assumptions C92_never_clips.
(** 16 bit samples in variables of type int, 4th order Butterworth low pass of Examples.v *)
Example C92_example : List.Forall fin_coeffs (fl_stages ex_filt) /\ List.Forall2 sect_of (fl_stages ex_filt) ex_sects /\
  (sects_ok ex_sects 32768 /\ total_error ex_sects 32768 0 <= 1 / 10 ^ 4 /\ last_bound ex_sects 32768 <= 2 ^ 23).
Proof. exact (conj (proj1 ex_round) (conj (proj1 (proj2 ex_round)) ex_smp)). Qed.

(** an exact output that is e beyond the type: undefined behaviour; there is no saturation *)
Theorem C92_clips : forall m lo hi (bs : list (biquad (F64 m))) (l : list sect) t (xs : list Z) X zs,
  List.Forall fin_coeffs bs -> List.Forall2 sect_of bs l -> sects_ok l X -> (lo <= 0 <= hi)%Z -> 0 <= X -> List.Forall (fun x => (Z.abs x < 2 ^ 53)%Z /\ Rabs (IZR x) <= X) xs -> exact_out l (map IZR xs) zs ->
  List.Exists (fun z => z <= IZR lo - 1 - total_error l X 0 \/ IZR hi + 1 + total_error l X 0 <= z) zs ->
  run_as (cs_filter_as (smp_int m lo hi)) xs (MkCStages bs (repeat (st_init t) (length bs))) = UB.
Proof. exact c92_clips. Qed.
Print Assumptions C92_clips.
(** short, a gain of 3, the sample 20000 *)
Example C92_clips_example : fin_coeffs ex_gain3 /\ sect_of ex_gain3 gain3 /\ sects_ok [gain3] 20000 /\ exact_out [gain3] (map IZR [20000%Z]) [60000] /\ total_error [gain3] 20000 0 <= 1 /\
  List.Exists (fun z => z <= IZR (-32768) - 1 - total_error [gain3] 20000 0 \/ IZR 32767 + 1 + total_error [gain3] 20000 0 <= z) [60000].
Proof. exact ex_clip. Qed.

(** float *)
Theorem C92_floats : forall m (bs : list (biquad (F64 m))) (l : list sect) t (xs : list f32) X zs, List.Forall fin_coeffs bs -> List.Forall2 sect_of bs l -> sects_ok l X -> 0 <= X ->
  List.Forall (fun x => is_finite x = true /\ Rabs (B2R x) <= X) xs -> exact_out l (map B2R xs) zs ->
  List.Forall (fun z => Rabs z <= 2 ^ 128 - 2 ^ 104 - total_error l X 0) zs ->
  exists c' vs, run_as (cs_filter_as (smp_float m)) xs (MkCStages bs (repeat (st_init t) (length bs))) = Ok c' vs /\
    List.Forall2 (fun (v : f32) z => is_finite v = true /\ Rabs (B2R v - z) <= total_error l X 0 + / 2 ^ 24 * (Rabs z + total_error l X 0) + / 2 ^ 150) vs zs.
Proof. exact c92_floats. Qed.
Print Assumptions C92_floats.
(** one sample of size 1 and the gain of 3; the exact output is 3 *)
Example C92_floats_example : fin_coeffs ex_gain3 /\ sect_of ex_gain3 gain3 /\ sects_ok [gain3] 1 /\ exact_out [gain3] [1] [3] /\ Rabs 3 <= 2 ^ 128 - 2 ^ 104 - total_error [gain3] 1 0.
Proof. exact ex_float3. Qed.
