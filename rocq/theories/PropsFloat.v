(** Property theorems about filtering in IEEE-754 binary64 ([F64 m], for every math library m). *)
From Coq Require Import ZArith List Bool Reals.
From Flocq Require Import Core.Raux Core.Defs Core.Generic_fmt Core.Round_NE IEEE754.BinarySingleNaN.
From Verif Require Import Num Outcome Types Biquad State Cascade PoleFilter RBJ History Float64 RefLibm
  Samples FloatSpec Stream FloatProofs FloatLemmas SampleLemmas Examples FloatExamples.
Import ListNotations.

(** ** C04, binary64 part: silence in, silence out *)
Theorem C04_silence : forall m (bs : list (biquad (F64 m))) t n xs,
  Forall fin_coeffs bs -> Forall is_zero xs ->
  Forall is_zero (snd (cs_run (MkCStages bs (repeat (st_init t) n)) xs)).
Proof. exact @c04_cs. Qed.
Print Assumptions C04_silence.
Theorem C04_silence_filter : forall m, (forall r th, npolar (F64 m) r th <> None) ->
  forall t k FO (f : filt (F64 m)) xs, (1 <= FO)%Z -> in_int (2 * FO) = true -> reachable_ok t k FO f ->
  Forall fin_coeffs (fl_stages f) -> Forall is_zero xs -> Forall is_zero (snd (filt_run (filt_reset f) xs)).
Proof. exact @c04_filt. Qed.
Print Assumptions C04_silence_filter.
Theorem C04_silence_rbj : forall m (r : rbj (F64 m)) xs,
  fin_coeffs (r_bq r) -> Forall is_zero xs -> Forall is_zero (snd (rbj_run (rbj_reset r) xs)).
Proof. exact @c04_rbj. Qed.
Print Assumptions C04_silence_rbj.
Example C04_silence_example : (forall r th, npolar D r th <> None) /\ reachable_ok DF2 (Bw, LP) 4 ex_filt /\
  Forall fin_coeffs (fl_stages ex_filt) /\ fin_coeffs (r_bq ex_rbj) /\ Forall is_zero [B754_zero false; B754_zero true].
Proof. exact (conj D_polar_total (conj ex_filt_reachable_ok (conj ex_filt_fin (conj ex_rbj_fin ex_zeros)))). Qed.

(** ** C08: after a NaN sample every output is NaN (and C06 says what reset() does then) *)
Theorem C08_nan_stays : forall m (c : cstages (F64 m)) xs ys,
  cs_stages c <> [] -> length (cs_states c) = length (cs_stages c) ->
  snd (cs_run c (xs ++ B754_nan :: ys)) = snd (cs_run c xs) ++ repeat (B754_nan : T (F64 m)) (S (length ys)).
Proof. exact @c08_cs. Qed.
Print Assumptions C08_nan_stays.
Theorem C08_nan_stays_filter : forall m, (forall r th, npolar (F64 m) r th <> None) ->
  forall t k FO (f : filt (F64 m)) xs ys, (1 <= FO)%Z -> in_int (2 * FO) = true -> reachable_ok t k FO f ->
  snd (filt_run f (xs ++ B754_nan :: ys)) = snd (filt_run f xs) ++ repeat (B754_nan : T (F64 m)) (S (length ys)).
Proof. exact @c08_filt. Qed.
Print Assumptions C08_nan_stays_filter.
Theorem C08_nan_stays_rbj : forall m (r : rbj (F64 m)) xs ys,
  snd (rbj_run r (xs ++ B754_nan :: ys)) = snd (rbj_run r xs) ++ repeat (B754_nan : T (F64 m)) (S (length ys)).
Proof. exact @c08_rbj. Qed.
Print Assumptions C08_nan_stays_rbj.
Example C08_example : (forall r th, npolar D r th <> None) /\ reachable_ok DF2 (Bw, LP) 4 ex_filt /\ fl_stages ex_filt <> [] /\
  map micro (snd (filt_run ex_filt [d 1 1; ex_nan; d 0 1])) = [Some 162562; None; None]%Z /\
  map micro (snd (filt_run (filt_reset (fst (filt_run ex_filt [ex_nan]))) [d 1 1])) = [Some 4824]%Z.
Proof. exact ex_c08. Qed.

(** ** C09: identity stages pass finite samples, alone and behind other stages *)
Theorem C09_identity_stages : forall m (bs cs : list (biquad (F64 m))) t n xs, Forall identity_coeffs cs ->
  Forall is_fin (snd (cs_run (MkCStages bs (repeat (st_init t) (length bs))) xs)) ->
  Forall2 f_same (snd (cs_run (MkCStages (bs ++ cs) (repeat (st_init t) (length bs + n))) xs))
                 (snd (cs_run (MkCStages bs (repeat (st_init t) (length bs))) xs)).
Proof. exact @c09_stages. Qed.
Print Assumptions C09_identity_stages.
Theorem C09_identity_stages_alone : forall m (cs : list (biquad (F64 m))) t n xs, Forall identity_coeffs cs -> Forall is_fin xs ->
  Forall2 f_same (snd (cs_run (MkCStages cs (repeat (st_init t) n)) xs)) xs.
Proof. exact @c09_alone. Qed.
Print Assumptions C09_identity_stages_alone.
(** the stages a design of lower order leaves unused *)
Theorem C09_unused_stages : forall m, (forall r th, npolar (F64 m) r th <> None) ->
  forall t k FO (f : filt (F64 m)) xs, (1 <= FO)%Z -> in_int (2 * FO) = true -> reachable_ok t k FO f ->
  let active := firstn (Z.to_nat (filt_numStages f)) (fl_stages f) in
  Forall is_fin (snd (cs_run (MkCStages active (repeat (st_init t) (length active))) xs)) ->
  Forall2 f_same (snd (filt_run (filt_reset f) xs)) (snd (cs_run (MkCStages active (repeat (st_init t) (length active))) xs)).
Proof. exact @c09_filt. Qed.
Print Assumptions C09_unused_stages.
(** order 1 of a fourth order class: one stage used, one left over *)
Example C09_example : reachable_ok DF2 (Bw, LP) 4 ex_low /\ filt_numStages ex_low = 1%Z /\ length (fl_stages ex_low) = 2%nat /\
  (let active := firstn 1 (fl_stages ex_low) in Forall is_fin (snd (cs_run (MkCStages active (repeat (st_init DF2) 1)) ex_x))) /\
  Forall identity_coeffs (skipn 1 (fl_stages ex_low)).
Proof. exact ex_c09. Qed.

(** ** C10: odd symmetry *)
Theorem C10_negated_input : forall m (bs : list (biquad (F64 m))) t n xs,
  Forall2 (fun y y' => f_same y (Bopp y')) (snd (cs_run (MkCStages bs (repeat (st_init t) n)) (map (@Bopp 53 1024) xs)))
          (snd (cs_run (MkCStages bs (repeat (st_init t) n)) xs)).
Proof. exact @c10_cs. Qed.
Print Assumptions C10_negated_input.
Theorem C10_negated_input_filter : forall m (f : filt (F64 m)) xs,
  Forall2 (fun y y' => f_same y (Bopp y')) (snd (filt_run (filt_reset f) (map (@Bopp 53 1024) xs))) (snd (filt_run (filt_reset f) xs)).
Proof. exact @c10_filt. Qed.
Print Assumptions C10_negated_input_filter.
Theorem C10_negated_input_rbj : forall m (r : rbj (F64 m)) xs,
  Forall2 (fun y y' => f_same y (Bopp y')) (snd (rbj_run (rbj_reset r) (map (@Bopp 53 1024) xs))) (snd (rbj_run (rbj_reset r) xs)).
Proof. exact @c10_rbj. Qed.
Print Assumptions C10_negated_input_rbj.
(** why "compared with ==": the sign of a zero in the input never shows otherwise *)
Theorem C10_zero_signs_do_not_matter : forall m (bs : list (biquad (F64 m))) t n xs ys, Forall2 f_same xs ys ->
  Forall2 f_same (snd (cs_run (MkCStages bs (repeat (st_init t) n)) xs)) (snd (cs_run (MkCStages bs (repeat (st_init t) n)) ys)).
Proof. exact @c10_zero_sign. Qed.
Print Assumptions C10_zero_signs_do_not_matter.
Example C10_example :
  map micro (snd (rbj_run (rbj_reset ex_rbj) (map (@Bopp 53 1024) ex_x))) = map (option_map Z.opp) (map micro (snd (rbj_run (rbj_reset ex_rbj) ex_x))) /\
  f_same (B754_zero true) (B754_zero false).
Proof. exact ex_c10. Qed.

(** ** C41: an integer sample type with values lo ... hi *)
Theorem C41_identity : forall m lo hi (cs : list (biquad (F64 m))) t n xs,
  (-2 ^ 53 < lo <= 0)%Z -> (0 <= hi < 2 ^ 53)%Z -> Forall identity_coeffs cs ->
  Forall (fun x => lo <= x <= hi)%Z xs ->
  exists c', run_as (cs_filter_as (smp_int m lo hi)) xs (MkCStages cs (repeat (st_init t) n)) = Ok c' xs.
Proof. exact @c41. Qed.
Print Assumptions C41_identity.
Theorem C41_identity_rbj : forall m lo hi (r : rbj (F64 m)) xs, (-2 ^ 53 < lo <= 0)%Z -> (0 <= hi < 2 ^ 53)%Z -> identity_coeffs (r_bq r) ->
  Forall (fun x => lo <= x <= hi)%Z xs -> exists r', run_as (rbj_filter_as (smp_int m lo hi)) xs (rbj_reset r) = Ok r' xs.
Proof. exact @c41_rbj. Qed.
Print Assumptions C41_identity_rbj.
(** any stages, any state: y is what filtering the sample as a double returns *)
Theorem C41_cast : forall m lo hi (c : cstages (F64 m)) x, (lo <= 0 <= hi)%Z ->
  let y : f64 := snd (cs_filter c (fofZ x : T (F64 m))) in
  match cs_filter_as (smp_int m lo hi) x c with
  | Ok c' z => c' = fst (cs_filter c (fofZ x : T (F64 m))) /\ is_finite y = true /\ (lo <= z <= hi)%Z /\
      ((0 <= B2R y)%R -> (IZR z <= B2R y < IZR z + 1)%R) /\ ((B2R y <= 0)%R -> (IZR z - 1 < B2R y <= IZR z)%R)
  | Throw _ _ => False
  | UB => is_finite y = false \/ (B2R y <= IZR lo - 1)%R \/ (IZR hi + 1 <= B2R y)%R
  end.
Proof. exact @c41_cast. Qed.
Print Assumptions C41_cast.
Theorem C41_cast_rbj : forall m lo hi (r : rbj (F64 m)) x, (lo <= 0 <= hi)%Z ->
  let y : f64 := snd (rbj_filter r (fofZ x : T (F64 m))) in
  match rbj_filter_as (smp_int m lo hi) x r with
  | Ok r' z => r' = fst (rbj_filter r (fofZ x : T (F64 m))) /\ is_finite y = true /\ (lo <= z <= hi)%Z /\
      ((0 <= B2R y)%R -> (IZR z <= B2R y < IZR z + 1)%R) /\ ((B2R y <= 0)%R -> (IZR z - 1 < B2R y <= IZR z)%R)
  | Throw _ _ => False
  | UB => is_finite y = false \/ (B2R y <= IZR lo - 1)%R \/ (IZR hi + 1 <= B2R y)%R
  end.
Proof. exact @c41_cast_rbj. Qed.
Print Assumptions C41_cast_rbj.
(** int: a default constructed biquad is the identity; a gain of 3 overflows the type *)
Example C41_example : identity_coeffs (biquad0 : biquad D) /\
  Forall (fun x => -2147483648 <= x <= 2147483647)%Z [2147483647; -2147483648; 7]%Z /\
  match cs_filter_as (smp_int ref_libm (-2147483648) 2147483647) 1000000000%Z (MkCStages [ex_gain3] [st_init TDF2]) with UB => true | _ => false end = true /\
  match cs_filter_as (smp_int ref_libm (-2147483648) 2147483647) (-5)%Z (MkCStages [ex_gain3] [st_init TDF2]) with Ok _ z => z | _ => 0%Z end = (-15)%Z.
Proof. exact ex_c41. Qed.

(** ** C45: sample type float *)
Theorem C45_identity : forall m (cs : list (biquad (F64 m))) t n xs, Forall identity_coeffs cs -> Forall (fun x : f32 => is_finite x = true) xs ->
  exists c' ys, run_as (cs_filter_as (smp_float m)) xs (MkCStages cs (repeat (st_init t) n)) = Ok c' ys /\
    Forall2 (fun y x : f32 => Beqb y x = true) ys xs.
Proof. exact @c45. Qed.
Print Assumptions C45_identity.
Theorem C45_identity_rbj : forall m (r : rbj (F64 m)) xs, identity_coeffs (r_bq r) -> Forall (fun x : f32 => is_finite x = true) xs ->
  exists r' ys, run_as (rbj_filter_as (smp_float m)) xs (rbj_reset r) = Ok r' ys /\ Forall2 (fun y x : f32 => Beqb y x = true) ys xs.
Proof. exact @c45_rbj. Qed.
Print Assumptions C45_identity_rbj.
(** the result is the double output rounded to nearest; beyond FLT_MAX = 2^128 - 2^104 the cast is undefined *)
Theorem C45_cast : forall m (c : cstages (F64 m)) x,
  let y : f64 := snd (cs_filter c (f_of_float x : T (F64 m))) in
  match cs_filter_as (smp_float m) x c with
  | Ok c' z => c' = fst (cs_filter c (f_of_float x : T (F64 m))) /\ is_finite z = is_finite y /\
               B2R z = round Zaux.radix2 (SpecFloat.fexp 24 128) ZnearestE (B2R y) /\ (is_finite y = false -> B2SF z = B2SF y)
  | Throw _ _ => False
  | UB => is_finite y = true /\ (bpow Zaux.radix2 128 - bpow Zaux.radix2 104 < Rabs (B2R y))%R
  end.
Proof. exact @c45_cast. Qed.
Print Assumptions C45_cast.
Theorem C45_cast_rbj : forall m (r : rbj (F64 m)) x,
  let y : f64 := snd (rbj_filter r (f_of_float x : T (F64 m))) in
  match rbj_filter_as (smp_float m) x r with
  | Ok r' z => r' = fst (rbj_filter r (f_of_float x : T (F64 m))) /\ is_finite z = is_finite y /\
               B2R z = round Zaux.radix2 (SpecFloat.fexp 24 128) ZnearestE (B2R y) /\ (is_finite y = false -> B2SF z = B2SF y)
  | Throw _ _ => False
  | UB => is_finite y = true /\ (bpow Zaux.radix2 128 - bpow Zaux.radix2 104 < Rabs (B2R y))%R
  end.
Proof. exact @c45_cast_rbj. Qed.
Print Assumptions C45_cast_rbj.
(** FLT_MAX itself passes the identity; three times FLT_MAX does not fit *)
Example C45_example : identity_coeffs (biquad0 : biquad D) /\ is_finite ex_flt_max = true /\
  (match cs_filter_as (smp_float ref_libm) ex_flt_max (MkCStages [biquad0] [st_init DF1]) with Ok _ z => Beqb z ex_flt_max | _ => false end) = true /\
  match cs_filter_as (smp_float ref_libm) ex_flt_max (MkCStages [ex_gain3] [st_init DF1]) with UB => true | _ => false end = true.
Proof. exact ex_c45. Qed.
