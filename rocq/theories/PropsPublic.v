(** Property theorems about the public base-class interface (C51, C52). *)
From Coq Require Import ZArith List Bool.
From Verif Require Import Num Outcome Types Biquad State Cascade PoleFilter History Public PublicLemmas
  RefLibm Examples PublicDouble.
Import ListNotations.

(** C51 is false.  (a) setLayout with a layout that has too many poles throws, but only after it
    has stored the number of stages: operator[] and response() then read outside the array. *)
Theorem C51_rejected_layout_refuted : forall (N : num) (c : cascade N) (l : layout N),
  c_maxStages c = Z.of_nat (length (c_stages c)) -> (c_maxStages c < Z.quot (l_numPoles l + 1) 2)%Z ->
  exists c', setLayout l c = Throw E_stages c' /\ c_stages c' = c_stages c /\
    c_numStages c' = Z.quot (l_numPoles l + 1) 2 /\
    cas_index c' (c_maxStages c) = Undef /\
    ((forall r th, npolar N r th <> None) -> forall f,
       ngtb f (nlit N 1 2) = false -> nltb N f (nofZ N 0) = false -> cas_response c' f = Undef).
Proof. exact rejected_layout. Qed.
Print Assumptions C51_rejected_layout_refuted.
Example C51_rejected_layout_example :
  c_maxStages (pf_cas (fl_pf ex_small)) = Z.of_nat (length (fl_stages ex_small)) /\
  (c_maxStages (pf_cas (fl_pf ex_small)) < Z.quot (l_numPoles ex_layout + 1) 2)%Z /\
  map bq6 (fl_stages ex_small) =
  [[Some 1000000; Some (-1142980); Some 412801; Some 67455; Some 134910; Some 67455]]%Z.
Proof. exact (conj (proj1 ex_small_fits) (conj eq_refl (proj2 ex_small_fits))). Qed.

(** (b) adding a further conjugate pair to a full layout writes behind its array *)
Theorem C51_full_layout_refuted : forall (N : num) (l : layout N) p z,
  Z.even (l_numPoles l) = true -> l_numPoles l = l_maxPoles l ->
  l_maxPoles l = (2 * Z.of_nat (length (l_pairs l)))%Z ->
  c_is_nan p = false -> c_is_nan z = false ->
  lay_addConj p z l = UB.
Proof. exact full_layout. Qed.
Print Assumptions C51_full_layout_refuted.
Example C51_full_layout_example : Z.even (l_numPoles ex_layout) = true /\
  l_numPoles ex_layout = l_maxPoles ex_layout /\
  l_maxPoles ex_layout = (2 * Z.of_nat (length (l_pairs ex_layout)))%Z /\
  c_is_nan (N := D) (Cx (d 1 2) (d 1 3)) = false.
Proof. vm_compute. auto. Qed.

(** (c) LowPassBase::setup(4, 0.1) on a LowPass<2>, called with the base's name *)
Theorem C51_base_setup_refuted : base_setup (N := D) (Bw, LP) 4 ex_params (pf_init (Bw, LP) 2) = UB.
Proof. exact base_setup_ub. Qed.
Print Assumptions C51_base_setup_refuted.

(** C52: all other calls are safe in any order *)
Theorem C52_public_calls_are_safe : forall N : num, (forall r th, npolar N r th <> None) ->
  forall t k FO, (1 <= FO)%Z -> in_int (2 * FO) = true ->
  forall os : list (pop N), Forall (pop_ok (maxStagesOf (snd k) FO)) os ->
  exists f : filt N, psteps k FO os (filt_init t k FO) = Some f /\
    (forall x, filt_response f x <> Undef) /\ (forall i, filt_index f i <> Undef) /\
    filt_getPoleZeros f <> Undef /\
    length (fl_stages f) = Z.to_nat (maxStagesOf (snd k) FO) /\
    length (fl_states f) = Z.to_nat (maxStagesOf (snd k) FO) /\
    (0 <= filt_numStages f <= maxStagesOf (snd k) FO)%Z.
Proof. exact @public_safe. Qed.
Print Assumptions C52_public_calls_are_safe.
Example C52_example : Forall (pop_ok (maxStagesOf LP 4)) ex_pops /\
  filt_numStages ex_pops_filt = 2%Z /\ map bq6 (fl_stages ex_pops_filt) =
  [[Some 1000000; Some (-1250516); Some 545723; Some 9049; Some 18098; Some 9049];
   [Some 1000000; Some (-509525); Some 0; Some 1000000; Some 1000000; Some 0]]%Z.
Proof. exact (conj ex_pops_ok ex_pops_coeffs). Qed.
