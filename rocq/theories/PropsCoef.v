(** Property theorems about coefficients, poles and zeros, and refutations. *)
From Coq Require Import ZArith List Bool Reals Lra.
From Coquelicot Require Import Coquelicot.
From Verif Require Import Num Outcome Types Biquad State Cascade PoleFilter RBJ Exact Float64 RefLibm RealNum
  Spec SigSpec PZSpec RespProofs LayoutProofs PZProofs CoefLemmas Examples.
Import ListNotations.
Local Open Scope R_scope.

(** C15 *)
Theorem C15_nan_rejected : forall (N : num) a0 a1 a2 b0 b1 b2 (b : biquad N),
  let nan x := neqb N x x = false in
  let some_nan := nan a0 \/ nan a1 \/ nan a2 \/ nan b0 \/ nan b1 \/ nan b2 in
  (some_nan -> exists e, setCoefficients a0 a1 a2 b0 b1 b2 b = Throw e b) /\
  (~ some_nan -> exists b', setCoefficients a0 a1 a2 b0 b1 b2 b = Ok b' tt).
Proof. exact c15_nan. Qed.
Print Assumptions C15_nan_rejected.
Theorem C15_getters : forall strict a0 a1 a2 b0 b1 b2 (old : biquad (X strict)), a0 <> 0 ->
  exists b, setCoefficients (N := X strict) (XR a0) (XR a1) (XR a2) (XR b0) (XR b1) (XR b2) old = Ok b tt /\
    getA0 b = XR a0 /\ getA1 b = XR a1 /\ getA2 b = XR a2 /\ getB0 b = XR b0 /\ getB1 b = XR b1 /\ getB2 b = XR b2.
Proof. exact @c15_get. Qed.
Print Assumptions C15_getters.
Example C15_example : neqb D (fdiv (fofZ 0) (fofZ 0)) (fdiv (fofZ 0) (fofZ 0)) = false /\ neqb D (fofZ 1) (fofZ 1) = true.
Proof. split; vm_compute; reflexivity. Qed.

(** C16: the claim is false *)
Theorem C16_a0_zero_refuted : forall strict,
  exists b, setCoefficients (N := X strict) (XR 0) (XR 0) (XR 0) (XR 1) (XR 0) (XR 0) biquad0 = Ok b tt /\ m_a1 b = XNaN.
Proof. exact @c16_a0. Qed.
Print Assumptions C16_a0_zero_refuted.
Theorem C16_rbj_refuted : forall strict f g (old : biquad (X strict)), 0 < f < 1 / 2 ->
  exists b, rbj_setupN (N := X strict) R_LowPass (XR f) g (XR 0) old = Ok b tt /\ m_a2 b = XNaN.
Proof. exact @c16_rbj. Qed.
Print Assumptions C16_rbj_refuted.
(** binary64, whatever the math library *)
Theorem C16_a0_zero_double_refuted : forall m,
  match setCoefficients (N := F64 m) (fofZ 0) (fofZ 0) (fofZ 0) (fofZ 1) (fofZ 0) (fofZ 0) biquad0 with
  | Ok b _ => negb (neqb (F64 m) (m_a1 b) (m_a1 b)) | _ => false end = true.
Proof. intros m. vm_compute. reflexivity. Qed.
Print Assumptions C16_a0_zero_double_refuted.
(** Butterworth and ChebyshevI band pass with centre 0.4 and width -0.4, binary64 *)
Definition neg_width : params D := pz (d 2 5) (d (-2) 5) (d 6 1) (d 1 1).
Theorem C16_negative_width_refuted : forall k, k = (Bw, BP) \/ k = (Ch1, BP) ->
  match setupN k 2 None neg_width (pf_init k 2) with
  | Ok p _ => existsb (fun b => negb (neqb D (m_b0 b) (m_b0 b))) (c_stages (pf_cas p)) | _ => false end = true.
Proof. intros k [->| ->]; vm_compute; reflexivity. Qed.
Print Assumptions C16_negative_width_refuted.

(** C17 *)
Theorem C17_setTwoPole : forall strict p (b : biquad (X strict)),
  (pz_ok p -> exists b', setTwoPole (N := X strict) (xc (zp1 p)) (xc (zz1 p)) (xc (zp2 p)) (xc (zz2 p)) b = Ok b' tt /\
     realises p 1 b') /\
  (~ pz_ok p -> exists e, setTwoPole (N := X strict) (xc (zp1 p)) (xc (zz1 p)) (xc (zp2 p)) (xc (zz2 p)) b = Throw e b).
Proof. exact (fun s p b => conj (c17_ok p b) (c17_bad p b)). Qed.
Print Assumptions C17_setTwoPole.
Theorem C17_setOnePole : forall strict (pole zero : C) (b : biquad (X strict)),
  (snd pole = 0 -> snd zero = 0 ->
     exists b', setOnePole (N := X strict) (xc pole) (xc zero) b = Ok b' tt /\ realises (PZc pole 0 zero 0) 1 b') /\
  (~ (snd pole = 0 /\ snd zero = 0) -> exists e, setOnePole (N := X strict) (xc pole) (xc zero) b = Throw e b).
Proof. exact (fun s p z b => conj (c17_one_ok p z b) (c17_one_bad p z b)). Qed.
Print Assumptions C17_setOnePole.
Definition ex_pz : pzc := PZc (1 / 2, 1 / 2) (1 / 2, - (1 / 2)) (RtoC (-1)) (RtoC (-1)).
Lemma ex_pz_ok : pz_ok ex_pz.
Proof. split; [right; reflexivity|left; split; reflexivity]. Qed.
Example C17_example : pz_ok ex_pz /\ ~ pz_ok (PZc (1 / 2, 1 / 2) (1 / 2, 1 / 2) 0 0).
Proof.
  split; [exact ex_pz_ok|]. intros [[[Q _]|Q] _]; cbn in Q; [lra|]. inversion Q. lra.
Qed.

(** C18: true when the section has two poles or two zeros, false for a single pole and zero *)
Theorem C18_round_trip_partial : forall strict a0 a1 a2 b0 b1 b2 (b' : biquad (X strict)),
  a0 <> 0 -> b0 <> 0 -> a2 <> 0 \/ b2 <> 0 ->
  let b := @MkBiquad (X strict) (XR a0) (XR a1) (XR a2) (XR b0) (XR b1) (XR b2) in
  exists p bps, bq_getPoleZeros b = Val [xpz p] /\ pz_ok p /\
    (forall u : C, poly2 1 a1 a2 u = pz_den p u /\ poly2 b0 b1 b2 u = (RtoC b0 * pz_num p u)%C) /\
    bps_of b = Val bps /\
    setPoleZeroForm bps b' = Ok (@MkBiquad (X strict) (XR 1) (XR a1) (XR a2) (XR b0) (XR b1) (XR b2)) tt.
Proof. exact @c18_two. Qed.
Print Assumptions C18_round_trip_partial.
Example C18_example : 2 <> 0 /\ 1 <> 0 /\ (1 / 2 <> 0 \/ 0 <> 0).
Proof. lra. Qed.
(** the numerator does not vanish at the reported zero, and the round trip changes b1 *)
Theorem C18_single_pole_refuted : forall strict, exists (b : biquad (X strict)) a1 b0 b1 p,
  b = @MkBiquad (X strict) (XR 1) (XR a1) (XR 0) (XR b0) (XR b1) (XR 0) /\
  bq_getPoleZeros b = Val [xpz p] /\ zz1 p <> 0%C /\ poly2 b0 b1 0 (/ zz1 p)%C <> 0%C /\
  exists bps b', bps_of b = Val bps /\ setPoleZeroForm bps b = Ok b' tt /\ m_b1 b' <> m_b1 b.
Proof. exact @c18_refuted. Qed.
Print Assumptions C18_single_pole_refuted.

(** C20.  u = e^(-2 pi i f) *)
Theorem C20_setLayout : forall strict ps extra np mp w g n0 (old : list (biquad (X strict))),
  List.Forall pz_ok ps -> Z.of_nat (length ps) = Z.quot (np + 1) 2 -> (length ps <= length old)%nat ->
  0 <= w <= PI ->
  List.Forall (fun p => pz_den p (cis (- w)) <> 0%C) ps -> List.Forall (fun p => pz_num p (cis (- w)) <> 0%C) ps ->
  exists (cs rest : list (biquad (X strict))) (K : R),
    let c' := MkCascade (N := X strict) (Z.of_nat (length ps)) (Z.of_nat (length old)) (cs ++ rest) in
    setLayout (N := X strict) (MkLayout np mp (map xpz ps ++ extra) (XR w) (XR g)) (MkCascade n0 (Z.of_nat (length old)) old) =
      Ok c' tt /\
    length (cs ++ rest) = length old /\
    List.Forall2 (fun p b => exists k, (g <> 0 -> k <> 0) /\ realises p k b) ps cs /\ List.Forall identity_bq rest /\
    (forall f, 0 <= f <= 1 / 2 -> List.Forall (fun p => pz_den p (cis (- (2 * PI * f))) <> 0%C) ps ->
       cas_response c' (XR f) =
       Val (xc (RtoC K * cprod (map (fun p => pz_num p (cis (- (2 * PI * f)))) ps) /
                cprod (map (fun p => pz_den p (cis (- (2 * PI * f)))) ps))%C)) /\
    exists h, cas_response c' (XR (w / (2 * PI))) = Val (xc h) /\ (ps <> [] -> Cmod h = Rabs g).
Proof. exact c20. Qed.
Print Assumptions C20_setLayout.
Example C20_example : List.Forall pz_ok [ex_pz] /\ Z.of_nat (length [ex_pz]) = Z.quot (2 + 1) 2 /\
  List.Forall (fun p => pz_den p (cis (- 0)) <> 0%C) [ex_pz] /\ List.Forall (fun p => pz_num p (cis (- 0)) <> 0%C) [ex_pz].
Proof.
  split; [constructor; [exact ex_pz_ok|constructor]|]. split; [reflexivity|].
  rewrite Ropp_0, cis_0. split; constructor; try constructor; intros Q; apply (f_equal fst) in Q; cbn in Q; lra.
Qed.

(** C31: the claim is false; moreover the filter is unstable *)
Theorem C31_rbj_cutoff_refuted : forall strict f q g (old : biquad (X strict)), 1 / 2 < f < 1 -> 1 / 2 < q ->
  exists b, rbj_setupN (N := X strict) R_LowPass (XR f) g (XR q) old = Ok b tt /\ ~ stable_bq b.
Proof. exact @c31. Qed.
Print Assumptions C31_rbj_cutoff_refuted.
Example C31_example : 1 / 2 < 3 / 4 < 1 /\ 1 / 2 < 7 / 10.
Proof. lra. Qed.

(** C39: the claim is false: even orders <= 0 give a filter that does nothing *)
Theorem C39_order_not_positive_refuted : forall strict FO o fc fw ga db,
  (1 <= FO)%Z -> (o <= 0)%Z -> Z.even o = true -> in_int (2 * o) = true -> 0 <= fc < 1 / 2 ->
  exists p, setupN (N := X strict) (Bw, LP) FO (Some o) (MkParams (N := X strict) (XR fc) fw ga db) (pf_init (Bw, LP) FO) = Ok p tt /\
    c_numStages (pf_cas p) = 0%Z /\ List.Forall identity_bq (c_stages (pf_cas p)).
Proof. exact @c39. Qed.
Print Assumptions C39_order_not_positive_refuted.
(** binary64, order -3, all 21 classes *)
Definition all_kinds : list kind :=
  list_prod [Bw; Ch1; Ch2] [LP; HP; BP; BS; LSh; HSh; BSh].
Theorem C39_order_minus_three_refuted :
  forallb (fun k => match setupN k 4 (Some (-3)%Z) ex_params (pf_init k 4) with Ok _ _ => true | _ => false end) all_kinds = true.
Proof. vm_compute. reflexivity. Qed.
Print Assumptions C39_order_minus_three_refuted.

(** C40: the claim is false for the Butterworth shelves: with the precondition of std::polar
    (radius >= 0) enforced, setup of order >= 2 is undefined behaviour, whatever the gain *)
Theorem C40_polar_refuted : forall FO o fc fw ga db, (2 <= o <= FO)%Z -> in_int (o * 2) = true ->
  setupN (N := X true) (Bw, LSh) FO (Some o) (MkParams (N := X true) fc fw (XR ga) db) (pf_init (Bw, LSh) FO) = UB.
Proof. exact c40. Qed.
Print Assumptions C40_polar_refuted.
Example C40_example : (2 <= 4 <= 8)%Z /\ in_int (4 * 2) = true.
Proof. repeat split; discriminate. Qed.
