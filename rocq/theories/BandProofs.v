(** Proofs: the band pass and band stop transforms in exact arithmetic. *)
From Coq Require Import ZArith List Bool Reals Lra Lia.
From Coquelicot Require Import Coquelicot.
From Verif Require Import Num Outcome Types Biquad State Cascade Transforms Exact RealNum SigSpec SigProofs StabProofs
  RespProofs PZSpec PZProofs RBJProofs CoefLemmas BuildProofs PolyProofs MapProofs TransProofs ProtoProofs ProtoBuild DesignProofs.
Import ListNotations.
Local Open Scope R_scope.

Lemma Cinv_nz' (c : C) : c <> 0%C -> (/ c)%C <> 0%C.
Proof. intros H Q. apply C1_nz. rewrite <- (Cinv_r c H), Q. ring. Qed.

(** ** complex square root *)
Definition csq (c : C) : C :=
  let m := sqrt (fst c * fst c + snd c * snd c) in
  (sqrt ((m + fst c) / 2), if Rltb (snd c) 0 then - sqrt ((m - fst c) / 2) else sqrt ((m - fst c) / 2)).
Lemma csq_bounds a b : let m := sqrt (a * a + b * b) in 0 <= (m + a) / 2 /\ 0 <= (m - a) / 2 /\ m * m = a * a + b * b /\ 0 <= m.
Proof.
  intros m. assert (M : m * m = a * a + b * b) by (apply sqrt_sqrt; nra).
  assert (0 <= m) by apply sqrt_pos. assert (Rabs a <= m).
  { unfold m. rewrite <- sqrt_Rsqr_abs. apply sqrt_le_1_alt. unfold Rsqr. nra. }
  apply Rabs_le_between in H0. repeat split; lra.
Qed.
Lemma csq_sq c : (csq c * csq c)%C = c.
Proof.
  destruct c as [a b]. unfold csq. cbn [fst snd]. destruct (csq_bounds a b) as (H1 & H2 & H3 & H4). set (m := sqrt (a * a + b * b)) in *.
  pose proof (sqrt_sqrt _ H1) as P. pose proof (sqrt_sqrt _ H2) as Q.
  pose proof (sqrt_pos ((m + a) / 2)) as PP. pose proof (sqrt_pos ((m - a) / 2)) as QP.
  set (p := sqrt ((m + a) / 2)) in *. set (q := sqrt ((m - a) / 2)) in *.
  assert (PQ : 2 * (p * q) = Rabs b).
  { assert (E : (2 * (p * q)) * (2 * (p * q)) = Rabs b * Rabs b).
    { transitivity (4 * (p * p) * (q * q)); [ring|]. rewrite P, Q. rewrite <- Rabs_mult, Rabs_right by nra. nra. }
    pose proof (Rabs_pos b). assert (0 <= p * q) by (apply Rmult_le_pos; assumption). nra. }
  unfold Rltb. destruct (Rlt_dec b 0).
  - rewrite Rabs_left in PQ by lra. apply injective_projections; cbn; nra.
  - rewrite Rabs_right in PQ by lra. apply injective_projections; cbn; nra.
Qed.
(** square root of a real number *)
Lemma csq_real (c : C) : snd c = 0 -> (0 <= fst c /\ snd (csq c) = 0) \/ (fst c < 0 /\ fst (csq c) = 0).
Proof.
  destruct c as [a b]. cbn [fst snd]. intros ->. unfold csq. cbn [fst snd]. replace (a * a + 0 * 0) with (Rsqr a) by (unfold Rsqr; ring).
  rewrite sqrt_Rsqr_abs. destruct (Rle_dec 0 a) as [H|H].
  - left. split; [exact H|]. unfold Rltb. destruct (Rlt_dec 0 0); [lra|]. rewrite Rabs_right by lra.
    replace ((a - a) / 2) with 0 by field. apply sqrt_0.
  - right. split; [lra|]. rewrite Rabs_left by lra. replace ((- a + a) / 2) with 0 by field. apply sqrt_0.
Qed.

(** ** real pairs of numbers (m - W)/e, (m + W)/e *)
Lemma C2_eq : RtoC 2 = (1 + 1)%C. Proof. apply injective_projections; cbn; ring. Qed.
Lemma C4_eq : RtoC 4 = ((1 + 1) * (1 + 1))%C. Proof. apply injective_projections; cbn; ring. Qed.
Lemma C8_eq : RtoC 8 = ((1 + 1) * (1 + 1) * (1 + 1))%C. Proof. apply injective_projections; cbn; ring. Qed.

Lemma C1_nz_ : (1 + 1)%C <> 0%C. Proof. rewrite <- C2_eq. intros Q. apply RtoC_inj in Q. lra. Qed.
Lemma C2_nz_ : RtoC 2 <> 0%C. Proof. intros Q. apply RtoC_inj in Q. lra. Qed.
Lemma C4_nz_ : RtoC 4 <> 0%C. Proof. intros Q. apply RtoC_inj in Q. lra. Qed.

Ltac cnz := first [assumption | exact C1_nz_ | exact C2_nz_ | exact C4_nz_ | let Q := fresh in intros Q; apply (f_equal fst) in Q; cbn in Q; lra].

Lemma div0 x e : e <> 0 -> x / e = 0 -> x = 0.
Proof. intros He H. replace x with (x / e * e) by (field; exact He). rewrite H. ring. Qed.

Section Band.
  Variables (a b : R).
  Hypothesis Ha : -1 < a < 1.
  Hypothesis Hb : 0 < b.
  Notation ca := (RtoC a). Notation cb := (RtoC b).

  (** *** band pass *)
  Definition bpV (t : C) : C := ((RtoC (4 * (b * b * (a * a - 1) + 1)) * t + RtoC (8 * (b * b * (a * a - 1) - 1))) * t + RtoC (4 * (b * b * (a * a - 1) + 1)))%C.
  Definition bpD (z : option C) : C * C :=
    match z with
    | None => (RtoC (-1), RtoC 1)
    | Some c =>
        let t := ((1 + c) / (1 - c))%C in let v := csq (bpV t) in let ab2 := RtoC (2 * (a * b)) in
        let d := (RtoC (2 * (b - 1)) * t + RtoC (2 * (1 + b)))%C in
        ((- v + ab2 * t + ab2) / d, (v + ab2 * t + ab2) / d)%C
    end.
  Definition bpW (c : C) : C := (csq (bpV ((1 + c) / (1 - c))%C) * (1 - c) / RtoC 4)%C.
  Lemma one_c (c : C) : fst c <= 0 -> (1 - c)%C <> 0%C.
  Proof. intros H. apply nz_right. destruct c. cbn in *. lra. Qed.
  Lemma b_c (c : C) : fst c <= 0 -> (cb - c)%C <> 0%C.
  Proof. intros H. apply nz_right. destruct c. cbn in *. lra. Qed.
  Lemma bpV_alg (x y : C) : y <> 0%C ->
    (bpV (x / y)%C * (y * y))%C = (RtoC 4 * (cb * cb * (ca * ca - 1) * ((x + y) * (x + y)) + (x - y) * (x - y)))%C.
  Proof.
    intros H. unfold bpV. rewrite !RtoC_mult, !RtoC_minus, !RtoC_plus, !RtoC_mult, !RtoC_minus, !RtoC_mult, C4_eq, C8_eq. field. exact H.
  Qed.
  Lemma bpW_sq (c : C) : fst c <= 0 -> (bpW c * bpW c)%C = (c * c + cb * cb * (ca * ca - 1))%C.
  Proof.
    intros H. pose proof (one_c c H) as N. unfold bpW. set (V := csq (bpV ((1 + c) / (1 - c))%C)).
    transitivity ((V * V) * ((1 - c) * (1 - c)) / (RtoC 4 * RtoC 4))%C; [field; exact C4_nz_|].
    unfold V. rewrite csq_sq, bpV_alg by exact N. rewrite C4_eq. field; repeat split; cnz.
  Qed.
  Lemma bpD_eq (c : C) : fst c <= 0 -> bpD (Some c) = ((ca * cb - bpW c) / (cb - c), (ca * cb + bpW c) / (cb - c))%C.
  Proof.
    intros H. pose proof (one_c c H) as N1. pose proof (b_c c H) as N2. unfold bpD, bpW. cbv zeta. set (V := csq (bpV ((1 + c) / (1 - c))%C)).
    assert (E : (RtoC (2 * (b - 1)) * ((1 + c) / (1 - c))%C + RtoC (2 * (1 + b)))%C = (RtoC 4 * (cb - c) / (1 - c))%C).
    { rewrite !RtoC_mult, RtoC_minus, RtoC_plus, C4_eq, C2_eq. field. exact N1. }
    rewrite E. rewrite !RtoC_mult, C4_eq, C2_eq. f_equal; field; repeat split; cnz.
  Qed.
  Lemma two_images (m W e : C) (p1 p2 : C) u : e <> 0%C -> p1 = ((m - W) / e)%C -> p2 = ((m + W) / e)%C ->
    ((1 - p1 * u) * (1 - p2 * u))%C = (/ e * (e - (1 + 1) * m * u + (m * m - W * W) / e * (u * u)))%C.
  Proof. intros N -> ->. field. exact N. Qed.
  Definition bpA (u : C) : C := (cb * (1 - (1 + 1) * ca * u + u * u))%C.
  Definition bpB (u : C) : C := (1 - u * u)%C.
  Lemma bp_images z : zleft z -> images bpA bpB [fst (bpD z); snd (bpD z)] z.
  Proof.
    destruct z as [c|]; cbn [zleft]; intros H.
    - pose proof (b_c c H) as N. exists (/ (cb - c))%C. split; [apply Cinv_nz', N|]. intros u. rewrite bpD_eq by exact H. cbn [map fst snd fac].
      unfold cprod. cbn [fold_right]. rewrite Cmult_1_r. rewrite (two_images (ca * cb)%C (bpW c) (cb - c)%C _ _ u N eq_refl eq_refl), bpW_sq by exact H.
      unfold bpA, bpB. field. exact N.
    - exists (RtoC 1). split; [apply C1_nz|]. intros u. cbn [bpD map fst snd fac]. unfold cprod, bpB. cbn [fold_right].
      replace (RtoC (-1)) with (- (1))%C by (rewrite <- RtoC_opp; f_equal; lra). ring.
  Qed.

  (** *** band stop *)
  Definition bsU (t : C) : C := ((RtoC (4 * (b * b + a * a - 1)) * t + RtoC (8 * (b * b - a * a + 1))) * t + RtoC (4 * (a * a + b * b - 1)))%C.
  Definition bst (z : option C) : C := match z with Some c => ((1 + c) / (1 - c))%C | None => RtoC (-1) end.
  Definition bsD (z : option C) : C * C :=
    let t := bst z in let s := csq (bsU t) in let d := (RtoC (b + 1) + RtoC (b - 1) * t)%C in
    ((RtoC (1 / 2) * s + ca + RtoC (- a) * t) / d, (RtoC (- (1 / 2)) * s + ca + RtoC (- a) * t) / d)%C.
  Definition bsW (z : option C) : C := match z with Some c => (csq (bsU (bst z)) * (1 - c) / RtoC 4)%C | None => (csq (bsU (bst z)) / RtoC 4)%C end.
  Lemma bsU_alg (x y : C) : y <> 0%C ->
    (bsU (x / y)%C * (y * y))%C = (RtoC 4 * (cb * cb * ((x + y) * (x + y)) + (ca * ca - 1) * ((x - y) * (x - y))))%C.
  Proof.
    intros H. unfold bsU. rewrite !RtoC_mult, ?RtoC_plus, ?RtoC_minus, ?RtoC_plus, !RtoC_mult, C4_eq, C8_eq. field. exact H.
  Qed.
  Lemma bsW_sq (c : C) : fst c <= 0 -> (bsW (Some c) * bsW (Some c))%C = (cb * cb + (ca * ca - 1) * (c * c))%C.
  Proof.
    intros H. pose proof (one_c c H) as N. unfold bsW, bst. set (V := csq (bsU ((1 + c) / (1 - c))%C)).
    transitivity ((V * V) * ((1 - c) * (1 - c)) / (RtoC 4 * RtoC 4))%C; [field; exact C4_nz_|].
    unfold V. rewrite csq_sq, bsU_alg by exact N. rewrite C4_eq. field; repeat split; cnz.
  Qed.
  Lemma bsW_none : (bsW None * bsW None)%C = (ca * ca - 1)%C.
  Proof.
    unfold bsW, bst. set (V := csq (bsU (RtoC (-1)))). transitivity ((V * V) / (RtoC 4 * RtoC 4))%C; [field; exact C4_nz_|].
    unfold V. rewrite csq_sq. unfold bsU. rewrite !RtoC_mult, ?RtoC_plus, ?RtoC_minus, ?RtoC_plus, !RtoC_mult, C4_eq, C8_eq.
    replace (RtoC (-1)) with (- (1))%C by (rewrite <- RtoC_opp; f_equal; lra). field; repeat split; cnz.
  Qed.
  Lemma Chalf : RtoC (1 / 2) = (/ (1 + 1))%C.
  Proof. rewrite <- C2_eq, <- RtoC_inv by lra. f_equal. field. Qed.
  Lemma Cmhalf : RtoC (- (1 / 2)) = (- / (1 + 1))%C.
  Proof. rewrite RtoC_opp, Chalf. reflexivity. Qed.
  Lemma bsD_eq (c : C) : fst c <= 0 -> bsD (Some c) = ((- (ca * c) + bsW (Some c)) / (cb - c), (- (ca * c) - bsW (Some c)) / (cb - c))%C.
  Proof.
    intros H. pose proof (one_c c H) as N1. pose proof (b_c c H) as N2. unfold bsD, bsW, bst. cbv zeta. set (V := csq (bsU ((1 + c) / (1 - c))%C)).
    assert (E : (RtoC (b + 1) + RtoC (b - 1) * ((1 + c) / (1 - c))%C)%C = (RtoC 2 * (cb - c) / (1 - c))%C).
    { rewrite RtoC_minus, RtoC_plus, C2_eq. field. exact N1. }
    rewrite E. rewrite Chalf, Cmhalf, RtoC_opp, C4_eq, C2_eq. f_equal; field; repeat split; cnz.
  Qed.
  Lemma bsD_none : bsD None = (ca + bsW None, ca - bsW None)%C.
  Proof.
    unfold bsD, bsW, bst. cbv zeta. set (V := csq (bsU (RtoC (-1)))).
    assert (E : (RtoC (b + 1) + RtoC (b - 1) * RtoC (-1))%C = RtoC 2) by (rewrite <- RtoC_mult, <- RtoC_plus; f_equal; ring).
    rewrite E, Chalf, Cmhalf, RtoC_opp, C4_eq, C2_eq. replace (RtoC (-1)) with (- (1))%C by (rewrite <- RtoC_opp; f_equal; lra).
    f_equal; field; repeat split; cnz.
  Qed.
  Definition bsA (u : C) : C := (cb * (1 - u * u))%C.
  Definition bsB (u : C) : C := (1 - (1 + 1) * ca * u + u * u)%C.
  Lemma bs_images z : zleft z -> images bsA bsB [fst (bsD z); snd (bsD z)] z.
  Proof.
    destruct z as [c|]; cbn [zleft]; intros H.
    - pose proof (b_c c H) as N. exists (/ (cb - c))%C. split; [apply Cinv_nz', N|]. intros u. rewrite bsD_eq by exact H. cbn [map fst snd fac].
      unfold cprod. cbn [fold_right]. rewrite Cmult_1_r. rewrite Cmult_comm.
      rewrite (two_images (- (ca * c))%C (bsW (Some c)) (cb - c)%C _ _ u N eq_refl eq_refl), bsW_sq by exact H.
      unfold bsA, bsB. field. exact N.
    - exists (RtoC 1). split; [apply C1_nz|]. intros u. rewrite bsD_none. cbn [map fst snd fac]. unfold cprod, bsB. cbn [fold_right].
      transitivity (1 - (1 + 1) * ca * u + (ca * ca - bsW None * bsW None) * (u * u))%C; [ring|]. rewrite bsW_none. ring.
  Qed.

  (** *** matched pairs *)
  Definition nonexc (z : option C) : Prop := match z with Some c => b + fst c <> 0 | None => True end.
  Definition real_pair (p : C * C) : Prop :=
    (snd (fst p) = 0 /\ snd (snd p) = 0) \/ (snd p = Cconj (fst p) /\ snd (fst p) <> 0).
  (** [both] numbers are not 0 *)
  Definition matched (p : C * C) : Prop :=
    (snd (fst p) = 0 /\ snd (snd p) = 0 /\ fst (fst p) <> 0 /\ fst (snd p) <> 0) \/ (snd p = Cconj (fst p) /\ snd (fst p) <> 0).
  Lemma real_c (c : C) : snd c = 0 -> c = RtoC (fst c).
  Proof. destruct c as [x y]. cbn. intros ->. reflexivity. Qed.
  Lemma W_pair (m e : R) (W : C) s : e <> 0 -> snd (W * W)%C = 0 -> (snd W = 0 \/ fst W = 0) ->
    s = 1 \/ s = -1 ->
    let p := ((RtoC m - RtoC s * W) / RtoC e, (RtoC m + RtoC s * W) / RtoC e)%C in
    real_pair p /\ ((m * m - fst (W * W)%C) <> 0 -> matched p) /\ ((m * m - fst (W * W)%C) = 0 -> ~ matched p).
  Proof.
    intros He HW HR Hs p.
    assert (E : forall x y, ((x, y) / RtoC e)%C = (x / e, y / e)).
    { intros x y. apply injective_projections; cbn; field; exact He. }
    destruct W as [x y]. cbn [fst snd] in *.
    assert (P : p = (((m - s * x) / e, - s * y / e), ((m + s * x) / e, s * y / e)) :> C * C).
    { unfold p. rewrite <- !E. f_equal; f_equal; apply injective_projections; cbn; ring. }
    rewrite P. clear p P E HW. cbn. destruct HR as [-> | ->].
    - replace (- s * 0 / e) with 0 by (field; exact He). replace (s * 0 / e) with 0 by (field; exact He).
      split; [left; split; reflexivity|]. cbn. split; intros Q.
      + left. split; [reflexivity|]. split; [reflexivity|].
        split; intros Z; apply Q; cbn in Z; apply (div0 _ _ He) in Z;
          destruct Hs; subst s; nra.
      + intros [(_ & _ & Z1 & Z2)|[_ Z]]; [|apply Z; reflexivity]. cbn in Z1, Z2.
        assert ((m - s * x) * (m + s * x) = 0) by (destruct Hs; subst s; nra).
        apply Rmult_integral in H. destruct H as [H|H]; rewrite H in *; unfold Rdiv in *; rewrite Rmult_0_l in *; congruence.
    - replace ((m - s * 0) / e) with (m / e) by (field; exact He). replace ((m + s * 0) / e) with (m / e) by (field; exact He).
      destruct (Req_dec y 0) as [->|Y].
      + replace (- s * 0 / e) with 0 by (field; exact He). replace (s * 0 / e) with 0 by (field; exact He).
        split; [left; split; reflexivity|]. split; intros Q.
        * left. cbn. split; [reflexivity|]. split; [reflexivity|].
          split; intros Z; apply Q; cbn in Z; apply (div0 _ _ He) in Z; nra.
        * intros [(_ & _ & Z1 & Z2)|[_ Z]]; [|apply Z; reflexivity]. cbn in Z1. apply Z1. replace m with 0 by nra. field. exact He.
      + assert (Z : - s * y / e <> 0).
        { intros Z. apply (div0 _ _ He) in Z.
          destruct Hs; subst s; nra. }
        assert (CJ : (m / e, s * y / e) = Cconj (m / e, - s * y / e)) by (apply injective_projections; cbn; [reflexivity|field; exact He]).
        split; [right; cbn; split; [exact CJ|exact Z]|]. split; intros Q; [right; cbn; split; [exact CJ|exact Z]|].
        exfalso. assert (0 < y * y) by nra. nra.
  Qed.
  Lemma csq_axis (c r : C) : snd c = 0 -> snd r = 0 -> snd (csq c * r)%C = 0 \/ fst (csq c * r)%C = 0.
  Proof.
    intros Hc Hr. rewrite (real_c r Hr). destruct (csq_real c Hc) as [[_ H]|[_ H]]; destruct (csq c) as [x y]; cbn in *; subst; [left|right]; ring.
  Qed.
  Lemma snd_real_mult (x y : C) : snd x = 0 -> snd y = 0 -> snd (x * y)%C = 0.
  Proof. destruct x, y. cbn. intros -> ->. ring. Qed.
  Lemma snd_real_plus (x y : C) : snd x = 0 -> snd y = 0 -> snd (x + y)%C = 0.
  Proof. destruct x, y. cbn. intros -> ->. ring. Qed.
  Lemma snd_real_inv (x : C) : snd x = 0 -> snd (/ x)%C = 0.
  Proof. destruct x. cbn. intros ->. unfold Rdiv. ring. Qed.
  Ltac real_arith := repeat first [apply snd_real_mult | apply snd_real_plus | apply snd_real_inv | reflexivity | assumption].
  Lemma bil_real (c : C) : snd c = 0 -> snd ((1 + c) / (1 - c))%C = 0.
  Proof. destruct c as [x y]. cbn [snd]. intros ->. apply div_real; cbn; ring. Qed.
  Lemma bpV_real t : snd t = 0 -> snd (bpV t) = 0.
  Proof. intros H. unfold bpV. real_arith. Qed.
  Lemma bsU_real t : snd t = 0 -> snd (bsU t) = 0.
  Proof. intros H. unfold bsU. real_arith. Qed.
  Lemma one_minus_real (c : C) : snd c = 0 -> snd (1 - c)%C = 0.
  Proof. destruct c. cbn. intros ->. ring. Qed.

  (** images of imaginary zeros are not 0 *)
  Lemma two_nz A B (p1 p2 : C) z : images A B [p1; p2] z ->
    (fac z (A (RtoC 1)) (B (RtoC 1)) + fac z (A (RtoC (-1))) (B (RtoC (-1))) - (1 + 1) * fac z (A (RtoC 0)) (B (RtoC 0)))%C <> 0%C ->
    p1 <> 0%C /\ p2 <> 0%C.
  Proof.
    intros (K & NK & H) N.
    assert (E : ((1 + 1) * (p1 * p2) = K * (fac z (A (RtoC 1)) (B (RtoC 1)) + fac z (A (RtoC (-1))) (B (RtoC (-1))) - (1 + 1) * fac z (A (RtoC 0)) (B (RtoC 0))))%C).
    { pose proof (H (RtoC 1)) as H1. pose proof (H (RtoC (-1))) as H2. pose proof (H (RtoC 0)) as H3. unfold cprod in H1, H2, H3. cbn [map fold_right] in H1, H2, H3.
      replace (K * (fac z (A (RtoC 1)) (B (RtoC 1)) + fac z (A (RtoC (-1))) (B (RtoC (-1))) - (1 + 1) * fac z (A (RtoC 0)) (B (RtoC 0))))%C
        with (K * fac z (A (RtoC 1)) (B (RtoC 1)) + K * fac z (A (RtoC (-1))) (B (RtoC (-1))) - (1 + 1) * (K * fac z (A (RtoC 0)) (B (RtoC 0))))%C by ring.
      rewrite <- H1, <- H2, <- H3. replace (RtoC (-1)) with (- (1))%C by (rewrite <- RtoC_opp; f_equal; lra). ring. }
    pose proof (Cmult_neq_0 _ _ NK N) as M. rewrite <- E in M. split; intros Q; apply M; rewrite Q; ring.
  Qed.
  Lemma bp_nz z : zimag z -> fst (bpD z) <> 0%C /\ snd (bpD z) <> 0%C.
  Proof.
    intros Hz. assert (HL : zleft z) by (destruct z as [c|]; [cbn in *; lra|exact I]). apply (two_nz _ _ _ _ _ (bp_images z HL)).
    unfold bpA, bpB. destruct z as [[x y]|]; cbn [fac zimag fst] in *; [subst x|]; intros Q; inversion Q; lra.
  Qed.
  Lemma bs_nz z : zimag z -> fst (bsD z) <> 0%C /\ snd (bsD z) <> 0%C.
  Proof.
    intros Hz. assert (HL : zleft z) by (destruct z as [c|]; [cbn in *; lra|exact I]). apply (two_nz _ _ _ _ _ (bs_images z HL)).
    unfold bsA, bsB. destruct z as [[x y]|]; cbn [fac zimag fst] in *; [subst x|]; intros Q; inversion Q; lra.
  Qed.
  Lemma bp_pair z : zleft z -> zreal z -> real_pair (bpD z) /\ (nonexc z -> matched (bpD z)) /\ (~ nonexc z -> ~ matched (bpD z)).
  Proof.
    destruct z as [c|]; cbn [zleft zreal nonexc].
    - intros HL HR. rewrite bpD_eq by exact HL.
      assert (AX : snd (bpW c) = 0 \/ fst (bpW c) = 0).
      { unfold bpW. unfold Cdiv. rewrite <- Cmult_assoc. apply csq_axis; [apply bpV_real, bil_real, HR|].
        apply snd_real_mult; [apply one_minus_real, HR|real_arith]. }
      pose proof (bpW_sq c HL) as SQ.
      assert (NE : b - fst c <> 0) by lra.
      assert (RE : snd (bpW c * bpW c)%C = 0) by (rewrite SQ, (real_c c HR); cbn; ring).
      pose proof (W_pair (a * b) (b - fst c) (bpW c) 1 NE RE AX (or_introl eq_refl)) as P. cbv zeta in P.
      replace ((ca * cb - bpW c) / (cb - c), (ca * cb + bpW c) / (cb - c))%C
        with ((RtoC (a * b) - RtoC 1 * bpW c) / RtoC (b - fst c), (RtoC (a * b) + RtoC 1 * bpW c) / RtoC (b - fst c))%C
        by (rewrite RtoC_minus, <- (real_c c HR), RtoC_mult, Cmult_1_l; reflexivity).
      replace (a * b * (a * b) - fst (bpW c * bpW c)%C) with ((b - fst c) * (b + fst c)) in P
        by (rewrite SQ, (real_c c HR); cbn; ring).
      destruct P as (P1 & P2 & P3). split; [exact P1|]. split.
      + intros Q. apply P2. apply Rmult_integral_contrapositive_currified; assumption.
      + intros Q. apply P3. destruct (Req_dec (b + fst c) 0) as [Z|Z]; [rewrite Z; ring|contradiction].
    - intros _ _. split; [left; split; reflexivity|]. split; [intros _; left; cbn; repeat split; lra|tauto].
  Qed.
  Lemma bs_pair z : zleft z -> zreal z -> real_pair (bsD z) /\ (nonexc z -> matched (bsD z)) /\ (~ nonexc z -> ~ matched (bsD z)).
  Proof.
    destruct z as [c|]; cbn [zleft zreal nonexc].
    - intros HL HR. rewrite bsD_eq by exact HL.
      assert (AX : snd (bsW (Some c)) = 0 \/ fst (bsW (Some c)) = 0).
      { unfold bsW. unfold Cdiv. rewrite <- Cmult_assoc. apply csq_axis; [apply bsU_real, bil_real, HR|].
        apply snd_real_mult; [apply one_minus_real, HR|real_arith]. }
      pose proof (bsW_sq c HL) as SQ.
      assert (NE : b - fst c <> 0) by lra.
      assert (RE : snd (bsW (Some c) * bsW (Some c))%C = 0) by (rewrite SQ, (real_c c HR); cbn; ring).
      pose proof (W_pair (- (a * fst c)) (b - fst c) (bsW (Some c)) (-1) NE RE AX (or_intror eq_refl)) as P. cbv zeta in P.
      replace ((- (ca * c) + bsW (Some c)) / (cb - c), (- (ca * c) - bsW (Some c)) / (cb - c))%C
        with ((RtoC (- (a * fst c)) - RtoC (-1) * bsW (Some c)) / RtoC (b - fst c), (RtoC (- (a * fst c)) + RtoC (-1) * bsW (Some c)) / RtoC (b - fst c))%C
        by (rewrite RtoC_minus, RtoC_opp, RtoC_mult, <- (real_c c HR); replace (RtoC (-1)) with (- (1))%C by (rewrite <- RtoC_opp; f_equal; lra);
            f_equal; f_equal; ring).
      replace (- (a * fst c) * - (a * fst c) - fst (bsW (Some c) * bsW (Some c))%C) with (- ((b - fst c) * (b + fst c))) in P
        by (rewrite SQ, (real_c c HR); cbn; ring).
      destruct P as (P1 & P2 & P3). split; [exact P1|]. split.
      + intros Q. apply P2. apply Ropp_neq_0_compat. apply Rmult_integral_contrapositive_currified; assumption.
      + intros Q. apply P3. destruct (Req_dec (b + fst c) 0) as [Z|Z]; [rewrite Z; ring|contradiction].
    - intros _ _. rewrite bsD_none.
      assert (AX : snd (bsW None) = 0 \/ fst (bsW None) = 0).
      { unfold bsW. unfold Cdiv. apply csq_axis; [apply bsU_real; reflexivity|real_arith]. }
      pose proof bsW_none as SQ. assert (RE : snd (bsW None * bsW None)%C = 0) by (rewrite SQ; cbn; ring).
      pose proof (W_pair a 1 (bsW None) (-1) ltac:(lra) RE AX (or_intror eq_refl)) as P. cbv zeta in P.
      replace (ca + bsW None, ca - bsW None)%C
        with ((RtoC a - RtoC (-1) * bsW None) / RtoC 1, (RtoC a + RtoC (-1) * bsW None) / RtoC 1)%C
        by (replace (RtoC (-1)) with (- (1))%C by (rewrite <- RtoC_opp; f_equal; lra); f_equal; field; exact C1_nz).
      replace (a * a - fst (bsW None * bsW None)%C) with 1 in P by (rewrite SQ; cbn; ring).
      destruct P as (P1 & P2 & P3). split; [exact P1|]. split; [intros _; apply P2; lra|tauto].
  Qed.

  (** *** symmetry, right half plane, unit circle *)
  Lemma bp_sym : sym bpA bpB.
  Proof. intros [x y]. unfold bpA, bpB. split; apply injective_projections; simpl; ring. Qed.
  Lemma bs_sym : sym bsA bsB.
  Proof. intros [x y]. unfold bsA, bsB. split; apply injective_projections; simpl; ring. Qed.
  Lemma quad_bounds x y : x * x + y * y <= 1 -> 0 <= (1 - (x * x + y * y)) * (1 + (x * x + y * y) - 2 * a * x).
  Proof. intros H. apply Rmult_le_pos; [lra|]. pose proof (Rle_0_sqr (x - a)) as Q. unfold Rsqr in Q. assert (0 <= 1 - a * a) by nra. pose proof (Rle_0_sqr y) as Q2. unfold Rsqr in Q2. lra. Qed.
  Lemma not_both x y : ~ ((1 - (x * x - y * y) = 0 /\ 2 * x * y = 0) /\ (1 - 2 * a * x + (x * x - y * y) = 0 /\ - 2 * a * y + 2 * x * y = 0)).
  Proof.
    intros [[H1 H2] [H3 H4]]. assert (x * y = 0) by lra. apply Rmult_integral in H. destruct H as [->| ->].
    - nra.
    - assert (A1 : a * x = 1) by lra. assert (A2 : x * x = 1) by lra. assert (E : (a * x) * (a * x) = 1) by (rewrite A1; ring). replace ((a * x) * (a * x)) with (a * a * (x * x)) in E by ring. rewrite A2 in E. nra.
  Qed.
  Lemma bp_right : right_half bpA bpB.
  Proof.
    intros u Hu. apply cmod_le1 in Hu. destruct u as [x y]. cbn [fst snd] in Hu. split.
    - pose proof (quad_bounds x y Hu) as Q. unfold bpA, bpB. cbn.
      match goal with |- 0 <= ?e => replace e with (b * ((1 - (x * x + y * y)) * (1 + (x * x + y * y) - 2 * a * x))) by ring end.
      apply Rmult_le_pos; lra.
    - intros [Q1 Q2]. unfold bpA, bpB in *. cbn in Q1, Q2. apply c0_pair in Q1. apply c0_pair in Q2. destruct Q1 as [Q1 Q1'], Q2 as [Q2 Q2']. cbn in Q1, Q1', Q2, Q2'.
      apply (not_both x y). repeat split; [lra|lra| |]; apply (Rmult_eq_reg_l b); try lra.
  Qed.
  Lemma bs_right : right_half bsA bsB.
  Proof.
    intros u Hu. apply cmod_le1 in Hu. destruct u as [x y]. cbn [fst snd] in Hu. split.
    - pose proof (quad_bounds x y Hu) as Q. unfold bsA, bsB. cbn.
      match goal with |- 0 <= ?e => replace e with (b * ((1 - (x * x + y * y)) * (1 + (x * x + y * y) - 2 * a * x))) by ring end.
      apply Rmult_le_pos; lra.
    - intros [Q1 Q2]. unfold bsA, bsB in *. cbn in Q1, Q2. apply c0_pair in Q1. apply c0_pair in Q2. destruct Q1 as [Q1 Q1'], Q2 as [Q2 Q2']. cbn in Q1, Q1', Q2, Q2'.
      apply (not_both x y). repeat split; [| |lra|lra]; apply (Rmult_eq_reg_l b); try lra.
  Qed.
  Lemma quad_pos x y : 0 < 1 + (x * x + y * y) - 2 * a * x.
  Proof. assert (E : 1 + (x * x + y * y) - 2 * a * x = (x - a) * (x - a) + y * y + (1 - a * a)) by ring. rewrite E.
    pose proof (Rle_0_sqr (x - a)) as Q. pose proof (Rle_0_sqr y) as Q2. unfold Rsqr in *. assert (0 < 1 - a * a) by nra. lra. Qed.
  Lemma bp_unit : unit_half bpA bpB.
  Proof.
    intros u H. apply cmod_1. destruct u as [x y]. unfold bpA, bpB in H. cbn in *. pose proof (quad_pos x y) as P.
    assert (E : b * ((1 - (x * x + y * y)) * (1 + (x * x + y * y) - 2 * a * x)) = 0) by (rewrite <- H; ring).
    apply Rmult_integral in E. destruct E as [E|E]; [lra|]. apply Rmult_integral in E. lra.
  Qed.
  Lemma bs_unit : unit_half bsA bsB.
  Proof.
    intros u H. apply cmod_1. destruct u as [x y]. unfold bsA, bsB in H. cbn in *. pose proof (quad_pos x y) as P.
    assert (E : b * ((1 - (x * x + y * y)) * (1 + (x * x + y * y) - 2 * a * x)) = 0) by (rewrite <- H; ring).
    apply Rmult_integral in E. destruct E as [E|E]; [lra|]. apply Rmult_integral in E. lra.
  Qed.
  Lemma bp_circ fr : circ bpA bpB fr (b * (a - cos (2 * PI * fr))) (sin (2 * PI * fr)).
  Proof.
    exists ((0%R, 2%R) * upt fr)%C. unfold upt. split; [apply Cmult_neq_0; [|apply cis_nz]; intros Q; apply c0_pair in Q; lra|].
    unfold cis, bpA, bpB. rewrite cos_neg, sin_neg. pose proof (sin2_cos2 (2 * PI * fr)) as P. unfold Rsqr in P.
    set (c := cos (2 * PI * fr)) in *. set (s := sin (2 * PI * fr)) in *. clearbody c s.
    assert (E : s * s = 1 - c * c) by lra.
    split; apply injective_projections; cbn.
    - transitivity (b * (1 - 2 * a * c + c * c - s * s)); [ring|]. rewrite E. ring.
    - ring.
    - transitivity (1 - c * c + s * s); [ring|]. rewrite <- E. ring.
    - ring.
  Qed.
  Lemma bs_circ fr : circ bsA bsB fr (b * sin (2 * PI * fr)) (cos (2 * PI * fr) - a).
  Proof.
    exists (2%R * upt fr)%C. unfold upt. split; [apply Cmult_neq_0; [|apply cis_nz]; intros Q; apply RtoC_inj in Q; lra|].
    unfold cis, bsA, bsB. rewrite cos_neg, sin_neg. pose proof (sin2_cos2 (2 * PI * fr)) as P. unfold Rsqr in P.
    set (c := cos (2 * PI * fr)) in *. set (s := sin (2 * PI * fr)) in *. clearbody c s.
    assert (E : s * s = 1 - c * c) by lra.
    split; apply injective_projections; cbn.
    - transitivity (b * (1 - c * c + s * s)); [ring|]. rewrite <- E. ring.
    - ring.
    - transitivity (1 - 2 * a * c + c * c - s * s); [ring|]. rewrite E. ring.
    - ring.
  Qed.
End Band.
