(** Proofs: Butterworth low and high pass designs in binary64, the whole setup. *)
From Coq Require Import ZArith List Bool Reals Lra Lia Floats.SpecFloat.
From Coquelicot Require Import Coquelicot.
From Flocq Require Import Core.Raux Core.Defs Core.Generic_fmt IEEE754.BinarySingleNaN.
From Verif Require Import Num Outcome Types Biquad Cascade Transforms Butterworth PoleFilter Safe Float64 FloatSpec FloatProofs SampleLemmas SigSpec StabProofs
  RoundSpec RoundProofs DblPi DblSpec DblProofs DblLemmas LayoutProofs BuildProofs BuildAny BwDblSpec CplxDbl BwDbl BwDbl2 BwDbl3.
Import ListNotations.
Local Open Scope R_scope.

Lemma list_of {A} (k : nat) (P : nat -> A -> Prop) : (forall i, (i < k)%nat -> exists c, P i c) ->
  exists l, length l = k /\ forall i c, nth_error l i = Some c -> P i c.
Proof.
  induction k as [|k IH]; intros H.
  - exists []. split; [reflexivity|]. intros [|i] c Q; discriminate.
  - destruct IH as (l & L & Q); [intros; apply H; lia|]. destruct (H k ltac:(lia)) as [a Ha]. exists (l ++ [a]). split; [rewrite app_length, L; simpl; lia|].
    intros i c E. destruct (Nat.lt_ge_cases i k) as [Li|Li].
    + rewrite nth_error_app1 in E by lia. apply Q. exact E.
    + rewrite nth_error_app2, L in E by lia. destruct (i - k)%nat as [|j] eqn:Ej; [|destruct j; discriminate]. inversion E; subst c. replace i with k by lia. exact Ha.
Qed.
Lemma F2_nth {A B} (R : A -> B -> Prop) l l' : length l = length l' -> (forall i a b, nth_error l i = Some a -> nth_error l' i = Some b -> R a b) -> Forall2 R l l'.
Proof.
  revert l'. induction l as [|a l IH]; intros [|b l'] L H; try discriminate; constructor.
  - exact (H O a b eq_refl eq_refl).
  - apply IH; [simpl in L; lia|]. intros i. exact (H (S i)).
Qed.
Lemma half_up n : ((n + 1) / 2 = n / 2 + (if Nat.odd n then 1 else 0))%nat.
Proof.
  pose proof (Nat.div_mod n 2 ltac:(lia)) as E. rewrite <- Nat.bit0_mod, Nat.bit0_odd in E.
  rewrite E at 1. destruct (Nat.odd n); cbn [Nat.b2n].
  - replace (2 * (n / 2) + 1 + 1)%nat with ((n / 2 + 1) * 2)%nat by lia. apply Nat.div_mul. lia.
  - replace (2 * (n / 2) + 0 + 1)%nat with (1 + (n / 2) * 2)%nat by lia. rewrite Nat.div_add by lia. change (1 / 2)%nat with 0%nat. lia.
Qed.

Section Par.
  Variable m : libm.
  Notation FN := (F64 m).
  Hypothesis HM : libm_design m.
  Variable q : params FN.
  Notation fc := (q_fc q : f64).
  Hypothesis Ff : is_finite fc = true.
  Hypothesis Hf : cut_ok (B2R fc).
  Variable n : nat.
  Hypothesis N1 : (1 <= n)%nat.
  Hypothesis N2 : (Z.of_nat n <= 32768)%Z.
  Variable FO : Z.
  Hypothesis HFO : (Z.of_nat n <= FO)%Z.
  Variable hp : bool.
  Notation k := (Bw, if hp then HP else LP).
  Notation t := (tan (PI * B2R fc)).
  Notation sec := (bw_ideal hp (B2R fc) n).

  (** what is known about section i before scaling *)
  Definition sec_ok (i : nat) (b : biquad FN) : Prop :=
    fin_coeffs b /\ m_a0 b = fofZ 1 /\
    Rabs (B2R (m_a1 b : f64) - i_a1 (sec i)) <= bw_error (B2R fc) /\ Rabs (B2R (m_a2 b : f64) - i_a2 (sec i)) <= bw_error (B2R fc) /\
    stable_poly (B2R (m_a1 b : f64)) (B2R (m_a2 b : f64)) /\ exact_b m b (sec i).

  Lemma err_v : bw_error (B2R fc) = 512 * (uu / (1 - 2 * B2R fc)).
  Proof. unfold bw_error, uu. unfold cut_ok in Hf. replace (/ 2 ^ 44) with (512 * / 9007199254740992) by lra. field. lra. Qed.
  Lemma err_small : 0 < bw_error (B2R fc) <= / 2 ^ 31.
  Proof. rewrite err_v. pose proof (v_low fc Hf) as V. unfold uu in *. lra. Qed.

  Lemma sec_pair i c : (i < n / 2)%nat -> cap c (cos (bw_angle n i), sin (bw_angle n i)) (28 * uu) ->
    exists b, pair_bq (apr (N := FN) (tr m hp fc c, zc hp)) = Val b /\ sec_ok i b.
  Proof.
    intros Hi A. destruct (angle_cos n i N2 Hi) as [C1 C2]. pose proof (v_low fc Hf) as V.
    assert (NR : 2 <= INR n <= 32768).
    { pose proof (Nat.div_mod n 2 ltac:(lia)). rewrite INR_IZR_INZ. split; apply IZR_le; lia. }
    assert (C0 : cos (bw_angle n i) < 0). { assert (0 < 3 / 4 / INR n) by (apply Rdiv_lt_0_compat; lra). replace (- (3 / 4) / INR n) with (- (3 / 4 / INR n)) in C1 by (field; lra). lra. }
    destruct (pole_ap m HM fc Ff Hf hp c (bw_angle n i) A C0) as (p & P1 & P2 & P3 & P4).
    destruct (pair_ok m hp _ p _ P1 P2 ltac:(unfold uu in *; lra)) as (b & B1 & B2 & B3 & B4 & B5 & B6 & B7 & B8).
    exists b. split; [exact B1|]. unfold sec_ok, exact_b, bw_ideal. replace (Nat.ltb i (n / 2)) with true by (symmetry; apply Nat.ltb_lt; exact Hi).
    cbn [i_a1 i_a2 i_b0 i_b1 i_b2]. rewrite P3 in B4. rewrite P4 in B5.
    destruct (pair_margin t (cos (bw_angle n i)) (INR n) (t_rng fc Hf) NR (conj (proj1 (COS_bound _)) C1)) as [[M1 M2] M3].
    assert (E1 : Rabs (B2R (m_a1 b : f64) - 2 * (t ^ 2 - 1) / (1 + t ^ 2 - 2 * t * cos (bw_angle n i))) <= bw_error (B2R fc)) by (rewrite err_v; unfold uu in *; lra).
    assert (E2 : Rabs (B2R (m_a2 b : f64) - (1 + t ^ 2 + 2 * t * cos (bw_angle n i)) / (1 + t ^ 2 - 2 * t * cos (bw_angle n i))) <= bw_error (B2R fc)) by (rewrite err_v; unfold uu in *; lra).
    pose proof err_small as ES.
    split; [exact B2|]. split; [exact B3|]. split; [exact E1|]. split; [exact E2|]. split.
    - apply (stable_near _ _ _ _ _ (3 / 2 ^ 31) (/ 2 ^ 28) M2 M1 M3 E1 E2); lra.
    - rewrite B6, B7, B8. destruct hp; repeat split; lra.
  Qed.
  Lemma sec_single : Nat.odd n = true -> exists b, pair_bq (asg (N := FN) (tr m hp fc (c_of (N := FN) (fofZ (-1))), zc hp)) = Val b /\ sec_ok (n / 2) b.
  Proof.
    intros _. pose proof (v_low fc Hf) as V. pose proof (t_rng fc Hf) as TR.
    assert (A : cap (c_of (N := FN) (fofZ (-1))) (cos PI, sin PI) (28 * uu)).
    { eapply cap_weak; [|apply (Rle_trans _ 0 _ (Rle_refl 0)); unfold uu; lra]. rewrite cos_PI, sin_PI.
      replace (-1, 0) with (c2c (c_of (N := FN) (fofZ (-1)))); [apply cap_self; split; reflexivity|].
      unfold c2c, c_of. cbn [re im nofZ n0 F64]. rewrite (proj1 (fofZ_val (-1) ltac:(lia))), (proj1 (fofZ_val 0 ltac:(lia))). reflexivity. }
    destruct (pole_ap m HM fc Ff Hf hp _ PI A ltac:(rewrite cos_PI; lra)) as (p & P1 & P2 & P3 & P4). cbn zeta in *.
    destruct (single_ok2 m hp _ p _ P1 (pole_real m HM fc Ff Hf hp)) as (b & B1 & B2 & B3 & B4 & B5 & B6 & B7 & B8).
    assert (EP : - fst p = (t - 1) / (t + 1)).
    { rewrite cos_PI in P3. replace (1 + t ^ 2 - 2 * t * -1) with ((t + 1) ^ 2) in P3 by ring.
      assert (E : 2 * (t ^ 2 - 1) / (t + 1) ^ 2 = 2 * ((t - 1) / (t + 1))) by (field; lra). lra. }
    rewrite EP in B4. exists b. split; [exact B1|]. unfold sec_ok, exact_b, bw_ideal. rewrite Nat.ltb_irrefl. cbn [i_a1 i_a2 i_b0 i_b1 i_b2].
    assert (E1 : Rabs (B2R (m_a1 b : f64) - (t - 1) / (t + 1)) <= bw_error (B2R fc)) by (rewrite err_v; unfold uu in *; lra).
    pose proof err_small as ES. pose proof (single_margin t TR) as SM.
    assert (E2 : Rabs (B2R (m_a2 b : f64) - 0) <= bw_error (B2R fc)) by (rewrite B5, Rminus_0_r, Rabs_R0; lra).
    split; [exact B2|]. split; [exact B3|]. split; [exact E1|]. split; [exact E2|]. split.
    - apply (stable_near ((t - 1) / (t + 1)) 0 _ _ (bw_error (B2R fc)) 1 (/ 2 ^ 15)); try lra; try exact E1; exact E2.
    - rewrite B6, B7, B8. destruct hp; repeat split; lra.
  Qed.

  (** the normalisation frequency: 0 or 1/2 *)
  Definition wn : f64 := if hp then fsub (fnorm 7074237752028440 (-51)) (fofZ 0) else fofZ 0.
  Definition fn : f64 := fdiv wn (fmul (fofZ 2) (fnorm 7074237752028440 (-51))).
  Lemma response_ok (c : cascade FN) : (0 <= c_numStages c <= Z.of_nat (length (c_stages c)))%Z -> exists r, cas_response c fn = Val r.
  Proof.
    intros H. unfold cas_response, othrow_if, obind.
    replace (ngtb (N := FN) fn (nlit FN 1 2)) with false by (symmetry; unfold fn, wn; destruct hp; vm_compute; reflexivity).
    replace (nltb FN fn (nofZ FN 0)) with false by (symmetry; unfold fn, wn; destruct hp; vm_compute; reflexivity).
    cbn [nofZ nmul nopp npi npolar F64].
    destruct HM as (_ & HP & _).
    assert (G : forall x : f64, is_finite x = true -> Rabs (B2R x) <= 7 -> exists z, lm_polar m (fofZ 1) x = Some z).
    { intros x Fx Bx. destruct (HP x Fx Bx) as (z & E & _). eauto. }
    destruct (G (Bopp (fmul (fmul (fofZ 2) (fnorm 7074237752028440 (-51))) fn))) as [z1 E1].
    { unfold fn, wn. destruct hp; vm_compute; reflexivity. }
    { unfold fn, wn. destruct hp.
      - erewrite sf_val by (vm_compute; reflexivity). unfold SF2R, F2R. cbn. apply Rabs_le. lra.
      - erewrite sf_val by (vm_compute; reflexivity). unfold SF2R, F2R. cbn. rewrite Rabs_R0. lra. }
    destruct (G (fmul (fofZ (-2)) (fmul (fmul (fofZ 2) (fnorm 7074237752028440 (-51))) fn))) as [z2 E2].
    { unfold fn, wn. destruct hp; vm_compute; reflexivity. }
    { unfold fn, wn. destruct hp.
      - erewrite sf_val by (vm_compute; reflexivity). unfold SF2R, F2R. cbn. apply Rabs_le. lra.
      - erewrite sf_val by (vm_compute; reflexivity). unfold SF2R, F2R. cbn. rewrite Rabs_R0. lra. }
    rewrite E1, E2. cbn [oor_ub].
    destruct (resp_loop_ok (N := FN) z1 z2 (Z.to_nat (c_numStages c)) (c_stages c) (c_of (N := FN) (fofZ 1)) (c_of (N := FN) (fofZ 1)) ltac:(lia)) as [[r1 r2] Hr].
    rewrite Hr. eauto.
  Qed.

  Lemma check_ok {S} (s : S) : check_fc (N := FN) (q_fc q) s = Ok s tt.
  Proof.
    unfold cut_ok in Hf. unfold check_fc, bind, throw_if.
    assert (E1 : nltb FN (q_fc q) (nlit FN 1 2) = true).
    { cbn [nltb nlit F64]. match goal with |- Bltb ?x ?h = true => assert (FH : is_finite h = true) by (vm_compute; reflexivity); assert (VH : B2R h = 1 / 2) by (erewrite sf_val by (vm_compute; reflexivity); unfold SF2R, F2R; cbn; lra); rewrite (Bltb_correct _ _ _ _ Ff FH), VH end.
      apply Rlt_bool_true. lra. }
    assert (E2 : nltb FN (q_fc q) (nofZ FN 0) = false).
    { cbn [nltb nofZ F64]. destruct (fofZ_val 0 ltac:(lia)) as [V1 V2]. rewrite (Bltb_correct _ _ _ _ Ff V2), V1. apply Rlt_bool_false. lra. }
    rewrite E1, E2. reflexivity.
  Qed.
  Lemma fin_nn (c : cpx f64) : cfin c -> c_is_nan (N := FN) c = false.
  Proof. intros [F1 F2]. destruct c as [x y]. unfold c_is_nan. cbn [re im] in *. rewrite !fin_nan by assumption. reflexivity. Qed.
  Lemma transform_any (a : layout FN) : dig_transform (N := FN) (snd k) q a (pf_dig (pf_init k FO)) =
    match simple_loop (N := FN) (tr m hp fc) a (lay FO [] (layout_storage (N := FN) FO) (fofZ 0) (fofZ 1)) with
    | Ok l _ => Ok (lay_setNormal (N := FN) (if hp then fsub (fnorm 7074237752028440 (-51)) (l_normalW a) else l_normalW a) (l_normalGain a) l) tt
    | Throw e l => Throw e l | UB => UB end.
  Proof.
    unfold dig_transform. destruct hp; cbn [snd]; [unfold HighPassTransform|unfold LowPassTransform]; unfold bind at 1; rewrite check_ok;
      reflexivity.
  Qed.
  Lemma bw_setup : exists p bs r, setupN (N := FN) k FO (Some (Z.of_nat n)) q (pf_init k FO) = Ok p tt /\ length bs = bw_sections n /\
    (forall i b, nth_error bs i = Some b -> sec_ok i b) /\
    let all := bs ++ repeat idb (Z.to_nat (maxStagesOf (snd k) FO) - length bs) in
    cas_response (N := FN) (MkCascade (Z.of_nat (length bs)) (maxStagesOf (snd k) FO) all) fn = Val r /\
    pf_cas p = MkCascade (Z.of_nat (length bs)) (maxStagesOf (snd k) FO) (scale_head (N := FN) (fdiv (fofZ 1) (ncabs FN r)) all).
  Proof.
    destruct (list_of (n / 2) (fun i c => bw_pt (N := FN) n i = Some c /\ cap c (cos (bw_angle n i), sin (bw_angle n i)) (28 * uu))) as (cs & LC & HC).
    { intros i Hi. apply bw_pt_ap; assumption. }
    pose proof (half_up n) as HU.
    assert (LS : length (o1 (bw_sg (N := FN) n)) = (if Nat.odd n then 1 else 0)%nat) by (unfold bw_sg; destruct (Nat.odd n); reflexivity).
    assert (SL : forall M, (Z.of_nat n <= M)%Z -> (length cs + length (o1 (bw_sg (N := FN) n)) <= length (layout_storage (N := FN) M))%nat).
    { intros M HMx. unfold layout_storage. rewrite repeat_length, LC, LS, <- HU. rewrite Z.quot_div_nonneg by lia.
      rewrite <- (Nat2Z.id ((n + 1) / 2)). apply Z2Nat.inj_le; try apply Z.div_pos; try lia. rewrite Nat2Z.inj_div, Nat2Z.inj_add. apply Z.div_le_mono; lia. }
    assert (MD : maxDigital (snd k) FO = FO) by (destruct hp; reflexivity).
    set (ana := MkProto (N := FN) (Z.of_nat n) (fofZ 0) (fofZ 0) (blay (N := FN) (map (fun c => (c, c_inf (N := FN))) cs) (bw_sg (N := FN) n) FO (skipn (length cs + length (o1 (bw_sg (N := FN) n))) (layout_storage (N := FN) FO)) (fofZ 0) (fofZ 1))).
    assert (HA : ana_design (N := FN) k (Z.of_nat n) q (pf_ana (pf_init k FO)) = Ok ana tt).
    { replace (ana_design (N := FN) k (Z.of_nat n) q) with (bw_lp_design (N := FN) (Z.of_nat n)) by (destruct hp; reflexivity).
      replace (pf_ana (pf_init (N := FN) k FO)) with (MkProto (N := FN) (-1) (fofZ 0) (fofZ 0) (MkLayout (N := FN) 0 FO (layout_storage (N := FN) FO) (fofZ 0) (fofZ 1))) by (destruct hp; reflexivity).
      apply bw_design_any.
      - reflexivity.
      - split; vm_compute; reflexivity.
      - apply List.Forall_forall. intros c Ic. apply In_nth_error in Ic. destruct Ic as [i Ei]. destruct (HC i c Ei) as [_ [Fc _]]. apply fin_nn. exact Fc.
      - lia.
      - unfold in_int, int_min, int_max. lia.
      - exact LC.
      - intros i c E. apply (HC i c E).
      - apply SL. exact HFO. }
    set (pts := map (trq (N := FN) (tr m hp fc)) (map (fun c => (c, c_inf (N := FN))) cs)).
    set (sg := option_map (trq (N := FN) (tr m hp fc)) (bw_sg (N := FN) n)).
    assert (PT : forall i x, nth_error pts i = Some x -> exists c, nth_error cs i = Some c /\ x = (tr m hp fc c, zc hp)).
    { intros i x E. unfold pts in E. rewrite !nth_error_map in E. destruct (nth_error cs i) as [c|]; [|discriminate]. exists c. split; [reflexivity|]. inversion E. unfold trq. cbn [fst snd]. rewrite tr_inf. reflexivity. }
    assert (SG : forall x, sg = Some x -> Nat.odd n = true /\ x = (tr m hp fc (c_of (N := FN) (fofZ (-1))), zc hp)).
    { intros x E. unfold sg, bw_sg in E. destruct (Nat.odd n); [|discriminate]. split; [reflexivity|]. inversion E. unfold trq. cbn [fst snd]. rewrite tr_inf. reflexivity. }
    assert (PF : forall i c, nth_error cs i = Some c -> cfin (tr m hp fc c)).
    { intros i c E. destruct (HC i c E) as [_ A]. assert (Hi : (i < n / 2)%nat) by (rewrite <- LC; apply nth_error_Some; congruence).
      destruct (angle_cos n i N2 Hi) as [C1 _]. assert (NR : 0 < INR n) by (apply lt_0_INR; lia).
      assert (C0 : cos (bw_angle n i) < 0). { assert (0 < 3 / 4 / INR n) by (apply Rdiv_lt_0_compat; lra). replace (- (3 / 4) / INR n) with (- (3 / 4 / INR n)) in C1 by (field; lra). lra. }
      destruct (pole_ap m HM fc Ff Hf hp c (bw_angle n i) A C0) as (p & P1 & _). apply P1. }
    assert (SF : cfin (tr m hp fc (c_of (N := FN) (fofZ (-1))))).
    { destruct (pole_ap m HM fc Ff Hf hp (c_of (N := FN) (fofZ (-1))) PI) as (p & P1 & _); [|rewrite cos_PI; lra|apply P1].
      eapply cap_weak; [|apply (Rle_trans _ 0 _ (Rle_refl 0)); unfold uu; lra]. rewrite cos_PI, sin_PI.
      replace (-1, 0) with (c2c (c_of (N := FN) (fofZ (-1)))); [apply cap_self; split; reflexivity|].
      unfold c2c, c_of. cbn [re im nofZ n0 F64]. rewrite (proj1 (fofZ_val (-1) ltac:(lia))), (proj1 (fofZ_val 0 ltac:(lia))). reflexivity. }
    assert (ZF : c_is_nan (N := FN) (zc hp) = false) by (destruct hp; vm_compute; reflexivity).
    set (ex := skipn (length cs + length (o1 (bw_sg (N := FN) n))) (layout_storage (N := FN) FO)).
    assert (HD : dig_transform (N := FN) (snd k) q (p_lay ana) (pf_dig (pf_init k FO)) = Ok (blay (N := FN) pts sg (maxDigital (snd k) FO) ex (wn) (fofZ 1)) tt).
    { rewrite transform_any. unfold ana at 1. cbn [p_lay]. rewrite simple_loop_any.
      - rewrite map_length. rewrite MD. unfold wn. destruct hp; reflexivity.
      - reflexivity.
      - rewrite map_app. apply Forall_app. split.
        + apply List.Forall_forall. intros x Ix. fold pts in Ix. apply In_nth_error in Ix. destruct Ix as [i Ei]. destruct (PT i x Ei) as (c & Ec & ->). split; [apply fin_nn; exact (PF i c Ec)|exact ZF].
        + rewrite <- o1_map. fold sg. destruct sg as [x|] eqn:E; constructor; [|constructor]. destruct (SG x eq_refl) as [_ ->]. split; [apply fin_nn; exact SF|exact ZF].
      - rewrite <- o1_map. fold sg. destruct sg as [x|] eqn:E; constructor; [|constructor]. destruct (SG x eq_refl) as [_ ->]. split; cbn [fst snd].
        + cbn [neqb F64]. apply zero_Beqb; [apply SF|apply (pole_real m HM fc Ff Hf hp)].
        + destruct hp; reflexivity.
      - rewrite map_length. apply SL. exact HFO. }
    assert (LP' : length pts = (n / 2)%nat) by (unfold pts; rewrite !map_length; exact LC).
    assert (LSg : length (o1 sg) = (if Nat.odd n then 1 else 0)%nat) by (unfold sg; rewrite o1_map, map_length; exact LS).
    set (prs := map (apr (N := FN)) pts ++ map (asg (N := FN)) (o1 sg)).
    assert (LPR : length prs = bw_sections n) by (unfold prs, bw_sections; rewrite app_length, !map_length, LP', LSg, HU; reflexivity).
    destruct (list_of (bw_sections n) (fun i b => forall p, nth_error prs i = Some p -> pair_bq p = Val b /\ sec_ok i b)) as (bs & LB & HB).
    { intros i Hi. assert (ND : nth_error prs i <> None) by (apply nth_error_Some; rewrite LPR; exact Hi).
      destruct (nth_error prs i) as [p|] eqn:E; [|elim ND; reflexivity]. clear ND. unfold prs in E.
      destruct (Nat.lt_ge_cases i (n / 2)) as [L|L].
      - rewrite nth_error_app1 in E by (rewrite map_length, LP'; exact L). rewrite nth_error_map in E. destruct (nth_error pts i) as [x|] eqn:Ex; [|discriminate].
        destruct (PT i x Ex) as (c & Ec & ->). destruct (sec_pair i c L (proj2 (HC i c Ec))) as (b & B1 & B2). exists b. intros p' Ep. inversion Ep; subst p'. inversion E; subst p. split; assumption.
      - rewrite nth_error_app2 in E by (rewrite map_length, LP'; exact L). rewrite map_length, LP', nth_error_map in E.
        destruct sg as [x|] eqn:Es; cbn [o1] in E; [|destruct (i - n / 2)%nat; discriminate]. destruct (i - n / 2)%nat as [|j] eqn:Ej; [|destruct j; discriminate].
        cbn [nth_error option_map] in E. destruct (SG x eq_refl) as [O ->]. destruct (sec_single O) as (b & B1 & B2). exists b. intros p' Ep. inversion Ep; subst p'. inversion E; subst p.
        replace i with (n / 2)%nat by lia. split; assumption. }
    assert (F2 : Forall2 (fun p b => pair_bq p = Val b) prs bs).
    { apply F2_nth; [congruence|]. intros i p b Ep Eb. apply (HB i b Eb p Ep). }
    assert (SO : forall i b, nth_error bs i = Some b -> sec_ok i b).
    { intros i b Eb. assert (ND : nth_error prs i <> None) by (apply nth_error_Some; rewrite LPR, <- LB; apply nth_error_Some; congruence).
      destruct (nth_error prs i) as [p|] eqn:Ep; [|elim ND; reflexivity]. apply (HB i b Eb p Ep). }
    assert (BP : (0 < length bs)%nat). { rewrite LB. unfold bw_sections. rewrite HU. destruct n as [|[|n']]; [lia|cbn; lia|]. pose proof (Nat.div_le_mono 2 (S (S n')) 2 ltac:(lia) ltac:(lia)). change (2 / 2)%nat with 1%nat in *. lia. }
    assert (BM : (Z.of_nat (length bs) <= maxStagesOf (snd k) FO)%Z).
    { unfold maxStagesOf. rewrite MD, LB. unfold bw_sections. rewrite Z.quot_div_nonneg by lia. rewrite Nat2Z.inj_div, Nat2Z.inj_add. apply Z.div_le_mono; lia. }
    destruct (response_ok (MkCascade (N := FN) (Z.of_nat (length bs)) (maxStagesOf (snd k) FO) (bs ++ repeat idb (Z.to_nat (maxStagesOf (snd k) FO) - length bs)))) as [r Hr].
    { cbn [c_numStages c_stages]. rewrite app_length. lia. }
    destruct (setup_any (N := FN) k FO (Z.of_nat n) q ana pts sg ex wn (fofZ 1) bs r HFO eq_refl eq_refl HA HD F2 BP BM Hr) as (p & P1 & P2).
    exists p, bs, r. split; [exact P1|]. split; [exact LB|]. split; [exact SO|]. split; [exact Hr|exact P2].
  Qed.
End Par.
