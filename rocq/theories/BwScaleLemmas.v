(** Lemmas: the scale factor of Butterworth low and high pass designs in binary64, the whole setup. *)
From Coq Require Import ZArith List Bool Reals Lra Lia Floats.SpecFloat.
From Coquelicot Require Import Coquelicot.
From Flocq Require Import Core.Zaux Core.Raux Core.Defs Core.Generic_fmt IEEE754.BinarySingleNaN.
From Verif Require Import Num Outcome Types Biquad Cascade Transforms Butterworth PoleFilter Float64 FloatSpec FloatProofs SampleLemmas SigSpec StabProofs
  RoundSpec RoundProofs DblPi DblSpec DblProofs DblLemmas LayoutProofs BuildProofs BuildAny BwDblSpec CplxDbl BwDbl BwDbl2 BwDbl3 BwDblLemmas BwExact BwScale BwDblFinal.
Import ListNotations.
Local Open Scope R_scope.

Definition zz (hp : bool) : R := if hp then -1 else 1.
Definition tpv (d : ideal) (z : R) : R := i_b0 d + z * i_b1 d + i_b2 d.
Definition btv (d : ideal) (z : R) : R := 1 + z * i_a1 d + i_a2 d.
(** bounds for the ideal sections *)
Lemma ideal_bounds hp f n i : 0 < tan (PI * f) -> (i < n / 2 \/ i = n / 2)%nat -> let d := bw_ideal hp f n i in
  let u := if hp then tan (PI * f) else / tan (PI * f) in
  Rabs (i_a1 d) <= 2 /\ Rabs (i_a2 d) <= 1 /\ i_b0 d = 1 /\ Rabs (i_b1 d) <= 2 /\ Rabs (i_b2 d) <= 1 /\
  2 <= tpv d (zz hp) <= 4 /\ 2 / (1 + u) ^ 2 <= btv d (zz hp) <= 4.
Proof.
  intros Ht Hi d u. assert (HU : 0 < u) by (unfold u; destruct hp; [exact Ht|apply Rinv_0_lt_compat; exact Ht]).
  assert (AB : Rabs (i_a1 d) <= 2 /\ Rabs (i_a2 d) <= 1 -> 2 / (1 + u) ^ 2 <= btv d (zz hp) -> 2 / (1 + u) ^ 2 <= btv d (zz hp) <= 4).
  { intros [A1 A2] L. split; [exact L|]. unfold btv, zz. revert A1 A2. unfold Rabs. destruct (Rcase_abs _), (Rcase_abs _), hp; lra. }
  enough (G : (Rabs (i_a1 d) <= 2 /\ Rabs (i_a2 d) <= 1) /\ i_b0 d = 1 /\ Rabs (i_b1 d) <= 2 /\ Rabs (i_b2 d) <= 1 /\ 2 <= tpv d (zz hp) <= 4 /\ 2 / (1 + u) ^ 2 <= btv d (zz hp)).
  { destruct G as (G1 & G2 & G3 & G4 & G5 & G6). pose proof (AB G1 G6). tauto. }
  clear AB. unfold d, bw_ideal, tpv, btv, zz. set (t := tan (PI * f)) in *. destruct (Nat.ltb_spec i (n / 2)) as [L|L].
  - pose proof (angle_neg n i L) as C. pose proof (COS_bound (bw_angle n i)) as CB. set (c := cos (bw_angle n i)) in *. cbn [i_a1 i_a2 i_b0 i_b1 i_b2].
    assert (D : 0 < 1 + t ^ 2 - 2 * t * c) by nra. assert (D2 : 1 + t ^ 2 - 2 * t * c <= (1 + t) ^ 2) by nra.
    assert (ID : 0 < / (1 + t ^ 2 - 2 * t * c)) by (apply Rinv_0_lt_compat; exact D).
    assert (RD : forall x b, Rabs x <= b * (1 + t ^ 2 - 2 * t * c) -> Rabs (x / (1 + t ^ 2 - 2 * t * c)) <= b).
    { intros x b H. unfold Rdiv. rewrite Rabs_mult, (Rabs_pos_eq (/ _)) by lra. apply Rmult_le_reg_r with (1 + t ^ 2 - 2 * t * c); [exact D|]. rewrite Rmult_assoc, Rinv_l by lra. lra. }
    split; [split; apply RD; apply Rabs_le; split; nra|]. split; [reflexivity|]. split; [apply Rabs_le; destruct hp; lra|]. split; [rewrite Rabs_R1; lra|]. split; [destruct hp; lra|].
    replace (1 + (if hp then -1 else 1) * (2 * (t ^ 2 - 1) / (1 + t ^ 2 - 2 * t * c)) + (1 + t ^ 2 + 2 * t * c) / (1 + t ^ 2 - 2 * t * c))
      with ((if hp then 4 else 4 * t ^ 2) * / (1 + t ^ 2 - 2 * t * c)) by (destruct hp; field; lra).
    assert (T2 : / (1 + t) ^ 2 <= / (1 + t ^ 2 - 2 * t * c)) by (apply Rinv_le; assumption).
    assert (P2 : 0 < / (1 + t) ^ 2) by (apply Rinv_0_lt_compat; nra).
    unfold u. destruct hp; [unfold Rdiv; lra|].
    replace (2 / (1 + / t) ^ 2) with (2 * t ^ 2 * / (1 + t) ^ 2) by (field; lra). apply Rmult_le_compat; try lra; nra.
  - cbn [i_a1 i_a2 i_b0 i_b1 i_b2]. rewrite Rabs_R0. assert (IT : 0 < / (t + 1)) by (apply Rinv_0_lt_compat; lra).
    split; [split; [|lra]|].
    { unfold Rdiv. rewrite Rabs_mult, (Rabs_pos_eq (/ _)) by lra. apply Rmult_le_reg_r with (t + 1); [lra|]. rewrite Rmult_assoc, Rinv_l by lra. rewrite Rmult_1_r. apply Rabs_le. lra. }
    split; [reflexivity|]. split; [apply Rabs_le; destruct hp; lra|]. split; [lra|]. split; [destruct hp; lra|].
    assert (U1 : / (1 + u) ^ 2 <= / (1 + u)) by (apply Rinv_le; nra). assert (U2 : 0 < / (1 + u) ^ 2) by (apply Rinv_0_lt_compat; nra).
    replace (1 + (if hp then -1 else 1) * ((t - 1) / (t + 1)) + 0) with (2 * / (1 + u)) by (unfold u; destruct hp; field; lra). unfold Rdiv. lra.
Qed.
Lemma scale_prod hp f n : 0 < tan (PI * f) -> let l := map (fun i => (tpv (bw_ideal hp f n i) (zz hp), btv (bw_ideal hp f n i) (zz hp))) (seq 0 (bw_sections n)) in
  fold_right Rmult 1 (map snd l) / fold_right Rmult 1 (map fst l) = bw_scale hp f n /\ 0 < fold_right Rmult 1 (map snd l) /\ 0 < fold_right Rmult 1 (map fst l).
Proof.
  intros Ht l. unfold l. rewrite !map_map. cbn [fst snd].
  set (tp := fun i => tpv (bw_ideal hp f n i) (zz hp)). set (bt := fun i => btv (bw_ideal hp f n i) (zz hp)).
  assert (FP : List.Forall (fun i => 0 < tp i /\ 0 < bt i) (seq 0 (bw_sections n))).
  { apply List.Forall_forall. intros i Hi. apply in_seq in Hi. destruct (peak_pos hp f n i Ht (sections_in n i ltac:(lia))) as [Q1 Q2]. split; assumption. }
  assert (P1 : 0 < fold_right Rmult 1 (map tp (seq 0 (bw_sections n)))) by (apply rprod_pos, Forall_map; eapply List.Forall_impl; [|exact FP]; intros i [Q _]; exact Q).
  assert (P2 : 0 < fold_right Rmult 1 (map bt (seq 0 (bw_sections n)))) by (apply rprod_pos, Forall_map; eapply List.Forall_impl; [|exact FP]; intros i [_ Q]; exact Q).
  split; [|split; assumption]. pose proof (rprod_div tp bt _ FP) as Q. unfold bw_scale. transitivity (fold_right Rmult 1 (map (fun x : nat => bt x / tp x) (seq 0 (bw_sections n)))); [|reflexivity].
  rewrite <- Q. field. split; lra.
Qed.

Lemma points m (hp : bool) : libm_design m -> exists z1 z2, lm_polar m (fofZ 1) (Bopp (fmul (fmul (fofZ 2) (fnorm 7074237752028440 (-51))) (fn hp))) = Some z1 /\ cap z1 (RtoC (zz hp)) (16 * uu) /\
  lm_polar m (fofZ 1) (fmul (fofZ (-2)) (fmul (fmul (fofZ 2) (fnorm 7074237752028440 (-51))) (fn hp))) = Some z2 /\ cap z2 (RtoC 1) (16 * uu).
Proof.
  intros (_ & HP & _). pose proof ap_pi as (PF & PE & _).
  assert (S0 : B2SF (fnorm 7074237752028440 (-51)) = S754_finite false 7074237752028440 (-51)) by (vm_compute; reflexivity).
  assert (S1 : B2SF (Bopp (fmul (fmul (fofZ 2) (fnorm 7074237752028440 (-51))) (fn hp))) = if hp then S754_finite true 7074237752028440 (-51) else S754_zero true) by (unfold fn, wn; destruct hp; vm_compute; reflexivity).
  assert (S2 : B2SF (fmul (fofZ (-2)) (fmul (fmul (fofZ 2) (fnorm 7074237752028440 (-51))) (fn hp))) = if hp then S754_finite true 7074237752028440 (-50) else S754_zero true) by (unfold fn, wn; destruct hp; vm_compute; reflexivity).
  assert (F1 : is_finite (Bopp (fmul (fmul (fofZ 2) (fnorm 7074237752028440 (-51))) (fn hp))) = true) by (unfold fn, wn; destruct hp; vm_compute; reflexivity).
  assert (F2 : is_finite (fmul (fofZ (-2)) (fmul (fmul (fofZ 2) (fnorm 7074237752028440 (-51))) (fn hp))) = true) by (unfold fn, wn; destruct hp; vm_compute; reflexivity).
  set (x1 := Bopp (fmul (fmul (fofZ 2) (fnorm 7074237752028440 (-51))) (fn hp))) in *. set (x2 := fmul (fofZ (-2)) (fmul (fmul (fofZ 2) (fnorm 7074237752028440 (-51))) (fn hp))) in *.
  clearbody x1 x2. set (pd := fnorm 7074237752028440 (-51)) in *. clearbody pd.
  assert (G : forall (x : f64) th c, is_finite x = true -> Rabs (B2R x - th) <= 4 * uu -> Rabs th <= 6.3 -> (cos th, sin th) = RtoC c -> exists z, lm_polar m (fofZ 1) x = Some z /\ cap z (RtoC c) (16 * uu)).
  { intros x th c Fx Ex Bx Ec. assert (B7 : Rabs (B2R x) <= 7). { replace (B2R x) with ((B2R x - th) + th) by ring. eapply Rle_trans; [apply Rabs_triang|]. unfold uu in *. lra. }
    destruct (HP x Fx B7) as (z & Ez & Fz & Cz). exists z. split; [exact Ez|]. split; [exact Fz|].
    replace (c2c z - RtoC c)%C with ((c2c z - (cos (B2R x), sin (B2R x))) + ((cos (B2R x), sin (B2R x)) - (cos th, sin th)))%C by (rewrite Ec; ring).
    eapply Rle_trans; [apply Cmod_triangle|]. pose proof (cis_lip (B2R x) th). unfold uu in *. lra. }
  pose proof pi_bounds as PB.
  assert (K : forall (x : f64), is_finite x = true -> forall z : Z, B2R x = IZR z * B2R pd -> (-2 <= z <= 2)%Z -> Rabs (B2R x - IZR z * PI) <= 4 * uu /\ Rabs (IZR z * PI) <= 6.3).
  { intros x _ z -> Hz. replace (IZR z * B2R pd - IZR z * PI) with (IZR z * (B2R pd - PI)) by ring. rewrite !Rabs_mult, (Rabs_pos_eq PI) by lra.
    assert (AZ : 0 <= Rabs (IZR z) <= 2). { split; [apply Rabs_pos|]. apply Rabs_le. split; [apply (IZR_le (-2))|apply (IZR_le z 2)]; lia. }
    split; [apply Rle_trans with (2 * (2 * uu)); [apply Rmult_le_compat; try lra; apply Rabs_pos|lra]|apply Rle_trans with (2 * 3.15); [apply Rmult_le_compat; lra|lra]]. }
  assert (VP : B2R pd = 7074237752028440 / 2251799813685248) by (rewrite (sf_val _ _ S0); unfold SF2R, F2R; cbn; lra).
  assert (V1 : B2R x1 = IZR (if hp then -1 else 0) * B2R pd) by (rewrite VP, (sf_val _ _ S1); destruct hp; unfold SF2R, F2R; cbn; lra).
  assert (V2 : B2R x2 = IZR (if hp then -2 else 0) * B2R pd) by (rewrite VP, (sf_val _ _ S2); destruct hp; unfold SF2R, F2R; cbn; lra).
  destruct (K x1 F1 _ V1 ltac:(destruct hp; lia)) as [K1 K2]. destruct (K x2 F2 _ V2 ltac:(destruct hp; lia)) as [K3 K4].
  destruct (G x1 _ (zz hp) F1 K1 K2) as (z1 & E1 & C1).
  { unfold zz. destruct hp.
    - replace (-1 * PI) with (- PI) by ring. rewrite cos_neg, sin_neg, cos_PI, sin_PI. unfold RtoC. f_equal. ring.
    - rewrite Rmult_0_l, cos_0, sin_0. reflexivity. }
  destruct (G x2 _ 1 F2 K3 K4) as (z2 & E2 & C2).
  { destruct hp.
    - replace (-2 * PI) with (- (2 * PI)) by ring. rewrite cos_neg, sin_neg, cos_2PI, sin_2PI. unfold RtoC. f_equal. ring.
    - rewrite Rmult_0_l, cos_0, sin_0. reflexivity. }
  exists z1, z2. repeat split; assumption || apply C1 || apply C2.
Qed.

Lemma one_rap m : rap (c_of (N := F64 m) (fofZ 1)) 1 0.
Proof.
  split; [split; reflexivity|]. unfold c2c, c_of. cbn [re im n0 nofZ F64]. rewrite (proj1 (fofZ_val 1 ltac:(lia))), (proj1 (fofZ_val 0 ltac:(lia))).
  replace (((1%R, 0%R) : C) - RtoC 1)%C with (RtoC 0) by (unfold RtoC, Cminus, Cplus, Copp; cbn; f_equal; ring). rewrite Cmod_0. lra.
Qed.
Section Par.
  Variable m : libm.
  Notation FN := (F64 m).
  Hypothesis HM : libm_design m.
  Hypothesis HR : libm_response m.
  Variable q : params FN.
  Notation fc := (q_fc q : f64).
  Hypothesis Ff : is_finite fc = true.
  Hypothesis Hf : cut_ok (B2R fc).
  Variable n : nat.
  Hypothesis N1 : (1 <= n)%nat.
  Hypothesis N2 : (n <= 24)%nat.
  Variable FO : Z.
  Hypothesis HFO : (Z.of_nat n <= FO)%Z.
  Variable hp : bool.
  Hypothesis HE : bw_scale_error hp (B2R fc) n <= / 8.
  Notation k := (Bw, if hp then HP else LP).
  Notation t := (tan (PI * B2R fc)).
  Notation sec := (bw_ideal hp (B2R fc) n).

  Definition cond : R := (1 + (if hp then t else / t)) ^ 2.
  Notation bwe := (bw_error (B2R fc)).
  Definition dd : R := 1135 / 1000 * cond * bwe.
  Lemma cond_rng : 1 <= cond <= 2 ^ 28 * (1001 / 1000).
  Proof.
    unfold cond. pose proof (t_rng fc Hf) as T. set (u := if hp then t else / t).
    assert (U : 0 < u <= 16384). { unfold u. destruct hp; [lra|]. split; [apply Rinv_0_lt_compat; lra|]. rewrite <- (Rinv_inv 16384). apply Rinv_le; lra. }
    split; [nra|]. apply Rle_trans with (16385 ^ 2); [apply pow_incr; lra|lra].
  Qed.
  Lemma E0_small : INR n * cond * bwe <= / 64.
  Proof. unfold bw_scale_error in HE. fold cond in HE. lra. Qed.
  Lemma nr : 1 <= INR n <= 24.
  Proof. pose proof (le_INR _ _ N1) as A. pose proof (le_INR _ _ N2) as B. rewrite (INR_IZR_INZ 24) in B. simpl in *. lra. Qed.
  Lemma dd_rng : 0 < dd <= / 8 /\ 512 * uu <= bwe <= / 2 ^ 31 /\ bwe <= cond * bwe /\ cond * bwe <= INR n * cond * bwe.
  Proof.
    pose proof E0_small as E. pose proof cond_rng as C. pose proof nr as N. pose proof (err_small m q Hf) as B. pose proof (err_v m q Hf) as EV. pose proof (v_low fc Hf) as V.
    assert (B1 : 512 * uu <= bwe) by (rewrite EV; lra). assert (B2 : bwe <= cond * bwe) by (rewrite <- (Rmult_1_l bwe) at 1; apply Rmult_le_compat_r; lra).
    assert (B3 : cond * bwe <= INR n * cond * bwe) by (rewrite Rmult_assoc; rewrite <- (Rmult_1_l (cond * bwe)) at 1; apply Rmult_le_compat_r; lra).
    unfold dd. repeat split; try assumption; try lra.
  Qed.

  Lemma stage_rap z1 z2 b i : cap z1 (RtoC (zz hp)) (16 * uu) -> cap z2 (RtoC 1) (16 * uu) -> (i < bw_sections n)%nat -> sec_ok m q n hp i b ->
    rap (stage_top (N := FN) z1 z2 b) (tpv (sec i) (zz hp)) dd /\ rap (stage_bot (N := FN) z1 z2 b) (btv (sec i) (zz hp)) dd /\
    / 2 ^ 28 <= tpv (sec i) (zz hp) <= 4 /\ / 2 ^ 28 <= btv (sec i) (zz hp) <= 4.
  Proof.
    intros Z1 Z2 Hi ((F1 & F2 & F3 & F4 & F5) & A0 & A1 & A2 & _ & B0 & B1 & B2).
    pose proof (t_rng fc Hf) as T. destruct (ideal_bounds hp (B2R fc) n i ltac:(lra) (sections_in n i Hi)) as (I1 & I2 & I3 & I4 & I5 & I6 & I7). cbn zeta in *. fold cond in I7.
    destruct dd_rng as (D1 & D2 & D3 & D4). pose proof cond_rng as C. set (d := sec i) in *. assert (U0 : 0 < uu) by (unfold uu; lra).
    assert (ZH : zz hp = 1 \/ zz hp = -1) by (unfold zz; destruct hp; auto).
    assert (AP : forall (x : f64) r S e, is_finite x = true -> Rabs (B2R x - r) <= e -> Rabs r <= S -> ap (fdiv (fmul x (m_a0 b : f64)) (m_a0 b : f64)) r S e).
    { intros x r S e Fx Ex Rx. destruct (coef_one x (m_a0 b) Fx A0) as [Q1 Q2]. split; [exact Q1|]. split; [rewrite Q2; exact Ex|exact Rx]. }
    assert (Z0 : forall x : R, Rabs (x - x) <= 0) by (intros x; rewrite Rminus_diag_eq, Rabs_R0 by reflexivity; lra).
    assert (TOP : cap (stage_top (N := FN) z1 z2 b) (RtoC (tpv d (zz hp))) (201 / 100 * 0 + 130 * uu)).
    { unfold stage_top, getB0, getB1, getB2, getA0. cbn [nmul ndiv F64]. apply poly_ap; try assumption; [lra| | |].
      - apply AP; [exact F3|rewrite B0; apply Z0|rewrite I3, Rabs_R1; lra].
      - apply AP; [exact F4|rewrite B1; apply Z0|exact I4].
      - apply AP; [exact F5|rewrite B2; apply Z0|exact I5]. }
    assert (BOT : cap (stage_bot (N := FN) z1 z2 b) (RtoC (btv d (zz hp))) (201 / 100 * bwe + 130 * uu)).
    { unfold stage_bot, getA1, getA2, getA0. cbn [nmul ndiv F64]. apply poly_ap; try assumption; [unfold uu in *; lra| | |].
      - apply (ap_ofZ 1 1); [lia|rewrite Rabs_R1; lra].
      - apply AP; [exact F1|exact A1|exact I1].
      - apply AP; [exact F2|exact A2|exact I2]. }
    assert (CP : 0 < cond) by lra. assert (L7 : 2 / cond <= btv d (zz hp)) by apply I7.
    split; [|split; [|split; [lra|split; [|lra]]]].
    - destruct TOP as [Q1 Q2]. split; [exact Q1|]. eapply Rle_trans; [exact Q2|]. apply Rle_trans with (dd * 2); [|apply Rmult_le_compat_l; lra].
      unfold dd. lra.
    - destruct BOT as [Q1 Q2]. split; [exact Q1|]. eapply Rle_trans; [exact Q2|]. apply Rle_trans with (dd * (2 / cond)); [|apply Rmult_le_compat_l; lra].
      unfold dd. replace (1135 / 1000 * cond * bwe * (2 / cond)) with (227 / 100 * bwe) by (field; lra). lra.
    - eapply Rle_trans; [|exact L7]. apply Rmult_le_reg_r with cond; [lra|]. unfold Rdiv. rewrite Rmult_assoc, Rinv_l, Rmult_1_r by lra. lra.
  Qed.

  Lemma c65_setup : exists p b s, setupN (N := FN) k FO (Some (Z.of_nat n)) q (pf_init k FO) = Ok p tt /\ cas_index (pf_cas p) 0 = Val (bq_applyScale (N := FN) s b) /\
    sec_ok m q n hp 0 b /\ ap s (bw_scale hp (B2R fc) n) (bw_scale hp (B2R fc) n) (398 / 100 * (INR n * cond * bwe) * bw_scale hp (B2R fc) n) /\
    / 2 ^ 370 <= bw_scale hp (B2R fc) n <= 2 ^ 370.
  Proof.
    destruct (bw_setup m HM q Ff Hf n N1 ltac:(lia) FO HFO hp) as (p & bs & r & E & L & S & R & C).
    destruct (points m hp HM) as (z1 & z2 & P1 & C1 & P2 & C2). pose proof (t_rng fc Hf) as T.
    set (l := map (fun i => (tpv (sec i) (zz hp), btv (sec i) (zz hp))) (seq 0 (bw_sections n))).
    assert (F : Forall2 (fun b tb => rap (stage_top (N := FN) z1 z2 b) (fst tb) dd /\ rap (stage_bot (N := FN) z1 z2 b) (snd tb) dd /\
      / 2 ^ 28 <= fst tb <= 4 /\ / 2 ^ 28 <= snd tb <= 4) bs l).
    { apply F2_nth; [unfold l; rewrite map_length, seq_length; exact L|]. intros i b tb Eb Et.
      assert (Hi : (i < bw_sections n)%nat) by (rewrite <- L; apply nth_error_Some; congruence).
      unfold l in Et. rewrite nth_error_map, (nth_error_nth' _ 0%nat), seq_nth in Et by (try rewrite seq_length; exact Hi). cbn [option_map Nat.add] in Et. inversion Et; subst tb. cbn [fst snd].
      apply stage_rap; try assumption. apply S. exact Eb. }
    assert (U0 : 0 < uu) by (unfold uu; lra).
    destruct dd_rng as (D1 & D2 & D3 & D4). pose proof E0_small as E0. pose proof nr as NR. set (D := 9 / 8 * dd + / 2 ^ 46).
    assert (NS : (bw_sections n <= 12)%nat). { apply Nat.lt_succ_r. unfold bw_sections. apply Nat.div_lt_upper_bound; lia. }
    assert (NS1 : (bw_sections n <= n)%nat). { unfold bw_sections. apply Nat.div_le_upper_bound; lia. }
    assert (NSP : (1 <= bw_sections n)%nat). { unfold bw_sections. apply Nat.div_le_lower_bound; lia. }
    assert (AL : INR (length bs) * D <= 153 / 100 * (INR n * cond * bwe)).
    { rewrite L. apply Rle_trans with (INR n * (153 / 100 * (cond * bwe))); [|lra]. apply Rmult_le_compat; [apply pos_INR|unfold D; lra|apply le_INR; exact NS1|].
      unfold D, dd. unfold uu in *. lra. }
    assert (P4 : 4 ^ length bs <= 2 ^ 24). { rewrite L. apply Rle_trans with (4 ^ 12); [apply Rle_pow; [lra|exact NS]|lra]. }
    assert (P28 : / 2 ^ 336 <= (/ 2 ^ 28) ^ length bs).
    { rewrite L, pow_inv, <- pow_mult. apply Rinv_le; [apply pow_lt; lra|]. apply Rle_pow; [lra|lia]. }
    destruct (loop_rap m HR z1 z2 dd ltac:(lra) bs l (repeat idb (Z.to_nat (maxStagesOf (snd k) FO) - length bs)) F (c_of (N := FN) (fofZ 1)) (c_of (N := FN) (fofZ 1)) 1 1 0 1 1) as (ch & cb & RL & R1 & R2 & R3 & R4).
    - apply one_rap.
    - apply one_rap.
    - lra.
    - fold D. lra.
    - lra.
    - lra.
    - lra.
    - assert (2 ^ 24 <= 2 ^ 300) by (apply Rle_pow; [lra|lia]). lra.
    - assert (/ 2 ^ 800 <= / 2 ^ 336) by (apply Rinv_le; [apply pow_lt; lra|apply Rle_pow; [lra|lia]]). lra.
    - fold D in R1, R2. rewrite !Rplus_0_l in *. rewrite !Rmult_1_l in *.
      destruct (scale_prod hp (B2R fc) n ltac:(lra)) as (SP & SQ1 & SQ2). fold l in SP, SQ1, SQ2.
      set (X := fold_right Rmult 1 (map fst l)) in *. set (Y := fold_right Rmult 1 (map snd l)) in *.
      assert (Q24 : 2 ^ 24 <= 2 ^ 30) by lra. assert (Q340 : / 2 ^ 340 <= / 2 ^ 336) by (apply Rinv_le; [apply pow_lt; lra|apply Rle_pow; [lra|lia]]).
      assert (DP : 0 <= INR (length bs) * D) by (apply Rmult_le_pos; [apply pos_INR|unfold D; lra]).
      pose proof (scale_final m HR (proj2 (proj2 HM)) ch cb X Y _ R1 R2 ltac:(lra) ltac:(lra) ltac:(lra)) as SF. rewrite SP in SF.
      assert (RV : r = lm_cdiv m ch cb).
      { unfold cas_response, othrow_if, obind in R.
        replace (ngtb (N := FN) (fn hp) (nlit FN 1 2)) with false in R by (symmetry; unfold fn, wn; destruct hp; vm_compute; reflexivity).
        replace (nltb FN (fn hp) (nofZ FN 0)) with false in R by (symmetry; unfold fn, wn; destruct hp; vm_compute; reflexivity).
        cbn [nofZ nmul nopp npi npolar F64] in R. rewrite P1, P2 in R. cbn [oor_ub c_stages c_numStages] in R. rewrite Nat2Z.id, RL in R. inversion R. reflexivity. }
      destruct bs as [|b0 bs']; [cbn [length] in L; lia|].
      exists p, b0, (fdiv (fofZ 1) (ncabs FN r)). split; [exact E|]. split; [rewrite C; apply (index_at _ _ _ 0); [cbn [length]; lia|reflexivity]|].
      split; [apply S; reflexivity|].
      assert (PW : 2 ^ 340 * 2 ^ 30 = 2 ^ 370) by (rewrite <- pow_add; reflexivity).
      assert (IV : / X <= 2 ^ 340). { rewrite <- (Rinv_inv (2 ^ 340)). apply Rinv_le; [apply Rinv_0_lt_compat, pow_lt; lra|lra]. }
      assert (IV' : / 2 ^ 30 <= / X). { apply Rinv_le; lra. }
      split.
      + rewrite RV. eapply ap_weak; [exact SF|lra|]. assert (0 < bw_scale hp (B2R fc) n) by (rewrite <- SP; apply Rdiv_lt_0_compat; assumption). apply Rmult_le_compat_r; [lra|]. unfold uu in *. lra.
      + rewrite <- SP. unfold Rdiv. rewrite <- PW. split.
        * rewrite Rinv_mult. apply Rmult_le_compat; try lra; left; apply Rinv_0_lt_compat, pow_lt; lra.
        * rewrite (Rmult_comm (2 ^ 340)). apply Rmult_le_compat; lra.
  Qed.
End Par.

Lemma c65 m (hp : bool) (q : params (F64 m)) n FO : libm_design m -> libm_response m -> FloatSpec.is_fin (q_fc q : f64) ->
  / 2 ^ 14 <= B2R (q_fc q : f64) <= 1 / 2 - / 2 ^ 14 -> (1 <= n <= 24)%nat -> (Z.of_nat n <= FO)%Z ->
  let k := (Bw, if hp then HP else LP) in let f := B2R (q_fc q : f64) in
  bw_scale_error hp f n <= / 8 ->
  exists p b, setupN (N := F64 m) k FO (Some (Z.of_nat n)) q (pf_init k FO) = Ok p tt /\ cas_index (pf_cas p) 0 = Val b /\
    let d := bw_ideal hp f n 0 in let s := bw_scale hp f n in
    FloatSpec.is_fin (m_b0 b : f64) /\ FloatSpec.is_fin (m_b1 b : f64) /\ FloatSpec.is_fin (m_b2 b : f64) /\
    Rabs (B2R (m_b0 b : f64) - i_b0 d * s) <= bw_scale_error hp f n * s /\
    Rabs (B2R (m_b1 b : f64) - i_b1 d * s) <= bw_scale_error hp f n * s /\
    Rabs (B2R (m_b2 b : f64) - i_b2 d * s) <= bw_scale_error hp f n * s.
Proof.
  intros HM HR Ff Hf [N1 N2] HFO k f HE.
  destruct (c65_setup m HM HR q Ff Hf n N1 N2 FO HFO hp HE) as (p & b & s & E & I & ((_ & _ & F3 & F4 & F5) & _ & _ & _ & _ & B0 & B1 & B2) & A & SR).
  exists p, (bq_applyScale (N := F64 m) s b). split; [exact E|]. split; [exact I|]. cbn [bq_applyScale m_b0 m_b1 m_b2 nmul F64].
  pose proof (t_rng (q_fc q : f64) Hf) as T. destruct (ideal_bounds hp f n 0 ltac:(unfold f; lra) (sections_in n 0 ltac:(unfold bw_sections; pose proof (Nat.div_le_mono 2 (n + 1) 2 ltac:(lia) ltac:(lia)); change (2 / 2)%nat with 1%nat in *; lia))) as (_ & _ & I3 & I4 & I5 & _).
  cbn zeta in *. fold f in A, SR, B0, B1, B2. set (S := bw_scale hp f n) in *. set (d := bw_ideal hp f n 0) in *.
  destruct (dd_rng m q Hf n N1 N2 hp HE) as (_ & D2 & D3 & D4). fold f in D2, D3, D4. pose proof (E0_small m q n hp HE) as E0. fold f in E0.
  assert (ER : bw_scale_error hp f n = 8 * (INR n * cond m q hp * bw_error f)) by (unfold bw_scale_error, cond; fold f; ring). rewrite ER. set (e := INR n * cond m q hp * bw_error f) in *.
  assert (S0 : 0 < / 2 ^ 370) by (apply Rinv_0_lt_compat, pow_lt; lra). assert (S1 : 0 < S) by lra.
  assert (TS : tiny <= / 2 ^ 60 * S). { unfold tiny. apply Rle_trans with (/ 2 ^ 60 * / 2 ^ 370); [rewrite <- Rinv_mult, <- pow_add; apply Rinv_le; [apply pow_lt; lra|apply Rle_pow; [lra|lia]]|apply Rmult_le_compat_l; lra]. }
  assert (BG : 4 * 2 ^ 370 <= big). { replace (4 * 2 ^ 370) with (2 ^ 372) by (rewrite (pow_add 2 370 2 : 2 ^ 372 = _); ring). unfold big. apply Rle_pow; [lra|lia]. }
  assert (eS : 512 * uu * S <= e * S <= / 64 * S) by (split; apply Rmult_le_compat_r; lra).
  assert (G : forall (x : f64) r, is_finite x = true -> B2R x = r -> Rabs r <= 2 -> is_finite (fmul x s) = true /\ Rabs (B2R (fmul x s) - r * S) <= 8 * e * S).
  { intros x r Fx Ex Hr. assert (AX : ap x r 2 0) by (split; [exact Fx|split; [rewrite Ex, Rminus_diag_eq, Rabs_R0 by reflexivity; lra|exact Hr]]).
    destruct (ap_mul2 _ _ _ _ _ _ _ _ AX A) as (Q1 & Q2 & _); [unfold uu in *; lra|]. split; [exact Q1|]. eapply Rle_trans; [exact Q2|].
    assert (uu * (e * S) <= uu * (/ 64 * S)) by (apply Rmult_le_compat_l; unfold uu; lra). unfold uu in *. lra. }
  assert (H3 : Rabs (i_b0 d) <= 2) by (rewrite I3, Rabs_R1; lra).
  destruct (G _ _ F3 B0 H3), (G _ _ F4 B1 I4), (G _ _ F5 B2 ltac:(lra)). repeat split; assumption.
Qed.
Lemma ex_c65 : libm_design design_libm /\ libm_response design_libm /\ bw_scale_error false (1 / 8) 4 <= 1 / 1000.
Proof.
  split; [apply design_libm_ok|]. split; [apply design_libm_ok|].
  destruct ex_fq as (A & _ & B & _). assert (H : cut_ok (B2R (fnorm 1 (-3)))) by (rewrite B; unfold cut_ok; lra). pose proof (t_rng _ H) as T. rewrite B in T.
  assert (I1 : / tan (PI * (1 / 8)) <= 16384) by (rewrite <- (Rinv_inv 16384); apply Rinv_le; lra).
  assert (I2 : 0 < / tan (PI * (1 / 8))) by (apply Rinv_0_lt_compat; lra).
  unfold bw_scale_error, bw_error. cbv zeta. set (u := / tan (PI * (1 / 8))) in *.
  assert (P : (1 + u) ^ 2 <= 16385 ^ 2) by (apply pow_incr; lra). replace (INR 4) with 4 by (simpl; ring). lra.
Qed.
