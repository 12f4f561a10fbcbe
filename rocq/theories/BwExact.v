(** Proofs: the coefficients of Butterworth low and high pass designs in exact arithmetic. *)
From Coq Require Import ZArith List Bool Reals Lra Lia.
From Coquelicot Require Import Coquelicot.
From Verif Require Import Num Outcome Types Biquad State Cascade Transforms Butterworth Chebyshev PoleFilter Exact RealNum SigSpec ChebSpec   DesignSpec SigProofs StabProofs RespProofs PZSpec PZProofs RBJProofs CoefLemmas BuildProofs PolyProofs MapProofs TransProofs   ProtoProofs ProtoBuild DesignProofs DesignLemmas LayoutProofs DblSpec BuildAny BwDblSpec CplxDbl BwDbl2.
Import ListNotations.
Local Open Scope R_scope.

Definition ibq (d : ideal) (s : R) : biquad RN := @MkBiquad RN 1 (i_a1 d) (i_a2 d) (i_b0 d * s) (i_b1 d * s) (i_b2 d * s).
Lemma ibq_emb {strict} d s : emb_bq (ibq d s) = xsection (strict := strict) d s.
Proof. reflexivity. Qed.

(** a pole on the unit circle is mapped to the same point, or its conjugate, by both transforms *)
Lemma hp_conj t c s : 0 < t -> c ^ 2 + s ^ 2 = 1 -> c < 0 -> hpD (1 / t) (Some (c, s)) = lpD t (Some (c, - s)).
Proof.
  intros Ht H Hc. unfold hpD, lpD.
  assert (W : forall x y, (RtoC x * (c, y))%C = (x * c, x * y)) by (intros x y; unfold Cmult, RtoC; cbn; f_equal; ring).
  rewrite !W.
  assert (D1 : (1 - 1 / t * c) ^ 2 + (1 / t * s) ^ 2 = (1 + t ^ 2 - 2 * t * c) / t ^ 2).
  { replace ((1 - 1 / t * c) ^ 2 + (1 / t * s) ^ 2) with ((t ^ 2 - 2 * t * c + (c ^ 2 + s ^ 2)) / t ^ 2) by (field; lra). rewrite H. field. lra. }
  assert (D2 : (1 - t * c) ^ 2 + (t * - s) ^ 2 = 1 + t ^ 2 - 2 * t * c).
  { replace ((1 - t * c) ^ 2 + (t * - s) ^ 2) with (1 - 2 * t * c + t ^ 2 * (c ^ 2 + s ^ 2)) by ring. rewrite H. ring. }
  assert (P : 0 < 1 + t ^ 2 - 2 * t * c) by nra. assert (T2 : 0 < t ^ 2) by nra.
  assert (OD : forall a b : C, (- a / b = - (a / b))%C) by (intros; unfold Cdiv; ring).
  rewrite OD.
  rewrite bil_val by (rewrite D1; apply Rgt_not_eq, Rdiv_lt_0_compat; lra). rewrite bil_val by (rewrite D2; lra). cbn zeta. rewrite D1, D2.
  replace (1 - (1 / t * c) ^ 2 - (1 / t * s) ^ 2) with (1 - (c ^ 2 + s ^ 2) / t ^ 2) by (field; lra).
  replace (1 - (t * c) ^ 2 - (t * - s) ^ 2) with (1 - t ^ 2 * (c ^ 2 + s ^ 2)) by ring. rewrite H.
  unfold Copp. cbn [fst snd]. f_equal; field; split; lra.
Qed.
Definition btD (hp : bool) (t : R) : option C -> C := if hp then hpD (1 / t) else lpD t.
Lemma pair_sec (hp : bool) t c s : 0 < t -> c ^ 2 + s ^ 2 = 1 -> c < 0 -> let z := if hp then -1 else 1 in let d := 1 + t ^ 2 - 2 * t * c in
  rbq (conj_pz (btD hp t (Some (c, s))) (btD hp t None)) = ibq (Ideal (2 * (t ^ 2 - 1) / d) ((1 + t ^ 2 + 2 * t * c) / d) 1 (2 * z) 1) 1.
Proof.
  intros Ht H Hc z d. set (s' := if hp then - s else s). assert (H' : c ^ 2 + s' ^ 2 = 1) by (unfold s'; destruct hp; nra).
  assert (E : btD hp t (Some (c, s)) = lpD t (Some (c, s'))) by (unfold btD, s'; destruct hp; [apply hp_conj; assumption|reflexivity]).
  rewrite E. destruct (section_val t c s' Ht H' Hc) as (_ & S1 & S2 & _). cbn zeta in *.
  assert (W : (RtoC t * (c, s'))%C = (t * c, t * s')) by (unfold Cmult, RtoC; cbn; f_equal; ring).
  unfold lpD. rewrite W. set (p := ((1 + ((t * c)%R, (t * s')%R)) / (1 - ((t * c)%R, (t * s')%R)))%C) in *. clearbody p. destruct p as [x y].
  rewrite Cmod_sq in S2. unfold rbq, ibq, conj_pz. cbn [zp1 zp2 zz1 zz2 i_a1 i_a2 i_b0 i_b1 i_b2]. cbn [fst snd] in *.
  fold d in S1, S2. rewrite <- S1, <- S2. unfold z, btD. destruct hp; cbn; f_equal; ring.
Qed.
Lemma single_sec (hp : bool) t : 0 < t -> let z := if hp then -1 else 1 in
  rbq (PZc (btD hp t (Some (RtoC (-1)))) 0 (btD hp t None) 0) = ibq (Ideal ((t - 1) / (t + 1)) 0 1 z 0) 1.
Proof.
  intros Ht z.
  assert (E : btD hp t (Some (RtoC (-1))) = RtoC ((1 - t) / (t + 1))).
  { unfold btD. assert (L : lpD t (Some (RtoC (-1))) = RtoC ((1 - t) / (t + 1))).
    { unfold lpD. rewrite <- RtoC_mult. change (1 + RtoC (t * -1))%C with (RtoC 1 + RtoC (t * -1))%C. rewrite <- RtoC_plus. change (1 - RtoC (t * -1))%C with (RtoC 1 - RtoC (t * -1))%C. rewrite <- RtoC_minus, <- RtoC_div by lra. f_equal. field. lra. }
    destruct hp; [|exact L]. change (RtoC (-1)) with (-1, 0) in *. rewrite hp_conj by lra. replace (- 0) with 0 by lra. exact L. }
  rewrite E. unfold rbq, ibq. cbn [zp1 zp2 zz1 zz2 i_a1 i_a2 i_b0 i_b1 i_b2]. unfold z, btD. destruct hp; cbn; f_equal; try ring; field; lra.
Qed.

Lemma theta_angle n i : cis (PI / 2 + theta n i) = (cos (bw_angle n i), sin (bw_angle n i)).
Proof. unfold cis, theta, bw_angle. rewrite plus_INR, mult_INR. reflexivity. Qed.
Lemma angle_neg n i : (i < n / 2)%nat -> cos (bw_angle n i) < 0.
Proof.
  intros Hi. assert (HI : (2 * i + 2 <= n)%nat). { pose proof (Nat.div_mod n 2 ltac:(lia)). lia. }
  pose proof PI_RGT_0. apply le_INR in HI. rewrite plus_INR, mult_INR in HI. simpl in HI. pose proof (pos_INR i).
  unfold bw_angle. set (ph := (2 * INR i + 1) * PI / (2 * INR n)).
  assert (0 < ph < PI).
  { unfold ph, Rdiv. split; [apply Rmult_lt_0_compat; [nra|apply Rinv_0_lt_compat; lra]|].
    apply Rmult_lt_reg_r with (2 * INR n); [lra|]. rewrite Rmult_assoc, Rinv_l by lra. nra. }
  apply cos_lt_0; lra.
Qed.
Lemma angle_one n i : cos (bw_angle n i) ^ 2 + sin (bw_angle n i) ^ 2 = 1.
Proof. pose proof (sin2_cos2 (bw_angle n i)) as Q. unfold Rsqr in Q. nra. Qed.

Lemma digs hp f n : 0 < tan (PI * f) ->
  map rbq (simple_dig (btD hp (tan (PI * f))) (pts_of n (bw_q n)) (sg_of n bw_q0)) = map (fun i => ibq (bw_ideal hp f n i) 1) (seq 0 (bw_sections n)).
Proof.
  intros Ht. unfold bw_sections. rewrite <- nup_eq; unfold nup; rewrite seq_app, map_app. unfold simple_dig, pts_of, sg_of. rewrite map_app, !map_map. f_equal.
  - apply map_ext_in. intros i Hi. apply in_seq in Hi. cbn [fst snd bw_q]. rewrite theta_angle, pair_sec; [|exact Ht|apply angle_one|apply angle_neg; lia].
    unfold bw_ideal. replace (Nat.ltb i (n / 2)) with true by (symmetry; apply Nat.ltb_lt; lia). reflexivity.
  - destruct (Nat.odd n); [|reflexivity]. cbn [olist map seq fst snd bw_q0 Nat.add]. rewrite single_sec by exact Ht.
    unfold bw_ideal. rewrite Nat.ltb_irrefl. reflexivity.
Qed.

(** peak values *)
Lemma peak_pos hp f n i : 0 < tan (PI * f) -> (i < n / 2 \/ i = n / 2)%nat -> let d := bw_ideal hp f n i in let z := if hp then -1 else 1 in
  0 < 1 + z * i_a1 d + i_a2 d /\ 0 < i_b0 d + z * i_b1 d + i_b2 d.
Proof.
  intros Ht Hi d z. unfold d, bw_ideal, z. set (t := tan (PI * f)) in *. destruct (Nat.ltb_spec i (n / 2)) as [L|L].
  - pose proof (angle_neg n i L) as C. set (c := cos (bw_angle n i)) in *. cbn [i_a1 i_a2 i_b0 i_b1 i_b2].
    assert (D : 0 < 1 + t ^ 2 - 2 * t * c) by nra.
    replace (1 + (if hp then -1 else 1) * (2 * (t ^ 2 - 1) / (1 + t ^ 2 - 2 * t * c)) + (1 + t ^ 2 + 2 * t * c) / (1 + t ^ 2 - 2 * t * c))
      with ((if hp then 4 else 4 * t ^ 2) / (1 + t ^ 2 - 2 * t * c)) by (destruct hp; field; lra).
    split; [apply Rdiv_lt_0_compat; [destruct hp; nra|exact D]|destruct hp; lra].
  - cbn [i_a1 i_a2 i_b0 i_b1 i_b2].
    replace (1 + (if hp then -1 else 1) * ((t - 1) / (t + 1)) + 0) with ((if hp then 2 else 2 * t) / (t + 1)) by (destruct hp; field; lra).
    split; [apply Rdiv_lt_0_compat; [destruct hp; lra|lra]|destruct hp; lra].
Qed.
Lemma sections_in n i : (i < bw_sections n)%nat -> (i < n / 2 \/ i = n / 2)%nat.
Proof. unfold bw_sections. rewrite <- nup_eq. unfold nup. destruct (Nat.odd n); lia. Qed.
Lemma cprod_real l : cprod (map RtoC l) = RtoC (fold_right Rmult 1 l).
Proof. induction l as [|x l IH]; [reflexivity|]. cbn [map fold_right]. rewrite RtoC_mult, <- IH. reflexivity. Qed.
Lemma rprod_pos (l : list R) : List.Forall (fun x => 0 < x) l -> 0 < fold_right Rmult 1 l.
Proof. induction 1; cbn [fold_right]; [lra|]. apply Rmult_lt_0_compat; assumption. Qed.
Lemma rprod_div {A} (u v : A -> R) l : List.Forall (fun x => 0 < u x /\ 0 < v x) l ->
  1 / (fold_right Rmult 1 (map u l) / fold_right Rmult 1 (map v l)) = fold_right Rmult 1 (map (fun x => v x / u x) l).
Proof.
  induction 1 as [|x l [H1 H2] F IH]; cbn [map fold_right]; [lra|]. rewrite <- IH.
  assert (0 < fold_right Rmult 1 (map u l)) by (apply rprod_pos; apply Forall_map; eapply List.Forall_impl; [|exact F]; intros y [Q _]; exact Q).
  assert (0 < fold_right Rmult 1 (map v l)) by (apply rprod_pos; apply Forall_map; eapply List.Forall_impl; [|exact F]; intros y [_ Q]; exact Q).
  field. repeat split; lra.
Qed.

Section Ex.
  Context {strict : bool}.
  Notation XS := (X strict).
  Lemma bw_exact (hp : bool) (q : params XS) f n FO : q_fc q = XR f -> 0 < f < 1 / 2 -> (1 <= n)%nat -> in_int (2 * Z.of_nat n) = true -> (Z.of_nat n <= FO)%Z ->
    let k := (Bw, if hp then HP else LP) in
    exists p rest, setupN (N := XS) k FO (Some (Z.of_nat n)) q (pf_init k FO) = Ok p tt /\
      pf_cas p = MkCascade (Z.of_nat (bw_sections n)) (maxStagesOf (snd k) FO)
        (map (fun i => xsection (bw_ideal hp f n i) (if Nat.eqb i 0 then bw_scale hp f n else 1)) (seq 0 (bw_sections n)) ++ rest).
  Proof.
    intros EF Hf Hn HI HF k. destruct (tan_half f Hf) as (C0 & _ & T0).
    destruct (sizes n FO Hn HF) as (S1 & S2 & S3).
    pose proof (pts_len n (bw_q n) bw_q0) as PLn. pose proof (pts_num n (bw_q n) bw_q0) as PN.
    destruct (f_ana Bw (if hp then HP else LP) n FO 0 q ltac:(destruct hp; reflexivity) Hn HF HI I I) as (np & ga & db & ex & HA).
    cbn [fq fq0 fg] in HA. fold k in HA.
    assert (G : good (pts_of n (bw_q n)) (sg_of n bw_q0)).
    { split.
      - apply Forall_app. split.
        + unfold pts_of. apply Forall_map, Forall_forall. intros i Hi. apply in_seq in Hi. split; [|exact I]. cbn [fst bw_q]. rewrite theta_angle. cbn [fst]. apply angle_neg. lia.
        + unfold sg_of. destruct (Nat.odd n); constructor; [|constructor]. split; [cbn; lra|exact I].
      - unfold sg_of. destruct (Nat.odd n); constructor; [|constructor]. split; [reflexivity|exact I]. }
    set (D := btD hp (tan (PI * f))). set (dig := simple_dig D (pts_of n (bw_q n)) (sg_of n bw_q0)).
    assert (LD : length dig = bw_sections n) by (unfold dig; rewrite simple_dig_len, PLn; apply nup_eq).
    set (w := if hp then PI - 0 else 0).
    assert (HD : dig_transform (N := XS) (snd k) q (alay (strict := strict) (pts_of n (bw_q n)) (sg_of n bw_q0) FO ex (XR 0) (XR 1)) (pf_dig (pf_init k FO)) =
      Ok (MkLayout (N := XS) (Z.of_nat n) (maxDigital (snd k) FO) (map xpz dig ++ skipn (length dig) (layout_storage (N := XS) FO)) (XR w) (XR 1)) tt).
    { rewrite <- PN. unfold dig, D, w, btD. destruct hp; cbn [k snd maxDigital].
      - unfold dig_transform. cbn [snd k]. rewrite EF. apply HighPass_x; [exact Hf|exact G|]. rewrite PLn. unfold layout_storage. rewrite repeat_length. exact S2.
      - unfold dig_transform. cbn [snd k]. rewrite EF. apply LowPass_x; [exact Hf|exact G|]. rewrite PLn. unfold layout_storage. rewrite repeat_length. exact S2. }
    assert (OK : List.Forall pz_ok dig).
    { apply simple_dig_ok. destruct G as [_ R]. eapply List.Forall_impl; [|exact R]. intros x [H1 H2]. unfold D, btD. destruct hp; [split; apply hpD_real; assumption|split; apply lpD_real; assumption]. }
    set (rb := map (fun i => ibq (bw_ideal hp f n i) 1) (seq 0 (bw_sections n))).
    assert (RB : map rbq dig = rb) by (apply digs; exact T0).
    set (bs := map (emb_bq (strict := strict)) rb).
    assert (LB : length bs = bw_sections n) by (unfold bs, rb; rewrite !map_length, seq_length; reflexivity).
    assert (F2 : Forall2 (fun p b => pair_bq (N := XS) p = Val b) (map xpz dig) bs).
    { unfold bs. rewrite <- RB. clear -OK. induction dig as [|d l IH]; cbn [map]; constructor; inversion OK; subst.
      - apply pair_bq_emb. assumption.
      - apply IH. assumption. }
    assert (NS : bw_sections n = nup n) by (unfold bw_sections; rewrite nup_eq; reflexivity).
    set (rest := repeat (LayoutProofs.idb (N := XS)) (Z.to_nat (maxStagesOf (snd k) FO) - length bs)).
    assert (WF : ndiv XS (XR w) (nmul XS (nofZ XS 2) (npi XS)) = XR (if hp then 1 / 2 else 0)).
    { cbn [ndiv nmul nofZ npi X xmul]. pose proof PI_RGT_0. rewrite xdiv_fin by lra. unfold w. f_equal. destruct hp; field; lra. }
    set (u := upt (if hp then 1 / 2 else 0)). set (z := if hp then -1 else 1).
    assert (U : u = RtoC z).
    { unfold u, upt, cis, z. destruct hp.
      - replace (- (2 * PI * (1 / 2))) with (- PI) by field. rewrite cos_neg, sin_neg, cos_PI, sin_PI. unfold RtoC. f_equal. lra.
      - replace (- (2 * PI * 0)) with 0 by ring. rewrite cos_0, sin_0. reflexivity. }
    set (tp := fun i => i_b0 (bw_ideal hp f n i) + z * i_b1 (bw_ideal hp f n i) + i_b2 (bw_ideal hp f n i)).
    set (bt := fun i => 1 + z * i_a1 (bw_ideal hp f n i) + i_a2 (bw_ideal hp f n i)).
    assert (ZZ : z * z = 1) by (unfold z; destruct hp; lra).
    assert (ET : map (fun b => rtop b u) rb = map RtoC (map tp (seq 0 (bw_sections n)))).
    { unfold rb. rewrite !map_map. apply map_ext. intros i. rewrite U. unfold rtop, poly2, ibq, tp. cbn [m_b0 m_b1 m_b2].
      unfold RtoC, Cplus, Cmult. cbn [fst snd]. f_equal; [|ring]. replace (i_b2 (bw_ideal hp f n i)) with (i_b2 (bw_ideal hp f n i) * (z * z)) at 2 by (rewrite ZZ; ring). ring. }
    assert (EB : map (fun b => rbot b u) rb = map RtoC (map bt (seq 0 (bw_sections n)))).
    { unfold rb. rewrite !map_map. apply map_ext. intros i. rewrite U. unfold rbot, poly2, ibq, bt. cbn [m_a1 m_a2].
      unfold RtoC, Cplus, Cmult. cbn [fst snd]. f_equal; [|ring]. replace (i_a2 (bw_ideal hp f n i)) with (i_a2 (bw_ideal hp f n i) * (z * z)) at 2 by (rewrite ZZ; ring). ring. }
    assert (FP : List.Forall (fun i => 0 < tp i /\ 0 < bt i) (seq 0 (bw_sections n))).
    { apply Forall_forall. intros i Hi. apply in_seq in Hi. destruct (peak_pos hp f n i T0 (sections_in n i ltac:(lia))) as [Q1 Q2]. split; assumption. }
    assert (P1 : 0 < fold_right Rmult 1 (map tp (seq 0 (bw_sections n)))) by (apply rprod_pos, Forall_map; eapply List.Forall_impl; [|exact FP]; intros i [Q _]; exact Q).
    assert (P2 : 0 < fold_right Rmult 1 (map bt (seq 0 (bw_sections n)))) by (apply rprod_pos, Forall_map; eapply List.Forall_impl; [|exact FP]; intros i [_ Q]; exact Q).
    assert (MI : rest = map (emb_bq (strict := strict)) (repeat (@MkBiquad RN 1 0 0 1 0 0) (Z.to_nat (maxStagesOf (snd k) FO) - length bs))).
    { unfold rest. rewrite (idb_identity (strict := strict) : LayoutProofs.idb (N := XS) = _). generalize (Z.to_nat (maxStagesOf (snd k) FO) - length bs)%nat as j. induction j as [|j IH]; cbn [repeat map]; [reflexivity|]. rewrite <- IH. reflexivity. }
    assert (FN : firstn (Z.to_nat (Z.of_nat (length bs))) (rb ++ repeat (@MkBiquad RN 1 0 0 1 0 0) (Z.to_nat (maxStagesOf (snd k) FO) - length bs)) = rb).
    { rewrite Nat2Z.id. unfold bs at 1. rewrite map_length, firstn_app, Nat.sub_diag, firstn_O, app_nil_r. apply firstn_all. }
    assert (R : cas_response (N := XS) (MkCascade (N := XS) (Z.of_nat (length bs)) (maxStagesOf (snd k) FO) (bs ++ rest)) (ndiv XS (XR w) (nmul XS (nofZ XS 2) (npi XS))) =
      Val (xc (RtoC (fold_right Rmult 1 (map tp (seq 0 (bw_sections n))) / fold_right Rmult 1 (map bt (seq 0 (bw_sections n))))))).
    { rewrite WF, MI. unfold bs at 2. rewrite <- map_app. rewrite cas_response_emb.
      - rewrite FN. fold u. rewrite ET, EB, !cprod_real, <- RtoC_div by lra. reflexivity.
      - apply Forall_app. split; [unfold rb; apply Forall_map, Forall_forall; intros i _; cbn; lra|].
        apply Forall_forall. intros b Ib. apply repeat_spec in Ib. subst b. cbn. lra.
      - rewrite Nat2Z.id, app_length. unfold bs. rewrite map_length. lia.
      - destruct hp; lra.
      - rewrite FN. fold u. rewrite EB, cprod_real. intros Q. apply RtoC_inj in Q. lra. }
    assert (MS : (Z.of_nat (length bs) <= maxStagesOf (snd k) FO)%Z).
    { rewrite LB, NS. replace (maxStagesOf (snd k) FO) with (Z.quot (FO + 1) 2) by (unfold k; clear; destruct hp; reflexivity). exact (proj2 S3). }
    destruct (setup_list (N := XS) k FO (Z.of_nat n) q _ _ _ _ _ _ bs _ HF (x_not_nan 0) (x_not_nan 1) HA HD ltac:(rewrite map_length, LD, NS; exact S1) F2 ltac:(rewrite LB, NS; clear -S3; lia) MS R) as (p & E1 & E2).
    exists p, rest. split; [exact E1|]. rewrite E2. fold rest. rewrite LB. f_equal.
    cbn [ndiv X ncabs]. rewrite xcabs_xc, Cmod_R, Rabs_pos_eq by (apply Rlt_le, Rdiv_lt_0_compat; assumption).
    assert (QP : 0 < fold_right Rmult 1 (map tp (seq 0 (bw_sections n))) / fold_right Rmult 1 (map bt (seq 0 (bw_sections n)))) by (apply Rdiv_lt_0_compat; assumption).
    rewrite xdiv_fin by lra. rewrite (rprod_div tp bt) by exact FP.
    change (fold_right Rmult 1 (map (fun i => bt i / tp i) (seq 0 (bw_sections n)))) with (bw_scale hp f n).
    unfold bs, rb. assert (SP : bw_sections n = S (bw_sections n - 1)) by lia. rewrite SP. cbn [seq map app scale_head Nat.eqb].
    f_equal.
    - unfold bq_applyScale, emb_bq, ibq, xsection. cbn. f_equal; f_equal; ring.
    - f_equal. rewrite <- seq_shift, !map_map. apply map_ext. intros i. reflexivity.
  Qed.
  Lemma c63 (hp : bool) (q : params XS) f n FO : q_fc q = XR f -> 0 < f < 1 / 2 -> (1 <= n)%nat -> in_int (2 * Z.of_nat n) = true -> (Z.of_nat n <= FO)%Z ->
    let k := (Bw, if hp then HP else LP) in
    exists p, setupN (N := XS) k FO (Some (Z.of_nat n)) q (pf_init k FO) = Ok p tt /\
      c_numStages (pf_cas p) = Z.of_nat (bw_sections n) /\
      forall i, (i < bw_sections n)%nat -> cas_index (N := XS) (pf_cas p) (Z.of_nat i) = Val (xsection (bw_ideal hp f n i) (if Nat.eqb i 0 then bw_scale hp f n else 1)).
  Proof.
    intros EF Hf Hn HI HF k. destruct (bw_exact hp q f n FO EF Hf Hn HI HF) as (p & rest & E & C). exists p. split; [exact E|]. rewrite C. split; [reflexivity|].
    intros i Hi. unfold cas_index. cbn [c_numStages c_stages].
    replace (Z.of_nat i <? 0)%Z with false by (symmetry; apply Z.ltb_ge; lia). replace (Z.of_nat (bw_sections n) <=? Z.of_nat i)%Z with false by (symmetry; apply Z.leb_gt; lia).
    cbn [orb othrow_if obind]. unfold aget. replace (Z.of_nat i <? 0)%Z with false by (symmetry; apply Z.ltb_ge; lia). rewrite Nat2Z.id, nth_error_app1 by (rewrite map_length, seq_length; exact Hi).
    rewrite nth_error_map. rewrite (nth_error_nth' _ 0%nat) by (rewrite seq_length; exact Hi). rewrite seq_nth by exact Hi. reflexivity.
  Qed.
End Ex.
Lemma ex_bw3 : 0 < 1 / 4 < 1 / 2 /\ in_int (2 * Z.of_nat 3) = true /\ bw_sections 3 = 2%nat /\ bw_scale false (1 / 4) 3 = 1 / 6 /\
  i_a1 (bw_ideal false (1 / 4) 3 0) = 0 /\ i_a2 (bw_ideal false (1 / 4) 3 0) = 1 / 3 /\ i_a1 (bw_ideal false (1 / 4) 3 1) = 0.
Proof.
  assert (T : tan (PI * (1 / 4)) = 1) by (replace (PI * (1 / 4)) with (PI / 4) by field; apply tan_PI4).
  assert (A : cos (bw_angle 3 0) = - (1 / 2)).
  { unfold bw_angle. replace (PI / 2 + (2 * INR 0 + 1) * PI / (2 * INR 3)) with (PI - PI / 3) by (cbn; field). rewrite Rtrigo_facts.cos_pi_minus, cos_PI3. lra. }
  split; [lra|]. split; [reflexivity|]. split; [reflexivity|].
  unfold bw_scale, bw_sections. replace ((3 + 1) / 2)%nat with 2%nat by reflexivity. cbn [seq map fold_right]. unfold bw_ideal, peak_inv. rewrite T.
  replace (3 / 2)%nat with 1%nat by reflexivity. cbn [Nat.ltb Nat.leb]. cbn [i_a1 i_a2 i_b0 i_b1 i_b2]. rewrite A. repeat split; field.
Qed.
