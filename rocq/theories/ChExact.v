(** Proofs: the coefficients of Chebyshev low and high pass designs in exact arithmetic. *)
From Coq Require Import ZArith List Bool Reals Lra Lia.
From Coquelicot Require Import Coquelicot.
From Verif Require Import Num Outcome Types Biquad State Cascade Transforms Butterworth Chebyshev PoleFilter Exact RealNum SigSpec ChebSpec DesignSpec SigProofs StabProofs RespProofs PZSpec PZProofs RBJProofs CoefLemmas BuildProofs PolyProofs MapProofs TransProofs ProtoProofs ProtoBuild DesignProofs DesignLemmas LayoutProofs DblSpec BuildAny BwDblSpec CplxDbl BwDbl2 BwExact ChCoefSpec.
Import ListNotations.
Local Open Scope R_scope.

(** the image of a point left of the imaginary axis *)
Lemma bt_val (hp : bool) t x y : 0 < t -> x <= 0 -> let u := if hp then / t else t in let z := if hp then -1 else 1 in
  let d := 1 - 2 * u * x + u ^ 2 * (x ^ 2 + y ^ 2) in
  0 < d /\ btD hp t (Some (x, y)) = (z * (1 - u ^ 2 * (x ^ 2 + y ^ 2)) / d, z * (2 * u * y) / d).
Proof.
  intros Ht Hx u z d. assert (U : 0 < u) by (unfold u; destruct hp; [apply Rinv_0_lt_compat|]; exact Ht).
  assert (D : 0 < d). { unfold d. assert (0 <= u ^ 2 * (x ^ 2 + y ^ 2)) by (apply Rmult_le_pos; nra). nra. }
  split; [exact D|].
  assert (W : (RtoC u * (x, y))%C = (u * x, u * y)) by (unfold Cmult, RtoC; cbn; f_equal; ring).
  assert (E : (1 - u * x) ^ 2 + (u * y) ^ 2 = d) by (unfold d; ring).
  assert (B : ((1 + RtoC u * (x, y)) / (1 - RtoC u * (x, y)))%C = ((1 - u ^ 2 * (x ^ 2 + y ^ 2)) / d, 2 * u * y / d)).
  { rewrite W, bil_val by (rewrite E; lra). cbn zeta. rewrite E. f_equal; field; lra. }
  unfold btD, z. destruct hp.
  - replace (1 / t) with u by (unfold u; field; lra). unfold hpD.
    assert (OD : forall a b : C, (- a / b = - (a / b))%C) by (intros; unfold Cdiv; ring). rewrite OD, B. unfold Copp. cbn [fst snd]. f_equal; field; lra.
  - unfold lpD. change t with u at 1 2. rewrite B. f_equal; field; lra.
Qed.
Lemma an_pair_sec (hp : bool) t x y (zr : option C) w : 0 < t -> x <= 0 ->
  match zr, w with None, None => True | Some c, Some w => c = (0, w) | _, _ => False end ->
  rbq (conj_pz (btD hp t (Some (x, y))) (btD hp t zr)) = ibq (an_pair hp t x (x ^ 2 + y ^ 2) w) 1.
Proof.
  intros Ht Hx HZ. destruct (bt_val hp t x y Ht Hx) as [D E]. rewrite E. clear E. unfold an_pair.
  set (u := if hp then / t else t) in *. set (d := 1 - 2 * u * x + u ^ 2 * (x ^ 2 + y ^ 2)) in *. set (m := x ^ 2 + y ^ 2) in *.
  assert (ZV : exists c s, btD hp t zr = (c, s) /\ c ^ 2 + s ^ 2 = 1 /\
    c = (if hp then -1 else 1) * match w with None => -1 | Some w => (1 - u ^ 2 * w ^ 2) / (1 + u ^ 2 * w ^ 2) end).
  { destruct zr as [c|], w as [w|]; try contradiction.
    - subst c. destruct (bt_val hp t 0 w Ht (Rle_refl _)) as [D0 E0]. fold u in D0, E0. eexists; eexists. split; [exact E0|].
      replace (1 - 2 * u * 0 + u ^ 2 * (0 ^ 2 + w ^ 2)) with (1 + u ^ 2 * w ^ 2) in * by ring. split; [|destruct hp; field; lra].
      destruct hp; field; lra.
    - unfold btD. destruct hp; [exists 1, 0|exists (-1), 0]; split; try reflexivity; lra. }
  destruct ZV as (c & s & -> & CS & EC).
  unfold rbq, ibq, conj_pz, Cconj. cbn [zp1 zp2 zz1 zz2 i_a1 i_a2 i_b0 i_b1 i_b2]. unfold Cplus, Cmult, Copp, Cconj. cbn [fst snd].
  assert (Q : d = (1 - u * x) ^ 2 + (u * y) ^ 2) by (unfold d, m; ring).
  f_equal.
  - unfold Rdiv. destruct hp; ring.
  - replace ((if hp then -1 else 1) * (1 - u ^ 2 * m) / d * ((if hp then -1 else 1) * (1 - u ^ 2 * m) / d) - (if hp then -1 else 1) * (2 * u * y) / d * - ((if hp then -1 else 1) * (2 * u * y) / d))
      with (((1 - u ^ 2 * m) ^ 2 + (2 * u * y) ^ 2) / d ^ 2) by (destruct hp; field; lra).
    replace ((1 - u ^ 2 * m) ^ 2 + (2 * u * y) ^ 2) with (d * (1 + 2 * u * x + u ^ 2 * m)) by (unfold d, m; ring). field. lra.
  - ring.
  - match goal with |- _ = -2 * ?a * ?b * 1 => replace (-2 * a * b * 1) with (-2 * (a * b)) by ring; rewrite <- EC end. ring.
  - transitivity (c ^ 2 + s ^ 2); [ring|rewrite CS; ring].
Qed.
Lemma an_single_sec (hp : bool) t x : 0 < t -> x <= 0 ->
  rbq (PZc (btD hp t (Some (RtoC x))) 0 (btD hp t None) 0) = ibq (an_single hp t x) 1.
Proof.
  intros Ht Hx. destruct (bt_val hp t x 0 Ht Hx) as [D E].
  match type of E with _ = ?r => replace (btD hp t (Some (RtoC x))) with r by (symmetry; exact E) end. clear E.
  unfold an_single. set (u := if hp then / t else t) in *.
  assert (U : 0 < u) by (unfold u; destruct hp; [apply Rinv_0_lt_compat|]; exact Ht). assert (0 < 1 - u * x) by nra.
  assert (Q : (1 - u ^ 2 * (x ^ 2 + 0 ^ 2)) / (1 - 2 * u * x + u ^ 2 * (x ^ 2 + 0 ^ 2)) = (1 + u * x) / (1 - u * x)) by (field; split; [lra|]; replace (1 - 2 * u * x + u ^ 2 * (x ^ 2 + 0 ^ 2)) with ((1 - u * x) ^ 2) in D by ring; nra).
  set (d := 1 - 2 * u * x + u ^ 2 * (x ^ 2 + 0 ^ 2)) in *. set (p := (1 + u * x) / (1 - u * x)) in *.
  assert (E : forall z : R, (z * (1 - u ^ 2 * (x ^ 2 + 0 ^ 2)) / d, z * (2 * u * 0) / d) = RtoC (z * p)).
  { intros z. unfold RtoC. f_equal; [rewrite <- Q; field; lra|field; lra]. }
  rewrite E. unfold rbq, ibq, btD. cbn [zp1 zp2 zz1 zz2 i_a1 i_a2 i_b0 i_b1 i_b2].
  assert (P : forall z : R, z * (-1 - u * x) / (1 - u * x) = - (z * p)) by (intros z; unfold p; field; lra). rewrite P.
  destruct hp; cbn; f_equal; ring.
Qed.

(** ** the points of the two prototypes *)
Lemma theta_ch n i : theta n i = ch_angle n i.
Proof. unfold theta, ch_angle. rewrite plus_INR, mult_INR. reflexivity. Qed.
Lemma width_fv (second : bool) n db : 0 < db -> fv (if second then Ch2 else Ch1) n db = ch_width second n db.
Proof.
  intros H. unfold fv, ch_width, ch_v. destruct second; [|reflexivity]. unfold c2_eps. do 2 f_equal.
  pose proof (rpower_gt1 (db / 10) ltac:(lra)). pose proof (sqrt_lt_R0 (Rpower 10 (db / 10) - 1) ltac:(lra)). field. lra.
Qed.
Definition chf (second : bool) : family := if second then Ch2 else Ch1.
Lemma ch_db (second : bool) db : 0 < db -> db_ok (chf second) db.
Proof. destruct second; exact (fun H => H). Qed.
Lemma width_pos (second : bool) n db : (1 <= n)%nat -> 0 < db -> 0 < ch_width second n db.
Proof. intros Hn H. rewrite <- width_fv by exact H. apply fv_pos; [destruct second; discriminate|lia|apply (ch_db second); exact H]. Qed.
Lemma ch_mod_pos v a : 0 < sinh v -> 0 < sin a -> 0 < (sinh v * sin a) ^ 2 + (cosh v * cos a) ^ 2.
Proof. intros H1 H2. assert (0 < sinh v * sin a) by (apply Rmult_lt_0_compat; assumption). pose proof (pow2_ge_0 (cosh v * cos a)). nra. Qed.
Lemma ch_digs (second hp : bool) f db n : 0 < tan (PI * f) -> (1 <= n)%nat -> 0 < db ->
  map rbq (simple_dig (btD hp (tan (PI * f))) (pts_of n (fq (chf second) n db)) (sg_of n (fq0 (chf second) n db))) =
  map (fun i => ibq (ch_ideal second hp f db n i) 1) (seq 0 (bw_sections n)).
Proof.
  intros Ht Hn Hdb. pose proof (width_pos second n db Hn Hdb) as V. pose proof (width_fv second n db Hdb) as WV.
  pose proof (sinh_lt _ V) as SV. unfold bw_sections. rewrite <- nup_eq; unfold nup; rewrite seq_app, map_app. unfold simple_dig, pts_of, sg_of. rewrite map_app, !map_map. f_equal.
  - apply map_ext_in. intros i Hi. apply in_seq in Hi. assert (IN : (i < n)%nat) by (apply half_lt; lia). pose proof (sin_theta_pos n i IN) as SA.
    unfold ch_ideal. replace (Nat.ltb i (n / 2)) with true by (symmetry; apply Nat.ltb_lt; lia).
    rewrite theta_ch in SA. set (v := ch_width second n db) in *. set (a := ch_angle n i) in *.
    pose proof (ch_mod_pos v a SV SA) as M0. assert (SS : 0 < sinh v * sin a) by (apply Rmult_lt_0_compat; assumption).
    destruct second; cbn [chf fq] in *; rewrite WV.
    + unfold c2_q. rewrite !theta_ch. fold a. cbn [fst snd].
      set (m := (sinh v * sin a) ^ 2 + (cosh v * cos a) ^ 2) in *.
      assert (E : (/ (ci * ccos v a))%C = (- (sinh v * sin a) / m, - (cosh v * cos a) / m)).
      { unfold ci, ccos, Cmult, Cinv. cbn [fst snd]. assert (N : 0 * (cosh v * cos a) - 1 * (sinh v * sin a) = - (sinh v * sin a)) by ring.
        assert (N2 : 0 * (sinh v * sin a) + 1 * (cosh v * cos a) = cosh v * cos a) by ring. rewrite N, N2.
        replace ((- (sinh v * sin a)) ^ 2 + (cosh v * cos a) ^ 2) with m by (unfold m; ring). reflexivity. }
      rewrite E. rewrite (an_pair_sec hp _ _ _ _ (Some (/ cos a)));
        [|exact Ht|apply Rlt_le; unfold Rdiv; rewrite <- Ropp_mult_distr_l; pose proof (Rmult_lt_0_compat _ _ SS (Rinv_0_lt_compat _ M0)); lra|reflexivity].
      replace ((- (sinh v * sin a) / m) ^ 2 + (- (cosh v * cos a) / m) ^ 2) with (/ m); [reflexivity|].
      replace ((- (sinh v * sin a) / m) ^ 2 + (- (cosh v * cos a) / m) ^ 2) with (((sinh v * sin a) ^ 2 + (cosh v * cos a) ^ 2) / m ^ 2) by (field; lra).
      fold m. field. lra.
    + unfold c1_q. rewrite !theta_ch. fold a. cbn [fst snd].
      assert (E : (Cconj (ci * ccos v a))%C = (- (sinh v * sin a), - (cosh v * cos a))).
      { unfold Cconj, ci, ccos, Cmult. cbn [fst snd]. f_equal; ring. }
      rewrite E. rewrite (an_pair_sec hp _ _ _ _ None); [|exact Ht|lra|exact I].
      replace ((- (sinh v * sin a)) ^ 2 + (- (cosh v * cos a)) ^ 2) with ((sinh v * sin a) ^ 2 + (cosh v * cos a) ^ 2) by ring. reflexivity.
  - destruct (Nat.odd n); [|reflexivity]. cbn [olist map seq Nat.add]. f_equal. unfold ch_ideal. rewrite Nat.ltb_irrefl.
    destruct second; cbn [chf fq0] in *; rewrite WV; set (v := ch_width _ n db) in *.
    + unfold c2_q0. cbn [fst snd]. replace (/ - sinh v) with (- / sinh v) by (field; lra). apply an_single_sec; [exact Ht|].
      pose proof (Rinv_0_lt_compat _ SV). lra.
    + unfold c1_q0. cbn [fst snd]. apply an_single_sec; [exact Ht|lra].
Qed.
Lemma an_pair_peak (hp : bool) t g m w : 0 < t -> g <= 0 -> 0 < m -> w <> Some 0 -> let d := an_pair hp t g m w in let z := if hp then -1 else 1 in
  0 < 1 + z * i_a1 d + i_a2 d /\ 0 < i_b0 d + z * i_b1 d + i_b2 d.
Proof.
  intros Ht Hg Hm Hw d z. unfold d, an_pair, z. clear d z. set (u := if hp then / t else t).
  assert (U : 0 < u) by (unfold u; destruct hp; [apply Rinv_0_lt_compat|]; exact Ht). assert (UM : 0 < u ^ 2 * m) by (apply Rmult_lt_0_compat; nra).
  assert (D : 0 < 1 - 2 * u * g + u ^ 2 * m) by nra. set (d := 1 - 2 * u * g + u ^ 2 * m) in *. cbn [i_a1 i_a2 i_b0 i_b1 i_b2]. split.
  - replace (1 + (if hp then -1 else 1) * (2 * (if hp then -1 else 1) * (u ^ 2 * m - 1) / d) + (1 + 2 * u * g + u ^ 2 * m) / d) with (4 * (u ^ 2 * m) / d) by (unfold d; destruct hp; field; fold d; lra).
    apply Rdiv_lt_0_compat; lra.
  - destruct w as [w|]; [|destruct hp; lra]. assert (w <> 0) by congruence. assert (W : 0 < u ^ 2 * w ^ 2) by (apply Rmult_lt_0_compat; nra).
    replace (1 + (if hp then -1 else 1) * (-2 * (if hp then -1 else 1) * ((1 - u ^ 2 * w ^ 2) / (1 + u ^ 2 * w ^ 2))) + 1) with (4 * (u ^ 2 * w ^ 2) / (1 + u ^ 2 * w ^ 2)) by (destruct hp; field; lra).
    apply Rdiv_lt_0_compat; lra.
Qed.
Lemma an_single_peak (hp : bool) t g : 0 < t -> g < 0 -> let d := an_single hp t g in let z := if hp then -1 else 1 in
  0 < 1 + z * i_a1 d + i_a2 d /\ 0 < i_b0 d + z * i_b1 d + i_b2 d.
Proof.
  intros Ht Hg d z. unfold d, an_single, z. clear d z. set (u := if hp then / t else t).
  assert (U : 0 < u) by (unfold u; destruct hp; [apply Rinv_0_lt_compat|]; exact Ht). assert (UG : 0 < u * - g) by (apply Rmult_lt_0_compat; lra).
  cbn [i_a1 i_a2 i_b0 i_b1 i_b2]. split; [|destruct hp; lra].
  replace (1 + (if hp then -1 else 1) * ((if hp then -1 else 1) * (-1 - u * g) / (1 - u * g)) + 0) with (2 * (u * - g) / (1 - u * g)) by (destruct hp; field; lra).
  apply Rdiv_lt_0_compat; lra.
Qed.
Lemma ch_peak (second hp : bool) f db n i : 0 < tan (PI * f) -> (1 <= n)%nat -> 0 < db -> (i < bw_sections n)%nat ->
  let d := ch_ideal second hp f db n i in let z := if hp then -1 else 1 in
  0 < 1 + z * i_a1 d + i_a2 d /\ 0 < i_b0 d + z * i_b1 d + i_b2 d.
Proof.
  intros Ht Hn Hdb Hi. pose proof (width_pos second n db Hn Hdb) as V. pose proof (sinh_lt _ V) as SV. unfold ch_ideal.
  set (v := ch_width second n db) in *. destruct (Nat.ltb_spec i (n / 2)) as [L|L].
  - assert (IN : (i < n)%nat) by (apply half_lt; lia). pose proof (sin_theta_pos n i IN) as SA. rewrite theta_ch in SA.
    set (a := ch_angle n i) in *. pose proof (ch_mod_pos v a SV SA) as M0. assert (SS : 0 < sinh v * sin a) by (apply Rmult_lt_0_compat; assumption).
    set (m := (sinh v * sin a) ^ 2 + (cosh v * cos a) ^ 2) in *. destruct second.
    + apply an_pair_peak; [exact Ht| |apply Rinv_0_lt_compat; exact M0|].
      * unfold Rdiv. rewrite <- Ropp_mult_distr_l. pose proof (Rmult_lt_0_compat _ _ SS (Rinv_0_lt_compat _ M0)). lra.
      * pose proof (half_odd n i L). pose proof (cos_theta_nz n i IN ltac:(lia)) as CN. rewrite theta_ch in CN. fold a in CN. intros Q. injection Q as Q. pose proof (Rinv_neq_0_compat _ CN). lra.
    + apply an_pair_peak; [exact Ht|lra|exact M0|discriminate].
  - pose proof (Rinv_0_lt_compat _ SV). destruct second; apply an_single_peak; try exact Ht; lra.
Qed.

Section Ex.
  Context {strict : bool}.
  Notation XS := (X strict).
  Lemma simple_exact fam (hp : bool) db (sec : nat -> ideal) (q : params XS) f n FO : q_fc q = XR f -> 0 < f < 1 / 2 -> (1 <= n)%nat -> in_int (2 * Z.of_nat n) = true -> (Z.of_nat n <= FO)%Z ->
    db_ok fam db -> pmdb (strict := strict) fam db q ->
    map rbq (simple_dig (btD hp (tan (PI * f))) (pts_of n (fq fam n db)) (sg_of n (fq0 fam n db))) = map (fun i => ibq (sec i) 1) (seq 0 (bw_sections n)) ->
    (forall i, (i < bw_sections n)%nat -> let z := if hp then -1 else 1 in 0 < 1 + z * i_a1 (sec i) + i_a2 (sec i) /\ 0 < i_b0 (sec i) + z * i_b1 (sec i) + i_b2 (sec i)) ->
    let k := (fam, if hp then HP else LP) in
    let sc := fg fam n db * fold_right Rmult 1 (map (fun i => peak_inv hp (sec i)) (seq 0 (bw_sections n))) in
    exists p rest, setupN (N := XS) k FO (Some (Z.of_nat n)) q (pf_init k FO) = Ok p tt /\
      pf_cas p = MkCascade (Z.of_nat (bw_sections n)) (maxStagesOf (snd k) FO)
        (map (fun i => xsection (sec i) (if Nat.eqb i 0 then sc else 1)) (seq 0 (bw_sections n)) ++ rest).
  Proof.
    intros EF Hf Hn HI HF Hdb Hpm HRB HPK k sc. destruct (tan_half f Hf) as (C0 & _ & T0).
    destruct (sizes n FO Hn HF) as (S1 & S2 & S3).
    pose proof (pts_len n (fq fam n db) (fq0 fam n db)) as PLn. pose proof (pts_num n (fq fam n db) (fq0 fam n db)) as PN.
    destruct (f_ana fam (if hp then HP else LP) n FO db q ltac:(destruct hp; reflexivity) Hn HF HI Hdb Hpm) as (np & ga & db' & ex & HA).
    fold k in HA.
    pose proof (f_good fam n db ltac:(lia) Hdb) as G.
    set (D := btD hp (tan (PI * f))). set (dig := simple_dig D (pts_of n (fq fam n db)) (sg_of n (fq0 fam n db))).
    assert (LD : length dig = bw_sections n) by (unfold dig; rewrite simple_dig_len, PLn; apply nup_eq).
    set (w := if hp then PI - 0 else 0).
    assert (HD : dig_transform (N := XS) (snd k) q (alay (strict := strict) (pts_of n (fq fam n db)) (sg_of n (fq0 fam n db)) FO ex (XR 0) (XR (fg fam n db))) (pf_dig (pf_init k FO)) =
      Ok (MkLayout (N := XS) (Z.of_nat n) (maxDigital (snd k) FO) (map xpz dig ++ skipn (length dig) (layout_storage (N := XS) FO)) (XR w) (XR (fg fam n db))) tt).
    { rewrite <- PN. unfold dig, D, w, btD. destruct hp; cbn [k snd maxDigital].
      - unfold dig_transform. cbn [snd k]. rewrite EF. apply HighPass_x; [exact Hf|exact G|]. rewrite PLn. unfold layout_storage. rewrite repeat_length. exact S2.
      - unfold dig_transform. cbn [snd k]. rewrite EF. apply LowPass_x; [exact Hf|exact G|]. rewrite PLn. unfold layout_storage. rewrite repeat_length. exact S2. }
    assert (OK : List.Forall pz_ok dig).
    { apply simple_dig_ok. destruct G as [_ R]. eapply List.Forall_impl; [|exact R]. intros x [H1 H2]. unfold D, btD. destruct hp; [split; apply hpD_real; assumption|split; apply lpD_real; assumption]. }
    set (rb := map (fun i => ibq (sec i) 1) (seq 0 (bw_sections n))).
    assert (RB : map rbq dig = rb) by exact HRB.
    set (bs := map (emb_bq (strict := strict)) rb).
    assert (LB : length bs = bw_sections n) by (unfold bs, rb; rewrite !map_length, seq_length; reflexivity).
    assert (F2 : Forall2 (fun p b => pair_bq (N := XS) p = Val b) (map xpz dig) bs).
    { unfold bs. rewrite <- RB. clear -OK. induction dig as [|d l IH]; cbn [map]; constructor; inversion OK; subst.
      - apply pair_bq_emb. assumption.
      - apply IH. assumption. }
    assert (NS : bw_sections n = nup n) by (unfold bw_sections; rewrite nup_eq; reflexivity).
    set (rest := repeat (LayoutProofs.idb (N := XS)) (Z.to_nat (maxStagesOf (snd k) FO) - length bs)).
    assert (WF : ndiv XS (XR w) (nmul XS (nofZ XS 2) (npi XS)) = XR (if hp then 1 / 2 else 0)).
    { cbn [ndiv nmul nofZ npi X xmul]. pose proof PI_RGT_0. rewrite xdiv_fin by lra. unfold w. f_equal. destruct hp; field; lra. }
    set (u := upt (if hp then 1 / 2 else 0)). set (z := if hp then -1 else 1).
    assert (U : u = RtoC z).
    { unfold u, upt, cis, z. destruct hp.
      - replace (- (2 * PI * (1 / 2))) with (- PI) by field. rewrite cos_neg, sin_neg, cos_PI, sin_PI. unfold RtoC. f_equal. lra.
      - replace (- (2 * PI * 0)) with 0 by ring. rewrite cos_0, sin_0. reflexivity. }
    set (tp := fun i => i_b0 (sec i) + z * i_b1 (sec i) + i_b2 (sec i)).
    set (bt := fun i => 1 + z * i_a1 (sec i) + i_a2 (sec i)).
    assert (ZZ : z * z = 1) by (unfold z; destruct hp; lra).
    assert (ET : map (fun b => rtop b u) rb = map RtoC (map tp (seq 0 (bw_sections n)))).
    { unfold rb. rewrite !map_map. apply map_ext. intros i. rewrite U. unfold rtop, poly2, ibq, tp. cbn [m_b0 m_b1 m_b2].
      unfold RtoC, Cplus, Cmult. cbn [fst snd]. f_equal; [|ring]. replace (i_b2 (sec i)) with (i_b2 (sec i) * (z * z)) at 2 by (rewrite ZZ; ring). ring. }
    assert (EB : map (fun b => rbot b u) rb = map RtoC (map bt (seq 0 (bw_sections n)))).
    { unfold rb. rewrite !map_map. apply map_ext. intros i. rewrite U. unfold rbot, poly2, ibq, bt. cbn [m_a1 m_a2].
      unfold RtoC, Cplus, Cmult. cbn [fst snd]. f_equal; [|ring]. replace (i_a2 (sec i)) with (i_a2 (sec i) * (z * z)) at 2 by (rewrite ZZ; ring). ring. }
    assert (FP : List.Forall (fun i => 0 < tp i /\ 0 < bt i) (seq 0 (bw_sections n))).
    { apply Forall_forall. intros i Hi. apply in_seq in Hi. destruct (HPK i ltac:(lia)) as [Q1 Q2]. split; assumption. }
    assert (P1 : 0 < fold_right Rmult 1 (map tp (seq 0 (bw_sections n)))) by (apply rprod_pos, Forall_map; eapply List.Forall_impl; [|exact FP]; intros i [Q _]; exact Q).
    assert (P2 : 0 < fold_right Rmult 1 (map bt (seq 0 (bw_sections n)))) by (apply rprod_pos, Forall_map; eapply List.Forall_impl; [|exact FP]; intros i [_ Q]; exact Q).
    assert (MI : rest = map (emb_bq (strict := strict)) (repeat (@MkBiquad RN 1 0 0 1 0 0) (Z.to_nat (maxStagesOf (snd k) FO) - length bs))).
    { unfold rest. rewrite (idb_identity (strict := strict) : LayoutProofs.idb (N := XS) = _). generalize (Z.to_nat (maxStagesOf (snd k) FO) - length bs)%nat as j. induction j as [|j IH]; cbn [repeat map]; [reflexivity|]. rewrite <- IH. reflexivity. }
    assert (FN : firstn (Z.to_nat (Z.of_nat (length bs))) (rb ++ repeat (@MkBiquad RN 1 0 0 1 0 0) (Z.to_nat (maxStagesOf (snd k) FO) - length bs)) = rb).
    { rewrite Nat2Z.id. unfold bs at 1. rewrite map_length, firstn_app, Nat.sub_diag, firstn_O, app_nil_r. apply firstn_all. }
    assert (R : cas_response (N := XS) (MkCascade (N := XS) (Z.of_nat (length bs)) (maxStagesOf (snd k) FO) (bs ++ rest)) (ndiv XS (XR w) (nmul XS (nofZ XS 2) (npi XS))) =
      Val (xc (RtoC (fold_right Rmult 1 (map tp (seq 0 (bw_sections n))) / fold_right Rmult 1 (map bt (seq 0 (bw_sections n))))))).
    { rewrite WF, MI. unfold bs at 2. rewrite <- map_app. rewrite cas_response_emb.
      - rewrite FN. fold u. rewrite ET, EB, !cprod_real, <- RtoC_div by lra. reflexivity.
      - apply Forall_app. split; [unfold rb; apply Forall_map, Forall_forall; intros i _; cbn; lra|].
        apply Forall_forall. intros b Ib. apply repeat_spec in Ib. subst b. cbn. lra.
      - rewrite Nat2Z.id, app_length. unfold bs. rewrite map_length. lia.
      - destruct hp; lra.
      - rewrite FN. fold u. rewrite EB, cprod_real. intros Q. apply RtoC_inj in Q. lra. }
    assert (MS : (Z.of_nat (length bs) <= maxStagesOf (snd k) FO)%Z).
    { rewrite LB, NS. replace (maxStagesOf (snd k) FO) with (Z.quot (FO + 1) 2) by (unfold k; clear; destruct hp; reflexivity). exact (proj2 S3). }
    destruct (setup_list (N := XS) k FO (Z.of_nat n) q _ _ _ _ _ _ bs _ HF (x_not_nan 0) (x_not_nan 1) HA HD ltac:(rewrite map_length, LD, NS; exact S1) F2 ltac:(rewrite LB, NS; clear -S3; lia) MS R) as (p & E1 & E2).
    exists p, rest. split; [exact E1|]. rewrite E2. fold rest. rewrite LB. f_equal.
    cbn [ndiv X ncabs]. rewrite xcabs_xc, Cmod_R, Rabs_pos_eq by (apply Rlt_le, Rdiv_lt_0_compat; assumption).
    assert (QP : 0 < fold_right Rmult 1 (map tp (seq 0 (bw_sections n))) / fold_right Rmult 1 (map bt (seq 0 (bw_sections n)))) by (apply Rdiv_lt_0_compat; assumption).
    rewrite xdiv_fin by lra.
    replace (fg fam n db / (fold_right Rmult 1 (map tp (seq 0 (bw_sections n))) / fold_right Rmult 1 (map bt (seq 0 (bw_sections n))))) with sc by (unfold sc; pose proof (BwExact.rprod_div tp bt _ FP) as RD; change (fun i => peak_inv hp (sec i)) with (fun i => bt i / tp i); rewrite <- RD; field; lra).
    unfold bs, rb. assert (SP : bw_sections n = S (bw_sections n - 1)) by lia. rewrite SP. cbn [seq map app scale_head Nat.eqb].
    f_equal.
    - unfold bq_applyScale, emb_bq, ibq, xsection. cbn. f_equal; f_equal; ring.
    - f_equal. rewrite <- seq_shift, !map_map. apply map_ext. intros i. reflexivity.
  Qed.
  Lemma ch_exact (second hp : bool) (q : params XS) f db n FO : q_fc q = XR f -> q_db q = XR db -> 0 < f < 1 / 2 -> 0 < db -> (1 <= n)%nat -> in_int (2 * Z.of_nat n) = true -> (Z.of_nat n <= FO)%Z ->
    let k := (if second then Ch2 else Ch1, if hp then HP else LP) in
    exists p, setupN (N := XS) k FO (Some (Z.of_nat n)) q (pf_init k FO) = Ok p tt /\
      c_numStages (pf_cas p) = Z.of_nat (bw_sections n) /\
      forall i, (i < bw_sections n)%nat ->
      cas_index (N := XS) (pf_cas p) (Z.of_nat i) = Val (xsection (ch_ideal second hp f db n i) (if Nat.eqb i 0 then ch_scale second hp f db n else 1)).
  Proof.
    intros EF ED Hf Hdb Hn HI HF k. destruct (tan_half f Hf) as (_ & _ & T0).
    destruct (simple_exact (chf second) hp db (ch_ideal second hp f db n) q f n FO EF Hf Hn HI HF (ch_db second db Hdb) ltac:(destruct second; exact ED) (ch_digs second hp f db n T0 Hn Hdb)
      (fun i Hi => ch_peak second hp f db n i T0 Hn Hdb Hi)) as (p & rest & E & C). exists p. split; [exact E|]. rewrite C. split; [reflexivity|].
    replace (fg (chf second) n db) with (ch_level second db n) by (destruct second; reflexivity). fold (ch_scale second hp f db n).
    intros i Hi. unfold cas_index. cbn [c_numStages c_stages].
    replace (Z.of_nat i <? 0)%Z with false by (symmetry; apply Z.ltb_ge; lia). replace (Z.of_nat (bw_sections n) <=? Z.of_nat i)%Z with false by (symmetry; apply Z.leb_gt; lia).
    cbn [orb othrow_if obind]. unfold aget. replace (Z.of_nat i <? 0)%Z with false by (symmetry; apply Z.ltb_ge; lia). rewrite Nat2Z.id, nth_error_app1 by (rewrite map_length, seq_length; exact Hi).
    rewrite nth_error_map. rewrite (nth_error_nth' _ 0%nat) by (rewrite seq_length; exact Hi). rewrite seq_nth by exact Hi. reflexivity.
  Qed.
End Ex.

(** ** order 2 at a quarter of the sampling rate *)
Lemma half_arcsinh3 : let v := arcsinh (sqrt 3) / 2 in sinh v ^ 2 = 1 / 2 /\ cosh v ^ 2 = 3 / 2 /\ 0 < sinh v.
Proof.
  intros v. assert (E : sinh (2 * v) = sqrt 3) by (unfold v; replace (2 * (arcsinh (sqrt 3) / 2)) with (arcsinh (sqrt 3)) by field; apply sinh_arcsinh).
  assert (S3 : sqrt 3 * sqrt 3 = 3) by (apply sqrt_sqrt; lra). pose proof (sqrt_lt_R0 3 ltac:(lra)).
  assert (V : 0 < v) by (unfold v; pose proof (arcsinh_pos (sqrt 3) ltac:(lra)); lra). pose proof (sinh_lt v V) as SV.
  assert (CS : cosh v ^ 2 = 1 + sinh v ^ 2).
  { unfold cosh, sinh. assert (P : exp v * exp (- v) = 1) by (rewrite <- exp_plus, Rplus_opp_r; apply exp_0). nra. }
  assert (S2 : sinh (2 * v) = 2 * (sinh v * cosh v)).
  { unfold cosh, sinh. replace (2 * v) with (v + v) by ring. replace (- (v + v)) with (- v + - v) by ring. rewrite !exp_plus. field. }
  assert (Q : 4 * (sinh v ^ 2 * (1 + sinh v ^ 2)) = 3).
  { rewrite <- CS. rewrite E in S2. replace (4 * (sinh v ^ 2 * cosh v ^ 2)) with ((2 * (sinh v * cosh v)) * (2 * (sinh v * cosh v))) by ring. rewrite <- S2. exact S3. }
  assert (sinh v ^ 2 = 1 / 2) by (pose proof (pow2_ge_0 (sinh v)); nra). repeat split; lra.
Qed.
Definition ex_db (second : bool) : R := 10 * (ln (if second then 4 else 4 / 3) / ln 10).
Lemma ln10_pos : 0 < ln 10. Proof. rewrite <- ln_1. apply ln_increasing; lra. Qed.
Lemma ex_db_val (second : bool) : 0 < ex_db second /\ Rpower 10 (ex_db second / 10) = (if second then 4 else 4 / 3).
Proof.
  pose proof ln10_pos. unfold ex_db. set (x := if second then 4 else 4 / 3). assert (X : 1 < x) by (unfold x; destruct second; lra).
  assert (0 < ln x) by (rewrite <- ln_1; apply ln_increasing; lra). split; [apply Rmult_lt_0_compat; [lra|apply Rdiv_lt_0_compat; lra]|].
  unfold Rpower. replace (10 * (ln x / ln 10) / 10 * ln 10) with (ln x) by (field; lra). apply exp_ln. lra.
Qed.
Lemma ex_ch2 : (forall b : bool, 0 < ex_db b) /\ 0 < 1 / 4 < 1 / 2 /\ in_int (2 * Z.of_nat 2) = true /\ bw_sections 2 = 1%nat /\
  (let d := ch_ideal false false (1 / 4) (ex_db false) 2 0 in i_a1 d = 0 /\ i_a2 d = 1 / 3 /\ i_b1 d = 2) /\ ch_scale false false (1 / 4) (ex_db false) 2 = sqrt 3 / 6 /\
  (let d := ch_ideal true false (1 / 4) (ex_db true) 2 0 in i_a1 d = 0 /\ i_a2 d = 1 / 3 /\ i_b1 d = 2 / 3) /\ ch_scale true false (1 / 4) (ex_db true) 2 = 1 / 2.
Proof.
  split; [intros b; apply ex_db_val|]. split; [lra|]. split; [reflexivity|]. split; [reflexivity|].
  assert (T : tan (PI * (1 / 4)) = 1) by (replace (PI * (1 / 4)) with (PI / 4) by field; apply tan_PI4).
  assert (A : ch_angle 2 0 = PI / 4) by (unfold ch_angle; cbn; field).
  assert (I3 : 1 / sqrt (1 / 3) = sqrt 3).
  { unfold Rdiv. rewrite !Rmult_1_l, sqrt_inv by lra. rewrite Rinv_inv. reflexivity. }
  assert (W : forall b, ch_width b 2 (ex_db b) = arcsinh (sqrt 3) / 2).
  { intros b. unfold ch_width. rewrite (proj2 (ex_db_val b)). destruct b.
    - replace (4 - 1) with 3 by ring. cbn; f_equal; ring.
    - replace (4 / 3 - 1) with (1 / 3) by field. rewrite I3. cbn; f_equal; ring. }
  destruct half_arcsinh3 as (S2 & C2 & SP). set (v := arcsinh (sqrt 3) / 2) in *.
  pose proof (sqrt_lt_R0 2 ltac:(lra)) as Q0. assert (Q2 : sqrt 2 * sqrt 2 = 2) by (apply sqrt_sqrt; lra).
  set (x := sin (PI / 4)). assert (X2 : x ^ 2 = 1 / 2) by (unfold x; rewrite sin_PI4; replace ((1 / sqrt 2) ^ 2) with (1 / (sqrt 2 * sqrt 2)) by (field; lra); rewrite Q2; reflexivity).
  assert (XP : 0 < x) by (unfold x; rewrite sin_PI4; apply Rdiv_lt_0_compat; lra).
  assert (XC : cos (PI / 4) = x) by (unfold x; rewrite sin_PI4, cos_PI4; reflexivity).
  assert (SX : sinh v * x = 1 / 2) by (assert ((sinh v * x) ^ 2 = 1 / 4) by (rewrite Rpow_mult_distr, S2, X2; field); assert (0 < sinh v * x) by (apply Rmult_lt_0_compat; assumption); nra).
  assert (CX : (cosh v * x) ^ 2 = 3 / 4) by (rewrite Rpow_mult_distr, C2, X2; field).
  assert (IX : (/ x) ^ 2 = 2) by (replace ((/ x) ^ 2) with (/ (x ^ 2)) by (field; lra); rewrite X2; field).
  assert (V1 : ch_ideal false false (1 / 4) (ex_db false) 2 0 = Ideal 0 (1 / 3) 1 2 1).
  { unfold ch_ideal. change (Nat.ltb 0 (2 / 2)) with true. cbn match. rewrite T, A, W, XC. fold x v. rewrite SX, CX. unfold an_pair. f_equal; field. }
  assert (V2 : ch_ideal true false (1 / 4) (ex_db true) 2 0 = Ideal 0 (1 / 3) 1 (2 / 3) 1).
  { unfold ch_ideal. change (Nat.ltb 0 (2 / 2)) with true. cbn match. rewrite T, A, W, XC. fold x v. rewrite SX, CX. unfold an_pair. rewrite IX. f_equal; field. }
  unfold ch_scale. change (bw_sections 2) with 1%nat. cbn [seq map fold_right]. rewrite V1, V2. unfold peak_inv. cbn [i_a1 i_a2 i_b0 i_b1 i_b2].
  unfold ch_level. change (Nat.odd 2) with false. cbn match.
  repeat split; try field.
  assert (L : Rpower 10 (- ex_db false / 20) = sqrt 3 / 2).
  { assert (E : Rpower 10 (- ex_db false / 20) * Rpower 10 (- ex_db false / 20) = 3 / 4).
    { rewrite <- Rpower_plus. replace (- ex_db false / 20 + - ex_db false / 20) with (- (ex_db false / 10)) by field. rewrite Rpower_Ropp, (proj2 (ex_db_val false)). field. }
    pose proof (exp_pos (- ex_db false / 20 * ln 10)) as EP. fold (Rpower 10 (- ex_db false / 20)) in EP. pose proof (sqrt_lt_R0 3 ltac:(lra)). assert (sqrt 3 * sqrt 3 = 3) by (apply sqrt_sqrt; lra). nra. }
  rewrite L. field.
Qed.
