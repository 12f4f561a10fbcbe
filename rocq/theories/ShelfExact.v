(** Proofs: the coefficients of Butterworth shelves in exact arithmetic ([X false]: std::polar with a negative radius is evaluated). *)
From Coq Require Import ZArith List Bool Reals Lra Lia.
From Coquelicot Require Import Coquelicot.
From Verif Require Import Num Outcome Types Biquad State Cascade Transforms Butterworth Chebyshev PoleFilter Exact RealNum SigSpec ChebSpec DesignSpec SigProofs StabProofs RespProofs PZSpec PZProofs RBJProofs CoefLemmas BuildProofs PolyProofs MapProofs TransProofs ProtoProofs ProtoBuild DesignProofs DesignLemmas LayoutProofs DblSpec BuildAny BwDblSpec CplxDbl BwDbl2 BwExact ChCoefSpec ChExact ShelfLemmas ShelfDblSpec.
Import ListNotations.
Local Open Scope R_scope.

Definition zp_ideal (p z : R * R) : ideal := Ideal (fst p) (snd p) 1 (fst z) (snd z).
Lemma bl_mod (s u x y m d : R) : s * s = 1 -> m = x ^ 2 + y ^ 2 -> d = 1 - 2 * u * x + u ^ 2 * m -> 0 < d ->
  s * (1 - u ^ 2 * m) / d * (s * (1 - u ^ 2 * m) / d) - s * (2 * u * y) / d * - (s * (2 * u * y) / d) = (1 + 2 * u * x + u ^ 2 * m) / d.
Proof.
  intros S2 Em Ed D.
  replace (s * (1 - u ^ 2 * m) / d * (s * (1 - u ^ 2 * m) / d) - s * (2 * u * y) / d * - (s * (2 * u * y) / d)) with (s * s * ((1 - u ^ 2 * m) ^ 2 + (2 * u * y) ^ 2) / d ^ 2) by (field; lra).
  replace ((1 - u ^ 2 * m) ^ 2 + (2 * u * y) ^ 2) with ((1 + 2 * u * x + u ^ 2 * m) * d) by (rewrite Ed, Em; ring). rewrite S2. field. lra.
Qed.
Lemma bl_pair_sec (hs : bool) t x y x' y' : 0 < t -> x <= 0 -> x' <= 0 ->
  rbq (conj_pz (btD hs t (Some (x, y))) (btD hs t (Some (x', y')))) = ibq (zp_ideal (bl_pair hs t x (x ^ 2 + y ^ 2)) (bl_pair hs t x' (x' ^ 2 + y' ^ 2))) 1.
Proof.
  intros Ht Hx Hx'. destruct (bt_val hs t x y Ht Hx) as [D E]. destruct (bt_val hs t x' y' Ht Hx') as [D' E']. rewrite E, E'. clear E E'. unfold zp_ideal, bl_pair.
  set (u := if hs then / t else t) in *.
  assert (S2 : (if hs then -1 else 1) * (if hs then -1 else 1) = 1) by (destruct hs; lra). set (s := if hs then -1 else 1) in *.
  set (m := x ^ 2 + y ^ 2) in *. set (m' := x' ^ 2 + y' ^ 2) in *. set (d := 1 - 2 * u * x + u ^ 2 * m) in *. set (d' := 1 - 2 * u * x' + u ^ 2 * m') in *.
  unfold rbq, ibq, conj_pz, Cconj. cbn [zp1 zp2 zz1 zz2 i_a1 i_a2 i_b0 i_b1 i_b2 fst snd]. unfold Cplus, Cmult, Copp, Cconj. cbn [fst snd].
  rewrite (bl_mod s u x y m d S2 eq_refl eq_refl D), (bl_mod s u x' y' m' d' S2 eq_refl eq_refl D').
  f_equal; unfold Rdiv; ring.
Qed.
Lemma bl_one_sec (hs : bool) t x x' : 0 < t -> x <= 0 -> x' <= 0 ->
  rbq (PZc (btD hs t (Some (RtoC x))) 0 (btD hs t (Some (RtoC x'))) 0) = ibq (Ideal (bl_one hs t x) 0 1 (bl_one hs t x') 0) 1.
Proof.
  intros Ht Hx Hx'. assert (R : forall x, x <= 0 -> btD hs t (Some (RtoC x)) = RtoC (- bl_one hs t x)).
  { clear x x' Hx Hx'. intros x Hx. destruct (bt_val hs t x 0 Ht Hx) as [D E]. match type of E with _ = ?r => replace (btD hs t (Some (RtoC x))) with r by (symmetry; exact E) end. clear E. unfold bl_one. set (u := if hs then / t else t) in *.
    assert (U : 0 < u) by (unfold u; destruct hs; [apply Rinv_0_lt_compat|]; exact Ht). assert (0 < 1 - u * x) by nra.
    unfold RtoC. f_equal; [|field; lra].
    replace (1 - u ^ 2 * (x ^ 2 + 0 ^ 2)) with ((1 - u * x) * (1 + u * x)) by ring.
    replace (1 - 2 * u * x + u ^ 2 * (x ^ 2 + 0 ^ 2)) with ((1 - u * x) ^ 2) by ring. field. lra. }
  rewrite (R x Hx), (R x' Hx'). unfold rbq, ibq. cbn [zp1 zp2 zz1 zz2 i_a1 i_a2 i_b0 i_b1 i_b2]. unfold RtoC, Copp, Cmult, Cplus. cbn [fst snd]. f_equal; ring.
Qed.
Lemma sh_g_eq n G : (1 <= n)%nat -> ls_g n G = sh_g n G.
Proof. intros Hn. pose proof (lt_0_INR n ltac:(lia)). unfold ls_g, sh_g. rewrite Rpower_mult. f_equal. field. lra. Qed.
Lemma sh_g_pos n G : 0 < sh_g n G. Proof. apply exp_pos. Qed.
Lemma sh_digs (hs : bool) f G n : 0 < tan (PI * f) -> (1 <= n)%nat ->
  map rbq (simple_dig (btD hs (tan (PI * f))) (pts_of n (sq n G)) (sg_of n (sq0 n G))) =
  map (fun i => ibq (sh_ideal hs f G n i) 1) (seq 0 (bw_sections n)).
Proof.
  intros Ht Hn. pose proof (sh_g_pos n G) as G0. pose proof (Rinv_0_lt_compat _ G0) as GI.
  unfold bw_sections. rewrite <- nup_eq; unfold nup; rewrite seq_app, map_app. unfold simple_dig, pts_of, sg_of. rewrite map_app, !map_map. f_equal.
  - apply map_ext_in. intros i Hi. apply in_seq in Hi. assert (IN : (i < n)%nat) by (apply half_lt; lia). pose proof (sin_theta_pos n i IN) as SA.
    unfold sh_ideal. replace (Nat.ltb i (n / 2)) with true by (symmetry; apply Nat.ltb_lt; lia). unfold sq, ls_q. rewrite theta_ch in *. rewrite (sh_g_eq n G Hn).
    set (a := ch_angle n i) in *. set (g := sh_g n G) in *. cbn [fst snd].
    assert (E : forall r, (Cconj (ci * (RtoC r * cis a)))%C = (- (r * sin a), - (r * cos a))) by (intros r; unfold Cconj, ci, cis, RtoC, Cmult; cbn [fst snd]; f_equal; ring).
    rewrite !E. rewrite bl_pair_sec; [|exact Ht|nra|nra].
    assert (M : forall r, (- (r * sin a)) ^ 2 + (- (r * cos a)) ^ 2 = r ^ 2).
    { intros r. pose proof (sin2_cos2 a) as Q. unfold Rsqr in Q. transitivity (r ^ 2 * (sin a * sin a + cos a * cos a)); [ring|rewrite Q; ring]. }
    rewrite !M. unfold zp_ideal. rewrite pow_inv. replace (/ g * sin a) with (sin a / g) by (field; lra). replace (g * sin a) with (sin a * g) by ring. reflexivity.
  - destruct (Nat.odd n); [|reflexivity]. cbn [olist map seq Nat.add]. f_equal. unfold sh_ideal. rewrite Nat.ltb_irrefl.
    unfold sq0, ls_q0. cbn [fst snd]. rewrite (sh_g_eq n G Hn). apply bl_one_sec; [exact Ht|lra|lra].
Qed.
(** value of a factor at the point where the response is normalised *)
Lemma bl_pair_peak (hs : bool) t x m : 0 < t -> x <= 0 -> 0 <= m -> let z := if hs then 1 else -1 in let u := if hs then / t else t in
  1 + z * fst (bl_pair hs t x m) + snd (bl_pair hs t x m) = 4 / (1 - 2 * u * x + u ^ 2 * m) /\ 0 < 1 - 2 * u * x + u ^ 2 * m.
Proof.
  intros Ht Hx Hm z u. unfold bl_pair. cbn [fst snd]. fold u. assert (U : 0 < u) by (unfold u; destruct hs; [apply Rinv_0_lt_compat|]; exact Ht).
  assert (UM : 0 <= u ^ 2 * m) by (apply Rmult_le_pos; [nra|exact Hm]). assert (D : 0 < 1 - 2 * u * x + u ^ 2 * m) by nra. split; [|exact D]. unfold z. destruct hs; field; lra.
Qed.
Lemma bl_one_peak (hs : bool) t x : 0 < t -> x <= 0 -> let z := if hs then 1 else -1 in let u := if hs then / t else t in
  1 + z * bl_one hs t x = 2 / (1 - u * x) /\ 0 < 1 - u * x.
Proof.
  intros Ht Hx z u. unfold bl_one. fold u. assert (U : 0 < u) by (unfold u; destruct hs; [apply Rinv_0_lt_compat|]; exact Ht).
  assert (D : 0 < 1 - u * x) by nra. split; [|exact D]. unfold z. destruct hs; field; lra.
Qed.
Lemma sh_peak (hs : bool) f G n i : 0 < tan (PI * f) -> (1 <= n)%nat -> (i < bw_sections n)%nat ->
  let d := sh_ideal hs f G n i in let z := if hs then 1 else -1 in
  0 < 1 + z * i_a1 d + i_a2 d /\ 0 < i_b0 d + z * i_b1 d + i_b2 d.
Proof.
  intros Ht Hn Hi. pose proof (sh_g_pos n G) as G0. pose proof (Rinv_0_lt_compat _ G0) as GI. unfold sh_ideal. set (g := sh_g n G) in *.
  destruct (Nat.ltb_spec i (n / 2)) as [L|L]; cbn [i_a1 i_a2 i_b0 i_b1 i_b2].
  - assert (IN : (i < n)%nat) by (apply half_lt; lia). pose proof (sin_theta_pos n i IN) as SA. rewrite theta_ch in SA. set (s := sin (ch_angle n i)) in *.
    assert (P1 : 0 < s / g) by (apply Rdiv_lt_0_compat; assumption). assert (P2 : 0 < s * g) by (apply Rmult_lt_0_compat; assumption).
    destruct (bl_pair_peak hs (tan (PI * f)) (- (s / g)) (/ g ^ 2) Ht ltac:(lra) ltac:(apply Rlt_le, Rinv_0_lt_compat; nra)) as [-> D1].
    destruct (bl_pair_peak hs (tan (PI * f)) (- (s * g)) (g ^ 2) Ht ltac:(lra) ltac:(nra)) as [-> D2].
    split; apply Rdiv_lt_0_compat; lra.
  - destruct (bl_one_peak hs (tan (PI * f)) (- / g) Ht ltac:(lra)) as [-> D1]. destruct (bl_one_peak hs (tan (PI * f)) (- g) Ht ltac:(lra)) as [-> D2].
    rewrite !Rplus_0_r. split; apply Rdiv_lt_0_compat; lra.
Qed.

Section Ex.
  Notation strict := false.
  Notation XS := (X false).
  Lemma shelf_exact_g (hp : bool) G (sec : nat -> ideal) (q : params XS) f n FO : q_fc q = XR f -> 0 < f < 1 / 2 -> (1 <= n)%nat -> in_int (2 * Z.of_nat n) = true -> (Z.of_nat n <= FO)%Z ->
    q_gain q = XR G ->
    map rbq (simple_dig (btD hp (tan (PI * f))) (pts_of n (sq n G)) (sg_of n (sq0 n G))) = map (fun i => ibq (sec i) 1) (seq 0 (bw_sections n)) ->
    (forall i, (i < bw_sections n)%nat -> let z := if hp then 1 else -1 in 0 < 1 + z * i_a1 (sec i) + i_a2 (sec i) /\ 0 < i_b0 (sec i) + z * i_b1 (sec i) + i_b2 (sec i)) ->
    let k := (Bw, if hp then HSh else LSh) in
    let sc := fold_right Rmult 1 (map (fun i => peak_inv (negb hp) (sec i)) (seq 0 (bw_sections n))) in
    exists p rest, setupN (N := XS) k FO (Some (Z.of_nat n)) q (pf_init k FO) = Ok p tt /\
      pf_cas p = MkCascade (Z.of_nat (bw_sections n)) (maxStagesOf (snd k) FO)
        (map (fun i => xsection (sec i) (if Nat.eqb i 0 then sc else 1)) (seq 0 (bw_sections n)) ++ rest).
  Proof.
    intros EF Hf Hn HI HF Hpm HRB HPK k sc. destruct (tan_half f Hf) as (C0 & _ & T0).
    destruct (sizes n FO Hn HF) as (S1 & S2 & S3).
    pose proof (pts_len n (sq n G) (sq0 n G)) as PLn. pose proof (pts_num n (sq n G) (sq0 n G)) as PN.
    destruct (sh_ana (if hp then HSh else LSh) n FO G q ltac:(destruct hp; reflexivity) Hn HF HI Hpm) as (np & ga & db' & ex & HA).
    fold k in HA.
    pose proof (sh_good n G) as GD.
    set (D := btD hp (tan (PI * f))). set (dig := simple_dig D (pts_of n (sq n G)) (sg_of n (sq0 n G))).
    assert (LD : length dig = bw_sections n) by (unfold dig; rewrite simple_dig_len, PLn; apply nup_eq).
    set (w := if hp then PI - PI else PI).
    assert (HD : dig_transform (N := XS) (snd k) q (alay (strict := strict) (pts_of n (sq n G)) (sg_of n (sq0 n G)) FO ex (XR PI) (XR 1)) (pf_dig (pf_init k FO)) =
      Ok (MkLayout (N := XS) (Z.of_nat n) (maxDigital (snd k) FO) (map xpz dig ++ skipn (length dig) (layout_storage (N := XS) FO)) (XR w) (XR 1)) tt).
    { rewrite <- PN. unfold dig, D, w, btD. destruct hp; cbn [k snd maxDigital].
      - unfold dig_transform. cbn [snd k]. rewrite EF. apply HighPass_x; [exact Hf|exact GD|]. rewrite PLn. unfold layout_storage. rewrite repeat_length. exact S2.
      - unfold dig_transform. cbn [snd k]. rewrite EF. apply LowPass_x; [exact Hf|exact GD|]. rewrite PLn. unfold layout_storage. rewrite repeat_length. exact S2. }
    assert (OK : List.Forall pz_ok dig).
    { apply simple_dig_ok. destruct GD as [_ R]. eapply List.Forall_impl; [|exact R]. intros x [H1 H2]. unfold D, btD. destruct hp; [split; apply hpD_real; assumption|split; apply lpD_real; assumption]. }
    set (rb := map (fun i => ibq (sec i) 1) (seq 0 (bw_sections n))).
    assert (RB : map rbq dig = rb) by exact HRB.
    set (bs := map (emb_bq (strict := strict)) rb).
    assert (LB : length bs = bw_sections n) by (unfold bs, rb; rewrite !map_length, seq_length; reflexivity).
    assert (F2 : Forall2 (fun p b => pair_bq (N := XS) p = Val b) (map xpz dig) bs).
    { unfold bs. rewrite <- RB. clear -OK. induction dig as [|d l IH]; cbn [map]; constructor; inversion OK; subst.
      - apply pair_bq_emb. assumption.
      - apply IH. assumption. }
    assert (NS : bw_sections n = nup n) by (unfold bw_sections; rewrite nup_eq; reflexivity).
    set (rest := repeat (LayoutProofs.idb (N := XS)) (Z.to_nat (maxStagesOf (snd k) FO) - length bs)).
    assert (WF : ndiv XS (XR w) (nmul XS (nofZ XS 2) (npi XS)) = XR (if hp then 0 else 1 / 2)).
    { cbn [ndiv nmul nofZ npi X xmul]. pose proof PI_RGT_0. rewrite xdiv_fin by lra. unfold w. f_equal. destruct hp; field; lra. }
    set (u := upt (if hp then 0 else 1 / 2)). set (z := if hp then 1 else -1).
    assert (U : u = RtoC z).
    { unfold u, upt, cis, z. destruct hp.
      - replace (- (2 * PI * 0)) with 0 by ring. rewrite cos_0, sin_0. reflexivity.
      - replace (- (2 * PI * (1 / 2))) with (- PI) by field. rewrite cos_neg, sin_neg, cos_PI, sin_PI. unfold RtoC. f_equal. lra. }
    set (tp := fun i => i_b0 (sec i) + z * i_b1 (sec i) + i_b2 (sec i)).
    set (bt := fun i => 1 + z * i_a1 (sec i) + i_a2 (sec i)).
    assert (ZZ : z * z = 1) by (unfold z; destruct hp; lra).
    assert (ET : map (fun b => rtop b u) rb = map RtoC (map tp (seq 0 (bw_sections n)))).
    { unfold rb. rewrite !map_map. apply map_ext. intros i. rewrite U. unfold rtop, poly2, ibq, tp. cbn [m_b0 m_b1 m_b2].
      unfold RtoC, Cplus, Cmult. cbn [fst snd]. f_equal; [|ring]. replace (i_b2 (sec i)) with (i_b2 (sec i) * (z * z)) at 2 by (rewrite ZZ; ring). ring. }
    assert (EB : map (fun b => rbot b u) rb = map RtoC (map bt (seq 0 (bw_sections n)))).
    { unfold rb. rewrite !map_map. apply map_ext. intros i. rewrite U. unfold rbot, poly2, ibq, bt. cbn [m_a1 m_a2].
      unfold RtoC, Cplus, Cmult. cbn [fst snd]. f_equal; [|ring]. replace (i_a2 (sec i)) with (i_a2 (sec i) * (z * z)) at 2 by (rewrite ZZ; ring). ring. }
    assert (FP : List.Forall (fun i => 0 < tp i /\ 0 < bt i) (seq 0 (bw_sections n))).
    { apply Forall_forall. intros i Hi. apply in_seq in Hi. destruct (HPK i ltac:(lia)) as [Q1 Q2]. split; assumption. }
    assert (P1 : 0 < fold_right Rmult 1 (map tp (seq 0 (bw_sections n)))) by (apply rprod_pos, Forall_map; eapply List.Forall_impl; [|exact FP]; intros i [Q _]; exact Q).
    assert (P2 : 0 < fold_right Rmult 1 (map bt (seq 0 (bw_sections n)))) by (apply rprod_pos, Forall_map; eapply List.Forall_impl; [|exact FP]; intros i [_ Q]; exact Q).
    assert (MI : rest = map (emb_bq (strict := strict)) (repeat (@MkBiquad RN 1 0 0 1 0 0) (Z.to_nat (maxStagesOf (snd k) FO) - length bs))).
    { unfold rest. rewrite (idb_identity (strict := strict) : LayoutProofs.idb (N := XS) = _). generalize (Z.to_nat (maxStagesOf (snd k) FO) - length bs)%nat as j. induction j as [|j IH]; cbn [repeat map]; [reflexivity|]. rewrite <- IH. reflexivity. }
    assert (FN : firstn (Z.to_nat (Z.of_nat (length bs))) (rb ++ repeat (@MkBiquad RN 1 0 0 1 0 0) (Z.to_nat (maxStagesOf (snd k) FO) - length bs)) = rb).
    { rewrite Nat2Z.id. unfold bs at 1. rewrite map_length, firstn_app, Nat.sub_diag, firstn_O, app_nil_r. apply firstn_all. }
    assert (R : cas_response (N := XS) (MkCascade (N := XS) (Z.of_nat (length bs)) (maxStagesOf (snd k) FO) (bs ++ rest)) (ndiv XS (XR w) (nmul XS (nofZ XS 2) (npi XS))) =
      Val (xc (RtoC (fold_right Rmult 1 (map tp (seq 0 (bw_sections n))) / fold_right Rmult 1 (map bt (seq 0 (bw_sections n))))))).
    { rewrite WF, MI. unfold bs at 2. rewrite <- map_app. rewrite cas_response_emb.
      - rewrite FN. fold u. rewrite ET, EB, !cprod_real, <- RtoC_div by lra. reflexivity.
      - apply Forall_app. split; [unfold rb; apply Forall_map, Forall_forall; intros i _; cbn; lra|].
        apply Forall_forall. intros b Ib. apply repeat_spec in Ib. subst b. cbn. lra.
      - rewrite Nat2Z.id, app_length. unfold bs. rewrite map_length. lia.
      - destruct hp; lra.
      - rewrite FN. fold u. rewrite EB, cprod_real. intros Q. apply RtoC_inj in Q. lra. }
    assert (MS : (Z.of_nat (length bs) <= maxStagesOf (snd k) FO)%Z).
    { rewrite LB, NS. replace (maxStagesOf (snd k) FO) with (Z.quot (FO + 1) 2) by (unfold k; clear; destruct hp; reflexivity). exact (proj2 S3). }
    destruct (setup_list (N := XS) k FO (Z.of_nat n) q _ _ _ _ _ _ bs _ HF (x_not_nan 0) (x_not_nan 1) HA HD ltac:(rewrite map_length, LD, NS; exact S1) F2 ltac:(rewrite LB, NS; clear -S3; lia) MS R) as (p & E1 & E2).
    exists p, rest. split; [exact E1|]. rewrite E2. fold rest. rewrite LB. f_equal.
    cbn [ndiv X ncabs]. rewrite xcabs_xc, Cmod_R, Rabs_pos_eq by (apply Rlt_le, Rdiv_lt_0_compat; assumption).
    assert (QP : 0 < fold_right Rmult 1 (map tp (seq 0 (bw_sections n))) / fold_right Rmult 1 (map bt (seq 0 (bw_sections n)))) by (apply Rdiv_lt_0_compat; assumption).
    rewrite xdiv_fin by lra.
    replace (1 / (fold_right Rmult 1 (map tp (seq 0 (bw_sections n))) / fold_right Rmult 1 (map bt (seq 0 (bw_sections n))))) with sc by (unfold sc; pose proof (BwExact.rprod_div tp bt _ FP) as RD; replace (map (fun i => peak_inv (negb hp) (sec i)) (seq 0 (bw_sections n))) with (map (fun i => bt i / tp i) (seq 0 (bw_sections n))) by (apply map_ext; intros i; unfold peak_inv, bt, tp, z; clear; destruct hp; reflexivity); rewrite <- RD; field; lra).
    unfold bs, rb. assert (SP : bw_sections n = S (bw_sections n - 1)) by lia. rewrite SP. cbn [seq map app scale_head Nat.eqb].
    f_equal.
    - unfold bq_applyScale, emb_bq, ibq, xsection. cbn. f_equal; f_equal; ring.
    - f_equal. rewrite <- seq_shift, !map_map. apply map_ext. intros i. reflexivity.
  Qed.
  Lemma shelf_exact (hs : bool) (q : params XS) f G n FO : q_fc q = XR f -> q_gain q = XR G -> 0 < f < 1 / 2 -> (1 <= n)%nat -> in_int (2 * Z.of_nat n) = true -> (Z.of_nat n <= FO)%Z ->
    let k := (Bw, if hs then HSh else LSh) in
    exists p, setupN (N := XS) k FO (Some (Z.of_nat n)) q (pf_init k FO) = Ok p tt /\
      c_numStages (pf_cas p) = Z.of_nat (bw_sections n) /\
      forall i, (i < bw_sections n)%nat ->
      cas_index (N := XS) (pf_cas p) (Z.of_nat i) = Val (xsection (sh_ideal hs f G n i) (if Nat.eqb i 0 then sh_scale hs f G n else 1)).
  Proof.
    intros EF ED Hf Hn HI HF k. destruct (tan_half f Hf) as (_ & _ & T0).
    destruct (shelf_exact_g hs G (sh_ideal hs f G n) q f n FO EF Hf Hn HI HF ED (sh_digs hs f G n T0 Hn)
      (fun i Hi => sh_peak hs f G n i T0 Hn Hi)) as (p & rest & E & C). exists p. split; [exact E|]. rewrite C. split; [reflexivity|].
    fold (sh_scale hs f G n).
    intros i Hi. unfold cas_index. cbn [c_numStages c_stages].
    replace (Z.of_nat i <? 0)%Z with false by (symmetry; apply Z.ltb_ge; lia). replace (Z.of_nat (bw_sections n) <=? Z.of_nat i)%Z with false by (symmetry; apply Z.leb_gt; lia).
    cbn [orb othrow_if obind]. unfold aget. replace (Z.of_nat i <? 0)%Z with false by (symmetry; apply Z.ltb_ge; lia). rewrite Nat2Z.id, nth_error_app1 by (rewrite map_length, seq_length; exact Hi).
    rewrite nth_error_map. rewrite (nth_error_nth' _ 0%nat) by (rewrite seq_length; exact Hi). rewrite seq_nth by exact Hi. reflexivity.
  Qed.
End Ex.

(** ** 20 log10 4 = 12.04 dB at a quarter of the sampling rate, orders 1 and 2 *)
Definition ex_shelf_gain : R := 20 * (ln 4 / ln 10).
Lemma ex_shelf_g : sh_g 1 ex_shelf_gain = 2 /\ sh_g 2 ex_shelf_gain = sqrt 2.
Proof.
  pose proof ln10_pos as L. unfold sh_g, ex_shelf_gain, Rpower.
  assert (E4 : ln 4 = 2 * ln 2) by (replace 4 with (2 * 2) by ring; rewrite ln_mult by lra; ring). rewrite E4.
  assert (E2 : exp (ln 2 / 2) = sqrt 2).
  { change (ln 2 / 2) with (ln 2 * / 2). rewrite Rmult_comm. fold (Rpower 2 (/ 2)). apply Rpower_sqrt. lra. }
  split.
  - replace (20 * (2 * ln 2 / ln 10) / 20 / (2 * INR 1) * ln 10) with (ln 2) by (cbn [INR]; field; lra). apply exp_ln. lra.
  - rewrite <- E2. f_equal. cbn [INR]. field. lra.
Qed.
Lemma ex_shelf : 0 < 1 / 4 < 1 / 2 /\ in_int (2 * Z.of_nat 2) = true /\ bw_sections 1 = 1%nat /\ bw_sections 2 = 1%nat /\
  sh_ideal false (1 / 4) ex_shelf_gain 1 0 = Ideal (- 1 / 3) 0 1 (1 / 3) 0 /\ sh_scale false (1 / 4) ex_shelf_gain 1 = 2 /\
  sh_ideal true (1 / 4) ex_shelf_gain 1 0 = Ideal (1 / 3) 0 1 (- 1 / 3) 0 /\ sh_scale true (1 / 4) ex_shelf_gain 1 = 2 /\
  sh_ideal false (1 / 4) ex_shelf_gain 2 0 = Ideal (- 2 / 5) (1 / 5) 1 (2 / 5) (1 / 5) /\ sh_scale false (1 / 4) ex_shelf_gain 2 = 2.
Proof.
  destruct ex_shelf_g as [G1 G2].
  assert (T : tan (PI * (1 / 4)) = 1) by (replace (PI * (1 / 4)) with (PI / 4) by field; apply tan_PI4).
  assert (A : ch_angle 2 0 = PI / 4) by (unfold ch_angle; cbn; field).
  pose proof (sqrt_lt_R0 2 ltac:(lra)) as Q0. assert (Q2 : sqrt 2 * sqrt 2 = 2) by (apply sqrt_sqrt; lra).
  assert (I1 : sh_ideal false (1 / 4) ex_shelf_gain 1 0 = Ideal (- 1 / 3) 0 1 (1 / 3) 0).
  { unfold sh_ideal. change (Nat.ltb 0 (1 / 2)) with false. cbn match. rewrite T, G1. unfold bl_one. f_equal; field. }
  assert (I2 : sh_ideal true (1 / 4) ex_shelf_gain 1 0 = Ideal (1 / 3) 0 1 (- 1 / 3) 0).
  { unfold sh_ideal. change (Nat.ltb 0 (1 / 2)) with false. cbn match. rewrite T, G1. unfold bl_one. f_equal; field. }
  assert (I3 : sh_ideal false (1 / 4) ex_shelf_gain 2 0 = Ideal (- 2 / 5) (1 / 5) 1 (2 / 5) (1 / 5)).
  { unfold sh_ideal. change (Nat.ltb 0 (2 / 2)) with true. cbn match. rewrite T, A, G2, sin_PI4.
    replace (1 / sqrt 2 / sqrt 2) with (1 / 2) by (replace (1 / sqrt 2 / sqrt 2) with (1 / (sqrt 2 * sqrt 2)) by (field; lra); rewrite Q2; reflexivity).
    replace (1 / sqrt 2 * sqrt 2) with 1 by (field; lra). replace (sqrt 2 ^ 2) with 2 by (simpl; lra).
    unfold bl_pair. cbn [fst snd]. f_equal; field. }
  split; [lra|]. split; [reflexivity|]. split; [reflexivity|]. split; [reflexivity|]. split; [exact I1|]. split; [|split; [exact I2|split; [|split; [exact I3|]]]];
    unfold sh_scale; [change (bw_sections 1) with 1%nat|change (bw_sections 1) with 1%nat|change (bw_sections 2) with 1%nat]; cbn [seq map fold_right]; rewrite ?I1, ?I2, ?I3; unfold peak_inv; cbn [negb i_a1 i_a2 i_b0 i_b1 i_b2]; field.
Qed.
