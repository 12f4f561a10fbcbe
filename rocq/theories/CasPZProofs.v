(** Proofs: Cascade::getPoleZeros (Cascade.cpp:78-91). *)
From Coq Require Import ZArith List Bool Reals Lra Lia.
From Coquelicot Require Import Coquelicot.
From Verif Require Import Num Outcome Types Biquad State Cascade PoleFilter History Exact Safe AnyLemmas SigSpec PZSpec RespProofs PZProofs CoefLemmas ChebSpec BandSpec ShelfSpec
  ChShelfSpec DesignSpec BandFinal PZFinal.
Import ListNotations.
Local Open Scope R_scope.

Lemma f2_len {A B} (R : A -> B -> Prop) l l' : List.Forall2 R l l' -> length l = length l'.
Proof. intros H. induction H; cbn [length]; congruence. Qed.

Section Any.
  Context {N : num}.
  Lemma bps_roots_def (k0 k1 k2 : T N) e : bps_roots k0 k1 k2 e <> Undef.
  Proof. unfold bps_roots. cbv zeta. destruct (cp_is_nan _); cbn; discriminate. Qed.
  Lemma bps_def (b : biquad N) : bps_of b <> Undef.
  Proof.
    unfold bps_of. cbv zeta. destruct (neqb N (getA2 b) _ && neqb N (getB2 b) _); [cbn; discriminate|].
    destruct (bps_roots (getA0 b) (getA1 b) (getA2 b) _) eqn:E1; cbn [obind]; [|discriminate|destruct (bps_roots_def _ _ _ _ E1)].
    destruct (bps_roots (getB0 b) (getB1 b) (getB2 b) _) eqn:E2; cbn [obind]; [discriminate|discriminate|destruct (bps_roots_def _ _ _ _ E2)].
  Qed.
  Lemma pz_loop_sections : forall n (l : list (biquad N)), (n <= length l)%nat ->
    match pz_loop l n with
    | Val ps => Forall2 (fun p b => bq_getPoleZeros b = Val [p]) ps (firstn n l)
    | Exc e => exists b, In b (firstn n l) /\ bq_getPoleZeros b = Exc e
    | Undef => False
    end.
  Proof.
    induction n as [|n IH]; intros l L; [destruct l; constructor|]. destruct l as [|b l]; cbn [length] in L; [lia|].
    cbn [pz_loop firstn]. unfold bq_getPoleZeros at 1 2. destruct (bps_of b) as [bps|e|] eqn:E; cbn [obind].
    - specialize (IH l ltac:(lia)). destruct (pz_loop l n) as [ps|e|]; cbn [obind].
      + constructor; [unfold bq_getPoleZeros; rewrite E; reflexivity|exact IH].
      + destruct IH as (b' & I & Q). exists b'. split; [right; exact I|exact Q].
      + exact IH.
    - exists b. split; [left; reflexivity|]. unfold bq_getPoleZeros. rewrite E. reflexivity.
    - exact (bps_def b E).
  Qed.
  Lemma c69_sections (HP : forall r th, npolar N r th <> None) t k FO (f : filt N) : (1 <= FO)%Z -> in_int (2 * FO) = true -> reachable_ok t k FO f ->
    match cas_getPoleZeros (pf_cas (fl_pf f)) with
    | Val ps => Z.of_nat (length ps) = filt_numStages f /\
        Forall2 (fun p b => bq_getPoleZeros b = Val [p]) ps (firstn (Z.to_nat (filt_numStages f)) (fl_stages f))
    | Exc e => exists b, In b (firstn (Z.to_nat (filt_numStages f)) (fl_stages f)) /\ bq_getPoleZeros b = Exc e
    | Undef => False
    end.
  Proof.
    intros HF HI R. destruct (reach_filt_ok HP t k FO HF HI f R) as ((C & _) & _). destruct C as (C1 & C2 & C3).
    unfold cas_getPoleZeros. assert (L : (Z.to_nat (c_numStages (pf_cas (fl_pf f))) <= length (c_stages (pf_cas (fl_pf f))))%nat) by lia.
    pose proof (pz_loop_sections _ _ L) as G. unfold filt_numStages, fl_stages. destruct (pz_loop _ _) as [ps|e|]; [|exact G|exact G].
    split; [|exact G]. apply f2_len in G. rewrite G, firstn_length, Nat.min_l by exact L. lia.
  Qed.
End Any.

Section XPZ.
  Context {strict : bool}.
  Notation XS := (X strict).
  Definition same_roots (p q : pzc) : Prop := forall u : C, pz_den q u = pz_den p u /\ pz_num q u = pz_num p u.
  Lemma poly2_coefs a b c k (z1 z2 : C) : (forall u : C, poly2 a b c u = (RtoC k * ((1 - z1 * u) * (1 - z2 * u)))%C) ->
    a = k /\ RtoC b = (- (RtoC k * (z1 + z2)))%C /\ RtoC c = (RtoC k * (z1 * z2))%C.
  Proof.
    intros H. pose proof (H (RtoC 0)) as H0. pose proof (H (RtoC 1)) as H1. pose proof (H (RtoC (-1))) as H2. unfold poly2 in *.
    destruct z1 as [x1 y1], z2 as [x2 y2]. unfold RtoC, Cplus, Cminus, Cmult, Copp in *. cbn [fst snd] in *.
    inversion H0. inversion H1. inversion H2. split; [nra|]. split; apply injective_projections; cbn [fst snd]; nra.
  Qed.
  Lemma section_roots p k (b : biquad XS) : k <> 0 -> realises p k b -> m_a2 b <> XR 0 \/ m_b2 b <> XR 0 ->
    exists q, bq_getPoleZeros b = Val [xpz q] /\ pz_ok q /\ same_roots p q.
  Proof.
    intros K (a1 & a2 & b0 & b1 & b2 & -> & H) Hor. cbn [m_a2 m_b2] in Hor.
    destruct (poly2_coefs b0 b1 b2 k (zz1 p) (zz2 p)) as (B0 & _); [intros u; apply (H u)|]. subst b0.
    destruct (c18_two 1 a1 a2 k b1 b2 (biquad0 (N := XS)) ltac:(lra) K) as (q & bps & E & Q & R & _).
    { destruct Hor as [G|G]; [left|right]; intros ->; apply G; reflexivity. }
    exists q. split; [exact E|]. split; [exact Q|]. intros u. destruct (H u) as [D1 N1]. destruct (R u) as [D2 N2].
    split; [rewrite <- D1, <- D2; reflexivity|]. rewrite N1 in N2.
    assert (KC : RtoC k <> 0%C) by (intros Z; apply RtoC_inj in Z; contradiction).
    apply (f_equal (Cmult (Cinv (RtoC k)))) in N2. rewrite !Cmult_assoc, !Cinv_l, !Cmult_1_l in N2 by exact KC. symmetry. exact N2.
  Qed.
  Lemma circle_roots p k (b : biquad XS) : k <> 0 -> realises p k b -> pz_ok p -> on_circle p ->
    exists q, bq_getPoleZeros b = Val [xpz q] /\ pz_ok q /\ same_roots p q.
  Proof.
    intros K HR OK ON. pose proof HR as (a1 & a2 & b0 & b1 & b2 & -> & H).
    destruct (Req_dec a2 0) as [Ea|Ea]; [|apply (section_roots p k _ K HR); left; cbn; congruence].
    destruct (Req_dec b2 0) as [Eb|Eb]; [|apply (section_roots p k _ K HR); right; cbn; congruence]. subst a2 b2.
    destruct (poly2_coefs b0 b1 0 k (zz1 p) (zz2 p)) as (B0 & B1 & B2); [intros u; apply (H u)|]. subst b0.
    assert (KC : RtoC k <> 0%C) by (intros Z; apply RtoC_inj in Z; contradiction).
    destruct ON as [ON1 ON2].
    assert (N1 : zz1 p <> 0%C) by (intros Z; rewrite Z, Cmod_0 in ON1; lra).
    assert (Z2 : zz2 p = 0%C).
    { destruct (Ceq_dec (zz2 p) 0%C) as [Z|Z]; [exact Z|]. exfalso. apply (Cmult_neq_0 _ _ KC (Cmult_neq_0 _ _ N1 Z)). rewrite <- B2. reflexivity. }
    rewrite Z2 in B1.
    assert (ZR : snd (zz1 p) = 0).
    { destruct (proj2 OK) as [[Z _]|Z]; [exact Z|]. exfalso. apply N1. rewrite Z2 in Z. destruct (zz1 p) as [x y]. unfold Cconj in Z. cbn in Z. inversion Z.
      apply injective_projections; cbn; lra. }
    destruct (zz1 p) as [z zi] eqn:EZ. cbn [snd] in ZR. subst zi.
    assert (ZZ : z * z = 1). { replace (z, 0) with (RtoC z) in ON1 by reflexivity. rewrite Cmod_R in ON1. rewrite <- (Rabs_pos_eq (z * z)) by nra. rewrite Rabs_mult, ON1. ring. }
    assert (EB : b1 = - (k * z)). { apply (f_equal fst) in B1. cbn in B1. nra. }
    assert (B1N : b1 <> 0) by (subst b1; nra).
    exists (PZc (RtoC (- a1)) 0 (RtoC z) 0). split; [|split].
    - unfold bq_getPoleZeros, bps_of, getA0, getA1, getA2, getB0, getB1, getB2.
      cbn [m_a0 m_a1 m_a2 m_b0 m_b1 m_b2 nmul neqb ndiv nofZ X xmul nopp xopp].
      rewrite !xeqb_true by ring. cbn [andb]. rewrite !xdiv_fin by lra. cbn [obind bps_pair].
      unfold xpz, c_of, xc. cbn [zp1 zp2 zz1 zz2 fst snd RtoC nofZ X n0]. unfold n0. cbn [nofZ X].
      replace (- (a1 * 1)) with (- a1) by ring. replace (- (k * 1) / (b1 * 1)) with z; [reflexivity|]. subst b1.
      apply Rmult_eq_reg_r with (- (k * z) * 1); [|lra]. unfold Rdiv. rewrite Rmult_assoc, Rinv_l by lra. nra.
    - split; left; split; reflexivity.
    - intros u. destruct (H u) as [D1 _]. unfold pz_den, pz_num in *. cbn [zp1 zp2 zz1 zz2]. rewrite <- D1, EZ, Z2. unfold poly2. rewrite RtoC_opp.
      split; [ring|]. change (z, 0) with (RtoC z). ring.
  Qed.
  Lemma firstn_used {A} (l r : list A) n : n = length l -> firstn n (l ++ r) = l.
  Proof. intros ->. rewrite firstn_app, Nat.sub_diag, firstn_all, firstn_O. apply app_nil_r. Qed.
  Lemma report_roots (fl : filt XS) : reports fl on_circle ->
    exists ps qs, filt_getPoleZeros fl = Val (map xpz ps) /\ cas_getPoleZeros (pf_cas (fl_pf fl)) = Val (map xpz qs) /\
      List.Forall pz_ok qs /\ List.Forall2 same_roots ps qs.
  Proof.
    intros (ps & K & E & L & OK & PL & ZS & _ & (used & rest & ES & _ & R) & _).
    assert (G : forall ps used rest, List.Forall pz_ok ps -> List.Forall on_circle ps -> List.Forall2 (fun p b => exists k, k <> 0 /\ realises p k b) ps used ->
      exists qs, pz_loop (N := XS) (used ++ rest) (length ps) = Val (map xpz qs) /\ List.Forall pz_ok qs /\ List.Forall2 same_roots ps qs).
    { clear. intros ps used rest OK ZS R. induction R as [|p b ps used (k & K & HR) R IH].
      - exists []. split; [destruct rest; reflexivity|]. split; constructor.
      - inversion OK as [|? ? O1 O2]; subst. inversion ZS as [|? ? Z1 Z2]; subst. destruct (IH O2 Z2) as (qs & E & Q1 & Q2).
        destruct (circle_roots p k b K HR O1 Z1) as (q & EQ & Q3 & Q4). exists (q :: qs). split; [|split; constructor; assumption].
        cbn [length pz_loop app]. unfold bq_getPoleZeros in EQ. destruct (bps_of b) as [bps|e|]; cbn [obind] in EQ |- *; try discriminate. rewrite E.
        cbn [obind map]. inversion EQ. reflexivity. }
    destruct (G ps used rest OK ZS R) as (qs & EQ & Q1 & Q2). exists ps, qs. split; [exact E|]. split; [|split; assumption].
    unfold cas_getPoleZeros. unfold fl_stages in ES. rewrite ES. unfold filt_numStages in L. rewrite <- L, Nat2Z.id. exact EQ.
  Qed.
  Lemma c69 fam s t n FO req fc fw db (q : params XS) : is_shelf s = false -> (1 <= n)%nat -> (Z.of_nat n <= FO)%Z -> in_int (2 * Z.of_nat n) = true ->
    requested FO req n -> q_fc q = XR fc -> q_fw q = XR fw -> in_range s fc fw -> db_ok fam db -> (fam <> Bw -> q_db q = XR db) ->
    match filt_setupN (N := XS) (fam, s) FO req q (filt_init t (fam, s) FO) with
    | Ok fl _ => exists ps qs, filt_getPoleZeros fl = Val (map xpz ps) /\ cas_getPoleZeros (pf_cas (fl_pf fl)) = Val (map xpz qs) /\
        List.Forall pz_ok qs /\ List.Forall2 same_roots ps qs
    | Throw _ _ => s = BP \/ s = BS
    | UB => False
    end.
  Proof.
    intros H1 H2 H3 H4 H5 H6 H7 H8 H9 H10. pose proof (c50 fam s t n FO req fc fw db q H1 H2 H3 H4 H5 H6 H7 H8 H9 H10) as G.
    destruct (filt_setupN _ _ _ _ _); [|exact G|exact G]. apply report_roots, G.
  Qed.
  Lemma c69_second (fl : filt XS) : reports fl in_circle ->
    exists ps used rest, filt_getPoleZeros fl = Val (map xpz ps) /\ fl_stages fl = (used ++ rest)%list /\
      List.Forall2 (fun (p : pzc) (b : biquad XS) => m_a2 b <> XR 0 \/ m_b2 b <> XR 0 -> exists q, bq_getPoleZeros b = Val [xpz q] /\ pz_ok q /\ same_roots p q) ps used.
  Proof.
    intros (ps & K & E & L & OK & PL & ZS & _ & (used & rest & ES & _ & R) & _). exists ps, used, rest. split; [exact E|]. split; [exact ES|].
    clear - R. induction R as [|p b ps used (k & K & HR) R IH]; constructor; [|exact IH]. apply (section_roots p k b K HR).
  Qed.
  Lemma c69_ch fam s t n FO req fc fw G db (q : params XS) : fam = Ch1 \/ fam = Ch2 -> is_shelf s = true -> (1 <= n)%nat -> (Z.of_nat n <= FO)%Z ->
    in_int (2 * Z.of_nat n) = true -> requested FO req n -> q_fc q = XR fc -> q_fw q = XR fw -> in_range s fc fw ->
    0 < db < Rabs G -> q_gain q = XR G -> q_db q = XR db ->
    let td := 1 / tan ((edge_hi fc fw - edge_lo fc fw) / 2) in
    ~ (s = BSh /\ Nat.odd n = true /\ (td = cs_real_pole n G db \/ td = cs_real_zero n G db)) ->
    exists fl ps used rest, filt_setupN (N := XS) (fam, s) FO req q (filt_init t (fam, s) FO) = Ok fl tt /\
      filt_getPoleZeros fl = Val (map xpz ps) /\ fl_stages fl = (used ++ rest)%list /\
      List.Forall2 (fun (p : pzc) (b : biquad XS) => m_a2 b <> XR 0 \/ m_b2 b <> XR 0 -> exists q, bq_getPoleZeros b = Val [xpz q] /\ pz_ok q /\ same_roots p q) ps used.
  Proof.
    intros H1 H2 H3 H4 H5 H6 H7 H8 H9 H10 H11 H12 td H13. destruct (c50_ch fam s t n FO req fc fw G db q H1 H2 H3 H4 H5 H6 H7 H8 H9 H10 H11 H12 H13) as (fl & E & R).
    destruct (c69_second fl R) as (ps & used & rest & Q). exists fl, ps, used, rest. split; [exact E|exact Q].
  Qed.
End XPZ.
Lemma c69_bw s t n FO req fc fw G (q : params (X false)) : is_shelf s = true -> (1 <= n)%nat -> (Z.of_nat n <= FO)%Z ->
  in_int (2 * Z.of_nat n) = true -> requested FO req n -> q_fc q = XR fc -> q_fw q = XR fw -> in_range s fc fw ->
  q_gain q = XR G ->
  let td := tan ((edge_hi fc fw - edge_lo fc fw) / 2) in
  ~ (s = BSh /\ Nat.odd n = true /\ (td ^ (2 * n) = Rpower 10 (G / 20) \/ td ^ (2 * n) = Rpower 10 (- G / 20))) ->
  exists fl ps used rest, filt_setupN (N := X false) (Bw, s) FO req q (filt_init t (Bw, s) FO) = Ok fl tt /\
    filt_getPoleZeros fl = Val (map xpz ps) /\ fl_stages fl = (used ++ rest)%list /\
    List.Forall2 (fun (p : pzc) (b : biquad (X false)) => m_a2 b <> XR 0 \/ m_b2 b <> XR 0 -> exists q, bq_getPoleZeros b = Val [xpz q] /\ pz_ok q /\ same_roots p q) ps used.
Proof.
  intros H1 H2 H3 H4 H5 H6 H7 H8 H9 td H10. destruct (c50_bw s t n FO req fc fw G q H1 H2 H3 H4 H5 H6 H7 H8 H9 H10) as (fl & E & R).
  destruct (c69_second fl R) as (ps & used & rest & Q). exists fl, ps, used, rest. split; [exact E|exact Q].
Qed.
