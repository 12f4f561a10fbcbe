(** Proofs: from pole/zero pairs to stages and their response (exact arithmetic). *)
From Coq Require Import ZArith List Bool Reals Lra Lia.
From Coquelicot Require Import Coquelicot.
From Verif Require Import Num Outcome Types Biquad State Cascade Exact RealNum SigSpec PZSpec SigProofs StabProofs
  RespProofs SigLemmas LayoutProofs.
Import ListNotations.
Local Open Scope R_scope.

Lemma xeqb_true r s : r = s -> xeqb (XR r) (XR s) = true.
Proof. intros ->. simpl. destruct (Req_EM_T s s); congruence. Qed.
Lemma xeqb_false r s : r <> s -> xeqb (XR r) (XR s) = false.
Proof. intros H. simpl. destruct (Req_EM_T r s); congruence. Qed.

(** the stage of a pair *)
Definition rbq (p : pzc) : biquad RN :=
  @MkBiquad RN 1 (- fst (zp1 p + zp2 p)%C) (fst (zp1 p * zp2 p)%C) 1 (- fst (zz1 p + zz2 p)%C) (fst (zz1 p * zz2 p)%C).

Lemma poly_factor (c d u : C) : conj_or_real c d ->
  poly2 1 (- fst (c + d)%C) (fst (c * d)%C) u = ((1 - c * u) * (1 - d * u))%C.
Proof.
  destruct c as [c1 c2], d as [d1 d2], u as [x y]. intros [[H1 H2]|H]; unfold poly2; cbn in *.
  - subst. apply injective_projections; cbn; ring.
  - inversion H; subst. apply injective_projections; cbn; ring.
Qed.
Lemma rbot_pz p u : pz_ok p -> rbot (rbq p) u = pz_den p u.
Proof. intros [H _]. apply poly_factor. exact H. Qed.
Lemma rtop_pz p u : pz_ok p -> rtop (rbq p) u = pz_num p u.
Proof. intros [_ H]. apply poly_factor. exact H. Qed.

Section Pz.
  Context {strict : bool}.
  Notation XS := (X strict).

  Lemma two_coeffs_ok e (c d : C) : conj_or_real c d ->
    two_coeffs (N := XS) e (xc c) (xc d) = Val (XR (- fst (c + d)%C), XR (fst (c * d)%C)).
  Proof.
    intros H. destruct c as [c1 c2], d as [d1 d2]. unfold two_coeffs, nneqb. cbn [im re xc fst snd neqb X nofZ] in *.
    destruct (Req_dec c2 0) as [E|E].
    - subst c2. assert (d2 = 0). { destruct H as [[_ H]|H]; [exact H|]. inversion H. lra. }
      subst. rewrite !xeqb_true by reflexivity. cbn. do 2 f_equal; f_equal; ring.
    - rewrite xeqb_false by exact E. assert (Q : (d1, d2) = Cconj (c1, c2)) by (destruct H as [[H _]|H]; [simpl in H; congruence|exact H]).
      inversion Q; subst. cbn [negb]. unfold c_eqb, c_conj, xc. cbn [re im fst snd neqb nopp xopp X]. rewrite !xeqb_true by reflexivity. cbn. do 2 f_equal; f_equal; ring.
  Qed.
  Lemma two_coeffs_bad e (c d : C) : ~ conj_or_real c d -> two_coeffs (N := XS) e (xc c) (xc d) = Exc e.
  Proof.
    intros H. destruct c as [c1 c2], d as [d1 d2]. unfold two_coeffs, nneqb. cbn [im re xc fst snd neqb X nofZ] in *.
    destruct (Req_dec c2 0) as [E|E].
    - subst c2. assert (d2 <> 0) by (intros E; apply H; left; simpl; auto).
      rewrite xeqb_true by reflexivity. rewrite xeqb_false by assumption. reflexivity.
    - rewrite xeqb_false by exact E. cbn [negb]. unfold c_eqb, c_conj, xc. cbn [re im fst snd neqb nopp xopp X].
      destruct (Req_dec d1 c1) as [E1|E1]; [destruct (Req_dec d2 (- c2)) as [E2|E2]|].
      + exfalso. apply H. right. subst. reflexivity.
      + rewrite (xeqb_false d2) by exact E2. rewrite andb_false_r. reflexivity.
      + rewrite (xeqb_false d1) by exact E1. reflexivity.
  Qed.

  Lemma setTwoPole_ok p (b : biquad XS) : pz_ok p ->
    setTwoPole (N := XS) (xc (zp1 p)) (xc (zz1 p)) (xc (zp2 p)) (xc (zz2 p)) b = Ok (emb_bq (rbq p)) tt.
  Proof.
    intros [H1 H2]. unfold setTwoPole. rewrite (two_coeffs_ok _ _ _ H1), (two_coeffs_ok _ _ _ H2).
    cbn [lift]. unfold bind, ret. cbn [nofZ X]. rewrite set_coeffs_fin by lra.
    unfold emb_bq, rbq. cbn [m_a0 m_a1 m_a2 m_b0 m_b1 m_b2]. 
    assert (D : forall r, r / 1 = r) by (intros; field). rewrite !D. reflexivity.
  Qed.
  Lemma setOnePole_ok (pole zero : C) (b : biquad XS) : snd pole = 0 -> snd zero = 0 ->
    setOnePole (N := XS) (xc pole) (xc zero) b = Ok (emb_bq (rbq (PZc pole 0 zero 0))) tt.
  Proof.
    destruct pole as [p1 p2], zero as [z1 z2]. cbn [snd]. intros -> ->.
    unfold setOnePole, bind, throw_if, nneqb. cbn [im re xc fst snd neqb nofZ X]. rewrite !xeqb_true by reflexivity.
    cbn [negb ret nopp xopp X]. rewrite set_coeffs_fin by lra.
    unfold emb_bq, rbq. cbn. do 2 f_equal; f_equal; lra.
  Qed.
  Lemma pair_bq_emb p : pz_ok p -> pair_bq (N := XS) (xpz p) = Val (emb_bq (rbq p)).
  Proof.
    intros H. unfold pair_bq, setPoleZeroPair. destruct (pz_isSinglePole (xpz p)) eqn:E.
    - unfold pz_isSinglePole, c_eqb_r in E. apply andb_prop in E. destruct E as [E1 E2].
      apply andb_prop in E1. destruct E1 as [E1 E3]. apply andb_prop in E2. destruct E2 as [E2 E4].
      destruct p as [p1 [p2x p2y] z1 [z2x z2y]]. cbn in *.
      destruct (Req_EM_T p2x 0), (Req_EM_T p2y 0), (Req_EM_T z2x 0), (Req_EM_T z2y 0); try discriminate. subst.
      assert (S1 : snd p1 = 0). { destruct H as [[[H _]|H] _]; [exact H|]. simpl in H. inversion H. lra. }
      assert (S2 : snd z1 = 0). { destruct H as [_ [[H _]|H]]; [exact H|]. simpl in H. inversion H. lra. }
      rewrite setOnePole_ok by assumption. reflexivity.
    - change (match setTwoPole (N := XS) (xc (zp1 p)) (xc (zz1 p)) (xc (zp2 p)) (xc (zz2 p)) biquad0 with
        | Ok b _ => Val b | Throw e _ => Exc e | UB => Undef end = Val (emb_bq (rbq p))).
      rewrite setTwoPole_ok by exact H. reflexivity.
  Qed.

  Lemma realises_rbq p : pz_ok p -> realises p 1 (emb_bq (strict := strict) (rbq p)).
  Proof.
    intros H. do 5 eexists. split; [reflexivity|]. intros u. split.
    - apply (rbot_pz p u H).
    - rewrite <- (rtop_pz p u H). rewrite Cmult_1_l. reflexivity.
  Qed.
  Lemma realises_scale p k s (b : biquad XS) : realises p k b -> realises p (k * s) (bq_applyScale (N := XS) (XR s) b).
  Proof.
    intros (a1 & a2 & b0 & b1 & b2 & -> & H). do 5 eexists. split; [reflexivity|]. intros u. split; [apply H|].
    destruct (H u) as [_ Q]. rewrite RtoC_mult, <- Cmult_assoc, (Cmult_comm s), Cmult_assoc, <- Q.
    unfold poly2. rewrite !RtoC_mult. ring.
  Qed.

  (** ** the response of realised pairs *)
  Lemma realises_emb p k (b : biquad XS) : realises p k b -> exists b' : biquad RN, b = emb_bq b' /\ m_a0 b' = 1 /\
    (forall u, rbot b' u = pz_den p u) /\ (forall u, rtop b' u = (RtoC k * pz_num p u)%C).
  Proof.
    intros (a1 & a2 & b0 & b1 & b2 & -> & H). exists (@MkBiquad RN 1 a1 a2 b0 b1 b2).
    split; [reflexivity|]. split; [reflexivity|]. split; intros u; apply (H u).
  Qed.

  Lemma cprod_cons (c : C) l : cprod (c :: l) = (c * cprod l)%C.
  Proof. reflexivity. Qed.
  Lemma forall_map_nz {A} (f : A -> C) l : List.Forall (fun a => f a <> 0%C) l -> cprod (map f l) <> 0%C.
  Proof. intros H. apply cprod_nz. induction H; simpl; constructor; auto. Qed.

  (** a cascade whose first stages are [bs] *)
  Lemma resp_realised (ps : list pzc) ks (bs : list (biquad XS)) rest m f :
    List.Forall2 (fun pk b => realises (fst pk) (snd pk) b) (combine ps ks) bs -> length ks = length ps ->
    List.Forall identity_bq rest -> 0 <= f <= 1 / 2 ->
    List.Forall (fun p => pz_den p (upt f) <> 0%C) ps ->
    cas_response (N := XS) (MkCascade (Z.of_nat (length ps)) m (bs ++ rest)) (XR f) =
    Val (xc (cprod (map RtoC ks) * cprod (map (fun p => pz_num p (upt f)) ps) /
             cprod (map (fun p => pz_den p (upt f)) ps))%C).
  Proof.
    intros F L I Hf Hd.
    assert (R0 : exists rest' : list (biquad RN), rest = map emb_bq rest' /\ List.Forall (fun b : biquad RN => m_a0 b <> 0) rest').
    { clear - I. induction I as [|b l Hb I [r [-> Hr]]]; [exists []; split; [reflexivity|constructor]|].
      exists (@MkBiquad RN 1 0 0 1 0 0 :: r). rewrite Hb. split; [reflexivity|]. constructor; [simpl; lra|exact Hr]. }
    destruct R0 as [rest' [-> Hr]].
    assert (B0 : exists bs' : list (biquad RN), bs = map emb_bq bs' /\ List.Forall (fun b : biquad RN => m_a0 b <> 0) bs' /\
      length bs' = length ps /\
      cprod (map (fun b => rbot b (upt f)) bs') = cprod (map (fun p => pz_den p (upt f)) ps) /\
      cprod (map (fun b => rtop b (upt f)) bs') = (cprod (map RtoC ks) * cprod (map (fun p => pz_num p (upt f)) ps))%C).
    { clear - F L. revert ks bs F L. induction ps as [|p ps IH]; intros [|k ks] bs F L; try discriminate L.
      - inversion F; subst. exists []. simpl. repeat split; auto. ring.
      - simpl in F. inversion F as [|? b ? bs0 Hb F']; subst. cbn [fst snd] in Hb. simpl in L. injection L as L.
        destruct (IH ks bs0 F' L) as [bs' [-> [H1 [H2 [H3 H4]]]]].
        destruct (realises_emb _ _ _ Hb) as [b' [-> [A0 [Q1 Q2]]]].
        exists (b' :: bs'). split; [reflexivity|]. split; [constructor; [lra|exact H1]|]. split; [simpl; lia|].
        cbn [map]. rewrite !cprod_cons, H3, H4, Q1, Q2. split; [reflexivity|]. ring. }
    destruct B0 as [bs' [-> [H1 [H2 [H3 H4]]]]].
    rewrite <- map_app. rewrite cas_response_emb.
    - rewrite Nat2Z.id, firstn_app, <- H2, firstn_all, Nat.sub_diag, firstn_O, app_nil_r, H3, H4. reflexivity.
    - apply Forall_app. split; assumption.
    - rewrite Nat2Z.id, app_length. lia.
    - exact Hf.
    - rewrite Nat2Z.id, firstn_app, <- H2, firstn_all, Nat.sub_diag, firstn_O, app_nil_r, H3. apply forall_map_nz. exact Hd.
  Qed.

  Lemma idb_identity : identity_bq (strict := strict) idb.
  Proof. unfold identity_bq, idb. cbn. rewrite !Req0_false by lra. f_equal; f_equal; lra. Qed.
  Lemma x_not_nan z : is_nan (N := XS) (nofZ XS z) = false.
  Proof. unfold is_nan. cbn. destruct (Req_EM_T _ _); [reflexivity|congruence]. Qed.

  Lemma ones_cprod n : cprod (map RtoC (repeat 1 n)) = RtoC 1.
  Proof. induction n; [reflexivity|]. cbn [repeat map]. rewrite cprod_cons, IHn. ring. Qed.
  Lemma realises_ones ps : List.Forall pz_ok ps ->
    List.Forall2 (fun pk b => realises (strict := strict) (fst pk) (snd pk) b) (combine ps (repeat 1 (length ps))) (map (fun p => emb_bq (rbq p)) ps).
  Proof.
    induction 1; simpl; constructor; auto. apply realises_rbq. assumption.
  Qed.

  Definition lay_gain (ps : list pzc) (w g : R) : R :=
    match ps with
    | [] => 1
    | _ => g / Cmod (cprod (map (fun p => pz_num p (cis (- w))) ps) / cprod (map (fun p => pz_den p (cis (- w))) ps))%C
    end.

  Lemma setLayout_x ps extra np mp w g n0 (old : list (biquad XS)) :
    List.Forall pz_ok ps -> Z.of_nat (length ps) = Z.quot (np + 1) 2 -> (length ps <= length old)%nat ->
    0 <= w <= PI ->
    List.Forall (fun p => pz_den p (cis (- w)) <> 0%C) ps -> List.Forall (fun p => pz_num p (cis (- w)) <> 0%C) ps ->
    exists cs rest : list (biquad XS),
      setLayout (N := XS) (MkLayout np mp (map xpz ps ++ extra) (XR w) (XR g)) (MkCascade n0 (Z.of_nat (length old)) old) =
        Ok (MkCascade (Z.of_nat (length ps)) (Z.of_nat (length old)) (cs ++ rest)) tt /\
      length (cs ++ rest) = length old /\
      List.Forall2 (fun p b => exists k, (g <> 0 -> k <> 0) /\ realises p k b) ps cs /\ List.Forall identity_bq rest /\
      forall f, 0 <= f <= 1 / 2 -> List.Forall (fun p => pz_den p (upt f) <> 0%C) ps ->
        cas_response (N := XS) (MkCascade (Z.of_nat (length ps)) (Z.of_nat (length old)) (cs ++ rest)) (XR f) =
        Val (xc (RtoC (lay_gain ps w g) * cprod (map (fun p => pz_num p (upt f)) ps) /
                 cprod (map (fun p => pz_den p (upt f)) ps))%C).
  Proof.
    intros Hok Hn Hl Hw Hd Hz.
    set (d := MkLayout (N := XS) np mp (map xpz ps ++ extra) (XR w) (XR g)).
    set (c := MkCascade (N := XS) n0 (Z.of_nat (length old)) old).
    assert (NP : npairs d = Z.of_nat (length ps)) by (unfold npairs, d; simpl; lia).
    set (bs := map (fun p => emb_bq (strict := strict) (rbq p)) ps).
    set (rest := repeat (idb (N := XS)) (length old - length ps)).
    assert (Irest : List.Forall identity_bq rest).
    { apply Forall_forall. intros b Hb. apply repeat_spec in Hb. subst b. apply idb_identity. }
    pose proof PI_RGT_0 as HPI.
    assert (W : upt (w / (2 * PI)) = cis (- w)) by (unfold upt; f_equal; field; lra).
    assert (Wf : 0 <= w / (2 * PI) <= 1 / 2).
    { split.
      - apply Rmult_le_pos; [lra|]. left. apply Rinv_0_lt_compat. lra.
      - apply Rmult_le_reg_r with (2 * PI); [lra|]. unfold Rdiv. rewrite Rmult_assoc, Rinv_l by lra. lra. }
    assert (R0 : forall f, 0 <= f <= 1 / 2 -> List.Forall (fun p => pz_den p (upt f) <> 0%C) ps ->
      cas_response (N := XS) (MkCascade (Z.of_nat (length ps)) (Z.of_nat (length old)) (bs ++ rest)) (XR f) =
      Val (xc (cprod (map (fun p => pz_num p (upt f)) ps) / cprod (map (fun p => pz_den p (upt f)) ps))%C)).
    { intros f Hf Hden. rewrite (resp_realised ps (repeat 1 (length ps))); auto.
      - rewrite ones_cprod, Cmult_1_l. reflexivity.
      - apply realises_ones. exact Hok.
      - apply repeat_length. }
    set (H0 := (cprod (map (fun p => pz_num p (cis (- w))) ps) / cprod (map (fun p => pz_den p (cis (- w))) ps))%C).
    assert (H0nz : H0 <> 0%C).
    { unfold H0. intros Q. apply (forall_map_nz (fun p => pz_num p (cis (- w))) ps Hz).
      assert (Q2 := f_equal (fun z => (z * cprod (map (fun p => pz_den p (cis (- w))) ps))%C) Q). simpl in Q2.
      unfold Cdiv in Q2. rewrite <- Cmult_assoc, Cinv_l in Q2 by (apply forall_map_nz; exact Hd).
      rewrite Cmult_1_r, Cmult_0_l in Q2. exact Q2. }
    assert (Hm : Cmod H0 <> 0) by (intros Q; apply H0nz; apply Cmod_eq_0; exact Q).
    pose proof (setLayout_eq (N := XS) (x_not_nan 0) (x_not_nan 1) d c (map xpz ps) bs (xc H0)) as SE.
    specialize (SE eq_refl). rewrite NP in SE. unfold c in SE at 1 2. cbn [c_maxStages] in SE.
    specialize (SE ltac:(lia)). rewrite Nat2Z.id in SE. unfold d in SE at 1. cbn [l_pairs] in SE.
    specialize (SE ltac:(rewrite firstn_app, map_length, Nat.sub_diag, firstn_O, app_nil_r;
      rewrite <- (map_length (xpz (strict := strict)) ps); apply firstn_all)).
    specialize (SE (map_length _ _)).
    assert (F2 : List.Forall2 (fun p b => pair_bq (N := XS) p = Val b) (map xpz ps) bs).
    { unfold bs. clear - Hok. induction Hok; simpl; constructor; auto. apply pair_bq_emb. assumption. }
    specialize (SE F2). cbv zeta in SE. unfold c in SE. cbn [c_maxStages] in SE.
    replace (Z.to_nat (Z.of_nat (length old) - Z.of_nat (length ps))) with (length old - length ps)%nat in SE by lia.
    fold rest in SE. unfold d in SE at 1. cbn [l_normalW ndiv nmul nofZ npi X xmul] in SE.
    rewrite xdiv_fin in SE by lra. specialize (SE ltac:(rewrite R0; [rewrite W; reflexivity|exact Wf|rewrite W; exact Hd])).
    unfold d in SE at 2. cbn [l_normalGain ndiv ncabs X] in SE. rewrite xcabs_xc, xdiv_fin in SE by exact Hm.
    destruct ps as [|p ps'].
    - simpl in SE. exists [], rest. fold d c. unfold c. rewrite SE. split; [reflexivity|].
      split; [unfold rest; simpl; rewrite repeat_length; lia|]. split; [constructor|]. split; [exact Irest|].
      intros f Hf Hden. change ([] ++ rest) with (bs ++ rest). rewrite R0 by assumption. simpl.
      do 2 f_equal. field. apply C1_nz.
    - set (s := g / Cmod H0) in *.
      exists (scale_head (N := XS) (XR s) bs), rest. fold d c. unfold c.
      replace (Z.of_nat (length (p :: ps')) =? 0)%Z with false in SE by (symmetry; apply Z.eqb_neq; simpl; lia).
      unfold bs in SE at 1. cbn [map app scale_head] in SE.
      split; [exact SE|]. split; [unfold bs, rest; simpl; rewrite app_length, map_length, repeat_length; simpl in Hl; lia|].
      inversion Hok as [|? ? Hp Hps]; subst.
      split; [|split; [exact Irest|]].
      + unfold bs. cbn [map scale_head]. constructor.
        * exists (1 * s). split; [|apply realises_scale, realises_rbq; assumption]. intros G0 Q. apply G0. rewrite Rmult_1_l in Q. unfold s in Q.
          replace g with (g / Cmod H0 * Cmod H0) by (field; exact Hm). rewrite Q. ring.
        * clear - Hps. induction Hps; simpl; constructor; auto. exists 1. split; [intros _; lra|]. apply realises_rbq. assumption.
      + intros f Hf Hden.
        rewrite (resp_realised (p :: ps') ((1 * s) :: repeat 1 (length ps'))); auto.
        * cbn [map]. rewrite (cprod_cons (RtoC (1 * s))), ones_cprod, Rmult_1_l. unfold lay_gain. fold H0. fold s.
          rewrite Cmult_1_r. reflexivity.
        * unfold bs. simpl. constructor; [|apply realises_ones; assumption].
          apply realises_scale, realises_rbq. assumption.
        * simpl. rewrite repeat_length. reflexivity.
  Qed.
End Pz.

(** C20 *)
Lemma c20 strict ps extra np mp w g n0 (old : list (biquad (X strict))) :
  List.Forall pz_ok ps -> Z.of_nat (length ps) = Z.quot (np + 1) 2 -> (length ps <= length old)%nat ->
  0 <= w <= PI ->
  List.Forall (fun p => pz_den p (cis (- w)) <> 0%C) ps -> List.Forall (fun p => pz_num p (cis (- w)) <> 0%C) ps ->
  exists (cs rest : list (biquad (X strict))) (K : R),
    let c' := MkCascade (N := X strict) (Z.of_nat (length ps)) (Z.of_nat (length old)) (cs ++ rest) in
    setLayout (N := X strict) (MkLayout np mp (map xpz ps ++ extra) (XR w) (XR g)) (MkCascade n0 (Z.of_nat (length old)) old) =
      Ok c' tt /\
    length (cs ++ rest) = length old /\
    List.Forall2 (fun p b => exists k, (g <> 0 -> k <> 0) /\ realises p k b) ps cs /\ List.Forall identity_bq rest /\
    (forall f, 0 <= f <= 1 / 2 -> List.Forall (fun p => pz_den p (cis (- (2 * PI * f))) <> 0%C) ps ->
       cas_response c' (XR f) =
       Val (xc (RtoC K * cprod (map (fun p => pz_num p (cis (- (2 * PI * f)))) ps) /
                cprod (map (fun p => pz_den p (cis (- (2 * PI * f)))) ps))%C)) /\
    exists h, cas_response c' (XR (w / (2 * PI))) = Val (xc h) /\ (ps <> [] -> Cmod h = Rabs g).
Proof.
  intros Hok Hn Hl Hw Hd Hz. destruct (setLayout_x ps extra np mp w g n0 old Hok Hn Hl Hw Hd Hz) as [cs [rest [E [L [F [I R]]]]]].
  exists cs, rest, (lay_gain ps w g). cbv zeta. split; [exact E|]. split; [exact L|]. split; [exact F|]. split; [exact I|].
  split; [exact R|]. pose proof PI_RGT_0 as HPI.
  assert (W : upt (w / (2 * PI)) = cis (- w)) by (unfold upt; f_equal; field; lra).
  assert (Wf : 0 <= w / (2 * PI) <= 1 / 2).
  { split.
    - apply Rmult_le_pos; [lra|]. left. apply Rinv_0_lt_compat. lra.
    - apply Rmult_le_reg_r with (2 * PI); [lra|]. unfold Rdiv. rewrite Rmult_assoc, Rinv_l by lra. lra. }
  eexists. split; [apply R; [exact Wf|rewrite W; exact Hd]|]. intros Hne. rewrite W. unfold lay_gain.
  destruct ps as [|p ps']; [congruence|].
  set (nn := cprod (map (fun p => pz_num p (cis (- w))) (p :: ps'))).
  set (dd := cprod (map (fun p => pz_den p (cis (- w))) (p :: ps'))).
  assert (N1 : nn <> 0%C) by (apply forall_map_nz; exact Hz). assert (N2 : dd <> 0%C) by (apply forall_map_nz; exact Hd).
  unfold Cdiv. rewrite !Cmod_mult. rewrite Cmod_R. rewrite Cmod_inv by exact N2.
  assert (M1 : 0 < Cmod nn) by (apply Cmod_gt_0; exact N1). assert (M2 : 0 < Cmod dd) by (apply Cmod_gt_0; exact N2).
  unfold Rdiv. rewrite Rabs_mult.
  assert (M3 : 0 < Cmod nn * / Cmod dd) by (apply Rmult_lt_0_compat; [exact M1|apply Rinv_0_lt_compat; exact M2]).
  rewrite (Rabs_right (/ _)) by (left; apply Rinv_0_lt_compat; exact M3). field. split; lra.
Qed.
