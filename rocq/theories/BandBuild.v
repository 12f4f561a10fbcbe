(** Proofs: the model's band pass and band stop transforms compute the maps of BandProofs. *)
From Coq Require Import ZArith List Bool Reals Lra Lia.
From Coquelicot Require Import Coquelicot.
From Verif Require Import Num Outcome Types Biquad State Cascade Transforms Exact RealNum SigSpec SigProofs StabProofs
  RespProofs PZSpec PZProofs RBJProofs CoefLemmas BuildProofs PolyProofs MapProofs TransProofs ProtoProofs ProtoBuild DesignProofs BandProofs.
Import ListNotations.
Local Open Scope R_scope.

Section XBand.
  Context {strict : bool}.
  Notation XS := (X strict).
  Local Notation xo := (TransProofs.xo (strict := strict)).
  Local Notation alay := (TransProofs.alay (strict := strict)).
  Local Notation apair := (TransProofs.apair (strict := strict)).
  Local Notation asingle := (TransProofs.asingle (strict := strict)).
  Local Notation xpz := (xpz (strict := strict)).

  Lemma addmul_x (c d : C) v : addmul (N := XS) (xc c) (XR v) (xc d) = xc (c + RtoC v * d)%C.
  Proof. destruct c, d. unfold addmul, xc. cbn. f_equal; f_equal; ring. Qed.
  Lemma c_addr_x (c : C) r : c_addr (N := XS) (xc c) (XR r) = xc (c + RtoC r)%C.
  Proof. destruct c. unfold c_addr, xc. cbn. f_equal; f_equal; ring. Qed.
  Lemma c_opp_x (c : C) : c_opp (N := XS) (xc c) = xc (- c)%C.
  Proof. destruct c. reflexivity. Qed.
  Lemma c_of_x r : c_of (N := XS) (XR r) = xc (RtoC r).
  Proof. reflexivity. Qed.
  Lemma csqrt_x (c : C) : ncsqrt XS (xc c) = xc (csq c).
  Proof. destruct c as [x y]. unfold csq, xc. cbn. destruct (Rltb y 0); reflexivity. Qed.
  Lemma cdiv_x (c d : C) : d <> 0%C -> ncdiv XS (xc c) (xc d) = xc (c / d)%C.
  Proof. apply xcdiv_xc. Qed.
  Lemma cmul_x (c d : C) : ncmul XS (xc c) (xc d) = xc (c * d)%C.
  Proof. apply xcmul_xc. Qed.

  Definition xpair (p : C * C) : cpair XS := CPair (N := XS) (xc (fst p)) (xc (snd p)).

  Lemma bp_x a b wc wc2 z : -1 < a < 1 -> 0 < b -> zleft z ->
    bp_transform (N := XS) (MkBpp (N := XS) wc wc2 (XR a) (XR b) (XR (a * a)) (XR (b * b)) (XR (a * b)) (XR (2 * (a * b)))) (xo z) = xpair (bpD a b z).
  Proof.
    intros Ha Hb Hz. unfold bp_transform. destruct z as [c|]; cbn [TransProofs.xo zleft] in *.
    - replace (c_eqb (N := XS) (xc c) (c_inf (N := XS))) with false by reflexivity.
      cbn [bp_a2 bp_b bp_b2 bp_ab_2]. rewrite bilinear_x by (apply one_c; exact Hz). cbv zeta.
      set (t := ((1 + c) / (1 - c))%C).
      change (c_of (N := XS) (nofZ XS 0)) with (xc (RtoC 0)).
      cbn [X nadd nsub nmul nofZ xadd xsub xmul xopp]. 
      rewrite !addmul_x, !c_addr_x, cmul_x, c_addr_x.
      rewrite csqrt_x, c_opp_x, !addmul_x, !c_addr_x.
      replace ((0 + RtoC (4 * (b * b * (a * a - 1) + 1)) * t + RtoC (8 * (b * b * (a * a - 1) - 1))) * t + RtoC (4 * (b * b * (a * a - 1) + 1)))%C
        with (bpV a b t) by (unfold bpV; ring).
      assert (E : (RtoC (2 * (b - 1)) * t + RtoC (2 * (1 + b)))%C <> 0%C).
      { unfold t. intros Q. apply (Cmult_neq_0 (RtoC 4) (RtoC b - c)%C C4_nz_ (b_c b Hb c Hz)).
        pose proof (one_c c Hz) as N1.
        transitivity ((RtoC (2 * (b - 1)) * ((1 + c) / (1 - c)) + RtoC (2 * (1 + b))) * (1 - c))%C; [|rewrite Q; ring].
        rewrite !RtoC_mult, RtoC_minus, RtoC_plus, C4_eq, C2_eq. field. exact N1. }
      replace (0 + RtoC (2 * (b - 1)) * t + RtoC (2 * (1 + b)))%C with (RtoC (2 * (b - 1)) * t + RtoC (2 * (1 + b)))%C
        by (ring).
      rewrite !cdiv_x by exact E. reflexivity.
    - rewrite xinf_eqb. reflexivity.
  Qed.
  Lemma bs_x a b wc wc2 z : -1 < a < 1 -> 0 < b -> zleft z ->
    bs_transform (N := XS) (MkBsp (N := XS) wc wc2 (XR a) (XR b) (XR (a * a)) (XR (b * b))) (xo z) = xpair (bsD a b z).
  Proof.
    intros Ha Hb Hz. unfold bs_transform.
    assert (T : (if c_eqb (N := XS) (xo z) (c_inf (N := XS)) then c_of (nofZ XS (-1)) else bilinear (N := XS) (xo z)) = xc (bst z)).
    { destruct z as [c|]; cbn [TransProofs.xo zleft] in *.
      - replace (c_eqb (N := XS) (xc c) (c_inf (N := XS))) with false by reflexivity. apply bilinear_x, one_c, Hz.
      - rewrite xinf_eqb. reflexivity. }
    rewrite T. cbn [bs_a bs_b bs_a2 bs_b2]. cbv zeta. set (t := bst z).
    change (c_of (N := XS) (nofZ XS 0)) with (xc (RtoC 0)).
    cbn [X nadd nsub nmul nofZ nlit nopp xadd xsub xmul xopp].
    rewrite !addmul_x, !c_addr_x, cmul_x, c_addr_x, csqrt_x, !c_scale_x, !c_addr_x, !addmul_x, c_of_x, addmul_x.
    replace ((0 + RtoC (4 * (b * b + a * a - 1)) * t + RtoC (8 * (b * b - a * a + 1))) * t + RtoC (4 * (a * a + b * b - 1)))%C
      with (bsU a b t) by (unfold bsU; ring).
    assert (E : (RtoC (b + 1) + RtoC (b - 1) * t)%C <> 0%C).
    { unfold t. destruct z as [c|]; cbn [bst zleft] in *.
      - intros Q. apply (Cmult_neq_0 (RtoC 2) (RtoC b - c)%C C2_nz_ (b_c b Hb c Hz)).
        pose proof (one_c c Hz) as N1.
        transitivity ((RtoC (b + 1) + RtoC (b - 1) * ((1 + c) / (1 - c))) * (1 - c))%C; [|rewrite Q; ring].
        rewrite RtoC_minus, RtoC_plus, C2_eq. field. exact N1.
      - rewrite <- RtoC_mult, <- RtoC_plus. intros Q. apply RtoC_inj in Q. lra. }
    rewrite !cdiv_x by exact E. unfold xpair, bsD. fold t. cbv zeta. cbn [fst snd]. reflexivity.
  Qed.

  (** ** matched pairs *)
  Lemma xneq0 r : nneqb (N := XS) (XR r) (n0 (N := XS)) = negb (if Req_EM_T r 0 then true else false).
  Proof. reflexivity. Qed.
  Lemma matched_x p : matched p -> cp_isMatchedPair (xpair p) = true.
  Proof.
    intros H. unfold cp_isMatchedPair, xpair. cbn [cfst csnd]. unfold xc at 1. cbn [im]. rewrite xneq0. destruct H as [(H1 & H2 & H3 & H4)|[H1 H2]].
    - rewrite H1. destruct (Req_EM_T 0 0); [|congruence]. cbn [negb]. unfold xc. cbn [re im]. rewrite H2. unfold nneqb. cbn.
      destruct (Req_EM_T 0 0); [|congruence]. destruct (Req_EM_T (fst (snd p)) 0); [contradiction|]. destruct (Req_EM_T (fst (fst p)) 0); [contradiction|].
      reflexivity.
    - destruct (Req_EM_T (snd (fst p)) 0); [contradiction|]. cbn [negb]. rewrite H1. rewrite xc_conj_x. unfold c_eqb, xc. cbn.
      destruct (Req_EM_T (fst (fst p)) (fst (fst p))); [|congruence]. destruct (Req_EM_T (- snd (fst p)) (- snd (fst p))); [|congruence]. reflexivity.
  Qed.
  Lemma unmatched_x p : ~ matched p -> real_pair p -> cp_isMatchedPair (xpair p) = false.
  Proof.
    intros H [[H1 H2]|[H1 H2]]; [|exfalso; apply H; right; split; assumption].
    unfold cp_isMatchedPair, xpair. cbn [cfst csnd]. unfold xc at 1. cbn [im]. rewrite xneq0, H1. destruct (Req_EM_T 0 0); [|congruence].
    cbn [negb]. unfold xc. cbn [re im]. rewrite H2. unfold nneqb. cbn. destruct (Req_EM_T 0 0); [|congruence].
    destruct (Req_EM_T (fst (snd p)) 0); [reflexivity|]. destruct (Req_EM_T (fst (fst p)) 0); [reflexivity|].
    exfalso. apply H. left. repeat split; assumption.
  Qed.
  Lemma real_pair_ok p : real_pair p -> conj_or_real (fst p) (snd p).
  Proof. intros [[H1 H2]|[H1 H2]]; [left; split; assumption|right; exact H1]. Qed.

  (** ** the loop *)
  Definition band_loop (tr : cpx xreal -> cpair XS) (zx : cpair XS -> cpx xreal) (analog : layout XS) : M (layout XS) unit :=
    mfor (zrange (Z.quot (l_numPoles analog) 2)) (fun i =>
      do pz <- lift (lay_getPair analog i);
      lay_addConj (cfst (tr (cfst (poles pz)))) (cfst (tr (cfst (zeros pz)))) ;;
      lay_addConj (csnd (tr (cfst (poles pz)))) (zx (tr (cfst (zeros pz))))) ;;
    (if Z.odd (l_numPoles analog) then
       do pz <- lift (lay_getPair analog (Z.quot (l_numPoles analog) 2));
       do pz' <- lift (lay_getPair analog (Z.quot (l_numPoles analog) 2));
       lay_add2 (tr (cfst (poles pz))) (tr (cfst (zeros pz')))
     else ret tt).
  Definition band_dp (D : option C -> C * C) (zf : C * C -> C) (q : apt) : list pzc :=
    [conj_pz (fst (D (Some (fst q)))) (fst (D (snd q))); conj_pz (snd (D (Some (fst q)))) (zf (D (snd q)))].
  Definition band_ds (D : option C -> C * C) (q : apt) : pzc :=
    PZc (fst (D (Some (fst q)))) (snd (D (Some (fst q)))) (fst (D (snd q))) (snd (D (snd q))).
  Definition band_dig D zf (pts : list apt) (sg : option apt) : list pzc :=
    flat_map (band_dp D zf) pts ++ map (band_ds D) (olist sg).
  Lemma band_dp_len D zf pts : length (flat_map (band_dp D zf) pts) = (2 * length pts)%nat.
  Proof. induction pts as [|q pts IH]; [reflexivity|]. cbn [flat_map]. rewrite app_length, IH. cbn [band_dp length]. lia. Qed.
  Lemma band_dig_len D zf pts sg : length (band_dig D zf pts sg) = (2 * length pts + length (olist sg))%nat.
  Proof. unfold band_dig. rewrite app_length, band_dp_len, map_length. reflexivity. Qed.

  Lemma band_dig_nz (D : option C -> C * C) (zf : C * C -> C) pts sg : (forall p, zf p = snd p \/ zf p = Cconj (snd p)) ->
    (forall z, zimag z -> fst (D z) <> 0%C /\ snd (D z) <> 0%C) -> List.Forall (fun q : apt => zimag (snd q)) (flat pts sg) ->
    List.Forall (fun p => zz1 p <> 0%C) (band_dig D zf pts sg).
  Proof.
    intros HZ HD H. apply flat_snd in H. destruct H as [H1 H2]. unfold band_dig. apply Forall_app. split.
    - induction pts as [|q l IH]; [constructor|]. inversion H1 as [|? ? A1 A2]; subst. destruct (HD _ A1) as [N1 N2]. cbn [flat_map band_dp app].
      constructor; [exact N1|]. constructor; [|exact (IH A2)]. cbn [conj_pz zz1]. destruct (HZ (D (snd q))) as [-> | ->]; [exact N2|].
      apply cconj_nz, N2.
    - apply Forall_map. eapply List.Forall_impl; [|exact H2]. intros q Hq. cbn [band_ds zz1]. apply (HD _ Hq).
  Qed.
  Lemma band_mfor_x tr zx D zf pts sg mp' ex' w' g' mp (extra : list (pzpair XS)) w g :
    (forall z, In z (map (fun q : apt => Some (fst q)) pts ++ map snd pts) -> tr (xo z) = xpair (D z)) ->
    (forall z, In z (map snd pts) -> zx (tr (xo z)) = xc (zf (D z))) ->
    (2 * length pts <= length extra)%nat ->
    mfor (zrange (Z.of_nat (length pts))) (fun i =>
      do pz <- lift (lay_getPair (alay pts sg mp' ex' w' g') i);
      lay_addConj (cfst (tr (cfst (poles pz)))) (cfst (tr (cfst (zeros pz)))) ;;
      lay_addConj (csnd (tr (cfst (poles pz)))) (zx (tr (cfst (zeros pz))))) (lay mp [] extra w g) =
    Ok (lay mp (map xpz (flat_map (band_dp D zf) pts)) (skipn (2 * length pts) extra) w g) tt.
  Proof.
    intros TR ZX L.
    set (f := fun i => match nth_error pts i with Some q => map xpz (band_dp D zf q) | None => [] end).
    assert (FM : flat_map f (seq 0 (length pts)) = map xpz (flat_map (band_dp D zf) pts)).
    { unfold f. rewrite nth_flat_map. clear. induction pts as [|q pts IH]; [reflexivity|]. cbn [flat_map]. rewrite map_app, IH. reflexivity. }
    rewrite (mfor_push _ f).
    - rewrite FM, map_length, band_dp_len. reflexivity.
    - intros i ps ex Hi Le. unfold f. unfold f in Le. destruct (nth_error pts i) as [q|] eqn:E; [|apply nth_error_None in E; lia].
      pose proof (nth_error_In _ _ E) as IN.
      unfold bind at 1. rewrite (alay_pair _ _ _ _ _ _ _ _ E). cbn [lift]. unfold ret. cbn [TransProofs.apair pz_pair poles zeros cfst].
      assert (ZI : In (snd q) (map (snd : apt -> option C) pts)) by (apply (in_map (snd : apt -> option C)); exact IN).
      rewrite (ZX (snd q) ZI), (TR (snd q)) by (apply in_or_app; right; exact ZI).
      change (xc (fst q)) with (xo (Some (fst q))).
      rewrite (TR (Some (fst q))) by (apply in_or_app; left; apply in_map_iff; exists q; auto).
      unfold xpair. cbn [cfst csnd]. cbn [map band_dp length] in *.
      destruct ex as [|x1 [|x2 ex]]; [simpl in Le; lia|simpl in Le; lia|].
      unfold bind. rewrite (addConj_push (N := XS)); [|apply xnn|apply xnn].
      rewrite (addConj_push (N := XS)); [|apply xnn|apply xnn]. rewrite <- app_assoc. reflexivity.
    - rewrite FM, map_length, band_dp_len. exact L.
  Qed.
  Definition zs_of (pts : list apt) : list (option C) := map (fun q : apt => Some (fst q)) pts ++ map snd pts.

  Lemma band_loop_x tr zx D zf pts sg mp' ex' w' g' mp (extra : list (pzpair XS)) w g :
    (forall z, In z (zs_of (pts ++ olist sg)) -> tr (xo z) = xpair (D z)) ->
    (forall z, In z (zs_of (pts ++ olist sg)) -> zx (tr (xo z)) = xc (zf (D z))) ->
    (2 * length pts + length (olist sg) <= length extra)%nat ->
    List.Forall (fun q : apt => matched (D (Some (fst q))) /\ matched (D (snd q))) (olist sg) ->
    let dig := band_dig D zf pts sg in
    band_loop tr zx (alay pts sg mp' ex' w' g') (lay mp [] extra w g) =
    Ok (lay mp (map xpz dig) (skipn (length dig) extra) w g) tt.
  Proof.
    intros TR ZX L MA dig. unfold band_loop. change (l_numPoles (alay pts sg mp' ex' w' g')) with (2 * Z.of_nat (length pts) + nsg sg)%Z.
    rewrite quot_nsg, odd_nsg. unfold bind at 1.
    assert (SUB : forall z, In z (zs_of pts) -> In z (zs_of (pts ++ olist sg))).
    { unfold zs_of. intros z. rewrite !map_app, !in_app_iff. tauto. }
    rewrite (band_mfor_x _ _ D zf); [|intros z Hz; apply TR, SUB, Hz|intros z Hz; apply ZX, SUB; unfold zs_of; apply in_or_app; right; exact Hz|lia].
    unfold dig. rewrite band_dig_len. unfold band_dig. destruct sg as [q|]; cbn [olist map length] in *.
    - unfold bind. rewrite alay_single. cbn [lift]. unfold ret. cbn [TransProofs.asingle poles zeros cfst].
      change (xc (fst q)) with (xo (Some (fst q))).
      rewrite (TR (Some (fst q))) by (unfold zs_of; apply in_or_app; left; apply in_map_iff; exists q; split; [reflexivity|apply in_or_app; right; left; reflexivity]).
      rewrite (TR (snd q)) by (unfold zs_of; apply in_or_app; right; apply (in_map (snd : apt -> option C)); apply in_or_app; right; left; reflexivity).
      inversion MA as [|? ? [M1 M2] _]; subst.
      destruct (skipn (2 * length pts) extra) as [|x ex2] eqn:SK.
      { apply (f_equal (@length _)) in SK. rewrite skipn_length in SK. simpl in SK. lia. }
      rewrite (add2_push (N := XS)); [|apply matched_x; assumption|apply matched_x; assumption].
      rewrite map_app. cbn [map]. rewrite <- skipn_skipn', SK. reflexivity.
    - rewrite Nat.add_0_r, app_nil_r. reflexivity.
  Qed.
  (** an odd order with an unmatched pair throws *)
  Lemma band_loop_throws tr zx D zf pts q mp' ex' w' g' mp (extra : list (pzpair XS)) w g :
    (forall z, In z (zs_of (pts ++ [q])) -> tr (xo z) = xpair (D z)) ->
    (forall z, In z (zs_of (pts ++ [q])) -> zx (tr (xo z)) = xc (zf (D z))) ->
    (2 * length pts + 1 <= length extra)%nat ->
    cp_isMatchedPair (xpair (D (Some (fst q)))) = false \/ cp_isMatchedPair (xpair (D (snd q))) = false ->
    exists e s, band_loop tr zx (alay pts (Some q) mp' ex' w' g') (lay mp [] extra w g) = Throw e s.
  Proof.
    intros TR ZX L MA. unfold band_loop. change (l_numPoles (alay pts (Some q) mp' ex' w' g')) with (2 * Z.of_nat (length pts) + nsg (Some q))%Z.
    rewrite quot_nsg, odd_nsg. unfold bind at 1.
    assert (SUB : forall z, In z (zs_of pts) -> In z (zs_of (pts ++ [q]))).
    { unfold zs_of. intros z. rewrite !map_app, !in_app_iff. tauto. }
    rewrite (band_mfor_x _ _ D zf); [|intros z Hz; apply TR, SUB, Hz|intros z Hz; apply ZX, SUB; unfold zs_of; apply in_or_app; right; exact Hz|lia].
    unfold bind. rewrite alay_single. cbn [lift]. unfold ret. cbn [TransProofs.asingle poles zeros cfst].
    change (xc (fst q)) with (xo (Some (fst q))).
    rewrite (TR (Some (fst q))) by (unfold zs_of; apply in_or_app; left; apply in_map_iff; exists q; split; [reflexivity|apply in_or_app; right; left; reflexivity]).
    rewrite (TR (snd q)) by (unfold zs_of; apply in_or_app; right; apply (in_map (snd : apt -> option C)); apply in_or_app; right; left; reflexivity).
    unfold lay_add2. unfold bind at 1, get. unfold lay at 1. cbn [l_numPoles]. rewrite odd_double. unfold throw_if at 1. unfold bind at 1, ret at 1.
    destruct (cp_isMatchedPair (xpair (D (Some (fst q))))); cbn [negb throw_if].
    - destruct MA as [MA|MA]; [discriminate|]. rewrite MA. unfold bind, ret. cbn [negb throw_if]. unfold throw. do 2 eexists. reflexivity.
    - unfold bind, throw. do 2 eexists. reflexivity.
  Qed.

  (** block of the loop *)
  Lemma band_dig_block A B D zf pts sg : sym A B -> (forall p, zf p = snd p \/ zf p = Cconj (snd p)) ->
    List.Forall (fun q : apt => images A B [fst (D (Some (fst q))); snd (D (Some (fst q)))] (Some (fst q)) /\ images A B [fst (D (snd q)); snd (D (snd q))] (snd q)) (pts ++ olist sg) ->
    block A B (band_dig D zf pts sg) (flat pts sg).
  Proof.
    intros S Z F. apply Forall_app in F. destruct F as [F1 F2]. unfold band_dig. apply block_flat.
    - eapply List.Forall_impl; [|exact F1]. intros q [H1 H2]. unfold band_dp. apply (band_block A B S _ _ _ (snd (D (snd q)))); [exact H1|exact H2|apply Z].
    - destruct sg as [q|]; [|apply block_nil]. inversion F2 as [|? ? [H1 H2]]; subst. apply band_single; assumption.
  Qed.
  Lemma band_dig_ok D zf pts sg : List.Forall (fun q : apt => real_pair (D (Some (fst q))) /\ real_pair (D (snd q))) (olist sg) ->
    List.Forall pz_ok (band_dig D zf pts sg).
  Proof.
    intros H. unfold band_dig. apply Forall_app. split.
    - apply Forall_forall. intros p Hp. apply in_flat_map in Hp. destruct Hp as [q [_ [<-|[<-|[]]]]]; split; right; reflexivity.
    - apply Forall_map. eapply List.Forall_impl; [|exact H]. intros q [H1 H2]. split; apply real_pair_ok; assumption.
  Qed.
End XBand.
