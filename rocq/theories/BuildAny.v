(** Proofs: low pass and high pass designs step by step, in any arithmetic. *)
From Coq Require Import ZArith List Bool Lia.
From Verif Require Import Num Outcome Types Biquad State Cascade Transforms Butterworth Chebyshev PoleFilter
  LayoutProofs BuildProofs.
Import ListNotations.
Local Open Scope Z_scope.

Lemma quot_nat2 n : Z.quot (Z.of_nat n) 2 = Z.of_nat (n / 2).
Proof. rewrite Z.quot_div_nonneg by lia. rewrite Nat2Z.inj_div. reflexivity. Qed.
Lemma odd_nat2 n : Z.odd (Z.of_nat n) = Nat.odd n.
Proof.
  rewrite <- Z.bit0_odd, <- Nat.bit0_odd, Z.bit0_odd, Nat.bit0_odd.
  induction n as [|n IH]; [reflexivity|]. rewrite Nat2Z.inj_succ, Z.odd_succ, Nat.odd_succ, <- Z.negb_odd, IH, <- Nat.negb_odd. reflexivity.
Qed.
Definition o1 {A} (o : option A) : list A := match o with Some a => [a] | None => [] end.
Lemma nth_flat_map1 {A E} (h : A -> list E) (l : list A) :
  flat_map (fun i => match nth_error l i with Some a => h a | None => [] end) (seq 0 (length l)) = flat_map h l.
Proof.
  induction l as [|a l IH]; [reflexivity|]. cbn [length seq flat_map nth_error]. f_equal.
  rewrite <- IH, <- seq_shift, !flat_map_concat_map, map_map. reflexivity.
Qed.
Lemma flat_map_1 {A E} (h : A -> E) l : flat_map (fun a => [h a]) l = map h l.
Proof. induction l as [|a l IH]; [reflexivity|]. cbn. rewrite IH. reflexivity. Qed.

Section Any.
  Context {N : num}.
  Notation Cn := (cpx (T N)).
  (** pole and zero *)
  Notation qpt := (Cn * Cn)%type.
  Definition apr (q : qpt) : pzpair N := pz_pair (fst q) (snd q) (c_conj (fst q)) (c_conj (snd q)).
  Definition asg (q : qpt) : pzpair N := PZ (CPair (fst q) (c_of n0)) (CPair (snd q) (c_of n0)).
  Definition ns (sg : option qpt) : Z := match sg with Some _ => 1 | None => 0 end.
  Definition blay (pts : list qpt) (sg : option qpt) mp extra w g : layout N :=
    MkLayout (2 * Z.of_nat (length pts) + ns sg) mp (map apr pts ++ map asg (o1 sg) ++ extra) w g.
  Definition nn (q : qpt) : Prop := c_is_nan (fst q) = false /\ c_is_nan (snd q) = false.
  Definition isreal (q : qpt) : Prop := neqb N (im (fst q)) n0 = true /\ neqb N (im (snd q)) n0 = true.

  Lemma quot_ns n sg : Z.quot (2 * Z.of_nat n + ns sg) 2 = Z.of_nat n.
  Proof.
    destruct sg; cbn [ns]; [|rewrite Z.add_0_r; apply quot_double].
    rewrite Z.quot_div_nonneg by lia. rewrite Z.mul_comm, Z.div_add_l by lia. change (1 / 2)%Z with 0%Z. lia.
  Qed.
  Lemma odd_ns n sg : Z.odd (2 * Z.of_nat n + ns sg) = match sg with Some _ => true | None => false end.
  Proof. rewrite Z.odd_add, odd_double. destruct sg; reflexivity. Qed.
  Lemma up_ns n sg : Z.quot (2 * Z.of_nat n + ns sg + 1) 2 = Z.of_nat n + ns sg.
  Proof.
    destruct sg; cbn [ns].
    - replace (2 * Z.of_nat n + 1 + 1) with (2 * (Z.of_nat n + 1)) by lia. apply quot_double.
    - replace (2 * Z.of_nat n + 0 + 1) with (2 * Z.of_nat n + ns (Some (c_of n0, c_of n0))) by (cbn; lia). rewrite quot_ns. lia.
  Qed.
  Lemma o1_len sg : Z.of_nat (length (o1 sg)) = ns sg.
  Proof. destruct sg; reflexivity. Qed.
  Lemma single_ok q : neqb N n0 n0 = true -> isreal q -> pz_single (fst q) (snd q) = Val (asg q).
  Proof.
    intros H0 [H1 H2]. unfold pz_single, cpair_single, cp_isReal, c_of. cbn [cfst csnd im]. rewrite H0, H1, H2. reflexivity.
  Qed.
  Lemma blay_pair pts sg mp extra w g i q : nth_error pts i = Some q ->
    lay_getPair (blay pts sg mp extra w g) (Z.of_nat i) = Val (apr q).
  Proof.
    intros H. assert (L : (i < length pts)%nat) by (apply nth_error_Some; congruence).
    unfold blay. apply BuildProofs.getPair_nth; [lia|rewrite up_ns; destruct sg; cbn [ns]; lia|].
    rewrite nth_error_app1 by (rewrite map_length; exact L). rewrite nth_error_map, H. reflexivity.
  Qed.
  Lemma blay_single pts q mp extra w g : lay_getPair (blay pts (Some q) mp extra w g) (Z.of_nat (length pts)) = Val (asg q).
  Proof.
    unfold blay. apply BuildProofs.getPair_nth; [lia|rewrite up_ns; cbn [ns]; lia|].
    rewrite nth_error_app2 by (rewrite map_length; lia). rewrite map_length, Nat.sub_diag. reflexivity.
  Qed.

  (** a loop over pairs, then perhaps a single pole *)
  Lemma push_all (body : Z -> M (layout N) unit) (single : M (layout N) unit) pts sg mp (extra : list (pzpair N)) w g :
    neqb N n0 n0 = true ->
    (forall i q l, nth_error pts i = Some q -> body (Z.of_nat i) l = lay_addConj (fst q) (snd q) l) ->
    (forall q l, sg = Some q -> single l = lay_add1 (fst q) (snd q) l) ->
    List.Forall nn (pts ++ o1 sg) -> List.Forall isreal (o1 sg) -> (length pts + length (o1 sg) <= length extra)%nat ->
    (mfor (zrange (Z.of_nat (length pts))) body ;; if (match sg with Some _ => true | None => false end) then single else ret tt) (lay mp [] extra w g) =
    Ok (blay pts sg mp (skipn (length pts + length (o1 sg)) extra) w g) tt.
  Proof.
    intros H0 HB HS NN RE L. unfold bind at 1. apply Forall_app in NN. destruct NN as [N1 N2].
    set (f := fun i => match nth_error pts i with Some q => [apr q] | None => [] end).
    assert (FM : flat_map f (seq 0 (length pts)) = map apr pts) by (unfold f; rewrite (nth_flat_map1 (fun q => [apr q])); apply flat_map_1).
    rewrite (mfor_push _ f).
    - rewrite FM, map_length. cbn [app]. destruct sg as [q|]; cbn [o1 length map] in *.
      + rewrite (HS q _ eq_refl). destruct (skipn (length pts) extra) as [|x ex2] eqn:SK.
        { apply (f_equal (@length _)) in SK. rewrite skipn_length in SK. simpl in SK. lia. }
        inversion N2 as [|? ? [A1 A2] _]; subst. inversion RE as [|? ? R1 _]; subst.
        rewrite (add1_push _ _ _ _ _ _ _ _ (asg q) A1 A2 (single_ok q H0 R1)). unfold blay. rewrite map_length. cbn [ns o1 map app].
        do 2 f_equal. do 2 f_equal. rewrite <- skipn_skipn', SK. reflexivity.
      + rewrite Nat.add_0_r. unfold ret, lay, blay. cbn [ns o1 map app]. rewrite map_length, Z.add_0_r. reflexivity.
    - intros i ps ex Hi Le. unfold f in *. destruct (nth_error pts i) as [q|] eqn:E; [|apply nth_error_None in E; lia].
      rewrite (HB i q _ E). cbn [length] in Le. destruct ex as [|x ex]; [simpl in Le; lia|].
      rewrite List.Forall_forall in N1. destruct (N1 q (nth_error_In _ _ E)) as [A1 A2]. rewrite addConj_push by assumption. reflexivity.
    - rewrite FM, map_length. lia.
  Qed.

  Definition trq (tr : Cn -> Cn) (q : qpt) : qpt := (tr (fst q), tr (snd q)).
  Lemma o1_map (h : qpt -> qpt) sg : o1 (option_map h sg) = map h (o1 sg).
  Proof. destruct sg; reflexivity. Qed.
  Lemma simple_loop_any tr pts sg mp' ex' w' g' mp (extra : list (pzpair N)) w g :
    neqb N n0 n0 = true -> List.Forall nn (map (trq tr) (pts ++ o1 sg)) -> List.Forall isreal (map (trq tr) (o1 sg)) ->
    (length pts + length (o1 sg) <= length extra)%nat ->
    simple_loop tr (blay pts sg mp' ex' w' g') (lay mp [] extra w g) =
    Ok (blay (map (trq tr) pts) (option_map (trq tr) sg) mp (skipn (length pts + length (o1 sg)) extra) w g) tt.
  Proof.
    intros H0 NN RE L. unfold simple_loop. change (l_numPoles (blay pts sg mp' ex' w' g')) with (2 * Z.of_nat (length pts) + ns sg).
    rewrite quot_ns, odd_ns. rewrite map_app in NN.
    assert (E : match sg with Some _ => true | None => false end = match option_map (trq tr) sg with Some _ => true | None => false end) by (destruct sg; reflexivity).
    rewrite E. pose proof (map_length (trq tr) pts) as ML. rewrite <- ML.
    replace (length (o1 sg)) with (length (o1 (option_map (trq tr) sg))) in * by (rewrite o1_map; apply map_length).
    rewrite push_all; try rewrite o1_map; try assumption.
    - reflexivity.
    - intros i q l H. rewrite nth_error_map in H. destruct (nth_error pts i) as [p|] eqn:Ep; [|discriminate]. inversion H; subst q.
      unfold bind. rewrite (blay_pair _ _ _ _ _ _ _ _ Ep). cbn [lift]. reflexivity.
    - intros q l H. destruct sg as [p|]; [|discriminate]. inversion H; subst q. unfold bind. rewrite map_length, blay_single. reflexivity.
    - rewrite o1_map, !map_length in *. lia.
  Qed.

  (** Butterworth.cpp:49-68 *)
  Definition bw_pt (n i : nat) : option Cn :=
    npolar N (nofZ N 1) (nadd N (npi_2 N) (ndiv N (nmul N (nofZ N (2 * Z.of_nat i + 1)) (npi N)) (nofZ N (2 * Z.of_nat n)))).
  Definition bw_sg (n : nat) : option qpt := if Nat.odd n then Some (c_of (nofZ N (-1)), c_inf) else None.
  Lemma bw_design_any n np0 ga db np1 mp (storage : list (pzpair N)) w g cs :
    neqb N n0 n0 = true -> nn (c_of (nofZ N (-1)), c_inf) -> List.Forall (fun c => c_is_nan c = false) cs ->
    np0 <> Z.of_nat n -> in_int (2 * Z.of_nat n) = true ->
    length cs = (n / 2)%nat -> (forall i c, nth_error cs i = Some c -> bw_pt n i = Some c) ->
    (length cs + length (o1 (bw_sg n)) <= length storage)%nat ->
    bw_lp_design (Z.of_nat n) (MkProto np0 ga db (MkLayout np1 mp storage w g)) =
    Ok (MkProto (Z.of_nat n) ga db (blay (map (fun c => (c, c_inf)) cs) (bw_sg n) mp (skipn (length cs + length (o1 (bw_sg n))) storage) w g)) tt.
  Proof.
    intros H0 [HI1 HI2] NC H I LC CS L. unfold bw_lp_design. unfold bind at 1, get. cbn [p_np].
    replace (np0 =? Z.of_nat n) with false by (symmetry; apply Z.eqb_neq; exact H). cbn [negb].
    unfold bind at 1, modify at 1. cbn [p_gain p_db p_lay]. unfold bind at 1. unfold on_lay at 1, zoom, modify.
    unfold int_ub. rewrite I. cbn [or_ub]. unfold bind at 1, ret at 1. unfold on_lay, zoom, p_set_lay. cbn [p_lay p_np p_gain p_db].
    unfold bw_lp_poles. rewrite quot_nat2, odd_nat2, <- LC.
    replace (Nat.odd n) with (match bw_sg n with Some _ => true | None => false end) by (unfold bw_sg; destruct (Nat.odd n); reflexivity).
    change (lay_reset (MkLayout np1 mp storage w g)) with (lay mp [] storage w g).
    replace (length cs) with (length (map (fun c : Cn => (c, c_inf (N := N))) cs)) by apply map_length.
    rewrite push_all; try rewrite map_length.
    - reflexivity.
    - exact H0.
    - intros i q l E. rewrite nth_error_map in E. destruct (nth_error cs i) as [c|] eqn:Ec; [|discriminate]. inversion E; subst q.
      unfold bind. specialize (CS i c Ec). unfold bw_pt in CS. rewrite CS. reflexivity.
    - intros q l E. unfold bw_sg in E. destruct (Nat.odd n); inversion E. reflexivity.
    - apply Forall_app. split.
      + apply Forall_map. eapply Forall_impl; [|exact NC]. intros c Hc. split; [exact Hc|exact HI2].
      + unfold bw_sg. destruct (Nat.odd n); constructor; [|constructor]. split; assumption.
    - unfold bw_sg. destruct (Nat.odd n); constructor; [|constructor]. split; exact H0.
    - exact L.
  Qed.

  (** what setLayout makes of a digital layout *)
  Lemma setup_list k FO n q ana np prs ex w g bs r : n <= FO ->
    is_nan (nofZ N 0) = false -> is_nan (nofZ N 1) = false ->
    ana_design k n q (pf_ana (pf_init k FO)) = Ok ana tt ->
    dig_transform (snd k) q (p_lay ana) (pf_dig (pf_init k FO)) = Ok (MkLayout np (maxDigital (snd k) FO) (prs ++ ex) w g) tt ->
    Z.of_nat (length prs) = Z.quot (np + 1) 2 ->
    Forall2 (fun p b => pair_bq p = Val b) prs bs ->
    (0 < length bs)%nat -> Z.of_nat (length bs) <= maxStagesOf (snd k) FO ->
    let all := bs ++ repeat idb (Z.to_nat (maxStagesOf (snd k) FO) - length bs) in
    cas_response (MkCascade (Z.of_nat (length bs)) (maxStagesOf (snd k) FO) all) (ndiv N w (nmul N (nofZ N 2) (npi N))) = Val r ->
    exists p, setupN k FO (Some n) q (pf_init k FO) = Ok p tt /\
      pf_cas p = MkCascade (Z.of_nat (length bs)) (maxStagesOf (snd k) FO) (scale_head (ndiv N g (ncabs N r)) all).
  Proof.
    intros HO N0 N1 HA HD LN F L0 LM all R. pose proof (F2_length _ _ _ _ _ F) as LF.
    set (d := MkLayout np (maxDigital (snd k) FO) (prs ++ ex) w g) in *.
    assert (NP : npairs d = Z.of_nat (length bs)).
    { unfold npairs. change (l_numPoles d) with np. rewrite <- LN, LF. reflexivity. }
    pose proof (setLayout_eq N0 N1 d (pf_cas (pf_init k FO)) prs bs r) as S.
    assert (CM : c_maxStages (pf_cas (pf_init (N := N) k FO)) = maxStagesOf (snd k) FO) by reflexivity.
    rewrite NP, CM in S.
    replace (Z.to_nat (maxStagesOf (snd k) FO - Z.of_nat (length bs))) with (Z.to_nat (maxStagesOf (snd k) FO) - length bs)%nat in S by lia.
    specialize (S ltac:(unfold pf_init, setCascadeStorage; cbn [pf_cas c_stages]; rewrite repeat_length; lia) ltac:(lia)).
    rewrite Nat2Z.id in S.
    specialize (S ltac:(unfold d; cbn [l_pairs]; rewrite firstn_app, <- LF, Nat.sub_diag, firstn_O, app_nil_r; apply firstn_all)).
    specialize (S ltac:(lia) F R).
    replace (Z.of_nat (length bs) =? 0) with false in S by (symmetry; apply Z.eqb_neq; lia).
    eexists. split.
    - unfold setupN. replace (FO <? n) with false by (symmetry; apply Z.ltb_ge; lia).
      unfold throw_if. unfold bind at 1, ret at 1. unfold base_setup. unfold bind at 1. unfold on_ana, zoom.
      rewrite HA. unfold bind at 1, get at 1. cbn [pf_ana pf_cas pf_dig].
      unfold bind at 1. unfold on_dig, zoom. cbn [pf_dig pf_cas pf_ana]. rewrite HD.
      unfold bind at 1, get. unfold on_cas, zoom. cbn [pf_dig pf_cas pf_ana]. fold d. rewrite S. reflexivity.
    - cbn [pf_cas]. reflexivity.
  Qed.
  Lemma setup_any k FO n q ana pts sg ex w g bs r : n <= FO ->
    is_nan (nofZ N 0) = false -> is_nan (nofZ N 1) = false ->
    ana_design k n q (pf_ana (pf_init k FO)) = Ok ana tt ->
    dig_transform (snd k) q (p_lay ana) (pf_dig (pf_init k FO)) = Ok (blay pts sg (maxDigital (snd k) FO) ex w g) tt ->
    Forall2 (fun p b => pair_bq p = Val b) (map apr pts ++ map asg (o1 sg)) bs ->
    (0 < length bs)%nat -> Z.of_nat (length bs) <= maxStagesOf (snd k) FO ->
    let all := bs ++ repeat idb (Z.to_nat (maxStagesOf (snd k) FO) - length bs) in
    cas_response (MkCascade (Z.of_nat (length bs)) (maxStagesOf (snd k) FO) all) (ndiv N w (nmul N (nofZ N 2) (npi N))) = Val r ->
    exists p, setupN k FO (Some n) q (pf_init k FO) = Ok p tt /\
      pf_cas p = MkCascade (Z.of_nat (length bs)) (maxStagesOf (snd k) FO) (scale_head (ndiv N g (ncabs N r)) all).
  Proof.
    intros HO N0 N1 HA HD F L0 LM all R. unfold blay in HD. rewrite app_assoc in HD.
    apply (setup_list k FO n q ana _ _ _ w g bs r HO N0 N1 HA HD); try assumption.
    rewrite up_ns, <- o1_len, app_length, !map_length. lia.
  Qed.
End Any.
