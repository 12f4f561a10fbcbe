(** Proofs: the four transform classes in exact arithmetic. *)
From Coq Require Import ZArith List Bool Reals Lra Lia.
From Coquelicot Require Import Coquelicot.
From Verif Require Import Num Outcome Types Biquad State Cascade Transforms Exact RealNum SigSpec SigProofs StabProofs
  RespProofs PZSpec PZProofs RBJProofs CoefLemmas BuildProofs PolyProofs MapProofs.
Import ListNotations.
Local Open Scope R_scope.

Lemma nth_flat_map {A E} (h : A -> list E) (l : list A) :
  flat_map (fun i => match nth_error l i with Some a => h a | None => [] end) (seq 0 (length l)) = flat_map h l.
Proof.
  induction l as [|a l IH]; [reflexivity|]. cbn [length seq flat_map nth_error]. f_equal.
  rewrite <- IH, <- seq_shift, !flat_map_concat_map, map_map. reflexivity.
Qed.

Section Loops.
  Context {strict : bool}.
  Notation XS := (X strict).

  Definition xo (z : option C) : cpx xreal := match z with Some c => xc c | None => c_inf (N := XS) end.
  Definition apair (q : apt) : pzpair XS :=
    pz_pair (N := XS) (xc (fst q)) (xo (snd q)) (c_conj (N := XS) (xc (fst q))) (c_conj (N := XS) (xo (snd q))).
  Definition asingle (q : apt) : pzpair XS :=
    PZ (N := XS) (CPair (N := XS) (xc (fst q)) (c_of n0)) (CPair (N := XS) (xo (snd q)) (c_of n0)).
  Definition olist {A} (o : option A) : list A := match o with Some a => [a] | None => [] end.
  Definition nsg (sg : option apt) : Z := match sg with Some _ => 1 | None => 0 end.
  Definition alay (pts : list apt) (sg : option apt) mp extra w g : layout XS :=
    MkLayout (N := XS) (2 * Z.of_nat (length pts) + nsg sg) mp (map apair pts ++ map asingle (olist sg) ++ extra) w g.

  Lemma xnn c : c_is_nan (N := XS) (xc c) = false.
  Proof. unfold c_is_nan, xc. cbn [re im]. change xreal with (T XS). rewrite !x_nn. reflexivity. Qed.
  Lemma xinf_nn : c_is_nan (N := XS) (c_inf (N := XS)) = false.
  Proof. unfold c_is_nan, c_inf, c_of, is_nan. cbn. destruct (Req_EM_T 0 0); [reflexivity|congruence]. Qed.
  Lemma xo_nn z : c_is_nan (N := XS) (xo z) = false.
  Proof. destruct z; [apply xnn|apply xinf_nn]. Qed.
  Lemma quot_2n1 n : Z.quot (2 * Z.of_nat n + 1) 2 = Z.of_nat n.
  Proof. rewrite Z.quot_div_nonneg by lia. rewrite Z.mul_comm, Z.div_add_l by lia. change (1 / 2)%Z with 0%Z. lia. Qed.
  Lemma quot_nsg n sg : Z.quot (2 * Z.of_nat n + nsg sg) 2 = Z.of_nat n.
  Proof. destruct sg; cbn [nsg]; [apply quot_2n1|]. rewrite Z.add_0_r. apply quot_double. Qed.
  Lemma odd_nsg n sg : Z.odd (2 * Z.of_nat n + nsg sg) = match sg with Some _ => true | None => false end.
  Proof. rewrite Z.odd_add, odd_double. destruct sg; reflexivity. Qed.
  Lemma quot_up n sg : Z.quot (2 * Z.of_nat n + nsg sg + 1) 2 = (Z.of_nat n + nsg sg)%Z.
  Proof.
    destruct sg; cbn [nsg]; [|rewrite Z.add_0_r; rewrite quot_2n1; lia].
    replace (2 * Z.of_nat n + 1 + 1)%Z with (2 * (Z.of_nat n + 1))%Z by lia. apply quot_double.
  Qed.
  Lemma alay_pair pts sg mp extra w g i q : nth_error pts i = Some q ->
    lay_getPair (alay pts sg mp extra w g) (Z.of_nat i) = Val (apair q).
  Proof.
    intros H. assert (L : (i < length pts)%nat) by (apply nth_error_Some; congruence).
    unfold alay. apply getPair_nth; [lia|rewrite quot_up; destruct sg; cbn [nsg]; lia|].
    rewrite nth_error_app1 by (rewrite map_length; exact L). rewrite nth_error_map, H. reflexivity.
  Qed.
  Lemma alay_single pts q mp extra w g :
    lay_getPair (alay pts (Some q) mp extra w g) (Z.of_nat (length pts)) = Val (asingle q).
  Proof.
    unfold alay. apply getPair_nth; [lia|rewrite quot_up; cbn [nsg]; lia|].
    rewrite nth_error_app2 by (rewrite map_length; lia). rewrite map_length, Nat.sub_diag. reflexivity.
  Qed.
  Lemma pz_single_x (p z : C) : snd p = 0 -> snd z = 0 ->
    pz_single (N := XS) (xc p) (xc z) = Val (xpz (PZc p 0 z 0)).
  Proof.
    destruct p as [p1 p2], z as [z1 z2]. cbn [snd]. intros -> ->.
    unfold pz_single, cpair_single, cp_isReal. cbn. destruct (Req_EM_T 0 0); [reflexivity|congruence].
  Qed.
  Lemma xc_conj_x (c : C) : c_conj (N := XS) (xc c) = xc (Cconj c).
  Proof. reflexivity. Qed.

  (** PoleFilter.cpp:72-86, 118-132 *)
  Lemma simple_loop_x tr (D : option C -> C) pts sg mp' ex' w' g' mp (extra : list (pzpair XS)) w g :
    List.Forall (fun q : apt => tr (xc (fst q)) = xc (D (Some (fst q))) /\ tr (xo (snd q)) = xc (D (snd q))) (pts ++ olist sg) ->
    List.Forall (fun q : apt => snd (D (Some (fst q))) = 0 /\ snd (D (snd q)) = 0) (olist sg) ->
    let dig := map (fun q : apt => conj_pz (D (Some (fst q))) (D (snd q))) pts ++
               map (fun q : apt => PZc (D (Some (fst q))) 0 (D (snd q)) 0) (olist sg) in
    (length dig <= length extra)%nat ->
    simple_loop (N := XS) tr (alay pts sg mp' ex' w' g') (lay mp [] extra w g) =
    Ok (MkLayout (N := XS) (2 * Z.of_nat (length pts) + nsg sg) mp (map xpz dig ++ skipn (length dig) extra) w g) tt.
  Proof.
    intros TR RE dig L. unfold simple_loop. change (l_numPoles (alay pts sg mp' ex' w' g')) with (2 * Z.of_nat (length pts) + nsg sg)%Z.
    rewrite quot_nsg, odd_nsg. apply Forall_app in TR. destruct TR as [TR1 TR2].
    set (dp := fun q : apt => [xpz (strict := strict) (conj_pz (D (Some (fst q))) (D (snd q)))]).
    set (f := fun i => match nth_error pts i with Some q => dp q | None => [] end).
    assert (FM : flat_map f (seq 0 (length pts)) = map (fun q : apt => xpz (conj_pz (D (Some (fst q))) (D (snd q)))) pts).
    { unfold f. rewrite nth_flat_map. clear. induction pts as [|q pts IH]; [reflexivity|]. cbn [flat_map map]. rewrite IH. reflexivity. }
    unfold bind at 1. rewrite (mfor_push _ f).
    - rewrite FM, map_length. cbn [app].
      unfold dig in *. rewrite !app_length, !map_length in *. destruct sg as [q|]; cbn [olist map length nsg] in *.
      + unfold bind. rewrite alay_single. cbn [lift]. unfold ret. cbn [asingle poles zeros cfst].
        inversion TR2 as [|? ? [T1 T2] _]; subst. inversion RE as [|? ? [R1 R2] _]; subst.
        rewrite T1, T2.
        destruct (skipn (length pts) extra) as [|x ex2] eqn:SK.
        { apply (f_equal (@length _)) in SK. rewrite skipn_length in SK. simpl in SK. lia. }
        rewrite (add1_push (N := XS) (xc (D (Some (fst q)))) (xc (D (snd q))) _ _ _ _ _ _ (xpz (PZc (D (Some (fst q))) 0 (D (snd q)) 0)));
          [|apply xnn|apply xnn|apply pz_single_x; assumption].
        rewrite map_app, map_map, map_length. cbn [map]. do 2 f_equal. rewrite <- app_assoc. cbn [app]. do 2 f_equal.
        replace (length pts + 1)%nat with (length pts + 1)%nat by lia. rewrite <- skipn_skipn', SK. reflexivity.
      + rewrite Nat.add_0_r, app_nil_r, Z.add_0_r. unfold lay. rewrite !map_map, map_length. reflexivity.
    - intros i ps ex Hi Le. unfold f. unfold f in Le. destruct (nth_error pts i) as [q|] eqn:E; [|apply nth_error_None in E; lia].
      unfold bind. rewrite (alay_pair _ _ _ _ _ _ _ _ E). cbn [lift]. unfold ret. cbn [apair pz_pair poles zeros cfst].
      assert (T : tr (xc (fst q)) = xc (D (Some (fst q))) /\ tr (xo (snd q)) = xc (D (snd q))).
      { rewrite Forall_forall in TR1. apply TR1. apply (nth_error_In _ _ E). }
      destruct T as [-> ->]. unfold dp in *. cbn [length] in *. destruct ex as [|x ex]; [simpl in Le; lia|].
      rewrite (addConj_push (N := XS)); [|apply xnn|apply xnn]. reflexivity.
    - rewrite FM, map_length. unfold dig in L. rewrite app_length, !map_length in L. lia.
  Qed.

  (** ** low pass and high pass maps *)
  Lemma nz_right (c : C) : 0 < fst c -> c <> 0%C.
  Proof. intros H Q. rewrite Q in H. simpl in H. lra. Qed.
  Definition lpD (f : R) (z : option C) : C := match z with Some c => ((1 + RtoC f * c) / (1 - RtoC f * c))%C | None => RtoC (-1) end.
  Definition hpD (f : R) (z : option C) : C := match z with Some c => (- (1 + RtoC f * c) / (1 - RtoC f * c))%C | None => RtoC 1 end.
  (** left half plane, imaginary axis or infinity *)
  Definition zleft (z : option C) : Prop := match z with Some c => fst c <= 0 | None => True end.
  Lemma den_nz f (c : C) : 0 <= f -> fst c <= 0 -> (1 - RtoC f * c)%C <> 0%C.
  Proof. intros Hf Hc. apply nz_right. destruct c as [x y]. cbn in *. nra. Qed.
  Lemma xinf_eqb : c_eqb (N := XS) (c_inf (N := XS)) (c_inf (N := XS)) = true.
  Proof. unfold c_eqb, c_inf, c_of. cbn. destruct (Req_EM_T 0 0); [reflexivity|congruence]. Qed.
  Lemma bilinear_x (d : C) : (1 - d)%C <> 0%C -> bilinear (N := XS) (xc d) = xc ((1 + d) / (1 - d))%C.
  Proof.
    intros H. unfold bilinear. rewrite <- xcdiv_xc by exact H. destruct d as [x y]. unfold c_addr, c_rsub, xc. cbn.
    rewrite (Rplus_comm x 1). replace (0 + y) with y by ring. replace (0 + - y) with (- y) by ring. reflexivity.
  Qed.
  Lemma c_scale_x f (c : C) : c_scale (N := XS) (XR f) (xc c) = xc (RtoC f * c)%C.
  Proof. destruct c as [x y]. unfold c_scale, xc. cbn. f_equal; f_equal; ring. Qed.
  Lemma lp_x f z : 0 <= f -> zleft z -> lp_transform (N := XS) (XR f) (xo z) = xc (lpD f z).
  Proof.
    intros Hf Hz. unfold lp_transform. destruct z as [c|]; cbn [xo zleft lpD] in *.
    - replace (c_eqb (N := XS) (xc c) (c_inf (N := XS))) with false by reflexivity.
      rewrite c_scale_x. apply bilinear_x. apply den_nz; assumption.
    - rewrite xinf_eqb. unfold xc. cbn. reflexivity.
  Qed.
  Lemma hp_x f z : 0 <= f -> zleft z -> hp_transform (N := XS) (XR f) (xo z) = xc (hpD f z).
  Proof.
    intros Hf Hz. unfold hp_transform. destruct z as [c|]; cbn [xo zleft hpD] in *.
    - replace (c_eqb (N := XS) (xc c) (c_inf (N := XS))) with false by reflexivity.
      cbv zeta. rewrite c_scale_x. cbn [ncdiv X]. rewrite <- xcdiv_xc by (apply den_nz; assumption).
      set (d := (RtoC f * c)%C). destruct d as [x y]. unfold c_opp, c_addr, c_rsub, xc. cbn.
      f_equal; [f_equal; f_equal; ring|f_equal; f_equal; ring].
    - rewrite xinf_eqb. unfold xc. cbn. reflexivity.
  Qed.
  Lemma lpD_images f z : 0 < f -> zleft z -> images (fun u => 1 - u)%C (fun u => RtoC f * (1 + u))%C [lpD f z] z.
  Proof.
    intros Hf Hz. destruct z as [c|]; cbn [zleft lpD fac] in *.
    - pose proof (den_nz f c ltac:(lra) Hz) as N. exists (/ (1 - RtoC f * c))%C. split; [apply Cinv_nz; exact N|].
      intros u. cbn [map fac]. rewrite cprod_cons. unfold cprod. cbn [fold_right]. field. exact N.
    - assert (F : RtoC f <> 0%C) by (intros Q; apply RtoC_inj in Q; lra).
      exists (/ RtoC f)%C. split; [apply Cinv_nz, F|]. intros u. cbn [map fac]. rewrite cprod_cons. unfold cprod. cbn [fold_right].
      replace (RtoC (-1)) with (- (1))%C by (rewrite <- RtoC_opp; f_equal; lra). field. exact F.
  Qed.
  Lemma hpD_images f z : 0 < f -> zleft z -> images (fun u => 1 + u)%C (fun u => RtoC f * (1 - u))%C [hpD f z] z.
  Proof.
    intros Hf Hz. destruct z as [c|]; cbn [zleft hpD fac] in *.
    - pose proof (den_nz f c ltac:(lra) Hz) as N. exists (/ (1 - RtoC f * c))%C. split; [apply Cinv_nz; exact N|].
      intros u. cbn [map fac]. rewrite cprod_cons. unfold cprod. cbn [fold_right]. field. exact N.
    - assert (F : RtoC f <> 0%C) by (intros Q; apply RtoC_inj in Q; lra).
      exists (/ RtoC f)%C. split; [apply Cinv_nz, F|]. intros u. cbn [map fac]. rewrite cprod_cons. unfold cprod. cbn [fold_right].
      field. exact F.
  Qed.
  Lemma div_real (a b : C) : snd a = 0 -> snd b = 0 -> snd (a / b)%C = 0.
  Proof. destruct a as [a1 a2], b as [b1 b2]. cbn [snd]. intros -> ->. cbn. unfold Rdiv. ring. Qed.
  Definition zreal (z : option C) : Prop := match z with Some c => snd c = 0 | None => True end.
  Lemma lpD_real f z : zreal z -> snd (lpD f z) = 0.
  Proof. destruct z as [[x y]|]; cbn [zreal snd lpD]; [intros ->; apply div_real; cbn; ring|reflexivity]. Qed.
  Lemma hpD_real f z : zreal z -> snd (hpD f z) = 0.
  Proof. destruct z as [[x y]|]; cbn [zreal snd hpD]; [intros ->; apply div_real; cbn; ring|reflexivity]. Qed.

  Lemma lp_sym f : sym (fun u => 1 - u)%C (fun u => RtoC f * (1 + u))%C.
  Proof. intros [x y]. split; apply injective_projections; simpl; ring. Qed.
  Lemma hp_sym f : sym (fun u => 1 + u)%C (fun u => RtoC f * (1 - u))%C.
  Proof. intros [x y]. split; apply injective_projections; simpl; ring. Qed.
  Lemma cmod_le1 (u : C) : Cmod u <= 1 -> fst u * fst u + snd u * snd u <= 1.
  Proof. intros H. rewrite <- cmod2. pose proof (Cmod_ge_0 u). simpl. nra. Qed.
  Lemma c0_pair (x y : R) : (x, y) = RtoC 0 -> x = 0 /\ y = 0.
  Proof. intros Q. injection Q. auto. Qed.
  Lemma lp_right f : 0 < f -> right_half (fun u => 1 - u)%C (fun u => RtoC f * (1 + u))%C.
  Proof.
    intros Hf u Hu. apply cmod_le1 in Hu. destruct u as [x y]. cbn in *. split; [nra|]. intros [Q1 Q2].
    injection Q1. injection Q2. intros. nra.
  Qed.
  Lemma hp_right f : 0 < f -> right_half (fun u => 1 + u)%C (fun u => RtoC f * (1 - u))%C.
  Proof.
    intros Hf u Hu. apply cmod_le1 in Hu. destruct u as [x y]. cbn in *. split; [nra|]. intros [Q1 Q2].
    injection Q1. injection Q2. intros. nra.
  Qed.
  Lemma cmod_1 (u : C) : fst u * fst u + snd u * snd u = 1 -> Cmod u = 1.
  Proof. intros H. pose proof (cmod2 u) as M. pose proof (Cmod_ge_0 u). simpl in M. nra. Qed.
  Lemma lp_unit f : 0 < f -> unit_half (fun u => 1 - u)%C (fun u => RtoC f * (1 + u))%C.
  Proof.
    intros Hf u H. apply cmod_1. destruct u as [x y]. cbn in *.
    assert (E : f * (1 - (x * x + y * y)) = 0) by (rewrite <- H; ring). apply Rmult_integral in E. lra.
  Qed.
  Lemma hp_unit f : 0 < f -> unit_half (fun u => 1 + u)%C (fun u => RtoC f * (1 - u))%C.
  Proof.
    intros Hf u H. apply cmod_1. destruct u as [x y]. cbn in *.
    assert (E : f * (1 - (x * x + y * y)) = 0) by (rewrite <- H; ring). apply Rmult_integral in E. lra.
  Qed.
  Lemma upt_half_angle fr : upt fr = (cis (- (PI * fr)) * cis (- (PI * fr)))%C.
  Proof. unfold upt. rewrite <- cis_add. f_equal. ring. Qed.
  Lemma cis_nz t : cis t <> 0%C.
  Proof. intros Q. pose proof (cis_mod t) as M. rewrite Q, Cmod_0 in M. lra. Qed.
  Lemma lp_circ f fr : circ (fun u => 1 - u)%C (fun u => RtoC f * (1 + u))%C fr (sin (PI * fr)) (f * cos (PI * fr)).
  Proof.
    exists (2 * cis (- (PI * fr)))%C. split; [apply Cmult_neq_0; [|apply cis_nz]; intros Q; apply RtoC_inj in Q; lra|].
    rewrite upt_half_angle. unfold cis. rewrite cos_neg, sin_neg. pose proof (sin2_cos2 (PI * fr)) as P. unfold Rsqr in P.
    set (c := cos (PI * fr)) in *. set (s := sin (PI * fr)) in *. clearbody c s. split; apply injective_projections; cbn.
    - replace 1 with (s * s + c * c) by exact P. ring.
    - ring.
    - replace 1 with (s * s + c * c) by exact P. ring.
    - ring.
  Qed.
  Lemma hp_circ f fr : circ (fun u => 1 + u)%C (fun u => RtoC f * (1 - u))%C fr (- cos (PI * fr)) (f * sin (PI * fr)).
  Proof.
    exists ((0, 2) * cis (- (PI * fr)))%C. split; [apply Cmult_neq_0; [|apply cis_nz]; intros Q; apply c0_pair in Q; lra|].
    rewrite upt_half_angle. unfold cis. rewrite cos_neg, sin_neg. pose proof (sin2_cos2 (PI * fr)) as P. unfold Rsqr in P.
    set (c := cos (PI * fr)) in *. set (s := sin (PI * fr)) in *. clearbody c s. split; apply injective_projections; cbn.
    - replace 1 with (s * s + c * c) by exact P. ring.
    - ring.
    - replace 1 with (s * s + c * c) by exact P. ring.
    - ring.
  Qed.
End Loops.
