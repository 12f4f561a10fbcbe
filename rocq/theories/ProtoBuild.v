(** Proofs: the design functions of the analog prototypes in exact arithmetic. *)
From Coq Require Import ZArith List Bool Reals Lra Lia.
From Coquelicot Require Import Coquelicot.
From Verif Require Import Num Outcome Types Transforms Butterworth Chebyshev Exact RealNum SigSpec ChebSpec
  SigProofs RespProofs PZProofs RBJProofs CoefLemmas BuildProofs PolyProofs MapProofs TransProofs ProtoProofs.
Import ListNotations.
Local Open Scope R_scope.

Lemma quot_nat n : Z.quot (Z.of_nat n) 2 = Z.of_nat (n / 2).
Proof. rewrite Z.quot_div_nonneg by lia. rewrite Nat2Z.inj_div. reflexivity. Qed.
Lemma odd_nat n : Z.odd (Z.of_nat n) = Nat.odd n.
Proof.
  induction n as [|n IH]; [reflexivity|]. rewrite Nat2Z.inj_succ, Z.odd_succ, Nat.odd_succ, <- Z.negb_odd, IH, <- Nat.negb_odd. reflexivity.
Qed.
Lemma theta_Z n i : IZR (2 * Z.of_nat i + 1) * PI / IZR (2 * Z.of_nat n) = theta n i.
Proof.
  unfold theta. rewrite INR_IZR_INZ, mult_IZR, <- INR_IZR_INZ. do 4 f_equal. lia.
Qed.

Section Build.
  Context {strict : bool}.
  Notation XS := (X strict).
  Local Notation xo := (TransProofs.xo (strict := strict)).
  Local Notation apair := (TransProofs.apair (strict := strict)).
  Local Notation asingle := (TransProofs.asingle (strict := strict)).
  Local Notation alay := (TransProofs.alay (strict := strict)).

  Definition nup (n : nat) : nat := (n / 2 + (if Nat.odd n then 1 else 0))%nat.
  Lemma nup_eq n : nup n = ((n + 1) / 2)%nat.
  Proof.
    unfold nup. pose proof (Nat.div_mod n 2 ltac:(lia)) as D. rewrite <- Nat.bit0_mod, Nat.bit0_odd in D.
    destruct (Nat.odd n); simpl Nat.b2n in D.
    - replace (n + 1)%nat with ((n / 2 + 1) * 2)%nat by lia. rewrite Nat.div_mul; lia.
    - replace (n + 1)%nat with (1 + n / 2 * 2)%nat by lia. rewrite Nat.div_add by lia. change (1 / 2)%nat with 0%nat. lia.
  Qed.
  Lemma pz_single_o (p : C) z : snd p = 0 -> zreal z ->
    pz_single (N := XS) (xc p) (xo z) = Val (asingle (p, z)).
  Proof.
    destruct p as [p1 p2]. cbn [snd]. intros -> Hz. destruct z as [[z1 z2]|]; cbn [zreal snd] in Hz; [subst z2|];
    unfold pz_single, cpair_single, cp_isReal; cbn; destruct (Req_EM_T 0 0); try reflexivity; congruence.
  Qed.
  Lemma ana_build (body : Z -> M (layout XS) unit) (single : M (layout XS) unit) n (q : nat -> apt) (q0 : apt) mp (extra : list (pzpair XS)) w g :
    (forall i, (i < n / 2)%nat -> body (Z.of_nat i) = lay_addConj (N := XS) (xc (fst (q i))) (xo (snd (q i)))) ->
    (single = lay_add1 (N := XS) (xc (fst q0)) (xo (snd q0))) ->
    snd (fst q0) = 0 -> zreal (snd q0) -> (nup n <= length extra)%nat ->
    (mfor (zrange (Z.quot (Z.of_nat n) 2)) body ;; if Z.odd (Z.of_nat n) then single else ret tt) (lay mp [] extra w g) =
    Ok (alay (pts_of n q) (sg_of n q0) mp (skipn (nup n) extra) w g) tt.
  Proof.
    intros HB -> R1 R2 L. rewrite quot_nat, odd_nat. unfold bind at 1.
    assert (FM : flat_map (fun i => [apair (q i)]) (seq 0 (n / 2)) = map apair (pts_of n q)).
    { unfold pts_of. induction (seq 0 (n / 2)) as [|i l IH]; [reflexivity|]. cbn [flat_map map app]. rewrite IH. reflexivity. }
    assert (LP : length (pts_of n q) = (n / 2)%nat) by (unfold pts_of; rewrite map_length, seq_length; reflexivity).
    unfold nup in *.
    rewrite (mfor_push _ (fun i => [apair (q i)])).
    - rewrite FM, map_length, LP. cbn [app]. unfold sg_of, TransProofs.alay. revert L. destruct (Nat.odd n); intros L; cbn [olist map app nsg].
      + destruct (skipn (n / 2) extra) as [|x ex2] eqn:SK.
        { apply (f_equal (@length _)) in SK. rewrite skipn_length in SK. cbn [length] in SK. idtac. lia. }
        rewrite (add1_push (N := XS) (xc (fst q0)) (xo (snd q0)) _ _ _ _ _ _ (asingle q0));
          [|apply xnn|apply xo_nn|destruct q0; apply pz_single_o; assumption].
        rewrite map_length, LP. do 2 f_equal. do 2 f_equal. rewrite <- skipn_skipn', SK. reflexivity.
      + unfold ret, lay. rewrite map_length, LP, Nat.add_0_r, Z.add_0_r. reflexivity.
    - intros i ps ex Hi Le. rewrite HB by exact Hi. cbn [length] in Le. destruct ex as [|x ex]; [simpl in Le; lia|].
      rewrite (addConj_push (N := XS)); [|apply xnn|apply xo_nn]. reflexivity.
    - rewrite FM, map_length, LP. destruct (Nat.odd n); lia.
  Qed.
  Lemma lay_reset_lay np mp (st : list (pzpair XS)) w g : lay_reset (MkLayout np mp st w g) = lay mp [] st w g.
  Proof. reflexivity. Qed.

  Lemma on_lay_ok {A} (m : M (layout XS) A) a b c l l' x : m l = Ok l' x -> on_lay m (MkProto a b c l) = Ok (MkProto a b c l') x.
  Proof. intros H. unfold on_lay, zoom, p_set_lay. cbn [p_lay p_np p_gain p_db]. rewrite H. reflexivity. Qed.

  (** Butterworth.cpp:49-68 *)
  Lemma bw_lp_design_x n np0 ga db np1 mp (storage : list (pzpair XS)) w g :
    np0 <> Z.of_nat n -> in_int (2 * Z.of_nat n) = true -> (nup n <= length storage)%nat ->
    bw_lp_design (N := XS) (Z.of_nat n) (MkProto np0 ga db (MkLayout np1 mp storage w g)) =
    Ok (MkProto (Z.of_nat n) ga db (alay (pts_of n (bw_q n)) (sg_of n bw_q0) mp (skipn (nup n) storage) w g)) tt.
  Proof.
    intros H I L. unfold bw_lp_design. unfold bind at 1, get. cbn [p_np].
    replace (np0 =? Z.of_nat n)%Z with false by (symmetry; apply Z.eqb_neq; exact H). cbn [negb].
    unfold bind at 1, modify at 1. cbn [p_gain p_db p_lay]. unfold bind at 1.
    rewrite (on_lay_ok (modify lay_reset) _ _ _ _ (lay mp [] storage w g) tt) by reflexivity.
    unfold int_ub. rewrite I. cbn [or_ub]. unfold bind at 1, ret at 1. apply on_lay_ok.
    unfold bw_lp_poles. rewrite (ana_build _ _ n (bw_q n) bw_q0); try exact L.
    - reflexivity.
    - intros i Hi. cbn [npolar X nofZ nmul ndiv nadd npi npi_2]. unfold xdiv. cbn [xmul]. rewrite Req0_false.
      + cbn [xadd]. rewrite theta_Z. rewrite xpolar_cis. reflexivity.
      + apply not_0_IZR. pose proof (half_lt _ _ Hi). lia.
    - reflexivity.
    - reflexivity.
    - exact Logic.I.
  Qed.

  (** ** Chebyshev I *)
  Definition c1_eps (r : R) : R := sqrt (Rpower 10 (r / 10) - 1).
  Definition ch_v (n : nat) (eps : R) : R := arcsinh (1 / eps) / INR n.
  Definition c1_norm (n : nat) (r : R) : R := if Nat.odd n then 1 else Rpower 10 (- r / 20).
  Lemma rpower_gt1 x : 0 < x -> 1 < Rpower 10 x.
  Proof. intros H. rewrite <- (Rpower_O 10) by lra. apply Rpower_lt; lra. Qed.
  Lemma c1_eps_pos r : 0 < r -> 0 < c1_eps r.
  Proof. intros H. apply sqrt_lt_R0. pose proof (rpower_gt1 (r / 10) ltac:(lra)). lra. Qed.
  Lemma arcsinh_pos x : 0 < x -> 0 < arcsinh x.
  Proof. intros H. rewrite <- arcsinh_0. apply arcsinh_lt. exact H. Qed.
  Lemma ch_v_pos n eps : (0 < n)%nat -> 0 < eps -> 0 < ch_v n eps.
  Proof. intros Hn He. apply Rdiv_lt_0_compat; [apply arcsinh_pos, Rdiv_lt_0_compat; lra|apply lt_0_INR; lia]. Qed.
  Lemma ch_v_sinh n eps : (0 < n)%nat -> sinh (INR n * ch_v n eps) = 1 / eps.
  Proof.
    intros Hn. unfold ch_v. replace (INR n * (arcsinh (1 / eps) / INR n)) with (arcsinh (1 / eps)).
    - apply sinh_arcsinh.
    - field. apply not_0_INR. lia.
  Qed.
  Lemma xasinh x : 0 < x -> iir_asinh (N := XS) (XR x) = XR (arcsinh x).
  Proof.
    intros H. unfold iir_asinh. cbn -[sqrt ln Rltb Req0]. pose proof (pow2_ge_0 x). rewrite rltb_false by nra.
    cbn -[sqrt ln Rltb Req0]. pose proof (sqrt_pos (x * x + 1)).
    rewrite rltb_false, Req0_false by lra. unfold arcsinh. do 4 f_equal. ring.
  Qed.
  Lemma xdiv_r a b : b <> 0 -> xdiv (XR a) (XR b) = XR (a / b).
  Proof. intros H. cbn. rewrite Req0_false by exact H. reflexivity. Qed.
  Lemma xsqrt_r a : 0 <= a -> xsqrt (XR a) = XR (sqrt a).
  Proof. intros H. cbn. rewrite rltb_false by lra. reflexivity. Qed.
  Lemma inv_exp x : 1 / exp (- x * (1 / 10) * ln 10) = Rpower 10 (x / 10).
  Proof.
    unfold Rpower. replace (- x * (1 / 10) * ln 10) with (- (x / 10 * ln 10)) by field. rewrite exp_Ropp. field.
    apply Rgt_not_eq, exp_pos.
  Qed.
  Lemma c1_consts_x n r : (0 < n)%nat -> 0 < r ->
    c1_lp_consts (N := XS) (Z.of_nat n) (XR r) = (XR (- sinh (ch_v n (c1_eps r))), XR (cosh (ch_v n (c1_eps r)))).
  Proof.
    intros Hn Hr. unfold c1_lp_consts. pose proof (rpower_gt1 (r / 10) ltac:(lra)) as R1. pose proof (c1_eps_pos r Hr) as EP.
    cbn [X nsqrt nsub ndiv nexp nmul nopp nlit nln10 nofZ nsinh ncosh xopp xmul xexp].
    pose proof (exp_pos (- r * (1 / 10) * ln 10)). rewrite (xdiv_r 1) by lra. rewrite inv_exp. cbn [xsub].
    rewrite xsqrt_r by lra. fold (c1_eps r). rewrite xdiv_r by lra. rewrite xasinh by (apply Rdiv_lt_0_compat; lra).
    rewrite xdiv_r by (apply not_0_IZR; lia). rewrite <- INR_IZR_INZ. reflexivity.
  Qed.
  Lemma bind_split {S A} (m : M S A) (b : bool) (s k1 k2 : M S unit) st :
    (m ;; if b then s ;; k1 else k2) st = ((m ;; if b then s else ret tt) ;; if b then k1 else k2) st.
  Proof. unfold bind. destruct (m st); try reflexivity. destruct b; reflexivity. Qed.
  Lemma theta_shift n i : (0 < n)%nat -> IZR (2 * Z.of_nat i + 1 - Z.of_nat n) * PI / IZR (2 * Z.of_nat n) = theta n i - PI / 2.
  Proof.
    intros Hn. rewrite <- theta_Z, minus_IZR, !mult_IZR. field. apply not_0_IZR. lia.
  Qed.
  Lemma cos_shift t : cos (t - PI / 2) = sin t.
  Proof. rewrite cos_minus, cos_PI2, sin_PI2. ring. Qed.
  Lemma cos_shift' t : cos (PI / 2 - t) = sin t.
  Proof. rewrite cos_minus, cos_PI2, sin_PI2. ring. Qed.
  Lemma sin_shift' t : sin (PI / 2 - t) = cos t.
  Proof. rewrite sin_minus, cos_PI2, sin_PI2. ring. Qed.
  Lemma sin_shift t : sin (t - PI / 2) = - cos t.
  Proof. rewrite sin_minus, cos_PI2, sin_PI2. ring. Qed.
  (** ChebyshevI.cpp:48-85 *)
  Lemma c1_lp_design_x n r np0 ga db np1 mp (storage : list (pzpair XS)) w g : (0 < n)%nat -> 0 < r ->
    np0 <> Z.of_nat n -> in_int (2 * Z.of_nat n) = true -> (nup n <= length storage)%nat ->
    let v := ch_v n (c1_eps r) in
    c1_lp_design (N := XS) (Z.of_nat n) (XR r) (MkProto np0 ga db (MkLayout np1 mp storage w g)) =
    Ok (MkProto (N := XS) (Z.of_nat n) ga (XR r) (alay (pts_of n (c1_q n v)) (sg_of n (c1_q0 v)) mp (skipn (nup n) storage) (XR 0) (XR (c1_norm n r)))) tt.
  Proof.
    intros Hn Hr H I L v. unfold c1_lp_design. unfold bind at 1, get. cbn [p_np].
    replace (np0 =? Z.of_nat n)%Z with false by (symmetry; apply Z.eqb_neq; exact H). cbn [negb orb].
    unfold bind at 1, modify at 1. cbn [p_gain p_db p_lay]. unfold bind at 1.
    rewrite (on_lay_ok (modify lay_reset) _ _ _ _ (lay mp [] storage w g) tt) by reflexivity.
    rewrite c1_consts_x by assumption. fold v.
    unfold int_ub. rewrite I. cbn [or_ub]. unfold bind at 1, ret at 1. apply on_lay_ok.
    unfold c1_lp_poles. rewrite bind_split. unfold bind at 1. rewrite (ana_build _ _ n (c1_q n v) (c1_q0 v)); try exact L.
    - rewrite odd_nat. unfold c1_norm. destruct (Nat.odd n); [reflexivity|]. unfold modify. cbn [X npow nofZ ndiv nopp xopp].
      rewrite xdiv_r by lra. unfold xpow. destruct (Req0 (- r / 20)) eqn:Q; [unfold Req0 in Q; destruct (Req_EM_T (- r / 20) 0); [lra|discriminate]|].
      rewrite Req0_false, rltb_false by lra. reflexivity.
    - intros i Hi. cbn [X ncos nsin nofZ nmul ndiv npi xmul]. rewrite xdiv_r by (apply not_0_IZR; lia).
      rewrite theta_shift by exact Hn. cbn [xcos xsin xmul]. rewrite cos_shift, sin_shift. unfold c1_q. cbn [fst snd]. f_equal.
      unfold xc, ccos. cbn. do 2 f_equal; ring.
    - reflexivity.
    - reflexivity.
    - exact Logic.I.
  Qed.

  (** ** Chebyshev II *)
  Definition c2_eps (d : R) : R := 1 / sqrt (Rpower 10 (d / 10) - 1).
  Lemma c2_eps_pos d : 0 < d -> 0 < c2_eps d.
  Proof. intros H. apply Rdiv_lt_0_compat; [lra|]. apply (c1_eps_pos d H). Qed.
  Lemma c2_consts_x n d : (0 < n)%nat -> 0 < d ->
    c2_lp_consts (N := XS) (Z.of_nat n) (XR d) = (XR (- sinh (ch_v n (c2_eps d))), XR (cosh (ch_v n (c2_eps d)))).
  Proof.
    intros Hn Hd. unfold c2_lp_consts. pose proof (rpower_gt1 (d / 10) ltac:(lra)) as R1. pose proof (c2_eps_pos d Hd) as EP.
    cbn [X nsqrt nsub ndiv nexp nmul nopp nlit nln10 nofZ nsinh ncosh xopp xmul xexp xsub].
    replace (exp (d * (1 / 10) * ln 10)) with (Rpower 10 (d / 10)) by (unfold Rpower; f_equal; field).
    rewrite (xdiv_r 1) by lra. rewrite xsqrt_r by (left; apply Rdiv_lt_0_compat; lra).
    rewrite sqrt_div, sqrt_1 by lra. fold (c2_eps d). rewrite xdiv_r by lra. rewrite xasinh by (apply Rdiv_lt_0_compat; lra).
    rewrite xdiv_r by (apply not_0_IZR; lia). rewrite <- INR_IZR_INZ. reflexivity.
  Qed.
  (** ChebyshevII.cpp:52-85 *)
  Lemma c2_lp_design_x n d np0 ga db np1 mp (storage : list (pzpair XS)) w g : (0 < n)%nat -> 0 < d ->
    np0 <> Z.of_nat n -> in_int (2 * Z.of_nat n) = true -> (nup n <= length storage)%nat ->
    let v := ch_v n (c2_eps d) in
    c2_lp_design (N := XS) (Z.of_nat n) (XR d) (MkProto np0 ga db (MkLayout np1 mp storage w g)) =
    Ok (MkProto (N := XS) (Z.of_nat n) ga (XR d) (alay (pts_of n (c2_q n v)) (sg_of n (c2_q0 v)) mp (skipn (nup n) storage) w g)) tt.
  Proof.
    intros Hn Hd H I L v. assert (HV : 0 < v) by (apply ch_v_pos; [exact Hn|apply c2_eps_pos; exact Hd]).
    unfold c2_lp_design. unfold bind at 1, get. cbn [p_np].
    replace (np0 =? Z.of_nat n)%Z with false by (symmetry; apply Z.eqb_neq; exact H). cbn [negb orb].
    unfold bind at 1, modify at 1. cbn [p_gain p_db p_lay]. unfold bind at 1.
    rewrite (on_lay_ok (modify lay_reset) _ _ _ _ (lay mp [] storage w g) tt) by reflexivity.
    rewrite c2_consts_x by assumption. fold v.
    unfold int_ub. rewrite I. cbn [or_ub]. unfold bind at 1, ret at 1. apply on_lay_ok.
    unfold c2_lp_poles. rewrite (ana_build _ _ n (c2_q n v) (c2_q0 v)); try exact L.
    - reflexivity.
    - intros i Hi. pose proof (half_lt _ _ Hi) as Hi'. pose proof (half_odd _ _ Hi) as Ho.
      pose proof (theta_range n i Hi') as TR. pose proof (sinh_lt v HV) as SH.
      assert (SP : 0 < sin (theta n i)) by (apply sin_gt_0; lra).
      cbn [X ncos nsin nofZ nmul ndiv nadd npi xmul]. rewrite xdiv_r by (apply not_0_IZR; lia). cbn [xmul].
      replace (IZR (2 * Z.of_nat i + 1 - Z.of_nat n) * (PI / IZR (2 * Z.of_nat n))) with (theta n i - PI / 2)
        by (rewrite <- theta_shift by exact Hn; unfold Rdiv; ring).
      replace (IZR (2 * Z.of_nat i + 1) * (PI / IZR (2 * Z.of_nat n))) with (theta n i)
        by (rewrite <- theta_Z; unfold Rdiv; ring).
      cbn [xcos xsin xmul xadd]. rewrite cos_shift, sin_shift.
      assert (CN : cos (theta n i) <> 0) by (apply cos_theta_nz; lia).
      assert (D : 0 < (- sinh v * sin (theta n i)) * (- sinh v * sin (theta n i)) + cosh v * - cos (theta n i) * (cosh v * - cos (theta n i))).
      { assert (0 < sinh v * sin (theta n i)) by (apply Rmult_lt_0_compat; assumption).
        pose proof (Rle_0_sqr (cosh v * - cos (theta n i))) as Q. unfold Rsqr in Q. nra. }
      rewrite !xdiv_r by lra. unfold c2_q. cbn [fst snd TransProofs.xo]. f_equal. unfold xc, ccos.
      set (s := sin (theta n i)) in *. set (c := cos (theta n i)) in *. set (sh := sinh v) in *. set (ch := cosh v) in *.
      cbn. f_equal; f_equal; field; nra.
      unfold xc. cbn [fst snd]. f_equal. f_equal. field. exact CN.
    - pose proof (sinh_lt v HV). unfold c2_q0. cbn [fst snd TransProofs.xo]. unfold c_of, xc. cbn [X ndiv nofZ RtoC fst snd]. rewrite xdiv_r by lra.
      do 2 f_equal. f_equal. field. lra.
    - reflexivity.
    - exact Logic.I.
  Qed.
End Build.

(** ** shelves *)
Definition ls_q (n : nat) (rp rz : R) (i : nat) : apt :=
  (Cconj (ci * (RtoC rp * cis (theta n i)))%C, Some (Cconj (ci * (RtoC rz * cis (theta n i)))%C)).
Definition ls_q0 (rp rz : R) : apt := (RtoC (- rp), Some (RtoC (- rz))).
Lemma ls_mag n rp rz x y : (0 < n)%nat ->
  mag (flat (pts_of n (ls_q n rp rz)) (sg_of n (ls_q0 rp rz))) x y ^ 2 =
  (x ^ (2 * n) + (rz * y) ^ (2 * n)) / (x ^ (2 * n) + (rp * y) ^ (2 * n)).
Proof.
  intros Hn. rewrite mag_sq. rewrite (bw_facs _ hc_pole n (ls_q n rp rz) (ls_q0 rp rz) rp x y Hn).
  - f_equal. apply (bw_facs (snd : apt -> option C) hc_zero n (ls_q n rp rz) (ls_q0 rp rz) rz x y Hn); [|reflexivity].
    intros i _. right. reflexivity.
  - intros i _. right. reflexivity.
  - reflexivity.
Qed.

Lemma xpow_pos a b : 0 < a -> xpow (XR a) (XR b) = XR (Rpower a b).
Proof.
  intros H. simpl. destruct (Req0 b) eqn:E.
  - unfold Req0 in E. destruct (Req_EM_T b 0); [|discriminate]. subst. rewrite Rpower_O by lra. reflexivity.
  - rewrite Req0_false, rltb_false by lra. reflexivity.
Qed.
Section Shelf.
  Notation XS := (X false).
  Local Notation xo := (TransProofs.xo (strict := false)).
  Local Notation alay := (TransProofs.alay (strict := false)).
  Definition ls_g (n : nat) (G : R) : R := Rpower (Rpower 10 (G / 20)) (1 / (2 * INR n)).
  Lemma ls_g_pos n G : 0 < ls_g n G. Proof. apply exp_pos. Qed.
  Lemma ls_g_pow n G : (0 < n)%nat -> ls_g n G ^ (2 * n) = Rpower 10 (G / 20).
  Proof.
    intros Hn. unfold ls_g. rewrite <- Rpower_pow by apply exp_pos. rewrite Rpower_mult, mult_INR.
    replace (1 / (2 * INR n) * (INR 2 * INR n)) with 1 by (simpl; field; apply not_0_INR; lia).
    apply Rpower_1. apply exp_pos.
  Qed.
  (** Butterworth.cpp:78-103 *)
  Lemma bw_ls_design_x n G np0 ga db np1 mp (storage : list (pzpair XS)) w g : (0 < n)%nat ->
    np0 <> Z.of_nat n -> in_int (2 * Z.of_nat n) = true -> (nup n <= length storage)%nat ->
    let c := ls_g n G in
    bw_ls_design (N := XS) (Z.of_nat n) (XR G) (MkProto np0 ga db (MkLayout np1 mp storage w g)) =
    Ok (MkProto (N := XS) (Z.of_nat n) (XR G) db (alay (pts_of n (ls_q n (/ c) c)) (sg_of n (ls_q0 (/ c) c)) mp (skipn (nup n) storage) w g)) tt.
  Proof.
    intros Hn H I L c. unfold bw_ls_design. unfold bind at 1, get. cbn [p_np].
    replace (np0 =? Z.of_nat n)%Z with false by (symmetry; apply Z.eqb_neq; exact H). cbn [negb orb].
    unfold bind at 1, modify at 1. cbn [p_gain p_db p_lay]. unfold bind at 1.
    rewrite (on_lay_ok (modify lay_reset) _ _ _ _ (lay mp [] storage w g) tt) by reflexivity.
    rewrite (Z.mul_comm _ 2). unfold int_ub. rewrite I. cbn [or_ub]. unfold bind at 1, ret at 1.
    assert (C0 : 0 < c) by apply ls_g_pos.
    assert (E : npow XS (npow XS (nofZ XS 10) (ndiv XS (XR G) (nofZ XS 20))) (ndiv XS (nofZ XS 1) (nofZ XS (2 * Z.of_nat n))) = XR c).
    { cbn [X npow ndiv nofZ]. rewrite !xdiv_r by (try lra; apply not_0_IZR; lia). rewrite mult_IZR, <- INR_IZR_INZ.
      rewrite !xpow_pos by (try lra; apply exp_pos). reflexivity. }
    rewrite E. cbn [X ndiv nopp nofZ xopp]. rewrite xdiv_r by lra.
    apply on_lay_ok. unfold bw_ls_poles. rewrite (ana_build _ _ n (ls_q n (/ c) c) (ls_q0 (/ c) c)); try exact L.
    - reflexivity.
    - intros i Hi. cbn [X nofZ nlit npi nmul nsub ndiv npolar]. rewrite xdiv_r by (apply not_0_IZR; lia). cbn [xsub xmul].
      replace (2 * (Z.of_nat i + 1) - 1)%Z with (2 * Z.of_nat i + 1)%Z by lia.
      replace (PI * (1 / 2 - IZR (2 * Z.of_nat i + 1) / IZR (2 * Z.of_nat n))) with (PI / 2 - theta n i)
        by (rewrite <- theta_Z; field; apply not_0_IZR; lia).
      unfold xpolar. cbn [andb or_ub xcos xsin xmul]. unfold ls_q. cbn [fst snd TransProofs.xo].
      rewrite cos_shift', sin_shift'.
      replace (xc (Cconj (ci * (RtoC (/ c) * cis (theta n i)))%C)) with (Cx (XR (-1 / c * sin (theta n i))) (XR (-1 / c * cos (theta n i)))).
      2:{ unfold xc, cis. cbn [Cconj Cmult ci RtoC fst snd]. f_equal; f_equal; field; lra. }
      replace (xc (Cconj (ci * (RtoC c * cis (theta n i)))%C)) with (Cx (XR (- c * sin (theta n i))) (XR (- c * cos (theta n i)))).
      2:{ unfold xc, cis. cbn [Cconj Cmult ci RtoC fst snd]. f_equal; f_equal; field; lra. }
      reflexivity.
    - unfold ls_q0. cbn [fst snd TransProofs.xo]. unfold c_of, xc. cbn [RtoC fst snd].
      replace (-1 / c) with (- / c) by (field; lra). reflexivity.
    - reflexivity.
    - reflexivity.
  Qed.
End Shelf.
