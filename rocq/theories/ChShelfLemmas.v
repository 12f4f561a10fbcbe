(** Lemmas: Chebyshev shelves in exact arithmetic. *)
From Coq Require Import ZArith List Bool Reals Lra Lia.
From Coquelicot Require Import Coquelicot.
From Verif Require Import Num Outcome Types Biquad State Cascade Transforms Butterworth Chebyshev PoleFilter Exact RealNum SigSpec ChebSpec BandSpec ChShelfSpec
  SigProofs StabProofs RespProofs PZSpec PZProofs RBJProofs CoefLemmas BuildProofs PolyProofs MapProofs TransProofs ProtoProofs ProtoBuild
  DesignProofs DesignSpec DesignLemmas DesignFinal BandProofs BandBuild BandSetup BandLemmas.
Import ListNotations.
Local Open Scope R_scope.

(** ** constants: sinh (n u) = sqrt (1/top) / eps, sinh (n v) = 1/eps *)
Definition cs_ok (G db : R) : Prop := 0 < db < Rabs G.
Definition cs_e (G db : R) : R := sqrt (cs_eps2 G db).
Definition cs_u (n : nat) (G db : R) : R := arcsinh (Rpower 10 (- G / 20) / cs_e G db) / INR n.
Definition cs_v (n : nat) (G db : R) : R := arcsinh (1 / cs_e G db) / INR n.

Lemma rp_sq x : Rpower 10 x * Rpower 10 x = Rpower 10 (2 * x).
Proof. rewrite <- Rpower_plus. f_equal. ring. Qed.
Lemma rp_inc x y : x < y -> Rpower 10 x < Rpower 10 y.
Proof. intros H. apply Rpower_lt; lra. Qed.
Lemma rp_pos x : 0 < Rpower 10 x. Proof. apply exp_pos. Qed.
Lemma cs_inv x : / Rpower 10 (x / 10) = Rpower 10 (- x / 20) * Rpower 10 (- x / 20).
Proof. rewrite rp_sq, <- Rpower_Ropp. f_equal. field. Qed.
(** either 1/top < 1/edge < 1 or 1 < 1/edge < 1/top *)
Lemma cs_cases G db : cs_ok G db ->
  (0 < / top2 G < / edge2 G db /\ / edge2 G db < 1) \/ (1 < / edge2 G db < / top2 G).
Proof.
  intros [H1 H2]. unfold top2, edge2. rewrite <- !Rpower_Ropp. pose proof (rp_pos (- (G / 10))).
  assert (E : Rpower 10 0 = 1) by (apply Rpower_O; lra). rewrite <- E.
  destruct (Rlt_dec G 0) as [L|L].
  - right. rewrite Rabs_left in H2 by exact L. split; apply rp_inc; lra.
  - left. rewrite Rabs_right in H2 by lra. split; [split; [exact H|]|]; apply rp_inc; lra.
Qed.
Lemma cs_eps2_pos G db : cs_ok G db -> 0 < cs_eps2 G db.
Proof.
  intros H. unfold cs_eps2. destruct (cs_cases G db H) as [[? ?]|[? ?]].
  - set (a := / top2 G) in *. set (b := / edge2 G db) in *. replace ((a - b) / (b - 1)) with ((b - a) / (1 - b)) by (field; lra).
    apply Rdiv_lt_0_compat; lra.
  - apply Rdiv_lt_0_compat; lra.
Qed.
Lemma cs_e_pos G db : cs_ok G db -> 0 < cs_e G db.
Proof. intros H. apply sqrt_lt_R0, cs_eps2_pos, H. Qed.
Lemma cs_e_sq G db : cs_ok G db -> cs_e G db * cs_e G db = cs_eps2 G db.
Proof. intros H. apply sqrt_sqrt. left. apply cs_eps2_pos, H. Qed.
Lemma cs_u_pos n G db : (0 < n)%nat -> cs_ok G db -> 0 < cs_u n G db.
Proof.
  intros Hn H. apply Rdiv_lt_0_compat; [|apply lt_0_INR; lia]. apply arcsinh_pos, Rdiv_lt_0_compat; [apply rp_pos|apply cs_e_pos, H].
Qed.
Lemma cs_v_pos n G db : (0 < n)%nat -> cs_ok G db -> 0 < cs_v n G db.
Proof.
  intros Hn H. apply Rdiv_lt_0_compat; [|apply lt_0_INR; lia]. apply arcsinh_pos, Rdiv_lt_0_compat; [lra|apply cs_e_pos, H].
Qed.
Lemma cs_u_sinh n G db : (0 < n)%nat -> sinh (INR n * cs_u n G db) = Rpower 10 (- G / 20) / cs_e G db.
Proof.
  intros Hn. unfold cs_u. replace (INR n * (arcsinh (Rpower 10 (- G / 20) / cs_e G db) / INR n)) with (arcsinh (Rpower 10 (- G / 20) / cs_e G db))
    by (field; apply not_0_INR; lia). apply sinh_arcsinh.
Qed.
Lemma cs_v_sinh n G db : (0 < n)%nat -> sinh (INR n * cs_v n G db) = 1 / cs_e G db.
Proof.
  intros Hn. unfold cs_v. replace (INR n * (arcsinh (1 / cs_e G db) / INR n)) with (arcsinh (1 / cs_e G db))
    by (field; apply not_0_INR; lia). apply sinh_arcsinh.
Qed.

Section Consts.
  Context {strict : bool}.
  Notation XS := (X strict).
  Lemma xlog_r a : 0 < a -> xlog (XR a) = XR (ln a).
  Proof. intros H. cbn. rewrite rltb_false, Req0_false by lra. reflexivity. Qed.
  Lemma xneqb_r (a b : R) : a <> b -> nneqb (N := XS) (XR a) (XR b) = true.
  Proof. intros H. unfold nneqb. cbn. destruct (Req_EM_T a b); [contradiction|reflexivity]. Qed.
  Lemma rltb_dec a b : Rltb a b = if Rlt_dec a b then true else false. Proof. reflexivity. Qed.
  Lemma ln_root a n : 0 < a -> (0 < n)%nat -> ln (Rpower a (1 / INR n)) = ln a / INR n.
  Proof. intros Ha Hn. unfold Rpower. rewrite ln_exp. field. apply not_0_INR. lia. Qed.

  (** ChebyshevI.cpp:115-140 *)
  Lemma cs_consts_x n G db : (0 < n)%nat -> cs_ok G db ->
    ls_consts (N := XS) (Z.of_nat n) (XR G) (XR db) =
    (XR (sinh (cs_u n G db)), XR (cosh (cs_u n G db)), (XR (sinh (cs_v n G db)), XR (cosh (cs_v n G db)))).
  Proof.
    intros Hn H. pose proof (cs_e_pos G db H) as EP. pose proof (cs_e_sq G db H) as ES. pose proof (cs_cases G db H) as CC.
    pose proof (cs_eps2_pos G db H) as E2.
    set (B := if Rlt_dec G 0 then G + db else G - db).
    assert (HB : Rpower 10 (- B / 20) * Rpower 10 (- B / 20) = / edge2 G db) by (unfold edge2; fold B; symmetry; apply cs_inv).
    assert (HT : Rpower 10 (- G / 20) * Rpower 10 (- G / 20) = / top2 G) by (unfold top2; symmetry; apply cs_inv).
    set (Gb := Rpower 10 (- B / 20)) in *. set (g := Rpower 10 (- G / 20)) in *.
    assert (GbP : 0 < Gb) by apply rp_pos. assert (gP : 0 < g) by apply rp_pos.
    assert (Gb1 : Gb <> 1) by (intros Q; rewrite Q in HB; destruct CC; lra).
    assert (NI : 0 < INR n) by (apply lt_0_INR; lia).
    set (e := cs_e G db) in *.
    assert (E2' : (g * g - Gb * Gb) / (Gb * Gb - 1 * 1) = cs_eps2 G db) by (rewrite HB, HT; unfold cs_eps2; f_equal; ring).
    (* Gb sqrt (1 + 1/e^2) = sqrt (1 + (g/e)^2) *)
    assert (SQ : Gb * sqrt (1 + 1 / (e * e)) = sqrt ((g / e) * (g / e) + 1)).
    { assert (D : (Gb * Gb - 1) <> 0) by (rewrite HB; destruct CC; lra).
      assert (P0 : 0 < 1 / (e * e)) by (apply Rdiv_lt_0_compat; nra).
      rewrite <- (sqrt_square Gb) at 1 by lra. rewrite <- sqrt_mult by nra. f_equal.
      replace (g / e * (g / e)) with (g * g / (e * e)) by (field; lra). rewrite ES, <- E2'. 
      assert (g * g - Gb * Gb <> 0) by (rewrite HB, HT; destruct CC; lra). field. split; [lra|].  lra. }
    unfold ls_consts. cbv zeta. change (nopp XS (XR G)) with (XR (- G) : T XS).
    assert (AB : nabs XS (XR (- G) : T XS) = (XR (Rabs G) : T XS)) by (cbn; rewrite Rabs_Ropp; reflexivity).
    rewrite AB.
    assert (GE : ngeb (N := XS) (XR db) (XR (Rabs G)) = false).
    { unfold ngeb. cbn [X nleb]. unfold xleb, xltb, xeqb. rewrite rltb_false by (destruct H; lra). destruct (Req_EM_T (Rabs G) db); [destruct H; lra|reflexivity]. }
    rewrite GE.
    assert (DB : (if nltb XS (XR (- G) : T XS) (nofZ XS 0) then nopp XS (XR db : T XS) else (XR db : T XS)) = (XR (B - G) : T XS)).
    { cbn. rewrite rltb_dec. unfold B. destruct H as [H1 H2].
      destruct (Rlt_dec (- G) 0), (Rlt_dec G 0); cbn; f_equal; try lra.
      assert (G = 0) by lra. subst G. rewrite Rabs_R0 in H2. lra. }
    rewrite DB. cbn [X nofZ nsub ndiv npow xsub]. rewrite !(xdiv_r _ 20) by lra.
    replace ((- G - (B - G)) / 20) with (- B / 20) by field.
    rewrite !(xpow_pos 10) by lra. fold Gb. fold g.
    rewrite xneqb_r by exact Gb1.
    rewrite <- (INR_IZR_INZ n). rewrite (xdiv_r 1 (INR n)) by lra. rewrite (xpow_pos 1) by lra.
    replace (Rpower 1 (1 / INR n)) with 1 by (unfold Rpower; rewrite ln_1, Rmult_0_r, exp_0; reflexivity).
    cbn [nsqrt nmul nadd ndiv nsub X xmul xadd xsub]. rewrite (xdiv_r (g * g - Gb * Gb)) by (rewrite HB; destruct CC; lra).
    rewrite E2'. rewrite xsqrt_r by lra. fold (cs_e G db). fold e. cbn [xmul].
    rewrite !(xdiv_r _ e) by lra. rewrite (xdiv_r 1 (e * e)) by nra. cbn [xadd].
    assert (P0 : 0 < 1 / (e * e)) by (apply Rdiv_lt_0_compat; nra). rewrite xsqrt_r by lra. cbn [xmul xadd].
    rewrite SQ.
    assert (P1 : 0 < g / e) by (apply Rdiv_lt_0_compat; lra). assert (P2 : 0 < 1 / e) by (apply Rdiv_lt_0_compat; lra).
    pose proof (sqrt_pos (g / e * (g / e) + 1)) as P3. pose proof (sqrt_pos (1 + 1 / (e * e))) as P4.
    rewrite !xpow_pos by lra. rewrite (xdiv_r _ 1) by lra.
    cbn [nlog X]. rewrite !xlog_r by (try (apply Rdiv_lt_0_compat; [|lra]); apply exp_pos).
    rewrite Rdiv_1, !ln_root by (assumption || lra).
    replace (ln (g / e + sqrt (g / e * (g / e) + 1)) / INR n) with (cs_u n G db).
    2:{ unfold cs_u, arcsinh. fold g. fold e. do 4 f_equal. ring. }
    replace (ln (1 / e + sqrt (1 + 1 / (e * e))) / INR n) with (cs_v n G db).
    2:{ unfold cs_v, arcsinh. fold e. do 4 f_equal. field. lra. }
    reflexivity.
  Qed.
End Consts.

(** ** points and magnitude *)
Definition cs_q (n : nat) (u v : R) (i : nat) : apt := ((ci * ccos u (theta n i))%C, Some (ci * ccos v (theta n i))%C).
Definition cs_q0 (u v : R) : apt := (RtoC (- sinh u), Some (RtoC (- sinh v))).
Lemma cs_good n u v : 0 < u -> 0 < v -> good (pts_of n (cs_q n u v)) (sg_of n (cs_q0 u v)).
Proof.
  intros Hu Hv. pose proof (sinh_lt u Hu). pose proof (sinh_lt v Hv). apply good_of.
  - intros i Hi. apply half_lt in Hi. pose proof (sin_theta_pos n i Hi). unfold cs_q, ccos. split; cbn; nra.
  - split; cbn; lra.
  - split; reflexivity.
Qed.
Lemma cs_facs (h : apt -> option C) (hc : forall q, h (conj_apt q) = option_map Cconj (h q)) n q q0 v x y : (0 < n)%nat ->
  (forall i, h (q i) = Some (ci * ccos v (theta n i))%C) -> h q0 = Some (RtoC (- sinh v)) ->
  Cmod (facs (0%R, x) (RtoC y) (map h (flat (pts_of n q) (sg_of n q0)))) ^ 2 =
  rprod (map (fun k => Cmod (RtoC x - ccos v (theta n k) * RtoC y)%C ^ 2) (seq 0 n)).
Proof.
  intros Hn H H0. apply (facs_rot h hc n q q0 (fun k => ccos v (theta n k))).
  - intros i _. left. apply H.
  - intros i Hi. rewrite theta_mirror by (apply half_lt, Hi). apply ccos_mirror.
  - intros O. rewrite H0, (theta_mid n O). unfold ccos. rewrite cos_PI2, sin_PI2. f_equal. apply injective_projections; simpl; ring.
Qed.
Lemma cs_mag n u v x y : (0 < n)%nat ->
  mag (flat (pts_of n (cs_q n u v)) (sg_of n (cs_q0 u v))) x y ^ 2 =
  rprod (map (fun k => Cmod (RtoC x - ccos v (theta n k) * RtoC y)%C ^ 2) (seq 0 n)) /
  rprod (map (fun k => Cmod (RtoC x - ccos u (theta n k) * RtoC y)%C ^ 2) (seq 0 n)).
Proof.
  intros Hn. rewrite mag_sq. f_equal.
  - apply (cs_facs (snd : apt -> option C) hc_zero); reflexivity || exact Hn.
  - f_equal. apply (cs_facs _ hc_pole); reflexivity || exact Hn.
Qed.
Definition csq n G db := cs_q n (cs_u n G db) (cs_v n G db).
Definition csq0 n G db := cs_q0 (cs_u n G db) (cs_v n G db).
Definition csqs n G db := flat (pts_of n (csq n G db)) (sg_of n (csq0 n G db)).
Lemma cshelf_mag n G db x y : (0 < n)%nat -> cs_ok G db -> ~ (x = 0 /\ y = 0) ->
  mag (csqs n G db) x y ^ 2 = cshelf2 n G db (ratio x y).
Proof.
  intros Hn H Hxy. unfold csqs, csq, csq0. rewrite cs_mag by exact Hn. unfold ratio, cshelf2. destruct (Req_EM_T y 0) as [->|Z].
  - rewrite !prod_zero. pose proof (pow_even_pos x n ltac:(intros Q; apply Hxy; auto)). field. lra.
  - rewrite !cheb_prod' by (first [assumption|apply cs_u_pos; assumption|apply cs_v_pos; assumption]).
    rewrite cs_u_sinh, cs_v_sinh by exact Hn. pose proof (cs_e_pos G db H) as EP. pose proof (cs_e_sq G db H) as ES.
    rewrite <- ES. set (e := cs_e G db) in *. pose proof (cheb_lead_pos n) as LP. pose proof (pow_even_pos y n Z) as YP.
    replace (/ top2 G) with (Rpower 10 (- G / 20) * Rpower 10 (- G / 20)) by (symmetry; apply cs_inv).
    set (g := Rpower 10 (- G / 20)). assert (gP : 0 < g) by apply rp_pos. set (c := cheb n (x / y)).
    pose proof (pow2_ge_0 c). assert (0 < g * g) by nra. assert (0 <= e * e * c ^ 2) by (apply Rmult_le_pos; [nra|lra]).
    field. repeat split; try lra. 
Qed.
Lemma cs_norm n G db x : (0 < n)%nat -> cs_ok G db -> x <> 0 -> mag (csqs n G db) x 0 ^ 2 = 1 /\ nums (0, x) (RtoC 0) (csqs n G db) <> 0%C.
Proof.
  intros Hn H Hx. assert (E : mag (csqs n G db) x 0 ^ 2 = 1).
  { rewrite cshelf_mag by (first [assumption|intros [Q _]; auto]). rewrite ratio_none. reflexivity. }
  split; [exact E|]. intros Q. unfold mag in E. rewrite Q, Cmod_0 in E. unfold Rdiv in E. rewrite Rmult_0_l, pow_i in E by lia. lra.
Qed.
