(** Lemmas: Butterworth and Chebyshev low and high pass filters in exact arithmetic. *)
From Coq Require Import ZArith List Bool Reals Lra Lia.
From Coquelicot Require Import Coquelicot.
From Verif Require Import Num Outcome Types Biquad State Cascade Transforms Butterworth Chebyshev PoleFilter Exact RealNum SigSpec ChebSpec
  DesignSpec SigProofs StabProofs RespProofs PZSpec PZProofs RBJProofs CoefLemmas BuildProofs PolyProofs MapProofs TransProofs
  ProtoProofs ProtoBuild DesignProofs.
Import ListNotations.
Local Open Scope R_scope.

(** ** the prototypes are in the left half plane *)
Lemma good_of n q q0 : (forall i, (i < n / 2)%nat -> good_pt (q i)) -> good_pt q0 -> real_pt q0 -> good (pts_of n q) (sg_of n q0).
Proof.
  intros H H0 R. unfold good, pts_of, sg_of. split.
  - apply Forall_app. split.
    + apply Forall_map, Forall_forall. intros i Hi. apply in_seq in Hi. apply H. lia.
    + destruct (Nat.odd n); constructor; [exact H0|constructor].
  - destruct (Nat.odd n); constructor; [exact R|constructor].
Qed.
Lemma sin_theta_pos n i : (i < n)%nat -> 0 < sin (theta n i).
Proof. intros H. pose proof (theta_range n i H). apply sin_gt_0; lra. Qed.
Lemma bw_good n : good (pts_of n (bw_q n)) (sg_of n bw_q0).
Proof.
  apply good_of.
  - intros i Hi. apply half_lt in Hi. split; [|exact I]. unfold bw_q, cis. cbn [fst]. rewrite cos_plus, cos_PI2, sin_PI2.
    pose proof (sin_theta_pos n i Hi). lra.
  - split; [cbn; lra|exact I].
  - split; [reflexivity|exact I].
Qed.
Lemma c1_good n v : 0 < v -> good (pts_of n (c1_q n v)) (sg_of n (c1_q0 v)).
Proof.
  intros Hv. pose proof (sinh_lt v Hv). apply good_of.
  - intros i Hi. apply half_lt in Hi. split; [|exact I]. unfold c1_q, ccos. cbn. pose proof (sin_theta_pos n i Hi). nra.
  - split; [cbn; lra|exact I].
  - split; [reflexivity|exact I].
Qed.
Lemma c2_good n v : 0 < v -> good (pts_of n (c2_q n v)) (sg_of n (c2_q0 v)).
Proof.
  intros Hv. pose proof (sinh_lt v Hv) as Hs. apply good_of.
  - intros i Hi. apply half_lt in Hi. split; [|cbn; lra]. pose proof (sin_theta_pos n i Hi) as St.
    pose proof (c_neq0 _ (ccos_nz n v i Hi Hv)) as NZ. unfold c2_q, ccos in *. cbn [fst snd] in *.
    set (s := sin (theta n i)) in *. set (c := cos (theta n i)) in *. set (sh := sinh v) in *. set (ch := cosh v) in *.
    assert (0 < sh * s) by (apply Rmult_lt_0_compat; assumption).
    assert (P : 0 < ch * c * (ch * c) + sh * s * (sh * s)) by nra.
    cbn. match goal with |- ?a / ?b < 0 => replace (a / b) with (- (sh * s / (ch * c * (ch * c) + sh * s * (sh * s)))) by (field; nra) end.
    apply Ropp_lt_gt_0_contravar. apply Rdiv_lt_0_compat; assumption.
  - split; [|exact I]. cbn. rewrite Rinv_opp. pose proof (Rinv_0_lt_compat _ Hs). lra.
  - split; [reflexivity|exact I].
Qed.
Lemma ls_good n rp rz : 0 < rp -> 0 < rz -> good (pts_of n (ls_q n rp rz)) (sg_of n (ls_q0 rp rz)).
Proof.
  intros Hp Hz. apply good_of.
  - intros i Hi. apply half_lt in Hi. pose proof (sin_theta_pos n i Hi). unfold ls_q, cis. split; cbn; nra.
  - split; cbn; lra.
  - split; reflexivity.
Qed.

(** ** Chebyshev polynomials *)
Lemma cheb_cos n t : cheb n (cos t) = cos (INR n * t).
Proof.
  apply RtoC_inj. rewrite <- ccheb_real. replace (RtoC (cos t)) with (ccos 0 t).
  - rewrite ccheb_ccos. unfold ccos. rewrite Rmult_0_r, cosh_0, sinh_0. apply injective_projections; simpl; ring.
  - unfold ccos. rewrite cosh_0, sinh_0. apply injective_projections; simpl; ring.
Qed.
Lemma cheb_le1 n x : Rabs x <= 1 -> cheb n x ^ 2 <= 1.
Proof.
  intros H. apply Rabs_le_between in H. destruct H as [H1 H2]. assert (E : x = cos (acos x)) by (symmetry; apply cos_acos; lra).
  rewrite E, cheb_cos. pose proof (COS_bound (INR n * acos x)). nra.
Qed.
Lemma cheb_1 n : cheb n 1 = 1.
Proof. rewrite <- cos_0 at 1. rewrite cheb_cos, Rmult_0_r. apply cos_0. Qed.
Lemma cheb_opp n x : cheb n (- x) ^ 2 = cheb n x ^ 2.
Proof.
  assert (E : cheb2 n (- x) = ((-1) ^ n * fst (cheb2 n x), (-1) ^ (S n) * snd (cheb2 n x))).
  { induction n as [|n IH]; [simpl; f_equal; ring|]. cbn [cheb2]. rewrite IH. destruct (cheb2 n x) as [a b]. cbn [fst snd].
    f_equal. rewrite <- !tech_pow_Rmult. ring. }
  unfold cheb. rewrite E. cbn [fst]. rewrite Rpow_mult_distr. rewrite <- pow_mult, Nat.mul_comm, pow_1_even. ring.
Qed.
Lemma cheb_0 n : cheb n 0 ^ 2 = if Nat.odd n then 0 else 1.
Proof.
  assert (E : cheb2 n 0 = if Nat.odd n then (0, snd (cheb2 n 0)) else (fst (cheb2 n 0), 0)).
  { induction n as [|n IH]; [reflexivity|]. rewrite Nat.odd_succ, <- Nat.negb_odd. cbn [cheb2]. rewrite IH.
    destruct (Nat.odd n); cbn [negb fst snd]; f_equal; ring. }
  assert (F : fst (cheb2 n 0) ^ 2 + snd (cheb2 n 0) ^ 2 = 1).
  { clear E. induction n as [|n IH]; [simpl; ring|]. cbn [cheb2]. destruct (cheb2 n 0) as [a b]. cbn [fst snd] in *.
    rewrite <- IH. ring. }
  unfold cheb. destruct (Nat.odd n).
  - rewrite E. simpl. ring.
  - rewrite E in F. cbn [fst snd] in F. rewrite <- F. rewrite E. cbn [fst]. ring.
Qed.

(** ** magnitudes of the complete filters *)
Lemma pow_even_pos x n : x <> 0 -> 0 < x ^ (2 * n).
Proof. intros H. rewrite pow_mult. apply pow_lt. simpl. rewrite Rmult_1_r. destruct (Rtotal_order x 0) as [Q|[Q|Q]]; [|congruence|]; nra. Qed.
Lemma pow_even_nonneg x n : 0 <= x ^ (2 * n).
Proof. rewrite pow_mult. apply pow_le. apply pow2_ge_0. Qed.
Lemma bw_ratio n x y : y <> 0 -> y ^ (2 * n) / (x ^ (2 * n) + y ^ (2 * n)) = 1 / (1 + (x / y) ^ (2 * n)).
Proof.
  intros H. replace ((x / y) ^ (2 * n)) with (x ^ (2 * n) * / y ^ (2 * n)) by (unfold Rdiv; rewrite Rpow_mult_distr, pow_inv; reflexivity). pose proof (pow_even_pos y n H) as P.
  pose proof (pow_even_nonneg x n) as Q. field. split; lra.
Qed.
Lemma ch_ratio n x y eps T0 : 0 < eps -> 0 <= T0 ->
  (T0 + (1 / eps) ^ 2) / (cheb n (x / y) ^ 2 + (1 / eps) ^ 2) = (1 + eps ^ 2 * T0) / (1 + eps ^ 2 * cheb n (x / y) ^ 2).
Proof.
  intros H H0. pose proof (pow2_ge_0 (cheb n (x / y))). assert (0 < eps ^ 2) by (apply pow_lt; exact H).
  assert (0 <= eps ^ 2 * cheb n (x / y) ^ 2) by (apply Rmult_le_pos; lra).
  field. repeat split; try lra. 
Qed.

(** ** one prototype per family *)
Definition fv (fam : family) (n : nat) (db : R) : R := match fam with Ch1 => ch_v n (c1_eps db) | _ => ch_v n (c2_eps db) end.
Definition fq (fam : family) (n : nat) (db : R) : nat -> apt :=
  match fam with Bw => bw_q n | Ch1 => c1_q n (fv Ch1 n db) | Ch2 => c2_q n (fv Ch2 n db) end.
Definition fq0 (fam : family) (n : nat) (db : R) : apt :=
  match fam with Bw => bw_q0 | Ch1 => c1_q0 (fv Ch1 n db) | Ch2 => c2_q0 (fv Ch2 n db) end.
Definition fg (fam : family) (n : nat) (db : R) : R := match fam with Ch1 => c1_norm n db | _ => 1 end.
Definition fqs (fam : family) (n : nat) (db : R) : list apt := flat (pts_of n (fq fam n db)) (sg_of n (fq0 fam n db)).

Lemma flat_all (P : apt -> Prop) n q q0 : (forall q, P q -> P (conj_apt q)) -> (forall i, (i < n / 2)%nat -> P (q i)) -> P q0 ->
  List.Forall P (flat (pts_of n q) (sg_of n q0)).
Proof.
  intros HC H H0. unfold flat, pts_of, sg_of. apply Forall_app. split.
  - apply Forall_forall. intros x Hx. apply in_flat_map in Hx. destruct Hx as (y & Hy & Hx). apply in_map_iff in Hy. destruct Hy as (i & <- & Hi).
    apply in_seq in Hi. destruct Hx as [<-|[<-|[]]]; [|apply HC]; apply H; lia.
  - destruct (Nat.odd n); [constructor; [exact H0|constructor]|constructor].
Qed.
Lemma zimag_conj q : zimag (snd q) -> zimag (snd (conj_apt q)).
Proof. destruct q as [p [[x y]|]]; cbn; auto. Qed.
Lemma zneg_conj q : zneg (snd q) -> zneg (snd (conj_apt q)).
Proof. destruct q as [p [[x y]|]]; cbn; auto. Qed.
Lemma f_zimag fam n db : List.Forall (fun q : apt => zimag (snd q)) (fqs fam n db).
Proof. unfold fqs. apply flat_all; [exact zimag_conj| |]; destruct fam; intros; cbn; auto. Qed.
Lemma fv_pos fam n db : fam <> Bw -> (0 < n)%nat -> db_ok fam db -> 0 < fv fam n db.
Proof. intros H Hn Hd. destruct fam; [congruence| |]; apply ch_v_pos; try exact Hn; [apply c1_eps_pos|apply c2_eps_pos]; exact Hd. Qed.
Lemma f_good fam n db : (0 < n)%nat -> db_ok fam db -> good (pts_of n (fq fam n db)) (sg_of n (fq0 fam n db)).
Proof.
  intros Hn Hd. destruct fam.
  - apply bw_good.
  - apply c1_good, (fv_pos Ch1); [discriminate|exact Hn|exact Hd].
  - apply c2_good, (fv_pos Ch2); [discriminate|exact Hn|exact Hd].
Qed.
Definition ratio (x y : R) : option R := if Req_EM_T y 0 then None else Some (x / y).
Lemma c1_eps2 db : 0 < db -> c1_eps db ^ 2 = eps2 Ch1 db.
Proof. intros H. pose proof (rpower_gt1 (db / 10) ltac:(lra)). unfold c1_eps, eps2. apply pow2_sqrt. lra. Qed.
Lemma c2_eps2 db : 0 < db -> c2_eps db ^ 2 = eps2 Ch2 db.
Proof.
  intros H. pose proof (rpower_gt1 (db / 10) ltac:(lra)). unfold c2_eps, eps2. rewrite rdiv_sq, pow2_sqrt by lra. rewrite pow1. reflexivity.
Qed.
Lemma c1_norm2 n db : 0 < db -> c1_norm n db ^ 2 * (1 + eps2 Ch1 db * cheb n 0 ^ 2) = 1.
Proof.
  intros H. rewrite cheb_0. unfold c1_norm, eps2. destruct (Nat.odd n); [ring|].
  replace (Rpower 10 (- db / 20) ^ 2) with (Rpower 10 (- (db / 10))).
  - rewrite Rpower_Ropp. field. apply Rgt_not_eq, exp_pos.
  - rewrite <- Rpower_pow by apply exp_pos. rewrite Rpower_mult. f_equal. simpl. field.
Qed.
(** normalised at x = 0 *)
Lemma f_mag fam n db x y y0 : (0 < n)%nat -> db_ok fam db -> y0 <> 0 -> ~ (x = 0 /\ y = 0) ->
  (Rabs (fg fam n db) * mag (fqs fam n db) x y / mag (fqs fam n db) 0 y0) ^ 2 = gain2 fam n db (ratio x y).
Proof.
  intros Hn Hd Hy Hxy. rewrite rdiv_sq, Rpow_mult_distr, pow2_abs. unfold ratio, fqs.
  destruct fam; cbn [fq fq0 fg gain2].
  - rewrite !bw_mag by exact Hn. rewrite (pow_i (2 * n)) by lia. pose proof (pow_even_pos y0 n Hy).
    destruct (Req_EM_T y 0) as [->|Z].
    + rewrite (pow_i (2 * n)) by lia. pose proof (pow_even_pos x n ltac:(intros Q; apply Hxy; auto)). field. lra.
    + rewrite bw_ratio by exact Z. pose proof (pow_even_nonneg (x / y) n). field. lra.
  - cbn [db_ok] in Hd. pose proof (fv_pos Ch1 n db ltac:(discriminate) Hn Hd) as HV.
    rewrite (c1_mag n _ 0 y0) by assumption. cbn [fv] in *. rewrite ch_v_sinh by exact Hn.
    pose proof (c1_eps_pos db Hd) as EP. pose proof (c1_norm2 n db Hd) as CN. pose proof (c1_eps2 db Hd) as E2.
    replace (0 / y0) with 0 by (field; exact Hy). pose proof (cheb_lead_pos n) as CL.
    pose proof (pow2_ge_0 (cheb n 0)) as P0.
    destruct (Req_EM_T y 0) as [->|Z].
    + rewrite c1_mag0 by exact Hn. unfold Rdiv. ring.
    + rewrite (c1_mag n _ x y) by assumption. rewrite ch_v_sinh by exact Hn. rewrite <- E2 in *.
      pose proof (pow2_ge_0 (cheb n (x / y))) as P1. assert (EE : 0 < c1_eps db ^ 2) by (apply pow_lt; exact EP).
      set (e := c1_eps db) in *. set (t0 := cheb n 0 ^ 2) in *. set (t1 := cheb n (x / y) ^ 2) in *. set (L := cheb_lead n) in *.
      assert (Q : 0 < 1 / e) by (apply Rdiv_lt_0_compat; lra). assert (Q2 : 0 < (1 / e) ^ 2) by (apply pow_lt; exact Q).
      replace (c1_norm n db ^ 2) with (/ (1 + e ^ 2 * t0)).
      * assert (0 <= e ^ 2 * t0) by (apply Rmult_le_pos; lra). assert (0 <= e ^ 2 * t1) by (apply Rmult_le_pos; lra).
        assert (D : (L ^ 2 / (t1 + (1 / e) ^ 2)) / (L ^ 2 / (t0 + (1 / e) ^ 2)) = (1 + e ^ 2 * t0) / (1 + e ^ 2 * t1)).
        { field. repeat split; try lra. }
        unfold Rdiv in *. rewrite Rmult_assoc, D. field. lra.
      * assert (0 <= e ^ 2 * t0) by (apply Rmult_le_pos; lra). apply Rmult_eq_reg_r with (1 + e ^ 2 * t0); [|lra].
        rewrite CN. field. lra.
  - cbn [db_ok] in Hd. pose proof (fv_pos Ch2 n db ltac:(discriminate) Hn Hd) as HV.
    rewrite (c2_mag0 n _ y0) by assumption. pose proof (c2_K_pos n _ HV) as HK. pose proof (c2_eps_pos db Hd) as EP.
    assert (EE : 0 < c2_eps db ^ 2) by (apply pow_lt; exact EP).
    assert (M : x <> 0 -> 1 ^ 2 * mag (flat (pts_of n (c2_q n (fv Ch2 n db))) (sg_of n (c2_q0 (fv Ch2 n db)))) x y ^ 2 / c2_K n (fv Ch2 n db) =
      eps2 Ch2 db * cheb n (y / x) ^ 2 / (1 + eps2 Ch2 db * cheb n (y / x) ^ 2)).
    { intros Hx. rewrite (c2_mag n _ x y) by assumption. cbn [fv]. rewrite ch_v_sinh by exact Hn. rewrite <- (c2_eps2 db Hd).
      cbn [fv] in HK. pose proof (pow2_ge_0 (cheb n (y / x))) as P1. set (e := c2_eps db) in *. set (t1 := cheb n (y / x) ^ 2) in *.
      assert (Q : 0 < 1 / e) by (apply Rdiv_lt_0_compat; lra). assert (Q2 : 0 < (1 / e) ^ 2) by (apply pow_lt; exact Q).
      assert (0 <= e ^ 2 * t1) by (apply Rmult_le_pos; lra). field. repeat split; try lra. }
    destruct (Req_EM_T y 0) as [->|Z].
    + assert (Hx : x <> 0) by (intros Q; apply Hxy; auto). rewrite M by exact Hx.
      replace (0 / x) with 0 by (field; exact Hx). reflexivity.
    + destruct (Req_EM_T (x / y) 0) as [Q|Q].
      * assert (Hx : x = 0) by (apply Rmult_eq_reg_r with (/ y); [|apply Rinv_neq_0_compat; exact Z]; rewrite Rmult_0_l; exact Q).
        subst x. rewrite (c2_mag0 n _ y) by assumption. field. lra.
      * assert (Hx : x <> 0) by (intros E; apply Q; rewrite E; field; exact Z). rewrite M by exact Hx. cbv zeta.
        replace (1 / (x / y)) with (y / x) by (field; auto). reflexivity.
Qed.
Lemma f_nums fam n db y0 : (0 < n)%nat -> db_ok fam db -> y0 <> 0 -> nums (0, 0) (RtoC y0) (fqs fam n db) <> 0%C.
Proof.
  intros Hn Hd Hy Q. pose proof (f_mag fam n db 0 y0 y0 Hn Hd Hy ltac:(intros [_ E]; auto)) as M.
  assert (Z : mag (fqs fam n db) 0 y0 = 0) by (unfold mag; rewrite Q, Cmod_0; unfold Rdiv; ring).
  rewrite Z in M. unfold ratio in M. destruct (Req_EM_T y0 0); [contradiction|]. rewrite Rmult_0_r in M. unfold Rdiv at 1 in M.
  rewrite Rmult_0_l, pow_i in M by lia. replace (0 / y0) with 0 in M by (field; exact Hy).
  destruct fam; cbn [gain2 eps2 db_ok] in *.
  - rewrite pow_i in M by lia. lra.
  - pose proof (rpower_gt1 (db / 10) ltac:(lra)) as R1. pose proof (pow2_ge_0 (cheb n 0)).
    assert (P : 0 < 1 + (Rpower 10 (db / 10) - 1) * cheb n 0 ^ 2) by nra.
    pose proof (Rdiv_lt_0_compat 1 _ ltac:(lra) P). lra.
  - destruct (Req_EM_T 0 0); lra.
Qed.

Section Setup.
  Context {strict : bool}.
  Notation XS := (X strict).

  Lemma lift_filt t k FO req n q (P : pf XS -> Prop) : requested FO req n ->
    (exists p, setupN k FO (Some (Z.of_nat n)) q (pf_init k FO) = Ok p tt /\ P p) ->
    exists fl, filt_setupN k FO req q (filt_init t k FO) = Ok fl tt /\ P (fl_pf fl) /\
      fl_states fl = repeat (st_init t) (Z.to_nat (maxStagesOf (snd k) FO)).
  Proof.
    intros R (p' & E & HP). exists (MkFilt p' (repeat (st_init t) (Z.to_nat (maxStagesOf (snd k) FO)))).
    split; [|split; [exact HP|reflexivity]]. unfold filt_setupN, on_pf, zoom, filt_init. cbn [fl_pf fl_states].
    destruct req as [o|]; cbn [requested] in R; subst.
    - rewrite E. reflexivity.
    - unfold setupN in *. rewrite Z.ltb_irrefl in E. unfold throw_if, bind at 1, ret at 1 in E. rewrite E. reflexivity.
  Qed.

  Local Notation alay := (TransProofs.alay (strict := strict)).
  Definition pmdb (fam : family) (db : R) (q : params XS) : Prop := match fam with Bw => True | _ => q_db q = XR db end.
  Lemma f_ana fam s n FO db (q : params XS) : is_shelf s = false -> (1 <= n)%nat -> (Z.of_nat n <= FO)%Z -> in_int (2 * Z.of_nat n) = true ->
    db_ok fam db -> pmdb fam db q -> exists np ga d ex,
    ana_design (N := XS) (fam, s) (Z.of_nat n) q (pf_ana (pf_init (fam, s) FO)) =
      Ok (MkProto (N := XS) np ga d (alay (pts_of n (fq fam n db)) (sg_of n (fq0 fam n db)) FO ex (XR 0) (XR (fg fam n db)))) tt.
  Proof.
    intros Hs Hn HF HI Hd Hq. destruct (sizes n FO Hn HF) as (_ & S2 & _).
    assert (L : (nup n <= length (layout_storage (N := XS) FO))%nat) by (unfold layout_storage; rewrite repeat_length; exact S2).
    assert (NE : (-1)%Z <> Z.of_nat n) by lia.
    unfold ana_design, pf_init, ana_init. cbn [fst snd pf_ana]. rewrite Hs. destruct fam; cbn [fq fq0 fg fv pmdb db_ok] in *.
    - do 4 eexists. unfold p_set_lay, bw_lp_init, lay_setStorage, lay_setNormal, layout_of_storage, layout0. cbn [p_np p_gain p_db p_lay l_maxPoles l_pairs l_normalW l_normalGain].
      apply bw_lp_design_x; assumption.
    - do 4 eexists. unfold p_set_lay, c1_lp_init, lay_setStorage, layout_of_storage, layout0. cbn [p_np p_gain p_db p_lay l_maxPoles l_pairs l_normalW l_normalGain].
      rewrite Hq. apply c1_lp_design_x; try assumption; lia.
    - do 4 eexists. unfold p_set_lay, c2_lp_init, lay_setStorage, lay_setNormal, layout_of_storage, layout0. cbn [p_np p_gain p_db p_lay l_maxPoles l_pairs l_normalW l_normalGain].
      rewrite Hq. apply c2_lp_design_x; try assumption; lia.
  Qed.

  Lemma fg_pos fam n db : db_ok fam db -> 0 < fg fam n db.
  Proof. destruct fam; cbn [fg db_ok]; intros H; try lra. unfold c1_norm. destruct (Nat.odd n); [lra|]. unfold Rpower; apply exp_pos. Qed.
  (** from [designed] to the specification *)
  Lemma finish fam n db t k FO req q xy y0 : (0 < n)%nat -> db_ok fam db -> requested FO req n -> y0 <> 0 ->
    (forall f, 0 <= f <= 1 / 2 -> ~ (fst (xy f) = 0 /\ snd (xy f) = 0)) ->
    (exists p, setupN (N := XS) k FO (Some (Z.of_nat n)) q (pf_init k FO) = Ok p tt /\
      designed p (fg fam n db) (fqs fam n db) xy (mag (fqs fam n db) 0 y0)) ->
    exists fl, filt_setupN (N := XS) k FO req q (filt_init t k FO) = Ok fl tt /\ (stable_filter fl /\ reports fl on_circle) /\
      forall f, 0 <= f <= 1 / 2 -> responds fl f (gain2 fam n db (ratio (fst (xy f)) (snd (xy f)))).
  Proof.
    intros Hn Hd HR Hy NZ H.
    destruct (lift_filt t k FO req n q (fun p => designed p (fg fam n db) (fqs fam n db) xy (mag (fqs fam n db) 0 y0)) HR H)
      as (fl & E & (D1 & D2 & D3 & D4) & _).
    exists fl. split; [exact E|]. split; [split; [split; assumption|destruct fl as [p sts]; exact (proj1 (D4 (fg_pos fam n db Hd) sts) (f_zimag fam n db))]|]. intros f Hf. destruct (D3 f Hf) as (h & E1 & E2).
    exists h. split; [exact E1|]. rewrite E2. apply f_mag; auto.
  Qed.

  Lemma f_lp fam t n FO req fc db (q : params XS) : (1 <= n)%nat -> (Z.of_nat n <= FO)%Z -> in_int (2 * Z.of_nat n) = true ->
    requested FO req n -> q_fc q = XR fc -> 0 < fc < 1 / 2 -> db_ok fam db -> pmdb fam db q ->
    exists fl, filt_setupN (N := XS) (fam, LP) FO req q (filt_init t (fam, LP) FO) = Ok fl tt /\ (stable_filter fl /\ reports fl on_circle) /\
      forall f, 0 <= f <= 1 / 2 -> responds fl f (gain2 fam n db (ratio (sin (PI * f)) (tan (PI * fc) * cos (PI * f)))).
  Proof.
    intros Hn HF HI HR EF Hf Hd Hq. destruct (tan_half fc Hf) as (C0 & _ & T0).
    destruct (f_ana fam LP n FO db q eq_refl Hn HF HI Hd Hq) as (np & ga & d & ex & HA).
    apply (finish fam n db t (fam, LP) FO req q (qlp (tan (PI * fc))) (tan (PI * fc))); try assumption; [lra| |].
    - intros f _ [Q1 Q2]. cbn [qlp fst snd] in *. pose proof (sin2_cos2 (PI * f)) as P. unfold Rsqr in P.
      assert (cos (PI * f) = 0) by (apply Rmult_eq_reg_l with (tan (PI * fc)); lra). rewrite Q1, H in P. lra.
    - pose proof (lp_setup fam n FO _ _ q fc np ga d ex 0 (fg fam n db) LP Hn HF EF Hf (f_good fam n db Hn Hd)
        ltac:(destruct fam; simpl; auto) HA ltac:(pose proof PI_RGT_0; lra)) as S. cbv zeta in S.
      fold (fqs fam n db) in S. replace (fst (qlp (tan (PI * fc)) (0 / (2 * PI)))) with 0 in S.
      + replace (snd (qlp (tan (PI * fc)) (0 / (2 * PI)))) with (tan (PI * fc)) in S.
        * apply S. apply f_nums; try assumption. lra.
        * unfold qlp. cbn [snd]. replace (PI * (0 / (2 * PI))) with 0 by (field; apply PI_neq0). rewrite cos_0. ring.
      + unfold qlp. cbn [fst]. replace (PI * (0 / (2 * PI))) with 0 by (field; apply PI_neq0). rewrite sin_0. reflexivity.
  Qed.
  Lemma f_hp fam t n FO req fc db (q : params XS) : (1 <= n)%nat -> (Z.of_nat n <= FO)%Z -> in_int (2 * Z.of_nat n) = true ->
    requested FO req n -> q_fc q = XR fc -> 0 < fc < 1 / 2 -> db_ok fam db -> pmdb fam db q ->
    exists fl, filt_setupN (N := XS) (fam, HP) FO req q (filt_init t (fam, HP) FO) = Ok fl tt /\ (stable_filter fl /\ reports fl on_circle) /\
      forall f, 0 <= f <= 1 / 2 -> responds fl f (gain2 fam n db (ratio (- cos (PI * f)) (1 / tan (PI * fc) * sin (PI * f)))).
  Proof.
    intros Hn HF HI HR EF Hf Hd Hq. destruct (tan_half fc Hf) as (C0 & _ & T0).
    assert (T1 : 0 < 1 / tan (PI * fc)) by (apply Rdiv_lt_0_compat; lra).
    destruct (f_ana fam HP n FO db q eq_refl Hn HF HI Hd Hq) as (np & ga & d & ex & HA).
    apply (finish fam n db t (fam, HP) FO req q (qhp (1 / tan (PI * fc))) (1 / tan (PI * fc))); try assumption; [lra| |].
    - intros f _ [Q1 Q2]. cbn [qhp fst snd] in *. pose proof (sin2_cos2 (PI * f)) as P. unfold Rsqr in P.
      assert (sin (PI * f) = 0) by (apply Rmult_eq_reg_l with (1 / tan (PI * fc)); lra). assert (cos (PI * f) = 0) by lra.
      rewrite H, H0 in P. lra.
    - pose proof (hp_setup fam n FO _ _ q fc np ga d ex 0 (fg fam n db) HP Hn HF EF Hf (f_good fam n db Hn Hd)
        ltac:(destruct fam; simpl; auto) HA ltac:(pose proof PI_RGT_0; lra)) as S. cbv zeta in S.
      fold (fqs fam n db) in S. assert (E : PI * ((PI - 0) / (2 * PI)) = PI / 2) by (field; apply PI_neq0).
      replace (fst (qhp (1 / tan (PI * fc)) ((PI - 0) / (2 * PI)))) with 0 in S.
      + replace (snd (qhp (1 / tan (PI * fc)) ((PI - 0) / (2 * PI)))) with (1 / tan (PI * fc)) in S.
        * apply S. apply f_nums; try assumption. lra.
        * unfold qhp. cbn [snd]. rewrite E, sin_PI2. ring.
      + unfold qhp. cbn [fst]. rewrite E, cos_PI2. ring.
  Qed.
End Setup.
