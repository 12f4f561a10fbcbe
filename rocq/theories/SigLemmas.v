(** Lemmas in exactly the form of the signal property theorems (exact arithmetic). *)
From Coq Require Import ZArith List Bool Reals Lra Lia Permutation.
From Coquelicot Require Import Coquelicot.
From Verif Require Import Num Outcome Types Biquad State Cascade Exact RealNum Stream SigSpec SigProofs
  StabProofs RespProofs.
Import ListNotations.
Local Open Scope R_scope.

Section Lem.
  Context {strict : bool}.
  Notation XS := (X strict).

  (** ** finite stages and states come from real ones *)
  Lemma fin_bq_emb (b : biquad XS) : fin_bq b -> exists b' : biquad RN, b = emb_bq b'.
  Proof.
    destruct b as [a0 a1 a2 b0 b1 b2]. intros [[r0 H0] [[r1 H1] [[r2 H2] [[r3 H3] [[r4 H4] [r5 H5]]]]]].
    simpl in *. subst. exists (@MkBiquad RN r0 r1 r2 r3 r4 r5). reflexivity.
  Qed.
  Lemma fin_st_emb (s : st XS) : fin_st s -> exists s' : st RN, s = emb_st s'.
  Proof.
    destruct s as [a b c d|a b|a b c d]; simpl.
    - intros [[x1 ->] [[x2 ->] [[x3 ->] [x4 ->]]]]. exists (@S1 RN x1 x2 x3 x4). reflexivity.
    - intros [[x1 ->] [x2 ->]]. exists (@S2 RN x1 x2). reflexivity.
    - intros [[x1 ->] [[x2 ->] [[x3 ->] [x4 ->]]]]. exists (@S3 RN x1 x2 x3 x4). reflexivity.
  Qed.
  Lemma fin_bqs_emb (bs : list (biquad XS)) : List.Forall fin_bq bs -> exists bs', bs = map emb_bq bs'.
  Proof.
    induction 1 as [|b bs Hb _ [bs' ->]]; [exists []; reflexivity|].
    destruct (fin_bq_emb b Hb) as [b' ->]. exists (b' :: bs'). reflexivity.
  Qed.
  Lemma fin_sts_emb (bs : list (st XS)) : List.Forall fin_st bs -> exists bs', bs = map emb_st bs'.
  Proof.
    induction 1 as [|b bs Hb _ [bs' ->]]; [exists []; reflexivity|].
    destruct (fin_st_emb b Hb) as [b' ->]. exists (b' :: bs'). reflexivity.
  Qed.
  Lemma emb_init_repeat t n : repeat (st_init (N := XS) t) n = map emb_st (repeat (st_init t) n).
  Proof. induction n; simpl; [reflexivity|]. rewrite IHn, emb_init. reflexivity. Qed.

  (** ** the zero-state response of a cascade as a function on lists *)
  Definition zs (bs : list (biquad RN)) (xs : list R) : list R := map (flts bs (seqof xs)) (seq 0 (length xs)).
  Lemma zs_len bs xs : length (zs bs xs) = length xs.
  Proof. unfold zs. rewrite map_length, seq_length. reflexivity. Qed.

  Lemma real_run t bs (xs : list R) :
    snd (cs_run (N := RN) (MkCStages bs (repeat (st_init t) (length bs))) xs) = zs bs xs.
  Proof.
    unfold zs. rewrite <- (couts_init t bs (seqof xs)), <- cs_run_prefix, map_nth_seq, !map_map. simpl.
    rewrite map_id. do 2 f_equal. f_equal. induction bs; simpl; congruence.
  Qed.
  Lemma x_run t (bs : list (biquad RN)) xs :
    snd (cs_run (N := XS) (MkCStages (map emb_bq bs) (repeat (st_init t) (length bs))) (xr xs)) = xr (zs bs xs).
  Proof.
    rewrite emb_init_repeat. unfold xr. rewrite (emb_cs_run bs xs). simpl. f_equal. apply real_run.
  Qed.
  Lemma x_bq_run t (b : biquad RN) xs :
    snd (bq_run (N := XS) (emb_bq b) (st_init t) (xr xs)) = xr (zs [b] xs).
  Proof.
    rewrite <- (emb_init t). unfold xr. rewrite (emb_run b xs). simpl. f_equal. unfold zs.
    simpl. rewrite <- (map_nth_seq xs) at 1. rewrite bq_run_prefix. apply map_ext. intros n. apply bout_init.
  Qed.

  Lemma back_seqof l n k : back l n k = (if Nat.leb k n then seqof l (n - k) else 0).
  Proof. reflexivity. Qed.
  Lemma nth_map_seq (f : nat -> R) n k : (k < n)%nat -> nth k (map f (seq 0 n)) 0 = f k.
  Proof.
    intros H. rewrite nth_indep with (d' := f 0%nat) by (rewrite map_length, seq_length; exact H).
    rewrite map_nth, seq_nth by exact H. reflexivity.
  Qed.
  Lemma back_seq (f : sig) n k m : (n < m)%nat -> back (map f (seq 0 m)) n k = (if Nat.leb k n then f (n - k)%nat else 0).
  Proof. intros H. unfold back. destruct (Nat.leb k n); auto. apply nth_map_seq. lia. Qed.

  (** C01 *)
  Lemma diffeq_unique a0 a1 a2 b0 b1 b2 xs ys zs' : a0 <> 0 ->
    diffeq a0 a1 a2 b0 b1 b2 xs ys -> diffeq a0 a1 a2 b0 b1 b2 xs zs' -> ys = zs'.
  Proof.
    intros Ha [L1 H1] [L2 H2].
    apply nth_ext with (d := 0) (d' := 0); [congruence|]. rewrite L1.
    assert (G : forall m, (forall n, (n < m)%nat -> (n < length xs)%nat -> nth n ys 0 = nth n zs' 0)).
    { induction m as [|m IH]; intros n Hn Hl; [lia|].
      destruct (Nat.lt_ge_cases n m) as [C|C]; [apply IH; auto|].
      assert (n = m) by lia. subst n. specialize (H1 m Hl). specialize (H2 m Hl).
      assert (E1 : back ys m 1 = back zs' m 1).
      { unfold back. destruct (Nat.leb 1 m) eqn:E; auto. apply Nat.leb_le in E. apply IH; lia. }
      assert (E2 : back ys m 2 = back zs' m 2).
      { unfold back. destruct (Nat.leb 2 m) eqn:E; auto. apply Nat.leb_le in E. apply IH; lia. }
      rewrite E1, E2 in H1. assert (E0 : a0 * back ys m 0 = a0 * back zs' m 0) by lra.
      apply Rmult_eq_reg_l in E0; [|exact Ha]. unfold back in E0. simpl in E0.
      rewrite Nat.sub_0_r in E0. exact E0. }
    intros n Hn. apply (G (S n)); lia.
  Qed.

  Lemma set_coeffs_fin a0 a1 a2 b0 b1 b2 (old : biquad XS) : a0 <> 0 ->
    setCoefficients (N := XS) (XR a0) (XR a1) (XR a2) (XR b0) (XR b1) (XR b2) old =
    Ok (emb_bq (@MkBiquad RN a0 (a1 / a0) (a2 / a0) (b0 / a0) (b1 / a0) (b2 / a0))) tt.
  Proof.
    intros H. assert (NN : forall r, is_nan (N := XS) (XR r) = false).
    { intros r. unfold is_nan. cbn. destruct (Req_EM_T r r); [reflexivity|congruence]. }
    unfold setCoefficients, bind, throw_if. rewrite !NN. unfold ret, put.
    cbn [ndiv X]. rewrite !xdiv_fin by exact H. reflexivity.
  Qed.

  Lemma c01 a0 a1 a2 b0 b1 b2 (old : biquad XS) xs : a0 <> 0 ->
    exists b ys, setCoefficients (N := XS) (XR a0) (XR a1) (XR a2) (XR b0) (XR b1) (XR b2) old = Ok b tt /\
      snd (bq_run b (st_init DF1) (xr xs)) = xr ys /\ diffeq a0 a1 a2 b0 b1 b2 xs ys /\
      (forall ys', diffeq a0 a1 a2 b0 b1 b2 xs ys' -> ys' = ys).
  Proof.
    intros H. rewrite set_coeffs_fin by exact H.
    set (b := @MkBiquad RN a0 (a1 / a0) (a2 / a0) (b0 / a0) (b1 / a0) (b2 / a0)).
    assert (E : diffeq a0 a1 a2 b0 b1 b2 xs (zs [b] xs)).
    { split; [apply zs_len|]. intros n Hn. unfold zs. rewrite !back_seq by exact Hn.
      rewrite !back_seqof. pose proof (flt_eq b (seqof xs) n) as F.
      unfold den, numr, fir in F. simpl m_a1 in F. simpl m_a2 in F. simpl m_b0 in F.
      simpl m_b1 in F. simpl m_b2 in F. change (flts [b] (seqof xs)) with (flt b (seqof xs)).
      set (y := flt b (seqof xs)) in *. set (x := seqof xs) in *. clearbody x y.
      assert (Q : forall u v w p0 p1 p2, a0 * (p0 / a0 * u + p1 / a0 * v + p2 / a0 * w) = p0 * u + p1 * v + p2 * w)
        by (intros; field; exact H).
      replace (1 * y n) with (a0 / a0 * y n) in F by (field; exact H).
      apply (f_equal (Rmult a0)) in F. rewrite !Q in F.
      destruct n as [|[|n]]; simpl in *; rewrite ?Nat.sub_0_r; exact F. }
    exists (emb_bq b), (zs [b] xs). repeat split; try apply E.
    - apply x_bq_run.
    - intros ys' E'. eapply diffeq_unique; eauto.
  Qed.

  (** C02 *)
  Lemma c02 (bs : list (biquad XS)) t t' xs : List.Forall fin_bq bs ->
    snd (cs_run (MkCStages bs (repeat (st_init t) (length bs))) (xr xs)) =
    snd (cs_run (MkCStages bs (repeat (st_init t') (length bs))) (xr xs)).
  Proof.
    intros H. destruct (fin_bqs_emb bs H) as [bs' ->]. rewrite map_length, !x_run. reflexivity.
  Qed.
  Lemma c02_one (b : biquad XS) t t' xs : fin_bq b ->
    snd (bq_run b (st_init t) (xr xs)) = snd (bq_run b (st_init t') (xr xs)).
  Proof. intros H. destruct (fin_bq_emb b H) as [b' ->]. rewrite !x_bq_run. reflexivity. Qed.

  (** C03 *)
  Lemma lincomb_len al be xs ys : length xs = length ys -> length (lincomb al be xs ys) = length xs.
  Proof. intros H. unfold lincomb. rewrite map_length, combine_length, H. apply Nat.min_id. Qed.
  Lemma lincomb_nth al be xs ys n : length xs = length ys ->
    nth n (lincomb al be xs ys) 0 = al * nth n xs 0 + be * nth n ys 0.
  Proof.
    intros H. unfold lincomb. set (g := fun p : R * R => al * fst p + be * snd p).
    assert (G : g (0, 0) = 0) by (unfold g; simpl; ring).
    rewrite <- G at 1. rewrite map_nth, combine_nth by exact H. reflexivity.
  Qed.
  Lemma zs_lin bs al be xs ys : length xs = length ys ->
    zs bs (lincomb al be xs ys) = lincomb al be (zs bs xs) (zs bs ys).
  Proof.
    intros H. apply nth_ext with (d := 0) (d' := 0).
    - rewrite zs_len, lincomb_len, lincomb_len by (rewrite ?zs_len; auto). rewrite zs_len. reflexivity.
    - intros n Hn. rewrite zs_len, lincomb_len in Hn by auto.
      rewrite lincomb_nth by (rewrite !zs_len; exact H). unfold zs.
      rewrite lincomb_len by exact H. rewrite <- H. rewrite !nth_map_seq by exact Hn.
      replace (seqof (lincomb al be xs ys)) with (fun k => al * seqof xs k + be * seqof ys k).
      + rewrite flts_lin. reflexivity.
      + apply sig_eq. intros k. unfold seqof. rewrite lincomb_nth by exact H. reflexivity.
  Qed.
  Lemma c03 (bs : list (biquad XS)) t al be xs ys : List.Forall fin_bq bs -> length xs = length ys ->
    exists us vs,
      snd (cs_run (MkCStages bs (repeat (st_init t) (length bs))) (xr xs)) = xr us /\
      snd (cs_run (MkCStages bs (repeat (st_init t) (length bs))) (xr ys)) = xr vs /\
      snd (cs_run (MkCStages bs (repeat (st_init t) (length bs))) (xr (lincomb al be xs ys))) =
      xr (lincomb al be us vs).
  Proof.
    intros H L. destruct (fin_bqs_emb bs H) as [bs' ->]. rewrite map_length.
    exists (zs bs' xs), (zs bs' ys). rewrite !x_run. repeat split. rewrite zs_lin by exact L. reflexivity.
  Qed.

  (** C04 *)
  Lemma zs_delay1 bs xs : zs bs (0 :: xs) = 0 :: zs bs xs.
  Proof.
    unfold zs. simpl length. simpl seq.
    replace (seqof (0 :: xs)) with (del (seqof xs)) by (apply sig_eq; intros [|n]; reflexivity).
    rewrite flts_del. simpl. f_equal. rewrite <- seq_shift, map_map. reflexivity.
  Qed.
  Lemma zs_delay bs k xs : zs bs (repeat 0 k ++ xs) = repeat 0 k ++ zs bs xs.
  Proof. induction k as [|k IH]; auto. simpl. rewrite zs_delay1, IH. reflexivity. Qed.
  Lemma c04 (bs : list (biquad XS)) t k xs : List.Forall fin_bq bs ->
    snd (cs_run (MkCStages bs (repeat (st_init t) (length bs))) (xr (repeat 0 k ++ xs))) =
    xr (repeat 0 k) ++ snd (cs_run (MkCStages bs (repeat (st_init t) (length bs))) (xr xs)).
  Proof.
    intros H. destruct (fin_bqs_emb bs H) as [bs' ->]. rewrite map_length, !x_run, zs_delay.
    unfold xr. rewrite map_app. reflexivity.
  Qed.

  (** C07 *)
  Lemma c07 (bs bs' : list (biquad XS)) t xs : List.Forall fin_bq bs -> Permutation bs bs' ->
    snd (cs_run (MkCStages bs (repeat (st_init t) (length bs))) (xr xs)) =
    snd (cs_run (MkCStages bs' (repeat (st_init t) (length bs'))) (xr xs)).
  Proof.
    intros H P. assert (H' : List.Forall fin_bq bs').
    { rewrite List.Forall_forall in *. intros b Hb. apply H. eapply Permutation_in; [symmetry; exact P|exact Hb]. }
    destruct (fin_bqs_emb bs H) as [cs ->]. 
    destruct (Permutation_map_inv emb_bq cs (Permutation_sym P)) as [cs' [-> P']].
    rewrite !map_length, !x_run. unfold zs. rewrite (flts_perm _ _ P'). reflexivity.
  Qed.

  (** C11, C12, C13: from any finite state *)
  Lemma stable_emb b : stable_bq (strict := strict) (emb_bq b) -> rstable b.
  Proof. intros [a1 [a2 [E1 [E2 H]]]]. inversion E1. inversion E2. subst. exact H. Qed.

  Lemma pair_up A B (l : list A) (l' : list B) : length l = length l' ->
    exists ps, l = map fst ps /\ l' = map snd ps.
  Proof.
    revert l'. induction l as [|a l IH]; intros [|b l'] H; try discriminate.
    - exists []. auto.
    - destruct (IH l') as [ps [-> ->]]; [simpl in H; lia|]. exists ((a, b) :: ps). auto.
  Qed.

  Lemma cs_emb (bs : list (biquad XS)) ss : List.Forall fin_bq bs -> List.Forall stable_bq bs ->
    List.Forall fin_st ss -> length bs = length ss ->
    exists bss : list (biquad RN * st RN),
      bs = map emb_bq (map fst bss) /\ ss = map emb_st (map snd bss) /\
      List.Forall (fun bs => rstable (fst bs)) bss /\
      forall x n, snd (cs_run (MkCStages bs ss) (xr (prefix n x))) = xr (prefix n (couts bss x)).
  Proof.
    intros F S G L. destruct (fin_bqs_emb bs F) as [rb ->]. destruct (fin_sts_emb ss G) as [rs ->].
    rewrite !map_length in L. destruct (pair_up _ _ rb rs L) as [bss [-> ->]].
    exists bss. repeat split; auto.
    - rewrite !List.Forall_map in S. eapply List.Forall_impl; [|exact S].
      intros bs' Hs. apply stable_emb. exact Hs.
    - intros x n. unfold xr, prefix. rewrite (emb_cs_run _ (map x (seq 0 n))). simpl. f_equal.
      apply cs_run_prefix.
  Qed.

  Lemma map_seqof_bound xs M : 0 <= M -> List.Forall (fun x => Rabs x <= M) xs -> forall n, Rabs (seqof xs n) <= M.
  Proof.
    intros HM H n. unfold seqof. destruct (Nat.lt_ge_cases n (length xs)) as [C|C].
    - rewrite List.Forall_forall in H. apply H. apply nth_In. exact C.
    - rewrite nth_overflow by exact C. rewrite Rabs_R0. exact HM.
  Qed.

  Lemma c11 (bs : list (biquad XS)) ss : List.Forall fin_bq bs -> List.Forall stable_bq bs ->
    List.Forall fin_st ss -> length bs = length ss ->
    exists K K0, (List.Forall (fun s => exists t, s = st_init t) ss -> K0 = 0) /\
      forall M xs, 0 <= M -> List.Forall (fun x => Rabs x <= M) xs ->
      exists ys, snd (cs_run (MkCStages bs ss) (xr xs)) = xr ys /\ List.Forall (fun y => Rabs y <= K * M + K0) ys.
  Proof.
    intros F S G L. destruct (cs_emb bs ss F S G L) as [bss [-> [-> [R E]]]].
    destruct (couts_bibo bss R) as [K [K0 [_ [_ [B Z]]]]]. exists K, K0. split.
    - intros I. apply Z. rewrite !List.Forall_map in I. eapply List.Forall_impl; [|exact I].
      intros [b s] [t Ht]. exists t. simpl in *. rewrite <- emb_init in Ht.
      clear -Ht. destruct s, t; simpl in *; try discriminate; inversion Ht; reflexivity.
    - intros M xs HM HX. exists (prefix (length xs) (couts bss (seqof xs))). split.
      + rewrite <- E. unfold prefix. rewrite map_nth_seq. reflexivity.
      + unfold prefix. apply List.Forall_map. apply List.Forall_forall. intros n _.
        apply B; auto. apply map_seqof_bound; auto.
  Qed.

  Lemma c12 (bs : list (biquad XS)) ss (x : sig) : List.Forall fin_bq bs -> List.Forall stable_bq bs ->
    List.Forall fin_st ss -> length bs = length ss -> is_lim_seq x 0 ->
    exists y : sig, (forall n, snd (cs_run (MkCStages bs ss) (xr (prefix n x))) = xr (prefix n y)) /\
      is_lim_seq y 0.
  Proof.
    intros F S G L X0. destruct (cs_emb bs ss F S G L) as [bss [-> [-> [R E]]]].
    exists (couts bss x). split; [intros n; apply E|]. apply couts_relax; auto.
  Qed.

  (** stages that do nothing *)
  Definition transparent (b : biquad XS) : Prop :=
    m_a0 b = XR 1 /\ m_a1 b = XR 0 /\ m_a2 b = XR 0 /\ m_b0 b = XR 1 /\ m_b1 b = XR 0 /\ m_b2 b = XR 0.

  (** an input that approaches Re(A e^(i w k)) gives an output that approaches Re(h A e^(i w k)) *)
  Lemma c13g (bs : list (biquad XS)) ss n m f : List.Forall fin_bq bs -> List.Forall stable_bq bs ->
    List.Forall (fun b : biquad XS => m_a0 b <> XR 0) bs ->
    List.Forall fin_st ss -> length bs = length ss -> (0 <= n <= Z.of_nat (length bs))%Z ->
    List.Forall transparent (skipn (Z.to_nat n) bs) ->
    0 <= f <= 1 / 2 ->
    exists h : C, cas_response (MkCascade n m bs) (XR f) = Val (xc h) /\
      forall x A, is_lim_seq (fun i => x i - fst (A * cis (2 * PI * f * INR i))%C) 0 ->
      exists y : sig, (forall k, snd (cs_run (MkCStages bs ss) (xr (prefix k x))) = xr (prefix k y)) /\
        is_lim_seq (fun i => y i - fst (h * A * cis (2 * PI * f * INR i))%C) 0.
  Proof.
    intros F S A G L N T Hf. destruct (cs_emb bs ss F S G L) as [bss [-> [-> [R E]]]].
    rewrite !map_length in N.
    set (w := 2 * PI * f).
    assert (NZ : List.Forall (fun c : C => c <> 0%C) (map (fun b => rbot b (upt f)) (map fst bss))).
    { rewrite !List.Forall_map. eapply List.Forall_impl; [|exact R]. intros [b s] Hb. apply rbot_nz. exact Hb. }
    assert (CC : forall (c : C) l', cprod (c :: l') = (c * cprod l')%C) by reflexivity.
    assert (TT : forall l : list (biquad RN), List.Forall transparent (map emb_bq l) ->
      cprod (map (fun b => rtop b (upt f)) l) = RtoC 1 /\ cprod (map (fun b => rbot b (upt f)) l) = RtoC 1).
    { induction l as [|b l IH]; intros H; [split; reflexivity|]. inversion H; subst.
      destruct (IH H3) as [I1 I2]. cbn [map].
      rewrite !CC, I1, I2.
      destruct H2 as [_ [E1 [E2 [E3 [E4 E5]]]]]. destruct b. simpl in *.
      inversion E1. inversion E2. inversion E3. inversion E4. inversion E5. subst.
      unfold rtop, rbot, poly2. simpl. split; ring. }
    assert (APP : forall (l l' : list C), cprod (l ++ l') = (cprod l * cprod l')%C).
    { induction l as [|c l IH]; intros l'; cbn [app].
      - symmetry. apply Cmult_1_l.
      - rewrite !CC, IH. ring. }
    assert (EQ : forall g : biquad RN -> C,
      cprod (map g (skipn (Z.to_nat n) (map fst bss))) = RtoC 1 ->
      cprod (map g (firstn (Z.to_nat n) (map fst bss))) = cprod (map g (map fst bss))).
    { intros g Hg. rewrite <- (firstn_skipn (Z.to_nat n) (map fst bss)) at 2.
      rewrite map_app, APP, Hg. ring. }
    rewrite skipn_map in T. destruct (TT _ T) as [T1 T2].
    exists
      (cprod (map (fun b => rtop b (upt f)) (firstn (Z.to_nat n) (map fst bss))) /
       cprod (map (fun b => rbot b (upt f)) (firstn (Z.to_nat n) (map fst bss))))%C.
    split.
    - apply cas_response_emb; auto.
      + rewrite List.Forall_map in A. eapply List.Forall_impl; [|exact A].
        intros b Hb Hz. apply Hb. simpl. rewrite Hz. reflexivity.
      + rewrite map_length. lia.
      + rewrite EQ by exact T2. apply cprod_nz. exact NZ.
    - intros x A0 P. exists (couts bss x). split; [intros k; apply E|]. rewrite !EQ by assumption.
      pose proof (couts_steady bss w R x A0 P) as Q. unfold tends_osc in Q.
      rewrite !map_map. fold (upt f). exact Q.
  Qed.
  Lemma c13 (bs : list (biquad XS)) ss n m f phi : List.Forall fin_bq bs -> List.Forall stable_bq bs ->
    List.Forall (fun b : biquad XS => m_a0 b <> XR 0) bs ->
    List.Forall fin_st ss -> length bs = length ss -> (0 <= n <= Z.of_nat (length bs))%Z ->
    List.Forall transparent (skipn (Z.to_nat n) bs) ->
    0 <= f <= 1 / 2 ->
    exists (y : sig) (h : C),
      cas_response (MkCascade n m bs) (XR f) = Val (xc h) /\
      (forall k, snd (cs_run (MkCStages bs ss) (xr (prefix k (fun i => cos (2 * PI * f * INR i + phi))))) =
                 xr (prefix k y)) /\
      is_lim_seq (fun i => y i - fst (h * cis (2 * PI * f * INR i + phi))%C) 0.
  Proof.
    intros F S A G L N T Hf. destruct (c13g bs ss n m f F S A G L N T Hf) as (h & E & H).
    destruct (H (fun i => cos (2 * PI * f * INR i + phi)) (cis phi)) as (y & Y1 & Y2).
    - apply (is_lim_seq_ext (fun _ => 0)); [|apply is_lim_seq_const]. intros i. rewrite <- cis_add. cbn [fst cis]. rewrite Rplus_comm. ring.
    - exists y, h. split; [exact E|]. split; [exact Y1|]. eapply is_lim_seq_ext; [|exact Y2]. intros i. cbv beta.
      rewrite (Rplus_comm _ phi), cis_add, Cmult_assoc. reflexivity.
  Qed.

  (** C19 *)
  Lemma flts_scale_head s b bs x n :
    flts (bq_applyScale (N := RN) s b :: bs) x n = s * flts (b :: bs) x n.
  Proof.
    simpl. assert (E : flt (bq_applyScale (N := RN) s b) x = (fun k => s * flt b x k + 0 * flt b x k)).
    { apply sig_eq. intros k. symmetry.
      apply (flt_unique (bq_applyScale (N := RN) s b) x (fun k => s * flt b x k + 0 * flt b x k)). intros j.
      unfold den. simpl m_a1. simpl m_a2. rewrite fir_lin. fold (den b). rewrite flt_eq.
      unfold numr, fir. simpl. ring. }
    rewrite E, flts_lin. ring.
  Qed.

  Lemma cas_response_fin m (bs : list (biquad RN)) n f h : List.Forall (fun b : biquad RN => m_a0 b <> 0) bs ->
    (Z.to_nat n <= length bs)%nat ->
    cas_response (N := XS) (MkCascade n m (map emb_bq bs)) (XR f) = Val (xc h) ->
    0 <= f <= 1 / 2 /\
    cprod (map (fun b => rbot b (upt f)) (firstn (Z.to_nat n) bs)) <> 0%C /\
    h = (cprod (map (fun b => rtop b (upt f)) (firstn (Z.to_nat n) bs)) /
         cprod (map (fun b => rbot b (upt f)) (firstn (Z.to_nat n) bs)))%C.
  Proof.
    intros HF Hn H.
    assert (Hf : 0 <= f <= 1 / 2).
    { unfold cas_response, ngtb in H. cbn [nltb X nlit nofZ] in H. unfold xltb in H.
      destruct (Rlt_dec (1 / IZR 2) f) as [A|A].
      - rewrite (rltb_true _ _ A) in H. discriminate.
      - rewrite (rltb_false _ _ A) in H. cbn [othrow_if obind] in H.
        destruct (Rlt_dec f 0) as [B|B]; [rewrite (rltb_true _ _ B) in H; discriminate|]. lra. }
    split; [exact Hf|].
    destruct (Ceq_dec (cprod (map (fun b => rbot b (upt f)) (firstn (Z.to_nat n) bs))) 0%C) as [Z|Z].
    - exfalso. unfold cas_response, ngtb in H.
      cbn [nltb X nlit nofZ c_stages c_numStages] in H. unfold xltb in H.
      rewrite !rltb_false in H by lra. cbn [othrow_if obind nmul nopp npolar X npi xmul xopp] in H.
      rewrite !xpolar_cis in H. cbn [oor_ub obind] in H. fold (upt f) in H.
      assert (E : cis (-2 * (2 * PI * f)) = (upt f * upt f)%C).
      { unfold upt. rewrite <- cis_add. f_equal. lra. }
      rewrite E in H. change (c_of (N:=XS) (XR 1)) with (xc (RtoC 1)) in H.
      rewrite resp_loop_emb in H by assumption. cbn [obind] in H. rewrite Z in H.
      change (ncdiv XS) with xcdiv in H. unfold xcdiv, xc in H. simpl in H.
      repeat match type of H with context [if Req0 ?e then _ else _] =>
        match e with context [if _ then _ else _] => fail 1 | _ => idtac end;
        let Q := fresh in destruct (Req0 e) eqn:Q end; try discriminate.
      unfold Req0 in *. repeat match goal with H : (if ?b then true else false) = false |- _ => destruct b; [discriminate|] end.
      match goal with H : ?x <> 0 |- _ => apply H; ring end.
    - split; [exact Z|]. rewrite (cas_response_emb m bs n f HF Hn Hf Z) in H. inversion H as [[H1 H2]].
      symmetry. apply injective_projections; assumption.
  Qed.

  Lemma c19 (bs : list (biquad XS)) n m s : List.Forall fin_bq bs -> List.Forall (fun b : biquad XS => m_a0 b <> XR 0) bs ->
    (1 <= n <= Z.of_nat (length bs))%Z ->
    exists bs' : list (biquad XS), cas_applyScale (N := XS) (XR s) (MkCascade n m bs) = Ok (MkCascade n m bs') tt /\
      List.Forall2 (fun b b' => m_a0 b' = m_a0 b /\ m_a1 b' = m_a1 b /\ m_a2 b' = m_a2 b) bs bs' /\
      (forall f h, cas_response (MkCascade n m bs) (XR f) = Val (xc h) ->
                   cas_response (MkCascade n m bs') (XR f) = Val (xc (RtoC s * h)%C)) /\
      (forall t xs, exists ys,
         snd (cs_run (MkCStages bs (repeat (st_init t) (length bs))) (xr xs)) = xr ys /\
         snd (cs_run (MkCStages bs' (repeat (st_init t) (length bs'))) (xr xs)) = xr (map (Rmult s) ys)).
  Proof.
    intros F A N. destruct (fin_bqs_emb bs F) as [cs ->]. rewrite map_length in N.
    destruct cs as [|b cs]; [simpl in N; lia|].
    set (b' := bq_applyScale (N := RN) s b).
    assert (EB : bq_applyScale (N := XS) (XR s) (emb_bq b) = emb_bq b') by reflexivity.
    assert (HA : List.Forall (fun b : biquad RN => m_a0 b <> 0) (b :: cs)).
    { rewrite List.Forall_map in A. eapply List.Forall_impl; [|exact A].
      intros c Hc Hz. apply Hc. simpl. rewrite Hz. reflexivity. }
    assert (HA' : List.Forall (fun b : biquad RN => m_a0 b <> 0) (b' :: cs)) by (inversion HA; constructor; assumption).
    exists (map emb_bq (b' :: cs)). repeat split.
    - unfold cas_applyScale, bind, get. cbn [c_numStages].
      replace (n <? 1)%Z with false by (symmetry; apply Z.ltb_ge; lia).
      unfold on_stage, bind, get. cbn [c_stages map]. unfold or_ub, aget. simpl.
      rewrite EB. reflexivity.
    - cbn [map]. constructor; [repeat split|]. clear. induction cs; simpl; constructor; auto.
    - intros f h H. destruct (cas_response_fin m (b :: cs) n f h HA) as [Hf [Hb ->]]; [lia|exact H|].
      destruct (Z.to_nat n) as [|k] eqn:En; [lia|]. cbn [firstn map] in *.
      change (emb_bq b' :: map emb_bq cs) with (map (emb_bq (strict := strict)) (b' :: cs)). rewrite cas_response_emb; try assumption.
      + do 2 f_equal. rewrite En. cbn [firstn map].
        assert (CC : forall (c : C) l', cprod (c :: l') = (c * cprod l')%C) by reflexivity.
        rewrite !CC in *. replace (rtop b' (upt f)) with (RtoC s * rtop b (upt f))%C.
        * change (rbot b' (upt f)) with (rbot b (upt f)). field.
          split; intros Q; apply Hb; rewrite Q; ring.
        * unfold rtop, poly2. simpl m_b0. simpl m_b1. simpl m_b2. rewrite !RtoC_mult. ring.
      + simpl in *. lia.
      + rewrite En. exact Hb.
    - intros t xs. exists (zs (b :: cs) xs). rewrite !map_length, !x_run. split; [reflexivity|].
      f_equal. unfold zs. rewrite map_map. apply map_ext. intros k. apply flts_scale_head.
  Qed.
End Lem.
