(** Proofs: stable sections have bounded output and forget their past. *)
From Coq Require Import ZArith List Bool Reals Lra Lia.
From Coquelicot Require Import Coquelicot.
From Verif Require Import Num Outcome Types Biquad State Cascade Exact RealNum Stream SigSpec SigProofs.
Import ListNotations.
Local Open Scope R_scope.

(** ** first order real recursions *)
Lemma rec_bound r W (u : nat -> R) : 0 <= r < 1 -> 0 <= W ->
  u O <= W -> (forall n, u (S n) <= r * u n + W) -> forall n, u n <= W / (1 - r).
Proof.
  intros Hr HW H0 HS n.
  assert (Q : W / (1 - r) * (1 - r) = W) by (field; lra).
  assert (Q0 : 0 <= W / (1 - r)) by (apply Rdiv_le_0_compat; lra).
  induction n as [|n IH].
  - nra.
  - specialize (HS n). nra.
Qed.

Lemma rec_lim r (u w : nat -> R) : 0 <= r < 1 -> (forall n, 0 <= u n) ->
  (forall n, u (S n) <= r * u n + w (S n)) -> is_lim_seq w 0 -> is_lim_seq u 0.
Proof.
  intros Hr Hu HS Hw. apply is_lim_seq_spec. intros eps. simpl.
  apply is_lim_seq_spec in Hw. simpl in Hw.
  pose proof (cond_pos eps) as He.
  assert (Hd : 0 < eps * (1 - r) / 2) by nra.
  destruct (Hw (mkposreal _ Hd)) as [N HN]. simpl in HN.
  assert (B : forall m, u (N + m)%nat <= r ^ m * u N + eps / 2).
  { induction m as [|m IH].
    - rewrite Nat.add_0_r. simpl. lra.
    - rewrite Nat.add_succ_r. specialize (HS (N + m)%nat).
      assert (W : w (S (N + m)) < eps * (1 - r) / 2).
      { specialize (HN (S (N + m)) ltac:(lia)). rewrite Rminus_0_r in HN.
        apply Rabs_def2 in HN. lra. }
      simpl. nra. }
  assert (G : is_lim_seq (fun m => r ^ m * u N) 0).
  { replace 0 with (0 * u N) by ring. apply is_lim_seq_mult'; [|apply is_lim_seq_const].
    apply is_lim_seq_geom. rewrite Rabs_pos_eq; lra. }
  apply is_lim_seq_spec in G. simpl in G.
  assert (He2 : 0 < eps / 2) by lra.
  destruct (G (mkposreal _ He2)) as [M HM]. simpl in HM.
  exists (N + M)%nat. intros n Hn. replace n with (N + (n - N))%nat by lia.
  specialize (B (n - N)%nat). specialize (HM (n - N)%nat ltac:(lia)).
  rewrite Rminus_0_r in *. apply Rabs_def2 in HM.
  rewrite Rabs_pos_eq by apply Hu. lra.
Qed.

(** ** roots of z^2 + a1 z + a2 *)
Lemma quad_roots (a1 a2 : R) : exists p1 p2 : C,
  RtoC a1 = (- (p1 + p2))%C /\ RtoC a2 = (p1 * p2)%C.
Proof.
  set (D := a1 * a1 - 4 * a2).
  destruct (Rle_dec 0 D) as [H|H].
  - pose proof (sqrt_sqrt D H) as Q.
    exists (RtoC ((- a1 + sqrt D) / 2)), (RtoC ((- a1 - sqrt D) / 2)).
    split; apply injective_projections; simpl; try ring; try field.
    unfold D in *. nra.
  - assert (H' : 0 <= - D) by lra. pose proof (sqrt_sqrt (- D) H') as Q.
    exists (- a1 / 2, sqrt (- D) / 2), (- a1 / 2, - sqrt (- D) / 2).
    split; apply injective_projections; simpl; try ring; try field.
    unfold D in *. nra.
Qed.

Lemma stable_roots a1 a2 : stable_poly a1 a2 -> exists p1 p2 : C,
  RtoC a1 = (- (p1 + p2))%C /\ RtoC a2 = (p1 * p2)%C /\ Cmod p1 < 1 /\ Cmod p2 < 1.
Proof.
  intros H. destruct (quad_roots a1 a2) as [p1 [p2 [E1 E2]]]. exists p1, p2.
  repeat split; auto; apply H; rewrite E1, E2; ring.
Qed.

(** the factored recursion *)
Lemma fact_rec (a1 a2 : R) (p1 p2 : C) (y : sig) :
  RtoC a1 = (- (p1 + p2))%C -> RtoC a2 = (p1 * p2)%C ->
  exists u : nat -> C,
    (u O = RtoC (fir 1 a1 a2 y O)) /\ (forall n, u (S n) = (p1 * u n + RtoC (fir 1 a1 a2 y (S n)))%C) /\
    (RtoC (y O) = u O) /\ (forall n, RtoC (y (S n)) = (p2 * RtoC (y n) + u (S n))%C).
Proof.
  intros E1 E2. exists (fun n => (RtoC (y n) - p2 * RtoC (del y n))%C).
  unfold fir. split; [|split; [|split]].
  - simpl. rewrite !RtoC_plus, !RtoC_mult. ring.
  - intros n. simpl. rewrite !RtoC_plus, !RtoC_mult, E1, E2. ring.
  - simpl. ring.
  - intros n. simpl. ring.
Qed.

Lemma cmod_R x : Cmod (RtoC x) = Rabs x.
Proof. apply Cmod_R. Qed.

Lemma den_bibo a1 a2 : stable_poly a1 a2 -> exists K, 0 <= K /\
  forall (y : sig) W, 0 <= W -> (forall n, Rabs (fir 1 a1 a2 y n) <= W) -> forall n, Rabs (y n) <= K * W.
Proof.
  intros H. destruct (stable_roots a1 a2 H) as [p1 [p2 [E1 [E2 [P1 P2]]]]].
  pose proof (Cmod_ge_0 p1) as Q1. pose proof (Cmod_ge_0 p2) as Q2.
  exists (/ (1 - Cmod p1) * / (1 - Cmod p2)). split.
  - apply Rmult_le_pos; left; apply Rinv_0_lt_compat; lra.
  - intros y W HW HB. destruct (fact_rec a1 a2 p1 p2 y E1 E2) as [u [U0 [US [Y0 YS]]]].
    assert (UB : forall n, Cmod (u n) <= W / (1 - Cmod p1)).
    { apply (rec_bound (Cmod p1) W (fun n => Cmod (u n))); try lra.
      - rewrite U0, cmod_R. apply HB.
      - intros n. rewrite US. eapply Rle_trans; [apply Cmod_triangle|].
        rewrite Cmod_mult, cmod_R. specialize (HB (S n)). lra. }
    intros n. rewrite <- cmod_R.
    assert (W' : 0 <= W / (1 - Cmod p1)) by (apply Rdiv_le_0_compat; lra).
    replace (/ (1 - Cmod p1) * / (1 - Cmod p2) * W) with (W / (1 - Cmod p1) / (1 - Cmod p2)) by (field; lra).
    apply (rec_bound (Cmod p2) (W / (1 - Cmod p1)) (fun n => Cmod (RtoC (y n)))); try lra.
    + rewrite Y0. apply UB.
    + intros k. rewrite YS. eapply Rle_trans; [apply Cmod_triangle|].
      rewrite Cmod_mult. specialize (UB (S k)). lra.
Qed.

Lemma den_relax a1 a2 (y : sig) : stable_poly a1 a2 ->
  is_lim_seq (fir 1 a1 a2 y) 0 -> is_lim_seq y 0.
Proof.
  intros H HL. destruct (stable_roots a1 a2 H) as [p1 [p2 [E1 [E2 [P1 P2]]]]].
  pose proof (Cmod_ge_0 p1) as Q1. pose proof (Cmod_ge_0 p2) as Q2.
  destruct (fact_rec a1 a2 p1 p2 y E1 E2) as [u [U0 [US [Y0 YS]]]].
  assert (UL : is_lim_seq (fun n => Cmod (u n)) 0).
  { apply (rec_lim (Cmod p1) _ (fun n => Rabs (fir 1 a1 a2 y n))); try lra.
    - intros n. apply Cmod_ge_0.
    - intros n. rewrite US. eapply Rle_trans; [apply Cmod_triangle|].
      rewrite Cmod_mult, cmod_R. lra.
    - apply -> is_lim_seq_abs_0. exact HL. }
  apply <- is_lim_seq_abs_0.
  apply (is_lim_seq_ext (fun n => Cmod (RtoC (y n)))); [intros; apply cmod_R|].
  apply (rec_lim (Cmod p2) _ (fun n => Cmod (u n))); try lra.
  - intros n. apply Cmod_ge_0.
  - intros n. rewrite YS. eapply Rle_trans; [apply Cmod_triangle|]. rewrite Cmod_mult. lra.
  - exact UL.
Qed.

(** ** FIR part *)
Lemma del_bound (x : sig) M : 0 <= M -> (forall n, Rabs (x n) <= M) -> forall n, Rabs (del x n) <= M.
Proof. intros HM H [|n]; simpl; [rewrite Rabs_R0; lra|apply H]. Qed.
Lemma fir_bound p0 p1 p2 (x : sig) M : 0 <= M -> (forall n, Rabs (x n) <= M) ->
  forall n, Rabs (fir p0 p1 p2 x n) <= (Rabs p0 + Rabs p1 + Rabs p2) * M.
Proof.
  intros HM H n. unfold fir.
  pose proof (del_bound x M HM H) as D1. pose proof (del_bound (del x) M HM D1 n) as D2.
  specialize (D1 n). specialize (H n).
  pose proof (Rabs_pos p0). pose proof (Rabs_pos p1). pose proof (Rabs_pos p2).
  eapply Rle_trans; [apply Rabs_triang|]. eapply Rle_trans; [apply Rplus_le_compat_r; apply Rabs_triang|].
  rewrite !Rabs_mult. nra.
Qed.
Lemma del_lim (x : sig) : is_lim_seq x 0 -> is_lim_seq (del x) 0.
Proof. intros H. apply is_lim_seq_incr_1. exact H. Qed.
Lemma fir_lim p0 p1 p2 (x : sig) : is_lim_seq x 0 -> is_lim_seq (fir p0 p1 p2 x) 0.
Proof.
  intros H. unfold fir.
  replace 0 with (p0 * 0 + p1 * 0 + p2 * 0) by ring.
  repeat apply is_lim_seq_plus'; apply is_lim_seq_mult'; try apply is_lim_seq_const; auto.
  - apply del_lim; auto.
  - apply del_lim, del_lim; auto.
Qed.
Lemma imp2_lim e : is_lim_seq (imp2 e) 0.
Proof.
  apply is_lim_seq_incr_1, is_lim_seq_incr_1. simpl.
  apply (is_lim_seq_ext (fun _ => 0)); [reflexivity|]. apply is_lim_seq_const.
Qed.

(** ** one stage from any state *)
Definition rstable (b : biquad RN) : Prop := stable_poly (m_a1 b) (m_a2 b).

Lemma bout_bibo b s : rstable b -> exists K K0, 0 <= K /\ 0 <= K0 /\
  (forall x M, 0 <= M -> (forall n, Rabs (x n) <= M) -> forall n, Rabs (bout b s x n) <= K * M + K0) /\
  ((exists t, s = st_init t) -> K0 = 0).
Proof.
  intros H. destruct (den_bibo _ _ H) as [K [HK B]].
  set (q := Rabs (m_b0 b) + Rabs (m_b1 b) + Rabs (m_b2 b)).
  assert (Hq : 0 <= q) by (unfold q; pose proof (Rabs_pos (m_b0 b)); pose proof (Rabs_pos (m_b1 b)); pose proof (Rabs_pos (m_b2 b)); lra).
  set (e := Rabs (fst (kick b s)) + Rabs (snd (kick b s))).
  pose proof (Rabs_pos (fst (kick b s))) as E1. pose proof (Rabs_pos (snd (kick b s))) as E2.
  exists (K * q), (K * e). repeat split.
  - nra.
  - unfold e. nra.
  - intros x M HM HX n.
    replace (K * q * M + K * e) with (K * (q * M + e)) by ring.
    apply B; [unfold e; nra|]. intros k. fold (den b). rewrite bout_eq.
    eapply Rle_trans; [apply Rabs_triang|].
    pose proof (fir_bound (m_b0 b) (m_b1 b) (m_b2 b) x M HM HX k) as F. fold (numr b) q in F.
    assert (Rabs (imp2 (kick b s) k) <= e).
    { unfold e. destruct k as [|[|k]]; simpl; try rewrite Rabs_R0; lra. }
    lra.
  - intros [t ->]. unfold e.
    pose proof (kick_init b t 0) as Z0. pose proof (kick_init b t 1) as Z1. simpl in Z0, Z1.
    rewrite Z0, Z1, !Rabs_R0. ring.
Qed.

Lemma bout_relax b s x : rstable b -> is_lim_seq x 0 -> is_lim_seq (bout b s x) 0.
Proof.
  intros H HX. apply (den_relax _ _ _ H). fold (den b).
  apply (is_lim_seq_ext (fun n => numr b x n + imp2 (kick b s) n)); [intros; symmetry; apply bout_eq|].
  replace 0 with (0 + 0) by ring. apply is_lim_seq_plus'; [apply fir_lim; exact HX|apply imp2_lim].
Qed.

(** ** cascades *)
Lemma couts_bibo bss : List.Forall (fun bs => rstable (fst bs)) bss -> exists K K0, 0 <= K /\ 0 <= K0 /\
  (forall x M, 0 <= M -> (forall n, Rabs (x n) <= M) -> forall n, Rabs (couts bss x n) <= K * M + K0) /\
  (List.Forall (fun bs => exists t, snd bs = st_init t) bss -> K0 = 0).
Proof.
  induction bss as [|[b s] bss IH]; intros HF.
  - exists 1, 0. repeat split; try lra. intros x M HM HX n. simpl. specialize (HX n). lra.
  - inversion HF; subst. destruct (IH H2) as [K [K0 [A1 [A2 [A3 A4]]]]].
    destruct (bout_bibo b s H1) as [L [L0 [B1 [B2 [B3 B4]]]]].
    exists (K * L), (K * L0 + K0). repeat split; try nra.
    + intros x M HM HX n. change (couts ((b, s) :: bss) x) with (couts bss (bout b s x)).
      replace (K * L * M + (K * L0 + K0)) with (K * (L * M + L0) + K0) by ring.
      apply A3; [nra|]. apply B3; auto.
    + intros G. inversion G; subst. simpl in *. rewrite (A4 H4), (B4 H3). ring.
Qed.

Lemma couts_relax bss : List.Forall (fun bs => rstable (fst bs)) bss ->
  forall x, is_lim_seq x 0 -> is_lim_seq (couts bss x) 0.
Proof.
  induction bss as [|[b s] bss IH]; intros HF x HX; simpl; auto.
  inversion HF; subst. apply IH; auto. apply bout_relax; auto.
Qed.

(** ** the stability triangle *)
Lemma cmod_lt1 (z : C) : fst z * fst z + snd z * snd z < 1 -> Cmod z < 1.
Proof.
  intros H. unfold Cmod. rewrite <- sqrt_1. apply sqrt_lt_1_alt. destruct z as [x y]. simpl in *. nra.
Qed.
Lemma jury a1 a2 : Rabs a2 < 1 -> Rabs a1 < 1 + a2 -> stable_poly a1 a2.
Proof.
  intros H2 H1 [x y] E. apply cmod_lt1. simpl.
  apply Rabs_def2 in H2. apply Rabs_def2 in H1.
  assert (E1 := f_equal fst E). assert (E2 := f_equal snd E). simpl in E1, E2.
  destruct (Req_dec y 0) as [Y|Y].
  - subst y. assert (P : x * x + a1 * x + a2 = 0) by lra.
    assert (-1 < x < 1); [|nra].
    split; apply Rnot_le_lt; intros C; nra.
  - assert (Q : 2 * x + a1 = 0) by nra. nra.
Qed.
