(** Proofs: analog poles and zeros, the s-plane to z-plane maps in exact arithmetic, and the response of
    the resulting cascade. *)
From Coq Require Import ZArith List Bool Reals Lra Lia.
From Coquelicot Require Import Coquelicot.
From Verif Require Import Num Outcome Types Biquad State Cascade Transforms Exact RealNum SigSpec SigProofs StabProofs
  RespProofs PZSpec PZProofs RBJProofs CoefLemmas BuildProofs PolyProofs.
Import ListNotations.
Local Open Scope R_scope.

(** ** points *)
(** a zero may be at infinity *)
Definition fac (z : option C) (a b : C) : C := match z with Some c => (a - c * b)%C | None => b end.
(** an analog pole with its zero *)
Definition apt : Type := (C * option C)%type.
Definition conj_apt (q : apt) : apt := (Cconj (fst q), option_map Cconj (snd q)).
Definition flat (pts : list apt) (sg : option apt) : list apt :=
  flat_map (fun q => [q; conj_apt q]) pts ++ match sg with Some q => [q] | None => [] end.
Definition dens (a b : C) (qs : list apt) : C := cprod (map (fun q => fac (Some (fst q)) a b) qs).
Definition nums (a b : C) (qs : list apt) : C := cprod (map (fun q => fac (snd q) a b) qs).

Lemma dens_app a b l l' : dens a b (l ++ l') = (dens a b l * dens a b l')%C.
Proof. unfold dens. rewrite map_app. apply cprod_app. Qed.
Lemma nums_app a b l l' : nums a b (l ++ l') = (nums a b l * nums a b l')%C.
Proof. unfold nums. rewrite map_app. apply cprod_app. Qed.
Lemma fac_scale z l a b : fac z (l * a)%C (l * b)%C = (l * fac z a b)%C.
Proof. destruct z; unfold fac; ring. Qed.
Lemma dens_scale l a b qs : dens (l * a)%C (l * b)%C qs = (cpw l (length qs) * dens a b qs)%C.
Proof.
  unfold dens. induction qs as [|q qs IH]; cbn [map length cpw]; [unfold cprod; simpl; ring|].
  rewrite !cprod_cons, IH, fac_scale. ring.
Qed.
Lemma nums_scale l a b qs : nums (l * a)%C (l * b)%C qs = (cpw l (length qs) * nums a b qs)%C.
Proof.
  unfold nums. induction qs as [|q qs IH]; cbn [map length cpw]; [unfold cprod; simpl; ring|].
  rewrite !cprod_cons, IH, fac_scale. ring.
Qed.
(** magnitude of the analog transfer function at s = i x / y *)
Definition mag (qs : list apt) (x y : R) : R := Cmod (nums (0, x) (RtoC y) qs) / Cmod (dens (0, x) (RtoC y) qs).

(** ** digital blocks *)
Definition pdens (u : C) (l : list pzc) : C := cprod (map (fun p => pz_den p u) l).
Definition pnums (u : C) (l : list pzc) : C := cprod (map (fun p => pz_num p u) l).
Lemma pdens_app u l l' : pdens u (l ++ l') = (pdens u l * pdens u l')%C.
Proof. unfold pdens. rewrite map_app. apply cprod_app. Qed.
Lemma pnums_app u l l' : pnums u (l ++ l') = (pnums u l * pnums u l')%C.
Proof. unfold pnums. rewrite map_app. apply cprod_app. Qed.

Section Maps.
  (** s = A(u) / B(u) *)
  Variables (A B : C -> C).
  Definition block (l : list pzc) (qs : list apt) : Prop :=
    exists Kd Kn : C, Kd <> 0%C /\ Kn <> 0%C /\
      forall u, pdens u l = (Kd * dens (A u) (B u) qs)%C /\ pnums u l = (Kn * nums (A u) (B u) qs)%C.
  Lemma block_nil : block [] [].
  Proof.
    exists (RtoC 1), (RtoC 1). split; [apply C1_nz|]. split; [apply C1_nz|]. intros u.
    unfold pdens, pnums, dens, nums, cprod. simpl. split; ring.
  Qed.
  Lemma block_app l l' qs qs' : block l qs -> block l' qs' -> block (l ++ l') (qs ++ qs').
  Proof.
    intros (K1 & K2 & N1 & N2 & H) (K3 & K4 & N3 & N4 & H').
    exists (K1 * K3)%C, (K2 * K4)%C. split; [apply Cmult_neq_0; assumption|]. split; [apply Cmult_neq_0; assumption|].
    intros u. rewrite pdens_app, pnums_app, dens_app, nums_app. destruct (H u) as [-> ->]. destruct (H' u) as [-> ->].
    split; ring.
  Qed.
  Lemma block_flat (dp : apt -> list pzc) pts (sg : option apt) (ds : list pzc) :
    List.Forall (fun q => block (dp q) [q; conj_apt q]) pts ->
    block ds (match sg with Some q => [q] | None => [] end) ->
    block (flat_map dp pts ++ ds) (flat pts sg).
  Proof.
    intros F S. unfold flat. apply block_app; [|exact S]. induction F as [|q pts Hq F IH]; cbn [flat_map]; [apply block_nil|].
    apply block_app; assumption.
  Qed.

  (** real coefficients, and the closed unit disc goes to the closed right half plane *)
  Definition sym : Prop := forall u, A (Cconj u) = Cconj (A u) /\ B (Cconj u) = Cconj (B u).
  Definition right_half : Prop := forall u, Cmod u <= 1 ->
    0 <= fst (A u) * fst (B u) + snd (A u) * snd (B u) /\ ~ (A u = 0%C /\ B u = 0%C).
  Lemma right_half_nz : right_half -> forall u c, Cmod u <= 1 -> fst c < 0 -> fac (Some c) (A u) (B u) <> 0%C.
  Proof.
    intros H u c Hu Hc Q. destruct (H u Hu) as [H1 H2]. unfold fac in Q.
    assert (E : A u = (c * B u)%C) by (replace (A u) with (A u - c * B u + c * B u)%C by ring; rewrite Q; ring).
    apply H2. destruct (Ceq_dec (B u) 0%C) as [Z|Z].
    - split; [|exact Z]. rewrite E, Z. ring.
    - exfalso. rewrite E in H1. pose proof (c_neq0 _ Z) as NZ. destruct (B u) as [b1 b2], c as [c1 c2]. cbn in *.
      assert (0 < b1 * b1 + b2 * b2) by nra. nra.
  Qed.
  (** only the unit circle goes to the imaginary axis *)
  Definition unit_half : Prop := forall u, fst (A u) * fst (B u) + snd (A u) * snd (B u) = 0 -> Cmod u = 1.
  Definition zimag (z : option C) : Prop := match z with Some c => fst c = 0 | None => True end.
  Definition zneg (z : option C) : Prop := match z with Some c => fst c < 0 | None => False end.
  Lemma unit_zero u z : unit_half -> zimag z -> fac z (A u) (B u) = 0%C -> Cmod u = 1.
  Proof.
    intros H Hz Q. apply H. destruct z as [c|]; cbn [fac zimag] in *.
    - assert (E : A u = (c * B u)%C) by (replace (A u) with (A u - c * B u + c * B u)%C by ring; rewrite Q; ring).
      rewrite E. destruct c as [c1 c2], (B u) as [b1 b2]. cbn in *. subst c1. ring.
    - rewrite Q. cbn. ring.
  Qed.
  (** a reported pole or zero other than 0 is a zero of the factors *)
  Lemma cprod_zero {T} (g : T -> C) l : cprod (map g l) = 0%C -> exists x, In x l /\ g x = 0%C.
  Proof.
    induction l as [|x l IH]; cbn [map]; intros Q; [exfalso; apply C1_nz; exact Q|]. rewrite cprod_cons in Q.
    destruct (Ceq_dec (g x) 0%C) as [E|E]; [exists x; split; [left; reflexivity|exact E]|].
    destruct (Ceq_dec (cprod (map g l)) 0%C) as [E'|E']; [|exfalso; apply (Cmult_neq_0 _ _ E E' Q)].
    destruct (IH E') as (y & Hy & Ey). exists y. split; [right; exact Hy|exact Ey].
  Qed.
  Lemma cprod_has_zero {T} (g : T -> C) l x : In x l -> g x = 0%C -> cprod (map g l) = 0%C.
  Proof.
    induction l as [|y l IH]; cbn [map In]; intros I E; [contradiction|]. rewrite cprod_cons. destruct I as [->|I]; [rewrite E; ring|].
    rewrite (IH I E). ring.
  Qed.
  Lemma inv_small (z : C) : 1 <= Cmod z -> Cmod (/ z)%C <= 1 /\ z <> 0%C.
  Proof.
    intros H. assert (N : z <> 0%C) by (intros Q; rewrite Q, Cmod_0 in H; lra). split; [|exact N].
    rewrite Cmod_inv by exact N. apply Rmult_le_reg_l with (Cmod z); [lra|]. rewrite Rinv_r by lra. lra.
  Qed.
  Lemma block_poles l qs : right_half -> block l qs -> List.Forall (fun q : apt => fst (fst q) < 0) qs ->
    List.Forall (fun p => Cmod (zp1 p) < 1 /\ Cmod (zp2 p) < 1) l.
  Proof.
    intros RH (Kd & Kn & ND & NN & BK) PL. apply Forall_forall. intros p Hp.
    assert (K : forall z, z = zp1 p \/ z = zp2 p -> Cmod z < 1).
    { intros z Hz. destruct (Rlt_dec (Cmod z) 1) as [L|L]; [exact L|exfalso]. destruct (inv_small z ltac:(lra)) as [M N].
      assert (D : pdens (/ z)%C l = 0%C).
      { apply (cprod_has_zero (fun p => pz_den p (/ z)%C) l p Hp). unfold pz_den. destruct Hz as [->| ->]; field; exact N. }
      destruct (BK (/ z)%C) as [E _]. rewrite D in E.
      assert (D' : dens (A (/ z)%C) (B (/ z)%C) qs = 0%C).
      { destruct (Ceq_dec (dens (A (/ z)%C) (B (/ z)%C) qs) 0%C) as [Q|Q]; [exact Q|]. exfalso. apply (Cmult_neq_0 _ _ ND Q). symmetry. exact E. }
      destruct (cprod_zero _ _ D') as (q & Hq & Q). rewrite Forall_forall in PL. exact (right_half_nz RH _ _ M (PL q Hq) Q). }
    split; apply K; auto.
  Qed.
  Lemma block_zero l qs p z : block l qs -> In p l -> z = zz1 p \/ z = zz2 p -> z <> 0%C ->
    exists q, In q qs /\ fac (snd q) (A (/ z)%C) (B (/ z)%C) = 0%C.
  Proof.
    intros (Kd & Kn & ND & NN & BK) Hp Hz N.
    assert (D : pnums (/ z)%C l = 0%C).
    { apply (cprod_has_zero (fun p => pz_num p (/ z)%C) l p Hp). unfold pz_num. destruct Hz as [->| ->]; field; exact N. }
    destruct (BK (/ z)%C) as [_ E]. rewrite D in E.
    assert (D' : nums (A (/ z)%C) (B (/ z)%C) qs = 0%C).
    { destruct (Ceq_dec (nums (A (/ z)%C) (B (/ z)%C) qs) 0%C) as [Q|Q]; [exact Q|]. exfalso. apply (Cmult_neq_0 _ _ NN Q). symmetry. exact E. }
    exact (cprod_zero _ _ D').
  Qed.
  Lemma block_zeros_on l qs : unit_half -> block l qs -> List.Forall (fun q : apt => zimag (snd q)) qs ->
    List.Forall (fun p => (zz1 p = 0%C \/ Cmod (zz1 p) = 1) /\ (zz2 p = 0%C \/ Cmod (zz2 p) = 1)) l.
  Proof.
    intros U BL ZI. apply Forall_forall. intros p Hp.
    assert (K : forall z, z = zz1 p \/ z = zz2 p -> z = 0%C \/ Cmod z = 1).
    { intros z Hz. destruct (Ceq_dec z 0%C) as [Q|N]; [left; exact Q|right].
      destruct (block_zero l qs p z BL Hp Hz N) as (q & Hq & Q). rewrite Forall_forall in ZI.
      pose proof (unit_zero _ _ U (ZI q Hq) Q) as M. rewrite Cmod_inv in M by exact N. apply Cmod_gt_0 in N.
      apply Rmult_eq_reg_r with (/ Cmod z); [|apply Rgt_not_eq, Rinv_0_lt_compat, N]. rewrite Rinv_r, M by lra. ring. }
    split; apply K; auto.
  Qed.
  Lemma block_zeros_in l qs : right_half -> block l qs -> List.Forall (fun q : apt => zneg (snd q)) qs ->
    List.Forall (fun p => Cmod (zz1 p) < 1 /\ Cmod (zz2 p) < 1) l.
  Proof.
    intros RH BL ZN. apply Forall_forall. intros p Hp.
    assert (K : forall z, z = zz1 p \/ z = zz2 p -> Cmod z < 1).
    { intros z Hz. destruct (Rlt_dec (Cmod z) 1) as [L|L]; [exact L|exfalso]. destruct (inv_small z ltac:(lra)) as [M N].
      destruct (block_zero l qs p z BL Hp Hz N) as (q & Hq & Q). rewrite Forall_forall in ZN. pose proof (ZN q Hq) as Z.
      destruct (snd q) as [c|]; [|exact Z]. exact (right_half_nz RH _ _ M Z Q). }
    split; apply K; auto.
  Qed.
End Maps.

(** one digital point per analog point *)
Definition conj_pz (p z : C) : pzc := PZc p (Cconj p) z (Cconj z).
Lemma cconj_mult (a b : C) : Cconj (a * b)%C = (Cconj a * Cconj b)%C.
Proof. destruct a, b. apply injective_projections; simpl; ring. Qed.
Lemma cconj_minus (a b : C) : Cconj (a - b)%C = (Cconj a - Cconj b)%C.
Proof. destruct a, b. apply injective_projections; simpl; ring. Qed.
Lemma cconj_conj (a : C) : Cconj (Cconj a) = a.
Proof. destruct a. apply injective_projections; simpl; ring. Qed.
Lemma cconj_1 : Cconj (RtoC 1) = RtoC 1.
Proof. apply injective_projections; simpl; ring. Qed.
Lemma cconj_nz (c : C) : c <> 0%C -> Cconj c <> 0%C.
Proof. intros H Q. apply H. rewrite <- (cconj_conj c), Q. apply injective_projections; simpl; ring. Qed.
Lemma cconj_fac z (a b : C) : Cconj (fac z a b) = fac (option_map Cconj z) (Cconj a) (Cconj b).
Proof. destruct z; cbn [fac option_map]; [rewrite cconj_minus, cconj_mult|]; reflexivity. Qed.

(** conjugate of a factor product identity *)
Lemma conj_factor (A B : C -> C) (S : sym A B) (P : list C) (K : C) z :
  (forall u, cprod (map (fun p => 1 - p * u)%C P) = (K * fac z (A u) (B u))%C) ->
  forall u, cprod (map (fun p => 1 - Cconj p * u)%C P) = (Cconj K * fac (option_map Cconj z) (A u) (B u))%C.
Proof.
  intros H u. pose proof (f_equal Cconj (H (Cconj u))) as E. rewrite cconj_mult, cconj_fac in E.
  destruct (S u) as [S1 S2]. rewrite S1, S2, !cconj_conj in E. rewrite <- E. clear.
  induction P as [|p P IH]; cbn [map]; [unfold cprod; simpl; symmetry; apply cconj_1|].
  rewrite !cprod_cons, IH, cconj_mult, cconj_minus, cconj_1, cconj_mult, cconj_conj. reflexivity.
Qed.

Section Blocks.
  Variables (A B : C -> C).
  Hypothesis S : sym A B.
  (** factorisation of a point into its images *)
  Definition images (P : list C) (z : option C) : Prop :=
    exists K : C, K <> 0%C /\ forall u, cprod (map (fun p => 1 - p * u)%C P) = (K * fac z (A u) (B u))%C.

  Lemma simple_block p z (q : apt) : images [p] (Some (fst q)) -> images [z] (snd q) ->
    block A B [conj_pz p z] [q; conj_apt q].
  Proof.
    intros (K & N & H) (K' & N' & H'). exists (K * Cconj K)%C, (K' * Cconj K')%C.
    split; [apply Cmult_neq_0; auto using cconj_nz|]. split; [apply Cmult_neq_0; auto using cconj_nz|]. intros u.
    pose proof (conj_factor A B S _ _ _ H u) as E. pose proof (conj_factor A B S _ _ _ H' u) as E'.
    specialize (H u). specialize (H' u). unfold pdens, pnums, dens, nums. cbn [map] in *. rewrite !cprod_cons in *.
    unfold conj_apt. cbn [fst snd option_map] in *. unfold pz_den, pz_num, conj_pz. cbn [zp1 zp2 zz1 zz2].
    unfold cprod in *. cbn [fold_right] in *. rewrite Cmult_1_r in *. rewrite H, H', E, E'. split; ring.
  Qed.
  Lemma simple_single p z (q : apt) : images [p] (Some (fst q)) -> images [z] (snd q) ->
    block A B [PZc p 0 z 0] [q].
  Proof.
    intros (K & N & H) (K' & N' & H'). exists K, K'. split; [exact N|]. split; [exact N'|]. intros u.
    specialize (H u). specialize (H' u). unfold pdens, pnums, dens, nums, pz_den, pz_num. cbn [map zp1 zp2 zz1 zz2] in *.
    unfold cprod in *. cbn [fold_right] in *. rewrite !Cmult_1_r in *.
    split; [transitivity (1 - p * u)%C; [ring|exact H]|transitivity (1 - z * u)%C; [ring|exact H']].
  Qed.
  (** [z2'] is [z2] or has the same conjugate pair *)
  Lemma band_block p1 p2 z1 z2 z2' (q : apt) : images [p1; p2] (Some (fst q)) -> images [z1; z2] (snd q) ->
    z2' = z2 \/ z2' = Cconj z2 ->
    block A B [conj_pz p1 z1; conj_pz p2 z2'] [q; conj_apt q].
  Proof.
    intros (K & N & H) (K' & N' & H') Z2. exists (K * Cconj K)%C, (K' * Cconj K')%C.
    split; [apply Cmult_neq_0; auto using cconj_nz|]. split; [apply Cmult_neq_0; auto using cconj_nz|]. intros u.
    pose proof (conj_factor A B S _ _ _ H u) as E. pose proof (conj_factor A B S _ _ _ H' u) as E'.
    specialize (H u). specialize (H' u).
    assert (R : pz_num (conj_pz p2 z2') u = pz_num (conj_pz p2 z2) u).
    { destruct Z2 as [->| ->]; [reflexivity|]. unfold pz_num, conj_pz. cbn [zz1 zz2]. rewrite cconj_conj. ring. }
    unfold pdens, pnums, dens, nums. cbn [map] in *. rewrite R. rewrite !cprod_cons in *.
    unfold conj_apt. cbn [fst snd option_map] in *. unfold pz_den, pz_num, conj_pz. cbn [zp1 zp2 zz1 zz2].
    unfold cprod in *. cbn [fold_right] in *. rewrite Cmult_1_r in *.
    rewrite !Cmult_1_r in *. split.
    - transitivity (((1 - p1 * u) * (1 - p2 * u)) * ((1 - Cconj p1 * u) * (1 - Cconj p2 * u)))%C; [ring|].
      rewrite H, E. ring.
    - transitivity (((1 - z1 * u) * (1 - z2 * u)) * ((1 - Cconj z1 * u) * (1 - Cconj z2 * u)))%C; [ring|].
      rewrite H', E'. ring.
  Qed.
  Lemma band_single p1 p2 z1 z2 (q : apt) : images [p1; p2] (Some (fst q)) -> images [z1; z2] (snd q) ->
    block A B [PZc p1 p2 z1 z2] [q].
  Proof.
    intros (K & N & H) (K' & N' & H'). exists K, K'. split; [exact N|]. split; [exact N'|]. intros u.
    specialize (H u). specialize (H' u). unfold pdens, pnums, dens, nums, pz_den, pz_num. cbn [map zp1 zp2 zz1 zz2] in *.
    unfold cprod in *. cbn [fold_right] in *. rewrite !Cmult_1_r in *. split; assumption.
  Qed.
End Blocks.

(** ** the cascade of a block *)
Definition circ (A B : C -> C) (f x y : R) : Prop :=
  exists l : C, l <> 0%C /\ A (upt f) = (l * (0%R, x))%C /\ B (upt f) = (l * RtoC y)%C.
Lemma circ_mag A B f x y qs : circ A B f x y ->
  Cmod (nums (A (upt f)) (B (upt f)) qs) / Cmod (dens (A (upt f)) (B (upt f)) qs) = mag qs x y.
Proof.
  intros (l & Hl & -> & ->). rewrite nums_scale, dens_scale, !Cmod_mult. unfold mag.
  assert (P : Cmod (cpw l (length qs)) <> 0) by (intros Q; apply Cmod_eq_0 in Q; apply (cpw_nz _ _ Hl Q)).
  set (k := Cmod (cpw l (length qs))) in *. set (n := Cmod (nums _ _ _)). set (d := Cmod (dens _ _ _)).
  unfold Rdiv. destruct (Req_dec d 0) as [Z|Z].
  - rewrite Z, Rmult_0_r. unfold Rdiv. rewrite Rinv_0. ring.
  - field. split; assumption.
Qed.
Lemma cprod_nz_in (l : list C) c : cprod l <> 0%C -> In c l -> c <> 0%C.
Proof.
  induction l as [|d l IH]; intros H Hi; [destruct Hi|]. rewrite cprod_cons in H. destruct Hi as [->|Hi].
  - intros Q. apply H. rewrite Q. ring.
  - apply IH; [|exact Hi]. intros Q. apply H. rewrite Q. ring.
Qed.
Lemma upt_le1 f : Cmod (upt f) <= 1.
Proof. unfold upt. rewrite cis_mod. lra. Qed.

Section Cas.
  Context {strict : bool}.
  Notation XS := (X strict).

  Lemma realises_stable p k (b : biquad XS) : realises p k b -> (forall u, Cmod u <= 1 -> pz_den p u <> 0%C) ->
    fin_bq b /\ stable_bq b.
  Proof.
    intros (a1 & a2 & b0 & b1 & b2 & -> & H) D. split.
    - repeat split; eexists; reflexivity.
    - exists a1, a2. split; [reflexivity|]. split; [reflexivity|]. intros z Hz.
      destruct (Rlt_le_dec (Cmod z) 1) as [L|L]; [exact L|]. exfalso.
      assert (Z : z <> 0%C) by (intros Q; rewrite Q, Cmod_0 in L; lra).
      apply (D (/ z)%C).
      + rewrite Cmod_inv by exact Z. rewrite <- Rinv_1. apply Rinv_le_contravar; lra.
      + destruct (H (/ z)%C) as [<- _]. unfold poly2.
        transitivity ((z * z + RtoC a1 * z + RtoC a2) * (/ z * / z))%C; [field; exact Z|]. rewrite Hz. ring.
  Qed.
  Lemma identity_stable (b : biquad XS) : identity_bq b -> fin_bq b /\ stable_bq b.
  Proof.
    intros ->. split; [repeat split; eexists; reflexivity|]. exists 0, 0. split; [reflexivity|]. split; [reflexivity|].
    intros z Hz. destruct (Ceq_dec z 0%C) as [->|Z]; [rewrite Cmod_0; lra|]. exfalso. apply (Cmult_neq_0 _ _ Z Z).
    rewrite <- Hz. ring.
  Qed.

  Lemma design_x A B dig qs extra np mp w g n0 (old : list (biquad XS)) x0 y0 :
    right_half A B -> block A B dig qs -> List.Forall pz_ok dig -> List.Forall (fun q : apt => fst (fst q) < 0) qs ->
    Z.of_nat (length dig) = Z.quot (np + 1) 2 -> (0 < length dig <= length old)%nat ->
    0 <= w <= PI -> circ A B (w / (2 * PI)) x0 y0 -> nums (0, x0) (RtoC y0) qs <> 0%C ->
    exists cs : list (biquad XS),
      setLayout (N := XS) (MkLayout np mp (map xpz dig ++ extra) (XR w) (XR g)) (MkCascade n0 (Z.of_nat (length old)) old) =
        Ok (MkCascade (Z.of_nat (length dig)) (Z.of_nat (length old)) cs) tt /\
      length cs = length old /\
      List.Forall fin_bq cs /\ List.Forall stable_bq cs /\
      (exists c1 c2, cs = c1 ++ c2 /\ List.Forall2 (fun p b => exists k, (g <> 0 -> k <> 0) /\ realises p k b) dig c1 /\ List.Forall identity_bq c2) /\
      (0 < g -> 0 < lay_gain dig w g) /\
      forall f x y, 0 <= f <= 1 / 2 -> circ A B f x y -> exists h,
        cas_response (N := XS) (MkCascade (Z.of_nat (length dig)) (Z.of_nat (length old)) cs) (XR f) = Val (xc h) /\
        Cmod h = Rabs g * mag qs x y / mag qs x0 y0 /\
        h = (RtoC (lay_gain dig w g) * pnums (upt f) dig / pdens (upt f) dig)%C.
  Proof.
    intros RH (Kd & Kn & ND & NN & BK) OK PL LN [L0 LO] Hw CN NZ. pose proof PI_RGT_0 as HPI.
    assert (DN : forall u, Cmod u <= 1 -> dens (A u) (B u) qs <> 0%C).
    { intros u Hu. unfold dens. apply cprod_nz. apply Forall_map. eapply List.Forall_impl; [|exact PL].
      intros q Hq. apply right_half_nz; assumption. }
    assert (PD : forall u, Cmod u <= 1 -> pdens u dig <> 0%C).
    { intros u Hu. destruct (BK u) as [-> _]. apply Cmult_neq_0; [exact ND|apply DN; exact Hu]. }
    assert (PF : forall u, Cmod u <= 1 -> List.Forall (fun p => pz_den p u <> 0%C) dig).
    { intros u Hu. apply Forall_forall. intros p Hp. apply (cprod_nz_in _ _ (PD u Hu)). apply in_map_iff. exists p. auto. }
    assert (W : upt (w / (2 * PI)) = cis (- w)) by (unfold upt; f_equal; field; lra).
    assert (N0 : nums (A (cis (- w))) (B (cis (- w))) qs <> 0%C).
    { rewrite <- W. destruct CN as (l & Hl & -> & ->). rewrite nums_scale. apply Cmult_neq_0; [apply cpw_nz, Hl|exact NZ]. }
    assert (PN : pnums (cis (- w)) dig <> 0%C).
    { destruct (BK (cis (- w))) as [_ ->]. apply Cmult_neq_0; assumption. }
    destruct (setLayout_x (strict := strict) dig extra np mp w g n0 old OK LN LO Hw) as [cs [rest [E [LL [F2 [I R]]]]]].
    { apply PF. rewrite cis_mod. lra. }
    { apply Forall_forall. intros p Hp. apply (cprod_nz_in _ _ PN). apply in_map_iff. exists p. auto. }
    assert (FS : List.Forall (fun b => fin_bq b /\ stable_bq b) (cs ++ rest)).
    { apply Forall_app. split.
      - assert (PF' : List.Forall (fun p => forall u, Cmod u <= 1 -> pz_den p u <> 0%C) dig).
        { apply Forall_forall. intros p Hp u Hu. pose proof (PF u Hu) as Q. rewrite Forall_forall in Q. apply Q, Hp. }
        clear - F2 PF'. induction F2 as [|p b l l' [k [_ Hk]] F2 IH]; constructor.
        + inversion PF'; subst. apply (realises_stable p k); assumption.
        + inversion PF'; subst. apply IH. assumption.
      - eapply List.Forall_impl; [|exact I]. apply identity_stable. }
    exists (cs ++ rest). split; [exact E|]. split; [exact LL|].
    split; [eapply List.Forall_impl; [|exact FS]; intros b [Q _]; exact Q|].
    split; [eapply List.Forall_impl; [|exact FS]; intros b [_ Q]; exact Q|].
    split; [exists cs, rest; auto|]. split.
    { intros G0. unfold lay_gain. destruct dig as [|d0 dr]; [simpl in L0; lia|]. apply Rdiv_lt_0_compat; [exact G0|]. apply Cmod_gt_0.
      apply Cmult_neq_0; [exact PN|]. intros Q. pose proof (PD (cis (- w)) ltac:(rewrite cis_mod; lra)) as P.
      pose proof (Cinv_r _ P) as Q2. fold (pdens (cis (- w)) (d0 :: dr)) in Q. rewrite Q, Cmult_0_r in Q2. inversion Q2. lra. }
    intros f x y Hf CF. eexists. split; [apply R; [exact Hf|apply PF, upt_le1]|]. split; [|reflexivity].
    assert (LG : lay_gain dig w g = g / Cmod (pnums (cis (- w)) dig / pdens (cis (- w)) dig)%C).
    { unfold lay_gain. destruct dig; [simpl in L0; lia|reflexivity]. }
    rewrite LG. fold (pnums (upt f) dig). fold (pdens (upt f) dig).
    rewrite <- (circ_mag A B f x y qs CF), <- (circ_mag A B _ x0 y0 qs CN). rewrite W.
    pose proof (PD (cis (- w)) ltac:(rewrite cis_mod; lra)) as PDw. pose proof (DN (cis (- w)) ltac:(rewrite cis_mod; lra)) as DNw.
    pose proof (PD (upt f) (upt_le1 f)) as PDf. pose proof (DN (upt f) (upt_le1 f)) as DNf.
    destruct (BK (upt f)) as [E1 E2]. destruct (BK (cis (- w))) as [E3 E4].
    rewrite Cmod_div, Cmod_mult, Cmod_R by exact PDf. rewrite Cmod_div by exact PDw. rewrite E1, E2, E3, E4, !Cmod_mult.
    apply Cmod_gt_0 in ND. apply Cmod_gt_0 in NN. apply Cmod_gt_0 in DNw. apply Cmod_gt_0 in DNf. apply Cmod_gt_0 in N0.
    unfold Rdiv. rewrite Rabs_mult.
    rewrite (Rabs_right (/ _)).
    - field. repeat split; apply Rgt_not_eq; assumption.
    - left. apply Rinv_0_lt_compat. apply Rmult_lt_0_compat; [|apply Rinv_0_lt_compat]; apply Rmult_lt_0_compat; assumption.
  Qed.
End Cas.
