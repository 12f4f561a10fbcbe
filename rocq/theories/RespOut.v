(** Lemmas: the frequency response of the ideal low and high pass cascades, and response () of the filters set up in binary64. *)
From Coq Require Import ZArith List Bool Reals Lra Lia.
From Coquelicot Require Import Coquelicot.
From Flocq Require Import Core.Raux IEEE754.BinarySingleNaN.
From Verif Require Import Num Outcome Types Biquad State Cascade PoleFilter Exact  RealNum SigSpec StabProofs RespProofs PZSpec ChebSpec DesignSpec DesignLemmas DesignFinal
  DblSpec BwDblSpec BwExact BwDblFinal SigLemmas ChainSpec ChCoefSpec ChExact ChScaleSpec RespDblSpec RespOutSpec.
Import ListNotations.
Local Open Scope R_scope.

Lemma resp_loop_app (N : num) z1 z2 rest : forall (bs : list (biquad N)) ch cb, resp_loop z1 z2 (bs ++ rest) (length bs) ch cb = resp_loop z1 z2 bs (length bs) ch cb.
Proof. induction bs as [|b bs IH]; intros ch cb; cbn [app length resp_loop]; [destruct rest; reflexivity|apply IH]. Qed.
Lemma response_app (N : num) mx (bs rest : list (biquad N)) f : cas_response (MkCascade (Z.of_nat (length bs)) mx (bs ++ rest)) f = cas_response (MkCascade (Z.of_nat (length bs)) mx bs) f.
Proof.
  unfold cas_response. cbn [c_numStages c_stages]. rewrite Nat2Z.id.
  destruct (othrow_if _ _); [|reflexivity|reflexivity]. cbn [obind]. destruct (othrow_if _ _); [|reflexivity|reflexivity]. cbn [obind].
  destruct (oor_ub _); [|reflexivity|reflexivity]. cbn [obind]. destruct (oor_ub _); [|reflexivity|reflexivity]. cbn [obind]. rewrite resp_loop_app. reflexivity.
Qed.
Lemma cprod_nz l : List.Forall (fun z : C => z <> 0%C) l -> cprod l <> 0%C.
Proof.
  unfold cprod. induction 1 as [|z l H F IH]; cbn [fold_right]; [intros E; apply (f_equal fst) in E; cbn in E; lra|apply Cmult_neq_0; assumption].
Qed.
Lemma scaled_num d s f : i_num f (scaled d s) = rtop (ibq d s) (upt f).
Proof. reflexivity. Qed.
Lemma scaled_den d s f : i_den f (scaled d s) = rbot (ibq d s) (upt f).
Proof. reflexivity. Qed.
Lemma prefix_of {A} (l : list A) (g : nat -> A) : forall N k, (forall i, (i < N)%nat -> nth_error l i = Some (g (k + i)%nat)) -> exists rest, l = map g (seq k N) ++ rest.
Proof.
  revert l. fix IH 2. intros l N k H. destruct N as [|N]; [exists l; reflexivity|]. destruct l as [|x l]; [specialize (H 0%nat ltac:(lia)); discriminate H|].
  pose proof (H 0%nat ltac:(lia)) as H0. cbn in H0. rewrite Nat.add_0_r in H0. inversion H0; subst x.
  destruct (IH l N (S k)) as [rest E]; [intros i Hi; specialize (H (S i) ltac:(lia)); cbn [nth_error] in H; rewrite H; do 2 f_equal; lia|].
  exists rest. cbn [seq map app]. rewrite E at 1. reflexivity.
Qed.

Section Ex.
  Notation XS := (X false).
  Lemma exact_resp (fl : filt XS) N (d : nat -> ideal) (s : nat -> R) f : filt_numStages fl = Z.of_nat N ->
    (forall i, (i < N)%nat -> filt_index fl (Z.of_nat i) = Val (xsection (d i) (s i))) -> stable_filter fl -> 0 <= f <= 1 / 2 ->
    let ds := map (fun i => scaled (d i) (s i)) (seq 0 N) in
    cprod (map (i_den f) ds) <> 0%C /\ filt_response (N := XS) fl (XR f) = Val (xc (i_resp ds f)).
  Proof.
    intros HN HI [_ ST] Hf ds. unfold fl_stages, filt_index, filt_numStages, filt_response in *. destruct (pf_cas (fl_pf fl)) as [n mx cs]. cbn [c_numStages c_stages] in *. subst n.
    destruct (prefix_of cs (fun i => xsection (strict := false) (d i) (s i)) N 0) as [rest ->].
    { intros i Hi. specialize (HI i Hi). unfold cas_index in HI. cbn [c_numStages c_stages] in HI.
      replace ((Z.of_nat i <? 0)%Z || (Z.of_nat N <=? Z.of_nat i)%Z) with false in HI by (symmetry; apply orb_false_iff; split; [apply Z.ltb_ge|apply Z.leb_gt]; lia).
      cbn [othrow_if obind] in HI. unfold aget in HI. replace (Z.of_nat i <? 0)%Z with false in HI by (symmetry; apply Z.ltb_ge; lia). rewrite Nat2Z.id in HI.
      destruct (nth_error cs i) as [b|]; cbn [oor_ub] in HI; [inversion HI; reflexivity|discriminate]. }
    set (rb := map (fun i => ibq (d i) (s i)) (seq 0 N)).
    assert (EB : map (fun i => xsection (strict := false) (d i) (s i)) (seq 0 N) = map emb_bq rb) by (unfold rb; rewrite map_map; reflexivity).
    assert (LB : length rb = N) by (unfold rb; rewrite map_length, seq_length; reflexivity).
    rewrite EB in *. apply Forall_app in ST. destruct ST as [ST _].
    assert (DN : map (i_den f) ds = map (fun b => rbot b (upt f)) rb) by (unfold ds, rb; rewrite !map_map; reflexivity).
    assert (NM : map (i_num f) ds = map (fun b => rtop b (upt f)) rb) by (unfold ds, rb; rewrite !map_map; reflexivity).
    assert (NZ : cprod (map (i_den f) ds) <> 0%C).
    { rewrite DN. apply cprod_nz. apply Forall_map. apply List.Forall_forall. intros b Hb. apply rbot_nz. apply (stable_emb (strict := false)). exact (proj1 (List.Forall_forall _ _) ST _ (in_map emb_bq rb b Hb)). }
    split; [exact NZ|]. unfold i_resp. rewrite NM, DN in *.
    replace (Z.of_nat N) with (Z.of_nat (length (map (emb_bq (strict := false)) rb))) by (rewrite map_length, LB; reflexivity). rewrite response_app, map_length.
    rewrite cas_response_emb; rewrite ?Nat2Z.id, ?firstn_all; auto.
    apply List.Forall_forall. intros b Hb. unfold rb in Hb. apply in_map_iff in Hb. destruct Hb as (i & <- & _). cbn. lra.
  Qed.

  Definition shp (hp : bool) : shape := if hp then HP else LP.
  Definition lh_sec (fam : family) (hp : bool) (f db : R) (n i : nat) : ideal :=
    match fam with Bw => bw_ideal hp f n i | Ch1 => ch_ideal false hp f db n i | Ch2 => ch_ideal true hp f db n i end.
  Definition lh_scale (fam : family) (hp : bool) (f db : R) (n : nat) : R :=
    match fam with Bw => bw_scale hp f n | Ch1 => ch_scale false hp f db n | Ch2 => ch_scale true hp f db n end.
  Lemma lh_setup fam (hp : bool) f db n fl : (1 <= n)%nat -> in_int (2 * Z.of_nat n) = true -> 0 < f < 1 / 2 -> db_ok fam db ->
    let q := MkParams (N := XS) (XR f) (XR 0) (XR 0) (XR db) in
    filt_setupN (N := XS) (fam, shp hp) (Z.of_nat n) (Some (Z.of_nat n)) q (filt_init DF1 (fam, shp hp) (Z.of_nat n)) = Ok fl tt -> stable_filter fl ->
    forall x, 0 <= x <= 1 / 2 -> cprod (map (i_den x) (lh_cascade fam hp f db n)) <> 0%C /\ filt_response (N := XS) fl (XR x) = Val (xc (i_resp (lh_cascade fam hp f db n) x)).
  Proof.
    intros Hn HI Hf Hd q E ST x Hx.
    assert (P : exists p, setupN (N := XS) (fam, shp hp) (Z.of_nat n) (Some (Z.of_nat n)) q (pf_init (fam, shp hp) (Z.of_nat n)) = Ok p tt /\ c_numStages (pf_cas p) = Z.of_nat (bw_sections n) /\
      forall i, (i < bw_sections n)%nat -> cas_index (N := XS) (pf_cas p) (Z.of_nat i) = Val (xsection (lh_sec fam hp f db n i) (if Nat.eqb i 0 then lh_scale fam hp f db n else 1))).
    { unfold shp. destruct fam; cbn [db_ok] in Hd.
      - destruct (bw_exact hp q f n (Z.of_nat n) eq_refl Hf Hn HI (Z.le_refl _)) as (p & rest & E1 & E2). exists p. split; [exact E1|]. rewrite E2. cbn [c_numStages]. split; [reflexivity|].
        intros i Hi. apply index_at; [lia|]. rewrite nth_error_app1 by (rewrite map_length, seq_length; exact Hi). rewrite nth_error_map, (nth_error_nth' _ 0%nat), seq_nth by (try rewrite seq_length; exact Hi). reflexivity.
      - exact (ch_exact false hp q f db n (Z.of_nat n) eq_refl eq_refl Hf Hd Hn HI (Z.le_refl _)).
      - exact (ch_exact true hp q f db n (Z.of_nat n) eq_refl eq_refl Hf Hd Hn HI (Z.le_refl _)). }
    destruct P as (p & E1 & E2 & E3).
    unfold filt_setupN, on_pf, zoom, filt_init in E. cbn [fl_pf fl_states] in E. rewrite E1 in E. inversion E; subst fl.
    match type of ST with stable_filter ?F => pose proof (exact_resp F (bw_sections n) (lh_sec fam hp f db n) (fun i => if Nat.eqb i 0 then lh_scale fam hp f db n else 1) x E2 E3 ST Hx) as R end. cbn zeta in R.
    replace (lh_cascade fam hp f db n) with (map (fun i => scaled (lh_sec fam hp f db n i) (if Nat.eqb i 0 then lh_scale fam hp f db n else 1)) (seq 0 (bw_sections n))) by (destruct fam; reflexivity). exact R.
  Qed.

  Lemma c78_gain fam (hp : bool) f db n : (1 <= n)%nat -> in_int (2 * Z.of_nat n) = true -> 0 < f < 1 / 2 -> db_ok fam db ->
    let ds := lh_cascade fam hp f db n in
    (forall x, 0 <= x <= 1 / 2 -> cprod (map (i_den x) ds) <> 0%C) /\
    (forall x, 0 < x < 1 / 2 -> Cmod (i_resp ds x) ^ 2 = gain2 fam n db (Some (lh_freq hp f x))) /\
    Cmod (i_resp ds (if hp then 1 / 2 else 0)) ^ 2 = gain2 fam n db (Some 0) /\
    Cmod (i_resp ds (if hp then 0 else 1 / 2)) ^ 2 = gain2 fam n db None.
  Proof.
    intros Hn HI Hf Hd ds. set (q := MkParams (N := XS) (XR f) (XR 0) (XR 0) (XR db)).
    assert (PQ : pmdb fam db q) by (destruct fam; cbn; auto).
    assert (RV : forall fl x m2 h, filt_response (N := XS) fl (XR x) = Val (xc h) -> responds fl x m2 -> Cmod h ^ 2 = m2).
    { intros fl x m2 h E (h' & E' & <-). rewrite E in E'. destruct h as [a b], h' as [a' b']. injection E' as Q1 Q2. rewrite Q1, Q2. reflexivity. }
    destruct hp.
    - destruct (highpass fam DF1 n (Z.of_nat n) (Some (Z.of_nat n)) f db q Hn (Z.le_refl _) HI eq_refl eq_refl Hf Hd PQ) as (fl & E & ST & R1 & R2 & R3).
      pose proof (lh_setup fam true f db n fl Hn HI Hf Hd E ST) as L. fold ds in L.
      split; [intros x Hx; apply (L x Hx)|]. split; [intros x Hx; apply (RV fl x); [apply L; lra|apply R1; exact Hx]|]. split; [apply (RV fl (1 / 2)); [apply L; lra|exact R3]|apply (RV fl 0); [apply L; lra|exact R2]].
    - destruct (lowpass fam DF1 n (Z.of_nat n) (Some (Z.of_nat n)) f db q Hn (Z.le_refl _) HI eq_refl eq_refl Hf Hd PQ) as (fl & E & ST & R1 & R2).
      pose proof (lh_setup fam false f db n fl Hn HI Hf Hd E ST) as L. fold ds in L.
      split; [intros x Hx; apply (L x Hx)|]. split; [intros x Hx; apply (RV fl x); [apply L; lra|apply R1; lra]|].
      split; [|apply (RV fl (1 / 2)); [apply L; lra|exact R2]]. apply (RV fl 0); [apply L; lra|]. specialize (R1 0 ltac:(lra)). rewrite Rmult_0_r, tan_0 in R1. unfold Rdiv in R1. rewrite Rmult_0_l in R1. exact R1.
  Qed.
End Ex.
