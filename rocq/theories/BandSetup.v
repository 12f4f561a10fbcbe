(** Proofs: setups of band pass, band stop and band shelf filters in exact arithmetic. *)
From Coq Require Import ZArith List Bool Reals Lra Lia.
From Coquelicot Require Import Coquelicot.
From Verif Require Import Num Outcome Types Biquad State Cascade Transforms Butterworth Chebyshev PoleFilter Exact RealNum SigSpec ChebSpec BandSpec
  SigProofs StabProofs RespProofs PZSpec PZProofs RBJProofs CoefLemmas BuildProofs PolyProofs MapProofs TransProofs ProtoProofs ProtoBuild
  DesignProofs DesignSpec DesignLemmas BandProofs BandBuild.
Import ListNotations.
Local Open Scope R_scope.

(** ** geometry of the edges *)
Definition band_a (w1 w2 : R) : R := cos ((w1 + w2) / 2) / cos ((w1 - w2) / 2).
Lemma edge_facts w1 w2 : 0 < w2 < w1 -> w1 < PI ->
  0 < cos ((w1 - w2) / 2) /\ 0 < sin ((w1 - w2) / 2) /\ 0 < tan ((w1 - w2) / 2) /\ -1 < band_a w1 w2 < 1.
Proof.
  intros H1 H2. assert (C0 : 0 < cos ((w1 - w2) / 2)) by (apply cos_gt_0; lra).
  assert (S0 : 0 < sin ((w1 - w2) / 2)) by (apply sin_gt_0; lra).
  split; [exact C0|]. split; [exact S0|]. split; [unfold tan; apply Rdiv_lt_0_compat; assumption|].
  assert (L : cos ((w1 + w2) / 2) < cos ((w1 - w2) / 2)) by (apply cos_decreasing_1; lra).
  assert (G : - cos ((w1 - w2) / 2) < cos ((w1 + w2) / 2)).
  { rewrite <- Rtrigo_facts.cos_pi_minus. apply cos_decreasing_1; lra. }
  unfold band_a. split.
  - apply (Rmult_lt_reg_r (cos ((w1 - w2) / 2))); [exact C0|]. unfold Rdiv at 2. rewrite Rmult_assoc, Rinv_l by lra. lra.
  - apply (Rmult_lt_reg_r (cos ((w1 - w2) / 2))); [exact C0|]. unfold Rdiv at 1. rewrite Rmult_assoc, Rinv_l by lra. lra.
Qed.
Lemma edges_in fc fw : 0 < edge_lo fc fw /\ edge_hi fc fw < PI.
Proof. unfold edge_lo, edge_hi. pose proof (Rmax_r (2 * PI * (fc - fw / 2)) (1 / 100000000)). pose proof (Rmin_r (2 * PI * (fc + fw / 2)) (PI - 1 / 100000000)). split; lra. Qed.

Section BandSetup.
  Context {strict : bool}.
  Notation XS := (X strict).
  Local Notation xo := (TransProofs.xo (strict := strict)).
  Local Notation alay := (TransProofs.alay (strict := strict)).
  Local Notation xpz := (xpz (strict := strict)).

  Lemma band_edges_x fc fw : band_edges (N := XS) (XR fc) (XR fw) = (XR (edge_hi fc fw), XR (edge_lo fc fw)).
  Proof.
    unfold band_edges, ngtb. cbn -[Rltb xdiv]. rewrite xdiv_r by lra. cbn -[Rltb xdiv].
    replace (2 * PI * fc - 2 * PI * fw / 2) with (2 * PI * (fc - fw / 2)) by field.
    replace (2 * PI * (fc - fw / 2) + 2 * PI * fw) with (2 * PI * (fc + fw / 2)) by field.
    unfold edge_lo, edge_hi, Rmax, Rmin, Rltb.
    set (l := 2 * PI * (fc - fw / 2)). set (h := 2 * PI * (fc + fw / 2)).
    f_equal.
    - destruct (Rlt_dec (PI - 1 / 100000000) h), (Rle_dec h (PI - 1 / 100000000)); f_equal; lra.
    - destruct (Rlt_dec l (1 / 100000000)), (Rle_dec l (1 / 100000000)); f_equal; lra.
  Qed.
  Lemma bp_params_x fc fw : let w1 := edge_hi fc fw in let w2 := edge_lo fc fw in w2 < w1 ->
    let a := band_a w1 w2 in let b := 1 / tan ((w1 - w2) / 2) in
    bp_params (N := XS) (XR fc) (XR fw) = MkBpp (N := XS) (XR w1) (XR w2) (XR a) (XR b) (XR (a * a)) (XR (b * b)) (XR (a * b)) (XR (2 * (a * b))).
  Proof.
    intros w1 w2 H a b. destruct (edges_in fc fw) as [E1 E2]. fold w1 w2 in E1, E2.
    destruct (edge_facts w1 w2 ltac:(lra) E2) as (F1 & F2 & F3 & F4).
    unfold bp_params. rewrite band_edges_x. fold w1 w2. cbn -[xdiv xtan].
    replace ((w1 + w2) * (1 / 2)) with ((w1 + w2) / 2) by field. replace ((w1 - w2) * (1 / 2)) with ((w1 - w2) / 2) by field.
    rewrite xdiv_r by lra. cbn [xtan]. rewrite Req0_false by lra. rewrite xdiv_r by lra. reflexivity.
  Qed.
  Lemma bs_params_x fc fw : let w1 := edge_hi fc fw in let w2 := edge_lo fc fw in w2 < w1 ->
    let a := band_a w1 w2 in let b := tan ((w1 - w2) / 2) in
    bs_params (N := XS) (XR fc) (XR fw) = MkBsp (N := XS) (XR w1) (XR w2) (XR a) (XR b) (XR (a * a)) (XR (b * b)).
  Proof.
    intros w1 w2 H a b. destruct (edges_in fc fw) as [E1 E2]. fold w1 w2 in E1, E2.
    destruct (edge_facts w1 w2 ltac:(lra) E2) as (F1 & F2 & F3 & F4).
    unfold bs_params. rewrite band_edges_x. fold w1 w2. cbn -[xdiv xtan].
    replace ((w1 + w2) * (1 / 2)) with ((w1 + w2) / 2) by field. replace ((w1 - w2) * (1 / 2)) with ((w1 - w2) / 2) by field.
    rewrite xdiv_r by lra. cbn [xtan]. rewrite Req0_false by lra. reflexivity.
  Qed.

  Lemma good_zs pts sg : good pts sg -> forall z, In z (zs_of (pts ++ olist sg)) -> zleft z.
  Proof.
    intros [G _] z. unfold zs_of. rewrite in_app_iff, !in_map_iff. rewrite Forall_forall in G.
    intros [(q & <- & Hq)|(q & <- & Hq)]; destruct (G q Hq) as [G1 G2]; [cbn; lra|exact G2].
  Qed.
  Definition nonexc_sg (b : R) (sg : option apt) : Prop := List.Forall (fun q : apt => nonexc b (Some (fst q)) /\ nonexc b (snd q)) (olist sg).
  Definition bs_zf (p : C * C) : C := if c_eqb (N := XS) (xc (snd p)) (xc (fst p)) then Cconj (fst p) else snd p.
  Lemma xc_eqb (c d : C) : c_eqb (N := XS) (xc c) (xc d) = true -> c = d.
  Proof.
    unfold c_eqb, xc. cbn. intros H. apply andb_prop in H. destruct H as [H1 H2]. destruct (Req_EM_T (fst c) (fst d)), (Req_EM_T (snd c) (snd d)); try discriminate.
    apply injective_projections; assumption.
  Qed.
  Lemma bs_zf_ok p : bs_zf p = snd p \/ bs_zf p = Cconj (snd p).
  Proof.
    unfold bs_zf. destruct (c_eqb (N := XS) (xc (snd p)) (xc (fst p))) eqn:E; [|left; reflexivity].
    right. apply xc_eqb in E. rewrite E. reflexivity.
  Qed.

  Definition pairs_ok (D : option C -> C * C) (b : R) : Prop :=
    forall z, zleft z -> zreal z -> real_pair (D z) /\ (nonexc b z -> matched (D z)) /\ (~ nonexc b z -> ~ matched (D z)).
  Lemma sg_real D b : pairs_ok D b -> forall pts sg, good pts sg ->
    List.Forall (fun q : apt => real_pair (D (Some (fst q))) /\ real_pair (D (snd q))) (olist sg).
  Proof.
    intros H pts sg [G R]. apply Forall_app in G. destruct G as [_ G]. rewrite Forall_forall in *. intros q Hq.
    destruct (G q Hq) as [G1 G2]. destruct (R q Hq) as [R1 R2]. split; apply H; try assumption. cbn. lra.
  Qed.
  Lemma sg_matched D b : pairs_ok D b -> forall pts sg, good pts sg -> nonexc_sg b sg ->
    List.Forall (fun q : apt => matched (D (Some (fst q))) /\ matched (D (snd q))) (olist sg).
  Proof.
    intros H pts sg [G R] NE. apply Forall_app in G. destruct G as [_ G]. unfold nonexc_sg in NE. rewrite Forall_forall in *. intros q Hq.
    destruct (G q Hq) as [G1 G2]. destruct (R q Hq) as [R1 R2]. destruct (NE q Hq) as [N1 N2]. split.
    - apply (H (Some (fst q))); [cbn; lra|exact R1|exact N1].
    - apply (H (snd q)); assumption.
  Qed.
  Lemma sg_unmatched D b : pairs_ok D b -> forall pts q, good pts (Some q) -> ~ nonexc_sg b (Some q) ->
    cp_isMatchedPair (xpair (strict := strict) (D (Some (fst q)))) = false \/ cp_isMatchedPair (xpair (strict := strict) (D (snd q))) = false.
  Proof.
    intros H pts q [G R] NE. apply Forall_app in G. destruct G as [_ G]. inversion G as [|? ? [G1 G2] _]; subst. inversion R as [|? ? [R1 R2] _]; subst.
    destruct (H (Some (fst q)) ltac:(cbn; lra) R1) as (P1 & P2 & P3). destruct (H (snd q) G2 R2) as (Q1 & Q2 & Q3).
    destruct (Classical_Prop.classic (nonexc b (Some (fst q)))) as [E|E].
    - right. apply unmatched_x; [|exact Q1]. apply Q3. intros E'. apply NE. constructor; [split; assumption|constructor].
    - left. apply unmatched_x; [|exact P1]. apply P3, E.
  Qed.

  (** normal frequency of the band pass, PoleFilter.cpp:190 *)
  Definition bp_wn (w1 w2 : R) (wn : T XS) : T XS :=
    nmul XS (nofZ XS 2) (natan XS (nsqrt XS (nmul XS (ntan XS (nmul XS (nadd XS (XR w1) wn) (nlit XS 1 2)))
       (ntan XS (nmul XS (nadd XS (XR w2) wn) (nlit XS 1 2)))))).
  Section OneBand.
    Variables (fc fw : R).
    Hypothesis Hf : 0 <= fc < 1 / 2.
    Let w1 := edge_hi fc fw.
    Let w2 := edge_lo fc fw.
    Hypothesis He : w2 < w1.
    Let a := band_a w1 w2.
    Lemma one_facts : 0 < w2 < w1 /\ w1 < PI /\ -1 < a < 1 /\ 0 < tan ((w1 - w2) / 2) /\ 0 < 1 / tan ((w1 - w2) / 2).
    Proof.
      destruct (edges_in fc fw) as [E1 E2]. fold w1 w2 in E1, E2. destruct (edge_facts w1 w2 ltac:(lra) E2) as (F1 & F2 & F3 & F4).
      repeat split; try lra; try exact (proj1 F4); try exact (proj2 F4). apply Rdiv_lt_0_compat; lra.
    Qed.

    Lemma BandPass_x pts sg mp' ex' wn g' np mp (storage : list (pzpair XS)) w g : good pts sg ->
      (2 * length pts + length (olist sg) <= length storage)%nat ->
      nonexc_sg (1 / tan ((w1 - w2) / 2)) sg ->
      let dig := band_dig (bpD a (1 / tan ((w1 - w2) / 2))) snd pts sg in
      BandPassTransform (N := XS) (XR fc) (XR fw) (alay pts sg mp' ex' wn g') (MkLayout np mp storage w g) =
      Ok (MkLayout (N := XS) (2 * Z.of_nat (length (map xpz dig))) mp (map xpz dig ++ skipn (length dig) storage) (bp_wn w1 w2 wn) g') tt.
    Proof.
      intros G L NE dig. destruct one_facts as (W & W' & Ha & _ & Hb). unfold BandPassTransform. unfold bind at 1. rewrite check_fc_ok by exact Hf.
      unfold bind at 1, modify at 1. rewrite lay_reset_lay. cbv zeta. rewrite bp_params_x by exact He. fold w1 w2 a.
      set (b := 1 / tan ((w1 - w2) / 2)) in *. set (P := MkBpp _ _ _ _ _ _ _ _).
      assert (TR : forall z, In z (zs_of (pts ++ olist sg)) -> bp_transform (N := XS) P (xo z) = xpair (bpD a b z)).
      { intros z Hz. apply bp_x; [exact Ha|exact Hb|apply (good_zs pts sg G z Hz)]. }
      pose proof (band_loop_x (strict := strict) (bp_transform (N := XS) P) (fun p => csnd p) (bpD a b) snd pts sg mp' ex' wn g' mp storage w g TR) as LP.
      lapply LP; [clear LP; intros LP|intros z Hz; rewrite (TR z Hz); reflexivity]. specialize (LP L).
      lapply LP; [clear LP; intros LP|].
      - cbv zeta in LP. fold dig in LP. unfold band_loop in LP. unfold bind at 1. unfold bind at 1 in LP.
        match type of LP with (match ?x with _ => _ end) = _ => match goal with |- (match ?y with _ => _ end) = _ => change y with x; destruct x as [s1 u1|e1 s1|] eqn:EM end end; try discriminate LP.
        unfold bind at 1.
        match type of LP with ?x = _ => match goal with |- (match ?y with _ => _ end) = _ => change y with x end end.
        rewrite LP. reflexivity.
      - apply (sg_matched (bpD a b) b (bp_pair a b Ha Hb) pts sg G NE).
    Qed.
    Lemma BandPass_throws pts q mp' ex' wn g' np mp (storage : list (pzpair XS)) w g : good pts (Some q) ->
      (2 * length pts + 1 <= length storage)%nat ->
      ~ nonexc_sg (1 / tan ((w1 - w2) / 2)) (Some q) ->
      exists e s, BandPassTransform (N := XS) (XR fc) (XR fw) (alay pts (Some q) mp' ex' wn g') (MkLayout np mp storage w g) = Throw e s.
    Proof.
      intros G L NE. destruct one_facts as (W & W' & Ha & _ & Hb). unfold BandPassTransform. unfold bind at 1. rewrite check_fc_ok by exact Hf.
      unfold bind at 1, modify at 1. rewrite lay_reset_lay. cbv zeta. rewrite bp_params_x by exact He. fold w1 w2 a.
      set (b := 1 / tan ((w1 - w2) / 2)) in *. set (P := MkBpp _ _ _ _ _ _ _ _).
      assert (TR : forall z, In z (zs_of (pts ++ [q])) -> bp_transform (N := XS) P (xo z) = xpair (bpD a b z)).
      { intros z Hz. apply bp_x; [exact Ha|exact Hb|apply (good_zs pts (Some q) G z Hz)]. }
      pose proof (band_loop_throws (strict := strict) (bp_transform (N := XS) P) (fun p => csnd p) (bpD a b) snd pts q mp' ex' wn g' mp storage w g TR) as LP.
      lapply LP; [clear LP; intros LP|intros z Hz; rewrite (TR z Hz); reflexivity]. specialize (LP L).
      specialize (LP (sg_unmatched (bpD a b) b (bp_pair a b Ha Hb) pts q G NE)).
      destruct LP as (e & s & LP). unfold band_loop in LP. unfold bind at 1. unfold bind at 1 in LP.
      match type of LP with (match ?x with _ => _ end) = _ => match goal with |- exists e0 s0, (match ?y with _ => _ end) = _ => change y with x; destruct x as [s1 u1|e1 s1|] eqn:EM end end;
        [|do 2 eexists; reflexivity|discriminate LP].
      unfold bind at 1.
      match type of LP with ?x = _ => match goal with |- exists e0 s0, (match ?y with _ => _ end) = _ => change y with x end end.
      rewrite LP. do 2 eexists. reflexivity.
    Qed.

    Definition bs_wn : R := if Rltb fc (1 / 4) then PI else 0.
    Lemma BandStop_x pts sg mp' ex' wn g' np mp (storage : list (pzpair XS)) w g : good pts sg ->
      (2 * length pts + length (olist sg) <= length storage)%nat ->
      nonexc_sg (tan ((w1 - w2) / 2)) sg ->
      let dig := band_dig (bsD a (tan ((w1 - w2) / 2))) bs_zf pts sg in
      BandStopTransform (N := XS) (XR fc) (XR fw) (alay pts sg mp' ex' wn g') (MkLayout np mp storage w g) =
      Ok (MkLayout (N := XS) (2 * Z.of_nat (length (map xpz dig))) mp (map xpz dig ++ skipn (length dig) storage) (XR bs_wn) g') tt.
    Proof.
      intros G L NE dig. destruct one_facts as (W & W' & Ha & Hb & _). unfold BandStopTransform. unfold bind at 1. rewrite check_fc_ok by exact Hf.
      unfold bind at 1, modify at 1. rewrite lay_reset_lay. cbv zeta. rewrite bs_params_x by exact He. fold w1 w2 a.
      set (b := tan ((w1 - w2) / 2)) in *. set (P := MkBsp _ _ _ _ _ _).
      assert (TR : forall z, In z (zs_of (pts ++ olist sg)) -> bs_transform (N := XS) P (xo z) = xpair (bsD a b z)).
      { intros z Hz. apply bs_x; [exact Ha|exact Hb|apply (good_zs pts sg G z Hz)]. }
      pose proof (band_loop_x (strict := strict) (bs_transform (N := XS) P) (fun zz => if c_eqb (N := XS) (csnd zz) (cfst zz) then c_conj (cfst zz) else csnd zz)
        (bsD a b) bs_zf pts sg mp' ex' wn g' mp storage w g TR) as LP.
      lapply LP; [clear LP; intros LP|].
      - specialize (LP L). specialize (LP (sg_matched (bsD a b) b (bs_pair a b Ha Hb) pts sg G NE)).
        cbv zeta in LP. fold dig in LP. unfold band_loop in LP. unfold bind at 1. unfold bind at 1 in LP.
        match type of LP with (match ?x with _ => _ end) = _ => match goal with |- (match ?y with _ => _ end) = _ => change y with x; destruct x as [s1 u1|e1 s1|] eqn:EM end end; try discriminate LP.
        unfold bind at 1.
        match type of LP with ?x = _ => match goal with |- (match ?y with _ => _ end) = _ => change y with x end end.
        rewrite LP. unfold bs_wn. change (nltb XS (XR fc) (nlit XS 1 4)) with (Rltb fc (1 / 4)). destruct (Rltb fc (1 / 4)); reflexivity.
      - intros z Hz. rewrite (TR z Hz). unfold xpair, bs_zf. cbn [cfst csnd]. rewrite xc_conj_x. destruct (c_eqb _ _); reflexivity.
    Qed.
    Lemma BandStop_throws pts q mp' ex' wn g' np mp (storage : list (pzpair XS)) w g : good pts (Some q) ->
      (2 * length pts + 1 <= length storage)%nat ->
      ~ nonexc_sg (tan ((w1 - w2) / 2)) (Some q) ->
      exists e s, BandStopTransform (N := XS) (XR fc) (XR fw) (alay pts (Some q) mp' ex' wn g') (MkLayout np mp storage w g) = Throw e s.
    Proof.
      intros G L NE. destruct one_facts as (W & W' & Ha & Hb & _). unfold BandStopTransform. unfold bind at 1. rewrite check_fc_ok by exact Hf.
      unfold bind at 1, modify at 1. rewrite lay_reset_lay. cbv zeta. rewrite bs_params_x by exact He. fold w1 w2 a.
      set (b := tan ((w1 - w2) / 2)) in *. set (P := MkBsp _ _ _ _ _ _).
      assert (TR : forall z, In z (zs_of (pts ++ [q])) -> bs_transform (N := XS) P (xo z) = xpair (bsD a b z)).
      { intros z Hz. apply bs_x; [exact Ha|exact Hb|apply (good_zs pts (Some q) G z Hz)]. }
      pose proof (band_loop_throws (strict := strict) (bs_transform (N := XS) P) (fun zz => if c_eqb (N := XS) (csnd zz) (cfst zz) then c_conj (cfst zz) else csnd zz)
        (bsD a b) bs_zf pts q mp' ex' wn g' mp storage w g TR) as LP.
      lapply LP; [clear LP; intros LP|].
      - specialize (LP L). specialize (LP (sg_unmatched (bsD a b) b (bs_pair a b Ha Hb) pts q G NE)).
        destruct LP as (e & s & LP). unfold band_loop in LP. unfold bind at 1. unfold bind at 1 in LP.
        match type of LP with (match ?x with _ => _ end) = _ => match goal with |- exists e0 s0, (match ?y with _ => _ end) = _ => change y with x; destruct x as [s1 u1|e1 s1|] eqn:EM end end;
          [|do 2 eexists; reflexivity|discriminate LP].
        unfold bind at 1.
        match type of LP with ?x = _ => match goal with |- exists e0 s0, (match ?y with _ => _ end) = _ => change y with x end end.
        rewrite LP. do 2 eexists. reflexivity.
      - intros z Hz. rewrite (TR z Hz). unfold xpair, bs_zf. cbn [cfst csnd]. rewrite xc_conj_x. destruct (c_eqb _ _); reflexivity.
    Qed.
  End OneBand.
End BandSetup.

(** ** centre of a band pass *)
Lemma cos_2atan t : cos (2 * atan t) = (1 - t * t) / (1 + t * t).
Proof.
  rewrite cos_2a_cos. rewrite cos_atan. unfold Rdiv. rewrite Rmult_1_l.
  assert (P : 0 < 1 + Rsqr t) by (pose proof (Rle_0_sqr t); lra).
  transitivity (2 * / (sqrt (1 + Rsqr t) * sqrt (1 + Rsqr t)) - 1); [rewrite Rinv_mult; ring|].
  rewrite sqrt_sqrt by lra. unfold Rsqr in *. field. lra.
Qed.
Lemma centre_facts w1 w2 : 0 < w2 < w1 -> w1 < PI -> 0 < centre w1 w2 < PI /\ cos (centre w1 w2) = band_a w1 w2.
Proof.
  intros H1 H2. pose proof PI_RGT_0 as HPI.
  assert (C1 : 0 < cos (w1 / 2)) by (apply cos_gt_0; lra). assert (C2 : 0 < cos (w2 / 2)) by (apply cos_gt_0; lra).
  assert (S1 : 0 < sin (w1 / 2)) by (apply sin_gt_0; lra). assert (S2 : 0 < sin (w2 / 2)) by (apply sin_gt_0; lra).
  assert (T1 : 0 < tan (w1 / 2)) by (unfold tan; apply Rdiv_lt_0_compat; assumption).
  assert (T2 : 0 < tan (w2 / 2)) by (unfold tan; apply Rdiv_lt_0_compat; assumption).
  assert (T : 0 < tan (w1 / 2) * tan (w2 / 2)) by (apply Rmult_lt_0_compat; assumption).
  split.
  - unfold centre. pose proof (sqrt_lt_R0 _ T) as S. pose proof (atan_bound (sqrt (tan (w1 / 2) * tan (w2 / 2)))) as B.
    pose proof (atan_increasing 0 _ S) as I. rewrite atan_0 in I. lra.
  - unfold centre. rewrite cos_2atan, sqrt_sqrt by lra. unfold band_a.
    replace ((w1 + w2) / 2) with (w1 / 2 + w2 / 2) by field. replace ((w1 - w2) / 2) with (w1 / 2 - w2 / 2) by field.
    rewrite cos_plus, cos_minus. unfold tan. field.
    assert (0 < cos (w1 / 2) * cos (w2 / 2)) by (apply Rmult_lt_0_compat; assumption).
    assert (0 < sin (w1 / 2) * sin (w2 / 2)) by (apply Rmult_lt_0_compat; assumption). repeat split; lra.
Qed.

Definition bp_xy (fc fw : R) (f : R) : R * R :=
  let w1 := edge_hi fc fw in let w2 := edge_lo fc fw in
  (1 / tan ((w1 - w2) / 2) * (band_a w1 w2 - cos (2 * PI * f)), sin (2 * PI * f)).
Definition bs_xy (fc fw : R) (f : R) : R * R :=
  let w1 := edge_hi fc fw in let w2 := edge_lo fc fw in
  (tan ((w1 - w2) / 2) * sin (2 * PI * f), cos (2 * PI * f) - band_a w1 w2).

Section BandSetup2.
  Context {strict : bool}.
  Notation XS := (X strict).
  Local Notation xo := (TransProofs.xo (strict := strict)).
  Local Notation alay := (TransProofs.alay (strict := strict)).
  Local Notation xpz := (xpz (strict := strict)).

  Lemma bp_wn_x w1 w2 : 0 < w2 < w1 -> w1 < PI -> bp_wn (strict := strict) w1 w2 (XR 0) = XR (centre w1 w2).
  Proof.
    intros H1 H2. unfold bp_wn, centre. cbn -[xtan]. replace ((w1 + 0) * (1 / 2)) with (w1 / 2) by field. replace ((w2 + 0) * (1 / 2)) with (w2 / 2) by field.
    assert (C1 : 0 < cos (w1 / 2)) by (apply cos_gt_0; lra). assert (C2 : 0 < cos (w2 / 2)) by (apply cos_gt_0; lra).
    assert (T1 : 0 < tan (w1 / 2)) by (apply tan_gt_0; lra). assert (T2 : 0 < tan (w2 / 2)) by (apply tan_gt_0; lra).
    cbn [xtan]. rewrite !Req0_false by lra. cbn [xmul]. unfold xsqrt, Rltb. destruct (Rlt_dec (tan (w1 / 2) * tan (w2 / 2)) 0); [nra|]. reflexivity.
  Qed.

  Lemma sizes2 n FO : (1 <= n)%nat -> (Z.of_nat n <= FO)%Z ->
    (Z.quot (FO * 2 + 1) 2 = FO /\ (n <= Z.to_nat (Z.quot (FO * 2 + 1) 2))%nat)%Z.
  Proof. intros Hn HF. assert (E : Z.quot (FO * 2 + 1) 2 = FO) by (rewrite Z.mul_comm;rewrite <- (Z2Nat.id FO) by lia; apply quot_2n1). rewrite E. split; lia. Qed.
  Lemma pts_num2 n q q0 : (2 * length (pts_of n q) + length (olist (sg_of n q0)) = n)%nat.
  Proof. pose proof (pts_num n q q0) as P. rewrite <- olist_nsg in P. lia. Qed.

  Lemma bp_setup fam n FO q q0 (pm : params XS) fc fw np0 ga db ex g : (1 <= n)%nat -> (Z.of_nat n <= FO)%Z ->
    q_fc pm = XR fc -> q_fw pm = XR fw -> 0 <= fc < 1 / 2 -> edge_lo fc fw < edge_hi fc fw -> good (pts_of n q) (sg_of n q0) ->
    nonexc_sg (1 / tan ((edge_hi fc fw - edge_lo fc fw) / 2)) (sg_of n q0) ->
    ana_design (N := XS) (fam, BP) (Z.of_nat n) pm (pf_ana (pf_init (fam, BP) FO)) =
      Ok (MkProto (N := XS) np0 ga db (alay (pts_of n q) (sg_of n q0) FO ex (XR 0) (XR g))) tt ->
    let qs := flat (pts_of n q) (sg_of n q0) in let y0 := sin (centre (edge_hi fc fw) (edge_lo fc fw)) in
    nums (0, 0) (RtoC y0) qs <> 0%C ->
    exists p, setupN (N := XS) (fam, BP) FO (Some (Z.of_nat n)) pm (pf_init (fam, BP) FO) = Ok p tt /\
      designed p g qs (bp_xy fc fw) (mag qs 0 y0).
  Proof.
    intros Hn HF EF EW Hf He G NE HA qs y0 NZ. destruct (edges_in fc fw) as [E1 E2].
    set (w1 := edge_hi fc fw) in *. set (w2 := edge_lo fc fw) in *.
    destruct (edge_facts w1 w2 ltac:(lra) E2) as (F1 & F2 & F3 & F4). assert (Hb : 0 < 1 / tan ((w1 - w2) / 2)) by (apply Rdiv_lt_0_compat; lra).
    set (b := 1 / tan ((w1 - w2) / 2)) in *. set (a := band_a w1 w2) in *.
    destruct (sizes2 n FO Hn HF) as (S1 & S2). pose proof (pts_num2 n q q0) as PLn.
    destruct (centre_facts w1 w2 ltac:(lra) E2) as (K1 & K2). pose proof PI_RGT_0 as HPI.
    eapply (setup_generic _ _ _ _ _ (bpA a b) bpB (band_dig (bpD a b) snd (pts_of n q) (sg_of n q0)) qs _ _ _ (centre w1 w2) g 0 y0 (bp_xy fc fw) HF HA).
    - unfold dig_transform. cbn [snd p_lay]. rewrite EF, EW. unfold pf_init. cbn [pf_dig snd]. unfold layout_of_storage. cbn [maxDigital is_band].
      rewrite BandPass_x; [|exact Hf|exact He|exact G|rewrite PLn; unfold layout_storage; rewrite repeat_length; exact S2|exact NE].
      fold w1 w2. rewrite bp_wn_x by lra. reflexivity.
    - apply bp_right; assumption.
    - apply bp_unit; assumption.
    - apply band_dig_block; [apply bp_sym|left; reflexivity|]. destruct G as [G _]. eapply List.Forall_impl; [|exact G].
      intros x [H1 H2]. split; apply bp_images; try assumption. cbn; lra.
    - apply band_dig_ok. apply (sg_real _ b (bp_pair a b F4 Hb) _ _ G).
    - apply good_flat. exact G.
    - rewrite map_length. rewrite quot_2n1. reflexivity.
    - rewrite band_dig_len, PLn. unfold maxStagesOf. cbn [snd maxDigital is_band]. rewrite S1. lia.
    - lra.
    - replace 0 with (b * (a - cos (2 * PI * (centre w1 w2 / (2 * PI))))).
      + replace y0 with (sin (2 * PI * (centre w1 w2 / (2 * PI)))); [apply bp_circ|]. unfold y0. f_equal. field. lra.
      + replace (2 * PI * (centre w1 w2 / (2 * PI))) with (centre w1 w2) by (field; lra). rewrite K2. fold a. ring.
    - exact NZ.
    - intros f _. apply bp_circ.
    - apply (band_dig_nz (bpD a b) snd); [left; reflexivity|]. intros z Hz. apply (bp_nz a b Hb z Hz).
  Qed.
  Lemma bs_setup fam n FO q q0 (pm : params XS) fc fw np0 ga db ex wn g : (1 <= n)%nat -> (Z.of_nat n <= FO)%Z ->
    q_fc pm = XR fc -> q_fw pm = XR fw -> 0 <= fc < 1 / 2 -> edge_lo fc fw < edge_hi fc fw -> good (pts_of n q) (sg_of n q0) ->
    nonexc_sg (tan ((edge_hi fc fw - edge_lo fc fw) / 2)) (sg_of n q0) ->
    ana_design (N := XS) (fam, BS) (Z.of_nat n) pm (pf_ana (pf_init (fam, BS) FO)) =
      Ok (MkProto (N := XS) np0 ga db (alay (pts_of n q) (sg_of n q0) FO ex wn (XR g))) tt ->
    let qs := flat (pts_of n q) (sg_of n q0) in let y0 := cos (bs_wn fc) - band_a (edge_hi fc fw) (edge_lo fc fw) in
    nums (0, 0) (RtoC y0) qs <> 0%C ->
    exists p, setupN (N := XS) (fam, BS) FO (Some (Z.of_nat n)) pm (pf_init (fam, BS) FO) = Ok p tt /\
      designed p g qs (bs_xy fc fw) (mag qs 0 y0).
  Proof.
    intros Hn HF EF EW Hf He G NE HA qs y0 NZ. destruct (edges_in fc fw) as [E1 E2].
    set (w1 := edge_hi fc fw) in *. set (w2 := edge_lo fc fw) in *.
    destruct (edge_facts w1 w2 ltac:(lra) E2) as (F1 & F2 & Hb & F4).
    set (b := tan ((w1 - w2) / 2)) in *. set (a := band_a w1 w2) in *.
    destruct (sizes2 n FO Hn HF) as (S1 & S2). pose proof (pts_num2 n q q0) as PLn. pose proof PI_RGT_0 as HPI.
    eapply (setup_generic _ _ _ _ _ (bsA b) (bsB a) (band_dig (bsD a b) (bs_zf (strict := strict)) (pts_of n q) (sg_of n q0)) qs _ _ _ (bs_wn fc) g 0 y0 (bs_xy fc fw) HF HA).
    - unfold dig_transform. cbn [snd p_lay]. rewrite EF, EW. unfold pf_init. cbn [pf_dig snd]. unfold layout_of_storage. cbn [maxDigital is_band].
      rewrite BandStop_x; [|exact Hf|exact He|exact G|rewrite PLn; unfold layout_storage; rewrite repeat_length; exact S2|exact NE]. reflexivity.
    - apply bs_right; assumption.
    - apply bs_unit; assumption.
    - apply band_dig_block; [apply bs_sym|apply bs_zf_ok|]. destruct G as [G _]. eapply List.Forall_impl; [|exact G].
      intros x [H1 H2]. split; apply bs_images; try assumption. cbn; lra.
    - apply band_dig_ok. apply (sg_real _ b (bs_pair a b F4 Hb) _ _ G).
    - apply good_flat. exact G.
    - rewrite map_length. rewrite quot_2n1. reflexivity.
    - rewrite band_dig_len, PLn. unfold maxStagesOf. cbn [snd maxDigital is_band]. rewrite S1. lia.
    - unfold bs_wn. destruct (Rltb fc (1 / 4)); lra.
    - replace 0 with (b * sin (2 * PI * (bs_wn fc / (2 * PI)))).
      + replace y0 with (cos (2 * PI * (bs_wn fc / (2 * PI))) - a); [apply bs_circ|]. unfold y0. f_equal. f_equal. field. lra.
      + replace (2 * PI * (bs_wn fc / (2 * PI))) with (bs_wn fc) by (field; lra). unfold bs_wn. destruct (Rltb fc (1 / 4)); [rewrite sin_PI|rewrite sin_0]; ring.
    - exact NZ.
    - intros f _. apply bs_circ.
    - apply band_dig_nz; [apply bs_zf_ok|]. intros z Hz. apply (bs_nz a b Hb z Hz).
  Qed.
  (** band shelf: the band pass transform, normalised at pi or 0 to gain 1 *)
  Lemma bsh_setup fam n FO q q0 (pm : params XS) fc fw np0 ga db ex wn g : (1 <= n)%nat -> (Z.of_nat n <= FO)%Z ->
    q_fc pm = XR fc -> q_fw pm = XR fw -> 0 <= fc < 1 / 2 -> edge_lo fc fw < edge_hi fc fw -> good (pts_of n q) (sg_of n q0) ->
    nonexc_sg (1 / tan ((edge_hi fc fw - edge_lo fc fw) / 2)) (sg_of n q0) ->
    ana_design (N := XS) (fam, BSh) (Z.of_nat n) pm (pf_ana (pf_init (fam, BSh) FO)) =
      Ok (MkProto (N := XS) np0 ga db (alay (pts_of n q) (sg_of n q0) FO ex wn g)) tt ->
    let qs := flat (pts_of n q) (sg_of n q0) in let x0 := fst (bp_xy fc fw (bs_wn fc / (2 * PI))) in
    nums (0, x0) (RtoC 0) qs <> 0%C ->
    exists p, setupN (N := XS) (fam, BSh) FO (Some (Z.of_nat n)) pm (pf_init (fam, BSh) FO) = Ok p tt /\
      designed p 1 qs (bp_xy fc fw) (mag qs x0 0).
  Proof.
    intros Hn HF EF EW Hf He G NE HA qs x0 NZ. destruct (edges_in fc fw) as [E1 E2].
    set (w1 := edge_hi fc fw) in *. set (w2 := edge_lo fc fw) in *.
    destruct (edge_facts w1 w2 ltac:(lra) E2) as (F1 & F2 & F3 & F4). assert (Hb : 0 < 1 / tan ((w1 - w2) / 2)) by (apply Rdiv_lt_0_compat; lra).
    set (b := 1 / tan ((w1 - w2) / 2)) in *. set (a := band_a w1 w2) in *.
    destruct (sizes2 n FO Hn HF) as (S1 & S2). pose proof (pts_num2 n q q0) as PLn. pose proof PI_RGT_0 as HPI.
    eapply (setup_generic _ _ _ _ _ (bpA a b) bpB (band_dig (bpD a b) snd (pts_of n q) (sg_of n q0)) qs _ _ _ (bs_wn fc) 1 x0 0 (bp_xy fc fw) HF HA).
    - unfold dig_transform. cbn [snd p_lay]. rewrite EF, EW. unfold pf_init. cbn [pf_dig snd]. unfold layout_of_storage. cbn [maxDigital is_band].
      unfold bind at 1. rewrite BandPass_x; [|exact Hf|exact He|exact G|rewrite PLn; unfold layout_storage; rewrite repeat_length; exact S2|exact NE].
      unfold modify, lay_setNormal. cbn [l_numPoles l_maxPoles l_pairs]. unfold bs_wn.
      change (nltb XS (XR fc) (nlit XS 1 4)) with (Rltb fc (1 / 4)). destruct (Rltb fc (1 / 4)); reflexivity.
    - apply bp_right; assumption.
    - apply bp_unit; assumption.
    - apply band_dig_block; [apply bp_sym|left; reflexivity|]. destruct G as [G _]. eapply List.Forall_impl; [|exact G].
      intros x [H1 H2]. split; apply bp_images; try assumption. cbn; lra.
    - apply band_dig_ok. apply (sg_real _ b (bp_pair a b F4 Hb) _ _ G).
    - apply good_flat. exact G.
    - rewrite map_length. rewrite quot_2n1. reflexivity.
    - rewrite band_dig_len, PLn. unfold maxStagesOf. cbn [snd maxDigital is_band]. rewrite S1. lia.
    - unfold bs_wn. destruct (Rltb fc (1 / 4)); lra.
    - replace 0 with (sin (2 * PI * (bs_wn fc / (2 * PI)))) at 1.
      + apply bp_circ.
      + replace (2 * PI * (bs_wn fc / (2 * PI))) with (bs_wn fc) by (field; lra). unfold bs_wn. destruct (Rltb fc (1 / 4)); [rewrite sin_PI|rewrite sin_0]; ring.
    - exact NZ.
    - intros f _. apply bp_circ.
    - apply (band_dig_nz (bpD a b) snd); [left; reflexivity|]. intros z Hz. apply (bp_nz a b Hb z Hz).
  Qed.
End BandSetup2.
