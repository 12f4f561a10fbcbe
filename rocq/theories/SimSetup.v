(** Proofs: low and high pass filters from any analogue prototype, in binary64: the setup; the Chebyshev prototypes as lists. *)
From Coq Require Import ZArith List Bool Reals Lra Lia Floats.SpecFloat.
From Coquelicot Require Import Coquelicot.
From Flocq Require Import Core.Raux Core.Defs Core.Generic_fmt IEEE754.BinarySingleNaN.
From Verif Require Import Num Outcome Types Biquad Cascade Transforms Butterworth Chebyshev PoleFilter Safe Float64 FloatSpec FloatProofs SampleLemmas SigSpec StabProofs
  RoundSpec RoundProofs DblPi DblSpec DblProofs DblLemmas LayoutProofs BuildProofs BuildAny BwDblSpec CplxDbl BwDbl BwDbl2 BwDbl3 BwDblLemmas SimDbl.
Import ListNotations.
Local Open Scope R_scope.

Section Setup.
  Variable m : libm.
  Notation FN := (F64 m).
  Hypothesis HM : libm_design m.
  Variable q : params FN.
  Notation fc := (q_fc q : f64).
  Hypothesis Ff : is_finite fc = true.
  Hypothesis Hf : cut_ok (B2R fc).
  Variable n : nat.
  Hypothesis N1 : (1 <= n)%nat.
  Variable FO : Z.
  Hypothesis HFO : (Z.of_nat n <= FO)%Z.
  Variable hp : bool.
  Variable fam : family.
  Notation k := (fam, if hp then HP else LP).
  Notation qpt := (cpx (T FN) * cpx (T FN))%type.
  Variable pts0 : list qpt.
  Variable sg0 : option qpt.
  Variable ex0 : list (pzpair FN).
  Variable g0 : f64.
  Variable ana : proto FN.
  Variable P : nat -> biquad FN -> Prop.
  Notation trp := (trq (N := FN) (tr m hp fc)).
  Hypothesis LP0 : length pts0 = (n / 2)%nat.
  Hypothesis LS0 : length (o1 sg0) = (if Nat.odd n then 1 else 0)%nat.
  Hypothesis HA : ana_design (N := FN) k (Z.of_nat n) q (pf_ana (pf_init k FO)) = Ok ana tt.
  Hypothesis HL : p_lay ana = blay (N := FN) pts0 sg0 FO ex0 (fofZ 0) g0.
  Hypothesis HP0 : forall i x, nth_error pts0 i = Some x -> nn (N := FN) (trp x) /\ exists b, pair_bq (apr (N := FN) (trp x)) = Val b /\ P i b.
  Hypothesis HS0 : forall x, sg0 = Some x -> nn (N := FN) (trp x) /\ isreal (N := FN) (trp x) /\ exists b, pair_bq (asg (N := FN) (trp x)) = Val b /\ P (n / 2) b.

  Lemma sim_transform (a : layout FN) : dig_transform (N := FN) (snd k) q a (pf_dig (pf_init k FO)) =
    match simple_loop (N := FN) (tr m hp fc) a (lay FO [] (layout_storage (N := FN) FO) (fofZ 0) (fofZ 1)) with
    | Ok l _ => Ok (lay_setNormal (N := FN) (if hp then fsub (fnorm 7074237752028440 (-51)) (l_normalW a) else l_normalW a) (l_normalGain a) l) tt
    | Throw e l => Throw e l | UB => UB end.
  Proof. exact (transform_any m q Ff Hf n N1 FO hp a). Qed.
  Lemma sim_setup : exists p bs r, setupN (N := FN) k FO (Some (Z.of_nat n)) q (pf_init k FO) = Ok p tt /\ length bs = bw_sections n /\
    (forall i b, nth_error bs i = Some b -> P i b) /\
    let all := bs ++ repeat idb (Z.to_nat (maxStagesOf (snd k) FO) - length bs) in
    cas_response (N := FN) (MkCascade (Z.of_nat (length bs)) (maxStagesOf (snd k) FO) all) (fn hp) = Val r /\
    pf_cas p = MkCascade (Z.of_nat (length bs)) (maxStagesOf (snd k) FO) (scale_head (N := FN) (fdiv g0 (ncabs FN r)) all).
  Proof.
    pose proof (half_up n) as HU.
    assert (SL : forall M, (Z.of_nat n <= M)%Z -> (length pts0 + length (o1 sg0) <= length (layout_storage (N := FN) M))%nat).
    { intros M HMx. unfold layout_storage. rewrite repeat_length, LP0, LS0, <- HU. rewrite Z.quot_div_nonneg by lia.
      rewrite <- (Nat2Z.id ((n + 1) / 2)). apply Z2Nat.inj_le; try apply Z.div_pos; try lia. rewrite Nat2Z.inj_div, Nat2Z.inj_add. apply Z.div_le_mono; lia. }
    assert (MD : maxDigital (snd k) FO = FO) by (destruct hp; reflexivity).
    set (pts := map trp pts0). set (sg := option_map trp sg0).
    assert (PT : forall i x, nth_error pts i = Some x -> exists c, nth_error pts0 i = Some c /\ x = trp c).
    { intros i x E. unfold pts in E. rewrite nth_error_map in E. destruct (nth_error pts0 i) as [c|]; [|discriminate]. exists c. split; [reflexivity|]. inversion E. reflexivity. }
    assert (SG : forall x, sg = Some x -> exists c, sg0 = Some c /\ x = trp c).
    { intros x E. unfold sg in E. destruct sg0 as [c|]; [|discriminate]. exists c. split; [reflexivity|]. inversion E. reflexivity. }
    set (ex := skipn (length pts0 + length (o1 sg0)) (layout_storage (N := FN) FO)).
    assert (HD : dig_transform (N := FN) (snd k) q (p_lay ana) (pf_dig (pf_init k FO)) = Ok (blay (N := FN) pts sg (maxDigital (snd k) FO) ex (wn hp) g0) tt).
    { rewrite sim_transform, HL. rewrite simple_loop_any.
      - rewrite MD. unfold wn. destruct hp; reflexivity.
      - reflexivity.
      - rewrite map_app. apply Forall_app. split.
        + apply List.Forall_forall. intros x Ix. fold pts in Ix. apply In_nth_error in Ix. destruct Ix as [i Ei]. destruct (PT i x Ei) as (c & Ec & ->). apply (HP0 i c Ec).
        + rewrite <- o1_map. fold sg. destruct sg as [x|] eqn:E; constructor; [|constructor]. destruct (SG x eq_refl) as (c & Ec & ->). apply (HS0 c Ec).
      - rewrite <- o1_map. fold sg. destruct sg as [x|] eqn:E; constructor; [|constructor]. destruct (SG x eq_refl) as (c & Ec & ->). apply (HS0 c Ec).
      - apply SL. exact HFO. }
    assert (LP' : length pts = (n / 2)%nat) by (unfold pts; rewrite map_length; exact LP0).
    assert (LSg : length (o1 sg) = (if Nat.odd n then 1 else 0)%nat) by (unfold sg; rewrite o1_map, map_length; exact LS0).
    set (prs := map (apr (N := FN)) pts ++ map (asg (N := FN)) (o1 sg)).
    assert (LPR : length prs = bw_sections n) by (unfold prs, bw_sections; rewrite app_length, !map_length, LP', LSg, HU; reflexivity).
    destruct (list_of (bw_sections n) (fun i b => forall p, nth_error prs i = Some p -> pair_bq p = Val b /\ P i b)) as (bs & LB & HB).
    { intros i Hi. assert (ND : nth_error prs i <> None) by (apply nth_error_Some; rewrite LPR; exact Hi).
      destruct (nth_error prs i) as [p|] eqn:E; [|elim ND; reflexivity]. clear ND. unfold prs in E.
      destruct (Nat.lt_ge_cases i (n / 2)) as [L|L].
      - rewrite nth_error_app1 in E by (rewrite map_length, LP'; exact L). rewrite nth_error_map in E. destruct (nth_error pts i) as [x|] eqn:Ex; [|discriminate].
        destruct (PT i x Ex) as (c & Ec & ->). destruct (HP0 i c Ec) as (_ & b & B1 & B2). exists b. intros p' Ep. inversion Ep; subst p'. inversion E; subst p. split; assumption.
      - rewrite nth_error_app2 in E by (rewrite map_length, LP'; exact L). rewrite map_length, LP', nth_error_map in E.
        destruct sg as [x|] eqn:Es; cbn [o1] in E; [|destruct (i - n / 2)%nat; discriminate]. destruct (i - n / 2)%nat as [|j] eqn:Ej; [|destruct j; discriminate].
        cbn [nth_error option_map] in E. destruct (SG x eq_refl) as (c & Ec & ->). destruct (HS0 c Ec) as (_ & _ & b & B1 & B2). exists b. intros p' Ep. inversion Ep; subst p'. inversion E; subst p.
        replace i with (n / 2)%nat by lia. split; assumption. }
    assert (F2 : Forall2 (fun p b => pair_bq p = Val b) prs bs).
    { apply F2_nth; [congruence|]. intros i p b Ep Eb. apply (HB i b Eb p Ep). }
    assert (SO : forall i b, nth_error bs i = Some b -> P i b).
    { intros i b Eb. assert (ND : nth_error prs i <> None) by (apply nth_error_Some; rewrite LPR, <- LB; apply nth_error_Some; congruence).
      destruct (nth_error prs i) as [p|] eqn:Ep; [|elim ND; reflexivity]. apply (HB i b Eb p Ep). }
    assert (BP : (0 < length bs)%nat). { rewrite LB. unfold bw_sections. rewrite HU. destruct n as [|[|n']]; [lia|cbn; lia|]. pose proof (Nat.div_le_mono 2 (S (S n')) 2 ltac:(lia) ltac:(lia)). change (2 / 2)%nat with 1%nat in *. lia. }
    assert (BM : (Z.of_nat (length bs) <= maxStagesOf (snd k) FO)%Z).
    { unfold maxStagesOf. rewrite MD, LB. unfold bw_sections. rewrite Z.quot_div_nonneg by lia. rewrite Nat2Z.inj_div, Nat2Z.inj_add. apply Z.div_le_mono; lia. }
    destruct (response_ok m HM n N1 hp (MkCascade (N := FN) (Z.of_nat (length bs)) (maxStagesOf (snd k) FO) (bs ++ repeat idb (Z.to_nat (maxStagesOf (snd k) FO) - length bs)))) as [r Hr].
    { cbn [c_numStages c_stages]. rewrite app_length. lia. }
    destruct (setup_any (N := FN) k FO (Z.of_nat n) q ana pts sg ex (wn hp) g0 bs r HFO eq_refl eq_refl HA HD F2 BP BM Hr) as (p & P1 & P2).
    exists p, bs, r. split; [exact P1|]. split; [exact LB|]. split; [exact SO|]. split; [exact Hr|exact P2].
  Qed.
End Setup.

Section Lists.
  Local Open Scope Z_scope.
  Context {N : num}.
  Notation Cn := (cpx (T N)).
  Lemma seq_bind {S} (A : M S unit) (b : bool) (B C1 C2 : M S unit) s :
    (A ;; if b then (B ;; C1) else C2) s = ((A ;; if b then B else ret tt) ;; if b then C1 else C2) s.
  Proof. unfold bind. destruct (A s) as [s' []| |]; [|reflexivity|reflexivity]. destruct b; reflexivity. Qed.
  Definition c1_pt (n : nat) (db : T N) (i : nat) : Cn * Cn :=
    let '(s, c) := c1_lp_consts (Z.of_nat n) db in
    let a := ndiv N (nmul N (nofZ N (2 * Z.of_nat i + 1 - Z.of_nat n)) (npi N)) (nofZ N (2 * Z.of_nat n)) in
    (Cx (nmul N s (ncos N a)) (nmul N c (nsin N a)), c_inf).
  Definition c1_sg (n : nat) (db : T N) : option (Cn * Cn) := if Nat.odd n then Some (Cx (fst (c1_lp_consts (Z.of_nat n) db)) (nofZ N 0), c_inf) else None.
  Definition c1_gain (n : nat) (db : T N) : T N := if Nat.odd n then nofZ N 1 else npow N (nofZ N 10) (ndiv N (nopp N db) (nofZ N 20)).
  Definition c2_pt (n : nat) (db : T N) (i : nat) : Cn * Cn :=
    let '(s, c) := c2_lp_consts (Z.of_nat n) db in
    let f := ndiv N (npi N) (nofZ N (2 * Z.of_nat n)) in
    let k := 2 * Z.of_nat i + 1 in
    let a := nmul N s (ncos N (nmul N (nofZ N (k - Z.of_nat n)) f)) in
    let b := nmul N c (nsin N (nmul N (nofZ N (k - Z.of_nat n)) f)) in
    let d := nadd N (nmul N a a) (nmul N b b) in
    (Cx (ndiv N a d) (ndiv N b d), Cx (nofZ N 0) (ndiv N (nofZ N 1) (ncos N (nmul N (nofZ N k) f)))).
  Definition c2_sg (n : nat) (db : T N) : option (Cn * Cn) := if Nat.odd n then Some (c_of (ndiv N (nofZ N 1) (fst (c2_lp_consts (Z.of_nat n) db))), c_inf) else None.

  Lemma c1_design_any n db np0 ga db0 np1 mp (storage : list (pzpair N)) w g :
    neqb N n0 n0 = true -> List.Forall nn (map (c1_pt n db) (seq 0 (n / 2)) ++ o1 (c1_sg n db)) ->
    np0 <> Z.of_nat n -> in_int (2 * Z.of_nat n) = true ->
    (n / 2 + length (o1 (c1_sg n db)) <= length storage)%nat ->
    c1_lp_design (Z.of_nat n) db (MkProto np0 ga db0 (MkLayout np1 mp storage w g)) =
    Ok (MkProto (Z.of_nat n) ga db (blay (map (c1_pt n db) (seq 0 (n / 2))) (c1_sg n db) mp (skipn (n / 2 + length (o1 (c1_sg n db))) storage) (nofZ N 0) (c1_gain n db))) tt.
  Proof.
    intros H0 NC H I L. unfold c1_lp_design. unfold bind at 1, get. cbn [p_np p_db].
    replace (np0 =? Z.of_nat n) with false by (symmetry; apply Z.eqb_neq; exact H). cbn [negb orb].
    unfold bind at 1, modify at 1. cbn [p_gain p_db p_lay]. unfold bind at 1. unfold on_lay at 1, zoom, modify.
    destruct (c1_lp_consts (Z.of_nat n) db) as [s c] eqn:EC.
    unfold int_ub. rewrite I. cbn [or_ub]. unfold bind at 1, ret at 1. unfold on_lay, zoom, p_set_lay. cbn [p_lay p_np p_gain p_db].
    unfold c1_lp_poles. rewrite quot_nat2, odd_nat2. rewrite seq_bind. unfold bind at 1.
    set (pts := map (c1_pt n db) (seq 0 (n / 2))) in *. assert (LP : length pts = (n / 2)%nat) by (unfold pts; rewrite map_length, seq_length; reflexivity).
    change (lay_reset (MkLayout np1 mp storage w g)) with (lay mp [] storage w g).
    replace (Nat.odd n) with (match c1_sg n db with Some _ => true | None => false end) by (unfold c1_sg; destruct (Nat.odd n); reflexivity).
    rewrite <- LP. rewrite push_all.
    - unfold c1_gain, c1_sg. destruct (Nat.odd n); reflexivity.
    - exact H0.
    - intros i x l E. unfold pts in E. rewrite nth_error_map in E. destruct (nth_error (seq 0 (n / 2)) i) as [j|] eqn:Ej; [|discriminate]. inversion E; subst x. clear E.
      assert (j = i). { pose proof (nth_error_nth _ _ 0%nat Ej) as Q. rewrite seq_nth in Q; [lia|]. rewrite <- (seq_length (n / 2) 0). apply nth_error_Some. congruence. } subst j.
      unfold c1_pt. rewrite EC. reflexivity.
    - intros x l E. unfold c1_sg in E. rewrite EC in E. destruct (Nat.odd n); inversion E. reflexivity.
    - exact NC.
    - unfold c1_sg. destruct (Nat.odd n); constructor; [|constructor]. split; exact H0.
    - rewrite LP. exact L.
  Qed.
  Lemma c2_design_any n db np0 ga db0 np1 mp (storage : list (pzpair N)) w g :
    neqb N n0 n0 = true -> List.Forall nn (map (c2_pt n db) (seq 0 (n / 2)) ++ o1 (c2_sg n db)) ->
    np0 <> Z.of_nat n -> in_int (2 * Z.of_nat n) = true ->
    (n / 2 + length (o1 (c2_sg n db)) <= length storage)%nat ->
    c2_lp_design (Z.of_nat n) db (MkProto np0 ga db0 (MkLayout np1 mp storage w g)) =
    Ok (MkProto (Z.of_nat n) ga db (blay (map (c2_pt n db) (seq 0 (n / 2))) (c2_sg n db) mp (skipn (n / 2 + length (o1 (c2_sg n db))) storage) w g)) tt.
  Proof.
    intros H0 NC H I L. unfold c2_lp_design. unfold bind at 1, get. cbn [p_np p_db].
    replace (np0 =? Z.of_nat n) with false by (symmetry; apply Z.eqb_neq; exact H). cbn [negb orb].
    unfold bind at 1, modify at 1. cbn [p_gain p_db p_lay]. unfold bind at 1. unfold on_lay at 1, zoom, modify.
    destruct (c2_lp_consts (Z.of_nat n) db) as [s c] eqn:EC.
    unfold int_ub. rewrite I. cbn [or_ub]. unfold bind at 1, ret at 1. unfold on_lay, zoom, p_set_lay. cbn [p_lay p_np p_gain p_db].
    unfold c2_lp_poles. rewrite quot_nat2, odd_nat2.
    set (pts := map (c2_pt n db) (seq 0 (n / 2))) in *. assert (LP : length pts = (n / 2)%nat) by (unfold pts; rewrite map_length, seq_length; reflexivity).
    change (lay_reset (MkLayout np1 mp storage w g)) with (lay mp [] storage w g).
    replace (Nat.odd n) with (match c2_sg n db with Some _ => true | None => false end) by (unfold c2_sg; destruct (Nat.odd n); reflexivity).
    rewrite <- LP. rewrite push_all.
    - reflexivity.
    - exact H0.
    - intros i x l E. unfold pts in E. rewrite nth_error_map in E. destruct (nth_error (seq 0 (n / 2)) i) as [j|] eqn:Ej; [|discriminate]. inversion E; subst x. clear E.
      assert (j = i). { pose proof (nth_error_nth _ _ 0%nat Ej) as Q. rewrite seq_nth in Q; [lia|]. rewrite <- (seq_length (n / 2) 0). apply nth_error_Some. congruence. } subst j.
      unfold c2_pt. rewrite EC. reflexivity.
    - intros x l E. unfold c2_sg in E. rewrite EC in E. destruct (Nat.odd n); inversion E. reflexivity.
    - exact NC.
    - unfold c2_sg. destruct (Nat.odd n); constructor; [|constructor]. split; exact H0.
    - rewrite LP. exact L.
  Qed.
End Lists.
